(** Property C94: a matcher about the request alone decides on the request alone. *)
From Verif Require Import GoBase GoBaseP DefsM DefsP PolicyM PolicySpec PolicyP EffectorM MatcherDefM MatcherDefSpec MatcherDefP MatcherM MatcherSpec MatcherP MatcherP2
  RbacM RbacSpec DomainM DomainSpec EvalM ModelM ModelSpec ModelP ModelP2 ModelP3 ModelP4 ModelP5 ModelP6 EnforcerM EnforcerSpec EnforcerP
  SafeSpec SafeP FunctionsSpec FunctionsP AppSpec AppsSpec AbacSpec RequestSpec.
From Verif Require Import Prop_Effect Prop_Defs Prop_Matcher Prop_Model Prop_Enforce Prop_Query Prop_Functions Prop_App Prop_Apps Prop_Abac.
Local Open Scope list_scope.

Lemma ways_conds f w e : In w (ways_of (f_root f)) -> In e w -> In e (conds f).
Proof.
  intros Hw He. apply texts_root. exact (ways_texts _ _ _ Hw He).
Qed.

Lemma sem_ext (v v' : string -> bool) f : (forall e, In e (conds f) -> v e = v' e) -> sem v f = sem v' f.
Proof.
  induction f as [ts|f IHf g IHg|f IHf g IHg|f IHf]; cbn [conds sem]; intros H.
  - apply H. now left.
  - rewrite IHf, IHg; [reflexivity|intros e He; apply H, in_or_app; now right|intros e He; apply H, in_or_app; now left].
  - rewrite IHf, IHg; [reflexivity|intros e He; apply H, in_or_app; now right|intros e He; apply H, in_or_app; now left].
  - now apply IHf.
Qed.
Lemma blank_allows c : GetEft (cf_pd c) ("p"%string :: blank (cf_pd c)) = Allow.
Proof.
  unfold GetEft. destruct (Has _ _); [|reflexivity].
  assert (X : match GetParameter (cf_pd c) ("p"%string :: blank (cf_pd c)) (ad_key (cf_pd c) ++ "_eft")%string with Some s => s | None => ""%string end = ""%string);
    [|now rewrite X].
  unfold GetParameter. destruct (mget _ _) as [i|]; [|reflexivity]. unfold blank. cbn [List.length]. rewrite repeat_length.
  replace (Nat.ltb _ _) with true by (symmetry; apply Nat.ltb_lt; lia). cbn [nth_error].
  destruct (nth_error _ i) as [s|] eqn:Hn; [|reflexivity]. now apply nth_error_In, repeat_spec in Hn.
Qed.
Lemma some_effect_dec d ms e : some_effect d ms e \/ ~ some_effect d ms e.
Proof.
  induction ms as [|x ms [[y [Hy Hf]]|IH]]; [right; intros [x [[] _]]|left; exists y; split; [now right|exact Hf]|].
  destruct (effect_eqb (GetEft d x) e) eqn:Ex.
  - left. exists x. split; [now left|]. destruct (GetEft d x), e; try discriminate; reflexivity.
  - right. intros [y [[<-|Hy] Hf]]; [rewrite Hf in Ex; destruct e; discriminate|apply IH; exists y; auto].
Qed.

(** ** C94

    Every configuration with one policy section whose matcher is read as the
    formula [f]; every history of rules around the build; every order of map
    visits; every request [vs], with values of any type, for which the conditions
    have truth values [q] that depend on no rule.  Filter reports nothing unless
    the formula is true, and every present rule when it is.  Enforce answers the
    formula, unless rules are present and none of them allows, or one denies where
    the effect says so: which rules are present makes no other difference, and
    there need not be one. *)
Theorem C94_decides_on_the_request :
  forall E c f h,
    reads_as E c f -> app_history c h -> good_m h ->
    exists m rs, mexec E (NewModel E) h = Val (m, rs) /\
      forall o vs q, good_orders o -> about_request E c f (functions o m) vs q ->
        (exists ms, Filter E o m (map PVal vs) = Val (m, (ms, None)) /\
           (sem q f = false -> ms = []) /\
           (sem q f = true -> forall r, present h ("p"%string :: r) -> In ("p"%string :: r) ms) /\
           (forall x, In x ms -> x = "p"%string :: blank (cf_pd c) \/ exists r, x = "p"%string :: r /\ present h x)) /\
        (spells (cf_e c) "some(where (p.eft == allow))" -> some_rule c h Allow \/ no_rule h ->
           Enforce E o m (map PVal vs) = Val (m, (sem q f, None))) /\
        (spells (cf_e c) "!some(where (p.eft == deny))" ->
           exists b, Enforce E o m (map PVal vs) = Val (m, (b, None)) /\ (b = false <-> sem q f = true /\ some_rule c h Deny)) /\
        (spells (cf_e c) "some(where (p.eft == allow)) && !some(where (p.eft == deny))" -> ~ some_rule c h Indeterminate ->
           exists b, Enforce E o m (map PVal vs) = Val (m, (b, None)) /\ (b = true <-> sem q f = true /\ ~ some_rule c h Deny)).
Proof.
  intros E c f h U Ah G. destruct (app_query E c f h U Ah G) as (m & rs & h1 & h2 & Rm & Ph & Rc & AQ).
  exists m, rs. split; [exact Rm|]. intros o vs q Go Ab. destruct (AQ o vs Go) as [Q Ef]. set (F := functions o m) in *.
  assert (Ho : forall e r, In e (conds f) -> holds (e_eval E F) (cf_pd c) (cf_rd c) vs e r = q e).
  { intros e r He. unfold holds. rewrite (proj2 (proj2 (Ab e He))). now destruct (q e). }
  assert (An : answerable_conds E c f F h vs).
  { intros e He. destruct (Ab e He) as (A1 & A2 & A3). split; [|split].
    - intros r _. split; [intros x Hx; rewrite A1 in Hx; destruct Hx|split; [exact A2|rewrite A3; eauto]].
    - intros r r' _ _ _. now rewrite !A3.
    - intros _. split; [exact A2|rewrite A3; eauto]. }
  pose proof (app_sound E c f h m o vs h1 h2 Rc Ph An) as So. pose proof (query_present _ _ _ _ _ _ _ _ _ _ Q) as HP.
  destruct (C10_filter_exactly _ _ _ _ _ _ _ _ _ _ Q So) as [ms [k [HF [B [C D]]]]]. pose proof (query_decides _ _ _ _ _ _ _ _ _ _ _ Q HF) as HE.
  rewrite Ef in HE. pose proof (f_key E c f U) as Kf. rewrite Kf in B, C, HP. rewrite vals_PVal in C, D. fold F in C, D.
  assert (Sa : forall r, satisfies (e_eval E F) (cf_pd c) (cf_rd c) vs (f_root f) r = sem q f).
  { intros r. rewrite satisfies_accepts. unfold f_root. cbn [stage_children]. rewrite ptree_sem. cbn. rewrite andb_true_r.
    apply sem_ext. intros e He. now apply Ho. }
  assert (Al : forall w r, In w (ways_of (f_root f)) -> all_hold (e_eval E F) (cf_pd c) (cf_rd c) vs w r = forallb q w).
  { intros w r Hw. unfold all_hold. assert (X : forall e, In e w -> In e (conds f)) by (intros e; now apply ways_conds). clear Hw.
    induction w as [|e w IH]; [reflexivity|]. cbn. rewrite Ho, IH; [reflexivity|intros; apply X; now right|apply X; now left]. }
  assert (Hp : forall r, set_of (h1 ++ h2) r = true <-> present h ("p"%string :: r)) by exact HP.
  assert (No0 : sem q f = false -> k = 0).
  { intros Sf. destruct k as [|k]; [reflexivity|]. exfalso. destruct (proj1 D (Nat.lt_0_succ k)) as (w & Hw & pre & l & -> & Hl & Hpre).
    assert (Pr : forallb q pre = true).
    { assert (X : forall r, all_hold (e_eval E F) (cf_pd c) (cf_rd c) vs pre r = forallb q pre).
      { intros r. unfold all_hold. assert (X : forall e, In e pre -> In e (conds f)) by (intros e He; apply (ways_conds f _ e Hw), in_or_app; now left).
        clear -Ho X. induction pre as [|e w IH]; [reflexivity|]. cbn. rewrite Ho, IH; [reflexivity|intros; apply X; now right|apply X; now left]. }
      destruct Hpre as [[_ H]|(r & _ & H & _)]; now rewrite X in H. }
    rewrite Ho in Hl by (apply (ways_conds f _ l Hw), in_or_app; right; now left).
    rewrite <- (Sa (blank (cf_pd c))) in Sf. unfold satisfies in Sf.
    assert (Y : existsb (fun w => all_hold (e_eval E F) (cf_pd c) (cf_rd c) vs w (blank (cf_pd c))) (ways_of (f_root f)) = true); [|congruence].
    apply existsb_exists. exists (pre ++ [l]). split; [exact Hw|]. rewrite Al by exact Hw. rewrite forallb_app, Pr. cbn. now rewrite Hl. }
  assert (In_ms : forall r, In ("p"%string :: r) ms <-> (set_of (h1 ++ h2) r = true /\ sem q f = true) \/ (r = blank (cf_pd c) /\ 0 < k)).
  { intros r. rewrite occ_In, C. destruct (set_of (h1 ++ h2) r) eqn:Es, (rule_eqb_spec r (blank (cf_pd c))) as [Er|Er].
    - rewrite <- Sa with r, <- times_satisfies. split; [intros H|intros [[_ H]|[_ H]]; lia].
      destruct k; [left; split; [reflexivity|lia]|right; split; [exact Er|lia]].
    - rewrite Nat.add_0_r, times_satisfies, Sa. intuition.
    - cbn. intuition congruence.
    - cbn. intuition (try lia; try congruence). }
  assert (Bl : no_rule h -> sem q f = true -> 0 < k).
  { intros Nr St. apply D. rewrite <- (Sa (blank (cf_pd c))) in St. unfold satisfies in St. apply existsb_exists in St as [w [Hw Hh]].
    exists w. split; [exact Hw|]. destruct (ways_ptree f [] w Hw) as (w1 & w2 & E1 & (pre & l & -> & Hl) & [[_ ->]|[]]). rewrite app_nil_r in E1. subst w.
    unfold all_hold in Hh. rewrite forallb_app in Hh. apply andb_true_iff in Hh as [H1 H2]. cbn in H2. rewrite andb_true_r in H2.
    exists pre, l. split; [reflexivity|]. split; [exact H2|]. destruct (some_recorded h1 h2) as [[r Hr]|X]; [right; exists r|left]; (split; [assumption|]).
    - split; [|intros r' Hr'; apply Hp in Hr'; now apply Nr in Hr'].
      unfold all_hold. rewrite forallb_forall in H1 |- *. intros e He. rewrite <- (H1 e He), !Ho; [reflexivity|apply (ways_conds f _ e Hw), in_or_app; now left..].
    - exact H1. }
  assert (Only : forall x, In x ms -> x = "p"%string :: blank (cf_pd c) \/ exists r, x = "p"%string :: r /\ present h x).
  { intros x Hx. destruct (B x Hx) as [r ->]. apply In_ms in Hx as [[H _]|[-> _]]; [right; exists r; split; [reflexivity|now apply Hp]|now left]. }
  assert (Empty : sem q f = false -> ms = []).
  { intros Sf. destruct ms as [|x ms]; [reflexivity|]. exfalso. destruct (B x (or_introl eq_refl)) as [r ->].
    destruct (proj1 (In_ms r) (or_introl eq_refl)) as [[_ H]|[_ H]]; [congruence|]. rewrite (No0 Sf) in H. lia. }
  assert (All : sem q f = true -> forall r, present h ("p"%string :: r) -> In ("p"%string :: r) ms).
  { intros St r Hr. apply In_ms. left. split; [now apply Hp|exact St]. }
  assert (Some_not : forall e, e <> Allow -> (some_effect (cf_pd c) ms e <-> sem q f = true /\ some_rule c h e)).
  { intros e He. unfold some_effect. split.
    - intros [x [Hx Hf]]. destruct (sem q f) eqn:St; [|rewrite (Empty eq_refl) in Hx; destruct Hx]. split; [reflexivity|].
      destruct (Only x Hx) as [->|[r [-> Hr]]]; [rewrite blank_allows in Hf; congruence|exists r; auto].
    - intros [St [r [Hr Hf]]]. exists ("p"%string :: r). split; [now apply All|exact Hf]. }
  assert (Some_allow : some_effect (cf_pd c) ms Allow -> sem q f = true).
  { intros [x [Hx _]]. destruct (sem q f) eqn:St; [reflexivity|]. rewrite (Empty eq_refl) in Hx. destruct Hx. }
  assert (Allows : some_rule c h Allow \/ no_rule h -> sem q f = true -> some_effect (cf_pd c) ms Allow).
  { intros [[r [Hr Hf]]|Nr] St; [exists ("p"%string :: r); split; [now apply All|exact Hf]|].
    exists ("p"%string :: blank (cf_pd c)). split; [apply In_ms; right; auto|apply blank_allows]. }
  split; [exists ms; auto|]. split; [|split].
  - intros Sp Hx. destruct (C18_allow_override _ (cf_pd c) ms Sp) as [b [Hb Hi]]. rewrite Hb in HE. rewrite HE. assert (X : b = sem q f); [|now rewrite X].
    destruct (sem q f) eqn:St; [apply Hi; auto|]. destruct b; [|reflexivity]. symmetry. now apply Some_allow, Hi.
  - intros Sp. destruct (C19_deny_override _ (cf_pd c) ms Sp) as [b [Hb Hi]]. rewrite Hb in HE. exists b. split; [exact HE|].
    rewrite <- Some_not by discriminate. destruct (some_effect_dec (cf_pd c) ms Deny) as [X|X], b; intuition congruence.
  - intros Sp Ni. assert (Ni' : ~ some_effect (cf_pd c) ms Indeterminate) by (rewrite Some_not by discriminate; tauto).
    destruct (C20_allow_and_no_deny_partial _ (cf_pd c) ms Sp Ni') as [b [Hb Hi]]. rewrite Hb in HE. exists b. split; [exact HE|].
    rewrite Hi, (Some_not Deny) by discriminate. split; [intros [X Y]; apply Some_allow in X; tauto|intros [St Nd]]. split; [|tauto].
    apply Allows; [|exact St]. destruct (some_set (h1 ++ h2)) as [[r Hr]|Nr]; [left; exists r|right; intros r Hr; apply Hp in Hr; congruence].
    apply Hp in Hr. split; [exact Hr|]. destruct (GetEft (cf_pd c) ("p"%string :: r)) eqn:Er; [reflexivity|destruct Ni|destruct Nd]; exists r; auto.
Qed.
Print Assumptions C94_decides_on_the_request.

(** The configurations of abac_model.conf and abac_not_using_policy_model.conf:
    the matcher compares the subject with the owner of the object.  Subjects and
    objects are values of the program; object 10 + n is owned by subject n. *)
Definition owner_config : config :=
  mkCfg "sub, obj, act" "sub, obj, act" None "some(where (p.eft == allow))" "r.sub == r.obj.Owner".
Definition owner_and_config : config :=
  mkCfg "sub, obj, act" "sub, obj, act, eft" None "some(where (p.eft == allow)) && !some(where (p.eft == deny))" "r.sub == r.obj.Owner".
Definition owner_tokens : list token := [mkTok KOther "r_sub"; mkTok KOther "=="; mkTok KOther "r_obj.Owner"]%string.
Definition owner_form : form := FAtom owner_tokens.
Definition owner_text : string := tokensToExpr owner_tokens.
Definition owns (sub obj : value) : bool := match sub, obj with VObj n, VObj k => Nat.eqb k (10 + n) | _, _ => false end.
Definition owner_ev : evaluator :=
  mkEvaluator (fun e => String.eqb e owner_text)
    (fun e get => if String.eqb e owner_text then
                    match get "r_sub"%string, get "r_obj"%string with
                    | Val (Some s), Val (Some o) => Val (inl (VBool (owns s o)))
                    | _, _ => Panic
                    end
                  else Panic).
Definition owner_env : env :=
  mkEnv (fun n => n) (fun fns s => if String.eqb s "r_sub == r_obj.Owner" then Some (written owner_form) else None) (fun _ => owner_ev) [].
Lemma owner_reads c : cf_m c = "r.sub == r.obj.Owner"%string -> reads_as owner_env c owner_form.
Proof.
  intros Em. constructor; rewrite ?Em.
  - intros fns _ _. reflexivity.
  - intros fns. now left.
  - apply atom_checked. reflexivity.
  - exact I.
  - reflexivity.
  - reflexivity.
  - intros e x [<-|[]] Hx. vm_compute in Hx. destruct Hx.
Qed.
Lemma owner_about c F s o a : cf_r c = "sub, obj, act"%string -> about_request owner_env c owner_form F [s; o; a] (fun _ => owns s o).
Proof.
  intros Er e [<-|[]]. split; [reflexivity|]. split; [reflexivity|]. intros r. unfold cf_rd. rewrite Er. reflexivity.
Qed.

Definition owner_h : list (orders * mcall) := app_h owner_config
  [CAdd ["p"; "alice"; "data1"; "read"]]%string [CAdd ["p"; "bob"; "data2"; "write"]; CRemove ["p"; "alice"; "data1"; "read"]]%string.
Definition owner_h0 : list (orders * mcall) := app_h owner_config [] [].
Definition owner_and_h : list (orders * mcall) := app_h owner_and_config
  [CAdd ["p"; "alice"; "data1"; "read"; "allow"]]%string [CAdd ["p"; "bob"; "data2"; "write"; "deny"]]%string.
Definition ask_vals (E : env) (h : list (orders * mcall)) (vs : list value) : outcome (bool * option goerr) :=
  let! (m, _) := mexec E (NewModel E) h in let! (_, r) := Enforce E ex_rev m (map PVal vs) in Val r.
Example C94_ex :
  reads_as owner_env owner_config owner_form /\ reads_as owner_env owner_and_config owner_form /\
  app_history owner_config owner_h /\ good_m owner_h /\ app_history owner_config owner_h0 /\ good_m owner_h0 /\
  app_history owner_and_config owner_and_h /\ good_m owner_and_h /\
  (forall F s o a, about_request owner_env owner_config owner_form F [s; o; a] (fun _ => owns s o)) /\
  ask_vals owner_env owner_h [VObj 1; VObj 11; VStr "read"] = Val (true, None) /\
  ask_vals owner_env owner_h [VObj 1; VObj 12; VStr "read"] = Val (false, None) /\
  ask_vals owner_env owner_h0 [VObj 1; VObj 11; VStr "read"] = Val (true, None) /\
  ask_vals owner_env owner_h0 [VObj 1; VObj 12; VStr "read"] = Val (false, None) /\
  ask_vals owner_env owner_and_h [VObj 1; VObj 11; VStr "read"] = Val (false, None).
Proof.
  split; [now apply owner_reads|]. split; [now apply owner_reads|].
  split; [apply app_h_app; call_tac|]. split; [apply app_h_good|]. split; [apply app_h_app; call_tac|]. split; [apply app_h_good|].
  split; [apply app_h_app; call_tac|]. split; [apply app_h_good|].
  split; [intros; now apply owner_about|]. repeat split; vm_compute; reflexivity.
Qed.

(** The hypothesis on the effects cannot be dropped: two conditions about the
    request, effect some(where (p.eft == allow)), one rule present, which denies.
    The request is denied; after another rule was added and removed again it is
    allowed. *)
Definition two_config : config :=
  mkCfg "sub, obj, act" "sub, obj, act, eft" None "some(where (p.eft == allow))" "r.sub == r.obj.Owner && r.sub == r.obj.Owner".
Definition two_form : form := FAnd owner_form owner_form.
Definition two_env : env :=
  mkEnv (fun n => n) (fun fns s => if String.eqb s "r_sub == r_obj.Owner && r_sub == r_obj.Owner" then Some (written two_form) else None) (fun _ => owner_ev) [].
Definition two_h (l : list mcall) : list (orders * mcall) := app_h two_config [] (CAdd ["p"; "bob"; "data2"; "write"; "deny"]%string :: l).
Theorem C94_effect_needed_refuted :
  ~ (forall E c f h h', reads_as E c f -> app_history c h -> good_m h -> app_history c h' -> good_m h' ->
       (forall r, present h ("p"%string :: r) <-> present h' ("p"%string :: r)) -> spells (cf_e c) "some(where (p.eft == allow))" ->
       forall vs, (forall F, exists q, about_request E c f F vs q) -> ask_vals E h vs = ask_vals E h' vs).
Proof.
  intros H. pose (d := ["bob"; "data2"; "write"; "deny"]%string). pose (x := ["eve"; "data1"; "read"; "allow"]%string).
  specialize (H two_env two_config two_form (two_h []) (two_h [CAdd ("p"%string :: x); CRemove ("p"%string :: x)])).
  assert (R : reads_as two_env two_config two_form).
  { constructor.
    - intros fns _ _. reflexivity.
    - intros fns. now left.
    - split; apply atom_checked; reflexivity.
    - cbn. auto.
    - reflexivity.
    - reflexivity.
    - intros e y [<-|[<-|[]]] Hy; vm_compute in Hy; destruct Hy. }
  assert (P0 : p_history "p" (two_h []) = Some [PAdd d]) by reflexivity.
  assert (P1 : p_history "p" (two_h [CAdd ("p"%string :: x); CRemove ("p"%string :: x)]) = Some [PAdd d; PAdd x; PRemove x]) by reflexivity.
  assert (Ps : forall h ops r, p_history "p" h = Some ops -> (present h ("p"%string :: r) <-> set_of ops r = true)).
  { intros h ops r Hh. unfold present. split.
    - intros [[_ [ops' [Ho Hr]]]|[Hg _]]; [congruence|discriminate Hg].
    - intros Hr. left. split; [reflexivity|]. eauto. }
  refine (_ (H R _ _ _ _ _ eq_refl [VObj 1; VObj 11; VStr "read"] _)).
  - vm_compute. discriminate.
  - apply app_h_app; call_tac.
  - apply app_h_good.
  - apply app_h_app; call_tac.
  - apply app_h_good.
  - intros r. rewrite (Ps _ _ _ P0), (Ps _ _ _ P1). unfold set_of. unfold fold_left, set_step, set_remove, set_add, set_empty.
    destruct (rule_eqb_spec r d) as [Ed|N1], (rule_eqb_spec r x) as [Ex|N2]; cbn; try tauto; subst r; discriminate Ex.
  - intros F. exists (fun _ => true). intros e [<-|[<-|[]]]; (split; [reflexivity|]); (split; [reflexivity|]); intros r; reflexivity.
Qed.
Print Assumptions C94_effect_needed_refuted.
