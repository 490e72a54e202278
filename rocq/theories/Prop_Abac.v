(** Properties C83 and C84: what rules with a condition and access control lists
    with a super user decide, from rules to Enforce. *)
From Verif Require Import GoBase GoBaseP DefsM DefsP PolicyM PolicySpec PolicyP EffectorM MatcherDefM MatcherDefSpec MatcherDefP MatcherM MatcherSpec MatcherP MatcherP2
  RbacM RbacSpec DomainM DomainSpec EvalM ModelM ModelSpec ModelP ModelP2 ModelP3 ModelP4 ModelP5 ModelP6 EnforcerM EnforcerSpec EnforcerP
  SafeSpec SafeP FunctionsSpec FunctionsP AppSpec AppsSpec AbacSpec.
From Verif Require Import Prop_Effect Prop_Defs Prop_Matcher Prop_Model Prop_Enforce Prop_Query Prop_Functions Prop_App Prop_Apps.
Local Open Scope list_scope.

(** ** C83: rules with a condition

    Every history of rules around the build and every order of map visits, with at
    least one policy rule present; every request whose subject is any value, whose
    action is not empty and about which every condition ever added says yes or no.
    Enforce allows exactly the requests for which some present rule for the object
    and action has a condition that says yes, and Filter reports those rules. *)
Lemma abac_atoms : Forall atom_ok [eval_tokens; eq_tokens "obj"; eq_tokens "act"].
Proof. repeat (apply Forall_cons; [apply atom_checked; vm_compute; reflexivity|]). apply Forall_nil. Qed.
Lemma abac_texts : map tokensToExpr [eval_tokens; eq_tokens "obj"; eq_tokens "act"] = [eval_text; eq_text "obj"; eq_text "act"].
Proof. vm_compute. reflexivity. Qed.

Theorem C83_rules_with_a_condition :
  forall E h,
    reads_tokens E abac_config abac_form -> evals E -> Forall (compares E) ["obj"; "act"]%string ->
    app_history abac_config h -> good_m h -> (exists r, present h ("p"%string :: r)) ->
    exists m rs, mexec E (NewModel E) h = Val (m, rs) /\
      forall o sub obj act, good_orders o -> act <> ""%string ->
        let vs := [sub; VStr obj; VStr act] in let F := functions o m in
        (forall t obj' act', added h [t; obj'; act'] -> exists b, says E F vs t b) ->
        (exists ms, Filter E o m (map PVal vs) = Val (m, (ms, None)) /\
           forall y, In y ms <-> present h y /\ exists t, y = ["p"; t; obj; act]%string /\ says E F vs t true) /\
        exists b, Enforce E o m (map PVal vs) = Val (m, (b, None)) /\
          (b = true <-> exists t, present h ["p"; t; obj; act]%string /\ says E F vs t true).
Proof.
  intros E h Rt Ee Cm Ah G [r0 Hr0]. set (f := abac_form). set (c := abac_config) in *.
  assert (R : reads_as E c f).
  { apply all_of_reads; [exact Rt|exact abac_atoms|]. intros e z He Hz. rewrite abac_texts in He.
    destruct He as [<-|[<-|[<-|[]]]]; vm_compute in Hz; destruct Hz as [<-|[]]; now eexists. }
  destruct (C75_decides_by_meaning E c f h R Ah G) as (m & rs & Hm & D). exists m, rs. split; [exact Hm|].
  intros o sub obj act Go Ha vs F Sy.
  assert (Co : compares E "obj") by exact (Forall_inv Cm).
  assert (Ct : compares E "act") by exact (Forall_inv (Forall_inv_tail Cm)).
  destruct (Ee F) as [Pe Ve]. destruct (Co F) as (Po & No & Eo). destruct (Ct F) as (Pt & Nt & Et).
  assert (Vo : forall a b t, ev (e_eval E F) (eq_text "obj") (ParamGet (cf_pd c) [a; b; t] (cf_rd c) vs) = Val (inl (VBool (String.eqb obj b))))
    by (intros; apply Eo; reflexivity).
  assert (Vt : forall a b t, ev (e_eval E F) (eq_text "act") (ParamGet (cf_pd c) [a; b; t] (cf_rd c) vs) = Val (inl (VBool (String.eqb act t))))
    by (intros; apply Et; reflexivity).
  assert (Vs : forall a b t v, says E F vs a v -> ev (e_eval E F) eval_text (ParamGet (cf_pd c) [a; b; t] (cf_rd c) vs) = Val (inl (VBool v))).
  { intros a b t v [P S]. rewrite (Ve _ a); [apply S|reflexivity|exact P]. }
  assert (Three : forall r, fits c r -> exists a b t, r = [a; b; t]).
  { intros r [_ L]. change (List.length (ad_args (cf_pd c))) with 3 in L. destruct r as [|a [|b [|t [|]]]]; try discriminate. eauto. }
  assert (An : answerable E c f F h vs).
  { split.
    - intros e He. unfold f, abac_form in He. rewrite all_of_conds, abac_texts in He.
      assert (HV : forall r, added h r -> has_values (cf_pd c) e r /\ evaluates (e_eval E F) (cf_pd c) (cf_rd c) vs e r).
      { intros r Hr. destruct (Three r (added_fits c h r Ah Hr)) as (a & b & t & ->). split.
        - intros z Hz. destruct He as [<-|[<-|[<-|[]]]]; vm_compute in Hz; destruct Hz as [<-|[]]; discriminate.
        - destruct (Sy a b t Hr) as [v Hv]. destruct He as [<-|[<-|[<-|[]]]]; (split; [assumption|]); [rewrite (Vs _ _ _ v Hv)|rewrite Vo|rewrite Vt]; eauto. }
      split; [exact HV|]. split.
      + destruct He as [<-|[<-|[<-|[]]]]; [|apply named_own; [intros r Hr; now apply HV|assumption]..].
        intros r r' Hr Hr' Hsame. destruct (Three r (added_fits c h r Ah Hr)) as (a & b & t & ->). destruct (Three r' (added_fits c h r' Ah Hr')) as (a' & b' & t' & ->).
        vm_compute in Hsame. injection Hsame as <-. destruct (Sy a b t Hr) as [v Hv]. now rewrite !(Vs _ _ _ v Hv).
      + intros [Hl|Hn]; [|now destruct (Hn r0)]. unfold f, abac_form in Hl. rewrite all_of_lasts in Hl. destruct Hl as [<-|[]]. split; [exact Pt|].
        change (tokensToExpr (last [eq_tokens "obj"; eq_tokens "act"] eval_tokens)) with (eq_text "act").
        change (blank (cf_pd c)) with [""; ""; ""]%string. rewrite Vt. eauto.
    - intros e He. unfold f, abac_form in He. rewrite all_of_lasts in He. destruct He as [<-|[]].
      change (tokensToExpr (last [eq_tokens "obj"; eq_tokens "act"] eval_tokens)) with (eq_text "act").
      unfold holds. change (blank (cf_pd c)) with [""; ""; ""]%string. rewrite Vt. destruct (String.eqb_spec act ""); [contradiction|reflexivity]. }
  assert (Ft : forall r, present h ("p"%string :: r) -> exists a b t, r = [a; b; t] /\ exists v, says E F vs a v).
  { intros r Hr. destruct (Three r (app_fits c h r Ah Hr)) as (a & b & t & ->). exists a, b, t. split; [reflexivity|]. apply (Sy a b t). now apply present_added. }
  assert (Me : forall a b t v, says E F vs a v -> (meaning E c f F vs [a; b; t] = true <-> v = true /\ b = obj /\ t = act)).
  { intros a b t v Hv. unfold meaning, f, abac_form. rewrite all_of_sem, abac_texts. cbn [forallb]. unfold holds. rewrite (Vs _ _ _ v Hv), Vo, Vt.
    destruct v, (String.eqb_spec obj b), (String.eqb_spec act t); cbn; intuition congruence. }
  destruct (D o vs Go An) as ((ms & HF & Hms) & Hal & _). split.
  - exists ms. split; [exact HF|]. intros y. rewrite Hms. split.
    + intros [r [-> [Hp Hr]]]. destruct (Ft r Hp) as (a & b & t & -> & v & Hv). apply (Me _ _ _ _ Hv) in Hr as [-> [-> ->]]. split; [exact Hp|]. now exists a.
    + intros [Hp [t [-> Ht]]]. exists [t; obj; act]. split; [reflexivity|]. split; [exact Hp|]. now apply (Me _ _ _ _ Ht).
  - destruct (Hal eq_refl) as [b [HE Hb]]. exists b. split; [exact HE|]. rewrite Hb. split.
    + intros [r [Hp [Hr _]]]. destruct (Ft r Hp) as (a & b0 & t & -> & v & Hv). apply (Me _ _ _ _ Hv) in Hr as [-> [-> ->]]. now exists a.
    + intros [t [Hp Ht]]. exists [t; obj; act]. split; [exact Hp|]. split; [now apply (Me _ _ _ _ Ht)|]. apply C23_no_effect_column. vm_compute. intuition discriminate.
Qed.
Print Assumptions C83_rules_with_a_condition.

(** An evaluator that reads this matcher, and a history: alice reads data1 and
    everyone but eve writes data2; dave's right is added and revoked. *)
Definition abac_ev (e : string) (get : params) : outcome (value + goerr) :=
  if String.eqb e eval_text then
    match get "p_sub_rule"%string with
    | Val (Some (VStr t)) => mini_ev [] 3 (arg_replace t) get
    | Val (Some _) => Panic
    | Val None => Val (inr ErrEval)
    | Panic => Panic
    end
  else mini_ev [] 3 e get.
Definition abac_env : env :=
  mkEnv (fun n => n) (e_parse (app_env abac_config abac_form)) (fun _ => mkEvaluator (mini_parses []) abac_ev) [].
Lemma abac_evals : evals abac_env.
Proof.
  intros F. split; [reflexivity|]. intros get t Ht P. cbn [e_eval abac_env ev]. unfold abac_ev. rewrite String.eqb_refl, Ht.
  destruct (String.eqb_spec (arg_replace t) eval_text) as [->|]; reflexivity.
Qed.
Lemma abac_cmp : Forall (compares abac_env) ["obj"; "act"]%string.
Proof. repeat (apply Forall_cons; [cmp_tac|]). apply Forall_nil. Qed.
Definition abac_h : list (orders * mcall) := app_h abac_config
  [CAdd ["p"; "r.sub == 'dave'"; "data1"; "read"]; CAdd ["p"; "r.sub == 'alice'"; "data1"; "read"]]%string
  [CAdd ["p"; "r.sub != 'eve'"; "data2"; "write"]; CRemove ["p"; "r.sub == 'dave'"; "data1"; "read"]]%string.
Lemma abac_says sub v F obj act : In sub ["r.sub == 'dave'"; "r.sub == 'alice'"; "r.sub != 'eve'"]%string ->
  exists b, says abac_env F [VStr v; obj; act] sub b.
Proof.
  intros [<-|[<-|[<-|[]]]]; eexists; (split; [reflexivity|]); intros o a; reflexivity.
Qed.
Example C83_ex :
  reads_tokens abac_env abac_config abac_form /\ evals abac_env /\ Forall (compares abac_env) ["obj"; "act"]%string /\
  app_history abac_config abac_h /\ good_m abac_h /\ (exists r, present abac_h ("p"%string :: r)) /\
  (forall F v o a t obj' act', added abac_h [t; obj'; act'] -> exists b, says abac_env F [VStr v; o; a] t b) /\
  ask abac_env abac_h ["alice"; "data1"; "read"]%string = Val (true, None) /\ ask abac_env abac_h ["dave"; "data1"; "read"]%string = Val (false, None) /\
  ask abac_env abac_h ["dave"; "data2"; "write"]%string = Val (true, None) /\ ask abac_env abac_h ["eve"; "data2"; "write"]%string = Val (false, None).
Proof.
  split; [apply app_env_reads|]. split; [exact abac_evals|]. split; [exact abac_cmp|]. split; [apply app_h_app; call_tac|]. split; [apply app_h_good|].
  split; [exists ["r.sub == 'alice'"; "data1"; "read"]%string; left; split; [reflexivity|]; eexists; split; vm_compute; reflexivity|].
  split; [|repeat split; vm_compute; reflexivity].
  intros F v o a t obj' act' Ht. apply abac_says. unfold added in Ht. cbn in Ht.
  repeat (destruct Ht as [Ht|Ht]; [try discriminate Ht; injection Ht as <- <- <-; cbn; auto|]). destruct Ht.
Qed.

(** Without the restriction the decision is wrong: a condition that speaks of
    another column of its rule is evaluated for one of the rules with that text and
    the result is used for all of them.  Here two rules let the owner of an object
    read it, and one owner is refused. *)
Definition own_h : list (orders * mcall) := app_h abac_config
  [CAdd ["p"; "r.sub == p.obj"; "alice"; "read"]; CAdd ["p"; "r.sub == p.obj"; "bob"; "read"]]%string [].
Theorem C83_other_columns_refuted :
  ~ (forall E h,
       reads_tokens E abac_config abac_form -> evals E -> Forall (compares E) ["obj"; "act"]%string ->
       app_history abac_config h -> good_m h ->
       forall m rs o sub t obj act, mexec E (NewModel E) h = Val (m, rs) -> good_orders o ->
         let vs := [VStr sub; VStr obj; VStr act] in
         present h ["p"; t; obj; act]%string ->
         ev (e_eval E (functions o m)) (arg_replace t) (ParamGet (cf_pd abac_config) [t; obj; act] (cf_rd abac_config) vs) = Val (inl (VBool true)) ->
         Enforce E o m (map PVal vs) = Val (m, (true, None))).
Proof.
  intros H. destruct (mexec abac_env (NewModel abac_env) own_h) as [[m rs]|] eqn:Em; [|vm_compute in Em; discriminate].
  assert (Ah : app_history abac_config own_h) by (apply app_h_app; call_tac).
  assert (A : ask abac_env own_h ["alice"; "alice"; "read"]%string = Val (false, None)) by (vm_compute; reflexivity).
  unfold ask in A. rewrite Em in A. cbn [obind map] in A.
  specialize (H abac_env own_h (app_env_reads _ _) abac_evals abac_cmp Ah (app_h_good _ _ _) m rs ex_rev "alice"%string "r.sub == p.obj"%string "alice"%string "read"%string
                Em ex_rev_good). cbn [map] in H. rewrite H in A; [discriminate| |reflexivity].
  left. split; [reflexivity|]. eexists. split; vm_compute; reflexivity.
Qed.
Print Assumptions C83_other_columns_refuted.

(** ** C84: access control lists with a super user

    Any number of distinct columns, the same in requests and rules, compared one by
    one, or else a condition about the request alone; every history of rules around
    the build; every order of map visits.  A request whose last value is not empty
    is allowed exactly when the condition holds for it or the rule with its values
    is present: a super user is never locked out, whatever rules exist, come or go,
    and no one else gains from them. *)
Lemma forall2_at {A B} (R : A -> B -> Prop) : forall l l', List.length l = List.length l' ->
  (forall n a b, nth_error l n = Some a -> nth_error l' n = Some b -> R a b) -> Forall2 R l l'.
Proof.
  induction l as [|a l IH]; intros [|b l'] L H; try discriminate L; constructor; [exact (H 0 a b eq_refl eq_refl)|].
  apply IH; [now injection L|]. intros n. exact (H (S n)).
Qed.
Definition adds_in (h : list pop) : list rule := flat_map (fun o => match o with PAdd r => [r] | _ => [] end) h.
Lemma adds_in_In h r : In (PAdd r) h -> In r (adds_in h).
Proof. intros H. apply in_flat_map. exists (PAdd r). split; [exact H|now left]. Qed.
Lemma some_set h : (exists r, set_of h r = true) \/ forall r, set_of h r = false.
Proof.
  destruct (existsb (set_of h) (adds_in h)) eqn:Ex; [left; apply existsb_exists in Ex as [r [_ Hr]]; eauto|right].
  intros r. destruct (set_of h r) eqn:Hr; [|reflexivity]. exfalso.
  assert (Hi : In r (adds_in h)) by (apply adds_in_In; rewrite <- (app_nil_r h); now apply recorded_adds).
  assert (Y : existsb (set_of h) (adds_in h) = true) by (apply existsb_exists; eauto). congruence.
Qed.
Lemma some_recorded h1 : forall h2, (exists r, recorded h1 h2 r) \/ forall r, ~ recorded h1 h2 r.
Proof.
  induction h2 as [|o h IH] using rev_ind.
  - destruct (some_set h1) as [[r Hr]|No]; [left; now exists r|right]. intros r Hr. unfold recorded in Hr. cbn in Hr. rewrite No in Hr. discriminate.
  - assert (Ex : recorded h1 (h ++ [o]) = recorded_step (recorded h1 h) o) by (unfold recorded; now rewrite fold_left_app). rewrite Ex.
    destruct o as [r|r|]; cbn [recorded_step]; [left; exists r; now left|exact IH|right; auto].
Qed.
Theorem C84_super_user :
  forall E c x xs ts su h,
    superuser E c x xs ts su -> app_history c h -> good_m h ->
    exists m rs, mexec E (NewModel E) h = Val (m, rs) /\
      forall o vals, good_orders o -> List.length vals = List.length (x :: xs) -> last vals ""%string <> ""%string ->
        exists b, Enforce E o m (map (fun v => PVal (VStr v)) vals) = Val (m, (b, None)) /\
          (b = true <-> su vals = true \/ present h ("p"%string :: vals)).
Proof.
  intros E c x xs ts su h A Ah G. set (f := FOr (all_of (eq_tokens x) (map eq_tokens xs)) (FAtom ts)).
  assert (Tx : map tokensToExpr (eq_tokens x :: map eq_tokens xs) = map eq_text (x :: xs)) by exact (eq_map (x :: xs)).
  assert (Pl : forall y, In y (x :: xs) -> p_args (eq_text y) = [("p_" ++ y)%string]).
  { pose proof (su_plain _ _ _ _ _ _ A) as X. rewrite Forall_forall in X. exact X. }
  assert (Cs : forall e, In e (conds f) <-> In e (map eq_text (x :: xs)) \/ e = tokensToExpr ts).
  { intros e. unfold f. cbn [conds]. rewrite in_app_iff, all_of_conds, Tx. cbn [In]. intuition. }
  assert (R : reads_as E c f).
  { destruct (all_of_shape (eq_tokens x) (map eq_tokens xs)) as (O1 & O2 & Fa & P & Al & An). destruct (su_m _ _ _ _ _ _ A) as [R1 R2].
    constructor; try exact R1; try exact R2.
    - split; [|apply A]. apply all_of_atoms. change (eq_tokens x :: map eq_tokens xs) with (map eq_tokens (x :: xs)).
      apply Forall_map, Forall_forall. intros y _. apply eq_atom.
    - cbn. auto.
    - cbn [faithful f]. now rewrite Fa.
    - unfold two_way, f. cbn [alternatives and_narrow]. now rewrite Al, An.
    - intros e z He Hz. apply Cs in He as [He| ->]; [|rewrite (su_names _ _ _ _ _ _ A) in Hz; destruct Hz].
      apply in_map_iff in He as [y [<- Hy]]. rewrite (Pl y Hy) in Hz. destruct Hz as [<-|[]]. eauto. }
  destruct (app_query E c f h R Ah G) as (m & rs & h1 & h2 & Hm & Ph & Rc & AQ). exists m, rs. split; [exact Hm|].
  intros o vals Go Lv Hl. rewrite <- request_vals.
  assert (Lp : List.length (ad_args (cf_pd c)) = List.length (x :: xs)) by (change (ad_args (cf_pd c)) with (columns (cf_p c)); now rewrite (su_p _ _ _ _ _ _ A)).
  assert (Lr : List.length (ad_args (cf_rd c)) = List.length (x :: xs)) by (change (ad_args (cf_rd c)) with (columns (cf_r c)); now rewrite (su_r _ _ _ _ _ _ A)).
  assert (Np : NoDup (columns (cf_p c))) by (rewrite (su_p _ _ _ _ _ _ A); apply A).
  assert (Nr : NoDup (columns (cf_r c))) by (rewrite (su_r _ _ _ _ _ _ A); apply A).
  set (F := functions o m) in *.
  assert (Cm : forall y, In y (x :: xs) -> compares E y) by (apply Forall_forall; apply A).
  assert (Val_of : forall r n y a b, List.length r = List.length (x :: xs) -> nth_error (x :: xs) n = Some y -> nth_error vals n = Some a -> nth_error r n = Some b ->
            ev (e_eval E F) (eq_text y) (ParamGet (cf_pd c) r (cf_rd c) (map VStr vals)) = Val (inl (VBool (String.eqb a b)))).
  { intros r n y a b L Hy Ha Hb. eapply (eq_value E c F r vals y n n); try eassumption; try congruence.
    - apply Cm. eapply nth_error_In; eauto.
    - now rewrite (su_p _ _ _ _ _ _ A).
    - now rewrite (su_r _ _ _ _ _ _ A). }
  assert (At : forall (l : list string) n y, List.length l = List.length (x :: xs) -> nth_error (x :: xs) n = Some y -> exists a, nth_error l n = Some a).
  { intros l n y L Hy. destruct (nth_error l n) eqn:X; [eauto|]. apply nth_error_None in X. assert (n < List.length (x :: xs)) by (apply nth_error_Some; congruence). lia. }
  destruct (su_cond _ _ _ _ _ _ A F) as [Ps Vs0].
  assert (Vs : forall r, ev (e_eval E F) (tokensToExpr ts) (ParamGet (cf_pd c) r (cf_rd c) (map VStr vals)) = Val (inl (VBool (su vals)))).
  { intros r. apply Vs0. apply forall2_at; [symmetry; exact Lv|]. intros n y a Hy Ha. eapply get_r; eauto; [congruence|now rewrite (su_r _ _ _ _ _ _ A)]. }
  assert (An : answerable_conds E c f F h (map VStr vals)).
  { assert (HV : forall e r, In e (conds f) -> List.length r = List.length (x :: xs) -> has_values (cf_pd c) e r /\ evaluates (e_eval E F) (cf_pd c) (cf_rd c) (map VStr vals) e r).
    { intros e r He L. apply Cs in He as [He| ->].
      - apply in_map_iff in He as [y [<- Hy]]. destruct (Cm y Hy F) as (Pa & Na & _).
        destruct (In_nth_error _ _ Hy) as [n Hn]. destruct (At r n y L Hn) as [b Hb]. destruct (At vals n y Lv Hn) as [a Ha]. split.
        + intros z Hz. rewrite (Pl y Hy) in Hz. destruct Hz as [<-|[]]. rewrite (col_rule c r n y Np) by (rewrite ?(su_p _ _ _ _ _ _ A); congruence). congruence.
        + split; [exact Pa|]. rewrite (Val_of r n y a b L Hn Ha Hb). eauto.
      - split; [intros z Hz; rewrite (su_names _ _ _ _ _ _ A) in Hz; destruct Hz|]. split; [exact Ps|]. rewrite Vs. eauto. }
    assert (Fl : forall r, added h r -> List.length r = List.length (x :: xs)) by (intros r Hr; rewrite <- Lp; now apply (added_fits c h r Ah)).
    intros e He. split; [intros r Hr; now apply HV, Fl|]. split; [|intros _; apply HV; [exact He|unfold blank; now rewrite repeat_length]].
    apply Cs in He as [He| ->].
    - apply named_own; [intros r Hr; apply HV; [apply Cs; now left|now apply Fl]|]. apply in_map_iff in He as [y [<- Hy]]. apply (Cm y Hy F).
    - intros r r' _ _ _. now rewrite !Vs. }
  assert (Bl : holds (e_eval E F) (cf_pd c) (cf_rd c) (map VStr vals) (tokensToExpr (last (map eq_tokens xs) (eq_tokens x))) (blank (cf_pd c)) = false).
  { assert (Ly : tokensToExpr (last (map eq_tokens xs) (eq_tokens x)) = eq_text (last xs x)).
    { rewrite <- eq_expr. f_equal. clear. revert x. induction xs as [|y xs IH]; intros x; [reflexivity|]. cbn [map last]. destruct xs; [reflexivity|]. apply (IH x). }
    rewrite Ly. assert (Hn : nth_error (x :: xs) (List.length xs) = Some (last xs x)).
    { rewrite (last_nth (x :: xs) (List.length xs) x eq_refl). f_equal. destruct xs; reflexivity. }
    assert (Lb : List.length (blank (cf_pd c)) = List.length (x :: xs)) by (unfold blank; now rewrite repeat_length).
    assert (Hb : nth_error (blank (cf_pd c)) (List.length xs) = Some ""%string).
    { destruct (At (blank (cf_pd c)) _ _ Lb Hn) as [b Hb]. rewrite Hb. apply nth_error_In, repeat_spec in Hb. now subst b. }
    unfold holds. rewrite (Val_of _ _ _ (last vals ""%string) ""%string Lb Hn (last_nth vals (List.length xs) ""%string Lv) Hb).
    destruct (String.eqb_spec (last vals ""%string) ""); [contradiction|reflexivity]. }
  assert (Me : forall r, List.length r = List.length (x :: xs) -> (meaning E c f F (map VStr vals) r = true <-> su vals = true \/ r = vals)).
  { intros r L. unfold meaning, f. cbn [sem]. rewrite all_of_sem, Tx, orb_true_iff, forallb_forall.
    assert (Hs : holds (e_eval E F) (cf_pd c) (cf_rd c) (map VStr vals) (tokensToExpr ts) r = su vals) by (unfold holds; rewrite Vs; now destruct (su vals)). rewrite Hs.
    split; (intros [H|H]; [|first [now left|left; subst r]]); [right|right; exact H|].
    - apply nth_ext_opt. intros n. destruct (nth_error (x :: xs) n) as [y|] eqn:Hn.
      + destruct (At r n y L Hn) as [b Hb]. destruct (At vals n y Lv Hn) as [a Ha].
        specialize (H (eq_text y) (in_map _ _ _ (nth_error_In _ _ Hn))). unfold holds in H. rewrite (Val_of r n y a b L Hn Ha Hb) in H.
        destruct (String.eqb_spec a b) as [Eab|]; [|discriminate]. congruence.
      + apply nth_error_None in Hn. transitivity (@None string); [|symmetry]; apply nth_error_None; lia.
    - intros e He. apply in_map_iff in He as [y [<- Hy]]. destruct (In_nth_error _ _ Hy) as [n Hn]. destruct (At vals n y Lv Hn) as [a Ha].
      unfold holds. rewrite (Val_of vals n y a a Lv Hn Ha Ha), String.eqb_refl. reflexivity. }
  assert (Ft : forall r, present h ("p"%string :: r) -> List.length r = List.length (x :: xs)).
  { intros r Hr. rewrite <- Lp. now apply (app_fits c h r Ah). }
  assert (Ef : forall r, GetEft (cf_pd c) ("p"%string :: r) = Allow).
  { intros r. apply C23_no_effect_column. change (split_char "," (no_spaces (cf_p c))) with (columns (cf_p c)). rewrite (su_p _ _ _ _ _ _ A). apply A. }
  destruct (su vals) eqn:Esu.
  - destruct (AQ o (map VStr vals) Go) as [Q Efi]. pose proof (app_sound E c f h m o (map VStr vals) h1 h2 Rc Ph An) as So.
    destruct (C10_filter_exactly _ _ _ _ _ _ _ _ _ _ Q So) as [ms [k [HF [B [C D]]]]]. pose proof (query_decides _ _ _ _ _ _ _ _ _ _ _ Q HF) as HE.
    rewrite Efi in HE. destruct (C18_allow_override _ (cf_pd c) ms (su_e _ _ _ _ _ _ A)) as [b [Hb Hi]]. rewrite Hb in HE. exists b. split; [exact HE|].
    rewrite Hi. split; [auto|intros _]. pose proof (f_key E c f R) as Kf. rewrite Kf in B, C. rewrite vals_PVal in C, D. fold F in C, D.
    assert (Ne : exists r, In ("p"%string :: r) ms).
    { assert (Dec : (exists r, set_of (h1 ++ h2) r = true) \/ forall r, set_of (h1 ++ h2) r = false).
      { apply some_set. }
      destruct Dec as [[r Hr]|No].
      - exists r. apply occ_In. rewrite C, Hr. apply Nat.add_pos_l. apply times_satisfies.
        assert (Hp : present h ("p"%string :: r)) by (left; split; [reflexivity|]; eauto).
        rewrite satisfies_accepts. unfold f_root. cbn [stage_children]. rewrite ptree_sem. cbn. rewrite andb_true_r. apply (Me r (Ft r Hp)). now left.
      - exists (blank (cf_pd c)). apply occ_In. rewrite C, No. destruct (rule_eqb_spec (blank (cf_pd c)) (blank (cf_pd c))) as [_|X]; [|congruence]. cbn.
        apply D. exists [tokensToExpr ts]. split.
        + unfold f_root, f. unfold ways_of. cbn [stage_children ptree]. rewrite flat_map_app. apply in_or_app. right. now left.
        + exists [], (tokensToExpr ts). split; [reflexivity|]. split; [unfold holds; now rewrite Vs|].
          destruct (some_recorded h1 h2) as [[r Hr]|X]; [right; exists r|left]; (split; [assumption|]); [split; [reflexivity|]; intros r' Hr'; rewrite No in Hr'; discriminate|reflexivity]. }
    destruct Ne as [r Hr]. exists ("p"%string :: r). split; [exact Hr|apply Ef].
  - destruct (C75_decides_by_meaning E c f h R Ah G) as (m' & rs' & Hm' & D). rewrite Hm in Hm'. injection Hm' as <- <-.
    assert (An' : answerable E c f F h (map VStr vals)).
    { split; [exact An|]. intros e He. unfold f in He. cbn [lasts] in He. rewrite all_of_lasts in He. cbn [app In] in He. destruct He as [<-|[<-|[]]]; [exact Bl|].
      unfold holds. now rewrite Vs. }
    destruct (D o (map VStr vals) Go An') as (_ & Hal & _). destruct (Hal (su_e _ _ _ _ _ _ A)) as [b [HE Hb]]. exists b. split; [exact HE|]. rewrite Hb. split.
    + intros [r [Hp [Hr _]]]. apply Me in Hr as [X| ->]; [discriminate|now right|now apply Ft].
    + intros [X|Hp]; [discriminate|]. exists vals. split; [exact Hp|]. split; [apply Me; [now apply Ft|now right]|apply Ef].
Qed.
Print Assumptions C84_super_user.

(** The configuration of basic_with_root_model.conf.  alice's right is the only one
    left; then it is revoked as well. *)
Definition root_config : config :=
  mkCfg "sub, obj, act" "sub, obj, act" None "some(where (p.eft == allow))"
        "r.sub == p.sub && r.obj == p.obj && r.act == p.act || r.sub == ""root""".
Definition root_tokens : list token := [mkTok KOther "r_sub"; mkTok KOther "=="; mkTok KString "root"]%string.
Definition root_form : form := FOr (all_of (eq_tokens "sub") (map eq_tokens ["obj"; "act"]%string)) (FAtom root_tokens).
Definition root_env : env := app_env root_config root_form.
Definition is_root (vals : list string) : bool := match vals with s :: _ => String.eqb s "root" | [] => false end.
Lemma root_is : superuser root_env root_config "sub" ["obj"; "act"]%string root_tokens is_root.
Proof.
  constructor; try reflexivity.
  - repeat constructor; cbn; intuition discriminate.
  - cbn. intuition discriminate.
  - repeat constructor.
  - apply app_env_reads.
  - repeat (apply Forall_cons; [first [apply cmp_sub|apply cmp_obj|apply cmp_act]|]); apply Forall_nil.
  - apply atom_checked. reflexivity.
  - intros F. split; [reflexivity|]. intros get vals H. inversion H as [|? v ? l Hv _]; subst. cbn in Hv |- *. now rewrite Hv.
Qed.
Definition root_h : list (orders * mcall) := app_h root_config
  [CAdd ["p"; "alice"; "data1"; "read"]; CAdd ["p"; "bob"; "data2"; "write"]]%string
  [CRemove ["p"; "bob"; "data2"; "write"]]%string.
Definition root_h' : list (orders * mcall) := app_h root_config
  [CAdd ["p"; "alice"; "data1"; "read"]; CAdd ["p"; "bob"; "data2"; "write"]]%string
  [CRemove ["p"; "bob"; "data2"; "write"]; CRemove ["p"; "alice"; "data1"; "read"]]%string.
Example C84_ex :
  superuser root_env root_config "sub" ["obj"; "act"]%string root_tokens is_root /\
  app_history root_config root_h /\ good_m root_h /\ app_history root_config root_h' /\ good_m root_h' /\
  ask root_env root_h ["root"; "data9"; "write"]%string = Val (true, None) /\ ask root_env root_h' ["root"; "data9"; "write"]%string = Val (true, None) /\
  ask root_env root_h ["alice"; "data1"; "read"]%string = Val (true, None) /\ ask root_env root_h' ["alice"; "data1"; "read"]%string = Val (false, None) /\
  ask root_env root_h ["bob"; "data2"; "write"]%string = Val (false, None).
Proof.
  split; [exact root_is|]. split; [apply app_h_app; call_tac|]. split; [apply app_h_good|]. split; [apply app_h_app; call_tac|]. split; [apply app_h_good|].
  repeat split; vm_compute; reflexivity.
Qed.
