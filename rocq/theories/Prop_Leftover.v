(** Property C99: what a matcher of comparisons and calls decides, with what
    removed rules leave behind. *)
From Verif Require Import PathM PathSpec BuiltinM GoBase GoBaseP DefsM DefsP PolicyM PolicySpec PolicyP EffectorM MatcherDefM MatcherDefSpec MatcherDefP MatcherM MatcherSpec MatcherP MatcherP2
  RbacM RbacSpec DomainM DomainSpec EvalM ModelM ModelSpec ModelP ModelP2 ModelP3 ModelP4 ModelP5 ModelP6 EnforcerM EnforcerSpec EnforcerP
  SafeSpec SafeP FunctionsSpec FunctionsP AppSpec AppsSpec MultiSpec LogicSpec RoleAccessM RoleAccessSpec LogicP LeftoverSpec LeftoverP.
From Verif Require Import Prop_Path Prop_Builtin Prop_Effect Prop_Defs Prop_Matcher Prop_Model Prop_Enforce Prop_Query Prop_Functions Prop_App Prop_Apps Prop_Multi Prop_Columns Prop_Logic.
Local Open Scope list_scope.

Lemma empty_effect pt e : rule_effect pt (empty_rule pt) e <-> e = Allow.
Proof.
  unfold rule_effect. split.
  - intros [[_ X]|(n & s & H1 & H2 & ->)]; [exact X|].
    assert (s = ""%string) as -> by (apply nth_error_In, repeat_spec in H2; exact H2). reflexivity.
  - intros ->. destruct (in_dec string_dec "eft"%string (named_columns pt)) as [Hi|Hn]; [|now left]. right. destruct (In_nth_error _ _ Hi) as [n Hn]. exists n, ""%string. split; [exact Hn|]. split; [|reflexivity].
    destruct (nth_error (empty_rule pt) n) as [s|] eqn:Es; [f_equal; now apply nth_error_In, repeat_spec in Es|].
    apply nth_error_None in Es. unfold empty_rule in Es. rewrite repeat_length in Es. apply nth_error_None in Es. congruence.
Qed.

(** ** C99

    As C92, for every request of strings whose calls have answers, without the
    condition about the rule of empty values.  Filter reports the present rules for
    which the formula is true, and the rule of empty values exactly if there is a
    leftover.  A leftover counts as a rule that allows, also in a section with an effect
    column: it grants access where a rule that allows would, and it never denies. *)
Theorem C99_with_leftovers :
  forall E d R h, well_formed d -> readings E d R -> file_history d h -> good_m h ->
    exists m rs, mexec E (NewModel E) h = Val (m, rs) /\
      forall mk rk pk rt pt f, logical E d R mk rk pk rt pt f -> names_columns rk pk f ->
      forall o ps vals, good_orders o -> uses_matcher mk ps -> uses_request rk ps ->
        vals_of ps = map VStr vals -> List.length vals = List.length (named_columns rt) ->
        calls_answer E d h rt pk pt f vals ->
        let e := effect_in_force h ps in
        let says := says E d h rt pk pt f vals in
        let left := leftover (call_true E d h) h rt pk pt f vals in
        (exists ms, Filter E o m ps = Val (m, (ms, None)) /\
           forall x, In x ms <-> (present h x /\ exists r, x = pk :: r /\ LogicSpec.satisfies E d h rt pt f vals r) \/ (x = pk :: empty_rule pt /\ left)) /\
        (spells e "some(where (p.eft == allow))" ->
           exists b, Enforce E o m ps = Val (m, (b, None)) /\ (b = true <-> says Allow \/ left)) /\
        (spells e "!some(where (p.eft == deny))" ->
           exists b, Enforce E o m ps = Val (m, (b, None)) /\ (b = true <-> ~ says Deny)) /\
        (spells e "some(where (p.eft == allow)) && !some(where (p.eft == deny))" -> ~ says Indeterminate ->
           exists b, Enforce E o m ps = Val (m, (b, None)) /\ (b = true <-> (says Allow \/ left) /\ ~ says Deny)).
Proof.
  intros E d R h W U Ah G. destruct (file_query E d R h W U Ah G) as (m & rs & Hm & Dq). exists m, rs. split; [exact Hm|].
  intros mk rk pk rt pt f C Nc o ps vals Go Um Ur Vp Lv Ca eff sy left.
  destruct (lg_matcher _ _ _ _ _ _ _ _ _ C) as [mt Im]. pose proof (lg_reading _ _ _ _ _ _ _ _ _ C) as ER.
  pose proof (lg_request _ _ _ _ _ _ _ _ _ C) as Ir. pose proof (lg_policy _ _ _ _ _ _ _ _ _ C) as Ip. pose proof (lg_pcols _ _ _ _ _ _ _ _ _ C) as Np.
  specialize (Dq mk mt pt rk rt o ps Im). rewrite ER in Dq. cbn [fst snd] in Dq. destruct (Dq Ip Ir Um Ur Go) as (h1 & h2 & Q & Kf & Sp & Rec & Radd). clear Dq.
  destruct (logic_parts E d R h (functions o m) (call_true E d h) (call_answers E d) mk rk pk rt pt f vals W Ah C Lv (file_calls E d h m rs o W Ah G Go Hm) Ca) as (An & Ho & Me & Ef & Pr & Add).
  set (pd := NewPolicyDef pk pt) in *. set (rd := NewRequestDef rk rt) in *. set (F := functions o m) in *.
  assert (S : sound E o m ps pd rd (f_root (as_form rk pk f)) h1 h2).
  { intros e He. apply texts_root in He. destruct (An e He) as [B1 [B2 B3]]. rewrite Vp. fold F. split; [|split; [|split]].
    - intros r Hr. now apply B1, Radd.
    - exact (own_values_sub _ _ _ _ _ _ _ Radd B2).
    - intros r Hr. now apply B1, Radd.
    - intros [X|X]; apply B3; [left; now apply lasts_root|right]. intros r Hr. apply (X r). apply present_recorded. now apply Sp. }
  destruct (C10_filter_exactly E h m o ps _ _ _ h1 h2 Q S) as (ms & k & HF & Hkey & Hocc & Hk). rewrite Kf in Hkey, Hocc. rewrite Vp in Hocc, Hk. fold F in Hocc, Hk.
  assert (Lo : 0 < k <-> left).
  { rewrite Hk. unfold left. apply phantom_leftover.
    - exact Ho.
    - exact Rec.
    - exact Radd.
    - exact Sp.
    - intros r Hr. now apply present_recorded.
    - intros t r r' Ht Hr Hr'. apply (same_agree rk pk pt f t r r' Np Nc Ht); [|now apply Add|now apply Add].
      intros y Hy. unfold policy_columns in Hy. apply in_flat_map in Hy as (a & Ha & Hy). pose proof (lg_terms _ _ _ _ _ _ _ _ _ C t a Ht Ha) as X. destruct a; cbn in Hy; try contradiction. destruct Hy as [<-|[]]. exact X. }
  assert (Tm : forall r, times (e_eval E F) pd rd (map VStr vals) (f_root (as_form rk pk f)) r > 0 <-> true_for E pd rd (as_form rk pk f) F (map VStr vals) r = true).
  { intros r. unfold gt. rewrite times_satisfies. unfold true_for. rewrite satisfies_accepts. unfold f_root. cbn [stage_children]. rewrite ptree_sem. cbn. now rewrite andb_true_r. }
  assert (Hms : forall x, In x ms <-> (present h x /\ exists r, x = pk :: r /\ LogicSpec.satisfies E d h rt pt f vals r) \/ (x = pk :: empty_rule pt /\ left)).
  { intros x. split.
    - intros Hx. destruct (Hkey x Hx) as [r ->]. apply occ_In in Hx. rewrite Hocc in Hx. destruct (set_of (h1 ++ h2) r) eqn:Es.
      + destruct (Nat.eq_dec (times (e_eval E F) pd rd (map VStr vals) (f_root (as_form rk pk f)) r) 0) as [Z|Z].
        * right. rewrite Z in Hx. destruct (rule_eqb_spec r (blank pd)) as [->|]; [|lia]. split; [reflexivity|]. apply Lo. lia.
        * left. apply Sp in Es. split; [exact Es|]. exists r. split; [reflexivity|]. apply (Me r Es), Tm. lia.
      + right. destruct (rule_eqb_spec r (blank pd)) as [->|]; [|lia]. split; [reflexivity|]. apply Lo. lia.
    - intros [[Hp (r & -> & Hs)]|[-> Hl]]; apply occ_In; rewrite Hocc.
      + rewrite (proj2 (Sp r) Hp). apply (Me r Hp) in Hs. apply Tm in Hs. lia.
      + change (empty_rule pt) with (blank pd). destruct (rule_eqb_spec (blank pd) (blank pd)) as [_|X]; [|congruence]. apply Lo in Hl. lia. }
  pose proof (query_decides _ _ _ _ _ _ _ _ _ _ _ Q HF) as HE. fold eff in HE.
  assert (Some_eff : forall e, some_effect pd ms e <-> sy e \/ (left /\ e = Allow)).
  { intros e. rewrite <- (empty_effect pt e). unfold some_effect. split.
    - intros [z [Hz He]]. apply Hms in Hz as [[Hp (r & -> & Hs)]|[-> Hl]].
      + left. exists r. split; [exact Hp|]. split; [exact Hs|]. apply (Ef r e (Add r (Pr r Hp))). exact He.
      + right. split; [exact Hl|]. apply (Ef (empty_rule pt) e); [apply repeat_length|exact He].
    - intros [(r & Hp & Hs & He)|[Hl He]].
      + exists (pk :: r). split; [apply Hms; left; split; [exact Hp|eauto]|]. apply (Ef r e (Add r (Pr r Hp))). exact He.
      + exists (pk :: empty_rule pt). split; [apply Hms; right; auto|]. apply (Ef (empty_rule pt) e); [apply repeat_length|exact He]. }
  assert (EA : some_effect pd ms Allow <-> sy Allow \/ left) by (rewrite Some_eff; tauto).
  assert (ED : some_effect pd ms Deny <-> sy Deny) by (rewrite Some_eff; split; [intros [X|[_ X]]; [exact X|discriminate]|now left]).
  assert (EI : some_effect pd ms Indeterminate <-> sy Indeterminate) by (rewrite Some_eff; split; [intros [X|[_ X]]; [exact X|discriminate]|now left]).
  split; [eauto|]. split; [|split].
  - intros Hs. destruct (C18_allow_override _ pd ms Hs) as [b [Hb Hi]]. rewrite Hb in HE. exists b. split; [exact HE|]. now rewrite Hi, EA.
  - intros Hs. destruct (C19_deny_override _ pd ms Hs) as [b [Hb Hi]]. rewrite Hb in HE. exists b. split; [exact HE|]. now rewrite Hi, ED.
  - intros Hs Hi0. assert (NI : ~ some_effect pd ms Indeterminate) by now rewrite EI.
    destruct (C20_allow_and_no_deny_partial _ pd ms Hs NI) as [b [Hb Hi]]. rewrite Hb in HE. exists b. split; [exact HE|]. rewrite Hi, EA, ED. tauto.
Qed.
Print Assumptions C99_with_leftovers.

(** While every remembered rule is present (no rule of the section was removed since
    the matchers were built, or those that were are back) and there is one, nothing is
    left over: the matcher means its formula, whatever is true of the rule of empty
    values. *)
Lemma agree_refl pt t r : agree pt t r r.
Proof. unfold agree. destruct (policy_columns t); [reflexivity|]. intros; reflexivity. Qed.
Theorem C99_nothing_left :
  forall E d R h, well_formed d -> readings E d R -> file_history d h -> good_m h ->
    exists m rs, mexec E (NewModel E) h = Val (m, rs) /\
      forall mk rk pk rt pt f, logical E d R mk rk pk rt pt f -> names_columns rk pk f ->
      (exists r, remembered pk h r) -> (forall r, remembered pk h r -> present h (pk :: r)) ->
      forall o ps vals, good_orders o -> uses_matcher mk ps -> uses_request rk ps ->
        vals_of ps = map VStr vals -> List.length vals = List.length (named_columns rt) ->
        calls_answer E d h rt pk pt f vals ->
        let e := effect_in_force h ps in
        let says := says E d h rt pk pt f vals in
        (exists ms, Filter E o m ps = Val (m, (ms, None)) /\
           forall x, In x ms <-> present h x /\ exists r, x = pk :: r /\ LogicSpec.satisfies E d h rt pt f vals r) /\
        (spells e "some(where (p.eft == allow))" ->
           exists b, Enforce E o m ps = Val (m, (b, None)) /\ (b = true <-> says Allow)) /\
        (spells e "!some(where (p.eft == deny))" ->
           exists b, Enforce E o m ps = Val (m, (b, None)) /\ (b = true <-> ~ says Deny)) /\
        (spells e "some(where (p.eft == allow)) && !some(where (p.eft == deny))" -> ~ says Indeterminate ->
           exists b, Enforce E o m ps = Val (m, (b, None)) /\ (b = true <-> says Allow /\ ~ says Deny)).
Proof.
  intros E d R h W U Ah G. destruct (C99_with_leftovers E d R h W U Ah G) as (m & rs & Hm & D). exists m, rs. split; [exact Hm|].
  intros mk rk pk rt pt f C Nc [r0 Hr0] Hall o ps vals Go Um Ur Vp Lv Ca eff sy.
  assert (NL : ~ leftover (call_true E d h) h rt pk pt f vals).
  { intros (pre & t & _ & _ & [[X _]|(r & Hr & _ & X)]); [exact (X r0 Hr0)|]. apply (X r (Hall r Hr)). apply Forall_forall. intros t' _. apply agree_refl. }
  destruct (D mk rk pk rt pt f C Nc o ps vals Go Um Ur Vp Lv Ca) as ((ms & HF & Hms) & D1 & D2 & D3). fold eff in D1, D2, D3. fold sy in D1, D2, D3.
  split; [|split; [|split]].
  - exists ms. split; [exact HF|]. intros x. split.
    + intros Hx. apply Hms in Hx as [Hx|[_ X]]; [exact Hx|destruct (NL X)].
    + intros Hx. apply Hms. left. exact Hx.
  - intros Sp. destruct (D1 Sp) as (b & HE & Hb). exists b. split; [exact HE|]. split.
    + intros X. apply Hb in X as [X|X]; [exact X|destruct (NL X)].
    + intros X. apply Hb. left. exact X.
  - exact D2.
  - intros Sp Hi. destruct (D3 Sp Hi) as (b & HE & Hb). exists b. split; [exact HE|]. split.
    + intros X. apply Hb in X as [[X|X] Y]; [exact (conj X Y)|destruct (NL X)].
    + intros [X Y]. apply Hb. split; [left; exact X|exact Y].
Qed.
Print Assumptions C99_nothing_left.

(** A file whose rules say what may not be done: a user may do everything but one
    action.  With the rule present the decisions are those of the formula; after it
    was removed its user may do everything, the excluded action included, and nobody
    else may do anything; the rule of empty values is reported. *)
Definition but_text : string := "r.sub == p.sub && r.act != p.act".
Definition but_defs : deflist :=
  [(R_SEC, "r", "sub, act"); (P_SEC, "p", "sub, act"); (E_SEC, "e", "some(where (p.eft == allow))"); (M_SEC, "m", but_text)]%string.
Definition but_form : mform := MAnd (MTest (Equal (TReq "sub") (TPol "sub"))) (MTest (Unequal (TReq "act") (TPol "act"))).
Definition but_env (L : lib) : env := one_env [] but_text (as_form "r" "p" but_form) L.
Definition but_h (l : list mcall) : list (orders * mcall) := after but_defs [CAdd ["p"; "alice"; "delete"]%string] l.
Lemma but_wf : well_formed but_defs.
Proof.
  split; [repeat (apply NoDup_cons; [cbn; intuition discriminate|]); apply NoDup_nil|].
  intros s k t H. repeat (destruct H as [H|H]; [injection H as <- <- <-; eexists; split; reflexivity|]). destruct H.
Qed.
Lemma but_reads L : readings (but_env L) but_defs (over_p but_form).
Proof.
  intros mk t H. repeat (destruct H as [H|H]; [first [discriminate H|injection H as <- <-]|]); [|destruct H]. split; [|eexists; cbn; tauto].
  apply one_reads; try reflexivity; [atom_tac|repeat split| |plain_tac]. intros k [].
Qed.
Lemma but_logical L : logical (but_env L) but_defs (over_p but_form) "m" "r" "p" "sub, act" "sub, act" but_form.
Proof.
  constructor; [eexists; cbn; tauto|reflexivity|cbn; tauto|cbn; tauto|apply distinct_columns; reflexivity|apply distinct_columns; reflexivity|terms_tac|columns_tac|].
  apply Forall_cons; [eq_tac|apply Forall_cons; [eq_tac|apply Forall_nil]].
Qed.
Lemma but_columns : names_columns "r" "p" but_form.
Proof.
  assert (A : p_args (test_text "r" "p" (Equal (TReq "sub") (TPol "sub"))) = ["p_sub"%string]) by (vm_compute; reflexivity).
  assert (B : p_args (test_text "r" "p" (Unequal (TReq "act") (TPol "act"))) = ["p_act"%string]) by (vm_compute; reflexivity).
  intros t x [<-|[<-|[]]]; [rewrite A|rewrite B];
    (split; [intros [<-|[]]; eexists; split; [left; reflexivity|reflexivity]|intros (y & [<-|[]] & ->); left; reflexivity]).
Qed.
Lemma but_calls L h vals : calls_answer (but_env L) but_defs h "sub, act" "p" "sub, act" but_form vals.
Proof. intros r g args us Ht. repeat (destruct Ht as [Ht|Ht]; [discriminate Ht|]). destruct Ht. Qed.
Lemma but_kept l : Forall (fun c => match c with CRemove _ => True | _ => False end) l -> forall r, remembered "p" (but_h l) r <-> r = ["alice"; "delete"]%string.
Proof.
  intros Hl r.
  assert (Hr : forall P : rule -> Prop, fold_left (remember_step "p") l P = P).
  { clear - Hl. induction Hl as [|c l Hc Hl IH]; intros P; [reflexivity|]. destruct c; try contradiction. cbn [fold_left remember_step]. apply IH. }
  set (hb := map (fun x => (ex_o, x)) (set_all but_defs) ++ [(ex_rev, CAdd ["p"; "alice"; "delete"]%string)]).
  assert (Eh : but_h l = hb ++ (ex_rev, CBuild) :: map (fun x => (ex_o, x)) l) by (unfold but_h, after, hb; now rewrite <- app_assoc).
  assert (Pb : present hb ("p"%string :: r) <-> r = ["alice"; "delete"]%string).
  { assert (Ph : p_history "p" hb = Some [PAdd ["alice"; "delete"]%string]) by (vm_compute; reflexivity). split.
    - intros [[_ (ops & Ho & X)]|[X _]]; [|discriminate X]. rewrite Ph in Ho. injection Ho as <-. unfold set_of in X. cbn [fold_left set_step] in X. unfold set_add, set_empty in X. rewrite orb_false_r in X.
      destruct (rule_eqb_spec r ["alice"; "delete"]%string); [assumption|discriminate].
    - intros ->. left. split; [reflexivity|]. eexists. split; [exact Ph|]. reflexivity. }
  assert (Nb1 : Forall (fun x : orders * mcall => snd x <> CBuild) hb).
  { apply Forall_app. split; [|repeat constructor; discriminate]. apply (set_no_build but_defs). rewrite map_map. apply map_id. }
  assert (Nb2 : Forall (fun x : orders * mcall => snd x <> CBuild) (map (fun x => (ex_o, x)) l)).
  { apply Forall_map. eapply Forall_impl; [|exact Hl]. intros c Hc X. cbn [snd] in X. now rewrite X in Hc. }
  unfold remembered. rewrite Eh. split.
  - intros (hb' & o & ha & Eq & X). apply one_build in Eq as [-> ->]; [|assumption|assumption]. rewrite map_map in X. cbn [snd] in X. rewrite map_id, Hr in X. now apply Pb.
  - intros X. exists hb, ex_rev, (map (fun x => (ex_o, x)) l). split; [reflexivity|]. rewrite map_map. cbn [snd]. rewrite map_id, Hr. now apply Pb.
Qed.
Definition gone : list mcall := [CRemove ["p"; "alice"; "delete"]%string].
Example C99_ex : forall L,
  well_formed but_defs /\ readings (but_env L) but_defs (over_p but_form) /\
  file_history but_defs (but_h []) /\ good_m (but_h []) /\ file_history but_defs (but_h gone) /\ good_m (but_h gone) /\
  logical (but_env L) but_defs (over_p but_form) "m" "r" "p" "sub, act" "sub, act" but_form /\ names_columns "r" "p" but_form /\
  (forall h vals, calls_answer (but_env L) but_defs h "sub, act" "p" "sub, act" but_form vals) /\
  (exists r, remembered "p" (but_h []) r) /\ (forall r, remembered "p" (but_h []) r -> present (but_h []) ("p"%string :: r)) /\
  leftover (call_true (but_env L) but_defs (but_h gone)) (but_h gone) "sub, act" "p" "sub, act" but_form ["alice"; "delete"]%string /\
  ~ leftover (call_true (but_env L) but_defs (but_h gone)) (but_h gone) "sub, act" "p" "sub, act" but_form ["bob"; "read"]%string /\
  ask (but_env L) (but_h []) ["alice"; "read"]%string = Val (true, None) /\ ask (but_env L) (but_h []) ["alice"; "delete"]%string = Val (false, None) /\
  ask (but_env L) (but_h gone) ["alice"; "delete"]%string = Val (true, None) /\ ask (but_env L) (but_h gone) ["bob"; "read"]%string = Val (false, None).
Proof.
  intros L. split; [exact but_wf|]. split; [apply but_reads|].
  destruct (after_file but_defs [CAdd ["p"; "alice"; "delete"]%string] []) as [H1 H2]; [file_tac|apply Forall_nil|].
  destruct (after_file but_defs [CAdd ["p"; "alice"; "delete"]%string] gone) as [H3 H4]; [file_tac|unfold gone; file_tac|].
  split; [exact H1|]. split; [exact H2|]. split; [exact H3|]. split; [exact H4|]. split; [apply but_logical|]. split; [exact but_columns|]. split; [intros; apply but_calls|].
  assert (K : forall r, remembered "p" (but_h gone) r <-> r = ["alice"; "delete"]%string) by (apply but_kept; repeat constructor).
  assert (K0 : forall r, remembered "p" (but_h []) r <-> r = ["alice"; "delete"]%string) by (apply but_kept; constructor).
  assert (Np : forall r, ~ present (but_h gone) ("p"%string :: r)).
  { intros r [[_ (ops & Ho & Hr)]|[X _]]; [|discriminate X]. vm_compute in Ho. injection Ho as <-. unfold set_of, set_step, set_remove, set_add, set_empty in Hr. cbn [fold_left] in Hr.
    destruct (rule_eqb r ["alice"; "delete"]%string); discriminate Hr. }
  split; [eexists; now apply K0|]. split.
  { intros r Hr. apply K0 in Hr as ->. left. split; [reflexivity|]. eexists. split; vm_compute; reflexivity. }
  split; [|split; [|repeat split; vm_compute; reflexivity]].
  - exists [Equal (TReq "sub") (TPol "sub")], (Unequal (TReq "act") (TPol "act")). split; [now left|]. split.
    + exists "delete"%string, ""%string. split; [exists 1; split; reflexivity|]. split; [exists 1; split; reflexivity|discriminate].
    + right. exists ["alice"; "delete"]%string. split; [now apply K|]. split; [|intros r' X; destruct (Np r' X)].
      apply Forall_cons; [|apply Forall_nil]. exists "alice"%string. split; exists 0; split; reflexivity.
  - intros (pre & t & [Ha|[]] & _ & Hc). apply (app_inj_tail [Equal (TReq "sub") (TPol "sub")] pre) in Ha as [<- <-].
    destruct Hc as [[X _]|(r & Hr & Hf & _)]; [apply (X ["alice"; "delete"]%string); now apply K|]. apply K in Hr as ->.
    apply Forall_inv in Hf. destruct Hf as (x & (n & A1 & A2) & (k & B1 & B2)).
    assert (n = 0) as -> by (do 2 (destruct n as [|n]; [try reflexivity; discriminate A1|]); destruct n; discriminate A1).
    assert (k = 0) as -> by (do 2 (destruct k as [|k]; [try reflexivity; discriminate B1|]); destruct k; discriminate B1).
    cbn in A2, B2. congruence.
Qed.
