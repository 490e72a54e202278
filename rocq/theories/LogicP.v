(** The meaning of formulas with any meaning of calls (the body of C92). *)
From Verif Require Import PathM PathSpec BuiltinM GoBase GoBaseP DefsM DefsP PolicyM PolicySpec PolicyP EffectorM MatcherDefM MatcherDefSpec MatcherDefP MatcherM MatcherSpec MatcherP MatcherP2
  RbacM RbacSpec DomainM DomainSpec EvalM ModelM ModelSpec ModelP ModelP2 ModelP3 ModelP4 ModelP5 ModelP6 EnforcerM EnforcerSpec EnforcerP
  SafeSpec SafeP FunctionsSpec FunctionsP AppSpec AppsSpec MultiSpec LogicSpec RoleAccessM RoleAccessSpec.
From Verif Require Import Prop_Path Prop_Builtin Prop_Effect Prop_Defs Prop_Matcher Prop_Model Prop_Enforce Prop_Query Prop_Functions Prop_App Prop_Apps Prop_Multi Prop_Columns Prop_Logic.
Local Open Scope list_scope.

Lemma logic_parts E d R h (F : string -> option gofn) (CT CA : string -> list string -> Prop) mk rk pk rt pt f vals :
  well_formed d -> file_history d h -> logical E d R mk rk pk rt pt f ->
  List.length vals = List.length (named_columns rt) ->
  (forall g us, CA g us -> exists fg v, F g = Some fg /\ fg (map VStr us) = Val (inl (VBool v)) /\ (v = true <-> CT g us)) ->
  answer_by CA h rt pk pt f vals ->
  let pd := NewPolicyDef pk pt in let rd := NewRequestDef rk rt in let none := repeat ""%string (List.length (named_columns pt)) in
  (forall e, In e (conds (as_form rk pk f)) ->
    (forall r, added_to pk h r -> has_values pd e r /\ evaluates (e_eval E F) pd rd (map VStr vals) e r) /\
    own_values (e_eval E F) pd rd (map VStr vals) e (added_to pk h) /\
    (In e (lasts (as_form rk pk f)) \/ (forall r, ~ present h (pk :: r)) -> evaluates (e_eval E F) pd rd (map VStr vals) e (blank pd))) /\
  (forall t r, In t (tests f) -> added_to pk h r \/ (r = none /\ (In t (last_tests f) \/ forall r', ~ present h (pk :: r'))) ->
     (holds (e_eval E F) pd rd (map VStr vals) (test_text rk pk t) r = true <-> test_by CT rt pt vals r t)) /\
  (forall r, present h (pk :: r) -> (true_for E pd rd (as_form rk pk f) F (map VStr vals) r = true <-> satisfies_by CT rt pt f vals r)) /\
  (forall r e, List.length r = List.length (named_columns pt) -> (GetEft pd (pk :: r) = e <-> rule_effect pt r e)) /\
  (forall r, present h (pk :: r) -> added_to pk h r) /\
  (forall r, added_to pk h r -> List.length r = List.length (named_columns pt)).
Proof.
  intros W Ah C Lv Fn Ca pd0 rd0 none0. subst pd0 rd0 none0.
  pose proof (lg_request _ _ _ _ _ _ _ _ _ C) as Ir. pose proof (lg_policy _ _ _ _ _ _ _ _ _ C) as Ip.
  pose proof (lg_rcols _ _ _ _ _ _ _ _ _ C) as Nr. pose proof (lg_pcols _ _ _ _ _ _ _ _ _ C) as Np.
  pose proof (lg_terms _ _ _ _ _ _ _ _ _ C) as Tm. pose proof (lg_plain _ _ _ _ _ _ _ _ _ C) as Pl.
  pose proof (lg_eval _ _ _ _ _ _ _ _ _ C) as Ev. rewrite Forall_forall in Ev.
  set (pd := NewPolicyDef pk pt). set (rd := NewRequestDef rk rt).
  pose proof (p_byte _ _ _ (proj2 W) Ip) as Kp. pose proof (proj2 W _ _ _ Ir) as Kr.
  assert (Lr : List.length vals = List.length (ad_args rd)) by exact Lv.
  set (none := repeat ""%string (List.length (named_columns pt))) in *.
  (* the values of terms *)
  assert (TV : forall r a u, List.length r = List.length (ad_args pd) -> term_value rt pt vals r a u ->
             term_gets rk pk (ParamGet pd r rd (map VStr vals)) a u).
  { intros r a u L. destruct a as [x|x|s]; cbn; [| |auto]; intros (n & Hn & Hu).
    - exact (val_r pd r rk rt vals n x u Kr Nr Lr Hn Hu).
    - exact (val_p pk pt r rd (map VStr vals) n x u Kp Np L Hn Hu). }
  assert (TE : forall r a t, List.length r = List.length (ad_args pd) -> In t (tests f) -> In a (test_terms t) -> exists u, term_value rt pt vals r a u).
  { intros r a t L Ht Hat. specialize (Tm t a Ht Hat). destruct a as [x|x|s]; cbn; [| |eauto].
    - destruct (In_nth_error _ _ Tm) as [n Hn]. destruct (nth_error vals n) as [u|] eqn:Eu; [eauto|].
      apply nth_error_None in Eu. rewrite Lv in Eu. apply nth_error_None in Eu. congruence.
    - destruct (In_nth_error _ _ Tm) as [n Hn]. destruct (nth_error r n) as [u|] eqn:Eu; [eauto|].
      apply nth_error_None in Eu. rewrite L in Eu. change (ad_args pd) with (named_columns pt) in Eu. apply nth_error_None in Eu. congruence. }
  assert (TL : forall r args t, List.length r = List.length (ad_args pd) -> In t (tests f) -> incl args (test_terms t) -> exists us, Forall2 (term_value rt pt vals r) args us).
  { intros r args t L Ht. induction args as [|a args IH]; intros Hi; [exists []; constructor|].
    destruct (TE r a t L Ht (Hi a (or_introl eq_refl))) as [u Hu]. destruct IH as [us Hus]; [intros y Hy; apply Hi; now right|]. exists (u :: us). now constructor. }
  (* the value of one test *)
  assert (One : forall t r, In t (tests f) -> List.length r = List.length (ad_args pd) ->
            added_to pk h r \/ (r = none /\ (In t (last_tests f) \/ forall r', ~ present h (pk :: r'))) ->
            parses (e_eval E F) (test_text rk pk t) = true /\
            exists v, ev (e_eval E F) (test_text rk pk t) (ParamGet pd r rd (map VStr vals)) = Val (inl (VBool v)) /\ (v = true <-> test_by CT rt pt vals r t)).
  { intros t r Ht L Hr. specialize (Ev t Ht). unfold test_evaluates in Ev. destruct t as [a b|a b|g args|a s1 s2 ss].
    - destruct (Ev F) as (P1 & _ & P3); [discriminate|]. split; [exact P1|].
      destruct (TE r a _ L Ht (or_introl eq_refl)) as [u Hu]. destruct (TE r b _ L Ht (or_intror (or_introl eq_refl))) as [v Hv].
      exists (String.eqb u v). split; [exact (P3 _ u v (TV r a u L Hu) (TV r b v L Hv))|]. cbn [test_by]. rewrite String.eqb_eq. split; [intros <-; eauto|].
      intros (x & H1 & H2). rewrite (value_unique _ _ _ _ _ _ _ Nr Np Hu H1), (value_unique _ _ _ _ _ _ _ Nr Np Hv H2). reflexivity.
    - destruct (Ev F) as (P1 & _ & P3); [discriminate|]. split; [exact P1|].
      destruct (TE r a _ L Ht (or_introl eq_refl)) as [u Hu]. destruct (TE r b _ L Ht (or_intror (or_introl eq_refl))) as [v Hv].
      exists (negb (String.eqb u v)). split; [exact (P3 _ u v (TV r a u L Hu) (TV r b v L Hv))|]. cbn [test_by]. rewrite negb_true_iff, String.eqb_neq. split; [intros X; exists u, v; auto|].
      intros (x & y & H1 & H2 & X). rewrite (value_unique _ _ _ _ _ _ _ Nr Np Hu H1), (value_unique _ _ _ _ _ _ _ Nr Np Hv H2). exact X.
    - destruct (TL r args _ L Ht (incl_refl _)) as [us Hus]. destruct (Fn g us (Ca r g args us Ht Hr Hus)) as (fg & v & Hf & Hv & Hi).
      destruct (Ev F) as (P1 & _ & P3); [intros ? ? X; injection X as <- <-; congruence|]. split; [exact P1|].
      exists v. split.
      + rewrite (P3 _ fg us Hf); [exact Hv|]. clear - Hus TV L. induction Hus; constructor; auto.
      + rewrite Hi. cbn [test_by]. split; [eauto|]. intros (us' & H1 & H2). now rewrite (values_unique _ _ _ _ _ _ _ Nr Np Hus H1).
    - destruct (Ev F) as (P1 & _ & P3); [discriminate|]. split; [exact P1|].
      destruct (TE r a _ L Ht (or_introl eq_refl)) as [u Hu].
      exists (existsb (String.eqb u) (s1 :: s2 :: ss)). split; [exact (P3 _ u (TV r a u L Hu))|]. cbn [test_by]. rewrite existsb_exists. split.
      + intros (x & Hx & X). apply String.eqb_eq in X as ->. eauto.
      + intros (x & H1 & H2). exists x. split; [exact H2|]. apply String.eqb_eq. exact (value_unique _ _ _ _ _ _ _ Nr Np Hu H1). }
  assert (Add : forall r, added_to pk h r -> List.length r = List.length (ad_args pd)) by (intros r Hr; eapply added_columns; eassumption).
  assert (Ln : List.length none = List.length (ad_args pd)) by apply repeat_length.
  assert (An : forall e, In e (conds (as_form rk pk f)) ->
    (forall r, added_to pk h r -> has_values pd e r /\ evaluates (e_eval E F) pd rd (map VStr vals) e r) /\
    own_values (e_eval E F) pd rd (map VStr vals) e (added_to pk h) /\
    (In e (lasts (as_form rk pk f)) \/ (forall r, ~ present h (pk :: r)) -> evaluates (e_eval E F) pd rd (map VStr vals) e (blank pd))).
  { intros e He. rewrite lg_conds in He. apply in_map_iff in He as [t [<- Ht]].
      assert (HV : forall r, added_to pk h r -> has_values pd (test_text rk pk t) r).
      { intros r Hr x Hx. destruct (Pl t x Ht Hx) as (y & Hy & ->). destruct (In_nth_error _ _ Hy) as [n Hn].
        pose proof (GetParameter_nth pk pt r n y Np Hn) as X. cbv zeta in X. change NewArgDef with NewPolicyDef in X. fold pd in X. rewrite (Add r Hr), Nat.ltb_irrefl in X.
        rewrite X. intros N. apply nth_error_None in N. rewrite (Add r Hr) in N. change (ad_args pd) with (named_columns pt) in N. apply nth_error_None in N. congruence. }
      split; [|split].
      + intros r Hr. split; [now apply HV|]. destruct (One t r Ht (Add r Hr) (or_introl Hr)) as (P1 & v & P3 & _). split; [exact P1|eauto].
      + intros r r' Hr. assert (P2 : reads_only_named (e_eval E F) (test_text rk pk t)); [|exact (named_own (e_eval E F) pd rd (map VStr vals) _ (added_to pk h) HV P2 r r' Hr)].
        apply (Ev t Ht F). intros g args ->. destruct (TL r args _ (Add r Hr) Ht (incl_refl _)) as [us Hus].
        destruct (Fn g us (Ca r g args us Ht (or_introl Hr) Hus)) as (fg & v & Hf & _). congruence.
      + intros [Hl|Hl].
        * rewrite lg_lasts in Hl. apply in_map_iff in Hl as [t' [<- Hl]].
          destruct (One t' none (last_tests_in _ _ Hl) Ln (or_intror (conj eq_refl (or_introl Hl)))) as (P1 & v & P3 & _). split; [exact P1|eauto].
        * destruct (One t none Ht Ln (or_intror (conj eq_refl (or_intror Hl)))) as (P1 & v & P3 & _). split; [exact P1|eauto]. }
  assert (Pr : forall r, present h (pk :: r) -> added_to pk h r).
  { intros r [[_ [ops [Ho Hr]]]|[X _]]; [|destruct (pg_key _ Kp X)].
    assert (Hi : In (PAdd r) ops) by (rewrite <- (app_nil_r ops); now apply recorded_adds).
    destruct (pk_adds pk r _ _ _ Ho Hi) as [[l [X _]]|X]; [discriminate|exact X]. }
  assert (Me : forall r, present h (pk :: r) -> (true_for E pd rd (as_form rk pk f) F (map VStr vals) r = true <-> satisfies_by CT rt pt f vals r)).
  { intros r Hr. apply lg_sem. intros t Ht. destruct (One t r Ht (Add r (Pr r Hr)) (or_introl (Pr r Hr))) as (_ & v & P3 & P4).
    unfold holds. rewrite P3, <- P4. destruct v; split; congruence. }
  assert (Ef : forall r e, List.length r = List.length (named_columns pt) -> (GetEft pd (pk :: r) = e <-> rule_effect pt r e)).
  { intros r e L. unfold rule_effect. destruct (in_dec string_dec "eft"%string (named_columns pt)) as [Hi|Hn].
    - destruct (In_nth_error _ _ Hi) as [n Hn]. destruct (nth_error r n) as [s|] eqn:Es.
      2:{ apply nth_error_None in Es. rewrite L in Es. change (ad_args pd) with (named_columns pt) in Es. apply nth_error_None in Es. congruence. }
      unfold pd. rewrite (C23_effect_column_partial pk pt r n s Np Hn L Es). split.
      + intros <-. right. eauto.
      + intros [[X _]|(k & s' & X & Y & ->)]; [contradiction|]. f_equal.
        assert (n = k) as <- by (eapply (proj1 (NoDup_nth_error _) Np); [apply nth_error_Some; congruence|congruence]). congruence.
    - unfold pd. rewrite (C23_no_effect_column pk pt r Hn). split; [intros <-; now left|].
      intros [[_ ->]|(k & s' & X & _)]; [reflexivity|]. exfalso. apply Hn. eapply nth_error_In; exact X. }
  split; [exact An|]. split; [|split; [exact Me|split; [exact Ef|split; [exact Pr|exact Add]]]].
  intros t r Ht Hr. assert (L : List.length r = List.length (ad_args pd)) by (destruct Hr as [Hr|[-> _]]; [now apply Add|exact Ln]).
  destruct (One t r Ht L Hr) as (_ & v & P3 & P4). unfold holds. rewrite P3, <- P4. destruct v; split; congruence.
Qed.

Lemma logic_by E d R h (F : string -> option gofn) (CT CA : string -> list string -> Prop) mk rk pk rt pt f vals :
  well_formed d -> file_history d h -> logical E d R mk rk pk rt pt f ->
  List.length vals = List.length (named_columns rt) ->
  (forall g us, CA g us -> exists fg v, F g = Some fg /\ fg (map VStr us) = Val (inl (VBool v)) /\ (v = true <-> CT g us)) ->
  answer_by CA h rt pk pt f vals ->
  (forall t, In t (last_tests f) -> ~ test_by CT rt pt vals (repeat ""%string (List.length (named_columns pt))) t) ->
  let pd := NewPolicyDef pk pt in let rd := NewRequestDef rk rt in
  answers E pk pd rd (as_form rk pk f) F h (map VStr vals) /\
  (forall r, present h (pk :: r) -> (true_for E pd rd (as_form rk pk f) F (map VStr vals) r = true <-> satisfies_by CT rt pt f vals r)) /\
  (forall e, hit E pk pd rd (as_form rk pk f) F h (map VStr vals) e <-> says_by CT h rt pk pt f vals e).
Proof.
  intros W Ah C Lv Fn Ca Last pd rd. destruct (logic_parts E d R h F CT CA mk rk pk rt pt f vals W Ah C Lv Fn Ca) as (An & Ho & Me & Ef & Pr & Add). fold pd rd in An, Ho, Me, Ef.
  split; [split; [exact An|]|split; [exact Me|]].
  - intros e He. rewrite lg_lasts in He. apply in_map_iff in He as [t [<- Ht]]. destruct (holds _ _ _ _ _ _) eqn:X; [|reflexivity].
    exfalso. apply (Last t Ht), (Ho t _ (last_tests_in _ _ Ht)); [right; split; [reflexivity|now left]|exact X].
  - intros ef. split; intros [r (Hp & Ht & He)]; exists r; (split; [exact Hp|]); split; first [now apply (Me r Hp)|now apply (Ef r ef (Add r (Pr r Hp)))].
Qed.
