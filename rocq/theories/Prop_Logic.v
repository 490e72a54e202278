(** Property C92: a matcher of comparisons and function calls decides by its
    logical meaning. *)
From Verif Require Import PathM PathSpec BuiltinM GoBase GoBaseP DefsM DefsP PolicyM PolicySpec PolicyP EffectorM MatcherDefM MatcherDefSpec MatcherDefP MatcherM MatcherSpec MatcherP MatcherP2
  RbacM RbacSpec DomainM DomainSpec EvalM ModelM ModelSpec ModelP ModelP2 ModelP3 ModelP4 ModelP5 ModelP6 EnforcerM EnforcerSpec EnforcerP
  SafeSpec SafeP FunctionsSpec FunctionsP AppSpec AppsSpec MultiSpec LogicSpec.
From Verif Require Import Prop_Path Prop_Builtin Prop_Effect Prop_Defs Prop_Matcher Prop_Model Prop_Enforce Prop_Query Prop_Functions Prop_App Prop_Apps Prop_Multi Prop_Columns.
Local Open Scope list_scope.

Lemma lg_conds rk pk f : conds (as_form rk pk f) = map (test_text rk pk) (tests f).
Proof. induction f as [t|f IH|f IHf g IHg|f IHf g IHg]; cbn [as_form conds tests map]; [reflexivity|exact IH|rewrite map_app; congruence..]. Qed.
Lemma lg_lasts rk pk f : lasts (as_form rk pk f) = map (test_text rk pk) (last_tests f).
Proof. induction f as [t|f IH|f IHf g IHg|f IHf g IHg]; cbn [as_form lasts last_tests map]; [reflexivity|exact IH|exact IHg|rewrite map_app; congruence]. Qed.
Lemma last_tests_in f t : In t (last_tests f) -> In t (tests f).
Proof. induction f as [t0|f IH|f IHf g IHg|f IHf g IHg]; cbn [last_tests tests]; rewrite ?in_app_iff; tauto. Qed.
Lemma lg_sem rk pk T (P : test -> Prop) f : (forall t, In t (tests f) -> (T (test_text rk pk t) = true <-> P t)) ->
  (sem T (as_form rk pk f) = true <-> form_true P f).
Proof.
  induction f as [t|f IH|f IHf g IHg|f IHf g IHg]; cbn [as_form sem form_true tests]; intros H.
  - apply (H t). now left.
  - auto.
  - rewrite andb_true_iff, IHf, IHg; [reflexivity| |]; intros t Ht; apply H, in_or_app; auto.
  - rewrite orb_true_iff, IHf, IHg; [reflexivity| |]; intros t Ht; apply H, in_or_app; auto.
Qed.

(** A function that is no grouping section of the file is the one of the new model. *)
Lemma fn_other k : forall (d : deflist) acc, ~ is_group d k -> fold_left (fn_step k) (set_all d) acc = acc.
Proof.
  induction d as [|[[s x] t] d IH]; intros acc H; [reflexivity|]. cbn [set_all map fold_left]. rewrite IH by (intros [g Hg]; apply H; exists g; now right).
  cbn [fn_step fst snd]. destruct s; try reflexivity. destruct (first_byte x) as [c|]; [|reflexivity].
  destruct (String.eqb_spec x k) as [->|]; [|now rewrite andb_false_r]. destruct H. exists t. now left.
Qed.
Lemma file_fn E d h k : file_history d h -> ~ is_group d k -> fn_source E k h = option_map FUser (mget k (e_builtins E)).
Proof.
  intros (hd & hr1 & ob & hr2 & -> & Hd & H1 & H2) Hn. unfold fn_source. rewrite !map_app, !fold_left_app, Hd, (fn_other k d _ Hn), (ffn_more d hr1 k H1).
  cbn [map snd fold_left fn_step]. now apply (ffn_more d).
Qed.

Lemma value_unique rt pt vals r a u v : NoDup (named_columns rt) -> NoDup (named_columns pt) ->
  term_value rt pt vals r a u -> term_value rt pt vals r a v -> u = v.
Proof.
  intros Nr Np. destruct a as [x|x|s]; cbn; [| |congruence]; intros (n & H1 & H2) (k & H3 & H4).
  - assert (n = k) as <-; [|congruence]. eapply (proj1 (NoDup_nth_error _) Nr); [apply nth_error_Some; congruence|congruence].
  - assert (n = k) as <-; [|congruence]. eapply (proj1 (NoDup_nth_error _) Np); [apply nth_error_Some; congruence|congruence].
Qed.
Lemma values_unique rt pt vals r args us vs : NoDup (named_columns rt) -> NoDup (named_columns pt) ->
  Forall2 (term_value rt pt vals r) args us -> Forall2 (term_value rt pt vals r) args vs -> us = vs.
Proof.
  intros Nr Np H. revert vs. induction H as [|a u args us Ha H IH]; intros vs Hv; inversion Hv; subst; [reflexivity|].
  f_equal; [exact (value_unique _ _ _ _ _ _ _ Nr Np Ha H2)|auto].
Qed.

(** ** C92

    Every file, every matcher of it that is a formula of comparisons (== and !=) of
    request values, rule values and literals, and of calls of role functions, with
    or without domains, and of functions every model has, with any arguments; every
    history of rules around the build, every order of map visits and every
    request of strings.  If the calls have answers, and no test that comes last in an
    alternative is true of the rule of empty values, then Filter reports exactly
    the present rules for which the formula is true, and Enforce answers by the
    effects of these rules, for the three effect definitions. *)
Theorem C92_logical_meaning_partial :
  forall E d R h, well_formed d -> readings E d R -> file_history d h -> good_m h ->
    exists m rs, mexec E (NewModel E) h = Val (m, rs) /\
      forall mk rk pk rt pt f, logical E d R mk rk pk rt pt f ->
      forall o ps vals, good_orders o -> uses_matcher mk ps -> uses_request rk ps ->
        vals_of ps = map VStr vals -> List.length vals = List.length (named_columns rt) ->
        calls_answer E d h rt pk pt f vals ->
        (forall t, In t (last_tests f) -> ~ test_true E d h rt pt vals (repeat ""%string (List.length (named_columns pt))) t) ->
        let e := effect_in_force h ps in
        (exists ms, Filter E o m ps = Val (m, (ms, None)) /\
           forall x, In x ms <-> present h x /\ exists r, x = pk :: r /\ satisfies E d h rt pt f vals r) /\
        (spells e "some(where (p.eft == allow))" ->
           exists b, Enforce E o m ps = Val (m, (b, None)) /\ (b = true <-> says E d h rt pk pt f vals Allow)) /\
        (spells e "!some(where (p.eft == deny))" ->
           exists b, Enforce E o m ps = Val (m, (b, None)) /\ (b = true <-> ~ says E d h rt pk pt f vals Deny)) /\
        (spells e "some(where (p.eft == allow)) && !some(where (p.eft == deny))" -> ~ says E d h rt pk pt f vals Indeterminate ->
           exists b, Enforce E o m ps = Val (m, (b, None)) /\
             (b = true <-> says E d h rt pk pt f vals Allow /\ ~ says E d h rt pk pt f vals Deny)).
Proof.
  intros E d R h W U Ah G. destruct (C87_each_matcher_decides_partial E d R h W U Ah G) as (m & rs & Hm & D). exists m, rs. split; [exact Hm|].
  intros mk rk pk rt pt f C o ps vals Go Um Ur Vp Lv Ca Last eff.
  destruct (lg_matcher _ _ _ _ _ _ _ _ _ C) as [mt Im]. pose proof (lg_reading _ _ _ _ _ _ _ _ _ C) as ER.
  pose proof (lg_request _ _ _ _ _ _ _ _ _ C) as Ir. pose proof (lg_policy _ _ _ _ _ _ _ _ _ C) as Ip.
  pose proof (lg_rcols _ _ _ _ _ _ _ _ _ C) as Nr. pose proof (lg_pcols _ _ _ _ _ _ _ _ _ C) as Np.
  pose proof (lg_terms _ _ _ _ _ _ _ _ _ C) as Tm. pose proof (lg_plain _ _ _ _ _ _ _ _ _ C) as Pl.
  pose proof (lg_eval _ _ _ _ _ _ _ _ _ C) as Ev. rewrite Forall_forall in Ev.
  set (F := functions o m) in *. set (pd := NewPolicyDef pk pt). set (rd := NewRequestDef rk rt).
  pose proof (p_byte _ _ _ (proj2 W) Ip) as Kp. pose proof (proj2 W _ _ _ Ir) as Kr.
  assert (Lr : List.length vals = List.length (ad_args rd)) by exact Lv.
  set (none := repeat ""%string (List.length (named_columns pt))) in *.
  (* the values of terms *)
  assert (TV : forall r a u, List.length r = List.length (ad_args pd) -> term_value rt pt vals r a u ->
             term_gets rk pk (ParamGet pd r rd (map VStr vals)) a u).
  { intros r a u L. destruct a as [x|x|s]; cbn; [| |auto]; intros (n & Hn & Hu).
    - exact (val_r pd r rk rt vals n x u Kr Nr Lr Hn Hu).
    - exact (val_p pk pt r rd (map VStr vals) n x u Kp Np L Hn Hu). }
  assert (TE : forall r a t, List.length r = List.length (ad_args pd) -> In t (tests f) -> In a (test_terms t) -> exists u, term_value rt pt vals r a u).
  { intros r a t L Ht Hat. specialize (Tm t a Ht Hat). destruct a as [x|x|s]; cbn; [| |eauto].
    - destruct (In_nth_error _ _ Tm) as [n Hn]. destruct (nth_error vals n) as [u|] eqn:Eu; [eauto|].
      apply nth_error_None in Eu. rewrite Lv in Eu. apply nth_error_None in Eu. congruence.
    - destruct (In_nth_error _ _ Tm) as [n Hn]. destruct (nth_error r n) as [u|] eqn:Eu; [eauto|].
      apply nth_error_None in Eu. rewrite L in Eu. change (ad_args pd) with (named_columns pt) in Eu. apply nth_error_None in Eu. congruence. }
  assert (TL : forall r args t, List.length r = List.length (ad_args pd) -> In t (tests f) -> incl args (test_terms t) -> exists us, Forall2 (term_value rt pt vals r) args us).
  { intros r args t L Ht. induction args as [|a args IH]; intros Hi; [exists []; constructor|].
    destruct (TE r a t L Ht (Hi a (or_introl eq_refl))) as [u Hu]. destruct IH as [us Hus]; [intros y Hy; apply Hi; now right|]. exists (u :: us). now constructor. }
  (* the functions *)
  assert (Fn : forall g us, call_answers E d g us -> exists fg v, F g = Some fg /\ fg (map VStr us) = Val (inl (VBool v)) /\ (v = true <-> call_true E d h g us)).
  { intros g us [(gt & a & b & ds & Hg & -> & Hu)|(Hn & fg & v & Hf & Hv)].
    - destruct (file_links d h g gt W Ah Hg) as [cl Hl]. unfold fresh_manager in Hl.
      assert (Gs : forall gt', In (G_SEC, g, gt') d -> gt' = gt).
      { intros gt' Hg'. apply (defs_in G_SEC g d (proj2 W) (proj1 W)) in Hg, Hg'. congruence. }
      change (rd_nargs (NewRoleDef "" gt)) with (rd_nargs (NewRoleDef g gt)) in Hl.
      assert (Eq : forall v, (v = true <-> linked_by h g gt a b ds) -> (v = true <-> call_true E d h g (a :: b :: ds))).
      { intros v Hv. rewrite Hv. split; [intros X; left; exists gt, a, b, ds; auto|]. intros [(gt' & a' & b' & ds' & Hg' & X & Y)|(X & _)].
        - injection X as <- <- <-. rewrite (Gs gt' Hg') in Y. exact Y.
        - exfalso. apply X. now exists gt. }
      destruct (Nat.eqb (rd_nargs (NewRoleDef g gt)) 2) eqn:En.
      + destruct (C66_role_function E h m rs o g cl G Go (file_good_tame d h W Ah) Hm (g_byte _ _ _ (proj2 W) Hg) (file_role E d h g gt W Ah Hg) Hl) as [fg [Fg Hfg]].
        destruct (Hfg a b ds) as [v [Hv Hi]]. exists fg, v. split; [exact Fg|]. split; [exact Hv|]. apply Eq. unfold linked_by. rewrite En, Hi.
        split; (intros [X|(n & X)]; [now left|right; exists n; tauto]).
      + destruct (C66_domain_function E h m rs o g cl ds G Go (file_good_tame d h W Ah) Hm (g_byte _ _ _ (proj2 W) Hg) (file_role E d h g gt W Ah Hg) Hl Hu) as [fg [Fg Hfg]].
        destruct (Hfg a b) as [v [Hv Hi]]. exists fg, v. split; [exact Fg|]. split; [exact Hv|]. apply Eq. unfold linked_by. rewrite En, Hi.
        split; (intros [X|(n & X)]; [now left|right; exists n; tauto]).
    - exists fg, v. split; [|split; [exact Hv|]].
      + apply (C66_registered E h m rs o g Hm). rewrite (file_fn E d h g Ah Hn), Hf. reflexivity.
      + split.
        * intros ->. right. split; [exact Hn|]. exists fg. auto.
        * intros [(gt & a & b & ds & Hg & _)|(_ & fg' & Hf' & Hv')]; [exfalso; apply Hn; now exists gt|]. rewrite Hf in Hf'. injection Hf' as <-. congruence. }
  (* the value of one test *)
  assert (One : forall t r, In t (tests f) -> List.length r = List.length (ad_args pd) ->
            added_to pk h r \/ (r = none /\ (In t (last_tests f) \/ forall r', ~ present h (pk :: r'))) ->
            parses (e_eval E F) (test_text rk pk t) = true /\
            exists v, ev (e_eval E F) (test_text rk pk t) (ParamGet pd r rd (map VStr vals)) = Val (inl (VBool v)) /\ (v = true <-> test_true E d h rt pt vals r t)).
  { intros t r Ht L Hr. specialize (Ev t Ht). unfold test_evaluates in Ev. destruct t as [a b|a b|g args|a s1 s2 ss].
    - destruct (Ev F) as (P1 & _ & P3); [discriminate|]. split; [exact P1|].
      destruct (TE r a _ L Ht (or_introl eq_refl)) as [u Hu]. destruct (TE r b _ L Ht (or_intror (or_introl eq_refl))) as [v Hv].
      exists (String.eqb u v). split; [exact (P3 _ u v (TV r a u L Hu) (TV r b v L Hv))|]. cbn [test_true]. rewrite String.eqb_eq. split; [intros <-; eauto|].
      intros (x & H1 & H2). rewrite (value_unique _ _ _ _ _ _ _ Nr Np Hu H1), (value_unique _ _ _ _ _ _ _ Nr Np Hv H2). reflexivity.
    - destruct (Ev F) as (P1 & _ & P3); [discriminate|]. split; [exact P1|].
      destruct (TE r a _ L Ht (or_introl eq_refl)) as [u Hu]. destruct (TE r b _ L Ht (or_intror (or_introl eq_refl))) as [v Hv].
      exists (negb (String.eqb u v)). split; [exact (P3 _ u v (TV r a u L Hu) (TV r b v L Hv))|]. cbn [test_true]. rewrite negb_true_iff, String.eqb_neq. split; [intros X; exists u, v; auto|].
      intros (x & y & H1 & H2 & X). rewrite (value_unique _ _ _ _ _ _ _ Nr Np Hu H1), (value_unique _ _ _ _ _ _ _ Nr Np Hv H2). exact X.
    - destruct (TL r args _ L Ht (incl_refl _)) as [us Hus]. destruct (Fn g us (Ca r g args us Ht Hr Hus)) as (fg & v & Hf & Hv & Hi).
      destruct (Ev F) as (P1 & _ & P3); [intros ? ? X; injection X as <- <-; congruence|]. split; [exact P1|].
      exists v. split.
      + rewrite (P3 _ fg us Hf); [exact Hv|]. clear - Hus TV L. induction Hus; constructor; auto.
      + rewrite Hi. cbn [test_true]. split; [eauto|]. intros (us' & H1 & H2). now rewrite (values_unique _ _ _ _ _ _ _ Nr Np Hus H1).
    - destruct (Ev F) as (P1 & _ & P3); [discriminate|]. split; [exact P1|].
      destruct (TE r a _ L Ht (or_introl eq_refl)) as [u Hu].
      exists (existsb (String.eqb u) (s1 :: s2 :: ss)). split; [exact (P3 _ u (TV r a u L Hu))|]. cbn [test_true]. rewrite existsb_exists. split.
      + intros (x & Hx & X). apply String.eqb_eq in X as ->. eauto.
      + intros (x & H1 & H2). exists x. split; [exact H2|]. apply String.eqb_eq. exact (value_unique _ _ _ _ _ _ _ Nr Np Hu H1). }
  assert (Add : forall r, added_to pk h r -> List.length r = List.length (ad_args pd)) by (intros r Hr; eapply added_columns; eassumption).
  assert (Ln : List.length none = List.length (ad_args pd)) by apply repeat_length.
  assert (An : answers E pk pd rd (as_form rk pk f) F h (map VStr vals)).
  { split.
    - intros e He. rewrite lg_conds in He. apply in_map_iff in He as [t [<- Ht]].
      assert (HV : forall r, added_to pk h r -> has_values pd (test_text rk pk t) r).
      { intros r Hr x Hx. destruct (Pl t x Ht Hx) as (y & Hy & ->). destruct (In_nth_error _ _ Hy) as [n Hn].
        pose proof (GetParameter_nth pk pt r n y Np Hn) as X. cbv zeta in X. change NewArgDef with NewPolicyDef in X. fold pd in X. rewrite (Add r Hr), Nat.ltb_irrefl in X.
        rewrite X. intros N. apply nth_error_None in N. rewrite (Add r Hr) in N. change (ad_args pd) with (named_columns pt) in N. apply nth_error_None in N. congruence. }
      split; [|split].
      + intros r Hr. split; [now apply HV|]. destruct (One t r Ht (Add r Hr) (or_introl Hr)) as (P1 & v & P3 & _). split; [exact P1|eauto].
      + intros r r' Hr. assert (P2 : reads_only_named (e_eval E F) (test_text rk pk t)); [|exact (named_own (e_eval E F) pd rd (map VStr vals) _ (added_to pk h) HV P2 r r' Hr)].
        apply (Ev t Ht F). intros g args ->. destruct (TL r args _ (Add r Hr) Ht (incl_refl _)) as [us Hus].
        destruct (Fn g us (Ca r g args us Ht (or_introl Hr) Hus)) as (fg & v & Hf & _). congruence.
      + intros [Hl|Hl].
        * rewrite lg_lasts in Hl. apply in_map_iff in Hl as [t' [<- Hl]].
          destruct (One t' none (last_tests_in _ _ Hl) Ln (or_intror (conj eq_refl (or_introl Hl)))) as (P1 & v & P3 & _). split; [exact P1|eauto].
        * destruct (One t none Ht Ln (or_intror (conj eq_refl (or_intror Hl)))) as (P1 & v & P3 & _). split; [exact P1|eauto].
    - intros e He. rewrite lg_lasts in He. apply in_map_iff in He as [t [<- Ht]].
      destruct (One t none (last_tests_in _ _ Ht) Ln (or_intror (conj eq_refl (or_introl Ht)))) as (_ & v & P3 & P4). unfold holds.
      change (blank pd) with none. rewrite P3. destruct v; [|reflexivity]. exfalso. now apply (Last t Ht), P4. }
  assert (Pr : forall r, present h (pk :: r) -> added_to pk h r).
  { intros r [[_ [ops [Ho Hr]]]|[X _]]; [|destruct (pg_key _ Kp X)].
    assert (Hi : In (PAdd r) ops) by (rewrite <- (app_nil_r ops); now apply recorded_adds).
    destruct (pk_adds pk r _ _ _ Ho Hi) as [[l [X _]]|X]; [discriminate|exact X]. }
  assert (Me : forall r, present h (pk :: r) -> (true_for E pd rd (as_form rk pk f) F (map VStr vals) r = true <-> satisfies E d h rt pt f vals r)).
  { intros r Hr. apply lg_sem. intros t Ht. destruct (One t r Ht (Add r (Pr r Hr)) (or_introl (Pr r Hr))) as (_ & v & P3 & P4).
    unfold holds. rewrite P3, <- P4. destruct v; split; congruence. }
  assert (Ef : forall r e, present h (pk :: r) -> (GetEft pd (pk :: r) = e <-> rule_effect pt r e)).
  { intros r e Hr. pose proof (Add r (Pr r Hr)) as L. unfold rule_effect. destruct (in_dec string_dec "eft"%string (named_columns pt)) as [Hi|Hn].
    - destruct (In_nth_error _ _ Hi) as [n Hn]. destruct (nth_error r n) as [s|] eqn:Es.
      2:{ apply nth_error_None in Es. rewrite L in Es. change (ad_args pd) with (named_columns pt) in Es. apply nth_error_None in Es. congruence. }
      unfold pd. rewrite (C23_effect_column_partial pk pt r n s Np Hn L Es). split.
      + intros <-. right. eauto.
      + intros [[X _]|(k & s' & X & Y & ->)]; [contradiction|]. f_equal.
        assert (n = k) as <- by (eapply (proj1 (NoDup_nth_error _) Np); [apply nth_error_Some; congruence|congruence]). congruence.
    - unfold pd. rewrite (C23_no_effect_column pk pt r Hn). split; [intros <-; now left|].
      intros [[_ ->]|(k & s' & X & _)]; [reflexivity|]. exfalso. apply Hn. eapply nth_error_In; exact X. }
  specialize (D mk mt pt rk rt o ps Im). rewrite ER in D. cbn [fst snd] in D. specialize (D Ip Ir Um Ur Go). cbv zeta in D. rewrite Vp in D. change (NewPolicyDef pk pt) with pd in D. change (NewRequestDef rk rt) with rd in D. change (functions o m) with F in D.
  destruct (D An) as ((ms & HF & Hms) & D1 & D2 & D3).
  assert (Hc : forall ef, hit E pk pd rd (as_form rk pk f) F h (map VStr vals) ef <-> says E d h rt pk pt f vals ef).
  { intros ef. split; intros [r (Hp & Ht & He)]; exists r; (split; [exact Hp|]); split; first [now apply (Me r Hp)|now apply (Ef r ef Hp)]. }
  split; [|split; [|split]].
  - exists ms. split; [exact HF|]. intros x. rewrite Hms. split.
    + intros [r [-> [Hp Ht]]]. split; [exact Hp|]. exists r. split; [reflexivity|]. now apply (Me r Hp).
    + intros [Hp (r & -> & Ht)]. exists r. split; [reflexivity|]. split; [exact Hp|]. now apply (Me r Hp).
  - intros Sp. destruct (D1 Sp) as [b [HE Hb]]. exists b. split; [exact HE|]. now rewrite Hb, Hc.
  - intros Sp. destruct (D2 Sp) as [b [HE Hb]]. exists b. split; [exact HE|]. now rewrite Hb, Hc.
  - intros Sp Hi. rewrite <- Hc in Hi. destruct (D3 Sp Hi) as [b [HE Hb]]. exists b. split; [exact HE|]. now rewrite Hb, !Hc.
Qed.
Print Assumptions C92_logical_meaning_partial.

(** ** Examples

    A govaluate that reads one matcher when the functions [names] are registered,
    and evaluates its conditions. *)
Definition one_env (names : list string) (t : string) (f : form) (L : lib) : env :=
  mkEnv (fun n => n)
    (fun fns s => if forallb (fun k => if in_dec string_dec k fns then true else false) names
                  then if String.eqb s (arg_replace t) then Some (written f) else None else None)
    (fun fs => mini (flat_map (fun k => match fs k with Some f => [(k, f)] | None => [] end) names))
    (DefaultFunctionMap L (fun m => m) []).
Lemma one_reads names t f L d : atoms_ok f -> parsed f -> faithful f = true -> two_way f = true ->
  (forall k, In k names -> (exists g, In (G_SEC, k, g) d) \/ In k (mkeys (DefaultFunctionMap L (fun m => m) []))) ->
  (forall e x, In e (conds f) -> In x (p_args e) -> exists y, x = ("p_" ++ y)%string) ->
  reads_over (one_env names t f L) d t f "p".
Proof.
  intros A P Fa Tw Nm Pn. constructor; auto.
  - intros fns Hg Hb. cbn [e_parse one_env]. assert (forallb (fun k => if in_dec string_dec k fns then true else false) names = true) as ->; [|now rewrite String.eqb_refl].
    apply forallb_forall. intros k Hk. destruct (in_dec string_dec k fns) as [|n]; [reflexivity|]. destruct n. destruct (Nm k Hk) as [[g X]|X]; [exact (Hg k g X)|exact (Hb k X)].
  - intros fns. cbn [e_parse one_env]. rewrite String.eqb_refl. destruct (forallb _ names); auto.
Qed.

(** Roles in domains, paths, and a literal. *)
Definition shop_text : string := "g(r.sub, p.sub, r.dom) && r.dom == p.dom && pathMatch(r.obj, p.obj) && (p.act == '*' || r.act == p.act)".
Definition shop_defs : deflist :=
  [(R_SEC, "r", "sub, dom, obj, act"); (P_SEC, "p", "sub, dom, obj, act, eft"); (G_SEC, "g", "_, _, _");
   (E_SEC, "e", "some(where (p.eft == allow)) && !some(where (p.eft == deny))"); (M_SEC, "m", shop_text)]%string.
Definition shop : mform :=
  MAnd (MAnd (MAnd (MTest (Call "g" [TReq "sub"; TPol "sub"; TReq "dom"])) (MTest (Equal (TReq "dom") (TPol "dom"))))
             (MTest (Call "pathMatch" [TReq "obj"; TPol "obj"])))
       (MPar (MOr (MTest (Equal (TPol "act") (TLit "*"))) (MTest (Equal (TReq "act") (TPol "act"))))).
Definition shop_forms (k : string) : form * string := (as_form "r" "p" shop, "p"%string).
Definition shop_env (L : lib) : env := one_env ["g"; "pathMatch"]%string shop_text (as_form "r" "p" shop) L.
Lemma shop_wf : well_formed shop_defs.
Proof.
  split; [repeat (apply NoDup_cons; [cbn; intuition discriminate|]); apply NoDup_nil|].
  intros s k t H. repeat (destruct H as [H|H]; [injection H as <- <- <-; eexists; split; reflexivity|]). destruct H.
Qed.
Ltac atom_tac := repeat split; apply atom_checked; reflexivity.
Ltac plain_tac := intros e x He Hx; vm_compute in He; repeat (destruct He as [<-|He]; [vm_compute in Hx; repeat (destruct Hx as [<-|Hx]; [now eexists|]); destruct Hx|]); destruct He.
Lemma shop_reads L : readings (shop_env L) shop_defs shop_forms.
Proof.
  intros mk t H. repeat (destruct H as [H|H]; [first [discriminate H|injection H as <- <-]|]); [|destruct H]. split; [|eexists; cbn; tauto].
  apply one_reads; try reflexivity; [atom_tac|repeat split| |plain_tac].
  intros k [<-|[<-|[]]]; [left; eexists; cbn; tauto|right; vm_compute; tauto].
Qed.
(** One comparison or call of [mini]. *)
Ltac reads_tac := intros get get' A B; cbn;
  repeat match goal with |- context [get ?x] => first [rewrite (A x) by (vm_compute; tauto)|rewrite (B x) by discriminate] end.
Ltac eq_tac := intros F _; split; [reflexivity|]; split;
  [reads_tac; reflexivity|intros get u v Ha Hb; cbn in Ha, Hb |- *; subst; rewrite ?Ha, ?Hb; reflexivity].
Ltac args_tac := repeat match goal with
  | H : Forall2 _ (_ :: _) _ |- _ => inversion H; clear H; subst
  | H : Forall2 _ [] _ |- _ => inversion H; clear H; subst
  end.
Ltac shop_call := intros F Hf; specialize (Hf _ _ eq_refl); cbn [e_eval shop_env one_env flat_map];
  destruct (F "g"%string) eqn:E1, (F "pathMatch"%string) eqn:E2; try contradiction;
  (split; [reflexivity|]; split; [reads_tac; reflexivity|intros get f us Hg Hu; args_tac; cbn in *;
   repeat match goal with H : get _ = _ |- _ => rewrite H; clear H end; congruence]).
Lemma distinct_columns t : nodup string_dec (named_columns t) = named_columns t -> NoDup (named_columns t).
Proof. intros <-. apply NoDup_nodup. Qed.
Lemma shop_logical L : logical (shop_env L) shop_defs shop_forms "m" "r" "p" "sub, dom, obj, act" "sub, dom, obj, act, eft" shop.
Proof.
  constructor; [eexists; cbn; tauto|reflexivity|cbn; tauto|cbn; tauto| | | | |].
  - apply distinct_columns; reflexivity.
  - apply distinct_columns; reflexivity.
  - intros t a Ht Ha. repeat (destruct Ht as [<-|Ht]; [repeat (destruct Ha as [<-|Ha]; [cbn; tauto|]); destruct Ha|]). destruct Ht.
  - intros t x Ht Hx. repeat (destruct Ht as [<-|Ht]; [vm_compute in Hx; repeat (destruct Hx as [<-|Hx]; [eexists; split; [|reflexivity]; cbn; tauto|]); destruct Hx|]). destruct Ht.
  - apply Forall_cons; [shop_call|]. apply Forall_cons; [eq_tac|]. apply Forall_cons; [shop_call|]. apply Forall_cons; [eq_tac|]. apply Forall_cons; [eq_tac|apply Forall_nil].
Qed.
(** Every request with a domain that is no reserved name and an action has the
    properties the theorem asks for. *)
Lemma shop_answers L h s dm ob a : ~ reserved dm -> a <> ""%string ->
  calls_answer (shop_env L) shop_defs h "sub, dom, obj, act" "p" "sub, dom, obj, act, eft" shop [s; dm; ob; a] /\
  (forall t, In t (last_tests shop) ->
     ~ test_true (shop_env L) shop_defs h "sub, dom, obj, act" "sub, dom, obj, act, eft" [s; dm; ob; a] (repeat ""%string (List.length (named_columns "sub, dom, obj, act, eft"))) t).
Proof.
  intros Hd Ha. split.
  - intros r g args us Ht _ Hu. repeat (destruct Ht as [Ht|Ht]; [first [discriminate Ht|injection Ht as <- <-]|]); [| |destruct Ht]; args_tac.
    + left. eexists _, _, _, _. split; [cbn; tauto|]. split; [reflexivity|]. apply Forall_cons; [|apply Forall_nil].
      match goal with H : term_value _ _ _ _ _ ?u |- ~ reserved ?u => destruct H as (n & K1 & K2) end.
      do 4 (destruct n as [|n]; [try discriminate K1; injection K2 as <-; exact Hd|]). destruct n; discriminate K1.
    + right. split; [intros [gt X]; cbn in X; intuition discriminate|]. eexists _, _. split; reflexivity.
  - intros t [<-|[<-|[]]] (x & H1 & H2); cbn [term_value] in H1, H2.
    + subst x. destruct H1 as (n & H1 & H2). do 5 (destruct n as [|n]; [discriminate H2|]). destruct n; discriminate H2.
    + destruct H2 as (n & _ & H2). assert (x = ""%string) as ->.
      { do 5 (destruct n as [|n]; [injection H2 as <-; reflexivity|]). destruct n; discriminate H2. }
      destruct H1 as (k & H1 & H3). do 4 (destruct k as [|k]; [try discriminate H1; injection H3 as H3; now apply Ha|]). destruct k; discriminate H1.
Qed.
Definition shop_l1 : list mcall :=
  [CAdd ["p"; "clerk"; "berlin"; "/orders/:id"; "*"; "allow"]; CAdd ["p"; "alice"; "berlin"; "/orders/9"; "delete"; "deny"]; CAdd ["g"; "alice"; "boss"; "berlin"];
   CAdd ["g"; "bob"; "clerk"; "berlin"]]%string.
Definition shop_l2 : list mcall := [CAdd ["g"; "boss"; "clerk"; "berlin"]; CRemove ["g"; "bob"; "clerk"; "berlin"]]%string.
Definition shop_h : list (orders * mcall) :=
  map (fun x => (ex_o, x)) (set_all shop_defs) ++ map (fun x => (ex_rev, x)) shop_l1 ++ (ex_rev, CBuild) :: map (fun x => (ex_o, x)) shop_l2.
Ltac dom_tac := repeat (apply Forall_cons; [cbn [file_call]; first
  [left; eexists _, _, _; split; [reflexivity|]; split; [cbn; tauto|]; split; [split; [discriminate|repeat (apply Forall_cons; [reflexivity|]); apply Forall_nil]|reflexivity]
  |right; eexists _, _, _, _, _; split; [reflexivity|]; split; [cbn; tauto|]; repeat (apply Forall_cons; [intros [X|X]; discriminate X|]); apply Forall_nil]|]); apply Forall_nil.
Example C92_ex : forall L,
  well_formed shop_defs /\ readings (shop_env L) shop_defs shop_forms /\ file_history shop_defs shop_h /\ good_m shop_h /\
  logical (shop_env L) shop_defs shop_forms "m" "r" "p" "sub, dom, obj, act" "sub, dom, obj, act, eft" shop /\
  (forall l, uses_matcher "m" (map (fun v => PVal (VStr v)) l) /\ uses_request "r" (map (fun v => PVal (VStr v)) l) /\
     spells (effect_in_force shop_h (map (fun v => PVal (VStr v)) l)) "some(where (p.eft == allow)) && !some(where (p.eft == deny))") /\
  ask (shop_env L) shop_h ["alice"; "berlin"; "/orders/7"; "delete"]%string = Val (true, None) /\
  ask (shop_env L) shop_h ["alice"; "berlin"; "/orders/9"; "delete"]%string = Val (false, None) /\
  ask (shop_env L) shop_h ["alice"; "berlin"; "/orders/9"; "read"]%string = Val (true, None) /\
  ask (shop_env L) shop_h ["alice"; "paris"; "/orders/7"; "delete"]%string = Val (false, None) /\
  ask (shop_env L) shop_h ["bob"; "berlin"; "/orders/7"; "read"]%string = Val (false, None) /\
  ask (shop_env L) shop_h ["alice"; "berlin"; "/orders/7/x"; "read"]%string = Val (false, None).
Proof.
  intros L. split; [exact shop_wf|]. split; [apply shop_reads|]. split.
  { exists (map (fun x => (ex_o, x)) (set_all shop_defs)), (map (fun x => (ex_rev, x)) shop_l1), ex_rev, (map (fun x => (ex_o, x)) shop_l2).
    split; [reflexivity|]. split; [rewrite map_map; apply map_id|]. split; apply Forall_map; [unfold shop_l1|unfold shop_l2]; cbn [snd]; dom_tac. }
  split.
  { unfold good_m, shop_h. apply Forall_app. split; [|apply Forall_app; split; [|constructor; [apply ex_rev_good|]]];
      apply Forall_map, Forall_forall; intros x _; first [apply ex_o_good|apply ex_rev_good]. }
  split; [apply shop_logical|]. split.
  { intros l. assert (Ol : opts_of (map (fun v => PVal (VStr v)) l) = []) by (rewrite <- (map_map VStr PVal); apply opts_PVal).
    unfold uses_matcher, uses_request, effect_in_force. rewrite Ol.
    split; [split; [constructor|now left]|]. split; [split; [constructor|now left]|]. reflexivity. }
  repeat split; vm_compute; reflexivity.
Qed.

(** The full statement, without the hypotheses about the rule of empty values, is
    false of two model files in examples/.

    pathmatch_model.conf: its matcher ends with a test that is true of the rule of
    empty values (the empty regular expression is found in every text).  After a
    rule is removed the request it allowed is still allowed, although no rule is
    left. *)
Definition path_text : string := "r.sub == p.sub && pathMatch(r.obj, p.obj) && regexMatch(r.act, p.act)".
Definition acl_defs (m : string) : deflist :=
  [(R_SEC, "r", "sub, obj, act"); (P_SEC, "p", "sub, obj, act"); (E_SEC, "e", "some(where (p.eft == allow))"); (M_SEC, "m", m)]%string.
Definition path : mform :=
  MAnd (MAnd (MTest (Equal (TReq "sub") (TPol "sub"))) (MTest (Call "pathMatch" [TReq "obj"; TPol "obj"])))
       (MTest (Call "regexMatch" [TReq "act"; TPol "act"])).
Definition path_env (L : lib) : env := one_env ["pathMatch"; "regexMatch"]%string path_text (as_form "r" "p" path) L.
(** ipmatch_model.conf: while there is no rule, its first test is tried on the rule
    of empty values, and the empty text is no address. *)
Definition ip_text : string := "ipMatch(r.sub, p.sub) && r.obj == p.obj && r.act == p.act".
Definition ip : mform :=
  MAnd (MAnd (MTest (Call "ipMatch" [TReq "sub"; TPol "sub"])) (MTest (Equal (TReq "obj") (TPol "obj"))))
       (MTest (Equal (TReq "act") (TPol "act"))).
Definition ip_env (L : lib) : env := one_env ["ipMatch"]%string ip_text (as_form "r" "p" ip) L.
Definition over_p (f : mform) (k : string) : form * string := (as_form "r" "p" f, "p"%string).
Lemma acl_wf m : well_formed (acl_defs m).
Proof.
  split; [repeat (apply NoDup_cons; [cbn; intuition discriminate|]); apply NoDup_nil|].
  intros s k t H. repeat (destruct H as [H|H]; [injection H as <- <- <-; eexists; split; reflexivity|]). destruct H.
Qed.
Lemma path_reads L : readings (path_env L) (acl_defs path_text) (over_p path).
Proof.
  intros mk t H. repeat (destruct H as [H|H]; [first [discriminate H|injection H as <- <-]|]); [|destruct H]. split; [|eexists; cbn; tauto].
  apply one_reads; try reflexivity; [atom_tac|repeat split| |plain_tac].
  intros k [<-|[<-|[]]]; right; vm_compute; tauto.
Qed.
Lemma ip_reads L : readings (ip_env L) (acl_defs ip_text) (over_p ip).
Proof.
  intros mk t H. repeat (destruct H as [H|H]; [first [discriminate H|injection H as <- <-]|]); [|destruct H]. split; [|eexists; cbn; tauto].
  apply one_reads; try reflexivity; [atom_tac|repeat split| |plain_tac].
  intros k [<-|[]]; right; vm_compute; tauto.
Qed.
Ltac call_of_tac := 
  (split; [reflexivity|]; split; [reads_tac; reflexivity|intros get f us Hg Hu; args_tac; cbn in *;
   repeat match goal with H : get _ = _ |- _ => rewrite H; clear H end; congruence]).
Ltac terms_tac := intros t a Ht Ha; repeat (destruct Ht as [<-|Ht]; [repeat (destruct Ha as [<-|Ha]; [cbn; tauto|]); destruct Ha|]); destruct Ht.
Ltac columns_tac := intros t x Ht Hx; repeat (destruct Ht as [<-|Ht]; [vm_compute in Hx; repeat (destruct Hx as [<-|Hx]; [eexists; split; [|reflexivity]; cbn; tauto|]); destruct Hx|]); destruct Ht.
Lemma path_logical L : logical (path_env L) (acl_defs path_text) (over_p path) "m" "r" "p" "sub, obj, act" "sub, obj, act" path.
Proof.
  constructor; [eexists; cbn; tauto|reflexivity|cbn; tauto|cbn; tauto|apply distinct_columns; reflexivity|apply distinct_columns; reflexivity|terms_tac|columns_tac|].
  assert (C : forall F : string -> option gofn, e_eval (path_env L) F = mini (flat_map (fun k => match F k with Some f => [(k, f)] | None => [] end) ["pathMatch"; "regexMatch"]%string)) by reflexivity.
  apply Forall_cons; [eq_tac|]. apply Forall_cons; [|apply Forall_cons; [|apply Forall_nil]];
    (intros F Hf; specialize (Hf _ _ eq_refl); rewrite C; cbn [flat_map]; destruct (F "pathMatch"%string) eqn:E1, (F "regexMatch"%string) eqn:E2; try contradiction; call_of_tac).
Qed.
Lemma ip_logical L : logical (ip_env L) (acl_defs ip_text) (over_p ip) "m" "r" "p" "sub, obj, act" "sub, obj, act" ip.
Proof.
  constructor; [eexists; cbn; tauto|reflexivity|cbn; tauto|cbn; tauto|apply distinct_columns; reflexivity|apply distinct_columns; reflexivity|terms_tac|columns_tac|].
  assert (C : forall F : string -> option gofn, e_eval (ip_env L) F = mini (flat_map (fun k => match F k with Some f => [(k, f)] | None => [] end) ["ipMatch"]%string)) by reflexivity.
  apply Forall_cons; [|apply Forall_cons; [eq_tac|apply Forall_cons; [eq_tac|apply Forall_nil]]].
  intros F Hf; specialize (Hf _ _ eq_refl); rewrite C; cbn [flat_map]; destruct (F "ipMatch"%string) eqn:E1; try contradiction; call_of_tac.
Qed.
Definition after (d : deflist) (l1 l2 : list mcall) : list (orders * mcall) :=
  map (fun x => (ex_o, x)) (set_all d) ++ map (fun x => (ex_rev, x)) l1 ++ (ex_rev, CBuild) :: map (fun x => (ex_o, x)) l2.
Lemma after_file d l1 l2 : Forall (file_call d) l1 -> Forall (file_call d) l2 -> file_history d (after d l1 l2) /\ good_m (after d l1 l2).
Proof.
  intros H1 H2. split.
  - exists (map (fun x => (ex_o, x)) (set_all d)), (map (fun x => (ex_rev, x)) l1), ex_rev, (map (fun x => (ex_o, x)) l2).
    split; [reflexivity|]. split; [rewrite map_map; apply map_id|]. split; apply Forall_map; assumption.
  - unfold good_m, after. apply Forall_app. split; [|apply Forall_app; split; [|constructor; [apply ex_rev_good|]]];
      apply Forall_map, Forall_forall; intros x _; first [apply ex_o_good|apply ex_rev_good].
Qed.
Definition path_h : list (orders * mcall) :=
  after (acl_defs path_text) [CAdd ["p"; "alice"; "/orders/:id"; "GET"]%string] [CRemove ["p"; "alice"; "/orders/:id"; "GET"]%string].
Theorem C92_revoked_refuted :
  forall L : lib, (forall s, l_regex L "" s = Some true) ->
    well_formed (acl_defs path_text) /\ readings (path_env L) (acl_defs path_text) (over_p path) /\
    file_history (acl_defs path_text) path_h /\ good_m path_h /\
    logical (path_env L) (acl_defs path_text) (over_p path) "m" "r" "p" "sub, obj, act" "sub, obj, act" path /\
    (forall r, ~ present path_h ("p"%string :: r)) /\
    ask (path_env L) path_h ["alice"; "/orders/7"; "GET"]%string = Val (true, None) /\
    ask (path_env L) path_h ["alice"; "/orders/7"; "DELETE"]%string = Val (true, None).
Proof.
  intros L HL. split; [apply acl_wf|]. split; [apply path_reads|].
  destruct (after_file (acl_defs path_text) [CAdd ["p"; "alice"; "/orders/:id"; "GET"]%string] [CRemove ["p"; "alice"; "/orders/:id"; "GET"]%string]) as [H1 H2]; [dom_tac|dom_tac|].
  split; [exact H1|]. split; [exact H2|]. split; [apply path_logical|]. split.
  { intros r [[_ (ops & Ho & Hr)]|[X _]]; [|discriminate X]. vm_compute in Ho. injection Ho as <-. unfold set_of, set_step, set_remove, set_add, set_empty in Hr. cbn [fold_left] in Hr.
    destruct (rule_eqb r ["alice"; "/orders/:id"; "GET"]%string); discriminate Hr. }
  split; vm_compute; now rewrite HL.
Qed.
Print Assumptions C92_revoked_refuted.
Theorem C92_no_rule_refuted :
  forall L : lib,
    well_formed (acl_defs ip_text) /\ readings (ip_env L) (acl_defs ip_text) (over_p ip) /\
    file_history (acl_defs ip_text) (after (acl_defs ip_text) [] []) /\ good_m (after (acl_defs ip_text) [] []) /\
    logical (ip_env L) (acl_defs ip_text) (over_p ip) "m" "r" "p" "sub, obj, act" "sub, obj, act" ip /\
    ask (ip_env L) (after (acl_defs ip_text) [] []) ["192.168.2.1"; "data1"; "read"]%string = Panic /\
    ask (ip_env L) (after (acl_defs ip_text) [CAdd ["p"; "192.168.2.0/24"; "data1"; "read"]%string] []) ["192.168.2.1"; "data1"; "read"]%string = Val (true, None).
Proof.
  intros L. split; [apply acl_wf|]. split; [apply ip_reads|].
  destruct (after_file (acl_defs ip_text) [] []) as [H1 H2]; [apply Forall_nil|apply Forall_nil|].
  split; [exact H1|]. split; [exact H2|]. split; [apply ip_logical|]. split; vm_compute; reflexivity.
Qed.
Print Assumptions C92_no_rule_refuted.
