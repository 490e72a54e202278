(** Property C96: a query that brings its own matcher is answered by the logical
    meaning of that matcher, for the rules present at the time of the call. *)
From Verif Require Import PathM PathSpec BuiltinM GoBase GoBaseP DefsM DefsP PolicyM PolicySpec PolicyP EffectorM MatcherDefM MatcherDefSpec MatcherDefP MatcherM MatcherSpec MatcherP MatcherP2
  RbacM RbacSpec DomainM DomainSpec EvalM ModelM ModelSpec ModelP ModelP2 ModelP3 ModelP4 ModelP5 ModelP6 EnforcerM EnforcerSpec EnforcerP
  SafeSpec SafeP FunctionsSpec FunctionsP AppSpec AppsSpec MultiSpec FiltersSpec LogicSpec LogicTextSpec.
From Verif Require Import Prop_Path Prop_Builtin Prop_Effect Prop_Defs Prop_Matcher Prop_Model Prop_Enforce Prop_Query Prop_Adhoc Prop_Functions Prop_App Prop_Apps Prop_Multi Prop_Columns Prop_Filters Prop_Logic.
Local Open Scope list_scope.

(** ** The functions *)
Lemma call_value E d h m rs o : well_formed d -> file_history d h -> good_m h -> mexec E (NewModel E) h = Val (m, rs) -> good_orders o ->
  forall g us, call_answers E d g us ->
    exists fg v, functions o m g = Some fg /\ fg (map VStr us) = Val (inl (VBool v)) /\ (v = true <-> call_true E d h g us).
Proof.
  intros W Ah G Hm Go g us [(gt & a & b & ds & Hg & -> & Hu)|(Hn & fg & v & Hf & Hv)].
  - destruct (file_links d h g gt W Ah Hg) as [cl Hl]. unfold fresh_manager in Hl.
    assert (Gs : forall gt', In (G_SEC, g, gt') d -> gt' = gt).
    { intros gt' Hg'. apply (defs_in G_SEC g d (proj2 W) (proj1 W)) in Hg, Hg'. congruence. }
    change (rd_nargs (NewRoleDef "" gt)) with (rd_nargs (NewRoleDef g gt)) in Hl.
    assert (Eq : forall v, (v = true <-> linked_by h g gt a b ds) -> (v = true <-> call_true E d h g (a :: b :: ds))).
    { intros v Hv. rewrite Hv. split; [intros X; left; exists gt, a, b, ds; auto|]. intros [(gt' & a' & b' & ds' & Hg' & X & Y)|(X & _)].
      - injection X as <- <- <-. rewrite (Gs gt' Hg') in Y. exact Y.
      - exfalso. apply X. now exists gt. }
    destruct (Nat.eqb (rd_nargs (NewRoleDef g gt)) 2) eqn:En.
    + destruct (C66_role_function E h m rs o g cl G Go (file_good_tame d h W Ah) Hm (g_byte _ _ _ (proj2 W) Hg) (file_role E d h g gt W Ah Hg) Hl) as [fg [Fg Hfg]].
      destruct (Hfg a b ds) as [v [Hv Hi]]. exists fg, v. split; [exact Fg|]. split; [exact Hv|]. apply Eq. unfold linked_by. rewrite En, Hi.
      split; (intros [X|(n & X)]; [now left|right; exists n; tauto]).
    + destruct (C66_domain_function E h m rs o g cl ds G Go (file_good_tame d h W Ah) Hm (g_byte _ _ _ (proj2 W) Hg) (file_role E d h g gt W Ah Hg) Hl Hu) as [fg [Fg Hfg]].
      destruct (Hfg a b) as [v [Hv Hi]]. exists fg, v. split; [exact Fg|]. split; [exact Hv|]. apply Eq. unfold linked_by. rewrite En, Hi.
      split; (intros [X|(n & X)]; [now left|right; exists n; tauto]).
  - exists fg, v. split; [|split; [exact Hv|]].
    + apply (C66_registered E h m rs o g Hm). rewrite (file_fn E d h g Ah Hn), Hf. reflexivity.
    + split.
      * intros ->. right. split; [exact Hn|]. exists fg. auto.
      * intros [(gt & a & b & ds & Hg & _)|(_ & fg' & Hf' & Hv')]; [exfalso; apply Hn; now exists gt|]. rewrite Hf in Hf'. injection Hf' as <-. congruence.
Qed.

(** ** The value of a term and of a test *)
Section Tests.
Variables (rk rt pk pt : string) (vals : list string).
Hypotheses (Kr : key_of R_SEC rk) (Kp : p_key pk) (Nr : NoDup (named_columns rt)) (Np : NoDup (named_columns pt))
  (Lv : List.length vals = List.length (named_columns rt)).
Definition in_columns (a : term) : Prop :=
  match a with TReq x => In x (named_columns rt) | TPol x => In x (named_columns pt) | TLit _ => True end.
Lemma term_read r a u : List.length r = List.length (named_columns pt) -> term_value rt pt vals r a u ->
  term_gets rk pk (ParamGet (NewPolicyDef pk pt) r (NewRequestDef rk rt) (map VStr vals)) a u.
Proof.
  intros L. destruct a as [x|x|s]; cbn; [| |auto]; intros (n & Hn & Hu).
  - exact (val_r (NewPolicyDef pk pt) r rk rt vals n x u Kr Nr Lv Hn Hu).
  - exact (val_p pk pt r (NewRequestDef rk rt) (map VStr vals) n x u Kp Np L Hn Hu).
Qed.
Lemma term_valued r a : List.length r = List.length (named_columns pt) -> in_columns a -> exists u, term_value rt pt vals r a u.
Proof.
  intros L Tm. destruct a as [x|x|s]; cbn in Tm |- *; [| |eauto].
  - destruct (In_nth_error _ _ Tm) as [n Hn]. destruct (nth_error vals n) as [u|] eqn:Eu; [eauto|].
    apply nth_error_None in Eu. rewrite Lv in Eu. apply nth_error_None in Eu. congruence.
  - destruct (In_nth_error _ _ Tm) as [n Hn]. destruct (nth_error r n) as [u|] eqn:Eu; [eauto|].
    apply nth_error_None in Eu. rewrite L in Eu. apply nth_error_None in Eu. congruence.
Qed.
Lemma terms_valued r args : List.length r = List.length (named_columns pt) -> (forall a, In a args -> in_columns a) -> exists us, Forall2 (term_value rt pt vals r) args us.
Proof.
  intros L. induction args as [|a args IH]; intros Hi; [exists []; constructor|].
  destruct (term_valued r a L (Hi a (or_introl eq_refl))) as [u Hu]. destruct IH as [us Hus]; [intros y Hy; apply Hi; now right|]. exists (u :: us). now constructor.
Qed.
Lemma test_value E d h m rs o t r : well_formed d -> file_history d h -> good_m h -> mexec E (NewModel E) h = Val (m, rs) -> good_orders o ->
  test_evaluates E rk pk t -> (forall a, In a (test_terms t) -> in_columns a) -> List.length r = List.length (named_columns pt) ->
  (forall g args us, t = Call g args -> Forall2 (term_value rt pt vals r) args us -> call_answers E d g us) ->
  let ef := e_eval E (functions o m) in
  parses ef (test_text rk pk t) = true /\ reads_only_named ef (test_text rk pk t) /\
  exists v, ev ef (test_text rk pk t) (ParamGet (NewPolicyDef pk pt) r (NewRequestDef rk rt) (map VStr vals)) = Val (inl (VBool v)) /\
            (v = true <-> test_true E d h rt pt vals r t).
Proof.
  intros W Ah G Hm Go Ev Tm L Ca. cbv zeta. set (F := functions o m). unfold test_evaluates in Ev. destruct t as [a b|a b|g args|a s1 s2 ss].
  - destruct (Ev F) as (P1 & P2 & P3); [discriminate|]. split; [exact P1|]. split; [exact P2|].
    destruct (term_valued r a L (Tm a (or_introl eq_refl))) as [u Hu]. destruct (term_valued r b L (Tm b (or_intror (or_introl eq_refl)))) as [v Hv].
    exists (String.eqb u v). split; [exact (P3 _ u v (term_read r a u L Hu) (term_read r b v L Hv))|]. cbn [test_true]. rewrite String.eqb_eq. split; [intros <-; eauto|].
    intros (x & H1 & H2). rewrite (value_unique _ _ _ _ _ _ _ Nr Np Hu H1), (value_unique _ _ _ _ _ _ _ Nr Np Hv H2). reflexivity.
  - destruct (Ev F) as (P1 & P2 & P3); [discriminate|]. split; [exact P1|]. split; [exact P2|].
    destruct (term_valued r a L (Tm a (or_introl eq_refl))) as [u Hu]. destruct (term_valued r b L (Tm b (or_intror (or_introl eq_refl)))) as [v Hv].
    exists (negb (String.eqb u v)). split; [exact (P3 _ u v (term_read r a u L Hu) (term_read r b v L Hv))|]. cbn [test_true]. rewrite negb_true_iff, String.eqb_neq. split; [intros X; exists u, v; auto|].
    intros (x & y & H1 & H2 & X). rewrite (value_unique _ _ _ _ _ _ _ Nr Np Hu H1), (value_unique _ _ _ _ _ _ _ Nr Np Hv H2). exact X.
  - destruct (terms_valued r args L Tm) as [us Hus]. destruct (call_value E d h m rs o W Ah G Hm Go g us (Ca g args us eq_refl Hus)) as (fg & v & Hf & Hv & Hi). fold F in Hf.
    destruct (Ev F) as (P1 & P2 & P3); [intros ? ? X; injection X as <- <-; congruence|]. split; [exact P1|]. split; [exact P2|].
    exists v. split.
    + rewrite (P3 _ fg us Hf); [exact Hv|]. clear - Hus Kr Kp Nr Np Lv L. induction Hus; constructor; auto using term_read.
    + rewrite Hi. cbn [test_true]. split; [eauto|]. intros (us' & H1 & H2). now rewrite (values_unique _ _ _ _ _ _ _ Nr Np Hus H1).
  - destruct (Ev F) as (P1 & P2 & P3); [discriminate|]. split; [exact P1|]. split; [exact P2|].
    destruct (term_valued r a L (Tm a (or_introl eq_refl))) as [u Hu].
    exists (existsb (String.eqb u) (s1 :: s2 :: ss)). split; [exact (P3 _ u (term_read r a u L Hu))|]. cbn [test_true]. rewrite existsb_exists. split.
    + intros (x & Hx & X). apply String.eqb_eq in X as ->. eauto.
    + intros (x & H1 & H2). exists x. split; [exact H2|]. apply String.eqb_eq. exact (value_unique _ _ _ _ _ _ _ Nr Np Hu H1).
Qed.
Lemma effect_column r e : List.length r = List.length (named_columns pt) -> (GetEft (NewPolicyDef pk pt) (pk :: r) = e <-> rule_effect pt r e).
Proof.
  intros L. unfold rule_effect. destruct (in_dec string_dec "eft"%string (named_columns pt)) as [Hi|Hn].
  - destruct (In_nth_error _ _ Hi) as [n Hn]. destruct (nth_error r n) as [s|] eqn:Es.
    2:{ apply nth_error_None in Es. rewrite L in Es. apply nth_error_None in Es. congruence. }
    rewrite (C23_effect_column_partial pk pt r n s Np Hn L Es). split.
    + intros <-. right. eauto.
    + intros [[X _]|(k & s' & X & Y & ->)]; [contradiction|]. f_equal.
      assert (n = k) as <- by (eapply (proj1 (NoDup_nth_error _) Np); [apply nth_error_Some; congruence|congruence]). congruence.
  - rewrite (C23_no_effect_column pk pt r Hn). split; [intros <-; now left|].
    intros [[_ ->]|(k & s' & X & _)]; [reflexivity|]. exfalso. apply Hn. eapply nth_error_In; exact X.
Qed.
End Tests.

(** ** C96

    Every file, every history of rules around the build, every order of map visits;
    every query whose own matcher is a formula of comparisons and calls over a policy
    section of the file, whose calls have answers.  Filter reports exactly the
    present rules of the section for which the formula is true, whatever was added and
    removed before; if the section has no rule it reports the rule of empty values
    exactly if the formula is true of it.  Enforce answers by the effects of the
    present rules for which the formula is true. *)
Theorem C96_own_matcher_partial :
  forall E d R h, well_formed d -> readings E d R -> file_history d h -> good_m h ->
    exists m rs, mexec E (NewModel E) h = Val (m, rs) /\
      forall text rk pk rt pt f, logical_text E d text rk pk rt pt f ->
      forall o ps vals, good_orders o -> uses_text text ps -> uses_request rk ps ->
        vals_of ps = map VStr vals -> List.length vals = List.length (named_columns rt) ->
        queries_answer E d h rt pk pt f vals ->
        let e := effect_in_force h ps in
        exists m',
        (exists ms, Filter E o m ps = Val (m', (ms, None)) /\
           ((exists r, present h (pk :: r)) -> forall x, In x ms <-> present h x /\ exists r, x = pk :: r /\ satisfies E d h rt pt f vals r) /\
           ((forall r, ~ present h (pk :: r)) -> forall x, In x ms <-> x = pk :: empty_rule pt /\ satisfies E d h rt pt f vals (empty_rule pt))) /\
        ((exists r, present h (pk :: r)) ->
         (spells e "some(where (p.eft == allow))" ->
            exists b, Enforce E o m ps = Val (m', (b, None)) /\ (b = true <-> says E d h rt pk pt f vals Allow)) /\
         (spells e "!some(where (p.eft == deny))" ->
            exists b, Enforce E o m ps = Val (m', (b, None)) /\ (b = true <-> ~ says E d h rt pk pt f vals Deny)) /\
         (spells e "some(where (p.eft == allow)) && !some(where (p.eft == deny))" -> ~ says E d h rt pk pt f vals Indeterminate ->
            exists b, Enforce E o m ps = Val (m', (b, None)) /\
              (b = true <-> says E d h rt pk pt f vals Allow /\ ~ says E d h rt pk pt f vals Deny))).
Proof.
  intros E d R h W U Ah G. destruct (C87_each_matcher_decides_partial E d R h W U Ah G) as (m & rs & Hm & _). exists m, rs. split; [exact Hm|].
  intros text rk pk rt pt f T o ps vals Go Ut Ur Vp Lv Ca eff.
  pose proof (lt_request _ _ _ _ _ _ _ _ T) as Ir. pose proof (lt_policy _ _ _ _ _ _ _ _ T) as Ip.
  pose proof (lt_rcols _ _ _ _ _ _ _ _ T) as Nr. pose proof (lt_pcols _ _ _ _ _ _ _ _ T) as Np.
  pose proof (lt_terms _ _ _ _ _ _ _ _ T) as Tm. pose proof (lt_plain _ _ _ _ _ _ _ _ T) as Pl.
  pose proof (lt_eval _ _ _ _ _ _ _ _ T) as Ev. rewrite Forall_forall in Ev.
  pose proof (p_byte _ _ _ (proj2 W) Ip) as Kp. pose proof (proj2 W _ _ _ Ir) as Kr.
  set (F := functions o m) in *. set (pd := NewPolicyDef pk pt). set (rd := NewRequestDef rk rt). set (root := f_root (as_form rk pk f)).
  assert (Kf : GetPolicyKey root = pk).
  { apply root_key; [| |apply T].
    - intros e x He Hx. rewrite lg_conds in He. apply in_map_iff in He as [t [<- Ht]]. destruct (Pl t x Ht Hx) as (y & _ & ->). eauto.
    - destruct (lt_some _ _ _ _ _ _ _ _ T) as [->|(t & x & Ht & Hx)]; [now left|]. right. exists (test_text rk pk t), x. rewrite lg_conds. split; [now apply in_map|exact Hx]. }
  destruct (file_fns E d h m rs W Ah Hm) as [Hfg Hfb].
  assert (Bd : Build (e_grow E) (e_parse E (mkeys (md_fm m))) text = inl root).
  { unfold Build. rewrite (lt_reads _ _ _ _ _ _ _ _ T _ Hfg Hfb).
    destruct (compile_faithful (e_grow E) (as_form rk pk f)) as [hh ->]; [split; apply T|apply T|reflexivity]. }
  assert (Rl : forall r, present h (pk :: r) -> comma_free r /\ List.length r = List.length (named_columns pt)) by (intros r Hr; now apply (p_rules d h pk pt)).
  assert (Ds : described h pk pd) by (left; split; [exact Kp|]; exists pt; split; [now apply (file_def d)|reflexivity]).
  assert (Q : text_query E h m o ps root pd rd).
  { constructor; auto.
    - exact (file_good_tame d h W Ah).
    - eauto.
    - eauto.
    - unfold root, f_root. rewrite two_way_narrow. apply T.
    - now rewrite Kf.
    - rewrite Kf. apply told_apart_plain. intros r Hr. now apply Rl.
    - exists rk, rt. split; [exact Ur|]. split; [exact Kr|]. split; [now apply (file_def d)|reflexivity]. }
  assert (Ln : List.length (empty_rule pt) = List.length (named_columns pt)) by apply repeat_length.
  assert (One : forall t r, In t (tests f) -> List.length r = List.length (named_columns pt) ->
            present h (pk :: r) \/ (r = empty_rule pt /\ (In t (last_tests f) \/ forall r', ~ present h (pk :: r'))) ->
            parses (e_eval E F) (test_text rk pk t) = true /\ reads_only_named (e_eval E F) (test_text rk pk t) /\
            exists v, ev (e_eval E F) (test_text rk pk t) (ParamGet pd r rd (map VStr vals)) = Val (inl (VBool v)) /\ (v = true <-> test_true E d h rt pt vals r t)).
  { intros t r Ht L Hr. apply (test_value rk rt pk pt vals Kr Kp Nr Np Lv E d h m rs o t r W Ah G Hm Go (Ev t Ht) (fun a Ha => Tm t a Ht Ha) L).
    intros g args us -> Hu. exact (Ca r g args us Ht Hr Hu). }
  assert (SC : text_sound E h o m ps pd rd root).
  { unfold text_sound. rewrite Kf, Vp. fold F. intros e He. apply texts_root in He. rewrite lg_conds in He. apply in_map_iff in He as [t [<- Ht]].
    assert (HV : forall r, present h (pk :: r) -> has_values pd (test_text rk pk t) r).
    { intros r Hr x Hx. destruct (Rl r Hr) as [_ L]. destruct (Pl t x Ht Hx) as (y & Hy & ->). destruct (In_nth_error _ _ Hy) as [n Hn].
      destruct (nth_error r n) as [b|] eqn:Eb.
      - destruct (sec_val pk pt r rd (map VStr vals) n y b (or_introl Kp) Np) as [X _]; [lia|exact Hn|exact Eb|]. fold pd in X. congruence.
      - apply nth_error_None in Eb. rewrite L in Eb. apply nth_error_None in Eb. congruence. }
    split; [exact HV|]. split; [|split].
    - intros r r' Hr. destruct (One t r Ht (proj2 (Rl r Hr)) (or_introl Hr)) as (_ & P2 & _).
      exact (named_own (e_eval E F) pd rd (map VStr vals) _ (fun r => present h (pk :: r)) HV P2 r r' Hr).
    - intros r Hr. destruct (One t r Ht (proj2 (Rl r Hr)) (or_introl Hr)) as (P1 & _ & v & P3 & _). split; [exact P1|eauto].
    - intros Hc. assert (X : exists t', test_text rk pk t' = test_text rk pk t /\ In t' (tests f) /\ (In t' (last_tests f) \/ forall r', ~ present h (pk :: r'))).
      { destruct Hc as [Hl|Hl]; [|exists t; auto]. apply lasts_root in Hl. rewrite lg_lasts in Hl. apply in_map_iff in Hl as [t' [Et Hl]]. exists t'. split; [exact Et|]. split; [now apply last_tests_in|now left]. }
      destruct X as (t' & <- & Ht' & Hl). destruct (One t' (empty_rule pt) Ht' Ln (or_intror (conj eq_refl Hl))) as (P1 & _ & v & P3 & _). split; [exact P1|eauto]. }
  assert (Me : forall r, List.length r = List.length (named_columns pt) -> present h (pk :: r) \/ (r = empty_rule pt /\ forall r', ~ present h (pk :: r')) ->
            (matches E o m ps pd rd root r = true <-> satisfies E d h rt pt f vals r)).
  { intros r L Hr. unfold matches. rewrite satisfies_accepts. unfold root, f_root. cbn [stage_children]. rewrite ptree_sem. cbn [existsb]. rewrite andb_true_r, Vp. fold F.
    apply lg_sem. intros t Ht. destruct (One t r Ht L) as (_ & _ & v & P3 & P4); [tauto|]. unfold holds. rewrite P3, <- P4. destruct v; split; congruence. }
  assert (Mp : forall r, present h (pk :: r) -> (matches E o m ps pd rd root r = true <-> satisfies E d h rt pt f vals r)) by (intros r Hr; apply Me; [now apply Rl|now left]).
  destruct (C73_filter_text E h m o ps root pd rd Q SC) as (m' & ms & HF & Some' & None'). rewrite Kf in Some', None'. exists m'.
  assert (Full : (exists r, present h (pk :: r)) -> forall x, In x ms <-> present h x /\ exists r, x = pk :: r /\ satisfies E d h rt pt f vals r).
  { intros Hex x. rewrite (proj1 (Some' Hex) x). split.
    - intros [r [-> [Hp Hx]]]. split; [exact Hp|]. exists r. split; [reflexivity|]. now apply (Mp r Hp).
    - intros [Hp (r & -> & Hx)]. exists r. split; [reflexivity|]. split; [exact Hp|]. now apply (Mp r Hp). }
  split; [exists ms; split; [exact HF|split; [exact Full|]]|].
  { intros Hn x. rewrite (None' Hn x). change (blank pd) with (empty_rule pt). rewrite (Me (empty_rule pt) Ln (or_intror (conj eq_refl Hn))). reflexivity. }
  intros Hex. assert (Hc : forall ef, some_effect pd ms ef <-> says E d h rt pk pt f vals ef).
  { intros ef. unfold some_effect. split.
    - intros [x [Hx He]]. apply (Full Hex) in Hx as [Hp (r & -> & Hs)]. exists r. split; [exact Hp|]. split; [exact Hs|]. apply (effect_column pk pt Np); [now apply Rl|exact He].
    - intros [r (Hp & Hs & He)]. exists (pk :: r). split; [apply (Full Hex); eauto|]. apply (effect_column pk pt Np); [now apply Rl|exact He]. }
  pose proof (text_decides E h m o ps root pd rd m' ms None Q) as HE. rewrite Kf in HE. specialize (HE Kp HF).
  split; [|split].
  - intros Sp. destruct (C18_allow_override _ pd ms Sp) as [b [Hd Hb]]. change (effect_in_force h ps) with eff in HE. rewrite Hd in HE. exists b. split; [exact HE|]. now rewrite Hb, Hc.
  - intros Sp. destruct (C19_deny_override _ pd ms Sp) as [b [Hd Hb]]. change (effect_in_force h ps) with eff in HE. rewrite Hd in HE. exists b. split; [exact HE|]. now rewrite Hb, Hc.
  - intros Sp Hi. rewrite <- Hc in Hi. destruct (C20_allow_and_no_deny_partial _ pd ms Sp Hi) as [b [Hd Hb]]. change (effect_in_force h ps) with eff in HE. rewrite Hd in HE. exists b. split; [exact HE|]. now rewrite Hb, !Hc.
Qed.
Print Assumptions C96_own_matcher_partial.

(** ** Examples

    A govaluate that reads each of a list of matchers. *)
Definition texts_env (names : list string) (l : list (string * form)) (L : lib) : env :=
  mkEnv (fun n => n)
    (fun fns s => if forallb (fun k => if in_dec string_dec k fns then true else false) names
                  then option_map (fun x : string * form => written (snd x)) (List.find (fun x : string * form => String.eqb s (arg_replace (fst x))) l) else None)
    (fun fs => mini (flat_map (fun k => match fs k with Some f => [(k, f)] | None => [] end) names))
    (DefaultFunctionMap L (fun m => m) []).
Lemma texts_parse names l L (d : deflist) t f : List.find (fun x : string * form => String.eqb (arg_replace t) (arg_replace (fst x))) l = Some (t, f) ->
  (forall k, In k names -> (exists g, In (G_SEC, k, g) d) \/ In k (mkeys (DefaultFunctionMap L (fun m => m) []))) ->
  (forall fns, (forall k g, In (G_SEC, k, g) d -> In k fns) -> (forall k, In k (mkeys (e_builtins (texts_env names l L))) -> In k fns) ->
     e_parse (texts_env names l L) fns (arg_replace t) = Some (written f)) /\
  (forall fns, e_parse (texts_env names l L) fns (arg_replace t) = Some (written f) \/ e_parse (texts_env names l L) fns (arg_replace t) = None).
Proof.
  intros Hf Nm. split.
  - intros fns Hg Hb. cbn [e_parse texts_env]. assert (forallb (fun k => if in_dec string_dec k fns then true else false) names = true) as ->; [|now rewrite Hf].
    apply forallb_forall. intros k Hk. destruct (in_dec string_dec k fns) as [|n]; [reflexivity|]. destruct n. destruct (Nm k Hk) as [[g X]|X]; [exact (Hg k g X)|exact (Hb k X)].
  - intros fns. cbn [e_parse texts_env]. rewrite Hf. destruct (forallb _ names); auto.
Qed.

(** What may alice do in the domain of the request, other than delete? *)
Definition may_text : string := ("g(" ++ q "alice" ++ ", p.sub, r.dom) && r.dom == p.dom && p.act != " ++ q "delete")%string.
Definition may : mform :=
  MAnd (MAnd (MTest (Call "g" [TLit "alice"; TPol "sub"; TReq "dom"])) (MTest (Equal (TReq "dom") (TPol "dom")))) (MTest (Unequal (TPol "act") (TLit "delete"))).
Definition other_text : string := ("p.act != " ++ q "delete")%string.
Definition other : mform := MTest (Unequal (TPol "act") (TLit "delete")).
Definition own_forms : list (string * form) :=
  [(shop_text, as_form "r" "p" shop); (may_text, as_form "r" "p" may); (other_text, as_form "r" "p" other)].
Definition own_env (L : lib) : env := texts_env ["g"; "pathMatch"]%string own_forms L.
Lemma own_names L k : In k ["g"; "pathMatch"]%string -> (exists g, In (G_SEC, k, g) shop_defs) \/ In k (mkeys (DefaultFunctionMap L (fun m => m) [])).
Proof. intros [<-|[<-|[]]]; [left; eexists; cbn; tauto|right; vm_compute; tauto]. Qed.
Lemma own_find : Forall (fun x => List.find (fun y : string * form => String.eqb (arg_replace (fst x)) (arg_replace (fst y))) own_forms = Some x) own_forms.
Proof. repeat (apply Forall_cons; [vm_compute; reflexivity|]). apply Forall_nil. Qed.
Lemma own_find_in t f : In (t, f) own_forms -> List.find (fun y : string * form => String.eqb (arg_replace t) (arg_replace (fst y))) own_forms = Some (t, f).
Proof. exact (proj1 (Forall_forall _ _) own_find (t, f)). Qed.
Lemma shop_in : In (shop_text, as_form "r" "p" shop) own_forms.
Proof. now left. Qed.
Lemma may_in : In (may_text, as_form "r" "p" may) own_forms.
Proof. right; now left. Qed.
Lemma other_in : In (other_text, as_form "r" "p" other) own_forms.
Proof. right; right; now left. Qed.
Lemma own_reads L : readings (own_env L) shop_defs shop_forms.
Proof.
  intros mk t H. repeat (destruct H as [H|H]; [first [discriminate H|injection H as <- <-]|]); [|destruct H]. split; [|eexists; cbn; tauto].
  destruct (texts_parse ["g"; "pathMatch"]%string own_forms L shop_defs shop_text (as_form "r" "p" shop) (own_find_in shop_text (as_form "r" "p" shop) shop_in) (own_names L)) as [H1 H2].
  constructor; [exact H1|exact H2|atom_tac|repeat split|reflexivity|reflexivity|plain_tac|now left|reflexivity].
Qed.
Ltac own_call := intros F Hf; specialize (Hf _ _ eq_refl); cbn [e_eval own_env texts_env flat_map];
  destruct (F "g"%string) eqn:E1, (F "pathMatch"%string) eqn:E2; try contradiction;
  (split; [reflexivity|]; split; [reads_tac; reflexivity|intros get f us Hg Hu; args_tac; cbn in *; subst;
   repeat match goal with H : get _ = _ |- _ => rewrite H; clear H end; congruence]).
Lemma may_logical L : logical_text (own_env L) shop_defs may_text "r" "p" "sub, dom, obj, act" "sub, dom, obj, act, eft" may.
Proof.
  destruct (texts_parse ["g"; "pathMatch"]%string own_forms L shop_defs may_text (as_form "r" "p" may) (own_find_in may_text (as_form "r" "p" may) may_in) (own_names L)) as [H1 _].
  constructor; [exact H1|atom_tac|repeat split|reflexivity|reflexivity|cbn; tauto|cbn; tauto|reflexivity|now left|apply distinct_columns; reflexivity|apply distinct_columns; reflexivity|terms_tac|columns_tac|].
  clear H1. apply Forall_cons; [own_call|]. apply Forall_cons; [eq_tac|]. apply Forall_cons; [eq_tac|apply Forall_nil].
Qed.
Lemma other_logical L : logical_text (own_env L) shop_defs other_text "r" "p" "sub, dom, obj, act" "sub, dom, obj, act, eft" other.
Proof.
  destruct (texts_parse ["g"; "pathMatch"]%string own_forms L shop_defs other_text (as_form "r" "p" other) (own_find_in other_text (as_form "r" "p" other) other_in) (own_names L)) as [H1 _].
  constructor; [exact H1|atom_tac|repeat split|reflexivity|reflexivity|cbn; tauto|cbn; tauto|reflexivity|now left|apply distinct_columns; reflexivity|apply distinct_columns; reflexivity|terms_tac|columns_tac|].
  apply Forall_cons; [eq_tac|apply Forall_nil].
Qed.
Lemma may_answers L h s dm ob a : ~ reserved dm ->
  queries_answer (own_env L) shop_defs h "sub, dom, obj, act" "p" "sub, dom, obj, act, eft" may [s; dm; ob; a].
Proof.
  intros Hd r g args us Ht _ Hu. repeat (destruct Ht as [Ht|Ht]; [first [discriminate Ht|injection Ht as <- <-]|]); [|destruct Ht]; args_tac.
  left. eexists _, _, _, _. split; [cbn; tauto|]. split; [reflexivity|]. apply Forall_cons; [|apply Forall_nil].
  match goal with H : term_value _ _ _ _ (TReq _) ?u |- ~ reserved ?u => destruct H as (n & K1 & K2) end.
  do 4 (destruct n as [|n]; [try discriminate K1; injection K2 as <-; exact Hd|]). destruct n; discriminate K1.
Qed.
Definition own_ps (text : string) (l : list string) : list param := POpt (OMatcher text) :: map (fun v => PVal (VStr v)) l.
Definition own_filter (E : env) (h : list (orders * mcall)) (text : string) (l : list string) : outcome (list rule * option goerr) :=
  let! (m, _) := mexec E (NewModel E) h in let! (_, r) := Filter E ex_rev m (own_ps text l) in Val r.
Definition own_ask (E : env) (h : list (orders * mcall)) (text : string) (l : list string) : outcome (bool * option goerr) :=
  let! (m, _) := mexec E (NewModel E) h in let! (_, r) := Enforce E ex_rev m (own_ps text l) in Val r.
Lemma own_used text l : first_byte text <> Some "m"%char -> text <> ""%string ->
  uses_text text (own_ps text l) /\ uses_request "r" (own_ps text l) /\ vals_of (own_ps text l) = map VStr l.
Proof.
  intros Hf Hn. assert (Ol : opts_of (own_ps text l) = [OMatcher text]).
  { unfold own_ps. cbn [opts_of flat_map]. rewrite <- (map_map VStr PVal). pose proof (opts_PVal (map VStr l)) as X. unfold opts_of in *. now rewrite X. }
  split; [|split].
  - split; [intros [c [Hc H]]; injection Hc as <-; contradiction|]. split; [exact Hn|].
    exists [], [], (OMatcher text). rewrite Ol. split; [reflexivity|]. split; [now left|apply Forall_nil].
  - unfold uses_request. rewrite Ol. split; [repeat constructor|now left].
  - unfold own_ps. rewrite <- (map_map VStr PVal). exact (vals_PVal (map VStr l)).
Qed.
Definition own_h : list (orders * mcall) := after shop_defs
  (CAdd ["p"; "clerk"; "berlin"; "/orders/1"; "read"; "allow"]%string :: shop_l1) (shop_l2 ++ [CAdd ["p"; "boss"; "paris"; "/"; "read"; "allow"]%string]).
Example C96_ex : forall L,
  well_formed shop_defs /\ readings (own_env L) shop_defs shop_forms /\ file_history shop_defs own_h /\ good_m own_h /\
  logical_text (own_env L) shop_defs may_text "r" "p" "sub, dom, obj, act" "sub, dom, obj, act, eft" may /\
  (forall l, uses_text may_text (own_ps may_text l) /\ uses_request "r" (own_ps may_text l) /\ vals_of (own_ps may_text l) = map VStr l) /\
  queries_answer (own_env L) shop_defs own_h "sub, dom, obj, act" "p" "sub, dom, obj, act, eft" may ["x"; "berlin"; "x"; "x"]%string /\
  own_filter (own_env L) own_h may_text ["x"; "berlin"; "x"; "x"]%string =
    Val ([["p"; "clerk"; "berlin"; "/orders/1"; "read"; "allow"]; ["p"; "clerk"; "berlin"; "/orders/:id"; "*"; "allow"]]%string, None) /\
  own_filter (own_env L) own_h may_text ["x"; "rome"; "x"; "x"]%string = Val ([], None) /\
  own_ask (own_env L) own_h may_text ["x"; "berlin"; "x"; "x"]%string = Val (true, None) /\
  own_ask (own_env L) own_h may_text ["x"; "rome"; "x"; "x"]%string = Val (false, None).
Proof.
  intros L. split; [exact shop_wf|]. split; [apply own_reads|].
  destruct (after_file shop_defs (CAdd ["p"; "clerk"; "berlin"; "/orders/1"; "read"; "allow"]%string :: shop_l1) (shop_l2 ++ [CAdd ["p"; "boss"; "paris"; "/"; "read"; "allow"]%string])) as [H1 H2].
  { unfold shop_l1. dom_tac. }
  { unfold shop_l2. cbn [app]. dom_tac. }
  split; [exact H1|]. split; [exact H2|]. split; [apply may_logical|]. split; [intros l; apply own_used; discriminate|].
  split; [apply may_answers; intros [X|X]; discriminate X|]. repeat split; vm_compute; reflexivity.
Qed.

(** Without the hypothesis that the section has a rule, Enforce may allow although no
    rule is there. *)
Theorem C96_no_rule_refuted :
  forall L, let h := after shop_defs [] [] in
    well_formed shop_defs /\ readings (own_env L) shop_defs shop_forms /\ file_history shop_defs h /\ good_m h /\
    logical_text (own_env L) shop_defs other_text "r" "p" "sub, dom, obj, act" "sub, dom, obj, act, eft" other /\
    queries_answer (own_env L) shop_defs h "sub, dom, obj, act" "p" "sub, dom, obj, act, eft" other ["alice"; "berlin"; "/"; "read"]%string /\
    (forall r, ~ present h ("p"%string :: r)) /\
    (let! (m, _) := mexec (own_env L) (NewModel (own_env L)) h in
     let! (_, r) := Enforce (own_env L) ex_rev m (POpt (OEffectDef "some(where (p.eft == allow))") :: own_ps other_text ["alice"; "berlin"; "/"; "read"]%string) in Val r) = Val (true, None).
Proof.
  intros L h. split; [exact shop_wf|]. split; [apply own_reads|]. destruct (after_file shop_defs [] []) as [H1 H2]; [apply Forall_nil|apply Forall_nil|].
  split; [exact H1|]. split; [exact H2|]. split; [apply other_logical|]. split; [intros r g args us [X|[]]; discriminate X|]. split.
  { intros r [[_ (ops & Ho & Hr)]|[X _]]; [|discriminate X]. vm_compute in Ho. injection Ho as <-. discriminate Hr. }
  vm_compute. reflexivity.
Qed.
Print Assumptions C96_no_rule_refuted.
