(** C101: whatever the logic of a matcher, decisions depend on the rules that are
    present only, and more rules grant more (C92 for two histories of the same
    file). *)
From Verif Require Import BuiltinM GoBase DefsM PolicyM PolicySpec EffectorM MatcherDefM MatcherDefSpec MatcherM MatcherSpec RbacM RbacSpec DomainM DomainSpec ModelM ModelSpec ModelP5
  EnforcerM EnforcerSpec AppSpec MultiSpec LogicSpec Prop_Effect Prop_Model Prop_App Prop_Apps Prop_Multi Prop_Columns Prop_Logic Prop_Monotone.
Local Open Scope list_scope.

Lemma linked_mono h h' gk gt a b ds : fewer_rules h h' -> linked_by h gk gt a b ds -> linked_by h' gk gt a b ds.
Proof.
  intros F [H|(n & Hn & H)]; [now left|right]. exists n. split; [exact Hn|].
  destruct (Nat.eqb _ 2); (destruct H as [L C]; split; [exact L|]; eapply chain_mono; [|exact C]; intros x y; apply F).
Qed.
Lemma test_mono E d h h' rt pt vals r t : fewer_rules h h' -> test_true E d h rt pt vals r t -> test_true E d h' rt pt vals r t.
Proof.
  intros F. destruct t as [a b|a b|f args|a s1 s2 ss]; cbn [test_true]; auto. intros (us & A & C). exists us. split; [exact A|].
  destruct C as [(gt & a & b & ds & H1 & H2 & H3)|C]; [left|right; exact C]. exists gt, a, b, ds. split; [exact H1|]. split; [exact H2|]. eapply linked_mono; eauto.
Qed.
Lemma form_mono (T T' : test -> Prop) f : (forall t, T t -> T' t) -> form_true T f -> form_true T' f.
Proof. intros H. induction f; cbn [form_true]; firstorder. Qed.
Lemma satisfies_mono E d h h' rt pt f vals r : fewer_rules h h' -> LogicSpec.satisfies E d h rt pt f vals r -> LogicSpec.satisfies E d h' rt pt f vals r.
Proof. intros F. apply form_mono. intros t. now apply test_mono. Qed.
Lemma says_mono E d h h' rt pk pt f vals e : fewer_rules h h' -> says E d h rt pk pt f vals e -> says E d h' rt pk pt f vals e.
Proof. intros F (r & A & B & C). exists r. split; [now apply F|]. split; [eapply satisfies_mono; eauto|exact C]. Qed.

(** ** C101

    Two histories of rules with the same model file, in whatever order the rules
    came and went and wherever the matchers were built.  If all the rules that are
    present after the first are present after the second, then whatever a matcher of
    comparisons, function calls, and, or allows after the first it allows after the
    second (allow-override), whatever is denied after the first is denied after the
    second (deny-override), and Filter lists at least the same rules. *)
Theorem C101_more_rules_grant_more_partial :
  forall E d R h h',
    well_formed d -> readings E d R -> file_history d h -> file_history d h' -> good_m h -> good_m h' -> fewer_rules h h' ->
    exists m rs m' rs', mexec E (NewModel E) h = Val (m, rs) /\ mexec E (NewModel E) h' = Val (m', rs') /\
      forall mk rk pk rt pt f, logical E d R mk rk pk rt pt f ->
      forall o o' ps vals, good_orders o -> good_orders o' -> uses_matcher mk ps -> uses_request rk ps ->
        vals_of ps = map VStr vals -> List.length vals = List.length (named_columns rt) ->
        calls_answer E d h rt pk pt f vals -> calls_answer E d h' rt pk pt f vals ->
        (forall t, In t (last_tests f) -> ~ test_true E d h' rt pt vals (repeat ""%string (List.length (named_columns pt))) t) ->
        (exists ms ms', Filter E o m ps = Val (m, (ms, None)) /\ Filter E o' m' ps = Val (m', (ms', None)) /\ incl ms ms') /\
        (spells (effect_in_force h ps) "some(where (p.eft == allow))" ->
           exists b b', Enforce E o m ps = Val (m, (b, None)) /\ Enforce E o' m' ps = Val (m', (b', None)) /\ (b = true -> b' = true)) /\
        (spells (effect_in_force h ps) "!some(where (p.eft == deny))" ->
           exists b b', Enforce E o m ps = Val (m, (b, None)) /\ Enforce E o' m' ps = Val (m', (b', None)) /\ (b' = true -> b = true)).
Proof.
  intros E d R h h' W U Fh Fh' G G' Le.
  destruct (C92_logical_meaning_partial E d R h W U Fh G) as (m & rs & Hm & D). destruct (C92_logical_meaning_partial E d R h' W U Fh' G') as (m' & rs' & Hm' & D').
  exists m, rs, m', rs'. split; [exact Hm|]. split; [exact Hm'|].
  intros mk rk pk rt pt f C o o' ps vals Go Go' Um Ur Vp Lv Ca Ca' Last.
  destruct (D mk rk pk rt pt f C o ps vals Go Um Ur Vp Lv Ca) as ((ms & Fa & Fb) & A & B & _); [intros t Ht X; apply (Last t Ht); eapply test_mono; eauto|].
  destruct (D' mk rk pk rt pt f C o' ps vals Go' Um Ur Vp Lv Ca' Last) as ((ms' & Fa' & Fb') & A' & B' & _).
  rewrite <- (same_effect d h h' ps W Fh Fh') in A', B'. split; [|split].
  - exists ms, ms'. split; [exact Fa|]. split; [exact Fa'|]. intros x Hx. apply Fb'. apply Fb in Hx as (Hp & r & Ex & Hc).
    split; [now apply Le|]. exists r. split; [exact Ex|]. eapply satisfies_mono; eauto.
  - intros S. destruct (A S) as (b & Eb & Ib). destruct (A' S) as (b' & Eb' & Ib'). exists b, b'. split; [exact Eb|]. split; [exact Eb'|].
    rewrite Ib, Ib'. apply says_mono. exact Le.
  - intros S. destruct (B S) as (b & Eb & Ib). destruct (B' S) as (b' & Eb' & Ib'). exists b, b'. split; [exact Eb|]. split; [exact Eb'|].
    rewrite Ib, Ib'. intros X Y. apply X. eapply says_mono; eauto.
Qed.
Print Assumptions C101_more_rules_grant_more_partial.

(** The same rules: the same rules are listed and every decision is the same, for
    all three effects. *)
Theorem C101_same_rules_same_decisions_partial :
  forall E d R h h',
    well_formed d -> readings E d R -> file_history d h -> file_history d h' -> good_m h -> good_m h' ->
    (forall rl, present h rl <-> present h' rl) ->
    exists m rs m' rs', mexec E (NewModel E) h = Val (m, rs) /\ mexec E (NewModel E) h' = Val (m', rs') /\
      forall mk rk pk rt pt f, logical E d R mk rk pk rt pt f ->
      forall o o' ps vals, good_orders o -> good_orders o' -> uses_matcher mk ps -> uses_request rk ps ->
        vals_of ps = map VStr vals -> List.length vals = List.length (named_columns rt) ->
        calls_answer E d h rt pk pt f vals -> calls_answer E d h' rt pk pt f vals ->
        (forall t, In t (last_tests f) -> ~ test_true E d h rt pt vals (repeat ""%string (List.length (named_columns pt))) t) ->
        (exists ms ms', Filter E o m ps = Val (m, (ms, None)) /\ Filter E o' m' ps = Val (m', (ms', None)) /\ forall x, In x ms <-> In x ms') /\
        (spells (effect_in_force h ps) "some(where (p.eft == allow))" \/ spells (effect_in_force h ps) "!some(where (p.eft == deny))" \/
         spells (effect_in_force h ps) "some(where (p.eft == allow)) && !some(where (p.eft == deny))" /\ ~ says E d h rt pk pt f vals Indeterminate ->
           exists b, Enforce E o m ps = Val (m, (b, None)) /\ Enforce E o' m' ps = Val (m', (b, None))).
Proof.
  intros E d R h h' W U Fh Fh' G G' Eq. assert (Le : fewer_rules h h') by (intros rl; apply Eq). assert (Ge : fewer_rules h' h) by (intros rl; apply Eq).
  destruct (C92_logical_meaning_partial E d R h W U Fh G) as (m & rs & Hm & D). destruct (C92_logical_meaning_partial E d R h' W U Fh' G') as (m' & rs' & Hm' & D').
  exists m, rs, m', rs'. split; [exact Hm|]. split; [exact Hm'|].
  intros mk rk pk rt pt f C o o' ps vals Go Go' Um Ur Vp Lv Ca Ca' Last.
  destruct (D mk rk pk rt pt f C o ps vals Go Um Ur Vp Lv Ca Last) as ((ms & Fa & Fb) & A & B & N).
  destruct (D' mk rk pk rt pt f C o' ps vals Go' Um Ur Vp Lv Ca') as ((ms' & Fa' & Fb') & A' & B' & N'); [intros t Ht X; apply (Last t Ht); eapply test_mono; eauto|].
  rewrite <- (same_effect d h h' ps W Fh Fh') in A', B', N'.
  assert (Cv : forall e, says E d h rt pk pt f vals e <-> says E d h' rt pk pt f vals e) by (intros e; split; apply says_mono; assumption).
  split.
  - exists ms, ms'. split; [exact Fa|]. split; [exact Fa'|]. intros x. rewrite Fb, Fb', Eq.
    split; intros (Hp & r & Ex & Hc); (split; [exact Hp|]; exists r; split; [exact Ex|]; eapply satisfies_mono; [|exact Hc]; assumption).
  - assert (Bq : forall (b b' : bool) (P Q : Prop), (b = true <-> P) -> (b' = true <-> Q) -> (P <-> Q) -> b = b').
    { intros [|] [|] P Q X Y Z; try reflexivity; [symmetry; apply Y, Z, X; reflexivity|apply X, Z, Y; reflexivity]. }
    intros [S|[S|[S Ni]]].
    + destruct (A S) as (b & Eb & Ib). destruct (A' S) as (b' & Eb' & Ib'). rewrite <- (Bq _ _ _ _ Ib Ib' (Cv Allow)) in Eb'. eauto.
    + destruct (B S) as (b & Eb & Ib). destruct (B' S) as (b' & Eb' & Ib'). rewrite <- (Bq _ _ _ _ Ib Ib' (not_iff_compat (Cv Deny))) in Eb'. eauto.
    + destruct (N S Ni) as (b & Eb & Ib). destruct (N' S) as (b' & Eb' & Ib'); [now rewrite <- Cv|].
      assert (Z : says E d h rt pk pt f vals Allow /\ ~ says E d h rt pk pt f vals Deny <-> says E d h' rt pk pt f vals Allow /\ ~ says E d h' rt pk pt f vals Deny)
        by (rewrite !Cv; reflexivity).
      rewrite <- (Bq _ _ _ _ Ib Ib' Z) in Eb'. eauto.
Qed.
Print Assumptions C101_same_rules_same_decisions_partial.

(** AddRule never takes away an access under allow-override, and RemoveRule never
    gives one (and the other way round under deny-override). *)
Theorem C101_one_call_partial :
  forall E d R h o0 rl,
    well_formed d -> readings E d R -> file_history d h -> good_m h -> good_orders o0 -> file_rule d rl ->
    let ha := h ++ [(o0, CAdd rl)] in let hr := h ++ [(o0, CRemove rl)] in
    exists m rs ma rsa mr rsr,
      mexec E (NewModel E) h = Val (m, rs) /\ mexec E (NewModel E) ha = Val (ma, rsa) /\ mexec E (NewModel E) hr = Val (mr, rsr) /\
      forall mk rk pk rt pt f, logical E d R mk rk pk rt pt f ->
      forall o oa or_ ps vals, good_orders o -> good_orders oa -> good_orders or_ -> uses_matcher mk ps -> uses_request rk ps ->
        vals_of ps = map VStr vals -> List.length vals = List.length (named_columns rt) ->
        calls_answer E d h rt pk pt f vals -> calls_answer E d ha rt pk pt f vals -> calls_answer E d hr rt pk pt f vals ->
        (forall t, In t (last_tests f) -> ~ test_true E d ha rt pt vals (repeat ""%string (List.length (named_columns pt))) t) ->
        (spells (effect_in_force h ps) "some(where (p.eft == allow))" ->
           exists b ba br, Enforce E o m ps = Val (m, (b, None)) /\ Enforce E oa ma ps = Val (ma, (ba, None)) /\ Enforce E or_ mr ps = Val (mr, (br, None)) /\
             (br = true -> b = true) /\ (b = true -> ba = true)) /\
        (spells (effect_in_force h ps) "!some(where (p.eft == deny))" ->
           exists b ba br, Enforce E o m ps = Val (m, (b, None)) /\ Enforce E oa ma ps = Val (ma, (ba, None)) /\ Enforce E or_ mr ps = Val (mr, (br, None)) /\
             (ba = true -> b = true) /\ (b = true -> br = true)).
Proof.
  intros E d R h o0 rl W U Fh G Go0 Hr ha hr. pose proof (file_long d rl W Hr) as Lg.
  assert (Fa : file_history d ha) by (apply file_snoc; assumption).
  assert (Fr : file_history d hr) by (apply file_snoc; assumption).
  assert (Ga : good_m ha) by (apply Forall_app; split; [exact G|repeat constructor; apply Go0]).
  assert (Gr : good_m hr) by (apply Forall_app; split; [exact G|repeat constructor; apply Go0]).
  assert (La : fewer_rules h ha) by (intros x Hx; apply present_add; auto).
  assert (Lr : fewer_rules hr h) by (intros x Hx; apply present_remove in Hx; tauto).
  destruct (C101_more_rules_grant_more_partial E d R _ _ W U Fh Fa G Ga La) as (m & rs & ma & rsa & Hm & Hma & DA).
  destruct (C101_more_rules_grant_more_partial E d R _ _ W U Fr Fh Gr G Lr) as (mr & rsr & m' & rs' & Hmr & Hm' & DR).
  rewrite Hm in Hm'. injection Hm' as <- <-. exists m, rs, ma, rsa, mr, rsr. split; [exact Hm|]. split; [exact Hma|]. split; [exact Hmr|].
  intros mk rk pk rt pt f C o oa or_ ps vals Go Goa Gor Um Ur Vp Lv C1 C2 C3 Last.
  destruct (DA _ _ _ _ _ _ C o oa ps vals Go Goa Um Ur Vp Lv C1 C2 Last) as (_ & A1 & A2).
  destruct (DR _ _ _ _ _ _ C or_ o ps vals Gor Go Um Ur Vp Lv C3 C1) as (_ & R1 & R2); [intros t Ht X; apply (Last t Ht); eapply test_mono; eauto|].
  rewrite (same_effect d _ h ps W Fr Fh) in R1, R2. split; intros S.
  - destruct (A1 S) as (b & ba & X1 & X2 & X3). destruct (R1 S) as (br & b' & Y1 & Y2 & Y3). rewrite X1 in Y2. injection Y2 as <-. exists b, ba, br. auto.
  - destruct (A2 S) as (b & ba & X1 & X2 & X3). destruct (R2 S) as (br & b' & Y1 & Y2 & Y3). rewrite X1 in Y2. injection Y2 as <-. exists b, ba, br. auto.
Qed.
Print Assumptions C101_one_call_partial.

(** ** Without the condition on the rule of empty values

    examples/pathmatch_model.conf: a rule for GET is removed, and from then on every
    method is allowed that was denied before.  Patterns here are read as plain texts
    that have to begin the action; the empty pattern matches everything, as with
    package regexp. *)
Definition begins_lib : lib := mkLib (fun p s => Some (String.prefix p s)) (fun p s => Some (String.prefix p s)) (fun _ => None).
Theorem C101_removal_grants_refuted :
    let L := begins_lib in let d := acl_defs path_text in
    let h := after d [CAdd ["p"; "alice"; "/orders/:id"; "GET"]%string] [] in
    let h' := h ++ [(ex_o, CRemove ["p"; "alice"; "/orders/:id"; "GET"]%string)] in
    well_formed d /\ readings (path_env L) d (over_p path) /\ file_history d h /\ good_m h /\ file_history d h' /\ good_m h' /\
    logical (path_env L) d (over_p path) "m" "r" "p" "sub, obj, act" "sub, obj, act" path /\ fewer_rules h' h /\
    ask (path_env L) h ["alice"; "/orders/7"; "DELETE"]%string = Val (false, None) /\
    ask (path_env L) h' ["alice"; "/orders/7"; "DELETE"]%string = Val (true, None).
Proof.
  intros L d h h'. split; [apply acl_wf|]. split; [apply path_reads|].
  destruct (after_file (acl_defs path_text) [CAdd ["p"; "alice"; "/orders/:id"; "GET"]%string] []) as [H1 H2]; [dom_tac|apply Forall_nil|].
  split; [exact H1|]. split; [exact H2|]. split; [apply file_snoc; [exact H1|]|].
  { left. eexists _, _, _. split; [reflexivity|]. split; [cbn; tauto|]. split; [split; [discriminate|repeat (apply Forall_cons; [reflexivity|]); apply Forall_nil]|reflexivity]. }
  split; [apply Forall_app; split; [exact H2|apply Forall_cons; [apply ex_o_good|apply Forall_nil]]|]. split; [apply path_logical|].
  split; [intros x Hx; apply present_remove in Hx; [tauto|discriminate]|].
  split; vm_compute; reflexivity.
Qed.
Print Assumptions C101_removal_grants_refuted.

(** The hypotheses are met by the file of C92_ex, whose matcher uses domains, paths
    and alternatives, for every request with an action outside reserved domains;
    one rule more lets someone in, one less keeps someone out. *)
Example C101_ex : forall L,
  let rl := ["g"; "eve"; "clerk"; "berlin"]%string in
  well_formed shop_defs /\ readings (shop_env L) shop_defs shop_forms /\ file_history shop_defs shop_h /\ good_m shop_h /\
  logical (shop_env L) shop_defs shop_forms "m" "r" "p" "sub, dom, obj, act" "sub, dom, obj, act, eft" shop /\ file_rule shop_defs rl /\
  fewer_rules shop_h (shop_h ++ [(ex_o, CAdd rl)]) /\
  (forall rl', present (shop_h ++ [(ex_o, CAdd rl)] ++ [(ex_rev, CRemove rl)]) rl' <-> present shop_h rl') /\
  ask (shop_env L) shop_h ["eve"; "berlin"; "/orders/9"; "read"]%string = Val (false, None) /\
  ask (shop_env L) (shop_h ++ [(ex_o, CAdd rl)]) ["eve"; "berlin"; "/orders/9"; "read"]%string = Val (true, None) /\
  ask (shop_env L) (shop_h ++ [(ex_o, CAdd rl)] ++ [(ex_rev, CRemove rl)]) ["eve"; "berlin"; "/orders/9"; "read"]%string = Val (false, None).
Proof.
  intros L rl. destruct (C92_ex L) as (H1 & H2 & H3 & H4 & H5 & _). split; [exact H1|]. split; [exact H2|]. split; [exact H3|]. split; [exact H4|]. split; [exact H5|].
  assert (Hr : file_rule shop_defs rl).
  { right. eexists _, _, _, _, _. split; [reflexivity|]. split; [cbn; tauto|]. apply Forall_cons; [intros [X|X]; discriminate X|apply Forall_nil]. }
  assert (Lg : long_enough rl) by (apply (file_long shop_defs); assumption).
  split; [exact Hr|]. split; [intros x Hx; apply present_add; auto|]. split; [|repeat split; vm_compute; reflexivity].
  assert (A1 : as_listed shop_h rl = rl) by (vm_compute; reflexivity).
  assert (A2 : as_listed (shop_h ++ [(ex_o, CAdd rl)]) rl = rl) by (vm_compute; reflexivity).
  intros x. rewrite app_assoc, present_remove by exact Lg. rewrite present_add by exact Lg. rewrite A1, A2.
  split; [intros [[H|[_ H]] N]; [exact H|congruence]|]. intros H. split; [now left|]. intros ->. revert H. clear.
  intros [[X _]|(_ & s & a & b & ds & H & Ed & Lk)]; [discriminate X|]. injection Ed as <- <- <-.
  vm_compute in H. injection H as <-. vm_compute in Lk. discriminate Lk.
Qed.
