(** Properties C09 to C16: what Filter and Enforce see of a policy through a
    compiled matcher.

    [lives d s h1 h2 m]: [m] is the matcher with stage tree [s] created after the
    policy calls [h1] and kept through the calls [h2].  [reported E ord m rDef
    rvals] is the list of rules that a caller which never stops is given for the
    request [rvals], with the error, for the evaluator [E] and the map visiting
    order [ord].  [set_of (h1 ++ h2)] are the rules present. *)
From Verif Require Import GoBase GoBaseP DefsM DefsP PolicyM PolicySpec PolicyP MatcherDefM MatcherDefSpec
  MatcherDefP MatcherM MatcherSpec MatcherP MatcherP2 EvalM.

(** ** Concrete material for examples and counterexamples *)
Definition ex_p : argdef := NewPolicyDef "p" "sub, obj, act".
Definition ex_r : argdef := NewRequestDef "r" "sub, obj, act".
(** r.sub == p.sub && r.obj == p.obj && r.act == p.act *)
Definition ex_tree : stage :=
  Stage "" [Stage "r_sub == p_sub" [Stage "r_obj == p_obj" [Stage "r_act == p_act" []]]].
Definition req (a b c : string) : list value := [VStr a; VStr b; VStr c].
Definition in_order : order := fun _ _ m => m.
Lemma in_order_ok : any_order in_order.
Proof. intros at_ i m. apply Permutation_refl. Qed.
Definition backwards : order := fun _ _ m => rev m.
Lemma backwards_ok : any_order backwards.
Proof. intros at_ i m. apply Permutation_sym, Permutation_rev. Qed.

Lemma ex_sound F a b c (rules : rule -> Prop) : (forall r, rules r -> List.length r = 3) ->
  sound_conditions (mini F) ex_p ex_r (req a b c) ex_tree rules.
Proof.
  intros Hf. apply sound_named. intros e He.
  assert (Hev : forall r, rules r \/ r = blank ex_p -> exists x y z, r = [x; y; z]).
  { intros r [Hr| ->]; [|now exists "", "", ""].
    apply Hf in Hr as L. destruct r as [|x [|y [|z [|]]]]; try discriminate. eauto. }
  cbn in He. destruct He as [<-|[<-|[<-|[]]]]; (split; [|split]).
  - intros r Hr x [<-|[]]. destruct (Hev r (or_introl Hr)) as [x0 [y0 [z0 ->]]]. discriminate.
  - intros get get' H1 H2. cbn. rewrite (H1 "p_sub"), (H2 "r_sub") by (try discriminate; now left). reflexivity.
  - intros r Hr. destruct (Hev r Hr) as [x [y [z ->]]]. split; [reflexivity|]. cbn. eauto.
  - intros r Hr x [<-|[]]. destruct (Hev r (or_introl Hr)) as [x0 [y0 [z0 ->]]]. discriminate.
  - intros get get' H1 H2. cbn. rewrite (H1 "p_obj"), (H2 "r_obj") by (try discriminate; now left). reflexivity.
  - intros r Hr. destruct (Hev r Hr) as [x [y [z ->]]]. split; [reflexivity|]. cbn. eauto.
  - intros r Hr x [<-|[]]. destruct (Hev r (or_introl Hr)) as [x0 [y0 [z0 ->]]]. discriminate.
  - intros get get' H1 H2. cbn. rewrite (H1 "p_act"), (H2 "r_act") by (try discriminate; now left). reflexivity.
  - intros r Hr. destruct (Hev r Hr) as [x [y [z ->]]]. split; [reflexivity|]. cbn. eauto.
Qed.

(** A way to compute what a matcher reports. *)
Definition filter_after (E : evaluator) (ord : order) d rDef s (h1 h2 : list pop) rvals : outcome (list rule * option goerr) :=
  let (p1, _) := pexec [] h1 in
  let (_, es) := pexec p1 h2 in
  let! m0 := NewMatcher d (mvals p1) s in
  let! m := m_events m0 es in
  reported E ord m rDef rvals.

Lemma filter_after_lives E ord d rDef s h1 h2 rvals res :
  filter_after E ord d rDef s h1 h2 rvals = Val res ->
  exists m, lives d s h1 h2 m /\ reported E ord m rDef rvals = Val res.
Proof.
  unfold filter_after. destruct (pexec [] h1) as [p1 es1] eqn:E1. destruct (pexec p1 h2) as [p2 es2] eqn:E2.
  destruct (NewMatcher d (mvals p1) s) as [m0|] eqn:E3; [|discriminate]. cbn [obind].
  destruct (m_events m0 es2) as [m|] eqn:E4; [|discriminate]. cbn [obind]. intros H. exists m. split; [|exact H].
  exists p1, es1, p2, es2, (mvals p1), m0. repeat split; auto.
Qed.

(** ** The general description

    For every tree with at most two alternatives at each point, every history of
    rules told apart by their comma-joined texts, every order of map visits
    and every request for which the conditions evaluate: no error; each present
    rule is reported once for each way in which it satisfies the matcher; beyond
    that only the blank rule is reported, [k] times, where [k] is positive
    exactly when some way is matched without a present rule. *)
Definition occ (l : list rule) (r : rule) : nat := count_occ (list_eq_dec string_dec) l r.

Theorem C10_reported_exactly :
  forall E ord d rDef rvals s h1 h2 m,
    any_order ord -> narrow s = true -> told_apart d s (rules_in (h1 ++ h2)) -> lives d s h1 h2 m ->
    sound_conditions E d rDef rvals s (recorded h1 h2) ->
    exists l k,
      reported E ord m rDef rvals = Val (l, None) /\
      (forall r, occ l r = (if set_of (h1 ++ h2) r then times E d rDef rvals s r else 0) +
                           (if rule_eqb r (blank d) then k else 0)) /\
      (0 < k <-> exists w, In w (ways_of s) /\
                   phantom E d rDef rvals (recorded h1 h2) (fun r => set_of (h1 ++ h2) r = true) w).
Proof.
  intros E ord d rDef rvals s h1 h2 m Ho Hn Ap L SC.
  destruct (lives_indexed d s h1 h2 m Hn Ap L) as [D [T [lR [lH [N1 [I1 [N2 [I2 [Sub [Full W]]]]]]]]]].
  destruct (walk_wf E ord d rDef rvals Ho (recorded h1 h2) s [] (m_root m) (recorded h1 h2)
             (fun r => set_of (h1 ++ h2) r = true) lH lR) as [ys [k [A [B C]]]]; auto.
  - split; [exact Hn|]. split; [intros e He; destruct (SC e He) as [A [B [C _]]]; split; [exact A|split; [exact B|exact C]]|]. split; [exact Full|].
    intros e He. apply (SC e (lasts_texts _ _ He)). now left.
  - now split.
  - now split.
  - intros -> e He. apply (SC e He). right. intros r Hr. now apply I2 in Hr.
  - exists ys, k. split; [|split; [|exact C]].
    + rewrite reported_walk, D, T, A. reflexivity.
    + intros r. unfold occ.
      assert (P : count_occ (list_eq_dec string_dec) ys r = count_occ (list_eq_dec string_dec) (scan E d rDef rvals s lR ++ repeat (blank d) k) r).
      { now apply (Permutation_count_occ (list_eq_dec string_dec)). }
      rewrite P. etransitivity; [apply count_occ_app|]. f_equal.
      * etransitivity; [now apply count_scan|]. destruct (in_dec (list_eq_dec string_dec) r lR) as [X|X].
        -- apply I1 in X. now rewrite X.
        -- destruct (set_of (h1 ++ h2) r) eqn:Es; [|reflexivity]. exfalso. apply X. now apply I1.
      * destruct (rule_eqb_spec r (blank d)) as [->|Hne].
        -- clear. induction k as [|k IH]; cbn; [reflexivity|]. destruct (list_eq_dec string_dec (blank d) (blank d)); [|congruence]. now rewrite IH.
        -- apply count_occ_not_In. intros X. apply repeat_spec in X. congruence.
Qed.
Print Assumptions C10_reported_exactly.

Lemma occ_In l r : In r l <-> 0 < occ l r.
Proof. apply count_occ_In. Qed.

Lemma times_satisfies E d rDef rvals s r : 0 < times E d rDef rvals s r <-> satisfies E d rDef rvals s r = true.
Proof.
  unfold times, satisfies. rewrite existsb_exists. split.
  - intros H. destruct (filter (fun w => all_hold E d rDef rvals w r) (ways_of s)) as [|w l] eqn:Ef; [cbn in H; lia|].
    assert (X : In w (filter (fun w => all_hold E d rDef rvals w r) (ways_of s))) by (rewrite Ef; now left).
    apply filter_In in X. eauto.
  - intros [w [Hw Ha]]. assert (X : In w (filter (fun w => all_hold E d rDef rvals w r) (ways_of s))) by (apply filter_In; auto).
    destruct (filter _ (ways_of s)); [destruct X|cbn; lia].
Qed.

(** ** C10: indexing is transparent *)

(** False as stated: rule values with commas collide in the index.  The matcher
    p.sub == p.obj && r.act == p.act reports a rule whose sub and obj differ. *)
Theorem C10_transparent_refuted :
  exists s h rvals m l r,
    lives ex_p s [] h m /\ reported (mini []) in_order m ex_r rvals = Val (l, None) /\
    In r l /\ satisfies (mini []) ex_p ex_r rvals s r = false.
Proof.
  pose (s := Stage "" [Stage "p_sub == p_obj" [Stage "r_act == p_act" []]]).
  pose (h := [PAdd ["a,b"; "a,b"; "read"]; PAdd ["a"; "b,a,b"; "write"]]).
  destruct (filter_after_lives (mini []) in_order ex_p ex_r s [] h (req "x" "y" "write")
              ([["a"; "b,a,b"; "write"]], None)) as [m [L R]]; [vm_compute; reflexivity|].
  exists s, h, (req "x" "y" "write"), m, [["a"; "b,a,b"; "write"]], ["a"; "b,a,b"; "write"].
  split; [exact L|]. split; [exact R|]. split; [now left|]. vm_compute. reflexivity.
Qed.
Print Assumptions C10_transparent_refuted.

Definition only_adds (h : list pop) : Prop := forall o, In o h -> exists r, o = PAdd r.

Lemma adds_recorded h1 h2 : only_adds h1 -> only_adds h2 ->
  forall r, recorded h1 h2 r <-> set_of (h1 ++ h2) r = true.
Proof.
  intros _ A2. unfold recorded, set_of. rewrite fold_left_app.
  generalize (fold_left set_step h1 set_empty) as s. induction h2 as [|o h2 IH]; intros s r; [reflexivity|].
  destruct (A2 o (or_introl eq_refl)) as [x ->]. cbn [fold_left set_step recorded_step].
  rewrite <- IH by (intros o Ho; apply A2; now right).
  assert (G : forall h (H H' : rule -> Prop), (forall r, H r <-> H' r) -> forall r, fold_left recorded_step h H r <-> fold_left recorded_step h H' r).
  { clear. induction h as [|o h IH]; intros H H' X r; [apply X|]. cbn. apply IH. intros x. destruct o; cbn; rewrite ?X; tauto. }
  apply G. intros y. unfold set_add. rewrite orb_true_iff. destruct (rule_eqb_spec y x); split; intuition congruence.
Qed.

(** Partial: rules told apart by their comma-joined texts, with a value for
    every argument named; conditions for which no other values of the rule matter
    and which evaluate without error; at most two alternatives at each point.  The matcher expression is taken from the text: [sem] is its
    boolean meaning (C08).  No rule is lost or added, in any insertion and
    visiting order; [h1] are the additions before the matcher is built, [h2]
    those after. *)
Theorem C10_transparent_partial :
  forall E ord grow d rDef rvals f h cs h1 h2 m,
    any_order ord -> atoms_ok f -> parsed f -> faithful f = true -> two_way f = true ->
    compile grow (written f) = BOk h cs ->
    only_adds h1 -> only_adds h2 -> h1 ++ h2 <> [] -> told_apart d (Stage "" cs) (rules_in (h1 ++ h2)) ->
    lives d (Stage "" cs) h1 h2 m ->
    sound_conditions E d rDef rvals (Stage "" cs) (fun r => set_of (h1 ++ h2) r = true) ->
    exists l, reported E ord m rDef rvals = Val (l, None) /\
      forall r, In r l <-> set_of (h1 ++ h2) r = true /\ sem (fun e => holds E d rDef rvals e r) f = true.
Proof.
  intros E ord grow d rDef rvals f h cs h1 h2 m Ho A P Fa Tw Ec O1 O2 Ne Ap L SC.
  destruct (compile_faithful grow f (conj A P) Fa) as [h' Ec']. rewrite Ec in Ec'. injection Ec' as <- ->.
  assert (Hn : narrow (Stage "" (ptree f [])) = true) by now rewrite two_way_narrow.
  pose proof (adds_recorded h1 h2 O1 O2) as HR.
  assert (SC' : sound_conditions E d rDef rvals (Stage "" (ptree f [])) (recorded h1 h2)).
  { intros e He. destruct (SC e He) as [X [Y [Z Z']]]. split; [intros r Hr; apply X, HR, Hr|]. split; [|split].
    - apply (own_values_sub _ _ _ _ _ _ _ (fun r => proj1 (HR r)) Y).
    - intros r Hr. now apply Z, HR.
    - intros [Hl|Hr]; apply Z'; [now left|right]. intros r Hr'. apply (Hr r). now apply HR. }
  destruct (C10_reported_exactly E ord d rDef rvals _ h1 h2 m Ho Hn Ap L SC') as [l [k [B1 [B2 B3]]]].
  exists l. split; [exact B1|].
  assert (Hk : k = 0).
  { destruct k as [|k]; [reflexivity|]. exfalso. destruct B3 as [B3 _]. destruct B3 as [w [_ [pre [e [-> [_ X]]]]]]; [lia|].
    destruct X as [[X _]|[x [Hx [_ X]]]].
    - assert (Hex : exists r, set_of (h1 ++ h2) r = true).
      { clear - O1 O2 Ne. assert (O : only_adds (h1 ++ h2)) by (intros o Hi; apply in_app_or in Hi as [Hi|Hi]; auto).
        revert Ne O. generalize (h1 ++ h2) as h. intros h. destruct h as [|o h]; [congruence|]. intros _ O.
        destruct (O o (or_introl eq_refl)) as [r ->]. exists r. unfold set_of. cbn [fold_left].
        assert (G : forall h s, only_adds h -> s r = true -> fold_left set_step h s r = true).
        { clear. induction h as [|o h IH]; intros s O Hs; [exact Hs|]. cbn. apply IH; [intros o' Ho'; apply O; now right|].
          destruct (O o (or_introl eq_refl)) as [x ->]. cbn. unfold set_add. rewrite Hs. apply orb_true_r. }
        apply G; [intros o' Ho'; apply O; now right|]. cbn. unfold set_add. now destruct (rule_eqb_spec r r). }
      destruct Hex as [r Hr]. apply (X r). now apply HR.
    - apply (X x); [now apply HR|]. apply Forall_forall. intros e0 _. unfold same_values. now destruct (p_args e0). }
  subst k. intros r. rewrite occ_In, B2.
  assert (Hs : satisfies E d rDef rvals (Stage "" (ptree f [])) r = sem (fun e => holds E d rDef rvals e r) f).
  { rewrite satisfies_accepts. cbn [stage_children]. rewrite ptree_sem. cbn. apply andb_true_r. }
  rewrite <- Hs, <- times_satisfies. destruct (rule_eqb r (blank d)), (set_of (h1 ++ h2) r); intuition lia.
Qed.
Print Assumptions C10_transparent_partial.

(** No rule that fails the matcher is ever reported, whatever happens during
    evaluation (errors, panics of the evaluator excepted): every reported rule is
    present and satisfies the matcher, or is the blank rule.  This holds for
    every callback: the rules the callback sees are a prefix of the reported
    ones ([MatcherP.helper_walk]). *)
Theorem C10_only_satisfying :
  forall E ord d rDef rvals s h1 h2 m l err,
    any_order ord -> narrow s = true -> told_apart d s (rules_in (h1 ++ h2)) -> lives d s h1 h2 m ->
    (forall e, In e (texts s) -> (forall r, recorded h1 h2 r -> has_values d e r) /\ own_values E d rDef rvals e (recorded h1 h2)) ->
    reported E ord m rDef rvals = Val (l, err) ->
    forall r, In r l ->
      (set_of (h1 ++ h2) r = true /\ satisfies E d rDef rvals s r = true) \/ r = blank d.
Proof.
  intros E ord d rDef rvals s h1 h2 m l err Ho Hn Ap L HT Hrep r Hr.
  destruct (lives_indexed d s h1 h2 m Hn Ap L) as [D [T [lR [lH [N1 [I1 [N2 [I2 [Sub [Full W]]]]]]]]]].
  rewrite reported_walk, D, T in Hrep.
  assert (Hin : In r (fst (walk E ord d rDef rvals s [] (m_root m)))).
  { destruct (walk E ord d rDef rvals s [] (m_root m)) as [ys [| | |]]; try discriminate; injection Hrep as <- <-; exact Hr. }
  destruct (walk_sound E ord d rDef rvals Ho s [] (m_root m) _ _ Hn HT Full Sub W r Hin) as [[X [w Y]]|X]; [left|now right].
  split; [exact X|]. apply existsb_exists. exists w. exact Y.
Qed.
Print Assumptions C10_only_satisfying.


(** The RBAC-style matcher of the documentation, three rules, one of them added
    before the matcher is built. *)
Definition ex_form : form :=
  FAnd (FAnd (FAtom [mkTok KOther "r_sub == p_sub"]) (FAtom [mkTok KOther "r_obj == p_obj"])) (FAtom [mkTok KOther "r_act == p_act"]).
Example C10_example :
  let h1 := [PAdd ["alice"; "data1"; "read"]] in
  let h2 := [PAdd ["bob"; "data2"; "write"]; PAdd ["alice"; "data2"; "read"]] in
  atoms_ok ex_form /\ parsed ex_form /\ faithful ex_form = true /\ two_way ex_form = true /\
  (exists h, compile (fun c => c) (written ex_form) = BOk h (stage_children ex_tree)) /\
  only_adds h1 /\ only_adds h2 /\ told_apart ex_p ex_tree (rules_in (h1 ++ h2)) /\
  (exists m, lives ex_p ex_tree h1 h2 m) /\
  sound_conditions (mini []) ex_p ex_r (req "alice" "data2" "read") ex_tree (fun r => set_of (h1 ++ h2) r = true) /\
  filter_after (mini []) backwards ex_p ex_r ex_tree h1 h2 (req "alice" "data2" "read") = Val ([["alice"; "data2"; "read"]], None).
Proof.
  cbv zeta.
  assert (F1 : plain_ops [PAdd ["alice"; "data1"; "read"]]).
  { repeat constructor; discriminate. }
  assert (F2 : plain_ops [PAdd ["bob"; "data2"; "write"]; PAdd ["alice"; "data2"; "read"]]).
  { repeat constructor; discriminate. }
  split; [cbn; repeat split; now apply atom_one|]. split; [cbn; tauto|]. split; [reflexivity|]. split; [reflexivity|].
  split; [eexists; reflexivity|].
  split; [intros o [<-|[]]; eauto|]. split; [intros o [<-|[<-|[]]]; eauto|]. split; [now apply told_apart_ops|].
  split; [now apply lives_exists|]. split; [|vm_compute; reflexivity].
  apply ex_sound. apply (set_of_ok (fun r => List.length r = 3)). repeat constructor.
Qed.

(** ** C09: every accepted matcher can be evaluated *)

(** False: a || b || c compiles, but adding any rule panics; and so does a query
    on the empty policy whose first two alternatives are false.  Whatever the
    slice growth, the rule, the definition, the evaluator. *)
Definition three : form :=
  FOr (FAtom [mkTok KOther "r_sub == p_sub"]) (FOr (FAtom [mkTok KOther "r_obj == p_obj"]) (FAtom [mkTok KOther "r_act == p_act"])).
Theorem C09_no_panic_refuted :
  atoms_ok three /\ parsed three /\
  forall grow, exists h cs, compile grow (written three) = BOk h cs /\
    (forall d r, NewMatcher d [r] (Stage "" cs) = Panic) /\
    (exists m, NewMatcher ex_p [] (Stage "" cs) = Val m /\ reported (mini []) in_order m ex_r (req "a" "b" "c") = Panic).
Proof.
  split; [cbn; repeat split; now apply atom_one|]. split; [cbn; tauto|].
  intros grow. eexists _, _. split; [reflexivity|]. split.
  - intros d r. reflexivity.
  - eexists. split; [reflexivity|]. vm_compute. reflexivity.
Qed.
Print Assumptions C09_no_panic_refuted.

(** Exactly which matchers can take rules: adding a rule panics, on every index,
    if and only if some point of the tree has three or more alternatives. *)
Theorem C09_add_panics_iff :
  forall d s r n, addRuleHelper d r s n <> Panic <-> narrow s = true.
Proof. intros. apply add_narrow. Qed.
Print Assumptions C09_add_panics_iff.

(** Partial: expressions with at most two alternatives at each point (in the
    formula: [two_way], every group of || in a row has at most two members
    counting the start of nested groups).  Then no sequence of policy calls and
    no query panics unless the evaluator itself panics; and for the other
    (faithful) expressions adding the first rule panics. *)
Theorem C09_no_panic_partial :
  forall grow f h cs,
    atoms_ok f -> parsed f -> faithful f = true -> compile grow (written f) = BOk h cs ->
    (two_way f = true ->
       (forall d h1 h2, exists m, lives d (Stage "" cs) h1 h2 m) /\
       (forall E ord d n rDef rvals S (fn : S -> rule -> S * bool) st,
          (forall e r, ev E e (ParamGet d r rDef rvals) <> Panic) ->
          RangeMatches E ord (mkMatcher d (Stage "" cs) n) rDef rvals fn st <> Panic)) /\
    (two_way f = false -> forall d r n, addRuleHelper d r (Stage "" cs) n = Panic).
Proof.
  intros grow f h cs A P Fa Ec. destruct (compile_faithful grow f (conj A P) Fa) as [h' Ec'].
  rewrite Ec in Ec'. injection Ec' as <- ->. split.
  - intros Tw. assert (Hn : narrow (Stage "" (ptree f [])) = true) by now rewrite two_way_narrow. split.
    + intros d h1 h2. now apply lives_exists.
    + intros E ord d n rDef rvals S fn st He. unfold RangeMatches. cbn [m_def m_tree m_root]. rewrite helper_walk.
      pose proof (walk_no_panic E ord d rDef rvals (Stage "" (ptree f [])) [] n Hn (fun e r _ => He e r)) as W.
      unfold finish. destruct (walk E ord d rDef rvals (Stage "" (ptree f [])) [] n) as [ys st']. cbn [fst snd] in *.
      destruct (consume fn st ys) as [st2 [|]]; [|discriminate]. destruct st'; try discriminate. congruence.
  - intros Tw d r n. pose proof (add_narrow d r (Stage "" (ptree f [])) n) as X.
    rewrite two_way_narrow, Tw in X. destruct (addRuleHelper d r (Stage "" (ptree f [])) n); [|reflexivity].
    exfalso. assert (Y : false = true) by (apply X; discriminate). discriminate.
Qed.
Print Assumptions C09_no_panic_partial.

Example C09_example :
  let f := FOr (FAnd (FAtom [mkTok KOther "a"]) (FPar (FOr (FAtom [mkTok KOther "b"]) (FAtom [mkTok KOther "c"])))) (FAtom [mkTok KOther "d"]) in
  atoms_ok f /\ parsed f /\ faithful f = true /\ two_way f = true /\ faithful three = true /\ two_way three = false.
Proof. cbv zeta. split; [cbn; repeat split; now apply atom_one|]. cbn. tauto. Qed.

(** ** C11: removed rules stop matching *)

(** False as stated: after adding and removing the rule of empty values, it is
    still reported. *)
Theorem C11_removed_refuted :
  exists h m, lives ex_p ex_tree [] h m /\ set_of h ["";"";""] = false /\
    reported (mini []) in_order m ex_r (req "" "" "") = Val ([["";"";""]], None).
Proof.
  pose (h := [PAdd ["";"";""]; PRemove ["";"";""]]).
  destruct (filter_after_lives (mini []) in_order ex_p ex_r ex_tree [] h (req "" "" "") ([["";"";""]], None)) as [m [L R]]; [vm_compute; reflexivity|].
  exists h, m. split; [exact L|]. split; [reflexivity|exact R].
Qed.
Print Assumptions C11_removed_refuted.

(** Partial: any rule with a non-empty value.  A rule that is not present is not
    reported, even when evaluation fails half way; a present rule that satisfies
    the matcher is reported. *)
Theorem C11_removed_partial :
  forall E ord d rDef rvals s h1 h2 m r,
    any_order ord -> narrow s = true -> told_apart d s (rules_in (h1 ++ h2)) -> lives d s h1 h2 m ->
    (forall e, In e (texts s) -> (forall r, recorded h1 h2 r -> has_values d e r) /\ own_values E d rDef rvals e (recorded h1 h2)) ->
    (exists v, In v r /\ v <> ""%string) ->
    (set_of (h1 ++ h2) r = false -> forall l err, reported E ord m rDef rvals = Val (l, err) -> ~ In r l) /\
    (sound_conditions E d rDef rvals s (recorded h1 h2) ->
     exists l, reported E ord m rDef rvals = Val (l, None) /\
       (In r l <-> set_of (h1 ++ h2) r = true /\ satisfies E d rDef rvals s r = true)).
Proof.
  intros E ord d rDef rvals s h1 h2 m r Ho Hn Ap L HT [v [Hv Hne]].
  assert (Hb : r <> blank d). { intros ->. apply repeat_spec in Hv. congruence. }
  split.
  - intros Hs l err Hrep Hin.
    destruct (C10_only_satisfying E ord d rDef rvals s h1 h2 m l err Ho Hn Ap L HT Hrep r Hin) as [[X _]|X]; congruence.
  - intros SC. destruct (C10_reported_exactly E ord d rDef rvals s h1 h2 m Ho Hn Ap L SC) as [l [k [A [B _]]]].
    exists l. split; [exact A|]. rewrite occ_In, B, <- times_satisfies.
    destruct (rule_eqb_spec r (blank d)); [congruence|]. destruct (set_of (h1 ++ h2) r); intuition lia.
Qed.
Print Assumptions C11_removed_partial.

(** ** C12: revoking all access denies *)

(** False.  First: alice's only rule is removed, and the matcher
    r.sub == p.sub && r.obj == 'data1' still reports a match for alice (the
    index keeps her node).  Second: the three-column matcher of the
    documentation matches an all-empty request after a rule with empty sub and
    obj is removed. *)
Definition leaf_tree : stage := Stage "" [Stage "r_sub == p_sub" [Stage "r_obj == 'data1'" []]].
Theorem C12_revoked_refuted :
  (exists m, lives ex_p leaf_tree [] [PAdd ["alice"; "data1"; "read"]; PRemove ["alice"; "data1"; "read"]] m /\
     reported (mini []) in_order m ex_r (req "alice" "data1" "read") = Val ([["";"";""]], None)) /\
  (exists m, lives ex_p ex_tree [] [PAdd ["bob"; "data1"; "read"]; PAdd [""; ""; "read"]; PRemove [""; ""; "read"]] m /\
     reported (mini []) in_order m ex_r (req "" "" "") = Val ([["";"";""]], None)).
Proof.
  split; apply filter_after_lives; vm_compute; reflexivity.
Qed.
Print Assumptions C12_revoked_refuted.

(** Exactly when something is reported although no present rule satisfies the
    matcher: some way is matched without a present rule ([phantom], defined in
    MatcherSpec). *)
Theorem C12_revoked_exact :
  forall E ord d rDef rvals s h1 h2 m,
    any_order ord -> narrow s = true -> told_apart d s (rules_in (h1 ++ h2)) -> lives d s h1 h2 m ->
    sound_conditions E d rDef rvals s (recorded h1 h2) ->
    (forall r, set_of (h1 ++ h2) r = true -> satisfies E d rDef rvals s r = false) ->
    exists l, reported E ord m rDef rvals = Val (l, None) /\
      (forall r, In r l -> r = blank d) /\
      (l <> [] <-> exists w, In w (ways_of s) /\
                     phantom E d rDef rvals (recorded h1 h2) (fun r => set_of (h1 ++ h2) r = true) w).
Proof.
  intros E ord d rDef rvals s h1 h2 m Ho Hn Ap L SC Hno.
  destruct (C10_reported_exactly E ord d rDef rvals s h1 h2 m Ho Hn Ap L SC) as [l [k [A [B C]]]].
  assert (Z : forall r, occ l r = if rule_eqb r (blank d) then k else 0).
  { intros r. rewrite B. destruct (set_of (h1 ++ h2) r) eqn:Es; [|reflexivity].
    assert (T0 : times E d rDef rvals s r = 0); [|now rewrite T0].
    destruct (times E d rDef rvals s r) eqn:Et; [reflexivity|]. exfalso.
    assert (X : satisfies E d rDef rvals s r = true) by (apply times_satisfies; lia). rewrite Hno in X; [discriminate|exact Es]. }
  exists l. split; [exact A|]. split.
  - intros r Hr. apply occ_In in Hr. rewrite Z in Hr. destruct (rule_eqb_spec r (blank d)); [assumption|lia].
  - rewrite <- C. split.
    + intros Hl. destruct l as [|r l']; [congruence|]. assert (Hr : 0 < occ (r :: l') r) by (apply occ_In; now left).
      rewrite Z in Hr. destruct (rule_eqb r (blank d)); lia.
    + intros Hk ->. specialize (Z (blank d)). destruct (rule_eqb_spec (blank d) (blank d)); [|congruence]. cbn in Z. lia.
Qed.
Print Assumptions C12_revoked_exact.

(** Partial: requests for which the last condition of every way is false for the
    blank rule; for instance when every last condition compares a non-empty
    request value with a policy value.  Then, whatever was added and removed
    before, exactly the present rules that satisfy the matcher are reported. *)
Theorem C12_revoked_partial :
  forall E ord d rDef rvals s h1 h2 m,
    any_order ord -> narrow s = true -> told_apart d s (rules_in (h1 ++ h2)) -> lives d s h1 h2 m ->
    sound_conditions E d rDef rvals s (recorded h1 h2) ->
    (forall w e, In (w ++ [e]) (ways_of s) -> holds E d rDef rvals e (blank d) = false) ->
    exists l, reported E ord m rDef rvals = Val (l, None) /\
      forall r, In r l <-> set_of (h1 ++ h2) r = true /\ satisfies E d rDef rvals s r = true.
Proof.
  intros E ord d rDef rvals s h1 h2 m Ho Hn Ap L SC Hlast.
  destruct (C10_reported_exactly E ord d rDef rvals s h1 h2 m Ho Hn Ap L SC) as [l [k [A [B C]]]].
  assert (Hk : k = 0).
  { destruct k as [|k]; [reflexivity|]. exfalso. destruct C as [C _]. destruct C as [w [Hw [pre [e [-> [X _]]]]]]; [lia|].
    rewrite (Hlast pre e Hw) in X. discriminate. }
  subst k. exists l. split; [exact A|]. intros r. rewrite occ_In, B, <- times_satisfies.
  destruct (rule_eqb r (blank d)), (set_of (h1 ++ h2) r); intuition lia.
Qed.
Print Assumptions C12_revoked_partial.

Example C12_example :
  let h := [PAdd ["alice"; "data1"; "read"]; PAdd ["bob"; "data2"; "write"]; PRemove ["alice"; "data1"; "read"]] in
  told_apart ex_p ex_tree (rules_in h) /\ (exists m, lives ex_p ex_tree [] h m) /\
  sound_conditions (mini []) ex_p ex_r (req "alice" "data1" "read") ex_tree (recorded [] h) /\
  (forall w e, In (w ++ [e]) (ways_of ex_tree) -> holds (mini []) ex_p ex_r (req "alice" "data1" "read") e (blank ex_p) = false) /\
  filter_after (mini []) in_order ex_p ex_r ex_tree [] h (req "alice" "data1" "read") = Val ([], None).
Proof.
  cbv zeta.
  match goal with |- told_apart _ _ (rules_in ?h) /\ _ => assert (F : plain_ops h) by (repeat constructor; discriminate) end.
  split; [apply (told_apart_ops _ _ []); [constructor|assumption]|]. split; [now apply lives_exists|]. split; [|split].
  - apply ex_sound. apply (recorded_in [] _ (fun r => List.length r = 3)); [discriminate|repeat constructor].
  - intros w e [H|[]]. destruct w as [|a [|b [|c [|x w]]]]; try discriminate; cbn in H; injection H as <- <- <-; vm_compute; reflexivity.
  - vm_compute. reflexivity.
Qed.

(** ** C13: each rule once *)

(** False: r.sub == p.sub || r.obj == p.obj reports a rule twice that satisfies
    both alternatives. *)
Theorem C13_once_refuted :
  exists m, lives ex_p (Stage "" [Stage "r_sub == p_sub" []; Stage "r_obj == p_obj" []]) [] [PAdd ["alice"; "data1"; "read"]] m /\
    reported (mini []) in_order m ex_r (req "alice" "data1" "read") =
      Val ([["alice"; "data1"; "read"]; ["alice"; "data1"; "read"]], None).
Proof. apply filter_after_lives. vm_compute. reflexivity. Qed.
Print Assumptions C13_once_refuted.

(** Exactly how often: a rule with a non-empty value is reported as often as it
    satisfies a way through the matcher; so once at most if no two ways can hold
    together (and, in particular, in every matcher without ||). *)
Theorem C13_once_partial :
  forall E ord d rDef rvals s h1 h2 m,
    any_order ord -> narrow s = true -> told_apart d s (rules_in (h1 ++ h2)) -> lives d s h1 h2 m ->
    sound_conditions E d rDef rvals s (recorded h1 h2) ->
    exists l, reported E ord m rDef rvals = Val (l, None) /\
      (forall r, r <> blank d -> occ l r = if set_of (h1 ++ h2) r then times E d rDef rvals s r else 0) /\
      ((forall r, times E d rDef rvals s r <= 1) ->
       (forall w e, In (w ++ [e]) (ways_of s) -> holds E d rDef rvals e (blank d) = false) -> NoDup l).
Proof.
  intros E ord d rDef rvals s h1 h2 m Ho Hn Ap L SC.
  destruct (C10_reported_exactly E ord d rDef rvals s h1 h2 m Ho Hn Ap L SC) as [l [k [A [B C]]]].
  exists l. split; [exact A|]. split.
  - intros r Hr. rewrite B. destruct (rule_eqb_spec r (blank d)); [congruence|]. lia.
  - intros Ht Hlast. assert (Hk : k = 0).
    { destruct k as [|k]; [reflexivity|]. exfalso. destruct C as [C _]. destruct C as [w [Hw [pre [e [-> [X _]]]]]]; [lia|].
      rewrite (Hlast pre e Hw) in X. discriminate. }
    apply (NoDup_count_occ (list_eq_dec string_dec)). intros r. change (occ l r <= 1). rewrite B. subst k.
    specialize (Ht r). destruct (set_of (h1 ++ h2) r), (rule_eqb r (blank d)); lia.
Qed.
Print Assumptions C13_once_partial.

Lemma ptree_one_way f : has_or f = false -> forall k, List.length (flat_map ways k) <= 1 -> List.length (flat_map ways (ptree f k)) <= 1.
Proof.
  induction f as [ts|f IHf g IHg|f IHf g IHg|f IHf]; cbn [has_or ptree]; intros H k Hk; try discriminate; auto.
  - cbn [flat_map]. rewrite app_nil_r. destruct k as [|c k]; [cbn; lia|]. cbn [ways]. now rewrite map_length.
  - apply orb_false_iff in H as [H1 H2]. auto.
Qed.

(** In matchers without || no rule is reported twice. *)
Theorem C13_once_without_or :
  forall E d rDef rvals grow f h cs,
    atoms_ok f -> parsed f -> has_or f = false -> compile grow (written f) = BOk h cs ->
    narrow (Stage "" cs) = true /\ forall r, times E d rDef rvals (Stage "" cs) r <= 1.
Proof.
  intros E d rDef rvals grow f h cs A P H Ec.
  assert (Fa : faithful f = true /\ two_way f = true).
  { unfold two_way. clear - H. assert (G : faithful f = true /\ alternatives f = 1 /\ and_narrow f = true); [|destruct G as [G1 [G2 G3]]; rewrite G1, G2, G3; auto].
    induction f as [ts|f IHf g IHg|f IHf g IHg|f IHf]; cbn in *; auto; try discriminate.
    apply orb_false_iff in H as [H1 H2]. destruct (IHf H1) as [X1 [X2 X3]], (IHg H2) as [Y1 [Y2 Y3]].
    rewrite X1, Y1, H1, X3, Y3, Y2. auto. }
  destruct Fa as [Fa Tw]. destruct (compile_faithful grow f (conj A P) Fa) as [h' Ec']. rewrite Ec in Ec'. injection Ec' as <- ->.
  split; [now rewrite two_way_narrow|]. intros r. unfold times, ways_of. cbn [stage_children].
  etransitivity; [|apply (ptree_one_way f H []); cbn; lia].
  generalize (flat_map ways (ptree f [])) as ws. intros ws. induction ws as [|w ws IH]; cbn [filter List.length]; [lia|].
  destruct (all_hold E d rDef rvals w r); cbn [List.length]; lia.
Qed.
Print Assumptions C13_once_without_or.

Example C13_example : has_or ex_form = false /\ atoms_ok ex_form /\ parsed ex_form.
Proof. split; [reflexivity|]. split; [cbn; repeat split; now apply atom_one|cbn; tauto]. Qed.

(** ** C14: the empty policy is evaluated against one blank rule *)
Definition no_rule_recorded (h1 h2 : list pop) : Prop := forall r, ~ recorded h1 h2 r.

(** For every tree that can take rules, every history in which no rule was
    recorded (no additions since the last Clear or the creation) and every
    visiting order: the reports are, in this order, the blank rule once for each
    way it satisfies the matcher. *)
Theorem C14_blank_rule :
  forall E ord d rDef rvals s h1 h2 m,
    any_order ord -> narrow s = true -> told_apart d s (rules_in (h1 ++ h2)) -> lives d s h1 h2 m ->
    no_rule_recorded h1 h2 ->
    (forall e, In e (texts s) -> evaluates E d rDef rvals e (blank d)) ->
    reported E ord m rDef rvals = Val (repeat (blank d) (times E d rDef rvals s (blank d)), None) /\
    blank d = map (fun _ => ""%string) (ad_args d).
Proof.
  intros E ord d rDef rvals s h1 h2 m Ho Hn Ap L H0 HE.
  destruct (lives_indexed d s h1 h2 m Hn Ap L) as [D [T [lR [lH [N1 [I1 [N2 [I2 [Sub [Full W]]]]]]]]]].
  split.
  - rewrite reported_walk, D, T.
    rewrite (walk_empty E ord d rDef rvals Ho s [] (m_root m) _ _ Hn HE H0 (fun r Hr => H0 r (Sub r Hr)) W).
    f_equal. f_equal. unfold scan, times. clear. induction (ways_of s) as [|w ws IH]; [reflexivity|].
    cbn [flat_map filter]. etransitivity; [apply f_equal; exact IH|]. destruct (all_hold E d rDef rvals w (blank d)); reflexivity.
  - unfold blank. induction (ad_args d); cbn; congruence.
Qed.
Print Assumptions C14_blank_rule.

Example C14_example :
  let h2 := [PAdd ["alice"; "data1"; "read"]; PClear] in
  told_apart ex_p leaf_tree (rules_in h2) /\ no_rule_recorded [] h2 /\ (exists m, lives ex_p leaf_tree [] h2 m) /\
  no_rule_recorded [] [] /\
  filter_after (mini []) in_order ex_p ex_r leaf_tree [] h2 (req "" "data1" "x") = Val ([["";"";""]], None) /\
  filter_after (mini []) in_order ex_p ex_r leaf_tree [] h2 (req "bob" "data1" "x") = Val ([], None).
Proof.
  cbv zeta.
  match goal with |- told_apart _ _ (rules_in ?h) /\ _ => assert (F : plain_ops h) by (repeat constructor; discriminate) end.
  split; [apply (told_apart_ops _ _ []); [constructor|assumption]|]. split; [intros r H; exact H|]. split; [now apply lives_exists|].
  split; [intros r H; discriminate|]. split; vm_compute; reflexivity.
Qed.

(** ** C15: evaluation errors are reported *)

(** False: errors below the first stage are swallowed and end the search.  The
    matcher r.sub == p.sub && eval(p.obj) over two rules, one with a malformed
    condition: depending on the map order, Filter returns the good rule or
    nothing, without an error either way. *)
Definition eval_tree : stage := Stage "" [Stage "r_sub == p_sub" [Stage "eval(p_obj)" []]].
Theorem C15_errors_refuted :
  let h := [PAdd ["alice"; "not an expression"; "1"]; PAdd ["alice"; "r.act == p.act"; "read"]] in
  exists m, lives ex_p eval_tree [] h m /\
    ~ evaluates (mini []) ex_p ex_r (req "alice" "data1" "read") "eval(p_obj)" ["alice"; "not an expression"; "1"] /\
    reported (mini []) in_order m ex_r (req "alice" "data1" "read") = Val ([], None) /\
    reported (mini []) backwards m ex_r (req "alice" "data1" "read") = Val ([["alice"; "r.act == p.act"; "read"]], None).
Proof.
  cbv zeta.
  match goal with |- exists m, lives _ _ _ ?h m /\ _ => pose (hh := h) end.
  destruct (pexec [] hh) as [p2 es] eqn:E2.
  assert (Em : exists m, m_events (mkMatcher ex_p eval_tree empty_root) es = Val m /\
    reported (mini []) in_order m ex_r (req "alice" "data1" "read") = Val ([], None) /\
    reported (mini []) backwards m ex_r (req "alice" "data1" "read") = Val ([["alice"; "r.act == p.act"; "read"]], None)).
  { vm_compute in E2. injection E2 as <- <-. eexists. split; [vm_compute; reflexivity|]. split; vm_compute; reflexivity. }
  destruct Em as [m [Em R]]. exists m. split; [|split; [|exact R]].
  - exists [], [], p2, es, [], (mkMatcher ex_p eval_tree empty_root). repeat split; auto.
  - intros [_ [v Hv]]. vm_compute in Hv. discriminate.
Qed.
Print Assumptions C15_errors_refuted.

(** Partial: matchers whose conditions are all at the first level (a single
    condition, or one || of two).  Then a successful query means that every
    condition was evaluated without error on every present rule. *)
Definition one_level (s : stage) : Prop := Forall (fun c => stage_children c = []) (stage_children s).

Lemma walk_flat_done E ord d rDef rvals (Ho : any_order ord) cs : Forall (fun c => stage_children c = []) cs ->
  forall i at_ n (H R : rule -> Prop), wf_children d cs i n H R ->
  snd (walk_children E ord d rDef rvals cs i at_ n) <> WStop /\
  (snd (walk_children E ord d rDef rvals cs i at_ n) = WDone ->
     forall c r, In c cs -> R r -> evaluates E d rDef rvals (stage_expr c) r).
Proof.
  induction 1 as [|c cs Hc F IH]; intros i at_ n H R W; [split; [easy|intros _ c r []]|].
  destruct W as [[m [Hm [ND Wc]]] Wr]. destruct (IH (S i) at_ n H R Wr) as [IH1 IH2].
  assert (Hl : IsLeafNode c = true) by (unfold IsLeafNode; now rewrite Hc). rewrite Hl in Wc.
  cbn [walk_children]. rewrite Hm.
  match goal with |- context [walk_map _ _ _ _ c ?f _] => set (rec_ := f) end.
  assert (Hrec : forall k n', rec_ k n' = ([node_rule n'], WDone)).
  { intros k n'. subst rec_. cbv beta. rewrite Hl. destruct c as [ec cc]. cbn in Hc. subst cc. reflexivity. }
  assert (G : forall entries, snd (walk_entries E d rDef rvals c rec_ entries) <> WStop /\
    (snd (walk_entries E d rDef rvals c rec_ entries) = WDone ->
       forall k n', In (k, n') entries -> exists v, ev E (stage_expr c) (ParamGet d (node_rule n') rDef rvals) = Val (inl v))).
  { induction entries as [|[k n'] rest [G1 G2]]; [split; [easy|intros _ k n' []]|]. cbn [walk_entries]. unfold eval_stage.
    destruct (ev E (stage_expr c) (ParamGet d (node_rule n') rDef rvals)) as [[v|e]|] eqn:Ee; [|split; easy|split; easy].
    rewrite Hrec.
    assert (X : (snd (walk_entries E d rDef rvals c rec_ rest) = WDone ->
       forall k0 n0, In (k0, n0) ((k, n') :: rest) -> exists v, ev E (stage_expr c) (ParamGet d (node_rule n0) rDef rvals) = Val (inl v))).
    { intros Hd k0 n0 [Heq|Hin]; [injection Heq as <- <-; eauto|]. eapply G2; eassumption. }
    destruct v as [x|[|]|x]; try (split; [exact G1|exact X]).
    destruct (walk_entries E d rDef rvals c rec_ rest) as [y2 s2]. split; [exact G1|exact X]. }
  unfold walk_map. destruct (parses E (stage_expr c)) eqn:Ep; [|split; easy].
  destruct (G (the_entries d (ord at_ i m))) as [G1 G2].
  destruct (walk_entries E d rDef rvals c rec_ (the_entries d (ord at_ i m))) as [y1 s1]. cbn [snd] in G1, G2.
  destruct s1; try (split; easy).
  destruct (walk_children E ord d rDef rvals cs (S i) at_ n) as [y2 s2]. cbn [snd] in *.
  split; [exact IH1|]. intros Hd c0 r [<-|Hin] Hr; [|now apply IH2].
  split; [exact Ep|]. specialize (G2 eq_refl (Hash r) (NewMatcherNode r)). apply G2.
  assert (Hin : In (Hash r, NewMatcherNode r) (ord at_ i m)).
  { eapply Permutation_in; [apply Permutation_sym, Ho|]. apply mget_In. apply Wc. exists r. auto. }
  destruct (ord at_ i m); [destruct Hin|exact Hin].
Qed.

Theorem C15_errors_partial :
  forall E ord d rDef rvals s h1 h2 m l,
    any_order ord -> narrow s = true -> one_level s -> told_apart d s (rules_in (h1 ++ h2)) -> lives d s h1 h2 m ->
    reported E ord m rDef rvals = Val (l, None) ->
    forall e r, In e (texts s) -> set_of (h1 ++ h2) r = true -> evaluates E d rDef rvals e r.
Proof.
  intros E ord d rDef rvals s h1 h2 m l Ho Hn Fl Ap L Hrep e r He Hr.
  destruct (lives_indexed d s h1 h2 m Hn Ap L) as [D [T [lR [lH [N1 [I1 [N2 [I2 [Sub [Full W]]]]]]]]]].
  rewrite reported_walk, D, T in Hrep. destruct s as [es cs]. rewrite walk_unfold in Hrep. apply wf_unfold in W.
  destruct (walk_flat_done E ord d rDef rvals Ho cs Fl 0 [] (m_root m) _ _ W) as [A B].
  destruct (walk_children E ord d rDef rvals cs 0 [] (m_root m)) as [ys st]. cbn [snd] in *.
  destruct st; try discriminate; [|congruence].
  cbn [texts] in He. apply in_flat_map in He as [c [Hc He]].
  assert (Hec : e = stage_expr c).
  { unfold one_level in Fl. cbn in Fl. rewrite Forall_forall in Fl. specialize (Fl c Hc). destruct c as [ec cc]. cbn in Fl. subst cc.
    cbn in He. destruct He as [He|[]]. auto. }
  subst e. now apply B.
Qed.
Print Assumptions C15_errors_partial.

Example C15_example :
  let s := Stage "" [Stage "eval(p_obj)" []] in
  let h := [PAdd ["alice"; "not an expression"; "1"]; PAdd ["alice"; "r.act == p.act"; "read"]] in
  narrow s = true /\ one_level s /\ told_apart ex_p s (rules_in h) /\ (exists m, lives ex_p s [] h m) /\
  filter_after (mini []) backwards ex_p ex_r s [] h (req "alice" "data1" "read") = Val ([["alice"; "r.act == p.act"; "read"]], Some ErrEval).
Proof.
  cbv zeta.
  match goal with |- _ /\ _ /\ told_apart _ _ (rules_in ?h) /\ _ => assert (F : plain_ops h) by (repeat constructor; discriminate) end.
  split; [reflexivity|]. split; [repeat constructor|]. split; [apply (told_apart_ops _ _ []); [constructor|assumption]|]. split; [now apply lives_exists|].
  vm_compute. reflexivity.
Qed.

(** An error that is reported did happen: some condition does not parse or
    fails for some rule. *)
Lemma walk_err E ord d rDef rvals : forall s at_ n e, snd (walk E ord d rDef rvals s at_ n) = WErr e ->
  exists t, In t (texts s) /\ ((parses E t = false /\ e = ErrEval) \/ exists r, ev E t (ParamGet d r rDef rvals) = Val (inr e)).
Proof.
  assert (G : forall c rec_ entries e, snd (walk_entries E d rDef rvals c rec_ entries) = WErr e ->
    exists r, ev E (stage_expr c) (ParamGet d r rDef rvals) = Val (inr e)).
  { intros c rec_. induction entries as [|[k n] rest IH]; intros e; cbn [walk_entries]; [discriminate|]. unfold eval_stage.
    destruct (ev E (stage_expr c) (ParamGet d (node_rule n) rDef rvals)) as [[v|e']|] eqn:Ee; [| |discriminate].
    - destruct v as [x|[|]|x]; auto. destruct (rec_ k n) as [y1 [| | |]]; try discriminate.
      specialize (IH e). destruct (walk_entries E d rDef rvals c rec_ rest). auto.
    - cbn. intros X. injection X as ->. eauto. }
  intros s at_ n e. destruct s as [es cs]. rewrite walk_unfold. generalize 0 as i. induction cs as [|c cs IH]; intros i; [discriminate|].
  cbn [walk_children texts flat_map]. destruct (child n i) as [m|]; [|discriminate].
  match goal with |- context [walk_map _ _ _ _ c ?f _] => set (rec_ := f) end.
  destruct (walk_map E d rDef rvals c rec_ (ord at_ i m)) as [y1 s1] eqn:Ew.
  assert (X : s1 = WErr e -> exists t, (stage_expr c = t \/ In t (texts c) \/ In t (flat_map (fun c => stage_expr c :: texts c) cs)) /\ ((parses E t = false /\ e = ErrEval) \/ exists r, ev E t (ParamGet d r rDef rvals) = Val (inr e))).
  { intros ->. unfold walk_map in Ew. exists (stage_expr c). split; [now left|]. destruct (parses E (stage_expr c)).
    - right. apply (G c rec_ (the_entries d (ord at_ i m))). now rewrite Ew.
    - left. injection Ew as _ <-. auto. }
  destruct s1; cbn [snd]; try discriminate.
  - specialize (IH (S i)). destruct (walk_children E ord d rDef rvals cs (S i) at_ n) as [y2 s2]. cbn [snd] in *. intros Hs.
    destruct (IH Hs) as [t [Ht Ht2]]. exists t. split; [|exact Ht2]. apply in_or_app. now right.
  - intros Y. destruct (X Y) as [t [Ht Ht2]]. exists t. split; [|exact Ht2]. cbn. rewrite in_app_iff. intuition.
Qed.

Theorem C15_no_spurious_error :
  forall E ord m rDef rvals l e,
    reported E ord m rDef rvals = Val (l, Some e) ->
    exists t, In t (texts (m_tree m)) /\
      ((parses E t = false /\ e = ErrEval) \/ exists r, ev E t (ParamGet (m_def m) r rDef rvals) = Val (inr e)).
Proof.
  intros E ord m rDef rvals l e H. rewrite reported_walk in H.
  pose proof (walk_err E ord (m_def m) rDef rvals (m_tree m) [] (m_root m) e) as X.
  destruct (walk E ord (m_def m) rDef rvals (m_tree m) [] (m_root m)) as [ys st]. destruct st; try discriminate.
  injection H as _ ->. apply X. reflexivity.
Qed.
Print Assumptions C15_no_spurious_error.

(** ** C16: only the rule's own values matter *)

(** False with eval: under eval(p.obj) && r.act == p.act the rules of alice and
    bob share the node of their common condition, and bob's rule is reported to
    alice because alice's rule came first; alone, it is not reported. *)
Definition eval_first : stage := Stage "" [Stage "eval(p_obj)" [Stage "r_act == p_act" []]].
Theorem C16_own_values_refuted :
  let bob := ["bob"; "r.sub == p.sub"; "write"] in
  (exists m, lives ex_p eval_first [] [PAdd ["alice"; "r.sub == p.sub"; "read"]; PAdd bob] m /\
     reported (mini []) in_order m ex_r (req "alice" "data1" "write") = Val ([bob], None)) /\
  (exists m, lives ex_p eval_first [] [PAdd bob] m /\
     reported (mini []) in_order m ex_r (req "alice" "data1" "write") = Val ([], None)).
Proof. cbv zeta. split; apply filter_after_lives; vm_compute; reflexivity. Qed.
Print Assumptions C16_own_values_refuted.

(** Partial: conditions for which, among the rules recorded, no other values
    than the named ones matter.  Two matchers with the same
    tree, over any two histories in which [r] is present: [r] is reported by both
    or by neither. *)
Theorem C16_own_values_partial :
  forall E ord ord' d rDef rvals s h1 h2 m h1' h2' m' r,
    any_order ord -> any_order ord' -> narrow s = true ->
    told_apart d s (rules_in (h1 ++ h2)) -> lives d s h1 h2 m -> sound_conditions E d rDef rvals s (recorded h1 h2) ->
    told_apart d s (rules_in (h1' ++ h2')) -> lives d s h1' h2' m' -> sound_conditions E d rDef rvals s (recorded h1' h2') ->
    set_of (h1 ++ h2) r = true -> set_of (h1' ++ h2') r = true -> r <> blank d ->
    exists l l', reported E ord m rDef rvals = Val (l, None) /\ reported E ord' m' rDef rvals = Val (l', None) /\
      occ l r = occ l' r /\ (In r l <-> satisfies E d rDef rvals s r = true).
Proof.
  intros E ord ord' d rDef rvals s h1 h2 m h1' h2' m' r Ho Ho' Hn Ap L SC Ap' L' SC' Hr Hr' Hb.
  destruct (C10_reported_exactly E ord d rDef rvals s h1 h2 m Ho Hn Ap L SC) as [l [k [A [B _]]]].
  destruct (C10_reported_exactly E ord' d rDef rvals s h1' h2' m' Ho' Hn Ap' L' SC') as [l' [k' [A' [B' _]]]].
  exists l, l'. split; [exact A|]. split; [exact A'|].
  specialize (B r). specialize (B' r). rewrite Hr in B. rewrite Hr' in B'. destruct (rule_eqb_spec r (blank d)); [congruence|].
  split; [congruence|]. rewrite occ_In, B, <- times_satisfies. lia.
Qed.
Print Assumptions C16_own_values_partial.

Example C16_example :
  let h := [PAdd ["alice"; "data1"; "read"]; PAdd ["alice"; "data2"; "read"]] in
  let h' := [PAdd ["bob"; "data1"; "read"]; PRemove ["bob"; "data1"; "read"]; PAdd ["alice"; "data1"; "read"]] in
  told_apart ex_p ex_tree (rules_in h) /\ told_apart ex_p ex_tree (rules_in h') /\ set_of h ["alice"; "data1"; "read"] = true /\ set_of h' ["alice"; "data1"; "read"] = true /\
  sound_conditions (mini []) ex_p ex_r (req "alice" "data1" "read") ex_tree (recorded [] h) /\
  sound_conditions (mini []) ex_p ex_r (req "alice" "data1" "read") ex_tree (recorded [] h') /\
  (exists m, lives ex_p ex_tree [] h m) /\ (exists m, lives ex_p ex_tree [] h' m).
Proof.
  cbv zeta.
  match goal with |- told_apart _ _ (rules_in ?h) /\ told_apart _ _ (rules_in ?h') /\ _ =>
    assert (F : plain_ops h) by (repeat constructor; discriminate);
    assert (F' : plain_ops h') by (repeat constructor; discriminate) end.
  split; [apply (told_apart_ops _ _ []); [constructor|assumption]|]. split; [apply (told_apart_ops _ _ []); [constructor|assumption]|]. split; [reflexivity|]. split; [reflexivity|].
  do 2 (split; [apply ex_sound, (recorded_in [] _ (fun r => List.length r = 3)); [discriminate|repeat constructor]|]).
  split; now apply lives_exists.
Qed.
