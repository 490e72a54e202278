(** More lemmas about matchers: whole lifetimes, soundness of a walk, walks
    over an empty index, absence of panics. *)
From Verif Require Import GoBase GoBaseP DefsM DefsP PolicyM PolicySpec PolicyP MatcherDefM MatcherDefSpec MatcherDefP MatcherM MatcherSpec MatcherP.

(** ** Lifetimes *)
Lemma recorded_ever (ok : rule -> Prop) (ok_inj : inj_on ok) h : forall p (H H' : rule -> Prop) p' es,
  keyed p -> (forall r, In r (mvals p) -> ok r /\ H r) -> Forall (op_ok ok) h -> pexec p h = (p', es) ->
  (forall r, H r <-> H' r) ->
  forall r, ever_from H es r <-> fold_left recorded_step h H' r.
Proof.
  induction h as [|o h IH]; intros p H H' p' es K HP F E HH r.
  - injection E as <- <-. apply HH.
  - cbn [pexec] in E. destruct (pstep p o) as [[p1 b] e1] eqn:Es.
    destruct (pexec p1 h) as [p2 e2] eqn:Eh. injection E as <- <-. inversion F; subst.
    unfold ever_from in *. rewrite fold_left_app. cbn [fold_left].
    eapply (IH p1 _ _ p2 e2); [|clear IH|assumption|exact Eh|clear IH].
    + eapply keyed_pstep; eassumption.
    + intros x Hx. destruct o as [y|y|]; cbn [pstep op_ok] in *.
      * unfold AddRule in Es. destruct (mget (Hash y) p) eqn:Eg; injection Es as <- <- <-.
        -- now apply HP.
        -- apply mget_None in Eg. apply in_mvals_put in Hx; [|exact Eg]. cbn. destruct Hx as [->|Hx]; [tauto|].
           apply HP in Hx. tauto.
      * unfold RemoveRule in Es. destruct (mget (Hash y) p) eqn:Eg; injection Es as <- <- <-.
        -- apply in_mvals_del in Hx; [|exact K|]. { now apply HP. }
           intros z Hz. apply ok_inj; [now apply HP|assumption].
        -- now apply HP.
      * injection Es as <- <- <-. destruct Hx.
    + intros x. destruct o as [y|y|]; cbn [pstep op_ok recorded_step] in *.
      * unfold AddRule in Es. destruct (mget (Hash y) p) as [z|] eqn:Eg; injection Es as <- <- <-; cbn [fold_left ever_step].
        -- rewrite HH. split; [tauto|]. intros [->|X]; [|exact X].
           apply HH. assert (Hz : In z (mvals p)). { apply mget_In in Eg. unfold mvals. apply in_map_iff. now exists (Hash y, z). }
           destruct (HP z Hz) as [Oz Hz']. assert (z = y); [|now subst].
           apply ok_inj; auto. pose proof (keyed_mget _ _ _ K Eg). congruence.
        -- now rewrite HH.
      * unfold RemoveRule in Es. destruct (mget (Hash y) p) as [z|] eqn:Eg; injection Es as <- <- <-; cbn [fold_left ever_step]; apply HH.
      * injection Es as <- <- <-. cbn. tauto.
Qed.

Definition plain_ops (h : list pop) : Prop := Forall (op_ok comma_free) h.

Lemma plain_inj : inj_on comma_free.
Proof. intros r r' H H'. now apply Hash_inj. Qed.

Lemma recorded_in h1 h2 (P : rule -> Prop) : (forall r, set_of h1 r = true -> P r) -> Forall (op_ok P) h2 ->
  forall r, recorded h1 h2 r -> P r.
Proof.
  intros HP F. unfold recorded. change (forall r, (fun r => set_of h1 r = true) r -> P r) in HP. revert HP.
  generalize (fun r => set_of h1 r = true) as H.
  induction F as [|o h2 Ho F IH]; intros H HP; [exact HP|]. cbn. apply IH.
  destruct o; cbn in *; [intros r0 [->|X]; auto|exact HP|easy].
Qed.

Lemma set_of_ok (P : rule -> Prop) h : Forall (op_ok P) h -> forall r, set_of h r = true -> P r.
Proof.
  unfold set_of. assert (G : forall h s, Forall (op_ok P) h -> (forall r, s r = true -> P r) ->
    forall r, fold_left set_step h s r = true -> P r).
  { clear h. induction h as [|o h IH]; intros s F Hs; [exact Hs|]. inversion F; subst. cbn. apply IH; [assumption|].
    destruct o; cbn in *; unfold set_add, set_remove; intros x Hx.
    - apply orb_true_iff in Hx as [Hx|Hx]; [|auto]. now destruct (rule_eqb_spec x r); subst.
    - apply andb_true_iff in Hx. now apply Hs.
    - discriminate. }
  intros F. apply G; [exact F|]. discriminate.
Qed.

Lemma rules_in_ops h : Forall (op_ok (rules_in h)) h.
Proof. apply Forall_forall. intros [r|r|] H; cbn; [now left|now right|exact I]. Qed.
Lemma rules_in_ops2 h1 h2 : Forall (op_ok (rules_in (h1 ++ h2))) h1 /\ Forall (op_ok (rules_in (h1 ++ h2))) h2.
Proof. apply Forall_app. apply rules_in_ops. Qed.
Lemma op_ok_rules_in (P : rule -> Prop) h : Forall (op_ok P) h -> forall r, rules_in h r -> P r.
Proof. intros F r [H|H]; rewrite Forall_forall in F; apply (F _ H). Qed.
Lemma told_apart_ops d s h1 h2 : plain_ops h1 -> plain_ops h2 -> told_apart d s (rules_in (h1 ++ h2)).
Proof. intros F1 F2. apply told_apart_plain, op_ok_rules_in. apply Forall_app. now split. Qed.
Lemma told_apart_swap d s h h' : (forall r, rules_in h r -> rules_in h' r) -> told_apart d s (rules_in h') -> told_apart d s (rules_in h).
Proof. apply told_apart_sub. Qed.

(** The index of a living matcher. *)
Lemma lives_indexed d s h1 h2 m :
  narrow s = true -> told_apart d s (rules_in (h1 ++ h2)) -> lives d s h1 h2 m ->
  m_def m = d /\ m_tree m = s /\
  exists lR lH, NoDup lR /\ (forall r, In r lR <-> set_of (h1 ++ h2) r = true) /\
    NoDup lH /\ (forall r, In r lH <-> recorded h1 h2 r) /\
    (forall r, set_of (h1 ++ h2) r = true -> recorded h1 h2 r) /\
    told_apart d s (recorded h1 h2) /\
    wf d s (m_root m) (recorded h1 h2) (fun r => set_of (h1 ++ h2) r = true).
Proof.
  intros Hn Ap [p1 [es1 [p2 [es2 [l [m0 [E1 [E2 [Hp [E3 E4]]]]]]]]]].
  destruct (rules_in_ops2 h1 h2) as [F1 F2]. set (ok := rules_in (h1 ++ h2)) in *.
  assert (Inj : inj_on ok) by exact (proj1 Ap).
  destruct (repr_exec _ Inj h1 [] set_empty p1 es1 (repr_nil _) F1 E1) as [R1 _].
  destruct (repr_exec _ Inj h2 p1 _ p2 es2 R1 F2 E2) as [R2 _].
  assert (Hset : forall r, set_of (h1 ++ h2) r = fold_left set_step h2 (fold_left set_step h1 set_empty) r).
  { intros r. unfold set_of. now rewrite fold_left_app. }
  pose proof R1 as [K1 [O1 S1]]. pose proof R2 as [K2 [O2 S2]].
  rewrite Forall_forall in O1, O2.
  assert (M1 : forall r, In r (mvals p1) <-> set_of h1 r = true).
  { intros r. split.
    - intros Hr. apply (repr_enumerates _ _ _ R1); auto.
    - intros Hr. pose proof (set_of_ok _ _ F1 r Hr) as Of. now apply (repr_enumerates _ _ _ R1). }
  assert (M2 : forall r, In r (mvals p2) <-> set_of (h1 ++ h2) r = true).
  { assert (F : Forall (op_ok ok) (h1 ++ h2)) by (apply Forall_app; now split).
    intros r. split.
    - intros Hr. rewrite Hset. apply (repr_enumerates _ _ _ R2); auto.
    - intros Hr. pose proof (set_of_ok _ _ F r Hr) as Of. rewrite Hset in Hr. now apply (repr_enumerates _ _ _ R2). }
  destruct (NewMatcher_indexed d s ok Inj Hn p1 l K1 O1 Hp) as [m0' [A B]].
  rewrite A in E3. injection E3 as <-.
  destruct (indexed_exec d s ok Inj Hn h2 p1 _ m0' p2 es2 B F2 E2) as [m' [C D]].
  rewrite C in E4. injection E4 as <-.
  destruct D as [_ _ SU DD T W]. split; [exact DD|]. split; [exact T|].
  assert (HR : forall r, ever_from (fun r => In r (mvals p1)) es2 r <-> recorded h1 h2 r).
  { unfold recorded. apply (recorded_ever _ Inj h2 p1 _ _ p2 es2 K1); auto. }
  assert (HRf : told_apart d s (recorded h1 h2)).
  { apply (told_apart_sub d s _ ok); [|exact Ap]. apply recorded_in; [|exact F2]. intros r Hr. now apply (set_of_ok _ h1). }
  assert (HL : exists lH, NoDup lH /\ forall r, In r lH <-> recorded h1 h2 r).
  { unfold recorded.
    assert (G : forall h (H : rule -> Prop), (exists l, forall r, In r l <-> H r) -> exists l, forall r, In r l <-> fold_left recorded_step h H r).
    { clear. induction h as [|o h IH]; intros H X; [exact X|]. cbn. apply IH. destruct X as [l X].
      destruct o; cbn; [exists (r :: l); intros x; cbn; rewrite X; intuition|now exists l|exists []; easy]. }
    destruct (G h2 (fun r => set_of h1 r = true)) as [lH X]; [exists (mvals p1); exact M1|].
    exists (nodup (list_eq_dec string_dec) lH). split; [apply NoDup_nodup|]. intros r. now rewrite nodup_In. }
  destruct HL as [lH [ND HLH]].
  exists (mvals p2), lH. split; [now apply keyed_NoDup_vals|]. split; [exact M2|]. split; [exact ND|]. split; [exact HLH|].
  split; [|split; [exact HRf|]].
  - intros r Hr. apply HR. apply SU. now apply M2.
  - eapply wf_ext; [exact HR|exact M2|exact W].
Qed.

(** ** Without three alternatives nothing panics *)
Lemma remove_narrow d r : forall s n, narrow s = true -> removeRuleHelper d r s n <> Panic.
Proof.
  induction s as [e cs IH] using stage_ind2. intros n H. cbn [narrow] in H. apply andb_true_iff in H as [Hl Hc]. apply Nat.leb_le in Hl.
  cbn [removeRuleHelper].
  assert (G : forall cs', Forall (fun s => forall n, narrow s = true -> removeRuleHelper d r s n <> Panic) cs' -> forallb narrow cs' = true ->
     forall i n, i + List.length cs' <= 2 ->
     (fix go (cs : list stage) (i : nat) (n : node) {struct cs} : outcome node :=
         match cs with
         | [] => Val n
         | c :: cs' =>
             let! m := child n i in
             let key := stage_key d c r in
             let! m' := (if IsLeafNode c then Val (mdel key m)
                         else match mget key m with
                              | None => Val m
                              | Some n1 => let! n' := removeRuleHelper d r c n1 in
                                           Val (mput key n' m)
                              end) in
             go cs' (S i) (set_child n i m')
         end) cs' i n <> Panic).
  { clear. intros cs' F. induction F as [|c cs' Hc F IH]; intros Hn i n Hi; [discriminate|].
    cbn [forallb] in Hn. apply andb_true_iff in Hn as [Hn1 Hn2]. cbn [List.length] in Hi.
    assert (Ec : exists m, child n i = Val m) by (apply child_Val; lia). destruct Ec as [m ->]. cbn [obind].
    destruct (IsLeafNode c); cbn [obind]; [apply IH; [exact Hn2|lia]|].
    destruct (mget (stage_key d c r) m) as [n1|]; cbn [obind]; [|apply IH; [exact Hn2|lia]].
    specialize (Hc n1 Hn1). destruct (removeRuleHelper d r c n1) as [n'|]; [|contradiction]. cbn [obind]. apply IH; [exact Hn2|lia]. }
  apply G; [exact IH|exact Hc|cbn; lia].
Qed.

Lemma m_event_def x e x' : m_event x e = Val x' -> m_def x' = m_def x /\ m_tree x' = m_tree x.
Proof.
  destruct e; cbn; intros H.
  - destruct (addRuleHelper _ _ _ _); cbn in H; [|discriminate]. injection H as <-. auto.
  - destruct (removeRuleHelper _ _ _ _); cbn in H; [|discriminate]. injection H as <-. auto.
  - injection H as <-. auto.
Qed.
Lemma m_events_def es : forall x x', m_events x es = Val x' -> m_def x' = m_def x /\ m_tree x' = m_tree x.
Proof.
  induction es as [|e es IH]; intros x x' H; cbn in H; [injection H as <-; auto|].
  destruct (m_event x e) as [y|] eqn:E; cbn in H; [|discriminate].
  destruct (m_event_def _ _ _ E) as [<- <-]. now apply IH.
Qed.

Lemma event_total x e : narrow (m_tree x) = true -> exists x', m_event x e = Val x'.
Proof.
  intros H. destruct e; cbn [m_event].
  - pose proof (proj2 (add_narrow (m_def x) r (m_tree x) (m_root x)) H) as A. destruct (addRuleHelper _ _ _ _); [cbn; eauto|contradiction].
  - pose proof (remove_narrow (m_def x) r (m_tree x) (m_root x) H) as A. destruct (removeRuleHelper _ _ _ _); [cbn; eauto|contradiction].
  - eauto.
Qed.
Lemma events_total es : forall x, narrow (m_tree x) = true -> exists x', m_events x es = Val x'.
Proof.
  induction es as [|e es IH]; intros x H; cbn [m_events]; [eauto|].
  destruct (event_total x e H) as [y Ey]. rewrite Ey. cbn [obind]. apply IH. destruct (m_event_def _ _ _ Ey) as [_ ->]. exact H.
Qed.

Lemma lives_exists d s h1 h2 : narrow s = true -> exists m, lives d s h1 h2 m.
Proof.
  intros Hn. destruct (pexec [] h1) as [p1 es1] eqn:E1. destruct (pexec p1 h2) as [p2 es2] eqn:E2.
  destruct (events_total (map EvtAdded (mvals p1)) (mkMatcher d s empty_root) Hn) as [m0 A].
  destruct (m_events_def _ _ _ A) as [_ T].
  destruct (events_total es2 m0) as [m B]; [rewrite T; exact Hn|].
  exists m, p1, es1, p2, es2, (mvals p1), m0. repeat split; auto.
Qed.

(** ** What a caller that never stops sees *)
Lemma consume_all (l : list rule) : forall acc, consume (fun l r => (l ++ [r], true)) acc l = (acc ++ l, true).
Proof.
  induction l as [|r l IH]; intros acc; cbn; [now rewrite app_nil_r|]. rewrite IH, <- app_assoc. reflexivity.
Qed.

Lemma reported_walk E ord m rDef rvals :
  reported E ord m rDef rvals =
  match walk E ord (m_def m) rDef rvals (m_tree m) [] (m_root m) with
  | (ys, WErr e) => Val (ys, Some e)
  | (_, WPanic) => Panic
  | (ys, _) => Val (ys, None)
  end.
Proof.
  unfold reported, RangeMatches. rewrite helper_walk. unfold finish. rewrite consume_all.
  destruct (walk _ _ _ _ _ _ _ _) as [ys [|e| |]]; reflexivity.
Qed.

(** ** Soundness without any assumption on evaluation *)
Section Sound.
  Variable E : evaluator.
  Variable ord : order.
  Variable pDef rDef : argdef.
  Variable rvals : list value.
  Hypothesis ord_perm : any_order ord.

  Lemma walk_entries_In c rec_ entries r :
    In r (fst (walk_entries E pDef rDef rvals c rec_ entries)) ->
    exists k n, In (k, n) entries /\ holds E pDef rDef rvals (stage_expr c) (node_rule n) = true /\ In r (fst (rec_ k n)).
  Proof.
    induction entries as [|[k n] rest IH]; cbn [walk_entries]; [intros F; destruct F|].
    assert (G : In r (fst (walk_entries E pDef rDef rvals c rec_ rest)) ->
      exists k0 n0, In (k0, n0) ((k, n) :: rest) /\ holds E pDef rDef rvals (stage_expr c) (node_rule n0) = true /\ In r (fst (rec_ k0 n0))).
    { intros H. destruct (IH H) as [k0 [n0 [A B]]]. exists k0, n0. split; [now right|exact B]. }
    unfold eval_stage. destruct (ev E (stage_expr c) (ParamGet pDef (node_rule n) rDef rvals)) as [[v|e]|] eqn:Ee; [|intros F; destruct F|intros F; destruct F].
    destruct v as [x|[|]|x]; auto.
    assert (Hh : holds E pDef rDef rvals (stage_expr c) (node_rule n) = true) by (unfold holds; now rewrite Ee).
    destruct (rec_ k n) as [y1 s1] eqn:Er.
    assert (G1 : In r y1 -> exists k0 n0, In (k0, n0) ((k, n) :: rest) /\ holds E pDef rDef rvals (stage_expr c) (node_rule n0) = true /\ In r (fst (rec_ k0 n0))).
    { intros H. exists k, n. split; [now left|]. split; [exact Hh|]. now rewrite Er. }
    destruct s1; cbn [fst]; auto.
    destruct (walk_entries E pDef rDef rvals c rec_ rest) as [y2 s2]. cbn [fst]. intros H.
    apply in_app_or in H as [H|H]; auto.
  Qed.

  Lemma walk_sound : forall s at_ n (H R : rule -> Prop),
    narrow s = true -> (forall e, In e (texts s) -> (forall r, H r -> has_values pDef e r) /\ own_values E pDef rDef rvals e H) ->
    told_apart pDef s H -> (forall r, R r -> H r) -> wf pDef s n H R ->
    forall r, In r (fst (walk E ord pDef rDef rvals s at_ n)) ->
      (R r /\ exists w, In w (ways_of s) /\ all_hold E pDef rDef rvals w r = true) \/ r = blank pDef.
  Proof.
    induction s as [e cs IH] using stage_ind2. intros at_ n H R Hn Ht [Hap1 Hap2] HRH W r Hr.
    rewrite walk_unfold in Hr. apply wf_unfold in W.
    cbn [narrow] in Hn. apply andb_true_iff in Hn as [_ Hn]. cbn [texts] in Ht, Hap2. unfold ways_of. cbn [stage_children].
    revert W Hr. generalize 0 as i. induction IH as [|c cs Hc Hcs IHcs]; intros i W Hr; [destruct Hr|].
    cbn [forallb] in Hn. apply andb_true_iff in Hn as [Hnc Hncs]. cbn [flat_map] in Ht, Hap2.
    destruct W as [[m [Hm [ND Wc]]] Wr]. cbn [walk_children] in Hr. rewrite Hm in Hr.
    assert (IHr : In r (fst (walk_children E ord pDef rDef rvals cs (S i) at_ n)) ->
      (R r /\ exists w, In w (flat_map ways (c :: cs)) /\ all_hold E pDef rDef rvals w r = true) \/ r = blank pDef).
    { intros X. apply IHcs in X; auto.
      - destruct X as [[A [w [B C]]]|X]; [left|now right]. split; [exact A|]. exists w. split; [|exact C]. cbn. apply in_or_app. now right.
      - intros e0 He0. apply Ht. apply in_or_app. now right.
      - intros e0 x x' vs vs' He0. apply Hap2. apply in_or_app. now right. }
    match type of Hr with context [walk_map _ _ _ _ c ?f _] => set (rec_ := f) in Hr end.
    destruct (walk_map E pDef rDef rvals c rec_ (ord at_ i m)) as [y1 s1] eqn:Em.
    assert (H1 : In r y1 -> (R r /\ exists w, In w (flat_map ways (c :: cs)) /\ all_hold E pDef rDef rvals w r = true) \/ r = blank pDef).
    { intros X. assert (X' : In r (fst (walk_map E pDef rDef rvals c rec_ (ord at_ i m)))) by now rewrite Em.
      unfold walk_map in X'. destruct (parses E (stage_expr c)); [|destruct X'].
      apply walk_entries_In in X' as [k [n' [Hin [Hh Hrec]]]].
      assert (Hcase : (ord at_ i m = [] /\ k = ""%string /\ n' = NewMatcherNode (blank pDef)) \/ In (k, n') m).
      { destruct (ord at_ i m) as [|x o] eqn:Eo.
        - left. destruct Hin as [Hin|[]]. injection Hin as <- <-. auto.
        - right. eapply Permutation_in; [apply ord_perm|]. rewrite Eo. exact Hin. }
      destruct (Ht (stage_expr c)) as [Dc ROc]; [apply in_or_app; left; now left|].
      destruct c as [ec [|c0 cs0]].
      - change (IsLeafNode (Stage ec [])) with true in *. subst rec_. cbn in Hrec. destruct Hrec as [Hrec|[]].
        destruct Hcase as [[_ [_ ->]]|Hc']; [right; now subst|].
        apply (In_mget _ _ _ ND) in Hc'. apply Wc in Hc' as [r' [Hr' [-> ->]]]. cbn in Hrec, Hh. subst r'.
        left. split; [exact Hr'|]. exists [ec]. split; [now left|]. unfold all_hold. cbn. now rewrite Hh.
      - set (c := Stage ec (c0 :: cs0)) in *. change (IsLeafNode c) with false in *. cbn iota in *.
        change (stage_expr c) with ec in *. destruct Wc as [W1 W2].
        assert (Htc : forall e0, In e0 (texts c) -> (forall r, H r -> has_values pDef e0 r) /\ own_values E pDef rDef rvals e0 H).
        { intros e0 He0. apply Ht. apply in_or_app. left. now right. }
        destruct Hcase as [[_ [_ ->]]|Hc'].
        + apply (Hc ((i, k) :: at_) (NewMatcherNode (blank pDef)) no_rules no_rules) in Hrec; auto.
          * destruct Hrec as [[[] _]|Hrec]. now right.
          * intros e0 He0. split; [intros x F; destruct F|intros x x' F; destruct F].
          * split; [intros x x' F; destruct F|intros e0 x x' vs vs' _ F; destruct F].
          * now apply wf_new.
        + apply (In_mget _ _ _ ND) in Hc'. destruct (W2 k n' Hc') as [A [B C]].
          apply (Hc ((i, k) :: at_) n' (at_key pDef c k H) (at_key pDef c k R)) in Hrec; auto.
          * destruct Hrec as [[[Hr1 Hr2] [w [Hw1 Hw2]]]|Hrec]; [left|now right]. split; [exact Hr1|].
            exists (ec :: w). split; [cbn [flat_map]; apply in_or_app; left; change (ways c) with (map (cons ec) (ways_of c)); now apply in_map|].
            unfold all_hold in *. cbn. rewrite Hw2, andb_true_r. rewrite <- Hh. unfold holds.
            rewrite (ROc r (node_rule n')); auto.
            apply (key_same pDef c); auto; [|congruence]. intros vs vs'. apply Hap2; auto. apply in_or_app. left. now left.
          * intros e0 He0. split; [intros x [Hx _]; now apply (Htc e0 He0)|]. apply (own_values_sub _ _ _ _ _ _ H); [now intros x [Hx _]|now apply Htc].
          * split; [intros x x' [Hx _] [Hx' _]; now apply Hap1|]. intros e0 x x' vs vs' He0 [Hx _] [Hx' _]. apply Hap2; auto. apply in_or_app. left. now right.
          * intros x [Hx Hk]. split; auto. }
    destruct s1; cbn [fst] in Hr; auto.
    destruct (walk_children E ord pDef rDef rvals cs (S i) at_ n) as [y2 s2]. cbn [fst] in Hr.
    apply in_app_or in Hr as [Hr|Hr]; auto.
  Qed.

  (** ** No rule was ever filed: one blank rule *)
  Lemma walk_empty : forall s at_ n (H R : rule -> Prop),
    narrow s = true ->
    (forall e, In e (texts s) -> evaluates E pDef rDef rvals e (blank pDef)) ->
    (forall r, ~ H r) -> (forall r, ~ R r) -> wf pDef s n H R ->
    walk E ord pDef rDef rvals s at_ n = (scan E pDef rDef rvals s [blank pDef], WDone).
  Proof.
    induction s as [e cs IH] using stage_ind2. intros at_ n H R Hn Ht H0 R0 W.
    rewrite walk_unfold, scan_children. apply wf_unfold in W. cbn [narrow] in Hn. apply andb_true_iff in Hn as [_ Hn]. cbn [texts] in Ht.
    revert W. generalize 0 as i. induction IH as [|c cs Hc Hcs IHcs]; intros i W; [reflexivity|].
    cbn [forallb] in Hn. apply andb_true_iff in Hn as [Hnc Hncs]. cbn [flat_map] in Ht.
    destruct W as [[m [Hm [ND Wc]]] Wr]. cbn [walk_children flat_map]. rewrite Hm.
    match goal with |- context [walk_map _ _ _ _ c ?f _] => set (rec_ := f) end.
    assert (Hm0 : m = []).
    { destruct m as [|[k n'] m']; [reflexivity|]. exfalso. destruct (IsLeafNode c).
      - assert (X : mget k ((k, n') :: m') = Some n') by (cbn; now rewrite String.eqb_refl).
        apply Wc in X as [r [Hr _]]. now apply (R0 r).
      - destruct Wc as [W1 _]. assert (X : In k (mkeys ((k, n') :: m'))) by now left. apply W1 in X as [r [Hr _]]. now apply (H0 r). }
    assert (Ho : ord at_ i m = []). { apply Permutation_nil. rewrite <- Hm0 at 1. apply Permutation_sym, ord_perm. }
    rewrite Ho. unfold walk_map. destruct (Ht (stage_expr c)) as [Hp [v Hv]]; [apply in_or_app; left; now left|]. rewrite Hp.
    rewrite (walk_entries_ok E pDef rDef rvals c rec_ _ (fun _ => match stage_children c with [] => [blank pDef] | _ => scan E pDef rDef rvals c [blank pDef] end)).
    2: { intros k n' [X|[]]. injection X as <- <-. split; [exact Hp|eauto]. }
    2: { intros k n' [X|[]] _. injection X as <- <-. subst rec_. cbv beta.
         destruct c as [ec [|c0 cs0]]; [reflexivity|]. change (IsLeafNode (Stage ec (c0 :: cs0))) with false.
         cbn iota. rewrite (Hc ((i, ""%string) :: at_) (NewMatcherNode (blank pDef)) no_rules no_rules); auto.
         - intros e0 He0. apply Ht. apply in_or_app. left. now right.
         - now apply wf_new. }
    rewrite IHcs; auto; [|intros; apply Ht; apply in_or_app; now right].
    cbn [the_entries flat_map snd node_rule NewMatcherNode]. rewrite app_nil_r.
    do 2 f_equal. destruct c as [ec [|c0 cs0]].
    - rewrite scan1_leaf. reflexivity.
    - rewrite scan1_node. cbn [stage_children stage_expr filter]. destruct (holds E pDef rDef rvals ec (blank pDef)); [reflexivity|].
      now rewrite scan_nil.
  Qed.

  (** ** Panics come from the evaluator or from a third child only *)
  Lemma walk_entries_no_panic c rec_ entries :
    (forall r, ev E (stage_expr c) (ParamGet pDef r rDef rvals) <> Panic) ->
    (forall k n, snd (rec_ k n) <> WPanic) -> snd (walk_entries E pDef rDef rvals c rec_ entries) <> WPanic.
  Proof.
    intros H1 H2. induction entries as [|[k n] rest IH]; cbn [walk_entries]; [easy|].
    unfold eval_stage. specialize (H1 (node_rule n)). destruct (ev E _ _) as [[v|e]|]; [|easy|easy].
    destruct v as [x|[|]|x]; auto. specialize (H2 k n). destruct (rec_ k n) as [y1 s1]. cbn [snd] in H2.
    destruct s1; try easy. destruct (walk_entries E pDef rDef rvals c rec_ rest) as [y2 s2]. exact IH.
  Qed.

  Lemma walk_no_panic : forall s at_ n, narrow s = true ->
    (forall e r, In e (texts s) -> ev E e (ParamGet pDef r rDef rvals) <> Panic) ->
    snd (walk E ord pDef rDef rvals s at_ n) <> WPanic.
  Proof.
    induction s as [e cs IH] using stage_ind2. intros at_ n Hn Ht. rewrite walk_unfold.
    cbn [narrow] in Hn. apply andb_true_iff in Hn as [Hl Hn]. apply Nat.leb_le in Hl. cbn [texts] in Ht.
    cut (forall i, i + List.length cs <= 2 -> snd (walk_children E ord pDef rDef rvals cs i at_ n) <> WPanic); [intros X; now apply X|].
    clear Hl. induction IH as [|c cs Hc Hcs IHcs]; intros i Hi; [easy|].
    cbn [forallb] in Hn. apply andb_true_iff in Hn as [Hnc Hncs]. cbn [flat_map List.length] in *.
    cbn [walk_children]. assert (Hx : exists m, child n i = Val m) by (apply child_Val; lia). destruct Hx as [m ->].
    match goal with |- context [walk_map _ _ _ _ c ?f _] => set (rec_ := f) end.
    assert (Hw : snd (walk_map E pDef rDef rvals c rec_ (ord at_ i m)) <> WPanic).
    { unfold walk_map. destruct (parses E (stage_expr c)); [|easy]. apply walk_entries_no_panic.
      - intros r. apply Ht. apply in_or_app. left. now left.
      - intros k n'. subst rec_. cbv beta.
        assert (X : snd (walk E ord pDef rDef rvals c ((i, k) :: at_) n') <> WPanic).
        { apply Hc; auto. intros e0 r He0. apply Ht. apply in_or_app. left. now right. }
        destruct (IsLeafNode c); exact X. }
    destruct (walk_map E pDef rDef rvals c rec_ (ord at_ i m)) as [y1 s1]. cbn [snd] in Hw. destruct s1; try easy.
    assert (X : snd (walk_children E ord pDef rDef rvals cs (S i) at_ n) <> WPanic).
    { apply IHcs; [exact Hncs| |lia]. intros e0 r He0. apply Ht. apply in_or_app. now right. }
    destruct (walk_children E ord pDef rDef rvals cs (S i) at_ n) as [y2 s2]. exact X.
  Qed.
End Sound.

(** ** Expressions *)
Lemma alternatives_firsts f : alternatives f = firsts f.
Proof. induction f; cbn; congruence. Qed.

Lemma ptree_narrow f : forall k, forallb narrow (ptree f k) = and_narrow f && Nat.leb (List.length k) 2 && forallb narrow k.
Proof.
  induction f as [ts|f IHf g IHg|f IHf g IHg|f IHf]; intros k; cbn [ptree and_narrow].
  - cbn. now rewrite andb_true_r.
  - rewrite IHf, IHg, ptree_length. change (alternatives g) with (firsts g).
    destruct (and_narrow f), (and_narrow g), (Nat.leb (firsts g) 2), (Nat.leb (List.length k) 2), (forallb narrow k); reflexivity.
  - rewrite forallb_app, IHf, IHg.
    destruct (and_narrow f), (and_narrow g), (Nat.leb (List.length k) 2), (forallb narrow k); reflexivity.
  - apply IHf.
Qed.

Lemma two_way_narrow f : narrow (Stage "" (ptree f [])) = two_way f.
Proof. cbn [narrow]. rewrite ptree_length, ptree_narrow. change (firsts f) with (alternatives f). unfold two_way. cbn. now rewrite !andb_true_r. Qed.

Lemma accepts_ways val : forall s, accepts val s = existsb (fun w => forallb val w) (ways s).
Proof.
  induction s as [e cs IH] using stage_ind2. cbn [accepts ways]. destruct cs as [|c cs]; [cbn; now rewrite orb_false_r|].
  assert (G : existsb (accepts val) (c :: cs) = existsb (fun w => forallb val w) (flat_map ways (c :: cs))).
  { clear -IH. induction IH as [|c' cs' Hc _ IHcs]; [reflexivity|]. cbn [existsb flat_map]. now rewrite existsb_app, Hc, IHcs. }
  rewrite G. generalize (flat_map ways (c :: cs)) as ws. clear. induction ws as [|w ws IH]; cbn; [now rewrite andb_false_r|].
  rewrite <- IH. destruct (val e); cbn; [reflexivity|]. reflexivity.
Qed.

Lemma satisfies_accepts E pDef rDef rvals s r :
  satisfies E pDef rDef rvals s r = accepts_any (fun e => holds E pDef rDef rvals e r) (stage_children s).
Proof.
  unfold satisfies, accepts_any, ways_of. induction (stage_children s) as [|c cs IH]; [reflexivity|].
  cbn [flat_map existsb]. rewrite existsb_app, IH, accepts_ways. reflexivity.
Qed.

Lemma count_scan E pDef rDef rvals s r l : NoDup l ->
  count_occ (list_eq_dec string_dec) (scan E pDef rDef rvals s l) r =
  if in_dec (list_eq_dec string_dec) r l then times E pDef rDef rvals s r else 0.
Proof.
  intros ND. unfold scan, times. induction (ways_of s) as [|w ws IH].
  - cbn. now destruct (in_dec _ r l).
  - cbn [flat_map].
    assert (G : count_occ (list_eq_dec string_dec) (filter (all_hold E pDef rDef rvals w) l) r =
                if in_dec (list_eq_dec string_dec) r l then (if all_hold E pDef rDef rvals w r then 1 else 0) else 0).
    { clear -ND. destruct (in_dec (list_eq_dec string_dec) r l) as [Hin|Hin].
      - destruct (all_hold E pDef rDef rvals w r) eqn:Ea.
        + apply NoDup_count_occ'; [now apply NoDup_filter|]. apply filter_In. auto.
        + apply count_occ_not_In. intros X. apply filter_In in X. destruct X. congruence.
      - apply count_occ_not_In. intros X. apply filter_In in X. tauto. }
    etransitivity; [apply count_occ_app|]. etransitivity; [apply f_equal2; [exact G|exact IH]|].
    cbn [filter]. destruct (in_dec _ r l); [|reflexivity]. destruct (all_hold E pDef rDef rvals w r); reflexivity.
Qed.

Lemma in_scan E pDef rDef rvals s l r :
  In r (scan E pDef rDef rvals s l) <-> In r l /\ satisfies E pDef rDef rvals s r = true.
Proof.
  unfold scan, satisfies. rewrite in_flat_map, existsb_exists. split.
  - intros [w [Hw H]]. apply filter_In in H as [H1 H2]. eauto.
  - intros [H [w [Hw H2]]]. exists w. split; [exact Hw|]. apply filter_In. auto.
Qed.
