(** The index of a matcher after recovered panics. *)
From Verif Require Import GoBase GoBaseP DefsM PolicyM MatcherDefM MatcherDefP MatcherM MatcherSpec MatcherP ModelM ModelP WideM WideSpec.

Section Loops.
  Variable d : argdef.
  Variable r : rule.
  Fixpoint wadd_children (cs : list stage) (i : nat) (n : node) : node * bool :=
    match cs with
    | [] => (n, true)
    | c :: cs' =>
        match child n i with
        | Panic => (n, false)
        | Val m =>
            let key := stage_key d c r in
            if IsLeafNode c then wadd_children cs' (S i) (set_child n i (mput key (NewMatcherNode r) m))
            else let '(n', ok) := w_add d r c (GetOrCreate m key r) in
                 let n := set_child n i (mput key n' m) in
                 if ok : bool then wadd_children cs' (S i) n else (n, false)
        end
    end.
  Lemma wadd_unfold e cs n : w_add d r (Stage e cs) n = wadd_children cs 0 n.
  Proof.
    cbn [w_add]. generalize 0 as i. revert n. induction cs as [|c cs IH]; intros n i; [reflexivity|]. cbn [wadd_children].
    destruct (child n i) as [m|]; [|reflexivity]. destruct (IsLeafNode c); [apply IH|]. cbv zeta.
    destruct (w_add d r c _) as [n' [|]]; [apply IH|reflexivity].
  Qed.
  Fixpoint wrem_children (cs : list stage) (i : nat) (n : node) : node * bool :=
    match cs with
    | [] => (n, true)
    | c :: cs' =>
        match child n i with
        | Panic => (n, false)
        | Val m =>
            let key := stage_key d c r in
            if IsLeafNode c then wrem_children cs' (S i) (set_child n i (mdel key m))
            else match mget key m with
                 | None => wrem_children cs' (S i) n
                 | Some n1 =>
                     let '(n', ok) := w_rem d r c n1 in
                     let n := set_child n i (mput key n' m) in
                     if ok : bool then wrem_children cs' (S i) n else (n, false)
                 end
        end
    end.
  Lemma wrem_unfold e cs n : w_rem d r (Stage e cs) n = wrem_children cs 0 n.
  Proof.
    cbn [w_rem]. generalize 0 as i. revert n. induction cs as [|c cs IH]; intros n i; [reflexivity|]. cbn [wrem_children].
    destruct (child n i) as [m|]; [|reflexivity]. destruct (IsLeafNode c); [apply IH|]. cbv zeta. destruct (mget _ m) as [n1|]; [|apply IH].
    destruct (w_rem d r c _) as [n' [|]]; [apply IH|reflexivity].
  Qed.

  (** ** The same results as without recovery *)
  Definition returned {A} (x : A * bool) : outcome A := if snd x then Val (fst x) else Panic.
  Lemma set_same n i m : child n i = Val m -> set_child n i m = n.
  Proof. destruct n as [q c0 c1], i as [|[|i]]; cbn; intros H; injection H as <- || discriminate H; reflexivity. Qed.
  Lemma wadd_same s : forall n, addRuleHelper d r s n = returned (w_add d r s n).
  Proof.
    induction s as [e cs IH] using stage_ind2. intros n. rewrite add_unfold, wadd_unfold. generalize 0 as i. revert n.
    induction IH as [|c cs Hc Hcs IHc]; intros n i; [reflexivity|]. cbn [add_children wadd_children].
    destruct (child n i) as [m|]; cbn [obind]; [|reflexivity]. destruct (IsLeafNode c); cbn [obind]; [apply IHc|]. cbv zeta.
    rewrite Hc. destruct (w_add d r c _) as [n' [|]]; cbn; [apply IHc|reflexivity].
  Qed.
  Lemma wrem_same s : forall n, removeRuleHelper d r s n = returned (w_rem d r s n).
  Proof.
    induction s as [e cs IH] using stage_ind2. intros n. rewrite rem_unfold, wrem_unfold. generalize 0 as i. revert n.
    induction IH as [|c cs Hc Hcs IHc]; intros n i; [reflexivity|]. cbn [rem_children wrem_children].
    destruct (child n i) as [m|] eqn:Em; cbn [obind]; [|reflexivity]. destruct (IsLeafNode c); cbn [obind]; [apply IHc|]. cbv zeta.
    destruct (mget _ m) as [n1|]; cbn [obind]; [|rewrite set_same by exact Em; apply IHc].
    rewrite Hc. destruct (w_rem d r c _) as [n' [|]]; cbn; [apply IHc|reflexivity].
  Qed.
  Lemma wadd_narrow s n : snd (w_add d r s n) = narrow s.
  Proof.
    pose proof (add_narrow d r s n) as X. rewrite wadd_same in X. unfold returned in X. destruct (snd (w_add d r s n)), (narrow s); auto; exfalso.
    - assert (false = true) by (apply X; discriminate). discriminate.
    - apply X; reflexivity.
  Qed.
  Lemma wrem_narrow s : forall n, narrow s = true -> snd (w_rem d r s n) = true.
  Proof.
    induction s as [e cs IH] using stage_ind2. intros n Hn. rewrite wrem_unfold. cbn [narrow] in Hn. apply andb_true_iff in Hn as [Hl Hn]. apply Nat.leb_le in Hl.
    enough (G : forall n i, i + List.length cs <= 2 -> snd (wrem_children cs i n) = true) by (apply G; exact Hl). clear n Hl.
    induction IH as [|c cs Hc Hcs IHc]; intros n i Hl; [reflexivity|]. cbn [wrem_children]. cbn [forallb] in Hn. apply andb_true_iff in Hn as [Hn1 Hn2]. cbn [List.length] in Hl.
    destruct (proj2 (child_Val n i)) as [m ->]; [lia|]. destruct (IsLeafNode c); [apply IHc; auto; lia|]. cbv zeta. destruct (mget _ m) as [n1|]; [|apply IHc; auto; lia].
    specialize (Hc n1 Hn1). destruct (w_rem d r c n1) as [n' ok]. cbn in Hc. subst ok. apply IHc; auto; lia.
  Qed.

  (** ** Removing panics *)
  Definition stuck (s : stage) (n : node) : Prop := snd (w_rem d r s n) = false.
  Definition stuck_at (cs : list stage) (i : nat) (n : node) : Prop :=
    exists j c m n1, nth_error cs j = Some c /\ IsLeafNode c = false /\ child n (i + j) = Val m /\ mget (stage_key d c r) m = Some n1 /\ stuck c n1.
  Lemma stuck_at_ext cs i n n' : (forall j, i <= j -> child n j = child n' j) -> stuck_at cs i n -> stuck_at cs i n'.
  Proof. intros H (j & c & m & n1 & A & B & C & D & F). exists j, c, m, n1. rewrite <- H by lia. auto. Qed.
  Lemma stuck_next c cs i n : stuck_at cs (S i) n -> stuck_at (c :: cs) i n.
  Proof. intros (j & c' & m & n1 & A & B & C & D & F). exists (S j), c', m, n1. replace (i + S j) with (S i + j) by lia. auto. Qed.
  Lemma stuck_iff cs : forall i n, snd (wrem_children cs i n) = false <-> (cs <> [] /\ i + List.length cs > 2) \/ stuck_at cs i n.
  Proof.
    induction cs as [|c cs IH]; intros i n; cbn [wrem_children].
    - cbn. split; [discriminate|]. intros [[X _]|(j & c & m & n1 & A & _)]; [congruence|]. destruct j; discriminate A.
    - destruct (Nat.lt_ge_cases i 2) as [Hi|Hi].
      + destruct (proj2 (child_Val n i) Hi) as [m Em]. rewrite Em.
        assert (R : forall n', (forall j, S i <= j -> child n' j = child n j) -> (snd (wrem_children cs (S i) n') = false <-> (cs <> [] /\ i + List.length (c :: cs) > 2) \/ stuck_at cs (S i) n)).
        { intros n' Hx. rewrite IH. cbn [List.length]. replace (i + S (List.length cs)) with (S i + List.length cs) by lia. split; (intros [X|X]; [now left|right]); revert X; apply stuck_at_ext; intros j Hj; [|symmetry]; now apply Hx. }
        assert (K : forall m', forall j, S i <= j -> child (set_child n i m') j = child n j) by (intros m' j Hj; apply child_set_neq; lia).
        assert (L : (cs <> [] /\ i + List.length (c :: cs) > 2) \/ stuck_at cs (S i) n -> (c :: cs <> [] /\ i + List.length (c :: cs) > 2) \/ stuck_at (c :: cs) i n).
        { intros [[X Y]|X]; [left; split; [discriminate|exact Y]|right; now apply stuck_next]. }
        assert (M : i + List.length (c :: cs) > 2 -> cs <> [] /\ i + List.length (c :: cs) > 2).
        { intros Y. split; [intros ->; cbn in Y; lia|exact Y]. }
        assert (F : forall m', forall j, S i <= j -> child (set_child n i m') j = child n j) by exact K.
        assert (Hd : (stuck_at (c :: cs) i n -> stuck_at cs (S i) n \/ (IsLeafNode c = false /\ exists n1, mget (stage_key d c r) m = Some n1 /\ stuck c n1))).
        { intros (j & c' & m1 & n1 & A & B & C & D & G). destruct j as [|j].
          - injection A as <-. right. rewrite Nat.add_0_r, Em in C. injection C as <-. split; [exact B|]. exists n1. auto.
          - left. exists j, c', m1, n1. replace (S i + j) with (i + S j) by lia. auto. }
        destruct (IsLeafNode c) eqn:El.
        * rewrite R by apply K. split; [exact L|]. intros [[_ Y]|X]; [left; now apply M|]. destruct (Hd X) as [Y|[Y _]]; [now right|discriminate Y].
        * cbv zeta. destruct (mget (stage_key d c r) m) as [n1|] eqn:Eg.
          -- destruct (w_rem d r c n1) as [n' [|]] eqn:Ew.
             ++ rewrite R by apply K. split; [exact L|]. intros [[_ Y]|X]; [left; now apply M|]. destruct (Hd X) as [Y|[_ [n2 [Y Z]]]]; [now right|].
                injection Y as <-. unfold stuck in Z. rewrite Ew in Z. discriminate Z.
             ++ split; [intros _|reflexivity]. right. exists 0, c, m, n1. rewrite Nat.add_0_r. unfold stuck. rewrite Ew. auto.
          -- rewrite R by reflexivity. split; [exact L|]. intros [[_ Y]|X]; [left; now apply M|]. destruct (Hd X) as [Y|[_ [n2 [Y _]]]]; [now right|discriminate Y].
      + assert (Ep : child n i = Panic) by (destruct n as [q c0 c1], i as [|[|i]]; [lia|lia|reflexivity]). rewrite Ep. cbn [snd List.length].
        split; [intros _; left; split; [discriminate|lia]|reflexivity].
  Qed.
  Lemma stuck_unfold e cs n : stuck (Stage e cs) n <-> List.length cs > 2 \/ stuck_at cs 0 n.
  Proof. unfold stuck. rewrite wrem_unfold, stuck_iff. cbn. split; (intros [X|X]; [left|now right]); [tauto|]. split; [intros ->; cbn in X; lia|exact X]. Qed.
End Loops.

(** What adding or removing another rule does to the nodes below. *)
Lemma wadd_below d r cs : forall i n j m, child n j = Val m -> j < i -> child (fst (wadd_children d r cs i n)) j = Val m.
Proof.
  induction cs as [|c cs IH]; intros i n j m Hm Hj; cbn [wadd_children]; [exact Hm|]. destruct (child n i) as [mi|]; [|exact Hm].
  assert (K : forall m', child (set_child n i m') j = Val m) by (intros m'; rewrite child_set_neq by lia; exact Hm).
  destruct (IsLeafNode c); [apply IH; [apply K|lia]|]. cbv zeta. destruct (w_add d r c _) as [n' [|]]; [apply IH; [apply K|lia]|apply K].
Qed.
Lemma wrem_below d r cs : forall i n j m, child n j = Val m -> j < i -> child (fst (wrem_children d r cs i n)) j = Val m.
Proof.
  induction cs as [|c cs IH]; intros i n j m Hm Hj; cbn [wrem_children]; [exact Hm|]. destruct (child n i) as [mi|]; [|exact Hm].
  assert (K : forall m', child (set_child n i m') j = Val m) by (intros m'; rewrite child_set_neq by lia; exact Hm).
  destruct (IsLeafNode c); [apply IH; [apply K|lia]|]. cbv zeta. destruct (mget _ mi); [|apply IH; [exact Hm|lia]].
  destruct (w_rem d r c _) as [n' [|]]; [apply IH; [apply K|lia]|apply K].
Qed.
Lemma wadd_deep d r cs : forall i n j c m k n1, nth_error cs j = Some c -> IsLeafNode c = false -> child n (i + j) = Val m -> mget k m = Some n1 ->
  exists m' n1', child (fst (wadd_children d r cs i n)) (i + j) = Val m' /\ mget k m' = Some n1' /\ (n1' = n1 \/ n1' = fst (w_add d r c n1)).
Proof.
  induction cs as [|c0 cs IH]; intros i n j c m k n1 Hj Hl Hc Hg; [destruct j; discriminate Hj|]. cbn [wadd_children].
  destruct (child n i) as [mi|] eqn:Ei; [|exists m, n1; auto].
  destruct j as [|j]; cbn in Hj.
  - injection Hj as ->. rewrite Nat.add_0_r in *. rewrite Ei in Hc. injection Hc as ->. rewrite Hl. cbv zeta.
    destruct (w_add d r c _) as [n' ok] eqn:Ew.
    assert (X : exists n1', mget k (mput (stage_key d c r) n' m) = Some n1' /\ (n1' = n1 \/ n1' = fst (w_add d r c n1))).
    { rewrite mget_put. destruct (String.eqb_spec k (stage_key d c r)) as [->|Hk]; [|eauto]. exists n'. split; [reflexivity|]. right. unfold GetOrCreate in Ew. rewrite Hg in Ew. now rewrite Ew. }
    destruct X as (n1' & X & Y). exists (mput (stage_key d c r) n' m), n1'. split; [|auto].
    assert (Z : child (set_child n i (mput (stage_key d c r) n' m)) i = Val (mput (stage_key d c r) n' m)) by (eapply child_set_eq; exact Ei).
    destruct ok; [apply wadd_below; [exact Z|lia]|exact Z].
  - replace (i + S j) with (S i + j) in * by lia.
    assert (K : forall m', child (set_child n i m') (S i + j) = Val m) by (intros m'; rewrite child_set_neq by lia; exact Hc).
    destruct (IsLeafNode c0); [eapply IH; eauto|]. cbv zeta. destruct (w_add d r c0 _) as [n' [|]]; [eapply IH; eauto|]. exists m, n1. cbn [fst]. rewrite K. auto.
Qed.
Lemma wrem_deep d r cs : forall i n j c m k n1, nth_error cs j = Some c -> IsLeafNode c = false -> child n (i + j) = Val m -> mget k m = Some n1 ->
  exists m' n1', child (fst (wrem_children d r cs i n)) (i + j) = Val m' /\ mget k m' = Some n1' /\ (n1' = n1 \/ n1' = fst (w_rem d r c n1)).
Proof.
  induction cs as [|c0 cs IH]; intros i n j c m k n1 Hj Hl Hc Hg; [destruct j; discriminate Hj|]. cbn [wrem_children].
  destruct (child n i) as [mi|] eqn:Ei; [|exists m, n1; auto].
  destruct j as [|j]; cbn in Hj.
  - injection Hj as ->. rewrite Nat.add_0_r in *. rewrite Ei in Hc. injection Hc as ->. rewrite Hl. cbv zeta.
    destruct (mget (stage_key d c r) m) as [n2|] eqn:E2.
    + destruct (w_rem d r c n2) as [n' ok] eqn:Ew.
      assert (X : exists n1', mget k (mput (stage_key d c r) n' m) = Some n1' /\ (n1' = n1 \/ n1' = fst (w_rem d r c n1))).
      { rewrite mget_put. destruct (String.eqb_spec k (stage_key d c r)) as [->|Hk]; [|eauto]. exists n'. split; [reflexivity|]. right. rewrite E2 in Hg. injection Hg as ->. now rewrite Ew. }
      destruct X as (n1' & X & Y). exists (mput (stage_key d c r) n' m), n1'. split; [|auto].
      assert (Z : child (set_child n i (mput (stage_key d c r) n' m)) i = Val (mput (stage_key d c r) n' m)) by (eapply child_set_eq; exact Ei).
      destruct ok; [apply wrem_below; [exact Z|lia]|exact Z].
    + exists m, n1. split; [|auto]. apply wrem_below; [exact Ei|lia].
  - replace (i + S j) with (S i + j) in * by lia.
    assert (K : forall m', child (set_child n i m') (S i + j) = Val m) by (intros m'; rewrite child_set_neq by lia; exact Hc).
    destruct (IsLeafNode c0); [eapply IH; eauto|]. cbv zeta. destruct (mget _ mi); [|eapply IH; eauto].
    destruct (w_rem d r c0 _) as [n' [|]]; [eapply IH; eauto|]. exists m, n1. cbn [fst]. rewrite K. auto.
Qed.

(** Once removing a rule panics it does so until the index is cleared. *)
Lemma stuck_add d r r' s : forall n, stuck d r s n -> stuck d r s (fst (w_add d r' s n)).
Proof.
  induction s as [e cs IH] using stage_ind2. intros n. rewrite !stuck_unfold, wadd_unfold. intros [X|(j & c & m & n1 & A & B & C & D & F)]; [now left|right].
  destruct (wadd_deep d r' cs 0 n j c m _ n1 A B C D) as (m' & n1' & P & Q & R). exists j, c, m', n1'. split; [exact A|]. split; [exact B|]. split; [exact P|]. split; [exact Q|].
  destruct R as [->| ->]; [exact F|]. rewrite Forall_forall in IH. apply IH; [eapply nth_error_In; exact A|exact F].
Qed.
Lemma stuck_rem d r r' s : forall n, stuck d r s n -> stuck d r s (fst (w_rem d r' s n)).
Proof.
  induction s as [e cs IH] using stage_ind2. intros n. rewrite !stuck_unfold, wrem_unfold. intros [X|(j & c & m & n1 & A & B & C & D & F)]; [now left|right].
  destruct (wrem_deep d r' cs 0 n j c m _ n1 A B C D) as (m' & n1' & P & Q & R). exists j, c, m', n1'. split; [exact A|]. split; [exact B|]. split; [exact P|]. split; [exact Q|].
  destruct R as [->| ->]; [exact F|]. rewrite Forall_forall in IH. apply IH; [eapply nth_error_In; exact A|exact F].
Qed.
(** A rule whose adding panicked cannot be removed without a panic. *)
Lemma stuck_new d r s : forall n, narrow s = false -> stuck d r s (fst (w_add d r s n)).
Proof.
  induction s as [e cs IH] using stage_ind2. intros n Hn. rewrite stuck_unfold, wadd_unfold. cbn [narrow] in Hn.
  destruct (Nat.leb (List.length cs) 2) eqn:Hl; [|apply Nat.leb_gt in Hl; left; lia]. cbn in Hn. apply Nat.leb_le in Hl. right.
  enough (G : forall i n, i + List.length cs <= 2 -> stuck_at d r cs i (fst (wadd_children d r cs i n))) by (apply G; exact Hl). clear n Hl.
  induction IH as [|c cs Hc Hcs IHc]; intros i n Hl; [discriminate Hn|]. cbn [forallb] in Hn. cbn [List.length] in Hl. cbn [wadd_children].
  destruct (proj2 (child_Val n i)) as [m Em]; [lia|]. rewrite Em.
  destruct (narrow c) eqn:Nc.
  - cbn in Hn. destruct (IsLeafNode c); [apply stuck_next, IHc; auto; lia|]. cbv zeta. pose proof (wadd_narrow d r c (GetOrCreate m (stage_key d c r) r)) as Y.
    destruct (w_add d r c _) as [n' ok]. cbn in Y. rewrite Y, Nc. apply stuck_next, IHc; auto; lia.
  - assert (Lf : IsLeafNode c = false) by (destruct c as [e' [|]]; [discriminate Nc|reflexivity]). rewrite Lf. cbv zeta.
    pose proof (wadd_narrow d r c (GetOrCreate m (stage_key d c r) r)) as Y. pose proof (Hc (GetOrCreate m (stage_key d c r) r) eq_refl) as Z.
    destruct (w_add d r c _) as [n' ok]. cbn in Y, Z. rewrite Y, Nc. cbn [fst]. exists 0, c, (mput (stage_key d c r) n' m), n'. rewrite Nat.add_0_r.
    split; [reflexivity|]. split; [exact Lf|]. split; [eapply child_set_eq; exact Em|]. split; [apply mget_put_eq|exact Z].
Qed.
