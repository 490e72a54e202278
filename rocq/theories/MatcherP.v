(** Lemmas about the matcher index. *)
From Verif Require Import GoBase GoBaseP DefsM DefsP PolicyM PolicySpec PolicyP MatcherDefM MatcherM MatcherSpec.

(** ** Induction over stages *)
Section StageInd.
  Variable P : stage -> Prop.
  Hypothesis Hs : forall e cs, Forall P cs -> P (Stage e cs).
  Fixpoint stage_ind2 (s : stage) : P s :=
    match s with
    | Stage e cs => Hs e cs ((fix go (cs : list stage) : Forall P cs :=
        match cs with [] => Forall_nil P | c :: cs' => Forall_cons c (stage_ind2 c) (go cs') end) cs)
    end.
End StageInd.

(** ** Children *)
Lemma child_set_eq n i m m0 : child n i = Val m0 -> child (set_child n i m) i = Val m.
Proof. destruct n as [r c0 c1], i as [|[|i]]; cbn; intros H; try reflexivity; discriminate. Qed.
Lemma child_set_neq n i j m : i <> j -> child (set_child n i m) j = child n j.
Proof. destruct n as [r c0 c1], i as [|[|i]], j as [|[|j]]; cbn; intros H; try reflexivity; congruence. Qed.
Lemma node_rule_set n i m : node_rule (set_child n i m) = node_rule n.
Proof. destruct n as [r c0 c1], i as [|[|i]]; reflexivity. Qed.
Lemma child_Val n i : (exists m, child n i = Val m) <-> i < 2.
Proof.
  destruct n as [r c0 c1], i as [|[|i]]; cbn; split; intros H; try lia; eauto.
  destruct H; discriminate.
Qed.

(** ** The loops as separate functions *)
Section Loops.
  Variable d : argdef.
  Variable r : rule.

  Fixpoint add_children (cs : list stage) (i : nat) (n : node) : outcome node :=
    match cs with
    | [] => Val n
    | c :: cs' =>
        let! m := child n i in
        let key := stage_key d c r in
        let! m' := (if IsLeafNode c then Val (mput key (NewMatcherNode r) m)
                    else let! n' := addRuleHelper d r c (GetOrCreate m key r) in
                         Val (mput key n' m)) in
        add_children cs' (S i) (set_child n i m')
    end.

  Lemma add_unfold e cs n : addRuleHelper d r (Stage e cs) n = add_children cs 0 n.
  Proof.
    cbn [addRuleHelper]. generalize 0 as i. revert n.
    induction cs as [|c cs IH]; intros n i; [reflexivity|]. cbn [add_children].
    destruct (child n i) as [m|]; cbn; [|reflexivity].
    destruct (IsLeafNode c); cbn; [apply IH|].
    destruct (addRuleHelper d r c _); cbn; [apply IH|reflexivity].
  Qed.

  Fixpoint rem_children (cs : list stage) (i : nat) (n : node) : outcome node :=
    match cs with
    | [] => Val n
    | c :: cs' =>
        let! m := child n i in
        let key := stage_key d c r in
        let! m' := (if IsLeafNode c then Val (mdel key m)
                    else match mget key m with
                         | None => Val m
                         | Some n1 => let! n' := removeRuleHelper d r c n1 in Val (mput key n' m)
                         end) in
        rem_children cs' (S i) (set_child n i m')
    end.

  Lemma rem_unfold e cs n : removeRuleHelper d r (Stage e cs) n = rem_children cs 0 n.
  Proof.
    cbn [removeRuleHelper]. generalize 0 as i. revert n.
    induction cs as [|c cs IH]; intros n i; [reflexivity|]. cbn [rem_children].
    destruct (child n i) as [m|]; cbn; [|reflexivity].
    destruct (IsLeafNode c); cbn; [apply IH|].
    destruct (mget _ m) as [n1|]; cbn; [|apply IH].
    destruct (removeRuleHelper d r c _); cbn; [apply IH|reflexivity].
  Qed.
End Loops.

(** ** The index invariant

    [wf s n H R]: node [n] indexes the rules for stage [s]; [H] are the rules
    ever filed below it, [R] those still present. *)
Section Index.
  Variable d : argdef.

  Definition wf_leaf (m : smap node) (R : rule -> Prop) : Prop :=
    forall k n', mget k m = Some n' <-> exists r, R r /\ k = Hash r /\ n' = NewMatcherNode r.

  Definition at_key (c : stage) (k : string) (X : rule -> Prop) : rule -> Prop :=
    fun r => X r /\ stage_key d c r = k.

  Fixpoint wf (s : stage) (n : node) (H R : rule -> Prop) : Prop :=
    match s with
    | Stage _ cs =>
        (fix go (cs : list stage) (i : nat) : Prop :=
           match cs with
           | [] => True
           | c :: cs' =>
               (exists m, child n i = Val m /\ NoDup (mkeys m) /\
                 (if IsLeafNode c then wf_leaf m R
                  else (forall k, In k (mkeys m) <-> exists r, H r /\ stage_key d c r = k) /\
                       (forall k n', mget k m = Some n' ->
                          H (node_rule n') /\ stage_key d c (node_rule n') = k /\
                          wf c n' (at_key c k H) (at_key c k R)))) /\
               go cs' (S i)
           end) cs 0
    end.

  Definition wf_child (c : stage) (n : node) (i : nat) (H R : rule -> Prop) : Prop :=
    exists m, child n i = Val m /\ NoDup (mkeys m) /\
      (if IsLeafNode c then wf_leaf m R
       else (forall k, In k (mkeys m) <-> exists r, H r /\ stage_key d c r = k) /\
            (forall k n', mget k m = Some n' ->
               H (node_rule n') /\ stage_key d c (node_rule n') = k /\
               wf c n' (at_key c k H) (at_key c k R))).

  Fixpoint wf_children (cs : list stage) (i : nat) (n : node) (H R : rule -> Prop) : Prop :=
    match cs with
    | [] => True
    | c :: cs' => wf_child c n i H R /\ wf_children cs' (S i) n H R
    end.

  Lemma wf_unfold e cs n H R : wf (Stage e cs) n H R <-> wf_children cs 0 n H R.
  Proof.
    cbn [wf]. generalize 0 as i. induction cs as [|c cs IH]; intros i; [reflexivity|].
    cbn [wf_children]. unfold wf_child. rewrite IH. reflexivity.
  Qed.

  Lemma wf_ext s : forall n H R H' R', (forall r, H r <-> H' r) -> (forall r, R r <-> R' r) ->
    wf s n H R -> wf s n H' R'.
  Proof.
    induction s as [e cs IH] using stage_ind2. intros n H R H' R' EH ER W.
    apply wf_unfold in W. apply wf_unfold. revert W. generalize 0 at 1 2 as i.
    induction IH as [|c cs Hc Hcs IHcs]; intros i W; [exact I|].
    destruct W as [[m [Hm [ND W]]] Wr]. split; [|now apply IHcs].
    exists m. split; [exact Hm|]. split; [exact ND|]. destruct (IsLeafNode c).
    - intros k n'. rewrite (W k n'). split; intros [r [A B]]; exists r; (split; [now apply ER|exact B]).
    - destruct W as [W1 W2]. split.
      + intros k. rewrite (W1 k). split; intros [r [A B]]; exists r; (split; [now apply EH|exact B]).
      + intros k n' G. destruct (W2 k n' G) as [A [B C]]. split; [now apply EH|]. split; [exact B|].
        eapply Hc; [| |exact C]; unfold at_key; intros r; rewrite ?EH, ?ER; reflexivity.
  Qed.

  Lemma wf_children_set cs : forall j i n m H R, i < j -> wf_children cs j n H R -> wf_children cs j (set_child n i m) H R.
  Proof.
    induction cs as [|c cs IH]; intros j i n m H R Hij W; [exact I|].
    destruct W as [[m0 [Hm W]] Wr]. split; [|apply IH; [lia|exact Wr]].
    exists m0. rewrite child_set_neq by lia. auto.
  Qed.
  Lemma wf_child_set c j i n m H R : i <> j -> wf_child c n j H R -> wf_child c (set_child n i m) j H R.
  Proof. intros Hij [m0 [Hm W]]. exists m0. rewrite child_set_neq by lia. auto. Qed.

  Definition no_rules : rule -> Prop := fun _ => False.

  Lemma wf_new s : forall r, narrow s = true -> wf s (NewMatcherNode r) no_rules no_rules.
  Proof.
    destruct s as [e cs]. intros r Hn. apply wf_unfold. cbn [narrow] in Hn. apply andb_true_iff in Hn as [Hl _].
    apply Nat.leb_le in Hl.
    assert (G : forall cs i, i + List.length cs <= 2 -> wf_children cs i (NewMatcherNode r) no_rules no_rules).
    { clear. induction cs as [|c cs IH]; intros i Hi; [exact I|]. cbn in Hi. split; [|apply IH; lia].
      exists []. split; [destruct i as [|[|i]]; cbn; auto; lia|]. split; [constructor|].
      destruct (IsLeafNode c).
      - intros k n'. cbn. split; [discriminate|]. intros [x [F _]]. destruct F.
      - split.
        + intros k. cbn. split; [tauto|]. intros [x [F _]]. destruct F.
        + discriminate. }
    apply G. exact Hl.
  Qed.

  Definition plus (X : rule -> Prop) (r : rule) : rule -> Prop := fun x => x = r \/ X x.
  Definition minus (X : rule -> Prop) (r : rule) : rule -> Prop := fun x => x <> r /\ X x.

  (** Adding a rule. *)
  Lemma add_wf r : forall s n (H R : rule -> Prop),
    narrow s = true -> (forall x, R x -> Hash x = Hash r -> x = r) -> (forall x, R x -> H x) ->
    wf s n H R ->
    exists n', addRuleHelper d r s n = Val n' /\ node_rule n' = node_rule n /\ wf s n' (plus H r) (plus R r).
  Proof.
    induction s as [e cs IH] using stage_ind2. intros n H R Hn HR HRH W.
    rewrite add_unfold. setoid_rewrite wf_unfold. apply wf_unfold in W.
    cbn [narrow] in Hn. apply andb_true_iff in Hn as [Hl Hn].
    assert (G : forall i n, wf_children cs i n H R ->
      exists n', add_children d r cs i n = Val n' /\ node_rule n' = node_rule n /\
        wf_children cs i n' (plus H r) (plus R r) /\ (forall j, j < i -> child n' j = child n j)).
    { clear Hl W n. induction IH as [|c cs Hc Hcs IHcs]; intros i n W; [exists n; cbn; auto|].
      cbn [forallb] in Hn. apply andb_true_iff in Hn as [Hnc Hncs].
      destruct W as [[m [Hm [ND W]]] Wr]. cbn [add_children]. rewrite Hm. cbn [obind].
      destruct (IsLeafNode c) eqn:El.
      - cbn [obind]. set (m' := mput (stage_key d c r) (NewMatcherNode r) m).
        destruct (IHcs Hncs (S i) (set_child n i m')) as [n' [E [Er [W' Hj]]]].
        { apply wf_children_set; [lia|exact Wr]. }
        exists n'. split; [exact E|]. split; [now rewrite Er, node_rule_set|]. split.
        + split; [|exact W'].
          assert (Hkey : stage_key d c r = Hash r).
          { unfold stage_key. rewrite El. now destruct (GetPolicyArgs c). }
          exists m'. split; [rewrite Hj by lia; eapply child_set_eq; eassumption|].
          split; [now apply NoDup_mput|]. rewrite El. intros k n0. unfold m'. rewrite Hkey, mget_put.
          destruct (String.eqb_spec k (Hash r)) as [->|Hne].
          * split.
            -- intros X. injection X as <-. exists r. split; [now left|]. auto.
            -- intros [x [[->|Hx] [Ex ->]]]; [reflexivity|]. symmetry in Ex. now rewrite (HR x Hx Ex).
          * rewrite (W k n0). split.
            -- intros [x [Hx Y]]. exists x. split; [now right|exact Y].
            -- intros [x [[->|Hx] [Ex Y]]]; [congruence|]. exists x. auto.
        + intros j Hj'. rewrite Hj by lia. apply child_set_neq. lia.
      - destruct W as [W1 W2]. set (k := stage_key d c r).
        assert (Hg : exists n1, addRuleHelper d r c (GetOrCreate m k r) = Val n1 /\
                   node_rule n1 = node_rule (GetOrCreate m k r) /\
                   wf c n1 (plus (at_key c k H) r) (plus (at_key c k R) r)).
        { unfold GetOrCreate. destruct (mget k m) as [n0|] eqn:Eg.
          - destruct (W2 k n0 Eg) as [A [B C]].
            apply Hc; [exact Hnc| | |exact C].
            + intros x [Hx _]. now apply HR.
            + intros x [Hx Hk]. split; auto.
          - destruct (Hc (NewMatcherNode r) no_rules no_rules Hnc) as [n1 [A [B C]]].
            + intros x F. destruct F.
            + intros x F. destruct F.
            + now apply wf_new.
            + exists n1. split; [exact A|]. split; [exact B|].
              assert (Hno : forall x, H x -> stage_key d c x = k -> False).
              { intros x Hx Hk. apply mget_None in Eg. apply Eg. apply W1. exists x. auto. }
              eapply wf_ext; [| |exact C]; unfold plus, at_key, no_rules; intros x; split; intros X; try tauto.
              * destruct X as [->|[Hx Hk]]; [now left|]. destruct (Hno x Hx Hk).
              * destruct X as [->|[Hx Hk]]; [now left|]. destruct (Hno x (HRH x Hx) Hk). }
        destruct Hg as [n1 [A [B C]]]. rewrite A. cbn [obind].
        set (m' := mput k n1 m).
        destruct (IHcs Hncs (S i) (set_child n i m')) as [n' [E [Er [W' Hj]]]].
        { apply wf_children_set; [lia|exact Wr]. }
        exists n'. split; [exact E|]. split; [now rewrite Er, node_rule_set|]. split.
        + split; [|exact W'].
          exists m'. split; [rewrite Hj by lia; eapply child_set_eq; eassumption|].
          split; [now apply NoDup_mput|]. rewrite El. split.
          * intros k0. unfold m'. rewrite In_mkeys_put, (W1 k0). split.
            -- intros [->|[x [Hx Hk]]]; [exists r|exists x]; (split; [|assumption || reflexivity]); [now left|now right].
            -- intros [x [[->|Hx] Hk]]; [now left|right; exists x; auto].
          * intros k0 n0. unfold m'. rewrite mget_put. destruct (String.eqb_spec k0 k) as [->|Hne].
            -- intros X. injection X as <-. rewrite B. unfold GetOrCreate.
               assert (Y : plus H r (node_rule (GetOrCreate m k r)) /\ stage_key d c (node_rule (GetOrCreate m k r)) = k).
               { unfold GetOrCreate. destruct (mget k m) as [n0|] eqn:Eg.
                 - destruct (W2 k n0 Eg) as [A' [B' _]]. split; [now right|exact B'].
                 - split; [now left|reflexivity]. }
               destruct Y as [Y1 Y2]. split; [exact Y1|]. split; [exact Y2|].
               eapply wf_ext; [| |exact C]; unfold plus, at_key; intros x; split.
               ++ intros [->|[Hx Hk]]; [split; [now left|reflexivity]|]. tauto.
               ++ tauto.
               ++ intros [->|[Hx Hk]]; [split; [now left|reflexivity]|]. tauto.
               ++ tauto.
            -- intros X. destruct (W2 k0 n0 X) as [A' [B' C']]. split; [now right|]. split; [exact B'|].
               eapply wf_ext; [| |exact C']; unfold plus, at_key; intros x; split; try tauto.
               ++ intros [[->|Hx] Hk]; [destruct (Hne (eq_sym Hk))|tauto].
               ++ intros [[->|Hx] Hk]; [destruct (Hne (eq_sym Hk))|tauto].
        + intros j Hj'. rewrite Hj by lia. apply child_set_neq. lia. }
    destruct (G 0 n W) as [n' [E1 [E2 [E3 _]]]]. exists n'. auto.
  Qed.

  (** Removing a rule. *)
  Lemma rem_wf r : forall s n (H R : rule -> Prop),
    narrow s = true -> (forall x, R x -> Hash x = Hash r -> x = r) -> (forall x, R x -> H x) ->
    wf s n H R ->
    exists n', removeRuleHelper d r s n = Val n' /\ node_rule n' = node_rule n /\ wf s n' H (minus R r).
  Proof.
    induction s as [e cs IH] using stage_ind2. intros n H R Hn HR HRH W.
    rewrite rem_unfold. setoid_rewrite wf_unfold. apply wf_unfold in W.
    cbn [narrow] in Hn. apply andb_true_iff in Hn as [Hl Hn].
    assert (G : forall i n, wf_children cs i n H R ->
      exists n', rem_children d r cs i n = Val n' /\ node_rule n' = node_rule n /\
        wf_children cs i n' H (minus R r) /\ (forall j, j < i -> child n' j = child n j)).
    { clear Hl W n. induction IH as [|c cs Hc Hcs IHcs]; intros i n W; [exists n; cbn; auto|].
      cbn [forallb] in Hn. apply andb_true_iff in Hn as [Hnc Hncs].
      destruct W as [[m [Hm [ND W]]] Wr]. cbn [rem_children]. rewrite Hm. cbn [obind].
      destruct (IsLeafNode c) eqn:El.
      - cbn [obind]. set (m' := mdel (stage_key d c r) m).
        destruct (IHcs Hncs (S i) (set_child n i m')) as [n' [E [Er [W' Hj]]]].
        { apply wf_children_set; [lia|exact Wr]. }
        exists n'. split; [exact E|]. split; [now rewrite Er, node_rule_set|]. split.
        + split; [|exact W'].
          assert (Hkey : stage_key d c r = Hash r).
          { unfold stage_key. rewrite El. now destruct (GetPolicyArgs c). }
          exists m'. split; [rewrite Hj by lia; eapply child_set_eq; eassumption|].
          split; [now apply NoDup_mdel|]. rewrite El. intros k n0. unfold m'. rewrite Hkey, mget_del.
          destruct (String.eqb_spec k (Hash r)) as [->|Hne].
          * split; [discriminate|]. intros [x [[Hne Hx] [Ex ->]]]. symmetry in Ex. destruct (Hne (HR x Hx Ex)).
          * rewrite (W k n0). split.
            -- intros [x [Hx [Hk Y]]]. exists x. split; [|auto]. split; [congruence|exact Hx].
            -- intros [x [[Hnx Hx] [Ex Y]]]. exists x. auto.
        + intros j Hj'. rewrite Hj by lia. apply child_set_neq. lia.
      - destruct W as [W1 W2]. set (k := stage_key d c r).
        assert (Hsame : forall k0 n0, k0 <> k -> mget k0 m = Some n0 ->
                  wf c n0 (at_key c k0 H) (at_key c k0 (minus R r))).
        { intros k0 n0 Hne X. destruct (W2 k0 n0 X) as [_ [_ C']].
          eapply wf_ext; [| |exact C']; unfold minus, at_key; intros x; split; try tauto.
          intros [Hx Hk]. split; [|exact Hk]. split; [|exact Hx]. intros ->. destruct (Hne (eq_sym Hk)). }
        assert (Hg : exists m', match mget k m with
                         | None => Val m
                         | Some n1 => let! n' := removeRuleHelper d r c n1 in Val (mput k n' m)
                         end = Val m' /\ NoDup (mkeys m') /\ 
                 (forall k, In k (mkeys m') <-> exists r, H r /\ stage_key d c r = k) /\
                 (forall k n', mget k m' = Some n' ->
                    H (node_rule n') /\ stage_key d c (node_rule n') = k /\
                    wf c n' (at_key c k H) (at_key c k (minus R r)))).
        { destruct (mget k m) as [n0|] eqn:Eg.
          - destruct (W2 k n0 Eg) as [A [B C]].
            destruct (Hc n0 (at_key c k H) (at_key c k R) Hnc) as [n1 [A1 [B1 C1]]].
            + intros x [Hx _]. now apply HR.
            + intros x [Hx Hk]. split; auto.
            + exact C.
            + rewrite A1. cbn [obind]. exists (mput k n1 m). split; [reflexivity|]. split; [now apply NoDup_mput|]. split.
              * intros k0. rewrite In_mkeys_put, (W1 k0). split; [|tauto]. intros [->|X]; [|exact X].
                exists (node_rule n0). auto.
              * intros k0 n2. rewrite mget_put. destruct (String.eqb_spec k0 k) as [->|Hne].
                -- intros X. injection X as <-. rewrite B1. split; [exact A|]. split; [exact B|].
                   eapply wf_ext; [| |exact C1]; unfold minus, at_key; intros x; tauto.
                -- intros X. destruct (W2 k0 n2 X) as [A' [B' _]]. split; [exact A'|]. split; [exact B'|].
                   now apply Hsame.
          - exists m. split; [reflexivity|]. split; [exact ND|]. split; [exact W1|].
            intros k0 n2 X. destruct (W2 k0 n2 X) as [A' [B' _]]. split; [exact A'|]. split; [exact B'|].
            apply Hsame; [|exact X]. congruence. }
        destruct Hg as [m' [A [ND' [B C]]]]. rewrite A. cbn [obind].
        destruct (IHcs Hncs (S i) (set_child n i m')) as [n' [E [Er [W' Hj]]]].
        { apply wf_children_set; [lia|exact Wr]. }
        exists n'. split; [exact E|]. split; [now rewrite Er, node_rule_set|]. split.
        + split; [|exact W'].
          exists m'. split; [rewrite Hj by lia; eapply child_set_eq; eassumption|].
          split; [exact ND'|]. rewrite El. auto.
        + intros j Hj'. rewrite Hj by lia. apply child_set_neq. lia. }
    destruct (G 0 n W) as [n' [E1 [E2 [E3 _]]]]. exists n'. auto.
  Qed.

  (** Adding a rule panics exactly for trees with a stage of three or more
      children. *)
  Lemma add_narrow r : forall s n, addRuleHelper d r s n <> Panic <-> narrow s = true.
  Proof.
    induction s as [e cs IH] using stage_ind2. intros n. rewrite add_unfold. cbn [narrow].
    assert (G : forall i n, add_children d r cs i n <> Panic <-> (cs = [] \/ i + List.length cs <= 2) /\ forallb narrow cs = true).
    { clear n. induction IH as [|c cs Hc Hcs IHcs]; intros i n.
      - cbn. split; [auto|discriminate].
      - cbn [add_children forallb List.length]. destruct (child n i) as [m|] eqn:Em; cbn [obind].
        + assert (Hi : i < 2) by (apply (child_Val n i); eauto).
          assert (Hmap : (if IsLeafNode c then Val (mput (stage_key d c r) (NewMatcherNode r) m)
                    else let! n' := addRuleHelper d r c (GetOrCreate m (stage_key d c r) r) in Val (mput (stage_key d c r) n' m)) <> Panic
                    <-> narrow c = true).
          { destruct (IsLeafNode c) eqn:El.
            - destruct c as [e' [|c' cs']]; [|discriminate]. cbn. split; [reflexivity|discriminate].
            - rewrite <- (Hc (GetOrCreate m (stage_key d c r) r)).
              destruct (addRuleHelper d r c (GetOrCreate m (stage_key d c r) r)); cbn; split; intros X Y; try discriminate; now apply X. }
          destruct (if IsLeafNode c then _ else _) as [m'|]; cbn [obind].
          * rewrite IHcs, andb_true_iff. rewrite <- Hmap. split.
            -- intros [A B]. split; [right; destruct A as [->|A]; cbn; lia|]. split; [discriminate|exact B].
            -- intros [[A|A] [_ B]]; [discriminate|]. split; [right; lia|exact B].
          * rewrite andb_true_iff, <- Hmap. split; [intros X; now destruct X|intros [_ [X _]]; now destruct X].
        + assert (Hi : ~ i < 2). { rewrite <- (child_Val n i). intros [m' Hm']. congruence. }
          split; [intros X; now destruct X|]. intros [[A|A] _]; [discriminate|lia]. }
    rewrite G. rewrite andb_true_iff, Nat.leb_le. cbn. split.
    - intros [[->|A] B]; cbn; auto.
    - intros [A B]. auto.
  Qed.
End Index.

(** ** Histories *)
Definition ever_from (H : rule -> Prop) (es : list event) : rule -> Prop := fold_left ever_step es H.

Lemma ever_step_ext e H H' : (forall r, H r <-> H' r) -> forall r, ever_step H e r <-> ever_step H' e r.
Proof. intros X r. destruct e; cbn; rewrite ?X; tauto. Qed.
Lemma ever_from_ext es : forall H H', (forall r, H r <-> H' r) -> forall r, ever_from H es r <-> ever_from H' es r.
Proof. induction es as [|e es IH]; intros H H' X r; [apply X|]. cbn. apply IH. now apply ever_step_ext. Qed.

Section Hist.
  Variable d : argdef.
  Variable s : stage.
  Variable ok : rule -> Prop.
  Hypothesis ok_inj : forall r r', ok r -> ok r' -> Hash r = Hash r' -> r = r'.
  Hypothesis Hnarrow : narrow s = true.

  Record indexed (p : policy) (H : rule -> Prop) (m : matcher) : Prop := {
    ix_keyed : keyed p;
    ix_ok : forall r, In r (mvals p) -> ok r;
    ix_sub : forall r, In r (mvals p) -> H r;
    ix_def : m_def m = d;
    ix_tree : m_tree m = s;
    ix_wf : wf d s (m_root m) H (fun r => In r (mvals p))
  }.

  Lemma indexed_empty : indexed [] no_rules (mkMatcher d s empty_root).
  Proof.
    constructor; cbn [m_def m_tree m_root]; [apply keyed_nil|easy|easy|reflexivity|reflexivity|].
    eapply wf_ext; [| |apply wf_new; exact Hnarrow]; reflexivity.
  Qed.

  Lemma in_mvals_put k (r x : rule) (p : policy) : ~ In k (mkeys p) -> (In x (mvals (mput k r p)) <-> x = r \/ In x (mvals p)).
  Proof.
    intros Hk. rewrite mput_new by exact Hk. unfold mvals. rewrite map_app, in_app_iff. cbn. intuition.
  Qed.

  Lemma in_mvals_del p r x : keyed p -> (forall y, In y (mvals p) -> Hash y = Hash r -> y = r) ->
    (In x (mvals (mdel (Hash r) p)) <-> x <> r /\ In x (mvals p)).
  Proof.
    intros [ND K] I. unfold mvals. rewrite !in_map_iff. split.
    - intros [[k y] [<- Hin]]. apply In_mdel_inv in Hin as [Hne Hin]. cbn. split.
      + intros ->. apply Hne. now apply K.
      + exists (k, y). auto.
    - intros [Hne [[k y] [<- Hin]]]. cbn in *. exists (k, y). split; [reflexivity|].
      pose proof (K _ _ Hin) as Hk.
      apply mget_In. rewrite mget_del_neq; [now apply In_mget|].
      intros ->. apply Hne. apply I; [unfold mvals; apply in_map_iff; now exists (Hash r, y)|now symmetry].
  Qed.

  Lemma indexed_step p H m o p' b es :
    indexed p H m -> op_ok ok o -> pstep p o = (p', b, es) ->
    exists m', m_events m es = Val m' /\ indexed p' (ever_from H es) m'.
  Proof.
    intros [K O SU D T W] Hok E. pose proof (keyed_pstep _ _ _ _ _ K E) as K'.
    destruct o as [r|r|]; cbn [pstep op_ok] in *.
    - unfold AddRule in E. destruct (mget (Hash r) p) as [y|] eqn:Eg; injection E as <- <- <-.
      + exists m. split; [reflexivity|]. constructor; auto.
      + apply mget_None in Eg.
        destruct (add_wf d r s (m_root m) H (fun r => In r (mvals p)) Hnarrow) as [n' [A [B C]]]; auto.
        cbn [m_events m_event]. rewrite D, T, A. cbn [obind]. eexists. split; [reflexivity|].
        constructor; cbn [m_def m_tree m_root]; auto.
        * intros x. rewrite in_mvals_put by exact Eg. intros [->|Hx]; auto.
        * intros x. rewrite in_mvals_put by exact Eg. cbn. intros [->|Hx]; auto.
        * eapply wf_ext; [| |exact C]; intros x; [reflexivity|]. unfold plus. now rewrite in_mvals_put.
    - unfold RemoveRule in E. destruct (mget (Hash r) p) as [y|] eqn:Eg; injection E as <- <- <-.
      + assert (Hr : forall x, In x (mvals p) -> Hash x = Hash r -> x = r) by (intros; auto).
        destruct (rem_wf d r s (m_root m) H (fun r => In r (mvals p)) Hnarrow) as [n' [A [B C]]]; auto.
        cbn [m_events m_event]. rewrite D, T, A. cbn [obind]. eexists. split; [reflexivity|].
        constructor; cbn [m_def m_tree m_root]; auto.
        * intros x Hx. apply in_mvals_del in Hx; auto. now apply O.
        * intros x Hx. apply in_mvals_del in Hx; auto. cbn. now apply SU.
        * eapply wf_ext; [| |exact C]; intros x; [reflexivity|]. unfold minus. now rewrite in_mvals_del.
      + exists m. split; [reflexivity|]. constructor; auto.
    - injection E as <- <- <-. cbn [m_events m_event obind]. eexists. split; [reflexivity|].
      constructor; cbn [m_def m_tree m_root]; [apply keyed_nil|easy|easy|exact D|exact T|].
      eapply wf_ext; [| |apply wf_new; exact Hnarrow]; reflexivity.
  Qed.

  Lemma m_events_app es1 : forall es2 m, m_events m (es1 ++ es2) = let! m' := m_events m es1 in m_events m' es2.
  Proof.
    induction es1 as [|e es1 IH]; intros es2 m; [reflexivity|]. cbn [m_events app].
    destruct (m_event m e); cbn; auto.
  Qed.

  Lemma indexed_exec h : forall p H m p' es,
    indexed p H m -> Forall (op_ok ok) h -> pexec p h = (p', es) ->
    exists m', m_events m es = Val m' /\ indexed p' (ever_from H es) m'.
  Proof.
    induction h as [|o h IH]; intros p H m p' es I F E.
    - injection E as <- <-. exists m. auto.
    - cbn [pexec] in E. destruct (pstep p o) as [[p1 b] e1] eqn:Es.
      destruct (pexec p1 h) as [p2 e2] eqn:Eh. injection E as <- <-. inversion F; subst.
      destruct (indexed_step _ _ _ _ _ _ _ I H2 Es) as [m1 [A1 B1]].
      destruct (IH _ _ _ _ _ B1 H3 Eh) as [m2 [A2 B2]].
      exists m2. rewrite m_events_app, A1. cbn [obind]. split; [exact A2|].
      unfold ever_from in *. now rewrite fold_left_app.
  Qed.

  (** Building a matcher for an existing policy. *)
  Lemma NewMatcher_indexed p l : keyed p -> (forall r, In r (mvals p) -> ok r) -> Permutation l (mvals p) ->
    exists m, NewMatcher d l s = Val m /\ indexed p (fun r => In r (mvals p)) m.
  Proof.
    intros K O Hp.
    assert (G : forall l n (H R : rule -> Prop), (forall r, In r l -> ok r) -> (forall x, R x -> ok x) -> (forall x, R x -> H x) ->
      wf d s n H R -> exists m, m_events (mkMatcher d s n) (map EvtAdded l) = Val m /\
        m_def m = d /\ m_tree m = s /\ wf d s (m_root m) (fun x => H x \/ In x l) (fun x => R x \/ In x l)).
    { clear - ok_inj Hnarrow. induction l as [|r l IH]; intros n H R Hl HR HRH W.
      - exists (mkMatcher d s n). cbn. repeat split. eapply wf_ext; [| |exact W]; intros; tauto.
      - cbn [map m_events m_event m_def m_tree m_root].
        destruct (add_wf d r s n H R Hnarrow) as [n' [A [B C]]]; auto.
        { intros x Hx. apply ok_inj; auto. apply Hl. now left. }
        rewrite A. cbn [obind].
        destruct (IH n' (plus H r) (plus R r)) as [m [X1 [X2 [X3 X4]]]]; auto.
        + intros x Hx. apply Hl. now right.
        + intros x [->|Hx]; auto. apply Hl. now left.
        + intros x [->|Hx]; [now left|right; auto].
        + exists m. repeat split; auto. eapply wf_ext; [| |exact X4]; unfold plus; cbn; intros x; intuition. }
    destruct (G l empty_root no_rules no_rules) as [m [A [B [C D]]]].
    - intros r Hr. apply O. now apply (Permutation_in _ Hp).
    - intros x F. destruct F.
    - intros x F. destruct F.
    - now apply wf_new.
    - exists m. split; [exact A|]. constructor; auto.
      assert (Hin : forall x, In x l <-> In x (mvals p)).
      { intros x. split; apply Permutation_in; [exact Hp|now apply Permutation_sym]. }
      eapply wf_ext; [| |exact D]; unfold no_rules; intros x; rewrite Hin; tauto.
  Qed.
End Hist.

(** ** Walks: the run of a range without the callback *)
Inductive status : Type := WDone | WErr (e : goerr) | WStop | WPanic.
Definition walkres : Type := list rule * status.

(** The callback sees a list of rules one after the other. *)
Fixpoint consume {S} (fn : S -> rule -> S * bool) (st : S) (l : list rule) : S * bool :=
  match l with
  | [] => (st, true)
  | r :: l' => let (st', b) := fn st r in if b then consume fn st' l' else (st', false)
  end.

Lemma consume_app {S} (fn : S -> rule -> S * bool) l1 : forall st l2,
  consume fn st (l1 ++ l2) =
  match consume fn st l1 with (st', true) => consume fn st' l2 | (st', false) => (st', false) end.
Proof.
  induction l1 as [|r l1 IH]; intros st l2; [reflexivity|]. cbn. destruct (fn st r) as [st' [|]]; auto.
Qed.

Definition finish {S} (fn : S -> rule -> S * bool) (st : S) (w : walkres) : outcome (S * rres) :=
  match consume fn st (fst w) with
  | (st', false) => Val (st', (false, None))
  | (st', true) => match snd w with
                   | WDone => Val (st', (true, None))
                   | WErr e => Val (st', (false, Some e))
                   | WStop => Val (st', (false, None))
                   | WPanic => Panic
                   end
  end.

Section Walk.
  Variable E : evaluator.
  Variable ord : order.
  Variable pDef rDef : argdef.
  Variable rvals : list value.

  Fixpoint walk_entries (c : stage) (rec_ : string -> node -> walkres) (entries : smap node) : walkres :=
    match entries with
    | [] => ([], WDone)
    | (k, n) :: rest =>
        match eval_stage E pDef rDef rvals c (node_rule n) with
        | Panic => ([], WPanic)
        | Val (inr e) => ([], WErr e)
        | Val (inl (VBool true)) =>
            let (y1, s1) := rec_ k n in
            match s1 with
            | WDone => let (y2, s2) := walk_entries c rec_ rest in (y1 ++ y2, s2)
            | WPanic => (y1, WPanic)
            | _ => (y1, WStop)
            end
        | Val (inl _) => walk_entries c rec_ rest
        end
    end.

  Definition the_entries (m : smap node) : smap node :=
    match m with [] => [(""%string, NewMatcherNode (blank pDef))] | _ => m end.

  Definition walk_map (c : stage) (rec_ : string -> node -> walkres) (m : smap node) : walkres :=
    if parses E (stage_expr c) then walk_entries c rec_ (the_entries m) else ([], WErr ErrEval).

  Fixpoint walk (s : stage) (at_ : visit) (n : node) : walkres :=
    match s with
    | Stage _ cs =>
        (fix go (cs : list stage) (i : nat) : walkres :=
           match cs with
           | [] => ([], WDone)
           | c :: cs' =>
               match child n i with
               | Panic => ([], WPanic)
               | Val m =>
                   let (y1, s1) := walk_map c (fun k n' =>
                     let w := walk c ((i, k) :: at_) n' in
                     if IsLeafNode c then (node_rule n' :: fst w, snd w) else w) (ord at_ i m) in
                   match s1 with
                   | WDone => let (y2, s2) := go cs' (S i) in (y1 ++ y2, s2)
                   | _ => (y1, s1)
                   end
               end
           end) cs 0
    end.

  Fixpoint walk_children (cs : list stage) (i : nat) (at_ : visit) (n : node) : walkres :=
    match cs with
    | [] => ([], WDone)
    | c :: cs' =>
        match child n i with
        | Panic => ([], WPanic)
        | Val m =>
            let (y1, s1) := walk_map c (fun k n' =>
              let w := walk c ((i, k) :: at_) n' in
              if IsLeafNode c then (node_rule n' :: fst w, snd w) else w) (ord at_ i m) in
            match s1 with
            | WDone => let (y2, s2) := walk_children cs' (S i) at_ n in (y1 ++ y2, s2)
            | _ => (y1, s1)
            end
        end
    end.

  Lemma walk_unfold e cs at_ n : walk (Stage e cs) at_ n = walk_children cs 0 at_ n.
  Proof.
    cbn [walk]. generalize 0 as i. induction cs as [|c cs IH]; intros i; [reflexivity|].
    cbn [walk_children]. destruct (child n i) as [m|]; [|reflexivity].
    destruct (walk_map c _ _) as [y1 [| | |]]; try reflexivity. now rewrite IH.
  Qed.

  Section Callback.
    Context {S : Type}.
    Variable fn : S -> rule -> S * bool.

    Definition user_call (c : stage) (i : nat) (at_ : visit) (st : S) (k : string) (nextNode : node) : outcome (S * bool) :=
      let rec_ st :=
        let! r := rangeMatchesHelper E ord pDef rDef rvals fn c ((i, k) :: at_) nextNode st in
        match r with
        | (st', (cont, err)) => Val (st', match err with Some _ => false | None => cont end)
        end in
      if IsLeafNode c then
        let (st', b) := fn st (node_rule nextNode) in
        if b then rec_ st' else Val (st', false)
      else rec_ st.

    Fixpoint range_children (cs : list stage) (i : nat) (at_ : visit) (n : node) (st : S) : outcome (S * rres) :=
      match cs with
      | [] => Val (st, (true, None))
      | c :: cs' =>
          let! m := child n i in
          let! res := rangeMatches E pDef rDef rvals c (ord at_ i m) (user_call c i at_) st in
          match res with
          | (st', (_, Some e)) => Val (st', (false, Some e))
          | (st', (false, None)) => Val (st', (false, None))
          | (st', (true, None)) => range_children cs' (Datatypes.S i) at_ n st'
          end
      end.

    Lemma range_unfold e cs at_ n st :
      rangeMatchesHelper E ord pDef rDef rvals fn (Stage e cs) at_ n st = range_children cs 0 at_ n st.
    Proof.
      cbn [rangeMatchesHelper]. generalize 0 as i. revert st. induction cs as [|c cs IH]; intros st i; [reflexivity|].
      cbn [range_children]. destruct (child n i) as [m|]; cbn [obind]; [|reflexivity].
      unfold user_call at 1.
      destruct (rangeMatches E pDef rDef rvals c (ord at_ i m) _ st) as [[st' [cont [e'|]]]|]; cbn [obind]; auto.
      destruct cont; auto.
    Qed.

    Lemma range_entries_walk c call rec_ entries : forall st,
      (forall st k n, In (k, n) entries -> call st k n =
         match consume fn st (fst (rec_ k n)) with
         | (st', false) => Val (st', false)
         | (st', true) => match snd (rec_ k n) with
                          | WDone => Val (st', true)
                          | WPanic => Panic
                          | _ => Val (st', false)
                          end
         end) ->
      range_entries E pDef rDef rvals c call entries st = finish fn st (walk_entries c rec_ entries).
    Proof.
      induction entries as [|[k n] rest IH]; intros st H; [reflexivity|].
      assert (Hr : forall st, range_entries E pDef rDef rvals c call rest st = finish fn st (walk_entries c rec_ rest)).
      { intros st'. apply IH. intros. apply H. now right. }
      cbn [range_entries walk_entries].
      destruct (eval_stage E pDef rDef rvals c (node_rule n)) as [[v|e]|]; [|reflexivity|reflexivity].
      destruct v as [x|[|]|x]; try apply Hr.
      rewrite H by now left.
      destruct (rec_ k n) as [y1 s1]. cbn [fst snd].
      destruct s1; unfold finish; cbn [fst snd].
      - destruct (walk_entries c rec_ rest) as [y2 s2] eqn:Ew. unfold finish. cbn [fst snd]. rewrite consume_app.
        destruct (consume fn st y1) as [st' [|]]; [|reflexivity].
        rewrite Hr. reflexivity.
      - destruct (consume fn st y1) as [st' [|]]; reflexivity.
      - destruct (consume fn st y1) as [st' [|]]; reflexivity.
      - destruct (consume fn st y1) as [st' [|]]; reflexivity.
    Qed.

    Lemma helper_walk s : forall at_ n st,
      rangeMatchesHelper E ord pDef rDef rvals fn s at_ n st = finish fn st (walk s at_ n).
    Proof.
      induction s as [e cs IH] using stage_ind2. intros at_ n st. rewrite range_unfold, walk_unfold.
      generalize 0 as i. revert st. induction IH as [|c cs Hc Hcs IHcs]; intros st i; [reflexivity|].
      cbn [range_children walk_children]. destruct (child n i) as [m|]; cbn [obind]; [|reflexivity].
      set (rec_ := fun k n' =>
                    if IsLeafNode c then (node_rule n' :: fst (walk c ((i, k) :: at_) n'), snd (walk c ((i, k) :: at_) n'))
                    else walk c ((i, k) :: at_) n').
      assert (Hm : forall st, rangeMatches E pDef rDef rvals c (ord at_ i m) (user_call c i at_) st =
                   finish fn st (walk_map c rec_ (ord at_ i m))).
      { intros st'. unfold rangeMatches, walk_map. destruct (parses E (stage_expr c)); [|reflexivity].
        apply range_entries_walk. intros st2 k n' _. unfold user_call, rec_.
        destruct (IsLeafNode c); cbn [fst snd].
        - cbn [consume]. destruct (fn st2 (node_rule n')) as [st3 [|]]; [|reflexivity].
          rewrite Hc. unfold finish. destruct (walk c ((i, k) :: at_) n') as [y1 s1]. cbn [fst snd].
          destruct (consume fn st3 y1) as [st4 [|]]; [|reflexivity]. destruct s1; reflexivity.
        - rewrite Hc. unfold finish. destruct (walk c ((i, k) :: at_) n') as [y1 s1]. cbn [fst snd].
          destruct (consume fn st2 y1) as [st4 [|]]; [|reflexivity]. destruct s1; reflexivity. }
      rewrite Hm.
      match goal with |- _ = finish _ _ (let (_, _) := ?w in _) => change w with (walk_map c rec_ (ord at_ i m)) end.
      destruct (walk_map c rec_ (ord at_ i m)) as [y1 s1]. unfold finish at 1. cbn [fst snd].
      destruct s1; try (unfold finish; cbn [fst snd]; destruct (consume fn st y1) as [st' [|]]; reflexivity).
      unfold finish. destruct (walk_children cs (Datatypes.S i) at_ n) as [y2 s2] eqn:Ew. cbn [fst snd].
      rewrite consume_app. destruct (consume fn st y1) as [st' [|]]; cbn [obind]; [|reflexivity].
      rewrite IHcs, Ew. reflexivity.
    Qed.
  End Callback.
End Walk.

(** ** Keys and values *)
Lemma GetParameters_len {A} d (vals : list A) names vs : GetParameters d vals names = Some vs -> List.length vs = List.length names.
Proof.
  revert vs. induction names as [|n names IH]; intros vs; cbn; [intros H; now injection H as <-|].
  destruct (GetParameter d vals n); [|discriminate]. destruct (GetParameters d vals names); [|discriminate].
  intros H. injection H as <-. cbn. f_equal. now apply IH.
Qed.

Lemma GetParameters_In {A} d (vals : list A) names vs v : GetParameters d vals names = Some vs -> In v vs -> In v vals.
Proof.
  revert vs. induction names as [|n names IH]; intros vs; cbn; [intros H; injection H as <-; easy|].
  destruct (GetParameter d vals n) as [v0|] eqn:Eg; [|discriminate]. destruct (GetParameters d vals names) as [vs0|]; [|discriminate].
  intros H. injection H as <-. intros [<-|Hin]; [|now apply (IH vs0)].
  unfold GetParameter in Eg. destruct (mget n (ad_index d)); [|discriminate]. now apply nth_error_In in Eg.
Qed.

Lemma has_params d e (r : rule) : has_values d e r -> exists vs, GetParameters d r (p_args e) = Some vs.
Proof.
  unfold has_values. generalize (p_args e) as names. induction names as [|x names IH]; intros D; cbn; [eauto|].
  pose proof (D x (or_introl eq_refl)) as Hx. destruct (GetParameter d r x) as [v|]; [|congruence].
  destruct IH as [vs ->]; [|eauto]. intros y Hy. apply D. now right.
Qed.

Lemma key_same d c r r' : IsLeafNode c = false -> has_values d (stage_expr c) r -> has_values d (stage_expr c) r' ->
  (Hash r = Hash r' -> r = r') ->
  (forall vs vs', GetParameters d r (p_args (stage_expr c)) = Some vs -> GetParameters d r' (p_args (stage_expr c)) = Some vs' ->
     Hash vs = Hash vs' -> vs = vs') ->
  (stage_key d c r = stage_key d c r' <-> same_values d (stage_expr c) r r').
Proof.
  intros El D D' F F'. unfold stage_key, same_values, GetPolicyArgs. rewrite El.
  pose proof (has_params d (stage_expr c) r D) as P. pose proof (has_params d (stage_expr c) r' D') as P'.
  destruct (p_args (stage_expr c)) as [|a args].
  - split; [exact F|congruence].
  - destruct P as [vs E]. destruct P' as [vs' E']. rewrite E, E'. split.
    + intros Hh. f_equal. now apply F'.
    + intros X. injection X as ->. reflexivity.
Qed.

Lemma comma_free_params d (r : rule) names vs : comma_free r -> names <> [] -> GetParameters d r names = Some vs -> comma_free vs.
Proof.
  intros F Hn E. split.
  - apply GetParameters_len in E. intros ->. destruct names; [congruence|discriminate].
  - apply Forall_forall. intros v Hv. destruct F as [_ F]. rewrite Forall_forall in F. apply F.
    eapply GetParameters_In; eassumption.
Qed.

Lemma told_apart_plain d s (rules : rule -> Prop) : (forall r, rules r -> comma_free r) -> told_apart d s rules.
Proof.
  intros HF. split.
  - intros r r' H H'. apply Hash_inj; auto.
  - intros e r r' vs vs' _ H H' E E' J. destruct (p_args e) as [|a args].
    + cbn in E, E'. congruence.
    + apply Hash_inj; [apply (comma_free_params d r (a :: args))|apply (comma_free_params d r' (a :: args))|exact J]; auto; discriminate.
Qed.

Lemma told_apart_sub d s (P Q : rule -> Prop) : (forall r, P r -> Q r) -> told_apart d s Q -> told_apart d s P.
Proof. intros H [A B]. split; eauto. Qed.

Lemma own_values_sub E d rDef rvals e (P Q : rule -> Prop) : (forall r, P r -> Q r) ->
  own_values E d rDef rvals e Q -> own_values E d rDef rvals e P.
Proof. unfold own_values. auto. Qed.

Lemma same_params d rDef rvals e r r' :
  has_values d e r -> same_values d e r r' -> forall x, In x (p_args e) -> ParamGet d r rDef rvals x = ParamGet d r' rDef rvals x.
Proof.
  intros D S x Hx.
  assert (G : GetParameter d r x = GetParameter d r' x).
  { unfold same_values in S. pose proof (has_params d e r D) as [vs Hvs].
    assert (Heq : GetParameters d r (p_args e) = GetParameters d r' (p_args e)).
    { destruct (p_args e) as [|a args]; [destruct Hx|exact S]. }
    clear S D. rewrite Hvs in Heq. revert vs Hvs Heq Hx. generalize (p_args e) as names.
    induction names as [|y names IH]; intros vs H1 H2 Hx; [destruct Hx|]. cbn in H1, H2.
    destruct (GetParameter d r y) as [v|] eqn:E1; [|discriminate].
    destruct (GetParameters d r names) as [ws|] eqn:E2; [|discriminate].
    destruct (GetParameter d r' y) as [v'|] eqn:E3; [|discriminate].
    destruct (GetParameters d r' names) as [ws'|] eqn:E4; [|discriminate].
    injection H1 as <-. injection H2 as <- <-.
    destruct Hx as [<-|Hx]; [congruence|]. now apply (IH ws). }
  unfold ParamGet. destruct x as [|ch x]; [reflexivity|]. destruct (Ascii.eqb ch "p" || Ascii.eqb ch "g"); [|reflexivity].
  now rewrite G.
Qed.

Lemma same_ev E d rDef rvals e r r' :
  reads_only_named E e -> has_values d e r ->
  same_values d e r r' -> ev E e (ParamGet d r rDef rvals) = ev E e (ParamGet d r' rDef rvals).
Proof.
  intros RO D S. apply RO.
  - now apply same_params with (e := e).
  - intros x Hp Hg. unfold ParamGet. destruct x as [|ch x]; [reflexivity|]. cbn in Hp, Hg.
    destruct (Ascii.eqb_spec ch "p"); [congruence|]. destruct (Ascii.eqb_spec ch "g"); [congruence|]. reflexivity.
Qed.

Lemma named_own E d rDef rvals e (rules : rule -> Prop) :
  (forall r, rules r -> has_values d e r) -> reads_only_named E e -> own_values E d rDef rvals e rules.
Proof. intros HV RO r r' H H' S. apply same_ev; auto. Qed.

Lemma lasts_texts : forall s e, In e (lasts_of s) -> In e (texts s).
Proof.
  induction s as [e0 cs IH] using stage_ind2. intros e He. cbn [lasts_of texts] in *.
  induction IH as [|c cs Hc _ IHcs]; [destruct He|]. cbn [flat_map] in *. apply in_app_or in He as [He|He]; apply in_or_app; [left|right; auto].
  destruct c as [ec [|c0 cs0]]; cbn [stage_children stage_expr] in *; [exact He|]. right. apply Hc. exact He.
Qed.

(** The usual way to establish [sound_conditions]. *)
Lemma sound_named E pDef rDef rvals s (rules : rule -> Prop) :
  (forall e, In e (texts s) ->
    (forall r, rules r -> has_values pDef e r) /\ reads_only_named E e /\
    forall r, rules r \/ r = blank pDef -> evaluates E pDef rDef rvals e r) ->
  sound_conditions E pDef rDef rvals s rules.
Proof.
  intros H e He. destruct (H e He) as [A [B C]]. split; [exact A|]. split; [now apply named_own|]. split; [intros r Hr|intros _]; apply C; [now left|now right].
Qed.

Lemma sound_sub E pDef rDef rvals s (P Q : rule -> Prop) :
  (forall r, P r -> Q r) -> ((forall r, ~ P r) -> (forall r, ~ Q r) \/ forall e, In e (texts s) -> evaluates E pDef rDef rvals e (blank pDef)) ->
  sound_conditions E pDef rDef rvals s Q -> sound_conditions E pDef rDef rvals s P.
Proof.
  intros HPQ HN SC e He. destruct (SC e He) as [A [B [C D]]].
  split; [auto|]. split; [now apply (own_values_sub _ _ _ _ _ _ Q)|]. split; [auto|].
  intros [H|H]; [auto|]. destruct (HN H) as [X|X]; auto.
Qed.
Lemma sound_ext E pDef rDef rvals s (P Q : rule -> Prop) :
  (forall r, P r <-> Q r) -> sound_conditions E pDef rDef rvals s Q -> sound_conditions E pDef rDef rvals s P.
Proof. intros H. apply sound_sub; [intros r; apply H|]. intros X. left. intros r Hr. apply (X r). now apply H. Qed.

(** ** Partitions *)
Lemma filter_app2 {A} (f : A -> bool) l1 l2 : filter f (l1 ++ l2) = filter f l1 ++ filter f l2.
Proof. induction l1 as [|x l1 IH]; cbn; [reflexivity|]. destruct (f x); cbn; now rewrite IH. Qed.

Lemma flat_map_app2 {A B} (f g : A -> list B) l :
  Permutation (flat_map (fun x => f x ++ g x) l) (flat_map f l ++ flat_map g l).
Proof.
  induction l as [|x l IH]; cbn; [constructor|].
  rewrite IH. rewrite <- !app_assoc. apply Permutation_app_head.
  rewrite !app_assoc. apply Permutation_app_tail. apply Permutation_app_comm.
Qed.

Lemma flat_map_perm {A B} (f : A -> list B) l l' : Permutation l l' -> Permutation (flat_map f l) (flat_map f l').
Proof.
  induction 1; cbn; [constructor|now apply Permutation_app_head| |etransitivity; eassumption].
  rewrite !app_assoc. apply Permutation_app_tail. apply Permutation_app_comm.
Qed.

Lemma flat_map_perm_ext {A B} (f g : A -> list B) l :
  (forall x, In x l -> Permutation (f x) (g x)) -> Permutation (flat_map f l) (flat_map g l).
Proof.
  induction l as [|x l IH]; intros H; cbn; [constructor|].
  apply Permutation_app; [apply H; now left|apply IH; intros; apply H; now right].
Qed.

Lemma filter_perm {A} (f : A -> bool) l l' : Permutation l l' -> Permutation (filter f l) (filter f l').
Proof.
  induction 1; cbn; [constructor| | |etransitivity; eassumption].
  - destruct (f x); [now constructor|assumption].
  - destruct (f x), (f y); try constructor; apply Permutation_refl.
Qed.

Lemma partition_keys {A} (key : A -> string) (l : list A) ks :
  NoDup ks -> (forall x, In x l -> In (key x) ks) ->
  Permutation l (flat_map (fun k => filter (fun x => String.eqb (key x) k) l) ks).
Proof.
  intros ND. induction l as [|x l IH]; intros Hk.
  - cbn. clear. induction ks; cbn; auto.
  - assert (G : forall ks, NoDup ks -> In (key x) ks ->
      Permutation (x :: flat_map (fun k => filter (fun y => String.eqb (key y) k) l) ks)
                  (flat_map (fun k => filter (fun y => String.eqb (key y) k) (x :: l)) ks)).
    { clear. induction ks as [|k ks IH]; intros ND Hin; [destruct Hin|]. inversion ND; subst.
      cbn [flat_map filter]. destruct (String.eqb_spec (key x) k) as [He|He].
      - cbn. constructor. apply Permutation_app_head.
        assert (Hs : forall ks, ~ In (key x) ks ->
          flat_map (fun k => filter (fun y => String.eqb (key y) k) l) ks =
          flat_map (fun k => if String.eqb (key x) k then x :: filter (fun y => String.eqb (key y) k) l else filter (fun y => String.eqb (key y) k) l) ks).
        { clear. induction ks as [|k ks IH]; intros H; [reflexivity|]. cbn.
          destruct (String.eqb_spec (key x) k) as [<-|]; [exfalso; apply H; now left|]. f_equal. apply IH.
          intros X. apply H. now right. }
        rewrite <- Hs; [reflexivity|]. now rewrite He.
      - destruct Hin as [Hx|Hin]; [now destruct (He (eq_sym Hx))|]. specialize (IH H2 Hin). cbn [filter] in IH.
        rewrite Permutation_middle. now apply Permutation_app_head. }
    rewrite <- (G ks ND (Hk x (or_introl eq_refl))). constructor. apply IH. intros y Hy. apply Hk. now right.
Qed.

Lemma flat_map_repeat {A B} (x : B) (f : A -> nat) l :
  flat_map (fun a => repeat x (f a)) l = repeat x (fold_right (fun a n => f a + n) 0 l).
Proof. induction l as [|a l IH]; cbn; [reflexivity|]. now rewrite IH, <- repeat_app. Qed.

(** ** What a walk yields *)
Lemma ways_ne s w : In w (ways s) -> w <> [].
Proof.
  destruct s as [e [|c cs]]; cbn.
  - intros [<-|[]]. discriminate.
  - intros Hin. apply in_map_iff in Hin as [w' [<- _]]. discriminate.
Qed.

Section WalkWf.
  Variable E : evaluator.
  Variable ord : order.
  Variable pDef rDef : argdef.
  Variable rvals : list value.
  Hypothesis ord_perm : forall at_ i m, Permutation (ord at_ i m) m.
  Variable Ev : rule -> Prop.

  Local Notation holds := (holds E pDef rDef rvals).
  Local Notation all_hold := (all_hold E pDef rDef rvals).
  Local Notation scan := (scan E pDef rDef rvals).
  Local Notation phantom := (phantom E pDef rDef rvals).
  Local Notation blank := (blank pDef).

  Definition text_ok (e : string) : Prop :=
    (forall r, Ev r -> has_values pDef e r) /\ own_values E pDef rDef rvals e Ev /\
    forall r, Ev r -> evaluates E pDef rDef rvals e r.

  Definition tree_ok (s : stage) : Prop :=
    narrow s = true /\ (forall e, In e (texts s) -> text_ok e) /\ told_apart pDef s Ev /\
    forall e, In e (lasts_of s) -> evaluates E pDef rDef rvals e blank.

  Definition scan1 (c : stage) (l : list rule) : list rule := flat_map (fun w => filter (all_hold w) l) (ways c).

  Lemma scan_children e cs l : scan (Stage e cs) l = flat_map (fun c => scan1 c l) cs.
  Proof.
    unfold scan, ways_of. cbn [stage_children]. induction cs as [|c cs IH]; [reflexivity|].
    cbn. rewrite flat_map_app. f_equal. exact IH.
  Qed.

  Lemma scan1_leaf e l : scan1 (Stage e []) l = filter (holds e) l.
  Proof.
    unfold scan1. cbn [ways flat_map]. rewrite app_nil_r. apply filter_ext. intros r.
    unfold MatcherSpec.all_hold. cbn. apply andb_true_r.
  Qed.

  Lemma filter_filter {A} (f g : A -> bool) l : filter f (filter g l) = filter (fun x => g x && f x) l.
  Proof. induction l as [|x l IH]; cbn; [reflexivity|]. destruct (g x); cbn; [destruct (f x)|]; now rewrite IH. Qed.

  Lemma scan1_node e c cs l : scan1 (Stage e (c :: cs)) l = scan (Stage e (c :: cs)) (filter (holds e) l).
  Proof.
    unfold scan1, scan, ways_of. cbn [stage_children]. set (ws := flat_map ways (c :: cs)).
    change (ways (Stage e (c :: cs))) with (map (cons e) ws). induction ws as [|w ws IH]; [reflexivity|].
    cbn. rewrite filter_filter. f_equal. exact IH.
  Qed.

  Lemma scan_perm s l l' : Permutation l l' -> Permutation (scan s l) (scan s l').
  Proof. intros H. unfold scan. apply flat_map_perm_ext. intros w _. now apply filter_perm. Qed.

  Lemma scan_nil s : scan s [] = [].
  Proof. unfold scan. induction (ways_of s); cbn; auto. Qed.

  Lemma scan_app s l1 l2 : Permutation (scan s (l1 ++ l2)) (scan s l1 ++ scan s l2).
  Proof.
    unfold scan. etransitivity; [|apply flat_map_app2]. apply flat_map_perm_ext. intros w _. now rewrite filter_app2.
  Qed.

  Lemma scan_flat_map {A} s (f : A -> list rule) l : Permutation (scan s (flat_map f l)) (flat_map (fun x => scan s (f x)) l).
  Proof.
    induction l as [|x l IH]; cbn; [now rewrite scan_nil|]. rewrite scan_app. now apply Permutation_app_head.
  Qed.

  (** Entries whose evaluation does not fail. *)
  Lemma walk_entries_ok c rec_ entries (out : string * node -> list rule) :
    (forall k n, In (k, n) entries -> evaluates E pDef rDef rvals (stage_expr c) (node_rule n)) ->
    (forall k n, In (k, n) entries -> holds (stage_expr c) (node_rule n) = true -> rec_ k n = (out (k, n), WDone)) ->
    walk_entries E pDef rDef rvals c rec_ entries =
      (flat_map (fun kn => if holds (stage_expr c) (node_rule (snd kn)) then out kn else []) entries, WDone).
  Proof.
    induction entries as [|[k n] rest IH]; intros H1 H2; [reflexivity|]. cbn [walk_entries flat_map snd].
    rewrite IH; [|intros; apply (H1 k0); now right|intros; apply H2; [now right|assumption]].
    destruct (H1 k n (or_introl eq_refl)) as [_ [v Hv]]. specialize (H2 k n (or_introl eq_refl)).
    unfold holds in *. unfold eval_stage. rewrite Hv in *. destruct v as [x|[|]|x]; cbn [app]; try reflexivity.
    rewrite (H2 eq_refl). reflexivity.
  Qed.

  Definition enum (l : list rule) (X : rule -> Prop) : Prop := NoDup l /\ forall r, In r l <-> X r.

  Lemma enum_filter c k l X : enum l X -> enum (filter (fun r => String.eqb (stage_key pDef c r) k) l) (at_key pDef c k X).
  Proof.
    intros [ND I]. split; [now apply NoDup_filter|]. intros r. rewrite filter_In, I, String.eqb_eq. reflexivity.
  Qed.

  Lemma phantom_ext H R H' R' w : (forall r, H r <-> H' r) -> (forall r, R r <-> R' r) -> phantom H R w -> phantom H' R' w.
  Proof.
    intros EH ER [pre [l [-> [Hl X]]]]. exists pre, l. split; [reflexivity|]. split; [exact Hl|].
    destruct X as [[X Y]|[h [X [Y Z]]]].
    - left. split; [|exact Y]. intros h Hh. apply (X h). now apply EH.
    - right. exists h. split; [now apply EH|]. split; [exact Y|]. intros r Hr. apply Z. now apply ER.
  Qed.

  Lemma walk_wf : forall s at_ n (H R : rule -> Prop) lH lR,
    tree_ok s -> (forall r, H r -> Ev r) -> (forall r, R r -> H r) -> enum lH H -> enum lR R ->
    (lH = [] -> forall e, In e (texts s) -> evaluates E pDef rDef rvals e blank) ->
    wf pDef s n H R ->
    exists ys k, walk E ord pDef rDef rvals s at_ n = (ys, WDone) /\
      Permutation ys (scan s lR ++ repeat blank k) /\
      (0 < k <-> exists w, In w (ways_of s) /\ phantom H R w).
  Proof.
    induction s as [e cs IH] using stage_ind2. intros at_ n H R lH lR [Hn [Ht [Hap Hls]]] HE HRH EH ER Hbl W.
    rewrite walk_unfold. apply wf_unfold in W. rewrite scan_children.
    cbn [narrow] in Hn. apply andb_true_iff in Hn as [_ Hn].
    destruct Hap as [Hap1 Hap2]. cbn [texts] in Ht, Hap2, Hbl. cbn [lasts_of] in Hls. unfold ways_of. cbn [stage_children].
    revert W. generalize 0 at 1 2 as i. induction IH as [|c cs Hc Hcs IHcs]; intros i W.
    - exists [], 0. cbn. split; [reflexivity|]. split; [constructor|]. split; [lia|]. intros [w [[] _]].
    - cbn [forallb] in Hn. apply andb_true_iff in Hn as [Hnc Hncs]. cbn [flat_map] in Ht, Hap2, Hls, Hbl.
      destruct W as [[m [Hm [ND Wc]]] Wr].
      destruct (IHcs Hncs (fun e0 He => Ht e0 (in_or_app _ _ _ (or_intror He)))
                 (fun e0 r r' vs vs' He => Hap2 e0 r r' vs vs' (in_or_app _ _ _ (or_intror He)))
                 (fun e0 He => Hls e0 (in_or_app _ _ _ (or_intror He)))
                 (fun H0 e0 He => Hbl H0 e0 (in_or_app _ _ _ (or_intror He))) (S i) Wr) as [ys2 [k2 [A2 [B2 C2]]]].
      cbn [walk_children]. rewrite Hm.
      assert (Hce : text_ok (stage_expr c)) by (apply Ht; apply in_or_app; left; now left).
      assert (Hct : tree_ok c).
      { split; [exact Hnc|]. split; [intros e0 He0; apply Ht; apply in_or_app; left; now right|].
        split; [split; [exact Hap1|intros e0 r r' vs vs' He0; apply Hap2; apply in_or_app; left; now right]|].
        intros e0 He0. apply Hls. apply in_or_app. left. destruct c as [ec [|c0 cs0]]; [destruct He0|exact He0]. }
      destruct Hce as [Dc [ROc EVc]].
      assert (Hp : parses E (stage_expr c) = true).
      { destruct lH as [|h0 lH']; [apply (Hbl eq_refl), in_or_app; left; now left|]. apply (EVc h0). apply HE, EH. now left. }
      set (rec_ := fun k n' =>
                    if IsLeafNode c then (node_rule n' :: fst (walk E ord pDef rDef rvals c ((i, k) :: at_) n'), snd (walk E ord pDef rDef rvals c ((i, k) :: at_) n'))
                    else walk E ord pDef rDef rvals c ((i, k) :: at_) n').
      assert (Main : exists ys1 k1, walk_map E pDef rDef rvals c rec_ (ord at_ i m) = (ys1, WDone) /\
                Permutation ys1 (scan1 c lR ++ repeat blank k1) /\
                (0 < k1 <-> exists w, In w (ways c) /\ phantom H R w)).
      { unfold walk_map. rewrite Hp.
        destruct c as [ec [|c0 cs0]].
        - (* leaf *)
          cbn [stage_expr] in *. change (IsLeafNode (Stage ec [])) with true in *.
          assert (Hrec : forall k n', rec_ k n' = ([node_rule n'], WDone)) by reflexivity.
          assert (Hmp : Permutation m (map (fun r => (Hash r, NewMatcherNode r)) lR)).
          { apply NoDup_Permutation.
            - eapply NoDup_map_inv. exact ND.
            - assert (Inj : forall r r', In r lR -> In r' lR -> Hash r = Hash r' -> r = r').
              { intros r r' Hr Hr'. apply Hap1; apply HE, HRH; now apply ER. }
              clear - ER Inj. destruct ER as [NDl _]. induction lR as [|r l IHl]; cbn; [constructor|].
              inversion NDl; subst. constructor.
              + intros Hin. apply in_map_iff in Hin as [r' [Heq Hin]]. injection Heq as Hh _.
                apply H1. rewrite <- (Inj r' r); auto; [now right|now left].
              + apply IHl; [exact H2|]. intros. apply Inj; auto; now right.
            - intros [k n']. rewrite <- (mget_In_iff k n' m ND), (Wc k n'), in_map_iff. split.
              + intros [r [Hr [-> ->]]]. exists r. split; [reflexivity|]. now apply ER.
              + intros [r [Heq Hr]]. injection Heq as <- <-. exists r. split; [now apply ER|]. auto. }
          assert (Hmp' : Permutation (ord at_ i m) (map (fun r => (Hash r, NewMatcherNode r)) lR)) by (rewrite ord_perm; exact Hmp).
          destruct lR as [|r0 lR'].
          + apply Permutation_sym, Permutation_nil in Hmp'. rewrite Hmp'. cbn [the_entries].
            rewrite (walk_entries_ok _ rec_ _ (fun kn => [node_rule (snd kn)])).
            2: { intros k n' [X|[]]. injection X as <- <-. apply Hls. now left. }
            2: { intros k n' _ _. apply Hrec. }
            cbn [flat_map snd node_rule NewMatcherNode stage_expr app].
            exists (if holds ec blank then [blank] else []), (if holds ec blank then 1 else 0).
            split; [destruct (holds ec blank); reflexivity|]. split.
            * rewrite scan1_leaf. cbn. destruct (holds ec blank); reflexivity.
            * cbn [ways]. split.
              -- intros Hk. exists [ec]. split; [now left|]. destruct (holds ec blank) eqn:Eb; [|lia].
                 exists [], ec. split; [reflexivity|]. split; [exact Eb|].
                 destruct lH as [|h lH'].
                 ++ left. split; [|reflexivity]. intros h Hh. now apply EH in Hh.
                 ++ right. exists h. split; [apply EH; now left|]. split; [reflexivity|].
                    intros r Hr _. now apply ER in Hr.
              -- intros [w [[<-|[]] [pre [l [Hw [Hl _]]]]]].
                 destruct pre as [|x [|y pre]]; try discriminate. injection Hw as <-. rewrite Hl. lia.
          + assert (Hent : the_entries pDef (ord at_ i m) = ord at_ i m).
            { destruct (ord at_ i m); [|reflexivity]. apply Permutation_nil in Hmp'. discriminate. }
            rewrite Hent.
            rewrite (walk_entries_ok _ rec_ _ (fun kn => [node_rule (snd kn)])).
            2: { intros k n' Hin. apply (Permutation_in _ Hmp') in Hin. apply in_map_iff in Hin as [r [Heq Hr]].
                 injection Heq as <- <-. cbn [node_rule NewMatcherNode]. apply EVc. apply HE, HRH. now apply ER. }
            2: { intros k n' _ _. apply Hrec. }
            exists (flat_map (fun kn : string * node => if holds (stage_expr (Stage ec [])) (node_rule (snd kn)) then [node_rule (snd kn)] else []) (ord at_ i m)), 0.
            split; [reflexivity|]. split.
            * rewrite (flat_map_perm _ _ _ Hmp'). cbn [repeat stage_expr]. rewrite app_nil_r, scan1_leaf.
              clear. induction (r0 :: lR') as [|r l IHl]; [constructor|]. cbn. destruct (holds ec r); cbn; [now constructor|exact IHl].
            * split; [lia|]. cbn [ways]. intros [w [[<-|[]] [pre [l [Hw [Hl X]]]]]].
              destruct pre as [|x [|y pre]]; try discriminate. injection Hw as <-.
              assert (Hr0 : R r0) by (apply ER; now left).
              destruct X as [[X _]|[h [X [_ Z]]]]; exfalso; [apply (X r0); auto|]. apply (Z r0 Hr0). constructor.
        - (* inner stage *)
          set (c := Stage ec (c0 :: cs0)) in *. change (IsLeafNode c) with false in *. cbn iota in *.
          change (stage_expr c) with ec in *. destruct Wc as [W1 W2].
          assert (Hrec : forall k n', rec_ k n' = walk E ord pDef rDef rvals c ((i, k) :: at_) n') by reflexivity.
          assert (Hways : ways c = map (cons ec) (ways_of c)) by reflexivity.
          destruct lH as [|h0 lH'].
          + (* nothing was ever filed here *)
            assert (Hm0 : m = []).
            { destruct m as [|[k n'] m']; [reflexivity|]. exfalso.
              assert (X : In k (mkeys ((k, n') :: m'))) by now left. apply W1 in X as [r [Hr _]]. now apply EH in Hr. }
            assert (Hnn : ord at_ i m = []). { apply Permutation_nil. rewrite ord_perm, Hm0. constructor. }
            rewrite Hnn. cbn [the_entries].
            assert (HlR : lR = []). { destruct lR as [|r l]; [reflexivity|]. exfalso. assert (X : H r) by (apply HRH, ER; now left). now apply EH in X. }
            assert (Hnone : forall r, ~ H r) by (intros r Hr; now apply EH in Hr).
            destruct (Hc ((i, ""%string) :: at_) (NewMatcherNode blank) no_rules no_rules [] [] Hct) as [ys [k [A [B C]]]].
            * intros r F. destruct F.
            * intros r F. destruct F.
            * split; [constructor|]. intros r. split; intros F; destruct F.
            * split; [constructor|]. intros r. split; intros F; destruct F.
            * intros _ e0 He0. apply (Hbl eq_refl), in_or_app. left. now right.
            * now apply wf_new.
            * rewrite (walk_entries_ok _ rec_ _ (fun kn => ys)).
              2: { intros k' n' [X|[]]. injection X as <- <-. apply (Hbl eq_refl), in_or_app. left. now left. }
              2: { intros k' n' [X|[]] _. injection X as <- <-. rewrite Hrec. exact A. }
              cbn [flat_map snd node_rule NewMatcherNode]. rewrite app_nil_r.
              change (stage_expr c) with ec.
              exists (if holds ec blank then ys else []), (if holds ec blank then k else 0).
              split; [reflexivity|]. split.
              -- subst lR. unfold c at 1; rewrite scan1_node; fold c. cbn [filter]. rewrite scan_nil in *. destruct (holds ec blank); [exact B|constructor].
              -- rewrite Hways. split.
                 ++ destruct (holds ec blank) eqn:Eb; [|lia]. intros Hk. apply C in Hk as [w [Hw Hph]].
                    exists (ec :: w). split; [now apply in_map|].
                    destruct Hph as [pre [l [-> [Hl X]]]]. exists (ec :: pre), l. split; [reflexivity|]. split; [exact Hl|].
                    left. split; [exact Hnone|]. destruct X as [[_ X]|[h [F _]]]; [|destruct F].
                    cbn [MatcherSpec.all_hold forallb]. unfold MatcherSpec.all_hold in *. cbn. now rewrite Eb, X.
                 ++ intros [w [Hw Hph]]. apply in_map_iff in Hw as [w' [<- Hw']].
                    destruct Hph as [pre [l [Heq [Hl X]]]].
                    assert (Hne : w' <> []). { unfold ways_of in Hw'. apply in_flat_map in Hw' as [c' [_ Hw']]. eapply ways_ne; eassumption. }
                    destruct pre as [|x pre]; [injection Heq as _ ->; congruence|]. injection Heq as <- ->.
                    destruct X as [[_ X]|[h [F _]]]; [|exfalso; now apply (Hnone h)].
                    unfold MatcherSpec.all_hold in X. cbn in X. apply andb_true_iff in X as [X1 X2]. rewrite X1.
                    apply C. exists (pre ++ [l]). split; [exact Hw'|]. exists pre, l. split; [reflexivity|]. split; [exact Hl|].
                    left. split; [intros h F; destruct F|exact X2].
          + (* some rules were filed *)
            set (lH := h0 :: lH') in *.
            assert (Hmne : m <> []).
            { intros ->. assert (X : In (stage_key pDef c h0) (mkeys (@nil (string * node)))).
              { apply W1. exists h0. split; [apply EH; now left|reflexivity]. }
              destruct X. }
            assert (Hent : the_entries pDef (ord at_ i m) = ord at_ i m).
            { destruct (ord at_ i m) eqn:Eo; [|reflexivity]. exfalso. apply Hmne. apply Permutation_nil.
              rewrite <- Eo. apply ord_perm. }
            rewrite Hent.
            set (part := fun k l => filter (fun r => String.eqb (stage_key pDef c r) k) l).
            assert (Hsub : forall k n', mget k m = Some n' -> exists ys kk,
                 walk E ord pDef rDef rvals c ((i, k) :: at_) n' = (ys, WDone) /\
                 Permutation ys (scan c (part k lR) ++ repeat blank kk) /\
                 (0 < kk <-> exists w, In w (ways_of c) /\ phantom (at_key pDef c k H) (at_key pDef c k R) w)).
            { intros k n' G. destruct (W2 k n' G) as [_ [_ Wk]].
              apply (Hc ((i, k) :: at_) n' (at_key pDef c k H) (at_key pDef c k R) (part k lH) (part k lR) Hct).
              - intros r [Hr _]. now apply HE.
              - intros r [Hr Hk]. split; auto.
              - now apply enum_filter.
              - now apply enum_filter.
              - intros Z. exfalso. assert (Y : In k (mkeys m)) by (apply mget_In in G; unfold mkeys; apply in_map_iff; now exists (k, n')).
                apply W1 in Y as [r [Hr Hk]]. assert (Y : In r (part k lH)) by (apply filter_In; split; [now apply EH|now apply String.eqb_eq]).
                rewrite Z in Y. destruct Y.
              - exact Wk. }
            (* choose the results for the entries *)
            assert (Hchoose : forall (l : smap node), (forall k n', In (k, n') l -> mget k m = Some n') -> 
               exists (g : string -> list rule * nat), forall k n', In (k, n') l -> 
                 walk E ord pDef rDef rvals c ((i, k) :: at_) n' = (fst (g k), WDone) /\
                 Permutation (fst (g k)) (scan c (part k lR) ++ repeat blank (snd (g k))) /\
                 (0 < snd (g k) <-> exists w, In w (ways_of c) /\ phantom (at_key pDef c k H) (at_key pDef c k R) w)).
            { induction l as [|[k n'] l IHl]; intros Hl.
              - exists (fun _ => ([], 0)). intros k n' [].
              - destruct IHl as [g Hg]; [intros; apply Hl; now right|].
                destruct (Hsub k n' (Hl k n' (or_introl eq_refl))) as [ys [kk X]].
                exists (fun k' => if String.eqb k' k then (ys, kk) else g k').
                intros k' n'' [Heq|Hin].
                + injection Heq as <- <-. rewrite String.eqb_refl. exact X.
                + destruct (String.eqb_spec k' k) as [->|Hne]; [|exact (Hg k' n'' Hin)].
                  assert (n'' = n'). { pose proof (Hl k n'' (or_intror Hin)). pose proof (Hl k n' (or_introl eq_refl)). congruence. }
                  subst. exact X. }
            destruct (Hchoose m) as [g Hg]; [intros k n'; now apply In_mget|].
            assert (Hin : forall k n', In (k, n') (ord at_ i m) <-> In (k, n') m).
            { intros. split; apply Permutation_in; [apply ord_perm|apply Permutation_sym, ord_perm]. }
            rewrite (walk_entries_ok _ rec_ _ (fun kn => fst (g (fst kn)))).
            2: { intros k n' X. apply Hin, (In_mget _ _ _ ND) in X. destruct (W2 k n' X) as [A _]. apply EVc. now apply HE. }
            2: { intros k n' X _. apply Hin in X. rewrite Hrec. cbn [fst]. now apply Hg. }
            change (stage_expr c) with ec.
            set (kk := fun kn : string * node => if holds ec (node_rule (snd kn)) then snd (g (fst kn)) else 0).
            exists (flat_map (fun kn : string * node => if holds ec (node_rule (snd kn)) then fst (g (fst kn)) else []) (ord at_ i m)),
                   (fold_right (fun a n => kk a + n) 0 m).
            split; [reflexivity|].
            assert (Hks : forall r r', H r -> H r' -> (stage_key pDef c r = stage_key pDef c r' <-> same_values pDef ec r r')).
            { intros r r' Hr Hr'. apply (key_same pDef c); try reflexivity; [now apply Dc, HE|now apply Dc, HE|apply Hap1; now apply HE|].
              intros vs vs'. apply Hap2; [apply in_or_app; left; now left|now apply HE|now apply HE]. }
            assert (Hconst : forall k n' r, mget k m = Some n' -> H r -> stage_key pDef c r = k -> holds ec r = holds ec (node_rule n')).
            { intros k n' r G Hr Hk. destruct (W2 k n' G) as [A [B _]].
              unfold holds, MatcherSpec.holds. rewrite (ROc r (node_rule n')); auto.
              apply Hks; auto. congruence. }
            split.
            * rewrite (flat_map_perm _ _ _ (ord_perm at_ i m)).
              rewrite (flat_map_perm_ext _ (fun kn : string * node => scan c (if holds ec (node_rule (snd kn)) then part (fst kn) lR else []) ++ repeat blank (kk kn))).
              2: { intros [k n'] X. cbn [fst snd]. unfold kk. cbn [fst snd]. destruct (Hg k n' X) as [_ [P _]].
                   destruct (holds ec (node_rule n')); [exact P|]. rewrite scan_nil. constructor. }
              rewrite flat_map_app2, flat_map_repeat. apply Permutation_app_tail.
              unfold c at 2; rewrite scan1_node; fold c. rewrite <- scan_flat_map. apply scan_perm.
              transitivity (flat_map (fun k => part k (filter (holds ec) lR)) (mkeys m)).
              -- unfold mkeys. rewrite (flat_map_concat_map _ (map fst m)), map_map, <- flat_map_concat_map.
                 apply flat_map_perm_ext. intros [k n'] X. cbn [fst snd]. unfold part.
                 rewrite filter_filter.
                 apply (In_mget _ _ _ ND) in X.
                 destruct (holds ec (node_rule n')) eqn:Eb.
                 ++ assert (Hf : filter (fun r => String.eqb (stage_key pDef c r) k) lR =
                                 filter (fun x => holds ec x && String.eqb (stage_key pDef c x) k) lR).
                    { apply filter_ext_in. intros r Hr. destruct (String.eqb_spec (stage_key pDef c r) k) as [Hk|]; [|now rewrite andb_false_r].
                      rewrite (Hconst k n' r X) by (auto; apply HRH, ER; exact Hr). now rewrite Eb. }
                    rewrite Hf. apply Permutation_refl.
                 ++ assert (Hf : filter (fun x => holds ec x && String.eqb (stage_key pDef c x) k) lR = []).
                    { assert (Hz : forall r, In r lR -> holds ec r && String.eqb (stage_key pDef c r) k = false).
                      { intros r Hr. destruct (String.eqb_spec (stage_key pDef c r) k) as [Hk|]; [|apply andb_false_r].
                        rewrite (Hconst k n' r X) by (auto; apply HRH, ER; exact Hr). now rewrite Eb. }
                      clear - Hz. induction lR as [|r l IHl]; [reflexivity|]. cbn. rewrite (Hz r) by now left. apply IHl.
                      intros. apply Hz. now right. }
                    rewrite Hf. constructor.
              -- apply Permutation_sym. unfold part. apply partition_keys; [exact ND|].
                 intros r Hr. apply filter_In in Hr as [Hr _]. apply W1. exists r. split; [apply HRH, ER; exact Hr|reflexivity].
            * assert (Hpos : 0 < fold_right (fun a n => kk a + n) 0 m <-> exists kn, In kn m /\ 0 < kk kn).
              { clear. induction m as [|a l IHl]; cbn; [split; [lia|intros [? [[] _]]]|]. split.
                - intros X. destruct (Nat.eq_dec (kk a) 0) as [Z|Z].
                  + destruct IHl as [IHl _]. destruct IHl as [kn [A B]]; [lia|]. exists kn. auto.
                  + exists a. split; [now left|lia].
                - intros [kn [[->|A] B]]; [lia|]. destruct IHl as [_ IHl]. assert (0 < fold_right (fun a n => kk a + n) 0 l) by (apply IHl; eauto). lia. }
              rewrite Hpos, Hways. split.
              -- intros [[k n'] [X Y]]. unfold kk in Y. cbn [fst snd] in Y. destruct (holds ec (node_rule n')) eqn:Eb; [|lia].
                 destruct (Hg k n' X) as [_ [_ P]]. apply P in Y as [w [Hw [pre [l [-> [Hl Z]]]]]].
                 exists (ec :: pre ++ [l]). split; [now apply in_map|].
                 exists (ec :: pre), l. split; [reflexivity|]. split; [exact Hl|]. right.
                 apply (In_mget _ _ _ ND) in X. destruct (W2 k n' X) as [A [B _]].
                 destruct Z as [[Z _]|[h [[Hh Hk] [Z1 Z2]]]]; [exfalso; apply (Z (node_rule n')); now split|].
                 exists h. split; [exact Hh|]. split.
                 ++ unfold MatcherSpec.all_hold in *. cbn. rewrite (Hconst k n' h X Hh Hk), Eb. exact Z1.
                 ++ intros r Hr F. inversion F; subst. apply (Z2 r); [|assumption]. split; [exact Hr|].
                    symmetry. apply Hks; auto.
              -- intros [w [Hw Hph]]. apply in_map_iff in Hw as [w' [<- Hw']].
                 destruct Hph as [pre [l [Heq [Hl X]]]].
                 assert (Hne : w' <> []). { unfold ways_of in Hw'. apply in_flat_map in Hw' as [c' [_ Hw']]. eapply ways_ne; eassumption. }
                 destruct pre as [|x pre]; [injection Heq as _ ->; congruence|]. injection Heq as <- ->.
                 destruct X as [[X _]|[h [Hh [X Z]]]]; [exfalso; apply (X h0); apply EH; now left|].
                 unfold MatcherSpec.all_hold in X. cbn in X. apply andb_true_iff in X as [X1 X2].
                 set (k := stage_key pDef c h).
                 assert (Hkm : In k (mkeys m)) by (apply W1; exists h; auto).
                 unfold mkeys in Hkm. apply in_map_iff in Hkm as [[k' n'] [Hk' Hin']]. cbn in Hk'. subst k'.
                 exists (k, n'). split; [exact Hin'|]. unfold kk. cbn [fst snd].
                 pose proof (In_mget _ _ _ ND Hin') as G.
                 rewrite <- (Hconst k n' h G Hh eq_refl), X1.
                 destruct (Hg k n' Hin') as [_ [_ P]]. apply P. exists (pre ++ [l]). split; [exact Hw'|].
                 exists pre, l. split; [reflexivity|]. split; [exact Hl|]. right. exists h. split; [now split|]. split; [exact X2|].
                 intros r [Hr Hk] F. apply (Z r Hr). constructor; [|exact F]. apply Hks; auto. }
      destruct Main as [ys1 [k1 [A1 [B1 C1]]]].
      exists (ys1 ++ ys2), (k1 + k2). split.
      + match goal with |- (let (_, _) := ?w in _) = _ => change w with (walk_map E pDef rDef rvals c rec_ (ord at_ i m)) end.
        rewrite A1, A2. reflexivity.
      + split.
        * cbn [flat_map]. rewrite B1, B2, repeat_app. rewrite <- !app_assoc. apply Permutation_app_head.
          rewrite !app_assoc. apply Permutation_app_tail. apply Permutation_app_comm.
        * cbn [flat_map]. split.
          -- intros X. destruct (Nat.eq_dec k1 0) as [Z|Z].
             ++ assert (Y : 0 < k2) by lia. apply C2 in Y as [w [Hw P]]. exists w. split; [apply in_or_app; now right|exact P].
             ++ assert (Y : 0 < k1) by lia. apply C1 in Y as [w [Hw P]]. exists w. split; [apply in_or_app; now left|exact P].
          -- intros [w [Hw P]]. apply in_app_or in Hw as [Hw|Hw].
             ++ assert (0 < k1) by (apply C1; eauto). lia.
             ++ assert (0 < k2) by (apply C2; eauto). lia.
  Qed.
End WalkWf.
