(** Properties C31 and C32: the LRU cache of util/cache.go. *)
From Verif Require Import GoBase GoBaseP CacheM CacheSpec CacheP.

Section Lemmas.
  Context {V : Type}.

  Lemma walk_next (h : list (node V)) : forall ns a f,
    linked h (a :: ns ++ [a_tail]) -> Forall (inh h) (a :: ns ++ [a_tail]) ->
    ~ In a_tail (a :: ns) -> List.length ns + 1 < f ->
    walk n_next f h (Some a) a_tail = Some (map (ky h) (a :: ns)).
  Proof.
    induction ns as [|b ns IH]; intros a f Hl Hi Hn Hf; (destruct f as [|f]; [lia|]);
      cbn [walk]; (destruct (Nat.eqb_spec a a_tail) as [->|Hne]; [exfalso; apply Hn; now left|]).
    - inversion Hi as [|? ? Ha _]; subst. destruct (inh_node _ _ Ha) as [n En]. rewrite En.
      cbn [app] in Hl. rewrite linked_cons in Hl. destruct Hl as [Hx _]. unfold nx in Hx. rewrite En in Hx.
      rewrite Hx. destruct f as [|f]; [cbn in Hf; lia|]. cbn. unfold ky. now rewrite En.
    - inversion Hi as [|? ? Ha Hi']; subst. destruct (inh_node _ _ Ha) as [n En]. rewrite En.
      cbn [app] in Hl. rewrite linked_cons in Hl. destruct Hl as [Hx [_ Hl]]. unfold nx in Hx. rewrite En in Hx.
      rewrite Hx. rewrite IH; [|exact Hl|exact Hi'|intros H; apply Hn; now right|cbn in Hf; lia].
      assert (Hky : ky h a = n_key n) by (unfold ky; now rewrite En).
      cbn. now rewrite Hky.
  Qed.

  (** Following prev pointers from [a] through [rev ns] down to the head. *)
  Lemma walk_prev (h : list (node V)) : forall ns a f,
    linked h (a_head :: ns ++ [a]) -> Forall (inh h) (a_head :: ns ++ [a]) ->
    ~ In a_head (ns ++ [a]) -> List.length ns + 1 < f ->
    walk n_prev f h (Some a) a_head = Some (map (ky h) (a :: rev ns)).
  Proof.
    intros ns. induction ns as [|b ns IH] using rev_ind; intros a f Hl Hi Hn Hf; (destruct f as [|f]; [lia|]);
      cbn [walk]; (destruct (Nat.eqb_spec a a_head) as [->|Hne]; [exfalso; apply Hn, in_or_app; right; now left|]).
    - assert (Ha : inh h a) by (rewrite Forall_forall in Hi; apply Hi; cbn; auto).
      destruct (inh_node _ _ Ha) as [n En]. rewrite En.
      cbn [app] in Hl. rewrite linked_cons in Hl. destruct Hl as [_ [Hx _]]. unfold pv in Hx. rewrite En in Hx.
      rewrite Hx. destruct f as [|f]; [cbn in Hf; lia|]. cbn. unfold ky. now rewrite En.
    - assert (Ha : inh h a).
      { rewrite Forall_forall in Hi. apply Hi. right. apply in_or_app. right. now left. }
      destruct (inh_node _ _ Ha) as [n En]. rewrite En.
      rewrite <- app_assoc in Hl. cbn [app] in Hl.
      pose proof (pv_last h (a_head :: ns) b a Hl) as Hx. unfold pv in Hx. rewrite En in Hx. rewrite Hx.
      rewrite app_length in Hf. cbn in Hf.
      rewrite IH; [| | | |lia].
      + assert (Hky : ky h a = n_key n) by (unfold ky; now rewrite En).
        rewrite rev_app_distr. cbn. now rewrite Hky.
      + apply (linked_app h (a_head :: ns) b [a]) in Hl. apply Hl.
      + rewrite Forall_forall in Hi |- *. intros x Hx'. apply Hi. cbn in *. rewrite !in_app_iff in *. cbn in *. tauto.
      + intros H. apply Hn. apply in_or_app. now left.
  Qed.

  Lemma entries_keys (h : list (node V)) ns l :
    Forall2 (entry_at h) ns l -> map (ky h) ns = map Some (mkeys l).
  Proof. induction 1 as [|a [k v] ns l [H1 _] _ IH]; cbn; [reflexivity|]. now rewrite H1, IH. Qed.

  (** The sentinels keep a nil key. *)
  Definition nil_sentinels (c : lru V) : Prop := ky (l_heap c) a_head = None /\ ky (l_heap c) a_tail = None.

  Lemma ky_set_next h p q h' a : set_next h p q = Val h' -> @ky V h' a = ky h a /\ List.length h' = List.length h.
  Proof.
    unfold set_next. destruct (deref h p) as [an|]; [|discriminate]. cbn. intros H. injection H as <-.
    rewrite upd_length. split; [apply ky_upd|]; reflexivity.
  Qed.
  Lemma ky_set_prev h p q h' a : set_prev h p q = Val h' -> @ky V h' a = ky h a /\ List.length h' = List.length h.
  Proof.
    unfold set_prev. destruct (deref h p) as [an|]; [|discriminate]. cbn. intros H. injection H as <-.
    rewrite upd_length. split; [apply ky_upd|]; reflexivity.
  Qed.

  Ltac stepb H := match type of H with
    | obind ?o _ = _ => destruct o eqn:?; cbn [obind] in H; [|discriminate H] end.

  Lemma ky_unlink h n h' a : unlink h n = Val h' -> @ky V h' a = ky h a /\ List.length h' = List.length h.
  Proof.
    unfold unlink. intros H. repeat stepb H.
    match goal with E : set_next _ _ _ = _ |- _ => apply ky_set_next with (a := a) in E as [E1 E2] end.
    apply ky_set_prev with (a := a) in H as [H1 H2]. split; congruence.
  Qed.
  Lemma ky_link h n h' a : link h n = Val h' -> @ky V h' a = ky h a /\ List.length h' = List.length h.
  Proof.
    unfold link. intros H. repeat stepb H.
    repeat match goal with
    | E : set_next _ _ _ = _ |- _ => apply ky_set_next with (a := a) in E as [? ?]
    | E : set_prev _ _ _ = _ |- _ => apply ky_set_prev with (a := a) in E as [? ?] end.
    split; congruence.
  Qed.
  Lemma ky_remove c n b c' a : @remove V c n b = Val c' ->
    ky (l_heap c') a = ky (l_heap c) a /\ List.length (l_heap c') = List.length (l_heap c).
  Proof.
    unfold remove. intros H. repeat stepb H. injection H as <-. cbn.
    match goal with E : unlink _ _ = _ |- _ => exact (ky_unlink _ _ _ a E) end.
  Qed.
  Lemma ky_add c n b c' a : @add V c n b = Val c' ->
    ky (l_heap c') a = ky (l_heap c) a /\ List.length (l_heap c') = List.length (l_heap c).
  Proof.
    unfold add. intros H. repeat stepb H. injection H as <-. cbn.
    match goal with E : link _ _ = _ |- _ => exact (ky_link _ _ _ a E) end.
  Qed.

  Definition ks_pre (c c' : lru V) : Prop :=
    List.length (l_heap c) <= List.length (l_heap c') /\
    forall a, a < List.length (l_heap c) -> ky (l_heap c') a = ky (l_heap c) a.

  Lemma cstep_pre c o c' r : cstep c o = Val (c', r) -> ks_pre c c'.
  Proof.
    destruct o as [k|k v]; cbn [cstep].
    - unfold Get. destruct (mget k (l_map c)); [|intros H; injection H as <- <-; split; auto].
      intros H. repeat stepb H. injection H as <- <-. unfold moveToHead in *.
      match goal with E : obind _ _ = _ |- _ => repeat stepb E; rename E into E1 end.
      match goal with E : remove _ _ _ = _ |- _ => rename E into E2 end.
      split.
      + destruct (ky_add _ _ _ _ 0 E1), (ky_remove _ _ _ _ 0 E2). lia.
      + intros b _. destruct (ky_add _ _ _ _ b E1), (ky_remove _ _ _ _ b E2). congruence.
    - intros H. stepb H. injection H as <- <-.
      match goal with E : Put _ _ _ = _ |- _ => rename E into HP end. unfold Put in HP.
      destruct (mget k (l_map c)).
      + stepb HP. match goal with E : remove _ _ _ = _ |- _ => rename E into E2 end. split.
        * destruct (ky_add _ _ _ _ 0 HP), (ky_remove _ _ _ _ 0 E2). lia.
        * intros b _. destruct (ky_add _ _ _ _ b HP), (ky_remove _ _ _ _ b E2). congruence.
      + stepb HP. rename a0 into cm. match goal with E : (if _ then _ else _) = Val cm |- _ => rename E into Em end.
        set (c0 := mkLru (l_cap c) (l_map c) (l_heap c ++ [mkNode (Some k) (Some v) None None])) in *.
        assert (H0 : ks_pre c c0).
        { split; [cbn; rewrite app_length; cbn; lia|]. intros b Hb. cbn. now apply ky_app. }
        assert (H1 : List.length (l_heap c0) = List.length (l_heap cm) /\
                     forall b, ky (l_heap cm) b = ky (l_heap c0) b).
        { destruct (Nat.leb (l_cap c0) (List.length (l_map c0))).
          - repeat stepb Em. split; [symmetry; eapply (ky_remove _ _ _ _ 0); eauto|].
            intros b. eapply ky_remove; eauto.
          - injection Em as <-. auto. }
        destruct H0 as [L0 K0], H1 as [L1 K1]. split.
        * destruct (ky_add _ _ _ _ 0 HP). lia.
        * intros b Hb. destruct (ky_add _ _ _ _ b HP). rewrite H, K1. now apply K0.
  Qed.

  Lemma cexec_sentinels h : forall c c', 2 <= List.length (l_heap c) -> nil_sentinels c ->
    cexec c h = Val c' -> @nil_sentinels c'.
  Proof.
    induction h as [|o h IH]; intros c c' Hl Hs; cbn [cexec].
    - intros H. injection H as <-. exact Hs.
    - destruct (cstep c o) as [[c1 r]|] eqn:E; [|discriminate]. cbn [obind fst]. intros H.
      destruct (cstep_pre _ _ _ _ E) as [L K].
      apply (IH c1); [lia| |exact H]. destruct Hs as [S1 S2]. unfold a_head, a_tail in *.
      split; unfold a_head, a_tail; rewrite K by lia; assumption.
  Qed.

  (** Everything about the state after a history. *)
  Lemma history_rep cap h : 1 <= cap ->
    exists c ns, cexec (NewLRUCache cap) h = Val c /\ l_cap c = cap /\
      rep c ns (@lru_keep_of V cap h) /\ List.length (@lru_keep_of V cap h) <= cap /\ nil_sentinels c.
  Proof.
    intros Hc. destruct (cexec_rep h (NewLRUCache cap) [] [] Hc (rep_new cap) ltac:(cbn; lia))
      as [c [ns [H1 [H2 [H3 H4]]]]].
    exists c, ns. split; [exact H1|]. split; [exact H2|]. split; [exact H3|]. split; [exact H4|].
    apply (cexec_sentinels h (NewLRUCache cap)); [cbn; lia|split; reflexivity|exact H1].
  Qed.

  Lemma lookup_rep c ns l k : rep c ns l -> @lookup V c k = mget k l.
  Proof.
    intros R. unfold lookup. destruct (Get_rep c ns l k R) as [c' [ns' [H _]]]. now rewrite H.
  Qed.

  Lemma rep_size c ns l : @rep V c ns l -> List.length (l_map c) = List.length l.
  Proof. intros R. rewrite (rep_len _ _ _ R). apply (Forall2_len _ _ _ (rep_entries _ _ _ R)). Qed.

  Lemma rep_perm c ns l : @rep V c ns l -> Permutation (mkeys l) (mkeys (l_map c)).
  Proof.
    intros R. apply NoDup_Permutation; [apply (rep_keys _ _ _ R)|apply (rep_mkeys _ _ _ R)|].
    intros k. split; intros H.
    - apply in_map_iff in H as [[k' v] [Hk Hin]]. cbn in Hk. subst k'.
      destruct (entries_key_In _ _ _ _ _ (rep_entries _ _ _ R) Hin) as [a [Ha [He _]]].
      assert (Hg : mget k (l_map c) = Some a) by (apply (rep_map _ _ _ R); auto).
      apply mget_In in Hg. apply in_map_iff. now exists (k, a).
    - destruct (mget k (l_map c)) as [a|] eqn:E; [|apply mget_None in E; contradiction].
      destruct (rep_entry_of _ _ _ _ _ R E) as [v [_ [_ Hg]]].
      apply mget_In in Hg. apply in_map_iff. now exists (k, v).
  Qed.

  Lemma rep_consistent c ns l : @rep V c ns l -> nil_sentinels c -> consistent c.
  Proof.
    intros R [S1 S2]. pose proof R as [Hnd Hin Hl Hf Hk Hmk Hm Hlen].
    exists (mkeys l).
    assert (Hb : List.length ns + 1 < S (S (List.length (l_heap c)))).
    { assert (Hle : List.length (a_head :: ns ++ [a_tail]) <= List.length (seq 0 (List.length (l_heap c)))).
      { apply NoDup_incl_length; [exact Hnd|]. intros a Ha. apply in_seq.
        rewrite Forall_forall in Hin. specialize (Hin a Ha). unfold inh in Hin. lia. }
      rewrite seq_length in Hle. cbn in Hle. rewrite app_length in Hle. cbn in Hle. lia. }
    split; [|split; [|split; [exact Hk|eapply rep_perm; eauto]]].
    - rewrite (walk_next (l_heap c) ns a_head); auto.
      + cbn. rewrite S1, (entries_keys _ _ _ Hf). reflexivity.
      + intros H. change (a_head :: ns ++ [a_tail]) with ((a_head :: ns) ++ [a_tail]) in Hnd.
        apply NoDup_remove_2 in Hnd. apply Hnd. now rewrite app_nil_r.
    - rewrite (walk_prev (l_heap c) ns a_tail); auto.
      + cbn. rewrite S2, map_rev, (entries_keys _ _ _ Hf), <- map_rev. reflexivity.
      + now inversion Hnd.
  Qed.

  (** *** Recency *)
  Definition last_is_older (h : list (cop V)) (l : list (string * V)) : Prop :=
    forall l1 l2 a b, l = l1 ++ l2 -> In a (mkeys l1) -> In b (mkeys l2) -> fresher h a b.

  Lemma idle_snoc k h (o : cop V) :
    idle k (rev (h ++ [o])) = if String.eqb (about o) k then 0 else S (idle k (rev h)).
  Proof. rewrite rev_app_distr. reflexivity. Qed.

  Lemma keep_of_snoc cap h (o : cop V) :
    lru_keep_of cap (h ++ [o]) = spec_step lru_put_keep cap (lru_keep_of cap h) o.
  Proof. unfold lru_keep_of. now rewrite fold_left_app. Qed.

  (** Any two keys in list order. *)
  Lemma older_mdel h l k : last_is_older h l -> NoDup (mkeys l) -> last_is_older h (mdel k l).
  Proof.
    intros H Hnd l1 l2 a b E Ha Hb.
    (* lift the split to [l] *)
    assert (G : exists m1 m2, l = m1 ++ m2 /\ (forall x, In x (mkeys l1) -> In x (mkeys m1)) /\
                              (forall x, In x (mkeys l2) -> In x (mkeys m2))).
    { clear -E. revert l1 l2 E. induction l as [|[k' v'] l IH]; intros l1 l2 E.
      - cbn in E. symmetry in E. apply app_eq_nil in E as [-> ->]. exists [], []. auto.
      - cbn in E. destruct (String.eqb_spec k k') as [->|Hne].
        + destruct (IH _ _ E) as [m1 [m2 [-> [H1 H2]]]]. exists ((k', v') :: m1), m2.
          split; [reflexivity|]. split; [intros x Hx; right; auto|auto].
        + destruct l1 as [|[k1 v1] l1]; cbn in E.
          * exists [], ((k', v') :: l). split; [reflexivity|]. split; [auto|].
            rewrite <- E. intros x [Hx|Hx]; [now left|right].
            fold (mkeys (mdel k l)) in Hx. apply In_mkeys_del in Hx. apply Hx.
          * injection E as <- <- E. destruct (IH _ _ E) as [m1 [m2 [-> [H1 H2]]]].
            exists ((k', v') :: m1), m2. split; [reflexivity|].
            split; [intros x [Hx|Hx]; [now left|right; auto]|auto]. }
    destruct G as [m1 [m2 [-> [H1 H2]]]]. apply (H m1 m2); auto.
  Qed.

  Lemma older_prefix h l l' : last_is_older h (l ++ l') -> last_is_older h l.
  Proof.
    intros H l1 l2 a b -> Ha Hb. apply (H l1 (l2 ++ l')); [now rewrite app_assoc|exact Ha|].
    unfold mkeys. rewrite map_app. apply in_or_app. now left.
  Qed.

  (** Using [k] moves it to the front. *)
  Lemma older_front h (o : cop V) l v :
    last_is_older h l -> ~ In (about o) (mkeys l) -> last_is_older (h ++ [o]) ((about o, v) :: l).
  Proof.
    intros H Hn l1 l2 a b E Ha Hb. unfold fresher. rewrite !idle_snoc.
    assert (Hbl : In b (mkeys l)).
    { destruct l1 as [|x l1]; [destruct Ha|]. injection E as _ ->. unfold mkeys. rewrite map_app.
      apply in_or_app. now right. }
    destruct (String.eqb_spec (about o) b) as [Heq|_]; [rewrite Heq in Hn; contradiction|].
    destruct (String.eqb_spec (about o) a) as [Heq|Hne]; [lia|].
    destruct l1 as [|x l1]; [destruct Ha|]. injection E as <- ->.
    destruct Ha as [Ha|Ha]; [cbn in Ha; congruence|].
    specialize (H l1 l2 a b eq_refl Ha Hb). unfold fresher in H. lia.
  Qed.

  Lemma older_absent h (o : cop V) l :
    last_is_older h l -> ~ In (about o) (mkeys l) -> last_is_older (h ++ [o]) l.
  Proof.
    intros H Hn l1 l2 a b E Ha Hb. unfold fresher. rewrite !idle_snoc.
    assert (Hab : In a (mkeys l) /\ In b (mkeys l)).
    { subst l. unfold mkeys. rewrite map_app. split; apply in_or_app; auto. }
    destruct Hab as [Ia Ib].
    destruct (String.eqb_spec (about o) b) as [Heq|_]; [rewrite Heq in Hn; contradiction|].
    destruct (String.eqb_spec (about o) a) as [Heq|_]; [rewrite Heq in Hn; contradiction|].
    specialize (H l1 l2 a b E Ha Hb). unfold fresher in H. lia.
  Qed.

  Lemma not_in_mdel k (l : list (string * V)) : ~ In k (mkeys (mdel k l)).
  Proof. rewrite In_mkeys_del. tauto. Qed.

  Lemma keep_older cap h : last_is_older h (@lru_keep_of V cap h).
  Proof.
    induction h as [|o h IH] using rev_ind.
    - intros l1 l2 a b E Ha. cbn in E. destruct l1; [destruct Ha|discriminate].
    - pose proof (NoDup_keys_history (V := V) cap h) as Hnd. fold (@lru_keep_of V cap h) in Hnd.
      rewrite keep_of_snoc. destruct o as [k|k v]; cbn [spec_step].
      + unfold touch. destruct (mget k (lru_keep_of cap h)) as [v|] eqn:E.
        * apply (older_front h (CGet k)); [now apply older_mdel|apply not_in_mdel].
        * apply older_absent; [exact IH|]. now apply mget_None.
      + unfold lru_put_keep. destruct (mget k (lru_keep_of cap h)) as [v0|] eqn:E.
        * apply (older_front h (CPut k v)); [now apply older_mdel|apply not_in_mdel].
        * apply mget_None in E. apply (older_front h (CPut k v)).
          -- destruct (Nat.leb _ _); [|exact IH].
             destruct (app_snoc_cases (lru_keep_of cap h)) as [H|[l' [x Hx]]]; [rewrite H in *; exact IH|].
             rewrite Hx, removelast_last. rewrite Hx in IH. eapply older_prefix; eauto.
          -- cbn [about]. intros Hi. apply E. destruct (Nat.leb _ _); [|exact Hi].
             destruct (app_snoc_cases (lru_keep_of cap h)) as [H|[l' [x Hx]]]; [now rewrite H in Hi|].
             rewrite Hx, removelast_last in Hi. rewrite Hx. unfold mkeys. rewrite map_app.
             apply in_or_app. now left.
  Qed.

  Lemma lookup_history cap h c : 1 <= cap -> cexec (NewLRUCache cap) h = Val c ->
    forall k, lookup c k = mget k (@lru_keep_of V cap h).
  Proof.
    intros Hc He k. destruct (history_rep cap h Hc) as [c' [ns [H1 [_ [R _]]]]].
    rewrite H1 in He. injection He as <-. eapply lookup_rep; eauto.
  Qed.

  Lemma cexec_app h1 h2 : forall c, cexec c (h1 ++ h2) = obind (@cexec V c h1) (fun c' => cexec c' h2).
  Proof.
    induction h1 as [|o h1 IH]; intros c; cbn [cexec app]; [reflexivity|].
    destruct (cstep c o) as [[c1 r]|]; cbn [obind fst]; auto.
  Qed.

  Lemma mget_removelast (l : list (string * V)) l' x k :
    l = l' ++ [x] -> NoDup (mkeys l) -> mget k l' = if String.eqb k (fst x) then None else mget k l.
  Proof.
    intros -> Hnd. destruct x as [kx vx]. cbn [fst]. destruct (String.eqb_spec k kx) as [->|Hne].
    - apply mget_None. unfold mkeys in Hnd. rewrite map_app in Hnd. cbn in Hnd.
      apply NoDup_remove_2 in Hnd. now rewrite app_nil_r in Hnd.
    - clear Hnd. induction l' as [|[k' v'] l' IH]; cbn.
      + destruct (String.eqb_spec k kx); [congruence|reflexivity].
      + destruct (String.eqb k k'); [reflexivity|exact IH].
  Qed.
End Lemmas.

(** ** C31: the LRU contract. *)

(** For every capacity of at least one, no history of calls crashes; the cache
    never holds more than [cap] entries; list and map stay consistent. *)
Theorem C31_bounded_and_consistent :
  forall (V : Type) (cap : nat) (h : list (cop V)),
    1 <= cap ->
    exists c, cexec (NewLRUCache cap) h = Val c /\
      List.length (l_map c) <= cap /\ NoDup (mkeys (l_map c)) /\ consistent c /\
      (forall k, lookup c k <> None <-> In k (mkeys (l_map c))).
Proof.
  intros V cap h Hc. destruct (history_rep cap h Hc) as [c [ns [H1 [H2 [R [Hsz Hs]]]]]].
  exists c. split; [exact H1|]. split; [rewrite (rep_size _ _ _ R); exact Hsz|].
  split; [apply (rep_mkeys _ _ _ R)|]. split; [eapply rep_consistent; eauto|].
  intros k. rewrite (lookup_rep _ _ _ _ R).
  assert (Hp : In k (mkeys (l_map c)) <-> In k (mkeys (lru_keep_of cap h))).
  { split; apply Permutation_in; [symmetry|]; eapply rep_perm; eauto. }
  rewrite Hp. destruct (mget k (lru_keep_of cap h)) eqn:E.
  - split; [|discriminate]. intros _. apply mget_In in E. apply in_map_iff. now exists (k, v).
  - apply mget_None in E. tauto.
Qed.
Print Assumptions C31_bounded_and_consistent.

(** [Get] only returns values that were stored under that key. *)
Theorem C31_get_only_stored :
  forall (V : Type) (cap : nat) (h : list (cop V)) (c : lru V) k v,
    1 <= cap -> cexec (NewLRUCache cap) h = Val c ->
    lookup c k = Some v -> In (CPut k v) h.
Proof.
  intros V cap h c k v Hc He Hl. rewrite (lookup_history cap h c Hc He) in Hl. clear c He.
  revert k v Hl. induction h as [|o h IH] using rev_ind; intros k v Hl; [discriminate|].
  rewrite keep_of_snoc in Hl. apply in_or_app.
  pose proof (NoDup_keys_history (V := V) cap h) as Hnd. fold (@lru_keep_of V cap h) in Hnd.
  assert (Hdel : forall k0 v0, mget k0 (lru_keep_of cap h) = Some v0 ->
    mget k ((k0, v0) :: mdel k0 (lru_keep_of cap h)) = Some v -> In (CPut k v) h).
  { intros k0 v0 E. cbn. destruct (String.eqb_spec k k0) as [->|Hne].
    - intros H. injection H as ->. now apply IH.
    - rewrite mget_del_neq by assumption. apply IH. }
  destruct o as [k0|k0 v0]; cbn [spec_step] in Hl.
  - unfold touch in Hl. destruct (mget k0 (lru_keep_of cap h)) as [v1|] eqn:E; left; eauto.
  - unfold lru_put_keep in Hl. destruct (mget k0 (lru_keep_of cap h)) as [v1|] eqn:E; [left; eauto|].
    cbn in Hl. destruct (String.eqb_spec k k0) as [->|Hne].
    + injection Hl as ->. right. now left.
    + left. apply IH. destruct (Nat.leb _ _); [|exact Hl].
      destruct (app_snoc_cases (lru_keep_of cap h)) as [H|[l' [x Hx]]]; [now rewrite H in Hl|].
      rewrite Hx, removelast_last in Hl. rewrite (mget_removelast _ _ _ _ Hx Hnd) in Hl.
      destruct (String.eqb k (fst x)); [discriminate|exact Hl].
Qed.
Print Assumptions C31_get_only_stored.

(** When the cache is full and a new key is stored, exactly one key leaves: the
    one that was used least recently; everything else is unchanged. *)
Theorem C31_evicts_least_recently_used :
  forall (V : Type) (cap : nat) (h : list (cop V)) (c c' : lru V) k v,
    1 <= cap ->
    cexec (NewLRUCache cap) h = Val c -> List.length (l_map c) = cap -> lookup c k = None ->
    Put c k v = Val c' ->
    exists d, lookup c d <> None /\
      (forall x, x <> d -> lookup c x <> None -> fresher h x d) /\
      (forall x, lookup c' x = if String.eqb x k then Some v
                               else if String.eqb x d then None else lookup c x).
Proof.
  intros V cap h c c' k v Hc He Hfull Habs Hput.
  destruct (history_rep cap h Hc) as [c0 [ns [H1 [H2 [R [Hsz Hs]]]]]].
  rewrite H1 in He. injection He as ->.
  rewrite (rep_size _ _ _ R) in Hfull.
  pose proof (rep_keys _ _ _ R) as Hnd.
  destruct (app_snoc_cases (lru_keep_of cap h)) as [H|[l' [[d vd] Hx]]]; [rewrite H in Hfull; cbn in Hfull; lia|].
  destruct (Put_rep c ns _ k v ltac:(lia) R ltac:(lia)) as [c'' [ns' [Hp [_ R']]]].
  rewrite Hput in Hp. injection Hp as <-.
  rewrite (lookup_rep _ _ _ _ R) in Habs.
  exists d. split; [|split].
  - rewrite (lookup_rep _ _ _ _ R). assert (E : mget d (lru_keep_of cap h) = Some vd); [|congruence]. apply In_mget; [exact Hnd|].
    rewrite Hx. apply in_or_app. right. now left.
  - intros x Hne Hpres. rewrite (lookup_rep _ _ _ _ R) in Hpres.
    apply (keep_older cap h l' [(d, vd)]); [exact Hx| |now left].
    assert (Hin : In x (mkeys (lru_keep_of cap h))).
    { destruct (mget x (lru_keep_of cap h)) as [vx|] eqn:E; [|congruence]. apply mget_In in E.
      apply in_map_iff. now exists (x, vx). }
    rewrite Hx in Hin. unfold mkeys in Hin. rewrite map_app in Hin. apply in_app_or in Hin as [Hin|[Hin|[]]]; [exact Hin|].
    cbn in Hin. congruence.
  - intros x. rewrite (lookup_rep _ _ _ _ R'), (lookup_rep _ _ _ _ R). unfold lru_put_keep. rewrite Habs, H2, Hfull, Nat.leb_refl.
    rewrite Hx at 1. rewrite removelast_last. cbn [mget]. destruct (String.eqb_spec x k) as [->|Hne]; [reflexivity|].
    apply (mget_removelast _ _ _ _ Hx Hnd).
Qed.
Print Assumptions C31_evicts_least_recently_used.

(** Nothing is evicted while there is room, and a read changes no answer. *)
Theorem C31_no_other_eviction :
  forall (V : Type) (cap : nat) (h : list (cop V)) (c : lru V),
    1 <= cap -> cexec (NewLRUCache cap) h = Val c ->
    (forall k v, lookup c k = None -> List.length (l_map c) < cap ->
       exists c', Put c k v = Val c' /\
         forall x, lookup c' x = if String.eqb x k then Some v else lookup c x) /\
    (forall k v, lookup c k <> None ->
       exists c', Put c k v = Val c' /\ forall x, lookup c' x = lookup c x) /\
    (forall k, exists c', Get c k = Val (c', lookup c k) /\ forall x, lookup c' x = lookup c x).
Proof.
  intros V cap h c Hc He. destruct (history_rep cap h Hc) as [c0 [ns [H1 [H2 [R [Hsz Hs]]]]]].
  rewrite H1 in He. injection He as ->. pose proof (rep_size _ _ _ R) as Hlen.
  assert (Hdel : forall k0 v0 x, mget k0 (lru_keep_of cap h) = Some v0 ->
    mget x ((k0, v0) :: mdel k0 (lru_keep_of cap h)) = mget x (@lru_keep_of V cap h)).
  { intros k0 v0 x E. cbn. destruct (String.eqb_spec x k0) as [->|Hne]; [congruence|].
    now rewrite mget_del_neq. }
  split; [|split].
  - intros k v Habs Hroom. rewrite (lookup_rep _ _ _ _ R) in Habs.
    destruct (Put_rep c ns _ k v ltac:(lia) R ltac:(lia)) as [c' [ns' [Hp [_ R']]]].
    exists c'. split; [exact Hp|]. intros x. rewrite (lookup_rep _ _ _ _ R'), (lookup_rep _ _ _ _ R).
    unfold lru_put_keep. rewrite Habs. destruct (Nat.leb_spec (l_cap c) (List.length (lru_keep_of cap h))); [lia|reflexivity].
  - intros k v Hpres. rewrite (lookup_rep _ _ _ _ R) in Hpres.
    destruct (Put_rep c ns _ k v ltac:(lia) R ltac:(lia)) as [c' [ns' [Hp [_ R']]]].
    exists c'. split; [exact Hp|]. intros x. rewrite (lookup_rep _ _ _ _ R'), (lookup_rep _ _ _ _ R).
    unfold lru_put_keep. destruct (mget k (lru_keep_of cap h)) eqn:E; [|congruence]. now apply Hdel.
  - intros k. destruct (Get_rep c ns _ k R) as [c' [ns' [Hg [_ R']]]].
    exists c'. split; [now rewrite (lookup_rep _ _ _ _ R)|]. intros x.
    rewrite (lookup_rep _ _ _ _ R'), (lookup_rep _ _ _ _ R). unfold touch.
    destruct (mget k (lru_keep_of cap h)) eqn:E; [now apply Hdel|reflexivity].
Qed.
Print Assumptions C31_no_other_eviction.

(** The bound on the capacity is needed: with capacity 0 the first Put crashes. *)
Theorem C31_capacity_zero_panics :
  forall (V : Type) k (v : V), Put (NewLRUCache 0) k v = Panic.
Proof. reflexivity. Qed.
Print Assumptions C31_capacity_zero_panics.

(** A full cache that evicts "b" although "a" was stored first. *)
Example C31_example :
  let h := [CPut "a" 1; CPut "b" 2; CGet "a"] in
  exists c c', cexec (NewLRUCache 2) h = Val c /\ List.length (l_map c) = 2 /\ lookup c "c" = None /\
    Put c "c" 3 = Val c' /\ lookup c' "b" = None /\ lookup c' "a" = Some 1 /\ lookup c' "c" = Some 3.
Proof. do 2 eexists. vm_compute. repeat split. Qed.

(** ** C32: Get returns the last Put. *)

(** False: a second Put of a present key keeps the old value. *)
Theorem C32_last_put_refuted :
  ~ (forall (V : Type) (cap : nat) (h : list (cop V)) (c c' : lru V) k v,
       1 <= cap -> cexec (NewLRUCache cap) h = Val c -> Put c k v = Val c' ->
       lookup c' k = Some v).
Proof.
  intros H.
  assert (E : exists c c', cexec (NewLRUCache 2) [CPut "k" 1] = Val c /\ Put c "k" 2 = Val c' /\
                           lookup c' "k" = Some 1).
  { do 2 eexists. vm_compute. repeat split. }
  destruct E as [c [c' [E1 [E2 E3]]]].
  specialize (H nat 2 [CPut "k" 1] c c' "k" 2 ltac:(lia) E1 E2). congruence.
Qed.
Print Assumptions C32_last_put_refuted.

(** Exactly what a Put does: the new value is visible if and only if the key
    was absent or already held that value; a present key keeps its value. *)
Theorem C32_first_value_wins :
  forall (V : Type) (cap : nat) (h : list (cop V)) (c : lru V) k v,
    1 <= cap -> cexec (NewLRUCache cap) h = Val c ->
    exists c', Put c k v = Val c' /\
      lookup c' k = match lookup c k with None => Some v | Some old => Some old end.
Proof.
  intros V cap h c k v Hc He. destruct (history_rep cap h Hc) as [c0 [ns [H1 [H2 [R [Hsz Hs]]]]]].
  rewrite H1 in He. injection He as ->.
  destruct (Put_rep c ns _ k v ltac:(lia) R ltac:(lia)) as [c' [ns' [Hp [_ R']]]].
  exists c'. split; [exact Hp|]. rewrite (lookup_rep _ _ _ _ R'), (lookup_rep _ _ _ _ R).
  unfold lru_put_keep. destruct (mget k (lru_keep_of cap h)); cbn; now rewrite String.eqb_refl.
Qed.
Print Assumptions C32_first_value_wins.

(** Partial: for a cache used as a memo table (every Put of a key stores the
    same value), Get returns the last Put as long as the key is not evicted. *)
Theorem C32_last_put_partial :
  forall (V : Type) (cap : nat) (h : list (cop V)) (c c' : lru V) k v,
    1 <= cap -> cexec (NewLRUCache cap) h = Val c ->
    (forall v', In (CPut k v') h -> v' = v) ->
    Put c k v = Val c' -> lookup c' k = Some v.
Proof.
  intros V cap h c c' k v Hc He Hm Hp.
  destruct (C32_first_value_wins V cap h c k v Hc He) as [c1 [Hp1 Hl]].
  rewrite Hp in Hp1. injection Hp1 as <-. rewrite Hl.
  destruct (lookup c k) as [old|] eqn:E; [|reflexivity].
  f_equal. apply Hm. eapply C31_get_only_stored; eauto.
Qed.
Print Assumptions C32_last_put_partial.

Example C32_example :
  let h := [CPut "k" 7; CGet "k"; CPut "j" 8] in
  exists c, cexec (NewLRUCache 2) h = Val c /\ (forall v', In (CPut "k" v') h -> v' = 7) /\ lookup c "k" = Some 7.
Proof.
  eexists. split; [vm_compute; reflexivity|]. split; [|vm_compute; reflexivity].
  cbn. intuition congruence.
Qed.
