(** Lemmas about interleaved calls on the synchronised cache. *)
From Verif Require Import GoBase GoBaseP CacheM CacheSpec CacheP SyncCacheM.

Section P.
  Context {V : Type}.
  Implicit Types (c : lru V) (h : list (node V)).

  (** ** Keys and values of nodes never change *)
  Definition kv h (a : nat) : option (option string * option V) := option_map (fun n => (n_key n, n_value n)) (nth_error h a).
  Lemma nth_upd h a b f : nth_error (CacheM.upd h a f) b = if Nat.eqb a b then option_map f (nth_error h b) else nth_error h b.
  Proof.
    revert a b. induction h as [|x h IH]; intros [|a] [|b]; cbn; try reflexivity; [now destruct (Nat.eqb a b)|]. apply IH.
  Qed.
  Lemma kv_upd h a b f : (forall n, n_key (f n) = n_key n /\ n_value (f n) = n_value n) -> kv (CacheM.upd h a f) b = kv h b.
  Proof.
    intros F. unfold kv. rewrite nth_upd. destruct (Nat.eqb a b); [|reflexivity]. destruct (nth_error h b) as [n|]; [|reflexivity]. cbn.
    destruct (F n) as [-> ->]. reflexivity.
  Qed.
  Definition kept h h' : Prop := List.length h' = List.length h /\ forall a, kv h' a = kv h a.
  Lemma kept_refl h : kept h h. Proof. split; auto. Qed.
  Lemma kept_trans h h' h'' : kept h h' -> kept h' h'' -> kept h h''.
  Proof. intros [A B] [A' B']. split; [congruence|]. intros a. now rewrite B', B. Qed.
  Lemma upd_len h a f : List.length (CacheM.upd h a f) = List.length h.
  Proof. revert a. induction h as [|x h IH]; intros [|a]; cbn; auto. Qed.
  Lemma deref_val h p a n : deref h p = Val (a, n) <-> p = Some a /\ nth_error h a = Some n.
  Proof.
    unfold deref. destruct p as [b|]; [|split; [discriminate|intros [H _]; discriminate]].
    destruct (nth_error h b) eqn:E; split; intros H; try discriminate.
    - injection H as <- <-. auto.
    - destruct H as [H1 H2]. injection H1 as ->. congruence.
    - destruct H as [H1 H2]. injection H1 as ->. congruence.
  Qed.
  Lemma set_next_val h p q h' : set_next h p q = Val h' ->
    exists a, p = Some a /\ a < List.length h /\ h' = CacheM.upd h a (fun n => mkNode (n_key n) (n_value n) (n_prev n) q).
  Proof.
    unfold set_next. destruct (deref h p) as [[a n]|] eqn:E; [|discriminate]. cbn. intros H. injection H as <-.
    apply deref_val in E as [-> E]. exists a. split; [reflexivity|]. split; [|reflexivity]. apply nth_error_Some. congruence.
  Qed.
  Lemma set_prev_val h p q h' : set_prev h p q = Val h' ->
    exists a, p = Some a /\ a < List.length h /\ h' = CacheM.upd h a (fun n => mkNode (n_key n) (n_value n) q (n_next n)).
  Proof.
    unfold set_prev. destruct (deref h p) as [[a n]|] eqn:E; [|discriminate]. cbn. intros H. injection H as <-.
    apply deref_val in E as [-> E]. exists a. split; [reflexivity|]. split; [|reflexivity]. apply nth_error_Some. congruence.
  Qed.
  Lemma kept_next h p q h' : set_next h p q = Val h' -> kept h h'.
  Proof. intros H. apply set_next_val in H as [a [_ [_ ->]]]. split; [apply upd_len|]. intros b. apply kv_upd. auto. Qed.
  Lemma kept_prev h p q h' : set_prev h p q = Val h' -> kept h h'.
  Proof. intros H. apply set_prev_val in H as [a [_ [_ ->]]]. split; [apply upd_len|]. intros b. apply kv_upd. auto. Qed.
  Ltac stepb H := match type of H with obind ?o _ = _ => destruct o eqn:?; cbn [obind] in H; [|discriminate H] end.
  Lemma kept_unlink h n h' : unlink h n = Val h' -> kept h h'.
  Proof.
    unfold unlink. intros H. repeat stepb H. apply kept_prev in H.
    match goal with E : set_next _ _ _ = _ |- _ => apply kept_next in E; eapply kept_trans; eauto end.
  Qed.
  Lemma kept_link h n h' : link h n = Val h' -> kept h h'.
  Proof.
    unfold link. intros H. repeat stepb H. apply kept_prev in H.
    repeat match goal with E : set_next _ _ _ = _ |- _ => apply kept_next in E | E : set_prev _ _ _ = _ |- _ => apply kept_prev in E end.
    eauto using kept_trans.
  Qed.

  (** The map leads from a key to a node with that key and a stored value. *)
  Variable stored : string -> V -> Prop.
  Definition entry c (k : string) (n : nat) : Prop := exists v, kv (l_heap c) n = Some (Some k, Some v) /\ stored k v.
  Definition sane c : Prop := forall k n, mget k (l_map c) = Some n -> entry c k n.
  (** Nodes stay. *)
  Definition grows c c' : Prop := forall a x, kv (l_heap c) a = Some x -> kv (l_heap c') a = Some x.
  Lemma grows_refl c : grows c c. Proof. intros a x H. exact H. Qed.
  Lemma grows_entry c c' k n : grows c c' -> entry c k n -> entry c' k n.
  Proof. intros G [v [H S]]. exists v. split; [now apply G|exact S]. Qed.
  Lemma kept_grows c c' : kept (l_heap c) (l_heap c') -> grows c c'.
  Proof. intros [_ K] a x H. now rewrite K. Qed.
  Lemma sane_keep c c' : kept (l_heap c) (l_heap c') -> l_map c' = l_map c -> sane c -> sane c'.
  Proof. intros K M S k n H. rewrite M in H. eapply grows_entry; [apply kept_grows; exact K|now apply S]. Qed.

  Lemma remove_inv c n b c' : CacheM.remove c n b = Val c' -> kept (l_heap c) (l_heap c') /\ (sane c -> sane c').
  Proof.
    unfold CacheM.remove. intros H. stepb H. stepb H. injection H as <-. match goal with E : unlink _ _ = _ |- _ => apply kept_unlink in E; rename E into K end.
    split; [exact K|]. intros S k m Hm. cbn [l_map] in Hm. apply (grows_entry c); [apply kept_grows; exact K|].
    destruct b; [now apply S|]. destruct (n_key _) as [k0|]; [|now apply S]. rewrite mget_del in Hm. destruct (String.eqb k k0) eqn:Ek; [discriminate|]. now apply S.
  Qed.
  Lemma add_inv c n b c' : add c n b = Val c' ->
    kept (l_heap c) (l_heap c') /\ (sane c -> (forall k, n_key (match nth_error (l_heap c) n with Some x => x | None => mkNode None None None None end) = Some k -> entry c k n) -> sane c').
  Proof.
    unfold add. intros H. stepb H. stepb H. injection H as <-. match goal with E : link _ _ = _ |- _ => apply kept_link in E; rename E into K end.
    match goal with E : deref _ _ = Val ?x |- _ => destruct x as [an n0]; apply deref_val in E as [E0 En] end. injection E0 as <-.
    split; [exact K|]. intros S He k m Hm. cbn [l_map snd] in Hm. apply (grows_entry c); [apply kept_grows; exact K|].
    rewrite En in He. destruct b; [now apply S|]. destruct (n_key n0) as [k0|]; [|now apply S].
    rewrite mget_put in Hm. destruct (String.eqb_spec k k0) as [->|]; [injection Hm as <-; now apply He|now apply S].
  Qed.
  Lemma put_inv c k v c' : stored k v -> sane c -> Put c k v = Val c' -> sane c' /\ grows c c'.
  Proof.
    intros Sv S H. unfold Put in H. destruct (mget k (l_map c)) as [n|] eqn:Em.
    - stepb H. match goal with E : CacheM.remove _ _ _ = _ |- _ => apply remove_inv in E as [K S1] end. apply add_inv in H as [K2 S2].
      split; [|apply kept_grows; eapply kept_trans; eauto]. apply S2; [now apply S1|]. intros k1 Hk1.
      destruct (S _ _ Em) as [w [Hw Sw]].
      assert (Hw' : kv (l_heap a) n = Some (Some k, Some w)) by (destruct K as [_ K]; now rewrite K).
      unfold kv in Hw'. destruct (nth_error (l_heap a) n) as [x|] eqn:En; [|discriminate]. cbn in Hw'. injection Hw' as Hx Hy.
      rewrite Hx in Hk1. injection Hk1 as <-. exists w. split; [|exact Sw]. unfold kv. rewrite En. cbn. now rewrite Hx, Hy.
    - stepb H. set (c0 := mkLru (l_cap c) (l_map c) (l_heap c ++ [mkNode (Some k) (Some v) None None])) in *.
      assert (G0 : grows c c0).
      { intros b x Hx. unfold kv in *. cbn. rewrite nth_error_app1; [exact Hx|]. apply nth_error_Some. destruct (nth_error (l_heap c) b); [discriminate|discriminate Hx]. }
      assert (S0 : sane c0) by (intros k1 n1 H1; apply (grows_entry c); [exact G0|now apply S]).
      assert (Kn : kv (l_heap c0) (List.length (l_heap c)) = Some (Some k, Some v)).
      { unfold kv. cbn. rewrite nth_error_app2, Nat.sub_diag by lia. reflexivity. }
      assert (X : kept (l_heap c0) (l_heap a) /\ sane a).
      { match goal with E : (if ?b then _ else _) = Val a |- _ => destruct b; [|injection E as <-; split; [apply kept_refl|exact S0]]; stepb E; apply remove_inv in E as [K1 S1] end.
        split; [exact K1|now apply S1]. }
      destruct X as [K1 S1]. apply add_inv in H as [K2 S2]. split.
      + apply S2; [exact S1|]. intros k1 Hk1. assert (Kn' : kv (l_heap a) (List.length (l_heap c)) = Some (Some k, Some v)) by (destruct K1 as [_ K1]; now rewrite K1).
        pose proof Kn' as Kn2. unfold kv in Kn'. destruct (nth_error (l_heap a) (List.length (l_heap c))) as [x|]; [|discriminate]. cbn in Kn'. injection Kn' as Hx _.
        rewrite Hx in Hk1. injection Hk1 as <-. exists v. split; [exact Kn2|exact Sv].
      + intros b x Hx. apply (kept_grows a c' K2). apply (kept_grows c0 a K1). now apply G0.
  Qed.
End P.

(** ** Calls in progress

    [ok I Q res p]: as long as [I] and [Q] hold before each access, [p] keeps
    [I] and hands out only results in [res]; [T]: and it does not panic. *)
Section Ok.
  Context {V : Type} (T : Prop) (I : lru V -> Prop) (R : lru V -> lru V -> Prop) (Q : lru V -> Prop) (res : option V -> Prop).
  Inductive ok : prog V -> Prop :=
  | ok_done r : res r -> ok (Done r)
  | ok_access f : (forall c, I c -> Q c -> T -> f c <> Panic) ->
      (forall c c' p, I c -> Q c -> f c = Val (c', p) -> I c' /\ R c c' /\ ok p) -> ok (Access f).
End Ok.

(** Running a call alone. *)
Fixpoint run_alone {V} (p : prog V) (c : lru V) {struct p} : outcome (lru V * option V) :=
  match p with
  | Done r => Val (c, r)
  | Access f => match f c with Panic => Panic | Val (c', p') => run_alone p' c' end
  end.
Lemma obind_assoc {A B C} (o : outcome A) (f : A -> outcome B) (g : B -> outcome C) : obind (obind o f) g = obind o (fun x => obind (f x) g).
Proof. now destruct o. Qed.
Lemma run_get {V} k (c : lru V) : run_alone (get_prog k) c = Get c k.
Proof.
  unfold get_prog, look_map, Get. cbn [run_alone]. destruct (mget k (l_map c)) as [n|]; [|reflexivity].
  destruct c as [cap m h]. unfold moveToHead, CacheM.remove, add, unlink, link, remove_prog, add_prog, load_prev, load_next, store_next, store_prev, load_value.
  unfold get_prev, get_next. cbn [l_heap l_map l_cap].
  destruct (deref h (Some n)) as [[a x]|] eqn:E1; cbn [obind run_alone l_heap l_map l_cap snd fst]; rewrite ?E1; cbn [obind run_alone l_heap l_map l_cap snd fst]; [|reflexivity].
  rewrite E1. cbn [obind run_alone l_heap l_map l_cap snd fst].
  destruct (set_next h (n_prev x) (n_next x)) as [h1|] eqn:E2; cbn [obind run_alone l_heap l_map l_cap snd fst]; [|reflexivity].
  destruct (deref h1 (Some n)) as [[a1 x1]|] eqn:E3; cbn [obind run_alone l_heap l_map l_cap snd fst]; rewrite ?E3; cbn [obind run_alone l_heap l_map l_cap snd fst]; [|reflexivity].
  destruct (set_prev h1 (n_next x1) (n_prev x1)) as [h2|] eqn:E4; cbn [obind run_alone l_heap l_map l_cap snd fst]; [|reflexivity].
  assert (D2 : exists y, deref h2 (Some n) = Val y).
  { apply deref_val in E3 as [E3 E3']. apply kept_prev in E4 as [E4 _]. injection E3 as <-. unfold deref.
    destruct (nth_error h2 n) eqn:X; [eauto|]. apply nth_error_None in X. assert (n < List.length h1) by (apply nth_error_Some; congruence). lia. }
  destruct D2 as [y D2]. rewrite D2. cbn [obind].
  destruct (deref h2 (Some a_head)) as [[a2 x2]|]; cbn [obind run_alone l_heap l_map l_cap snd fst]; [|reflexivity].
  destruct (set_next h2 (Some a_head) (Some n)) as [h3|]; cbn [obind run_alone l_heap l_map l_cap snd fst]; [|reflexivity].
  destruct (set_prev h3 (n_next x2) (Some n)) as [h4|]; cbn [obind run_alone l_heap l_map l_cap snd fst]; [|reflexivity].
  destruct (set_next h4 (Some n) (n_next x2)) as [h5|]; cbn [obind run_alone l_heap l_map l_cap snd fst]; [|reflexivity].
  destruct (set_prev h5 (Some n) (Some a_head)) as [h6|]; cbn [obind run_alone l_heap l_map l_cap snd fst]; [|reflexivity].
  destruct (deref h6 (Some n)) as [[a3 x3]|]; reflexivity.
Qed.
