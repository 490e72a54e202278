(** The pointer-level cache refines a list of entries. *)
From Verif Require Import GoBase GoBaseP CacheM CacheSpec.

Section CacheP.
  Context {V : Type}.
  Notation node := (node V).
  Notation lru := (lru V).

  Lemma Forall2_len {A B} (R : A -> B -> Prop) l l' : Forall2 R l l' -> List.length l = List.length l'.
  Proof. induction 1; cbn; congruence. Qed.

  (** ** Heap updates *)
  Lemma upd_length (h : list node) a f : List.length (upd h a f) = List.length h.
  Proof. revert a. induction h as [|x h IH]; intros [|a]; cbn; auto. Qed.

  Lemma nth_upd_eq (h : list node) a f n :
    nth_error h a = Some n -> nth_error (upd h a f) a = Some (f n).
  Proof.
    revert a. induction h as [|x h IH]; intros [|a]; cbn; intros H; try discriminate.
    - now injection H as ->.
    - now apply IH.
  Qed.

  Lemma nth_upd_neq (h : list node) a b f : a <> b -> nth_error (upd h a f) b = nth_error h b.
  Proof.
    revert a b. induction h as [|x h IH]; intros [|a] [|b] H; cbn; try reflexivity; try congruence.
    apply IH. congruence.
  Qed.

  Definition nx (h : list node) (a : nat) : option nat :=
    match nth_error h a with Some n => n_next n | None => None end.
  Definition pv (h : list node) (a : nat) : option nat :=
    match nth_error h a with Some n => n_prev n | None => None end.
  Definition ky (h : list node) (a : nat) : option string :=
    match nth_error h a with Some n => n_key n | None => None end.
  Definition vl (h : list node) (a : nat) : option V :=
    match nth_error h a with Some n => n_value n | None => None end.

  Definition inh (h : list node) (a : nat) : Prop := a < List.length h.

  Lemma inh_node h a : inh h a -> exists n, nth_error h a = Some n.
  Proof.
    intros H. destruct (nth_error h a) eqn:E; [eauto|]. apply nth_error_None in E. unfold inh in H. lia.
  Qed.

  Lemma get_next_ok h a : inh h a -> get_next h (Some a) = Val (nx h a).
  Proof. intros H. destruct (inh_node h a H) as [n Hn]. unfold get_next, nx. cbn. now rewrite Hn. Qed.
  Lemma get_prev_ok h a : inh h a -> get_prev h (Some a) = Val (pv h a).
  Proof. intros H. destruct (inh_node h a H) as [n Hn]. unfold get_prev, pv. cbn. now rewrite Hn. Qed.

  Definition setn (h : list node) (a : nat) (q : option nat) : list node :=
    upd h a (fun n => mkNode (n_key n) (n_value n) (n_prev n) q).
  Definition setp (h : list node) (a : nat) (q : option nat) : list node :=
    upd h a (fun n => mkNode (n_key n) (n_value n) q (n_next n)).

  Lemma set_next_ok h a q : inh h a -> set_next h (Some a) q = Val (setn h a q).
  Proof. intros H. destruct (inh_node h a H) as [n Hn]. unfold set_next. cbn. now rewrite Hn. Qed.
  Lemma set_prev_ok h a q : inh h a -> set_prev h (Some a) q = Val (setp h a q).
  Proof. intros H. destruct (inh_node h a H) as [n Hn]. unfold set_prev. cbn. now rewrite Hn. Qed.

  Lemma inh_setn h a q b : inh h b -> inh (setn h a q) b.
  Proof. unfold inh, setn. now rewrite upd_length. Qed.
  Lemma inh_setp h a q b : inh h b -> inh (setp h a q) b.
  Proof. unfold inh, setp. now rewrite upd_length. Qed.

  Lemma nx_setn h a q b : inh h a -> nx (setn h a q) b = if Nat.eqb a b then q else nx h b.
  Proof.
    intros H. unfold nx, setn. destruct (Nat.eqb_spec a b) as [<-|Hne].
    - destruct (inh_node h a H) as [n Hn]. now rewrite (nth_upd_eq _ _ _ _ Hn).
    - now rewrite nth_upd_neq.
  Qed.
  Lemma nx_setp h a q b : nx (setp h a q) b = nx h b.
  Proof.
    unfold nx, setp. destruct (Nat.eq_dec a b) as [<-|Hne].
    - destruct (nth_error h a) eqn:E; [now rewrite (nth_upd_eq _ _ _ _ E)|].
      assert (H : nth_error (upd h a (fun n => mkNode (n_key n) (n_value n) q (n_next n))) a = None).
      { apply nth_error_None. rewrite upd_length. now apply nth_error_None. }
      now rewrite H.
    - now rewrite nth_upd_neq.
  Qed.
  Lemma pv_setp h a q b : inh h a -> pv (setp h a q) b = if Nat.eqb a b then q else pv h b.
  Proof.
    intros H. unfold pv, setp. destruct (Nat.eqb_spec a b) as [<-|Hne].
    - destruct (inh_node h a H) as [n Hn]. now rewrite (nth_upd_eq _ _ _ _ Hn).
    - now rewrite nth_upd_neq.
  Qed.
  Lemma pv_setn h a q b : pv (setn h a q) b = pv h b.
  Proof.
    unfold pv, setn. destruct (Nat.eq_dec a b) as [<-|Hne].
    - destruct (nth_error h a) eqn:E; [now rewrite (nth_upd_eq _ _ _ _ E)|].
      assert (H : nth_error (upd h a (fun n => mkNode (n_key n) (n_value n) (n_prev n) q)) a = None).
      { apply nth_error_None. rewrite upd_length. now apply nth_error_None. }
      now rewrite H.
    - now rewrite nth_upd_neq.
  Qed.

  Lemma ky_upd h a f b : (forall n, n_key (f n) = n_key n) -> ky (upd h a f) b = ky h b.
  Proof.
    intros Hf. unfold ky. destruct (Nat.eq_dec a b) as [<-|Hne]; [|now rewrite nth_upd_neq].
    destruct (nth_error h a) eqn:E; [rewrite (nth_upd_eq _ _ _ _ E); apply Hf|].
    assert (H : nth_error (upd h a f) a = None).
    { apply nth_error_None. rewrite upd_length. now apply nth_error_None. }
    now rewrite H.
  Qed.
  Lemma vl_upd h a f b : (forall n, n_value (f n) = n_value n) -> vl (upd h a f) b = vl h b.
  Proof.
    intros Hf. unfold vl. destruct (Nat.eq_dec a b) as [<-|Hne]; [|now rewrite nth_upd_neq].
    destruct (nth_error h a) eqn:E; [rewrite (nth_upd_eq _ _ _ _ E); apply Hf|].
    assert (H : nth_error (upd h a f) a = None).
    { apply nth_error_None. rewrite upd_length. now apply nth_error_None. }
    now rewrite H.
  Qed.

  (** Two heaps with the same keys and values. *)
  Definition same_data (h h' : list node) : Prop :=
    List.length h' = List.length h /\ (forall a, ky h' a = ky h a) /\ (forall a, vl h' a = vl h a).
  Lemma same_data_refl h : same_data h h.
  Proof. repeat split. Qed.
  Lemma same_data_trans h h' h'' : same_data h h' -> same_data h' h'' -> same_data h h''.
  Proof.
    intros [L1 [K1 V1]] [L2 [K2 V2]]. split; [congruence|].
    split; intros; [rewrite K2|rewrite V2]; auto.
  Qed.
  Lemma same_data_setn h a q : same_data h (setn h a q).
  Proof. repeat split; intros; unfold setn; [apply upd_length|apply ky_upd|apply vl_upd]; reflexivity. Qed.
  Lemma same_data_setp h a q : same_data h (setp h a q).
  Proof. repeat split; intros; unfold setp; [apply upd_length|apply ky_upd|apply vl_upd]; reflexivity. Qed.

  (** ** Linked lists *)
  Fixpoint linked (h : list node) (l : list nat) : Prop :=
    match l with
    | a :: l' => match l' with
                 | b :: _ => nx h a = Some b /\ pv h b = Some a /\ linked h l'
                 | [] => True
                 end
    | [] => True
    end.

  Lemma linked_cons h a b l : linked h (a :: b :: l) <-> nx h a = Some b /\ pv h b = Some a /\ linked h (b :: l).
  Proof. reflexivity. Qed.

  Lemma linked_app h l1 a l2 : linked h (l1 ++ a :: l2) <-> linked h (l1 ++ [a]) /\ linked h (a :: l2).
  Proof.
    induction l1 as [|x l1 IH]; cbn [app].
    - split; [intros H; split; [exact I|exact H]|intros [_ H]; exact H].
    - destruct l1 as [|y l1]; cbn [app] in *.
      + rewrite !linked_cons. cbn. tauto.
      + rewrite (linked_cons h x y (l1 ++ a :: l2)), (linked_cons h x y (l1 ++ [a])), IH. tauto.
  Qed.

  (** Only the links inside the list matter. *)
  Lemma linked_frame h h' l :
    (forall a b, In a l -> In b l -> nx h a = Some b -> nx h' a = Some b) ->
    (forall a b, In a l -> In b l -> pv h b = Some a -> pv h' b = Some a) ->
    linked h l -> linked h' l.
  Proof.
    induction l as [|a l IH]; [easy|]. destruct l as [|b l]; [easy|].
    intros Hn Hp. rewrite !linked_cons. intros [H1 [H2 H3]].
    split; [apply Hn; cbn; auto|]. split; [apply Hp; cbn; auto|].
    apply IH; [intros; apply Hn; cbn; auto..|intros; apply Hp; cbn; auto|exact H3].
  Qed.

  (** Removing a node from a chain. *)
  Lemma unlink_ok h l1 p n q l2 :
    NoDup (l1 ++ p :: n :: q :: l2) ->
    Forall (inh h) (l1 ++ p :: n :: q :: l2) ->
    linked h (l1 ++ p :: n :: q :: l2) ->
    exists h', unlink h (Some n) = Val h' /\ same_data h h' /\
      linked h' (l1 ++ p :: q :: l2) /\
      h' = setp (setn h p (Some q)) q (Some p).
  Proof.
    intros Hnd Hin Hl.
    assert (Hipn : inh h p /\ inh h n /\ inh h q).
    { rewrite Forall_forall in Hin. repeat split; apply Hin; apply in_or_app; right; cbn; auto. }
    destruct Hipn as [Hip [Hin' Hiq]].
    pose proof (proj1 (linked_app h l1 p (n :: q :: l2)) Hl) as [Hl1 Hl2].
    rewrite linked_cons in Hl2. destruct Hl2 as [Hpn [Hnp Hl2]].
    rewrite linked_cons in Hl2. destruct Hl2 as [Hnq [Hqn Hl2]].
    assert (Hne : p <> n /\ p <> q /\ n <> q /\ ~ In p (q :: l2) /\ ~ In p l1 /\ ~ In q l1 /\ ~ In q l2 /\ ~ In n l1).
    { pose proof (NoDup_remove _ _ _ Hnd) as [Hr1 Hr2].
      rewrite in_app_iff in Hr2. cbn in Hr2.
      change (l1 ++ p :: n :: q :: l2) with (l1 ++ [p] ++ n :: q :: l2) in Hnd.
      rewrite app_assoc in Hnd. pose proof (NoDup_remove _ _ _ Hnd) as [Hr3 Hr4].
      rewrite !in_app_iff in Hr4. cbn in Hr4.
      change (n :: q :: l2) with ([n] ++ q :: l2) in Hnd. rewrite app_assoc in Hnd.
      pose proof (NoDup_remove _ _ _ Hnd) as [Hr5 Hr6]. rewrite !in_app_iff in Hr6. cbn in Hr6.
      cbn. firstorder congruence. }
    destruct Hne as (N1 & N2 & N3 & N4 & N5 & N6 & N7 & N8).
    set (h1 := setn h p (Some q)). set (h2 := setp h1 q (Some p)).
    exists h2. split; [|split; [|split; [|reflexivity]]].
    - unfold unlink. rewrite get_prev_ok by assumption. rewrite Hnp. cbn [obind].
      rewrite get_next_ok by assumption. rewrite Hnq. cbn [obind].
      rewrite set_next_ok by assumption. cbn [obind]. fold h1.
      rewrite get_next_ok by (now apply inh_setn). unfold h1 at 1. rewrite nx_setn by assumption.
      destruct (Nat.eqb_spec p n); [congruence|]. rewrite Hnq. cbn [obind].
      rewrite get_prev_ok by (now apply inh_setn). unfold h1 at 1. rewrite pv_setn, Hnp. cbn [obind].
      apply set_prev_ok. now apply inh_setn.
    - eapply same_data_trans; [apply same_data_setn|apply same_data_setp].
    - assert (Hiq1 : inh h1 q) by (now apply inh_setn).
      assert (Hnx : forall b, nx h2 b = if Nat.eqb p b then Some q else nx h b).
      { intros b. unfold h2. rewrite nx_setp. unfold h1. now apply nx_setn. }
      assert (Hpv : forall b, pv h2 b = if Nat.eqb q b then Some p else pv h b).
      { intros b. unfold h2. rewrite pv_setp by assumption. unfold h1. now rewrite pv_setn. }
      apply linked_app. split.
      + apply linked_frame with (h := h); [| |exact Hl1].
        * intros a b Ha Hb Hab. rewrite Hnx. destruct (Nat.eqb_spec p a) as [<-|]; [|exact Hab].
          exfalso. rewrite Hpn in Hab. injection Hab as <-.
          apply in_app_or in Hb as [Hb|[Hb|[]]]; congruence.
        * intros a b Ha Hb Hab. rewrite Hpv. destruct (Nat.eqb_spec q b) as [<-|]; [|exact Hab].
          exfalso. apply in_app_or in Hb as [Hb|[Hb|[]]]; congruence.
      + rewrite linked_cons. rewrite Hnx, Hpv, !Nat.eqb_refl.
        split; [reflexivity|]. split; [reflexivity|].
        apply linked_frame with (h := h); [| |exact Hl2].
        * intros a b Ha Hb Hab. rewrite Hnx. destruct (Nat.eqb_spec p a) as [<-|]; [contradiction|exact Hab].
        * intros a b Ha Hb Hab. rewrite Hpv. destruct (Nat.eqb_spec q b) as [<-|]; [|exact Hab].
          exfalso. rewrite Hqn in Hab. injection Hab as <-.
          pose proof (NoDup_remove_2 _ _ _ (eq_ind _ (fun x => NoDup x) Hnd ((l1 ++ [p]) ++ n :: q :: l2)
            ltac:(now rewrite <- app_assoc))) as Hx.
          apply Hx. rewrite in_app_iff. now right.
  Qed.

  (** Inserting a node after the head. *)
  Lemma link_ok h n q l2 :
    NoDup (a_head :: n :: q :: l2) ->
    Forall (inh h) (a_head :: n :: q :: l2) ->
    linked h (a_head :: q :: l2) ->
    exists h', link h (Some n) = Val h' /\ same_data h h' /\ linked h' (a_head :: n :: q :: l2).
  Proof.
    intros Hnd Hin Hl.
    assert (Hi : inh h a_head /\ inh h n /\ inh h q).
    { rewrite Forall_forall in Hin. repeat split; apply Hin; cbn; auto. }
    destruct Hi as [Hih [Hin' Hiq]].
    rewrite linked_cons in Hl. destruct Hl as [Hhq [Hqh Hl]].
    inversion Hnd as [|? ? Nh Hnd1]; subst. inversion Hnd1 as [|? ? Nn Hnd2]; subst.
    inversion Hnd2 as [|? ? Nq Hnd3]; subst.
    set (h1 := setn h a_head (Some n)). set (h2 := setp h1 q (Some n)).
    set (h3 := setn h2 n (Some q)). set (h4 := setp h3 n (Some a_head)).
    exists h4. split; [|split].
    - unfold link. rewrite get_next_ok by assumption. rewrite Hhq. cbn [obind].
      rewrite set_next_ok by assumption. cbn [obind]. fold h1.
      rewrite set_prev_ok by (now apply inh_setn). cbn [obind]. fold h2.
      rewrite set_next_ok by (now apply inh_setp, inh_setn). cbn [obind]. fold h3.
      apply set_prev_ok. now apply inh_setn, inh_setp, inh_setn.
    - eapply same_data_trans; [apply same_data_setn|].
      eapply same_data_trans; [apply same_data_setp|].
      eapply same_data_trans; [apply same_data_setn|apply same_data_setp].
    - assert (Hnx : forall b, nx h4 b = if Nat.eqb n b then Some q else if Nat.eqb a_head b then Some n else nx h b).
      { intros b. unfold h4. rewrite nx_setp. unfold h3. rewrite nx_setn by (now apply inh_setp, inh_setn).
        destruct (Nat.eqb n b); [reflexivity|]. unfold h2. rewrite nx_setp. unfold h1. now apply nx_setn. }
      assert (Hpv : forall b, pv h4 b = if Nat.eqb n b then Some a_head else if Nat.eqb q b then Some n else pv h b).
      { intros b. unfold h4. rewrite pv_setp by (now apply inh_setn, inh_setp, inh_setn).
        destruct (Nat.eqb n b); [reflexivity|]. unfold h3. rewrite pv_setn. unfold h2.
        rewrite pv_setp by (now apply inh_setn). destruct (Nat.eqb q b); [reflexivity|].
        unfold h1. apply pv_setn. }
      assert (Hnh : n <> a_head) by (intros ->; apply Nh; now left).
      rewrite linked_cons, Hnx, Hpv.
      destruct (Nat.eqb_spec n a_head); [congruence|]. rewrite !Nat.eqb_refl.
      split; [reflexivity|]. split; [reflexivity|].
      rewrite linked_cons, Hnx, Hpv, !Nat.eqb_refl.
      destruct (Nat.eqb_spec n q) as [->|]; [exfalso; apply Nn; now left|].
      split; [reflexivity|]. split; [reflexivity|].
      apply linked_frame with (h := h); [| |exact Hl].
      + intros a b Ha Hb Hab. rewrite Hnx. destruct (Nat.eqb_spec n a) as [<-|]; [contradiction|].
        destruct (Nat.eqb_spec a_head a) as [<-|]; [|exact Hab]. exfalso. apply Nh. now right.
      + intros a b Ha Hb Hab. rewrite Hpv. destruct (Nat.eqb_spec n b) as [<-|]; [contradiction|].
        destruct (Nat.eqb_spec q b) as [<-|]; [|exact Hab].
        exfalso. rewrite Hqh in Hab. injection Hab as <-. apply Nh. now right.
  Qed.

  (** ** Representation invariant *)

  (** [ns] are the addresses of the entries, most recently used first. *)
  Definition entry_at (h : list node) (a : nat) (kv : string * V) : Prop :=
    ky h a = Some (fst kv) /\ vl h a = Some (snd kv).

  Record rep (c : lru) (ns : list nat) (l : list (string * V)) : Prop := {
    rep_nodup : NoDup (a_head :: ns ++ [a_tail]);
    rep_inh : Forall (inh (l_heap c)) (a_head :: ns ++ [a_tail]);
    rep_linked : linked (l_heap c) (a_head :: ns ++ [a_tail]);
    rep_entries : Forall2 (entry_at (l_heap c)) ns l;
    rep_keys : NoDup (mkeys l);
    rep_mkeys : NoDup (mkeys (l_map c));
    rep_map : forall k a, mget k (l_map c) = Some a <-> In a ns /\ ky (l_heap c) a = Some k;
    rep_len : List.length (l_map c) = List.length ns
  }.

  Lemma rep_new cap : rep (NewLRUCache cap) [] [].
  Proof.
    constructor; cbn; auto.
    - constructor; [|constructor; [easy|constructor]]. intros [H|[]]. discriminate.
    - repeat constructor.
    - constructor.
    - constructor.
    - intros k a. split; [discriminate|intros [[] _]].
  Qed.

  Lemma entry_same_data h h' a kv : same_data h h' -> entry_at h a kv -> entry_at h' a kv.
  Proof. intros [_ [K Vv]] [H1 H2]. split; [now rewrite K|now rewrite Vv]. Qed.

  Lemma entries_same_data h h' ns l :
    same_data h h' -> Forall2 (entry_at h) ns l -> Forall2 (entry_at h') ns l.
  Proof. intros Hs H. induction H; constructor; eauto using entry_same_data. Qed.

  Lemma inh_same_data h h' ns : same_data h h' -> Forall (inh h) ns -> Forall (inh h') ns.
  Proof. intros [L _] H. eapply Forall_impl; [|exact H]. unfold inh. intros; lia. Qed.

  Lemma entries_ky h ns l a : Forall2 (entry_at h) ns l -> In a ns -> exists k v, entry_at h a (k, v) /\ In (k, v) l.
  Proof.
    induction 1 as [|b [k v] ns l He Hf IH]; [easy|]. intros [<-|H].
    - exists k, v. split; [exact He|now left].
    - destruct (IH H) as [k' [v' [H1 H2]]]. exists k', v'. split; [exact H1|now right].
  Qed.

  Lemma entries_key_In h ns l k v : Forall2 (entry_at h) ns l -> In (k, v) l -> exists a, In a ns /\ entry_at h a (k, v).
  Proof.
    induction 1 as [|b [k' v'] ns l He Hf IH]; [easy|]. intros [H|H].
    - injection H as -> ->. exists b. split; [now left|exact He].
    - destruct (IH H) as [a [H1 H2]]. exists a. split; [now right|exact H2].
  Qed.

  (** Splitting the representation at one entry. *)
  Lemma entries_split h ns l n k v :
    Forall2 (entry_at h) ns l -> NoDup (mkeys l) -> In n ns -> entry_at h n (k, v) ->
    exists n1 n2 l1 l2, ns = n1 ++ n :: n2 /\ l = l1 ++ (k, v) :: l2 /\
      Forall2 (entry_at h) n1 l1 /\ Forall2 (entry_at h) n2 l2.
  Proof.
    induction 1 as [|b [k' v'] ns l He Hf IH]; [easy|]. intros Hnd Hin Hn.
    destruct Hin as [->|Hin].
    - destruct He as [H1 H2], Hn as [H3 H4]. cbn in *.
      assert (k' = k) by congruence. assert (v' = v) by congruence. subst.
      exists [], ns, [], l. repeat split; auto.
    - inversion Hnd; subst. destruct (IH H2 Hin Hn) as [n1 [n2 [l1 [l2 [-> [-> [F1 F2]]]]]]].
      exists (b :: n1), n2, ((k', v') :: l1), l2. repeat split; auto.
  Qed.

  Lemma mget_mid (l1 l2 : list (string * V)) k v :
    NoDup (mkeys (l1 ++ (k, v) :: l2)) -> mget k (l1 ++ (k, v) :: l2) = Some v.
  Proof. intros H. apply In_mget; [exact H|]. apply in_or_app. right. now left. Qed.

  Lemma mdel_mid (l1 l2 : list (string * V)) k v :
    NoDup (mkeys (l1 ++ (k, v) :: l2)) -> mdel k (l1 ++ (k, v) :: l2) = l1 ++ l2.
  Proof.
    intros H. unfold mkeys in H. rewrite map_app in H. cbn in H.
    pose proof (NoDup_remove_2 _ _ _ H) as Hn. rewrite in_app_iff in Hn.
    rewrite mdel_app. cbn [mdel]. rewrite String.eqb_refl.
    rewrite !mdel_notin by tauto. reflexivity.
  Qed.

  (** The predecessor of an element of a chain. *)
  Lemma app_snoc_cases {A} (l : list A) : l = [] \/ exists l' x, l = l' ++ [x].
  Proof. destruct l using rev_ind; [now left|right; eauto]. Qed.

  (** Removing the node [n] of a represented cache from the list. *)
  Lemma rep_unlink c ns l n1 n n2 :
    rep c ns l -> ns = n1 ++ n :: n2 ->
    exists h', unlink (l_heap c) (Some n) = Val h' /\ same_data (l_heap c) h' /\
      linked h' (a_head :: (n1 ++ n2) ++ [a_tail]).
  Proof.
    intros R ->. pose proof (rep_nodup _ _ _ R) as Hnd. pose proof (rep_inh _ _ _ R) as Hin.
    pose proof (rep_linked _ _ _ R) as Hl.
    assert (Hq : exists q l2, n2 ++ [a_tail] = q :: l2).
    { destruct n2 as [|q n2]; cbn; eauto. }
    destruct Hq as [q [l2 Hq]].
    assert (Hp : exists l1 p, a_head :: n1 = l1 ++ [p]).
    { destruct (app_snoc_cases (a_head :: n1)) as [H|[l1 [p H]]]; [discriminate|eauto]. }
    destruct Hp as [l1 [p Hp]].
    assert (Hall : a_head :: (n1 ++ n :: n2) ++ [a_tail] = l1 ++ p :: n :: q :: l2).
    { rewrite <- app_assoc. change (a_head :: n1 ++ (n :: n2) ++ [a_tail])
        with ((a_head :: n1) ++ (n :: n2) ++ [a_tail]). rewrite Hp. cbn. rewrite Hq.
      now rewrite <- app_assoc. }
    rewrite Hall in Hnd, Hin, Hl.
    destruct (unlink_ok _ _ _ _ _ _ Hnd Hin Hl) as [h' [H1 [H2 [H3 _]]]].
    exists h'. split; [exact H1|]. split; [exact H2|].
    replace (a_head :: (n1 ++ n2) ++ [a_tail]) with (l1 ++ p :: q :: l2); [exact H3|].
    rewrite <- app_assoc, Hq. change (a_head :: n1 ++ q :: l2) with ((a_head :: n1) ++ q :: l2).
    rewrite Hp, <- app_assoc. reflexivity.
  Qed.

  Lemma nodup_remove_mid {A} (x : A) l1 n l2 y :
    NoDup (x :: (l1 ++ n :: l2) ++ [y]) -> NoDup (x :: (l1 ++ l2) ++ [y]) /\ NoDup (x :: n :: (l1 ++ l2) ++ [y]).
  Proof.
    intros H. assert (Hp : Permutation (x :: (l1 ++ n :: l2) ++ [y]) (x :: n :: (l1 ++ l2) ++ [y])).
    { constructor. rewrite <- !app_assoc. cbn. symmetry. apply Permutation_middle. }
    assert (H2 : NoDup (x :: n :: (l1 ++ l2) ++ [y])) by (eapply Permutation_NoDup; eauto).
    split; [|exact H2]. inversion H2 as [|? ? N1 H3]; subst. inversion H3; subst.
    constructor; [|assumption]. intros Hi. apply N1. now right.
  Qed.

  (** ** moveToHead *)
  Lemma rep_moveToHead c n1 n n2 l1 k v l2 :
    rep c (n1 ++ n :: n2) (l1 ++ (k, v) :: l2) ->
    List.length n1 = List.length l1 -> entry_at (l_heap c) n (k, v) ->
    Forall2 (entry_at (l_heap c)) n1 l1 -> Forall2 (entry_at (l_heap c)) n2 l2 ->
    exists c', moveToHead c n = Val c' /\ l_cap c' = l_cap c /\
      same_data (l_heap c) (l_heap c') /\
      rep c' (n :: n1 ++ n2) ((k, v) :: l1 ++ l2).
  Proof.
    intros R _ He F1 F2. pose proof R as [Hnd Hin Hl Hf Hk Hmk Hm Hlen].
    destruct (rep_unlink _ _ _ _ _ _ R eq_refl) as [h1 [Hu [Hs1 Hl1]]].
    destruct (nodup_remove_mid _ _ _ _ _ Hnd) as [Hnd1 Hnd2].
    assert (Hinn : inh (l_heap c) n).
    { rewrite Forall_forall in Hin. apply Hin. right. rewrite in_app_iff. left. apply in_or_app. right. now left. }
    assert (Hq : exists q t, (n1 ++ n2) ++ [a_tail] = q :: t).
    { destruct (n1 ++ n2); cbn; eauto. }
    destruct Hq as [q [t Hq]]. rewrite Hq in Hl1, Hnd2.
    assert (Hin2 : Forall (inh h1) (a_head :: n :: q :: t)).
    { eapply inh_same_data; [exact Hs1|]. rewrite <- Hq.
      rewrite Forall_forall in Hin |- *. intros x Hx. apply Hin.
      cbn in Hx |- *. rewrite !in_app_iff in *. cbn in *. tauto. }
    destruct (link_ok h1 n q t Hnd2 Hin2 Hl1) as [h2 [Hli [Hs2 Hl2]]].
    assert (Hs : same_data (l_heap c) h2) by (eapply same_data_trans; eauto).
    exists (mkLru (l_cap c) (l_map c) h2). split; [|split; [reflexivity|split; [exact Hs|]]].
    - unfold moveToHead, remove, add. destruct (inh_node _ _ Hinn) as [nd Hnn].
      unfold deref at 1. rewrite Hnn. cbn [obind snd]. rewrite Hu. cbn [obind l_heap l_cap l_map].
      assert (Hinn1 : inh h1 n) by (destruct Hs1 as [L _]; unfold inh in *; lia).
      destruct (inh_node _ _ Hinn1) as [nd1 Hnn1].
      unfold deref at 1. rewrite Hnn1. cbn [obind snd]. now rewrite Hli.
    - assert (Hperm : Permutation (n1 ++ n :: n2) (n :: n1 ++ n2)) by (symmetry; apply Permutation_middle).
      constructor; cbn [l_heap l_map].
      + cbn. rewrite Hq. exact Hnd2.
      + cbn. rewrite Hq. now apply (inh_same_data h1).
      + cbn. rewrite Hq. exact Hl2.
      + apply (entries_same_data (l_heap c)); [exact Hs|]. constructor; [exact He|]. now apply Forall2_app.
      + unfold mkeys in *. rewrite map_app in Hk. cbn in Hk |- *. rewrite map_app.
        eapply Permutation_NoDup; [|exact Hk]. symmetry. apply Permutation_middle.
      + exact Hmk.
      + intros k' a. rewrite Hm. destruct Hs as [_ [K _]]. rewrite K.
        split; intros [H1 H2]; (split; [|exact H2]).
        * eapply Permutation_in; eauto.
        * eapply Permutation_in; [symmetry; exact Hperm|exact H1].
      + rewrite Hlen. now apply Permutation_length.
  Qed.

  Lemma rep_entry_of c ns l k n :
    rep c ns l -> mget k (l_map c) = Some n ->
    exists v, In n ns /\ entry_at (l_heap c) n (k, v) /\ mget k l = Some v.
  Proof.
    intros R Hg. apply (rep_map _ _ _ R) in Hg as [Hin Hk].
    destruct (entries_ky _ _ _ _ (rep_entries _ _ _ R) Hin) as [k' [v [He Hil]]].
    assert (k' = k) by (destruct He as [H1 _]; cbn in H1; congruence). subst k'.
    exists v. split; [exact Hin|]. split; [exact He|]. now apply In_mget; [apply (rep_keys _ _ _ R)|].
  Qed.

  Lemma rep_absent c ns l k : rep c ns l -> mget k (l_map c) = None -> mget k l = None.
  Proof.
    intros R Hg. destruct (mget k l) as [v|] eqn:E; [|reflexivity]. exfalso.
    apply mget_In in E. destruct (entries_key_In _ _ _ _ _ (rep_entries _ _ _ R) E) as [a [Ha He]].
    assert (mget k (l_map c) = Some a) by (apply (rep_map _ _ _ R); split; [exact Ha|apply He]).
    congruence.
  Qed.

  (** ** Get refines [touch]. *)
  Lemma Get_rep c ns l k :
    rep c ns l ->
    exists c' ns', Get c k = Val (c', mget k l) /\ l_cap c' = l_cap c /\ rep c' ns' (touch k l).
  Proof.
    intros R. unfold Get, touch. destruct (mget k (l_map c)) as [n|] eqn:Eg.
    - destruct (rep_entry_of _ _ _ _ _ R Eg) as [v [Hin [He Hl]]].
      destruct (entries_split _ _ _ _ _ _ (rep_entries _ _ _ R) (rep_keys _ _ _ R) Hin He)
        as [n1 [n2 [l1 [l2 [-> [-> [F1 F2]]]]]]].
      destruct (rep_moveToHead _ _ _ _ _ _ _ _ R (Forall2_len _ _ _ F1) He F1 F2)
        as [c' [Hmv [Hcap [Hs R']]]].
      exists c', (n :: n1 ++ n2). rewrite Hmv. cbn [obind]. rewrite Hl.
      assert (He' : entry_at (l_heap c') n (k, v)) by (eapply entry_same_data; eauto).
      destruct He' as [_ Hv]. cbn in Hv. unfold vl in Hv. unfold deref.
      destruct (nth_error (l_heap c') n) as [nd|] eqn:En; [|discriminate]. cbn [obind snd].
      split; [now rewrite Hv|]. split; [exact Hcap|].
      rewrite mdel_mid by apply (rep_keys _ _ _ R). exact R'.
    - exists c, ns. rewrite (rep_absent _ _ _ _ R Eg).
      split; [reflexivity|]. split; [reflexivity|exact R].
  Qed.

  (** ** Put refines [lru_put_keep] when the capacity is positive. *)

  (** Adding a fresh or just removed node in front. *)
  Lemma add_ok c ns l n k v :
    (* the list without [n] *)
    NoDup (a_head :: n :: ns ++ [a_tail]) ->
    Forall (inh (l_heap c)) (a_head :: n :: ns ++ [a_tail]) ->
    linked (l_heap c) (a_head :: ns ++ [a_tail]) ->
    Forall2 (entry_at (l_heap c)) ns l -> entry_at (l_heap c) n (k, v) ->
    NoDup (mkeys ((k, v) :: l)) -> NoDup (mkeys (l_map c)) ->
    (forall k a, mget k (l_map c) = Some a <-> In a ns /\ ky (l_heap c) a = Some k) ->
    List.length (l_map c) = List.length ns ->
    exists c', add c n false = Val c' /\ l_cap c' = l_cap c /\ rep c' (n :: ns) ((k, v) :: l).
  Proof.
    intros Hnd Hin Hl Hf He Hk Hmk Hm Hlen.
    assert (Hinn : inh (l_heap c) n) by (rewrite Forall_forall in Hin; apply Hin; cbn; auto).
    assert (Hq : exists q t, ns ++ [a_tail] = q :: t) by (destruct ns; cbn; eauto).
    destruct Hq as [q [t Hq]]. rewrite Hq in *.
    destruct (link_ok _ _ _ _ Hnd Hin Hl) as [h' [Hli [Hs Hl']]].
    exists (mkLru (l_cap c) (mput k n (l_map c)) h'). split; [|split; [reflexivity|]].
    - unfold add. destruct (inh_node _ _ Hinn) as [nd Hnn]. unfold deref. rewrite Hnn.
      cbn [obind snd]. destruct He as [Hky _]. unfold ky in Hky. rewrite Hnn in Hky. cbn in Hky.
      rewrite Hky, Hli. reflexivity.
    - assert (Hnew : mget k (l_map c) = None).
      { destruct (mget k (l_map c)) as [a|] eqn:E; [|reflexivity]. exfalso.
        apply Hm in E as [Ha Hka]. destruct (entries_ky _ _ _ _ Hf Ha) as [k' [v' [He' Hi]]].
        assert (k' = k) by (destruct He' as [H1 _]; cbn in H1; congruence). subst k'.
        inversion Hk as [|? ? Hni _]; subst. apply Hni. apply in_map_iff. now exists (k, v'). }
      constructor; cbn [l_heap l_map].
      + cbn. rewrite Hq. exact Hnd.
      + cbn. rewrite Hq. eapply inh_same_data; eauto.
      + cbn. rewrite Hq. exact Hl'.
      + apply (entries_same_data (l_heap c)); [exact Hs|]. now constructor.
      + exact Hk.
      + now apply NoDup_mput.
      + intros k' a. destruct Hs as [_ [K _]]. rewrite K, mget_put. destruct (String.eqb_spec k' k) as [->|Hne].
        * split.
          -- intros H; injection H as <-. split; [now left|apply He].
          -- intros [[<-|Ha] Hka]; [reflexivity|]. exfalso.
             assert (mget k (l_map c) = Some a) by (apply Hm; auto). congruence.
        * rewrite Hm. split.
          -- intros [Ha Hka]. split; [now right|exact Hka].
          -- intros [[<-|Ha] Hka]; [|auto]. destruct He as [H1 _]. cbn in H1. congruence.
      + rewrite mput_new by (now apply mget_None). rewrite app_length. cbn. lia.
  Qed.

  Lemma ky_app h x a : inh h a -> ky (h ++ [x]) a = ky h a.
  Proof. intros H. unfold ky. rewrite nth_error_app1; auto. Qed.
  Lemma vl_app h x a : inh h a -> vl (h ++ [x]) a = vl h a.
  Proof. intros H. unfold vl. rewrite nth_error_app1; auto. Qed.
  Lemma nx_app h x a : inh h a -> nx (h ++ [x]) a = nx h a.
  Proof. intros H. unfold nx. rewrite nth_error_app1; auto. Qed.
  Lemma pv_app h x a : inh h a -> pv (h ++ [x]) a = pv h a.
  Proof. intros H. unfold pv. rewrite nth_error_app1; auto. Qed.

  (** Allocating a node changes nothing. *)
  Lemma rep_alloc c ns l x :
    rep c ns l -> rep (mkLru (l_cap c) (l_map c) (l_heap c ++ [x])) ns l.
  Proof.
    intros [Hnd Hin Hl Hf Hk Hmk Hm Hlen].
    assert (Hi : forall a, In a (a_head :: ns ++ [a_tail]) -> inh (l_heap c) a)
      by (rewrite Forall_forall in Hin; exact Hin).
    assert (Hins : forall a, In a ns -> inh (l_heap c) a).
    { intros a Ha. apply Hi. right. apply in_or_app. now left. }
    constructor; cbn [l_heap l_map]; try assumption.
    - eapply Forall_impl; [|exact Hin]. unfold inh. rewrite app_length. cbn. intros; lia.
    - apply linked_frame with (h := l_heap c); [| |exact Hl].
      + intros a b Ha Hb H. rewrite nx_app; auto.
      + intros a b Ha Hb H. rewrite pv_app; auto.
    - clear -Hf Hins. induction Hf as [|a kv ns l He Hf IH]; constructor.
      + destruct He. split; [rewrite ky_app|rewrite vl_app]; auto; apply Hins; now left.
      + apply IH. intros; apply Hins; now right.
    - intros k a. rewrite Hm. split; intros [Ha Hka]; (split; [exact Ha|]).
      + rewrite ky_app; auto.
      + rewrite ky_app in Hka; auto.
  Qed.

  Lemma removelast_snoc {A} (l : list A) x : removelast (l ++ [x]) = l.
  Proof. apply removelast_last. Qed.

  Lemma NoDup_app_l {A} (l l' : list A) : NoDup (l ++ l') -> NoDup l.
  Proof.
    induction l as [|a l IH]; cbn; intros H; [constructor|]. inversion H; subst.
    constructor; [|now apply IH]. intros Hin; apply H2. apply in_or_app. now left.
  Qed.

  Lemma mdel_keep_map {A} (m : smap A) k k' a :
    mget k' (mdel k m) = Some a <-> k' <> k /\ mget k' m = Some a.
  Proof. rewrite mget_del. destruct (String.eqb_spec k' k); intuition congruence. Qed.

  Lemma mdel_length {A} (m : smap A) k :
    NoDup (mkeys m) -> mhas k m = true -> S (List.length (mdel k m)) = List.length m.
  Proof.
    induction m as [|[k' v'] m IH]; cbn; intros Hnd Hh; [discriminate|].
    inversion Hnd as [|? ? Hni Hnd']; subst.
    destruct (String.eqb_spec k k') as [->|Hne].
    - now rewrite mdel_notin.
    - cbn. f_equal. apply IH; [exact Hnd'|]. unfold mhas in *. cbn in Hh.
      destruct (String.eqb_spec k k'); [congruence|exact Hh].
  Qed.

  (** Removing an entry (list and map). *)
  Lemma remove_ok c n1 n n2 l1 k v l2 :
    rep c (n1 ++ n :: n2) (l1 ++ (k, v) :: l2) -> entry_at (l_heap c) n (k, v) ->
    Forall2 (entry_at (l_heap c)) n1 l1 -> Forall2 (entry_at (l_heap c)) n2 l2 ->
    exists c', remove c (Some n) false = Val c' /\ l_cap c' = l_cap c /\
      same_data (l_heap c) (l_heap c') /\ rep c' (n1 ++ n2) (l1 ++ l2) /\
      mget k (l_map c') = None.
  Proof.
    intros R He F1 F2. pose proof R as [Hnd Hin Hl Hf Hk Hmk Hm Hlen].
    destruct (rep_unlink _ _ _ _ _ _ R eq_refl) as [h' [Hu [Hs Hl']]].
    destruct (nodup_remove_mid _ _ _ _ _ Hnd) as [Hnd1 Hnd2].
    assert (Hinn : inh (l_heap c) n).
    { rewrite Forall_forall in Hin. apply Hin. right. rewrite in_app_iff. left. apply in_or_app. right. now left. }
    assert (Hgn : mget k (l_map c) = Some n).
    { apply Hm. split; [apply in_or_app; right; now left|apply He]. }
    exists (mkLru (l_cap c) (mdel k (l_map c)) h').
    split; [|split; [reflexivity|split; [exact Hs|split; [|apply mget_del_eq]]]].
    - unfold remove. destruct (inh_node _ _ Hinn) as [nd Hnn]. unfold deref. rewrite Hnn.
      cbn [obind snd]. destruct He as [Hky _]. unfold ky in Hky. rewrite Hnn in Hky. cbn in Hky.
      rewrite Hky, Hu. reflexivity.
    - constructor; cbn [l_heap l_map].
      + exact Hnd1.
      + eapply inh_same_data; [exact Hs|]. rewrite Forall_forall in Hin |- *. intros x Hx. apply Hin.
        cbn in Hx |- *. rewrite !in_app_iff in *. cbn. tauto.
      + exact Hl'.
      + apply (entries_same_data (l_heap c)); [exact Hs|]. now apply Forall2_app.
      + unfold mkeys in *. rewrite map_app in *. cbn in Hk. now apply NoDup_remove_1 in Hk.
      + now apply NoDup_mdel.
      + intros k' a. rewrite mdel_keep_map, Hm. destruct Hs as [_ [K _]]. rewrite K.
        rewrite !in_app_iff. cbn. split.
        * intros [Hne [[Ha|[<-|Ha]] Hka]]; [auto| |auto].
          destruct He as [H1 _]. cbn in H1. congruence.
        * intros [Ha Hka]. split; [|tauto]. intros ->.
          assert (Ha' : mget k (l_map c) = Some a).
          { apply Hm. split; [rewrite in_app_iff; cbn; tauto|exact Hka]. }
          rewrite Hgn in Ha'. injection Ha' as <-.
          inversion Hnd2 as [|? ? _ Hx]; subst. inversion Hx as [|? ? Hy _]; subst.
          apply Hy. rewrite !in_app_iff. tauto.
      + assert (Hh : mhas k (l_map c) = true) by (unfold mhas; now rewrite Hgn).
        pose proof (mdel_length _ _ Hmk Hh). rewrite !app_length in *. cbn in *. lia.
  Qed.

  Lemma pv_last h l x y : linked h (l ++ [x; y]) -> pv h y = Some x.
  Proof. intros H. apply linked_app in H as [_ H]. rewrite linked_cons in H. tauto. Qed.

  Lemma Put_rep c ns l k v :
    1 <= l_cap c -> rep c ns l -> List.length l <= l_cap c ->
    exists c' ns', Put c k v = Val c' /\ l_cap c' = l_cap c /\
      rep c' ns' (lru_put_keep (l_cap c) k v l).
  Proof.
    intros Hcap R Hsz. unfold Put, lru_put_keep. destruct (mget k (l_map c)) as [n|] eqn:Eg.
    - destruct (rep_entry_of _ _ _ _ _ R Eg) as [v0 [Hin [He Hl]]]. rewrite Hl.
      destruct (entries_split _ _ _ _ _ _ (rep_entries _ _ _ R) (rep_keys _ _ _ R) Hin He)
        as [n1 [n2 [l1 [l2 [-> [-> [F1 F2]]]]]]].
      destruct (remove_ok _ _ _ _ _ _ _ _ R He F1 F2) as [c1 [Hr [Hc1 [Hs [R1 Hg1]]]]].
      rewrite Hr. cbn [obind].
      destruct (nodup_remove_mid _ _ _ _ _ (rep_nodup _ _ _ R)) as [_ Hnd2].
      destruct (add_ok c1 (n1 ++ n2) (l1 ++ l2) n k v0 Hnd2) as [c2 [Ha [Hc2 R2]]];
        [| | | | | | | |].
      + eapply inh_same_data; [exact Hs|]. pose proof (rep_inh _ _ _ R) as Hi.
        rewrite Forall_forall in Hi |- *. intros x Hx. apply Hi.
        cbn in Hx |- *. rewrite !in_app_iff in *. cbn in *. tauto.
      + apply (rep_linked _ _ _ R1).
      + apply (rep_entries _ _ _ R1).
      + eapply entry_same_data; eauto.
      + cbn. constructor.
        * pose proof (rep_keys _ _ _ R) as Hk. unfold mkeys in Hk. rewrite map_app in Hk. cbn in Hk.
          apply NoDup_remove_2 in Hk. unfold mkeys. now rewrite map_app.
        * apply (rep_keys _ _ _ R1).
      + apply (rep_mkeys _ _ _ R1).
      + apply (rep_map _ _ _ R1).
      + apply (rep_len _ _ _ R1).
      + exists c2, (n :: n1 ++ n2). rewrite Ha. cbn [obind].
        split; [reflexivity|]. split; [congruence|].
        rewrite mdel_mid by apply (rep_keys _ _ _ R). exact R2.
    - rewrite (rep_absent _ _ _ _ R Eg).
      pose (x := mkNode (Some k) (Some v) None None).
      fold x. pose proof (rep_alloc _ _ _ x R) as Ra.
      set (ca := mkLru (l_cap c) (l_map c) (l_heap c ++ [x])) in *.
      set (n := List.length (l_heap c)).
      assert (Hlen : List.length (l_map c) = List.length l).
      { rewrite (rep_len _ _ _ R). apply (Forall2_len _ _ _ (rep_entries _ _ _ R)). }
      assert (Hn0 : inh (l_heap ca) n).
      { unfold inh, ca, n. cbn. rewrite app_length. cbn. lia. }
      assert (Hen : entry_at (l_heap ca) n (k, v)).
      { unfold entry_at, ky, vl, ca, n. cbn [l_heap]. rewrite nth_error_app2, Nat.sub_diag by lia.
        cbn. split; reflexivity. }
      assert (Hnn : ~ In n (a_head :: ns ++ [a_tail])).
      { intros Hi. pose proof (rep_inh _ _ _ R) as Hf. rewrite Forall_forall in Hf.
        specialize (Hf n Hi). unfold inh, n in Hf. lia. }
      cbn [l_cap l_heap l_map ca]. rewrite Hlen.
      destruct (Nat.leb_spec (l_cap c) (List.length l)) as [Hfull|Hfree].
      + (* evict the last entry *)
        destruct (app_snoc_cases ns) as [->|[n1 [z ->]]].
        { pose proof (rep_len _ _ _ R). cbn in *. lia. }
        assert (Hl : exists l1 kz vz, l = l1 ++ [(kz, vz)]).
        { destruct (app_snoc_cases l) as [->|[l1 [[kz vz] ->]]]; [cbn in *; lia|eauto]. }
        destruct Hl as [l1 [kz [vz ->]]].
        pose proof (rep_entries _ _ _ Ra) as Hf. apply Forall2_app_inv_l in Hf as [m1 [m2 [F1 [F2 Heq]]]].
        inversion F2 as [|? kvz ? ? Hez Hnil]; subst. inversion Hnil; subst.
        apply app_inj_tail in Heq as [<- <-].
        fold ca. change (l_heap c ++ [x]) with (l_heap ca).
        assert (Hpv : get_prev (l_heap ca) (Some a_tail) = Val (Some z)).
        { rewrite get_prev_ok.
          - f_equal. pose proof (rep_linked _ _ _ Ra) as Hl.
            rewrite <- app_assoc in Hl. cbn in Hl.
            apply (pv_last (l_heap ca) (a_head :: n1) z a_tail). exact Hl.
          - pose proof (rep_inh _ _ _ Ra) as Hf. rewrite Forall_forall in Hf. apply Hf.
            right. apply in_or_app. right. now left. }
        rewrite Hpv. cbn [obind].
        destruct (remove_ok ca n1 z [] l1 kz vz [] Ra Hez F1 (Forall2_nil _))
          as [c1 [Hr [Hc1 [Hs [R1 Hg1]]]]].
        rewrite Hr. cbn [obind]. rewrite !app_nil_r in R1.
        assert (Hcn : mget k (l_map c1) = None).
        { destruct (mget k (l_map c1)) as [a|] eqn:E; [|reflexivity]. exfalso.
          apply (rep_map _ _ _ R1) in E as [Ha Hka].
          assert (Hx : mget k (l_map c) = Some a).
          { apply (rep_map _ _ _ Ra). split; [apply in_or_app; now left|].
            destruct Hs as [_ [K _]]. now rewrite <- K. }
          congruence. }
        destruct (add_ok c1 n1 l1 n k v) as [c2 [Ha [Hc2 R2]]];
          [| | | | | | | | |].
        * pose proof (rep_nodup _ _ _ R1) as Hnd. inversion Hnd as [|? ? N1 Hnd1]; subst.
          constructor; [|constructor; [|exact Hnd1]].
          -- intros [H|H]; [|contradiction]. apply Hnn. left. congruence.
          -- intros H. apply Hnn. right. rewrite !in_app_iff in *. cbn in *. tauto.
        * eapply inh_same_data; [exact Hs|].
          constructor; [pose proof (rep_inh _ _ _ Ra) as Hf; now inversion Hf|].
          constructor; [exact Hn0|]. pose proof (rep_inh _ _ _ Ra) as Hf.
          inversion Hf as [|? ? _ Hf']; subst. rewrite Forall_forall in Hf' |- *. intros y Hy.
          apply Hf'. rewrite !in_app_iff in *. cbn in *. tauto.
        * apply (rep_linked _ _ _ R1).
        * apply (rep_entries _ _ _ R1).
        * eapply entry_same_data; eauto.
        * cbn. constructor; [|apply (rep_keys _ _ _ R1)].
          pose proof (rep_absent _ _ _ _ R1 Hcn) as Hab. now apply mget_None in Hab.
        * apply (rep_mkeys _ _ _ R1).
        * apply (rep_map _ _ _ R1).
        * apply (rep_len _ _ _ R1).
        * exists c2, (n :: n1). rewrite Ha. split; [reflexivity|]. split; [rewrite Hc2, ?Hc1; reflexivity|].
          now rewrite removelast_snoc.
      + cbn [obind]. fold ca.
        destruct (add_ok ca ns l n k v) as [c2 [Ha [Hc2 R2]]];
          [| | | | | | | | |].
        * pose proof (rep_nodup _ _ _ R) as Hnd. inversion Hnd as [|? ? N1 Hnd1]; subst.
          constructor; [|constructor; [|exact Hnd1]].
          -- intros [H|H]; [|contradiction]. apply Hnn. left. congruence.
          -- intros H. apply Hnn. right. exact H.
        * pose proof (rep_inh _ _ _ Ra) as Hf. inversion Hf; subst.
          constructor; [assumption|]. constructor; assumption.
        * apply (rep_linked _ _ _ Ra).
        * apply (rep_entries _ _ _ Ra).
        * exact Hen.
        * cbn. constructor; [|apply (rep_keys _ _ _ R)].
          pose proof (rep_absent _ _ _ _ R Eg) as Hab. now apply mget_None in Hab.
        * apply (rep_mkeys _ _ _ R).
        * apply (rep_map _ _ _ Ra).
        * apply (rep_len _ _ _ R).
        * exists c2, (n :: ns). split; [exact Ha|]. split; [rewrite Hc2; reflexivity|exact R2].
  Qed.

  (** ** Sizes *)
  Lemma touch_length k (l : list (string * V)) : NoDup (mkeys l) -> List.length (touch k l) = List.length l.
  Proof.
    intros H. unfold touch. destruct (mget k l) eqn:E; [|reflexivity]. cbn.
    apply mdel_length; [exact H|]. unfold mhas. now rewrite E.
  Qed.

  Lemma removelast_length {A} (l : list A) : l <> [] -> S (List.length (removelast l)) = List.length l.
  Proof.
    intros H. destruct (app_snoc_cases l) as [->|[l' [x ->]]]; [congruence|].
    rewrite removelast_last, app_length. cbn. lia.
  Qed.

  Lemma keep_length cap k v (l : list (string * V)) :
    1 <= cap -> NoDup (mkeys l) -> List.length l <= cap -> List.length (lru_put_keep cap k v l) <= cap.
  Proof.
    intros Hc Hnd Hl. unfold lru_put_keep. destruct (mget k l) eqn:E; cbn.
    - assert (Hh : mhas k l = true) by (unfold mhas; now rewrite E).
      pose proof (mdel_length _ _ Hnd Hh). lia.
    - destruct (Nat.leb_spec cap (List.length l)); [|lia].
      destruct l as [|kv l]; [cbn in *; lia|].
      pose proof (removelast_length (kv :: l) ltac:(discriminate)). lia.
  Qed.

  (** ** Whole histories *)
  Lemma cexec_rep h : forall c ns l,
    1 <= l_cap c -> rep c ns l -> List.length l <= l_cap c ->
    exists c' ns', cexec c h = Val c' /\ l_cap c' = l_cap c /\
      rep c' ns' (fold_left (spec_step lru_put_keep (l_cap c)) h l) /\
      List.length (fold_left (spec_step lru_put_keep (l_cap c)) h l) <= l_cap c.
  Proof.
    induction h as [|o h IH]; intros c ns l Hc R Hl; cbn [cexec fold_left].
    - exists c, ns. auto.
    - destruct o as [k|k v]; cbn [cstep spec_step].
      + destruct (Get_rep c ns l k R) as [c1 [ns1 [Hg [Hc1 R1]]]]. rewrite Hg. cbn [obind fst].
        rewrite <- Hc1. apply (IH c1 ns1); [lia|exact R1|].
        rewrite touch_length by apply (rep_keys _ _ _ R). lia.
      + destruct (Put_rep c ns l k v Hc R Hl) as [c1 [ns1 [Hg [Hc1 R1]]]]. rewrite Hg. cbn [obind fst].
        rewrite <- Hc1. rewrite <- Hc1 in R1. apply (IH c1 ns1); [lia|exact R1|].
        apply keep_length; [lia|apply (rep_keys _ _ _ R)|lia].
  Qed.

  Lemma NoDup_keys_history cap h : NoDup (mkeys (fold_left (spec_step (@lru_put_keep V) cap) h [])).
  Proof.
    assert (G : forall l, NoDup (mkeys l) -> NoDup (mkeys (fold_left (spec_step (@lru_put_keep V) cap) h l))).
    { induction h as [|o h IH]; intros l Hl; cbn; [exact Hl|]. apply IH.
      assert (Hcons : forall k v, NoDup (mkeys (((k, v) :: mdel k l) : list (string * V)))).
      { intros k v. cbn. constructor; [|now apply NoDup_mdel]. fold (mkeys (mdel k l)).
        rewrite In_mkeys_del. tauto. }
      destruct o as [k|k v]; cbn.
      - unfold touch. destruct (mget k l); [apply Hcons|exact Hl].
      - unfold lru_put_keep. destruct (mget k l) eqn:E; [apply Hcons|].
        apply mget_None in E. cbn. constructor.
        + intros Hi. apply E. destruct (Nat.leb cap (List.length l)); [|exact Hi].
          destruct (app_snoc_cases l) as [->|[l' [x ->]]]; [exact Hi|].
          rewrite removelast_last in Hi. unfold mkeys. rewrite map_app. apply in_or_app. now left.
        + destruct (Nat.leb cap (List.length l)); [|exact Hl].
          destruct (app_snoc_cases l) as [->|[l' [x ->]]]; [exact Hl|].
          rewrite removelast_last. fold (mkeys l'). unfold mkeys in Hl. rewrite map_app in Hl.
          now apply NoDup_app_l in Hl. }
    apply G. constructor.
  Qed.
End CacheP.
