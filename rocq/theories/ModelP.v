(** Invariants of the model. *)
From Verif Require Import GoBase GoBaseP DefsM PolicyM PolicySpec PolicyP MatcherDefM MatcherM MatcherSpec
  RbacM RbacSpec DomainM ModelM ModelSpec.

Local Notation pstep := PolicyM.pstep.

(** ** Heaps *)
Lemma set_nth_length {A} (l : list A) i x : List.length (set_nth l i x) = List.length l.
Proof. revert i. induction l as [|y l IH]; intros [|i]; cbn; auto. Qed.

Lemma nth_set_nth {A} (l : list A) i x j : i < List.length l ->
  nth_error (set_nth l i x) j = if Nat.eqb j i then Some x else nth_error l j.
Proof.
  revert i j. induction l as [|y l IH]; intros [|i] [|j] H; cbn in *; try lia; auto.
  apply IH. lia.
Qed.

Lemma nth_snoc {A} (l : list A) x j :
  nth_error (l ++ [x]) j = if Nat.eqb j (List.length l) then Some x else nth_error l j.
Proof.
  destruct (Nat.eqb_spec j (List.length l)) as [->|H].
  - rewrite nth_error_app2 by lia. now rewrite Nat.sub_diag.
  - destruct (Nat.lt_ge_cases j (List.length l)) as [L|L].
    + now apply nth_error_app1.
    + rewrite nth_error_app2 by lia. destruct (j - List.length l) as [|n] eqn:E; [lia|].
      cbn. rewrite (proj2 (nth_error_None l j)) by lia. now destruct n.
Qed.

Lemma nth_lt {A} (l : list A) i x : nth_error l i = Some x -> i < List.length l.
Proof. intros H. apply nth_error_Some. congruence. Qed.

(** ** Notification *)
Lemma m_events_app m es es' m1 : m_events m es = Val m1 -> m_events m (es ++ es') = m_events m1 es'.
Proof.
  revert m. induction es as [|e es IH]; intros m H; cbn in *; [now injection H as ->|].
  destruct (m_event m e) as [m'|]; cbn in *; [now apply IH|discriminate].
Qed.

Lemma notify_ok ms ids e ms' : NoDup ids -> notify ms ids e = Val ms' ->
  List.length ms' = List.length ms /\
  (forall j, ~ In j ids -> nth_error ms' j = nth_error ms j) /\
  (forall j, In j ids -> exists x x', nth_error ms j = Some x /\ nth_error ms' j = Some x' /\ m_event x e = Val x').
Proof.
  revert ms. induction ids as [|i ids IH]; intros ms N H; cbn in H.
  - injection H as ->. repeat split; auto. intros j [].
  - apply NoDup_cons_iff in N as [Ni N].
    destruct (nth_error ms i) as [x|] eqn:Ex; [|discriminate].
    destruct (m_event x e) as [x'|] eqn:Ev; cbn in H; [|discriminate].
    destruct (IH _ N H) as [L [O I]]. rewrite set_nth_length in L. pose proof (nth_lt _ _ _ Ex) as Li.
    split; [exact L|]. split.
    + intros j Hj. rewrite O by (intros C; apply Hj; now right). rewrite nth_set_nth by exact Li.
      destruct (Nat.eqb_spec j i) as [->|]; [exfalso; apply Hj; now left|reflexivity].
    + intros j [<-|Hj].
      * exists x, x'. split; [exact Ex|]. split; [|exact Ev]. rewrite O by exact Ni.
        rewrite nth_set_nth by exact Li. now rewrite Nat.eqb_refl.
      * destruct (I j Hj) as [y [y' [A [B C]]]]. exists y, y'. split; [|auto].
        rewrite nth_set_nth in A by exact Li. destruct (Nat.eqb_spec j i) as [->|]; [contradiction|exact A].
Qed.

Lemma notify_all_ok ms ids es ms' : NoDup ids -> notify_all ms ids es = Val ms' ->
  List.length ms' = List.length ms /\
  (forall j, ~ In j ids -> nth_error ms' j = nth_error ms j) /\
  (forall j x, In j ids -> nth_error ms j = Some x -> exists x', nth_error ms' j = Some x' /\ m_events x es = Val x').
Proof.
  revert ms. induction es as [|e es IH]; intros ms N H; cbn in H.
  - injection H as ->. repeat split; auto. intros j x _ Hx. exists x. split; [exact Hx|reflexivity].
  - destruct (notify ms ids e) as [ms1|] eqn:E1; cbn in H; [|discriminate].
    destruct (notify_ok _ _ _ _ N E1) as [L1 [O1 I1]], (IH _ N H) as [L2 [O2 I2]].
    split; [congruence|]. split; [intros j Hj; rewrite O2, O1; auto|].
    intros j x Hj Hx. destruct (I1 j Hj) as [y [y' [A [B C]]]]. rewrite Hx in A. injection A as <-.
    destruct (I2 j y' Hj B) as [x' [X Y]]. exists x'. split; [exact X|]. cbn. now rewrite C.
Qed.

(** ** Policies and matchers through one more call *)
Lemma pexec_snoc p h op :
  pexec p (h ++ [op]) =
  (let '(p1, es) := pexec p h in let '(p2, _, e) := pstep p1 op in (p2, es ++ e)).
Proof.
  revert p. induction h as [|o h IH]; intros p; cbn.
  - destruct (pstep p op) as [[p2 b] e]. now rewrite app_nil_r.
  - destruct (pstep p o) as [[p1 b] e]. rewrite IH. destruct (pexec p1 h) as [p2 es].
    destruct (pstep p2 op) as [[p3 b'] e']. now rewrite app_assoc.
Qed.
Lemma pexec_fst_snoc p h op : fst (pexec p (h ++ [op])) = fst (fst (pstep (fst (pexec p h)) op)).
Proof. rewrite pexec_snoc. destruct (pexec p h) as [p1 es]. cbn. destruct (pstep p1 op) as [[p2 b] e]. reflexivity. Qed.

Lemma lives_snoc d s h1 h2 x op p b es x' :
  lives d s h1 h2 x -> fst (pexec [] (h1 ++ h2)) = p -> pstep p op = (fst (fst (pstep p op)), b, es) ->
  m_events x es = Val x' -> lives d s h1 (h2 ++ [op]) x'.
Proof.
  intros [p1 [es1 [p2 [es2 [l [m0 [A [B [C [D F]]]]]]]]]] Hp Hs He.
  assert (p2 = p). { subst p. clear - A B. revert p1 es1 A B. 
    assert (G : forall h1 q p1 es1 h2 p2 es2, pexec q h1 = (p1, es1) -> pexec p1 h2 = (p2, es2) -> p2 = fst (pexec q (h1 ++ h2))).
    { clear. induction h1 as [|o h1 IH]; intros q p1 es1 h2 p2 es2 A B; cbn in A |- *.
      - injection A as <- <-. now rewrite B.
      - destruct (pstep q o) as [[q' b] e]. destruct (pexec q' h1) as [q1 e1] eqn:E1. injection A as <- <-.
        rewrite (IH q' q1 e1 h2 p2 es2 E1 B). now destruct (pexec q' (h1 ++ h2)). }
    intros p1 es1 A B. eapply G; eauto. }
  subst p2. exists p1, es1, (fst (fst (pstep p op))), (es2 ++ es), l, m0.
  split; [exact A|]. split; [|split; [exact C|]; split; [exact D|]].
  - rewrite pexec_snoc, B. destruct (pstep p op) as [[p3 b3] e3]. cbn in *. congruence.
  - rewrite (m_events_app _ _ _ _ F). exact He.
Qed.

(** ** Ghost state

    For every policy object the calls it has received, for every matcher the
    object it was built on and how many calls that object had received by then,
    for every role manager its start and its calls. *)
Record ghost : Type := mkG {
  g_ops : nat -> list pop;
  g_mb : nat -> nat * nat;
  g_rh : nat -> irm * list (RbacM.order * dcall)
}.
Definition upd {A} (f : nat -> A) (i : nat) (x : A) : nat -> A := fun j => if Nat.eqb j i then x else f j.
Lemma upd_same {A} (f : nat -> A) i x : upd f i x i = x.
Proof. unfold upd. now rewrite Nat.eqb_refl. Qed.
Lemma upd_other {A} (f : nat -> A) i x j : j <> i -> upd f i x j = f j.
Proof. unfold upd. intros H. destruct (Nat.eqb_spec j i); congruence. Qed.

Record Core (m : model) (g : ghost) : Prop := mkCore {
  v_p : forall k i, mget k (md_pMap m) = Some i ->
          p_key k /\ exists p ls, nth_error (md_objs m) i = Some (mkObj (OPolicy p) ls);
  v_pinj : forall k k' i, mget k (md_pMap m) = Some i -> mget k' (md_pMap m) = Some i -> k = k';
  v_r : forall k i, mget k (md_rpMap m) = Some i ->
          exists rm ls, nth_error (md_objs m) i = Some (mkObj (ORole rm) ls);
  v_rinj : forall k k' i, mget k (md_rpMap m) = Some i -> mget k' (md_rpMap m) = Some i -> k = k';
  v_rminj : forall i i' rm ls ls', nth_error (md_objs m) i = Some (mkObj (ORole rm) ls) ->
          nth_error (md_objs m) i' = Some (mkObj (ORole rm) ls') -> i = i';
  v_obj : forall i p ls, nth_error (md_objs m) i = Some (mkObj (OPolicy p) ls) -> fst (pexec [] (g_ops g i)) = p;
  v_rm : forall r x, nth_error (md_rms m) r = Some x ->
          exists xs, dexec (fst (g_rh g r)) (snd (g_rh g r)) = Val (x, xs);
  v_rmb : forall i rm ls, nth_error (md_objs m) i = Some (mkObj (ORole rm) ls) -> rm < List.length (md_rms m);
  v_lis : forall i b ls, nth_error (md_objs m) i = Some (mkObj b ls) ->
          NoDup ls /\ forall j, In j ls -> fst (g_mb g j) = i /\ j < List.length (md_mats m);
  v_mat : forall j x, nth_error (md_mats m) j = Some x ->
          exists b ls, nth_error (md_objs m) (fst (g_mb g j)) = Some (mkObj b ls) /\ In j ls /\
            forall p, b = OPolicy p ->
              snd (g_mb g j) <= List.length (g_ops g (fst (g_mb g j))) /\
              lives (m_def x) (m_tree x) (firstn (snd (g_mb g j)) (g_ops g (fst (g_mb g j))))
                    (skipn (snd (g_mb g j)) (g_ops g (fst (g_mb g j)))) x;
  v_nd : NoDup (mkeys (md_pMap m)) /\ NoDup (mkeys (md_rpMap m));
  v_mm : forall k j, mget k (md_mMap m) = Some j -> j < List.length (md_mats m)
}.

Record Hist (h : list (orders * mcall)) (m : model) (g : ghost) : Prop := mkHist {
  v_phist : forall k, p_key k -> option_map (g_ops g) (mget k (md_pMap m)) = p_history k h;
  v_ghist : forall k, g_key k ->
     match mget k (md_rpMap m) with
     | Some i => exists rm ls, nth_error (md_objs m) i = Some (mkObj (ORole rm) ls) /\ g_history k h = Some (g_rh g rm)
     | None => g_history k h = None
     end
}.

Lemma p_history_snoc k h o c : p_history k (h ++ [(o, c)]) = p_step k (p_history k h) c.
Proof. unfold p_history. now rewrite map_app, fold_left_app. Qed.
Lemma g_history_snoc k h oc : g_history k (h ++ [oc]) = g_step k (g_history k h) oc.
Proof. unfold g_history. now rewrite fold_left_app. Qed.
Lemma pg_key k : p_key k -> g_key k -> False.
Proof. unfold p_key, g_key. congruence. Qed.

(** Same policies, managers and matchers. *)
Definition same_heap (m m' : model) : Prop :=
  md_pMap m' = md_pMap m /\ md_rpMap m' = md_rpMap m /\ md_objs m' = md_objs m /\
  md_rms m' = md_rms m /\ md_mats m' = md_mats m /\ md_mMap m' = md_mMap m.

Lemma core_frame m m' g : same_heap m m' -> Core m g -> Core m' g.
Proof.
  intros (A & B & C & D & F & G) [? ? ? ? ? ? ? ? ? ? ? ?].
  constructor; rewrite ?A, ?B, ?C, ?D, ?F, ?G; assumption.
Qed.
Lemma hist_frame h m m' g o c : same_heap m m' -> Hist h m g ->
  (forall k acc, p_key k -> p_step k acc c = acc) -> (forall k acc, g_key k -> g_step k acc (o, c) = acc) ->
  Hist (h ++ [(o, c)]) m' g.
Proof.
  intros (A & B & C & D & F & G) [P Q] Hp Hg. constructor.
  - intros k Hk. rewrite A, p_history_snoc, Hp by assumption. now apply P.
  - intros k Hk. rewrite B, C, g_history_snoc, Hg by assumption. now apply Q.
Qed.

(** A new object. *)
Lemma lives_now d s h l m0 p es : pexec [] h = (p, es) -> Permutation l (mvals p) -> NewMatcher d l s = Val m0 ->
  lives d s h [] m0.
Proof. intros A B C. exists p, es, p, [], l, m0. repeat split; auto. Qed.

Definition alloc_p (m : model) (key : string) : model :=
  let (m, i) := new_obj m (OPolicy NewPolicy) in set_pMap m (mput key i (md_pMap m)).

Lemma core_alloc_p m g key : p_key key -> Core m g ->
  Core (alloc_p m key) (mkG (upd (g_ops g) (List.length (md_objs m)) []) (g_mb g) (g_rh g)).
Proof.
  intros Hk [Vp Vpi Vr Vri Vrm Vo Vx Vb Vl Vm Vn Vmm]. unfold alloc_p, new_obj.
  set (n := List.length (md_objs m)).
  assert (Lt : forall k i, mget k (md_pMap m) = Some i -> i < n).
  { intros k i H. destruct (Vp _ _ H) as [_ [p [ls E]]]. eapply nth_lt; eauto. }
  assert (Lr : forall k i, mget k (md_rpMap m) = Some i -> i < n).
  { intros k i H. destruct (Vr _ _ H) as [p [ls E]]. eapply nth_lt; eauto. }
  assert (Lo : forall i o, nth_error (md_objs m) i = Some o -> i < n) by (intros; eapply nth_lt; eauto).
  assert (Ext : forall i o, nth_error (md_objs m) i = Some o -> nth_error (md_objs m ++ [mkObj (OPolicy NewPolicy) []]) i = Some o).
  { intros i o H. rewrite nth_snoc. fold n. specialize (Lo _ _ H). destruct (Nat.eqb_spec i n); [lia|exact H]. }
  constructor; cbn [md_pMap md_rpMap md_objs md_rms md_mats md_mMap set_pMap set_objs g_ops g_mb g_rh].
  - intros k i. rewrite mget_put. destruct (String.eqb_spec k key) as [->|Hne].
    + intros H. injection H as <-. split; [exact Hk|]. exists NewPolicy, []. rewrite nth_snoc. fold n. now rewrite Nat.eqb_refl.
    + intros H. destruct (Vp _ _ H) as [X [p [ls E]]]. split; [exact X|]. exists p, ls. now apply Ext.
  - intros k k' i. rewrite !mget_put. destruct (String.eqb_spec k key) as [->|H1], (String.eqb_spec k' key) as [->|H2]; intros A B.
    + reflexivity.
    + injection A as <-. apply Lt in B. lia.
    + injection B as <-. apply Lt in A. lia.
    + eauto.
  - intros k i H. destruct (Vr _ _ H) as [rm [ls E]]. exists rm, ls. now apply Ext.
  - exact Vri.
  - intros i i' rm ls ls'. rewrite !nth_snoc. fold n. destruct (Nat.eqb i n), (Nat.eqb i' n); try discriminate. apply Vrm.
  - intros i p ls. rewrite nth_snoc. fold n. destruct (Nat.eqb_spec i n) as [->|Hne].
    + intros H. injection H as <- <-. now rewrite upd_same.
    + rewrite upd_other by exact Hne. apply Vo.
  - exact Vx.
  - intros i rm ls. rewrite nth_snoc. fold n. destruct (Nat.eqb i n); [discriminate|]. apply Vb.
  - intros i b ls. rewrite nth_snoc. fold n. destruct (Nat.eqb_spec i n) as [->|Hne]; [|apply Vl].
    intros H. injection H as <- <-. split; [constructor|intros j []].
  - intros j x H. destruct (Vm _ _ H) as [b [ls [A [B C]]]]. exists b, ls. split; [now apply Ext|]. split; [exact B|].
    intros p Hp. rewrite upd_other by (apply Lo in A; lia). now apply C with p.
  - destruct Vn. split; [now apply NoDup_mput|assumption].
  - exact Vmm.
Qed.

Lemma hist_alloc_p h m g key v o : p_key key -> Core m g -> Hist h m g ->
  Hist (h ++ [(o, CSetDef P_SEC key v)]) (alloc_p m key)
       (mkG (upd (g_ops g) (List.length (md_objs m)) []) (g_mb g) (g_rh g)).
Proof.
  intros Hk V [P Q]. unfold alloc_p, new_obj. constructor; cbn [md_pMap md_rpMap md_objs set_pMap set_objs g_ops g_rh].
  - intros k Hk'. rewrite p_history_snoc, <- P by exact Hk'. cbn [p_step]. rewrite mget_put, String.eqb_sym.
    destruct (String.eqb key k); cbn; [now rewrite upd_same|].
    destruct (mget k (md_pMap m)) as [i|] eqn:E; cbn; [|reflexivity].
    destruct (v_p _ _ V _ _ E) as [_ [p [ls En]]]. apply nth_lt in En. rewrite upd_other by lia. reflexivity.
  - intros k Hk'. rewrite g_history_snoc. cbn [g_step]. specialize (Q k Hk').
    destruct (mget k (md_rpMap m)) as [i|] eqn:E; [|exact Q]. destruct Q as [rm [ls [A B]]].
    exists rm, ls. split; [|exact B]. rewrite nth_snoc. destruct (Nat.eqb_spec i (List.length (md_objs m))); [|exact A].
    apply nth_lt in A. lia.
Qed.

Lemma core_del_p m g key : Core m g -> Core (set_pMap m (mdel key (md_pMap m))) g.
Proof.
  intros [Vp Vpi Vr Vri Vrm Vo Vx Vb Vl Vm Vn Vmm].
  constructor; cbn [md_pMap md_rpMap md_objs md_rms md_mats md_mMap set_pMap]; try assumption.
  - intros k i. rewrite mget_del. destruct (String.eqb k key); [discriminate|apply Vp].
  - intros k k' i. rewrite !mget_del. destruct (String.eqb k key), (String.eqb k' key); try discriminate. apply Vpi.
  - destruct Vn. split; [now apply NoDup_mdel|assumption].
Qed.
Lemma core_del_r m g key : Core m g -> Core (set_rpMap m (mdel key (md_rpMap m))) g.
Proof.
  intros [Vp Vpi Vr Vri Vrm Vo Vx Vb Vl Vm Vn Vmm].
  constructor; cbn [md_pMap md_rpMap md_objs md_rms md_mats md_mMap set_rpMap]; try assumption.
  - intros k i. rewrite mget_del. destruct (String.eqb k key); [discriminate|apply Vr].
  - intros k k' i. rewrite !mget_del. destruct (String.eqb k key), (String.eqb k' key); try discriminate. apply Vri.
  - destruct Vn. split; [assumption|now apply NoDup_mdel].
Qed.

(** A new role manager with its policy. *)
Definition alloc_r (m : model) (key : string) (x : irm) : model :=
  SetRoleManager (set_rms m (md_rms m ++ [x])) key (List.length (md_rms m)).

Lemma core_alloc_r m g key x : Core m g ->
  Core (alloc_r m key x) (mkG (g_ops g) (g_mb g) (upd (g_rh g) (List.length (md_rms m)) (x, []))).
Proof.
  intros [Vp Vpi Vr Vri Vrm Vo Vx Vb Vl Vm Vn Vmm]. unfold alloc_r, SetRoleManager, new_obj.
  cbn [md_objs set_rms]. set (n := List.length (md_objs m)). set (r := List.length (md_rms m)).
  assert (Lo : forall i o, nth_error (md_objs m) i = Some o -> i < n) by (intros; eapply nth_lt; eauto).
  assert (Ext : forall i o, nth_error (md_objs m) i = Some o -> nth_error (md_objs m ++ [mkObj (ORole r) []]) i = Some o).
  { intros i o H. rewrite nth_snoc. fold n. specialize (Lo _ _ H). destruct (Nat.eqb_spec i n); [lia|exact H]. }
  assert (Lr : forall k i, mget k (md_rpMap m) = Some i -> i < n).
  { intros k i H. destruct (Vr _ _ H) as [p [ls E]]. eauto. }
  constructor; cbn [md_pMap md_rpMap md_objs md_rms md_mats md_mMap set_pMap set_rpMap set_objs set_rms set_fm g_ops g_mb g_rh].
  - intros k i H. destruct (Vp _ _ H) as [X [p [ls E]]]. split; [exact X|]. exists p, ls. now apply Ext.
  - exact Vpi.
  - intros k i. rewrite mget_put. destruct (String.eqb_spec k key) as [->|Hne].
    + intros H. injection H as <-. exists r, []. rewrite nth_snoc. fold n. now rewrite Nat.eqb_refl.
    + intros H. destruct (Vr _ _ H) as [p [ls E]]. exists p, ls. now apply Ext.
  - intros k k' i. rewrite !mget_put. destruct (String.eqb_spec k key) as [->|H1], (String.eqb_spec k' key) as [->|H2]; intros A B.
    + reflexivity.
    + injection A as <-. apply Lr in B. lia.
    + injection B as <-. apply Lr in A. lia.
    + eauto.
  - intros i i' rm ls ls'. rewrite !nth_snoc. fold n. destruct (Nat.eqb_spec i n), (Nat.eqb_spec i' n); intros A B; try congruence.
    + injection A as <- <-. apply Vb in B. fold r in B. lia.
    + injection B as <- <-. apply Vb in A. fold r in A. lia.
    + eapply Vrm; eauto.
  - intros i p ls. rewrite nth_snoc. fold n. destruct (Nat.eqb i n); [discriminate|apply Vo].
  - intros q y. rewrite nth_snoc. fold r. destruct (Nat.eqb_spec q r) as [->|Hne].
    + intros H. injection H as <-. rewrite upd_same. exists []. reflexivity.
    + rewrite upd_other by exact Hne. apply Vx.
  - intros i rm ls. rewrite nth_snoc, app_length. fold n. cbn. destruct (Nat.eqb i n); intros H.
    + injection H as <- <-. unfold r. lia.
    + apply Vb in H. lia.
  - intros i b ls. rewrite nth_snoc. fold n. destruct (Nat.eqb_spec i n) as [->|Hne]; [|apply Vl].
    intros H. injection H as <- <-. split; [constructor|intros j []].
  - intros j y H. destruct (Vm _ _ H) as [b [ls [A [B C]]]]. exists b, ls. split; [now apply Ext|]. split; [exact B|exact C].
  - destruct Vn. split; [assumption|now apply NoDup_mput].
  - exact Vmm.
Qed.

Lemma hist_alloc_r h m g key x o c : Core m g -> Hist h m g ->
  (forall k acc, p_key k -> p_step k acc c = acc) ->
  (forall k acc, g_key k -> g_step k acc (o, c) = if String.eqb k key then Some (x, []) else acc) ->
  Hist (h ++ [(o, c)]) (alloc_r m key x) (mkG (g_ops g) (g_mb g) (upd (g_rh g) (List.length (md_rms m)) (x, []))).
Proof.
  intros V [P Q] Hp Hg. unfold alloc_r, SetRoleManager, new_obj.
  constructor; cbn [md_pMap md_rpMap md_objs set_pMap set_rpMap set_objs set_rms set_fm g_ops g_rh].
  - intros k Hk. rewrite p_history_snoc, Hp by exact Hk. now apply P.
  - intros k Hk. rewrite g_history_snoc, Hg by exact Hk. specialize (Q k Hk). rewrite mget_put.
    destruct (String.eqb k key).
    + exists (List.length (md_rms m)), []. rewrite nth_snoc, Nat.eqb_refl, upd_same. auto.
    + destruct (mget k (md_rpMap m)) as [i|] eqn:E; [|exact Q]. destruct Q as [rm [ls [A B]]]. exists rm, ls.
      rewrite nth_snoc. destruct (Nat.eqb_spec i (List.length (md_objs m))) as [->|]; [apply nth_lt in A; lia|].
      split; [exact A|]. rewrite upd_other; [exact B|]. apply (v_rmb _ _ V) in A. lia.
Qed.
