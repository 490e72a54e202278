(** Lemmas about role manager calls that run at the same time. *)
From Coq Require Import Lia.
From Verif Require Import GoBase GoBaseP RbacSpec PathM SyncRoleM SyncRoleSpec.
Local Open Scope list_scope.

(** ** Memory *)
Lemma nth_upd {A} (l : list A) f : forall i j, nth_error (upd_at l i f) j = if Nat.eqb i j then option_map f (nth_error l j) else nth_error l j.
Proof.
  induction l as [|x l IH]; intros [|i] [|j]; cbn; try reflexivity; [now destruct (Nat.eqb i j)|apply IH].
Qed.
Lemma nth_upd_same {A} (l : list A) f i x : nth_error l i = Some x -> nth_error (upd_at l i f) i = Some (f x).
Proof. intros H. now rewrite nth_upd, Nat.eqb_refl, H. Qed.
Lemma nth_upd_other {A} (l : list A) f i j : i <> j -> nth_error (upd_at l i f) j = nth_error l j.
Proof. intros H. rewrite nth_upd. now destruct (Nat.eqb_spec i j). Qed.
Lemma upd_length {A} (l : list A) f : forall i, List.length (upd_at l i f) = List.length l.
Proof. induction l as [|x l IH]; intros [|i]; cbn; auto. Qed.

Lemma field_set_same f v o : field f (set_field f v o) = v.
Proof. now destruct f. Qed.
Lemma field_set_other f g v o : f <> g -> field g (set_field f v o) = field g o.
Proof. destruct f, g; intros H; try reflexivity; now destruct H. Qed.
Lemma name_set f v o : o_name (set_field f v o) = o_name o.
Proof. now destruct f. Qed.
Lemma fld_dec (f g : fld) : {f = g} + {f <> g}.
Proof. decide equality. Defined.

Lemma fupd_heap m r f g r' o : nth_error (m_heap m) r' = Some o ->
  exists o', nth_error (m_heap (fupd m r f g)) r' = Some o' /\ o_name o' = o_name o.
Proof.
  intros H. cbn. rewrite nth_upd, H. destruct (Nat.eqb r r'); cbn; eexists; split; try reflexivity. apply name_set.
Qed.
Lemma name_fupd m r f g r' : name_at (fupd m r f g) r' = name_at m r'.
Proof.
  unfold name_at. cbn. rewrite nth_upd. destruct (Nat.eqb r r'); [|reflexivity]. destruct (nth_error (m_heap m) r'); cbn; [apply name_set|reflexivity].
Qed.
Lemma fget_fupd_same m r f g o : nth_error (m_heap m) r = Some o -> fget (fupd m r f g) r f = g (fget m r f).
Proof. intros H. unfold fget. cbn. now rewrite (nth_upd_same _ _ _ _ H), H, field_set_same. Qed.
Lemma fget_fupd_other m r f g r' f' : r <> r' \/ f <> f' -> fget (fupd m r f g) r' f' = fget m r' f'.
Proof.
  intros H. unfold fget. cbn. rewrite nth_upd. destruct (Nat.eqb_spec r r'); [|reflexivity].
  destruct (nth_error (m_heap m) r') as [o|]; cbn; [|reflexivity]. apply field_set_other. destruct H; congruence.
Qed.

(** A link as the role objects tell it, from both sides. *)
Definition lk (f : fld) (m : mem) (a b : string) : bool :=
  match mget a (m_all m) with Some u => mhas b (fget m u f) | None => false end.
Definition pres : mem -> string -> string -> bool := lk FRoles.
Definition presU : mem -> string -> string -> bool := lk FUsers.

(** ** Between phases *)
Record represents (m : mem) (L : linkset) (K : nameset) : Prop := mkRep {
  r_match : forall r f, f = FMatched \/ f = FMatchedBy -> fget m r f = [];
  r_known : forall n, K n = mhas n (m_all m);
  r_name : forall n r, mget n (m_all m) = Some r -> exists o, nth_error (m_heap m) r = Some o /\ o_name o = n;
  r_vals : forall r f k v, mget k (fget m r f) = Some v ->
    K (name_at m r) = true /\ mget (name_at m r) (m_all m) = Some r /\ K k = true /\ mget k (m_all m) = Some v;
  r_pres : forall a b, pres m a b = L a b;
  r_presU : forall a b, presU m b a = L a b
}.
Lemma rep_ext m L L' K K' : represents m L K -> (forall a b, L a b = L' a b) -> (forall n, K n = K' n) -> represents m L' K'.
Proof.
  intros [H1 H2 H3 H4 H5 H6] HL HK. constructor; auto; [intros n; now rewrite <- HK|intros r f k v E; rewrite <- !HK; eauto|intros a b; now rewrite <- HL..].
Qed.
Lemma rep_mem0 : represents mem0 no_links no_names.
Proof.
  constructor; try reflexivity; try discriminate.
  - intros r f _. unfold fget. cbn. now destruct r.
  - intros r f k v. unfold fget. cbn. destruct r; discriminate.
Qed.
Lemma rep_in m L K a b : represents m L K -> L a b = true -> K a = true /\ K b = true.
Proof.
  intros R H. split.
  - rewrite <- (r_pres _ _ _ R) in H. unfold pres, lk in H. rewrite (r_known _ _ _ R). unfold mhas. now destruct (mget a (m_all m)).
  - rewrite <- (r_presU _ _ _ R) in H. unfold presU, lk in H. rewrite (r_known _ _ _ R). unfold mhas. now destruct (mget b (m_all m)).
Qed.

(** ** During a phase *)
Section Phase.
  Variables (L : linkset) (K : nameset) (ops : list rop) (level : nat).
  Definition real (n : string) : bool := K n || updated ops n.
  Local Notation lo := (throughout L ops).
  Local Notation hi := (sometime L ops).

  Record Base (m : mem) : Prop := mkBase {
    b_match : forall r f, f = FMatched \/ f = FMatchedBy -> fget m r f = [];
    b_known : forall n, K n = true -> exists r, mget n (m_all m) = Some r;
    b_name : forall n r, mget n (m_all m) = Some r -> exists o, nth_error (m_heap m) r = Some o /\ o_name o = n;
    b_vals : forall r f k v, mget k (fget m r f) = Some v ->
      real (name_at m r) = true /\ mget (name_at m r) (m_all m) = Some r /\ real k = true /\ mget k (m_all m) = Some v;
    b_lo : forall a b, lo a b = true -> pres m a b = true /\ presU m b a = true;
    b_hi : forall a b, pres m a b = true -> hi a b = true;
    b_hiU : forall a b, presU m b a = true -> hi a b = true
  }.

  Definition node (m : mem) (x : string) (r : nat) : Prop :=
    (exists o, nth_error (m_heap m) r = Some o /\ o_name o = x) /\ (real x = true -> mget x (m_all m) = Some r).
  Definition is_got (m : mem) (g : got) : Prop := node m (g_name g) (g_ref g) /\ (g_new g = true -> K (g_name g) = false).
  Definition clean (cl : list string) : Prop := forall n, In n cl -> real n = false.

  (** Frames that collect nothing when no role is matched. *)
  Definition silent (fr : frame) : Prop :=
    match fr with
    | FrNew f _ b | FrOpen f _ b _ _ =>
        f = FMatched \/ f = FMatchedBy \/ b = BInner FMatched
    end.
  Definition side (f : fld) (E : linkset) (x k : string) : bool := match f with FUsers => E k x | _ => E x k end.
  Definition ranging (m : mem) (f : fld) (r : nat) (x : string) (fs : list frame) (acc : list (string * nat)) : Prop :=
    (f = FRoles \/ f = FUsers) /\ node m x r /\ NoDup (map fst acc) /\
    (forall k v, In (k, v) acc -> real k = true /\ mget k (m_all m) = Some v /\ side f hi x k = true) /\
    ((acc = [] /\ exists fs', fs = FrNew f r BCollect :: fs' /\ Forall silent fs') \/
     (exists must vis fs', fs = FrOpen f r BCollect must vis :: fs' /\ Forall silent fs' /\
        (forall k, side f lo x k = true -> In k must) /\ (forall k, In k vis <-> In k (map fst acc))) \/
     (Forall silent fs /\ forall k, side f lo x k = true -> In k (map fst acc))).

  (** The search of HasLink has found nothing yet, but may. *)
  Definition searching (m : mem) (a t : string) (l d : nat) (todo next : smap nat) : Prop :=
    a <> t /\ d + S l = level /\
    (forall x r, mget x todo = Some r -> node m x r /\ chain (edge hi) d a x) /\
    (forall x r, mget x next = Some r -> node m x r /\ chain (edge hi) (S d) a x).
  Definition still (a t : string) (l : nat) (todo next : smap nat) (here : Prop) : Prop :=
    (exists n, n < level /\ chain (edge lo) n a t) ->
    (exists n x r, mget x todo = Some r /\ n <= l /\ chain (edge lo) n x t) \/
    (exists n x r, mget x next = Some r /\ n < l /\ chain (edge lo) n x t) \/ here.

  Definition T (i : nat) (o : rop) (m : mem) (p : pc) : Prop :=
    match p with
    | PLoad o' gs n rest =>
        o' = o /\ map g_name gs ++ n :: rest = op_names o /\ Forall (is_got m) gs /\
        (forall a b, o = OHas a b -> a <> b)
    | PStore o' gs n rest =>
        o' = o /\ map g_name gs ++ n :: rest = op_names o /\ Forall (is_got m) gs /\
        (forall a b, o = OHas a b -> a <> b) /\ K n = false /\ (real n = true -> mget n (m_all m) = None)
    | PHasRole add u r =>
        exists a b, o = (if add then OAdd a b else ODel a b) /\ mget a (m_all m) = Some u /\ mget b (m_all m) = Some r
    | PSet l k =>
        exists a b u r, o = OAdd a b /\ mget a (m_all m) = Some u /\ mget b (m_all m) = Some r /\ k = PDone (YBool true) /\ L a b = false /\
          (l = [(u, FRoles, b, r); (r, FUsers, a, u)] \/ l = [(r, FUsers, a, u)] /\ pres m a b = true)
    | PUnset l k =>
        exists a b u r, o = ODel a b /\ mget a (m_all m) = Some u /\ mget b (m_all m) = Some r /\ k = PDone (YBool true) /\ L a b = true /\
          (l = [(u, FRoles, b); (r, FUsers, a)] \/ l = [(r, FUsers, a)] /\ pres m a b = false)
    | PLevel l t todo next cl =>
        clean cl /\ exists a d, o = OHas a t /\ searching m a t l d todo next /\ still a t l todo next False
    | PRange fs acc k cl =>
        clean cl /\
        match k with
        | KLevel l t todo next =>
            exists a d x r, o = OHas a t /\ searching m a t l d todo next /\ x <> t /\ chain (edge hi) d a x /\
              ranging m FRoles r x fs acc /\ still a t l todo next (exists n, n <= l /\ chain (edge lo) n x t)
        | KNames =>
            exists f x r, (o = ORoles x /\ f = FRoles \/ o = OUsers x /\ f = FUsers) /\ ranging m f r x fs acc
        end
    | PClean cl y => clean cl /\ updates o = false /\ answer_fits level L ops i y
    | PDelAll n _ cl y | PPatDel n cl y =>
        real n = false /\ clean cl /\ updates o = false /\ answer_fits level L ops i y
    | PRem f n _ _ cl y =>
        (f = FMatched \/ f = FMatchedBy) /\ real n = false /\ clean cl /\ updates o = false /\ answer_fits level L ops i y
    | PDone y =>
        answer_fits level L ops i y /\
        match o with
        | OAdd a b => (exists u, mget a (m_all m) = Some u) /\ (exists r, mget b (m_all m) = Some r) /\ pres m a b = true
        | ODel a b => (exists u, mget a (m_all m) = Some u) /\ (exists r, mget b (m_all m) = Some r) /\ pres m a b = false
        | _ => True
        end
    | PPat _ _ _ _ _ | PMatch _ _ _ _ _ _ _ | PLoadPat _ _ _ => False
    end.

  (** What a step of goroutine [j] leaves alone. *)
  Record guar (j : nat) (m m' : mem) : Prop := mkGuar {
    g_reg : forall n r, real n = true -> mget n (m_all m) = Some r -> mget n (m_all m') = Some r;
    g_heap : forall r o, nth_error (m_heap m) r = Some o -> exists o', nth_error (m_heap m') r = Some o' /\ o_name o' = o_name o;
    g_fresh : forall n r, real n = true -> K n = false -> mget n (m_all m) = None -> mget n (m_all m') = Some r ->
      exists o, nth_error ops j = Some o /\ mentions n o = true;
    g_adds : forall a b, adds ops a b = true -> pres m a b = true -> pres m' a b = true;
    g_dels : forall a b, dels ops a b = true -> pres m a b = false -> pres m' a b = false
  }.
  Lemma guar_same j m m' : m_heap m' = m_heap m -> m_all m' = m_all m -> guar j m m'.
  Proof.
    intros H1 H2. assert (P : forall a b, pres m' a b = pres m a b) by (intros; unfold pres, lk, fget; now rewrite H1, H2).
    constructor; rewrite ?H1, ?H2; auto; [eauto|congruence| |]; intros; now rewrite P.
  Qed.

  Lemma op_in i o : nth_error ops i = Some o -> In o ops.
  Proof. apply nth_error_In. Qed.
  Lemma add_in a b : In (OAdd a b) ops -> adds ops a b = true.
  Proof. intros H. apply existsb_exists. exists (OAdd a b). split; [exact H|]. now rewrite !String.eqb_refl. Qed.
  Lemma del_in a b : In (ODel a b) ops -> dels ops a b = true.
  Proof. intros H. apply existsb_exists. exists (ODel a b). split; [exact H|]. now rewrite !String.eqb_refl. Qed.
  Lemma adds_in a b : adds ops a b = true -> In (OAdd a b) ops.
  Proof.
    intros H. apply existsb_exists in H as [o [Hi H]]. destruct o; try discriminate. apply andb_true_iff in H as [H1 H2].
    apply String.eqb_eq in H1, H2. now subst.
  Qed.
  Lemma dels_in a b : dels ops a b = true -> In (ODel a b) ops.
  Proof.
    intros H. apply existsb_exists in H as [o [Hi H]]. destruct o; try discriminate. apply andb_true_iff in H as [H1 H2].
    apply String.eqb_eq in H1, H2. now subst.
  Qed.
  Lemma updated_in n : updated ops n = true -> exists i o, nth_error ops i = Some o /\ updates o = true /\ mentions n o = true.
  Proof.
    intros H. apply existsb_exists in H as [o [Hi H]]. apply andb_true_iff in H as [H1 H2]. apply In_nth_error in Hi as [i Hi]. eauto.
  Qed.
  Lemma in_updated i o n : nth_error ops i = Some o -> updates o = true -> mentions n o = true -> updated ops n = true.
  Proof. intros H1 H2 H3. apply existsb_exists. exists o. split; [eapply op_in; eauto|]. now rewrite H2, H3. Qed.
  Lemma update_real i o n : nth_error ops i = Some o -> updates o = true -> In n (op_names o) -> real n = true.
  Proof. intros H1 H2 H3. unfold real. rewrite (in_updated i o); auto; [apply orb_true_r|]. now apply sin_In. Qed.

  Hypothesis HT : tidy K ops.
  Hypothesis HLK : forall a b, L a b = true -> K a = true /\ K b = true.

  (** The names a query mentions are known or not real at all. *)
  Lemma query_real i o n : nth_error ops i = Some o -> updates o = false -> In n (op_names o) -> K n = false -> real n = false.
  Proof.
    intros H1 H2 H3 H4. unfold real. rewrite H4. cbn. destruct (updated ops n) eqn:U; [|reflexivity]. exfalso.
    apply updated_in in U as [j [o' [Hj [Hu Hm]]]]. destruct (proj2 HT n H4) as [A|A].
    - rewrite (A o') in Hu; [discriminate|eapply op_in; eauto|exact Hm].
    - assert (i = j) by (eapply A; eauto; now apply sin_In). subst j. congruence.
  Qed.
  (** An unknown real name belongs to one call. *)
  Lemma owner i j oi oj n : nth_error ops i = Some oi -> nth_error ops j = Some oj -> K n = false -> real n = true ->
    In n (op_names oi) -> mentions n oj = true -> i = j.
  Proof.
    intros Hi Hj Hk Hr H1 H2. unfold real in Hr. rewrite Hk in Hr. cbn in Hr. apply updated_in in Hr as [k [o [Ho [Hu Hm]]]].
    destruct (proj2 HT n Hk) as [A|A].
    - rewrite (A o) in Hu; [discriminate|eapply op_in; eauto|exact Hm].
    - eapply A; eauto. now apply sin_In.
  Qed.

  Lemma guar_node j m m' x r : guar j m m' -> node m x r -> node m' x r.
  Proof.
    intros G [[o [Ho Hn]] Hr]. split; [|intros H; eapply g_reg; eauto]. destruct (g_heap _ _ _ G _ _ Ho) as [o' [E1 E2]]. exists o'. split; congruence.
  Qed.
  Lemma guar_got j m m' g : guar j m m' -> is_got m g -> is_got m' g.
  Proof. intros G [H1 H2]. split; [eapply guar_node; eauto|exact H2]. Qed.
  Lemma guar_gots j m m' gs : guar j m m' -> Forall (is_got m) gs -> Forall (is_got m') gs.
  Proof. intros G H. eapply Forall_impl; [|exact H]. intros g. now apply guar_got with (j := j). Qed.
  Lemma guar_ranging j m m' f r x fs acc : guar j m m' -> ranging m f r x fs acc -> ranging m' f r x fs acc.
  Proof.
    intros G [H1 [H2 [H3 [H4 H5]]]]. split; [exact H1|]. split; [eapply guar_node; eauto|]. split; [exact H3|]. split; [|exact H5].
    intros k v Hk. destruct (H4 _ _ Hk) as [A [B C]]. split; [exact A|]. split; [eapply g_reg; eauto|exact C].
  Qed.
  Lemma guar_searching j m m' a t l d todo next : guar j m m' -> searching m a t l d todo next -> searching m' a t l d todo next.
  Proof.
    intros G [H1 [H2 [H3 H4]]]. split; [exact H1|]. split; [exact H2|].
    split; intros x r Hx; [destruct (H3 _ _ Hx)|destruct (H4 _ _ Hx)]; (split; [eapply guar_node; eauto|assumption]).
  Qed.

  (** What other goroutines do does not disturb a call. *)
  Lemma stable i j oi m m' p : i <> j -> nth_error ops i = Some oi -> guar j m m' -> T i oi m p -> T i oi m' p.
  Proof.
    intros Hij Hi G. pose proof (fun n => update_real i oi n Hi) as UR.
    destruct p; cbn [T]; intros H.
    - destruct H as [H1 [H2 [H3 H4]]]. repeat (split; [eauto using guar_gots|]). exact H4.
    - destruct H as [H1 [H2 [H3 [H4 [H5 H6]]]]]. repeat (split; [eauto using guar_gots|]). intros Hr. destruct (mget n (m_all m')) eqn:E; [|reflexivity]. exfalso.
      destruct (g_fresh _ _ _ G _ _ Hr H5 (H6 Hr) E) as [o' [Ho' Hm]]. apply Hij. eapply owner; eauto. rewrite <- H2. apply in_or_app. right. now left.
    - exact H.
    - exact H.
    - exact H.
    - destruct H as [a [b [u [r [-> [H1 [H2 [H3 [H4 H5]]]]]]]]]. exists a, b, u, r.
      split; [reflexivity|]. split; [eapply g_reg; eauto; apply UR; cbn; auto|]. split; [eapply g_reg; eauto; apply UR; cbn; auto|].
      split; [exact H3|]. split; [exact H4|]. destruct H5 as [H5|[H5 H6]]; [now left|right]. split; [exact H5|]. eapply g_adds; eauto. apply add_in. eapply op_in; eauto.
    - destruct H as [a [b [u [r [-> [H1 [H2 [H3 [H4 H5]]]]]]]]]. exists a, b, u, r.
      split; [reflexivity|]. split; [eapply g_reg; eauto; apply UR; cbn; auto|]. split; [eapply g_reg; eauto; apply UR; cbn; auto|].
      split; [exact H3|]. split; [exact H4|]. destruct H5 as [H5|[H5 H6]]; [now left|right]. split; [exact H5|]. eapply g_dels; eauto. apply del_in. eapply op_in; eauto.
    - destruct H as [a [b [-> [H1 H2]]]]. exists a, b. split; [reflexivity|].
      split; (eapply g_reg; [exact G| |eassumption]); apply UR; destruct add; cbn; auto.
    - destruct H as [H1 [a [d [H2 [H3 H4]]]]]. split; [exact H1|]. exists a, d. split; [exact H2|]. split; [eapply guar_searching; eauto|exact H4].
    - destruct H as [H1 H2]. split; [exact H1|]. destruct k as [l t todo next|].
      + destruct H2 as [a [d [x [r [H2 [H3 [H4 [H5 [H6 H7]]]]]]]]]. exists a, d, x, r.
        repeat (split; [eauto using guar_searching, guar_ranging|]). exact H7.
      + destruct H2 as [f [x [r [H2 H3]]]]. exists f, x, r. split; [exact H2|eapply guar_ranging; eauto].
    - exact H.
    - exact H.
    - exact H.
    - exact H.
    - destruct H as [H1 H2]. split; [exact H1|]. destruct oi; auto.
      + destruct H2 as [[u Hu] [[r Hr] H2]]. split; [exists u; eapply g_reg; eauto; apply UR; cbn; auto|].
        split; [exists r; eapply g_reg; eauto; apply UR; cbn; auto|]. eapply g_adds; eauto. apply add_in. eapply op_in; eauto.
      + destruct H2 as [[u Hu] [[r Hr] H2]]. split; [exists u; eapply g_reg; eauto; apply UR; cbn; auto|].
        split; [exists r; eapply g_reg; eauto; apply UR; cbn; auto|]. eapply g_dels; eauto. apply del_in. eapply op_in; eauto.
  Qed.

  (** ** One step *)
  Lemma at_name m n r : Base m -> mget n (m_all m) = Some r -> name_at m r = n.
  Proof. intros B H. destruct (b_name _ B _ _ H) as [o [Ho Hn]]. unfold name_at. now rewrite Ho. Qed.
  Lemma node_name m x r : node m x r -> name_at m r = x.
  Proof. intros [[o [Ho Hn]] _]. unfold name_at. now rewrite Ho. Qed.
  Lemma node_of m k v : Base m -> mget k (m_all m) = Some v -> node m k v.
  Proof. intros B H. split; [now apply (b_name _ B)|auto]. Qed.
  Lemma unreal_lk m f a b : Base m -> real a = false -> lk f m a b = false.
  Proof.
    intros B H. unfold lk. destruct (mget a (m_all m)) as [u|] eqn:E; [|reflexivity]. unfold mhas. destruct (mget b (fget m u f)) eqn:E2; [|reflexivity].
    apply (b_vals _ B) in E2 as [E2 _]. rewrite (at_name _ _ _ B E) in E2. congruence.
  Qed.
  Lemma lk_put m f f' u a b v a' b' : Base m -> mget a (m_all m) = Some u ->
    lk f' (fupd m u f (mput b v)) a' b' = (if fld_dec f f' then String.eqb a' a && String.eqb b' b else false) || lk f' m a' b'.
  Proof.
    intros B H. destruct (b_name _ B _ _ H) as [o [Ho Hn]]. unfold lk. cbn [m_all fupd].
    destruct (fld_dec f f') as [->|D].
    - destruct (String.eqb_spec a' a) as [->|N].
      + rewrite H. rewrite (fget_fupd_same _ _ _ _ _ Ho). unfold mhas. destruct (String.eqb_spec b' b) as [->|N]; cbn [andb orb].
        * now rewrite mget_put_eq.
        * now rewrite mget_put_neq by exact N.
      + cbn. destruct (mget a' (m_all m)) as [u'|] eqn:E; [|reflexivity]. rewrite fget_fupd_other; [reflexivity|]. left. intros ->.
        apply N. now rewrite <- (at_name _ _ _ B E), (at_name _ _ _ B H).
    - cbn. destruct (mget a' (m_all m)) as [u'|] eqn:E; [|reflexivity]. rewrite fget_fupd_other; auto.
  Qed.
  Lemma lk_del m f f' u a b a' b' : Base m -> mget a (m_all m) = Some u ->
    lk f' (fupd m u f (mdel b)) a' b' = negb (if fld_dec f f' then String.eqb a' a && String.eqb b' b else false) && lk f' m a' b'.
  Proof.
    intros B H. destruct (b_name _ B _ _ H) as [o [Ho Hn]]. unfold lk. cbn [m_all fupd].
    destruct (fld_dec f f') as [->|D].
    - destruct (String.eqb_spec a' a) as [->|N].
      + rewrite H. rewrite (fget_fupd_same _ _ _ _ _ Ho). unfold mhas. destruct (String.eqb_spec b' b) as [->|N]; cbn [andb orb negb].
        * now rewrite mget_del_eq.
        * now rewrite mget_del_neq by exact N.
      + cbn. destruct (mget a' (m_all m)) as [u'|] eqn:E; [|reflexivity]. rewrite fget_fupd_other; [reflexivity|]. left. intros ->.
        apply N. now rewrite <- (at_name _ _ _ B E), (at_name _ _ _ B H).
    - cbn. destruct (mget a' (m_all m)) as [u'|] eqn:E; [|reflexivity]. rewrite fget_fupd_other; auto.
  Qed.
  Lemma chain_snoc E n a b c : chain E n a b -> E b c -> chain E (S n) a c.
  Proof. intros H H1. induction H as [x|n x y z H2 H3 IH]; [econstructor; [exact H1|constructor]|]. econstructor; eauto. Qed.

  Definition mid (p : pc) : bool := match p with PSet [_] _ | PUnset [_] _ => true | _ => false end.
  Definition won (p : pc) : bool := match p with PSet [_] _ | PUnset [_] _ | PDone (YBool true) => true | _ => false end.
  Definition pending (p : pc) (n : string) : Prop :=
    match p with
    | PLoad _ gs _ _ | PStore _ gs _ _ => exists g, In g gs /\ g_new g = true /\ g_name g = n
    | PLevel _ _ _ _ cl | PRange _ _ _ cl | PClean cl _ | PRem _ _ _ _ cl _ | PPatDel _ cl _ => In n cl
    | PDelAll n' _ cl _ => n = n' \/ In n cl
    | _ => False
    end.
  Definition here (a b a' b' : string) : bool := String.eqb a' a && String.eqb b' b.
  Inductive effect (o : rop) (m : mem) (p : pc) (m' : mem) (p' : pc) : Prop :=
  | quiet : (forall a b, pres m' a b = pres m a b) -> (forall a b, presU m' b a = presU m b a) ->
      mid p = false -> (won p = true -> won p' = true) -> effect o m p m' p'
  | add1 a b : o = OAdd a b -> mid p = false -> mid p' = true -> won p' = true ->
      (forall a' b', pres m' a' b' = here a b a' b' || pres m a' b') -> (forall a' b', presU m' b' a' = presU m b' a') -> effect o m p m' p'
  | add2 a b : o = OAdd a b -> pres m a b = true -> won p' = true ->
      (forall a' b', pres m' a' b' = pres m a' b') -> (forall a' b', presU m' b' a' = here a b a' b' || presU m b' a') -> effect o m p m' p'
  | del1 a b : o = ODel a b -> mid p = false -> mid p' = true -> won p' = true ->
      (forall a' b', pres m' a' b' = negb (here a b a' b') && pres m a' b') -> (forall a' b', presU m' b' a' = presU m b' a') -> effect o m p m' p'
  | del2 a b : o = ODel a b -> pres m a b = false -> won p' = true ->
      (forall a' b', pres m' a' b' = pres m a' b') -> (forall a' b', presU m' b' a' = negb (here a b a' b') && presU m b' a') -> effect o m p m' p'.
  Definition passes (m : mem) (p : pc) (m' : mem) (p' : pc) : Prop :=
    forall n, real n = false -> mget n (m_all m') <> None -> pending p' n \/ (mget n (m_all m) <> None /\ (pending p n -> pending p' n)).

  Definition rivals (j : nat) (oj : rop) (m : mem) (p : pc) : Prop :=
    match oj with
    | OAdd a b => pres m a b = true -> won p = false -> L a b = true \/ exists i, i <> j /\ nth_error ops i = Some oj
    | ODel a b => pres m a b = false -> won p = false -> L a b = false \/ exists i, i <> j /\ nth_error ops i = Some oj
    | _ => True
    end.

  (** Steps that only move the call on. *)
  Definition moves (j : nat) (o : rop) (m : mem) (p p' : pc) : Prop := T j o m p' /\ mid p = false /\ (won p = true -> won p' = true) /\ (forall n, real n = false -> mget n (m_all m) <> None -> pending p n -> pending p' n).
  Definition step_goal (j : nat) (o : rop) (m : mem) (p : pc) (m' : mem) (p' : pc) : Prop :=
    Base m' /\ guar j m m' /\ T j o m' p' /\ effect o m p m' p' /\ passes m p m' p'.
  Lemma moves_ok j o m p p' : Base m -> moves j o m p p' -> step_goal j o m p m p'.
  Proof.
    intros B [H1 [H2 [H3 H4]]]. split; [exact B|]. split; [now apply guar_same|]. split; [exact H1|]. split; [now apply quiet|].
    intros n Hn Hr. right. split; [exact Hr|auto].
  Qed.

  Lemma names_of_one (gs : list got) a : map g_name gs = [a] -> exists g, gs = [g] /\ g_name g = a.
  Proof. destruct gs as [|g [|h gs]]; cbn; intros H; try discriminate. injection H as <-. eauto. Qed.
  Lemma names_of_two (gs : list got) a b : map g_name gs = [a; b] -> exists g h, gs = [g; h] /\ g_name g = a /\ g_name h = b.
  Proof. destruct gs as [|g [|h [|i gs]]]; cbn; intros H; try discriminate. injection H as <- <-. eauto. Qed.

  Lemma clean_new m j o gs : nth_error ops j = Some o -> updates o = false -> map g_name gs = op_names o -> Forall (is_got m) gs ->
    clean (map g_name (filter g_new (rev gs))).
  Proof.
    intros Hj Hu Hn Hg n H. apply in_map_iff in H as [g [<- H]]. apply filter_In in H as [H1 H2]. apply in_rev in H1.
    rewrite Forall_forall in Hg. destruct (Hg _ H1) as [_ Hk]. eapply query_real; eauto. rewrite <- Hn. now apply in_map.
  Qed.
  Lemma pend_new (gs : list got) n : (exists g, In g gs /\ g_new g = true /\ g_name g = n) -> In n (map g_name (filter g_new (rev gs))).
  Proof. intros [g [H1 [H2 <-]]]. apply in_map. apply filter_In. split; [now apply in_rev in H1|exact H2]. Qed.

  Lemma range_start m f x r : (f = FRoles \/ f = FUsers) -> node m x r -> ranging m f r x (range_frames f r) [].
  Proof.
    intros Hf Hn. split; [exact Hf|]. split; [exact Hn|]. split; [constructor|]. split; [intros k v []|]. left. split; [reflexivity|].
    eexists. split; [reflexivity|]. constructor; [cbn; auto|]. constructor; [cbn; auto|constructor].
  Qed.

  Lemma next_ok j o m gs rest : nth_error ops j = Some o -> Base m -> map g_name gs ++ rest = op_names o -> Forall (is_got m) gs ->
    (forall a b, o = OHas a b -> a <> b) ->
    T j o m (next_got level o gs rest) /\
    (forall n, real n = false -> (exists g, In g gs /\ g_new g = true /\ g_name g = n) -> pending (next_got level o gs rest) n).
  Proof.
    intros Hj B Hn Hg Hne. unfold next_got. destruct rest as [|n rest]; [|cbn; auto].
    rewrite app_nil_r in Hn.
    assert (UR : updates o = true -> forall n, real n = false -> ~ (exists g, In g gs /\ g_new g = true /\ g_name g = n)).
    { intros Hu n Hr [g [H1 [H2 H3]]]. rewrite (update_real j o n Hj Hu) in Hr; [discriminate|]. rewrite <- Hn, <- H3. now apply in_map. }
    assert (N : forall g, In g gs -> node m (g_name g) (g_ref g)) by (rewrite Forall_forall in Hg; intros g H; apply (Hg _ H)).
    assert (CN : updates o = false -> clean (map g_name (filter g_new (rev gs)))) by (intros Hu; eapply clean_new; eauto).
    unfold after_got. destruct o as [a b|a b|a b|a|a]; cbn [op_names] in Hn.
    - destruct (names_of_two _ _ _ Hn) as [g [h [-> [<- <-]]]]. split; [|intros n Hr X; exfalso; now apply (UR eq_refl n Hr)].
      exists (g_name g), (g_name h). split; [reflexivity|].
      split; [apply (N g)|apply (N h)]; cbn; auto; eapply update_real; eauto; cbn; auto.
    - destruct (names_of_two _ _ _ Hn) as [g [h [-> [<- <-]]]]. split; [|intros n Hr X; exfalso; now apply (UR eq_refl n Hr)].
      exists (g_name g), (g_name h). split; [reflexivity|].
      split; [apply (N g)|apply (N h)]; cbn; auto; eapply update_real; eauto; cbn; auto.
    - destruct (names_of_two _ _ _ Hn) as [g [h [-> [Ea Eb]]]]. specialize (CN eq_refl). rewrite Ea, Eb.
      assert (Hab : a <> b) by (now apply Hne).
      set (cl := map g_name (filter g_new (rev [g; h]))) in *. unfold enter. destruct level as [|l] eqn:El.
      + split; [|intros n _ X; now apply pend_new in X]. split; [exact CN|]. split; [reflexivity|]. unfold answer_fits. rewrite Hj.
        split; [|discriminate]. intros [X|[n [X _]]]; [contradiction|lia].
      + split; [|intros n _ X; now apply pend_new in X]. split; [exact CN|]. exists a, 0. split; [reflexivity|]. split.
        * split; [exact Hab|]. split; [now rewrite El|]. split; [|discriminate]. intros x r. cbn. destruct (String.eqb_spec x a) as [->|]; [|discriminate].
          intros [= <-]. split; [rewrite <- Ea; apply (N g); now left|constructor].
        * intros [n [X Y]]. left. exists n, a, (g_ref g). rewrite El in X. cbn. rewrite String.eqb_refl. split; [reflexivity|]. split; [lia|exact Y].
    - destruct (names_of_one _ _ Hn) as [g [-> Ea]]. split; [|intros n _ X; now apply pend_new in X]. split; [now apply CN|]. exists FRoles, a, (g_ref g). split; [now left|].
      apply range_start; [now left|]. rewrite <- Ea. apply (N g). now left.
    - destruct (names_of_one _ _ Hn) as [g [-> Ea]]. split; [|intros n _ X; now apply pend_new in X]. split; [now apply CN|]. exists FUsers, a, (g_ref g). split; [now right|].
      apply range_start; [now right|]. rewrite <- Ea. apply (N g). now left.
  Qed.

  (** Storing a new role. *)
  Definition stored (m : mem) (n : string) : mem :=
    mkMem (m_heap m ++ [mkObj n [] [] [] []]) (mput n (List.length (m_heap m)) (m_all m)) (m_pats m).
  Lemma stored_old m n r o : nth_error (m_heap m) r = Some o -> nth_error (m_heap (stored m n)) r = Some o.
  Proof. intros H. cbn. rewrite nth_error_app1; [exact H|]. apply nth_error_Some. congruence. Qed.
  Lemma stored_fget m n r f : fget (stored m n) r f = fget m r f.
  Proof.
    unfold fget. cbn. destruct (nth_error (m_heap m) r) as [o|] eqn:E.
    - rewrite nth_error_app1; [now rewrite E|]. apply nth_error_Some. congruence.
    - apply nth_error_None in E. rewrite nth_error_app2 by exact E. destruct (r - List.length (m_heap m)) as [|[|k]]; cbn; [now destruct f|reflexivity..].
  Qed.
  Lemma stored_name m n r o : nth_error (m_heap m) r = Some o -> name_at (stored m n) r = name_at m r.
  Proof. intros H. unfold name_at. now rewrite (stored_old _ _ _ _ H), H. Qed.
  Lemma fget_some m r f k v : mget k (fget m r f) = Some v -> exists o, nth_error (m_heap m) r = Some o.
  Proof. unfold fget. destruct (nth_error (m_heap m) r); [eauto|discriminate]. Qed.
  Lemma stored_lk m n f a b : Base m -> (real n = true -> mget n (m_all m) = None) -> lk f (stored m n) a b = lk f m a b.
  Proof.
    intros B Hn. destruct (String.eqb_spec a n) as [->|N].
    - transitivity false.
      + unfold lk. cbn [m_all stored]. rewrite mget_put_eq, stored_fget. unfold fget.
        now rewrite (proj2 (nth_error_None _ _) (Nat.le_refl _)).
      + symmetry. destruct (real n) eqn:R; [unfold lk; now rewrite (Hn eq_refl)|now apply unreal_lk].
    - unfold lk. cbn [m_all stored]. rewrite mget_put_neq by exact N. destruct (mget a (m_all m)); [|reflexivity]. now rewrite stored_fget.
  Qed.
  Lemma store_ok j o m gs n rest : nth_error ops j = Some o -> Base m -> T j o m (PStore o gs n rest) ->
    step_goal j o m (PStore o gs n rest) (stored m n) (next_got level o (gs ++ [mkGot n (List.length (m_heap m)) true]) rest).
  Proof.
    intros Hj B [_ [H2 [H3 [H4 [H5 H6]]]]].
    assert (NR : forall k v, real k = true -> mget k (m_all m) = Some v -> mget k (m_all (stored m n)) = Some v).
    { intros k v Hk E. cbn. rewrite mget_put_neq; [exact E|]. intros ->. rewrite (H6 Hk) in E. discriminate. }
    assert (B' : Base (stored m n)).
    { constructor.
      - intros r f Hf. rewrite stored_fget. now apply (b_match _ B).
      - intros k Hk. destruct (b_known _ B _ Hk) as [r Hr]. exists r. apply NR; [unfold real; now rewrite Hk|exact Hr].
      - intros k r. cbn. rewrite mget_put. destruct (String.eqb_spec k n) as [->|N].
        + intros [= <-]. rewrite nth_error_app2 by lia. rewrite Nat.sub_diag. cbn. eauto.
        + intros E. destruct (b_name _ B _ _ E) as [ob [Ho Hn]]. exists ob. split; [|exact Hn]. rewrite nth_error_app1; [exact Ho|]. apply nth_error_Some. congruence.
      - intros r f k v. rewrite stored_fget. intros E. destruct (fget_some _ _ _ _ _ E) as [ob Ho]. rewrite (stored_name _ _ _ _ Ho).
        destruct (b_vals _ B _ _ _ _ E) as [A1 [A2 [A3 A4]]]. auto.
      - intros a b Hl. destruct (b_lo _ B _ _ Hl) as [A1 A2]. unfold pres, presU. rewrite !stored_lk by assumption. auto.
      - intros a b. unfold pres. rewrite stored_lk by assumption. apply (b_hi _ B).
      - intros a b. unfold presU. rewrite stored_lk by assumption. apply (b_hiU _ B). }
    assert (G : guar j m (stored m n)).
    { constructor.
      - intros k r. apply NR.
      - intros r ob Ho. exists ob. split; [now apply stored_old|reflexivity].
      - intros k r Hk Kk E. cbn. rewrite mget_put. destruct (String.eqb_spec k n) as [->|N]; [|congruence]. intros _. exists o. split; [exact Hj|].
        apply sin_In. rewrite <- H2. apply in_or_app. right. now left.
      - intros a b _. unfold pres. now rewrite stored_lk.
      - intros a b _. unfold pres. now rewrite stored_lk. }
    assert (Gs : Forall (is_got (stored m n)) (gs ++ [mkGot n (List.length (m_heap m)) true])).
    { apply Forall_app. split; [eapply guar_gots; eauto|]. constructor; [|constructor]. split; [|intros _; exact H5]. split.
      - cbn. rewrite nth_error_app2 by lia. rewrite Nat.sub_diag. cbn. eauto.
      - intros _. cbn. apply mget_put_eq. }
    assert (E2 : map g_name (gs ++ [mkGot n (List.length (m_heap m)) true]) ++ rest = op_names o) by (rewrite map_app, <- app_assoc; exact H2).
    destruct (next_ok j o (stored m n) _ rest Hj B' E2 Gs H4) as [TT PP].
    split; [exact B'|]. split; [exact G|]. split; [exact TT|]. split.
    - apply quiet; [intros; unfold pres; now apply stored_lk|intros; unfold presU; now apply stored_lk|reflexivity|discriminate].
    - intros k Hk Hr. destruct (String.eqb_spec k n) as [->|N].
      + left. apply PP; [exact Hk|]. eexists. split; [apply in_or_app; right; left; reflexivity|auto].
      + right. split; [cbn in Hr; now rewrite mget_put_neq in Hr|]. intros [g [X1 [X2 X3]]]. apply PP; [exact Hk|]. exists g. split; [apply in_or_app; now left|auto].
  Qed.

  (** Deleting a role that a query made. *)
  Lemma delall_ok j o m n r cl y : nth_error ops j = Some o -> Base m -> T j o m (PDelAll n r cl y) ->
    step_goal j o m (PDelAll n r cl y) (mkMem (m_heap m) (mdel n (m_all m)) (m_pats m)) (PRem FMatched n r None cl y).
  Proof.
    intros Hj B [Hn [H1 [H2 H3]]]. set (m' := mkMem (m_heap m) (mdel n (m_all m)) (m_pats m)).
    assert (KR : forall k, real k = true -> mget k (m_all m') = mget k (m_all m)) by (intros k Hk; cbn; apply mget_del_neq; congruence).
    assert (LK : forall f a b, lk f m' a b = lk f m a b).
    { intros f a b. destruct (real a) eqn:R; [unfold lk; now rewrite KR|]. rewrite (unreal_lk m) by assumption. unfold lk. cbn.
      rewrite mget_del. destruct (String.eqb a n); [reflexivity|]. now apply (unreal_lk m). }
    assert (B' : Base m').
    { constructor.
      - apply (b_match _ B).
      - intros k Hk. rewrite KR by (unfold real; now rewrite Hk). now apply (b_known _ B).
      - intros k x E. apply (b_name _ B). cbn in E. rewrite mget_del in E. destruct (String.eqb k n); [discriminate|exact E].
      - intros x f k v E. destruct (b_vals _ B _ _ _ _ E) as [A1 [A2 [A3 A4]]]. change (name_at m' x) with (name_at m x). rewrite !KR; auto.
      - intros a b Hl. unfold pres, presU. rewrite !LK. now apply (b_lo _ B).
      - intros a b. unfold pres. rewrite LK. apply (b_hi _ B).
      - intros a b. unfold presU. rewrite LK. apply (b_hiU _ B). }
    split; [exact B'|]. split.
    { constructor.
      - intros k x Hk. now rewrite KR.
      - intros x ob Ho. exists ob. auto.
      - intros k x Hk _ E1 E2. rewrite KR in E2 by exact Hk. congruence.
      - intros a b _. unfold pres. now rewrite LK.
      - intros a b _. unfold pres. now rewrite LK. }
    split; [cbn; auto|]. split; [apply quiet; [intros; apply LK|intros; apply LK|reflexivity|discriminate]|].
    intros k Hk Hr. cbn in Hr |- *. rewrite mget_del in Hr. destruct (String.eqb_spec k n) as [->|N]; [congruence|]. right. split; [exact Hr|]. intros [->|X]; [congruence|exact X].
  Qed.

  (** Adding and removing entries of a link. *)
  Lemma tidy_dels a b : dels ops a b = true -> adds ops a b = false.
  Proof. intros H. destruct (adds ops a b) eqn:E; [|reflexivity]. rewrite (proj1 HT _ _ E) in H. discriminate. Qed.
  Lemma put_base m f u a b v : Base m -> (f = FRoles \/ f = FUsers) -> mget a (m_all m) = Some u -> mget b (m_all m) = Some v ->
    real a = true -> real b = true -> side f hi a b = true -> Base (fupd m u f (mput b v)).
  Proof.
    intros B Hf Ha Hb Ra Rb Hs. destruct (b_name _ B _ _ Ha) as [ob [Ho Hn]].
    assert (LK : forall f' a' b', lk f' (fupd m u f (mput b v)) a' b' = (if fld_dec f f' then String.eqb a' a && String.eqb b' b else false) || lk f' m a' b')
      by (intros; now apply lk_put).
    constructor.
    - intros r f' Hf'. rewrite fget_fupd_other; [now apply (b_match _ B)|]. right. destruct Hf as [->| ->], Hf' as [->| ->]; discriminate.
    - intros n Hk. cbn. now apply (b_known _ B).
    - intros n r E. destruct (b_name _ B _ _ E) as [o1 [E1 E2]]. destruct (fupd_heap m u f (mput b v) r o1 E1) as [o2 [E3 E4]]. exists o2. split; congruence.
    - intros r f' k w. rewrite name_fupd. cbn [m_all fupd]. destruct (Nat.eq_dec u r) as [<-|N].
      + destruct (fld_dec f f') as [<-|N].
        * rewrite (fget_fupd_same _ _ _ _ _ Ho), mget_put. destruct (String.eqb_spec k b) as [->|N]; [|apply (b_vals _ B)].
          intros [= <-]. rewrite (at_name _ _ _ B Ha). auto.
        * rewrite fget_fupd_other by auto. apply (b_vals _ B).
      + rewrite fget_fupd_other by auto. apply (b_vals _ B).
    - intros a' b' Hl. destruct (b_lo _ B _ _ Hl) as [A1 A2]. unfold pres, presU in *. rewrite !LK, A1, A2. now rewrite !orb_true_r.
    - intros a' b'. unfold pres. rewrite LK. destruct (fld_dec f FRoles) as [->|]; cbn [orb]; [|apply (b_hi _ B)].
      intros X. apply orb_true_iff in X as [X|X]; [|now apply (b_hi _ B)]. apply andb_true_iff in X as [X1 X2]. apply String.eqb_eq in X1, X2. now subst.
    - intros a' b'. unfold presU. rewrite LK. destruct (fld_dec f FUsers) as [->|]; cbn [orb]; [|apply (b_hiU _ B)].
      intros X. apply orb_true_iff in X as [X|X]; [|now apply (b_hiU _ B)]. apply andb_true_iff in X as [X1 X2]. apply String.eqb_eq in X1, X2. now subst.
  Qed.
  Lemma del_base m f u a b : Base m -> (f = FRoles \/ f = FUsers) -> mget a (m_all m) = Some u ->
    side f lo a b = false -> Base (fupd m u f (mdel b)).
  Proof.
    intros B Hf Ha Hs. destruct (b_name _ B _ _ Ha) as [ob [Ho Hn]].
    assert (LK : forall f' a' b', lk f' (fupd m u f (mdel b)) a' b' = negb (if fld_dec f f' then String.eqb a' a && String.eqb b' b else false) && lk f' m a' b')
      by (intros; now apply lk_del).
    constructor.
    - intros r f' Hf'. rewrite fget_fupd_other; [now apply (b_match _ B)|]. right. destruct Hf as [->| ->], Hf' as [->| ->]; discriminate.
    - intros n Hk. cbn. now apply (b_known _ B).
    - intros n r E. destruct (b_name _ B _ _ E) as [o1 [E1 E2]]. destruct (fupd_heap m u f (mdel b) r o1 E1) as [o2 [E3 E4]]. exists o2. split; congruence.
    - intros r f' k w. rewrite name_fupd. cbn [m_all fupd]. destruct (Nat.eq_dec u r) as [<-|N].
      + destruct (fld_dec f f') as [<-|N].
        * rewrite (fget_fupd_same _ _ _ _ _ Ho), mget_del. destruct (String.eqb_spec k b) as [->|N]; [discriminate|apply (b_vals _ B)].
        * rewrite fget_fupd_other by auto. apply (b_vals _ B).
      + rewrite fget_fupd_other by auto. apply (b_vals _ B).
    - intros a' b' Hl. destruct (b_lo _ B _ _ Hl) as [A1 A2]. unfold pres, presU in *. rewrite !LK, A1, A2, !andb_true_r.
      split; apply negb_true_iff; destruct Hf as [->| ->]; cbn;
        match goal with |- context [if ?d then _ else _] => destruct d as [Hd|Hd]; try discriminate Hd; try reflexivity | _ => idtac end;
        try reflexivity; apply andb_false_iff;
        match goal with |- (?x =? ?y)%string = false \/ (?z =? ?w)%string = false =>
          destruct (String.eqb_spec x y); [|now left]; destruct (String.eqb_spec z w); [|now right]; subst; cbn in Hs; congruence end.
    - intros a' b'. unfold pres. rewrite LK. intros X. apply andb_true_iff in X as [_ X]. now apply (b_hi _ B).
    - intros a' b'. unfold presU. rewrite LK. intros X. apply andb_true_iff in X as [_ X]. now apply (b_hiU _ B).
  Qed.

  Lemma eqb_here a b a' b' : String.eqb a' a && String.eqb b' b = here a b a' b'.
  Proof. reflexivity. Qed.
  Lemma eqb_here2 a b a' b' : String.eqb b' b && String.eqb a' a = here a b a' b'.
  Proof. apply andb_comm. Qed.

  Lemma set_ok j o m l k : nth_error ops j = Some o -> Base m -> T j o m (PSet l k) ->
    forall m' p', tstep None level None m (PSet l k) = Val (m', p') -> step_goal j o m (PSet l k) m' p'.
  Proof.
    intros Hj B [a [b [u [r [-> [Ha [Hb [-> [HL Hl]]]]]]]]] m' p'.
    assert (Ra : real a = true) by (eapply update_real; eauto; cbn; auto).
    assert (Rb : real b = true) by (eapply update_real; eauto; cbn; auto).
    assert (Ad : adds ops a b = true) by (apply add_in; eapply op_in; eauto).
    assert (Hh : hi a b = true) by (unfold sometime; rewrite Ad; apply orb_true_r).
    destruct Hl as [->|[-> Hp]]; cbn [tstep]; intros [= <- <-].
    - assert (B' : Base (fupd m u FRoles (mput b r))) by (apply (put_base m FRoles u a b r); auto).
      assert (P1 : forall a' b', pres (fupd m u FRoles (mput b r)) a' b' = here a b a' b' || pres m a' b')
        by (intros; unfold pres; rewrite (lk_put m FRoles FRoles u a b) by assumption; reflexivity).
      assert (P2 : forall a' b', presU (fupd m u FRoles (mput b r)) b' a' = presU m b' a')
        by (intros; unfold presU; now rewrite (lk_put m FRoles FUsers u a b) by assumption).
      split; [exact B'|]. split.
      { constructor; auto; [intros x ob Ho; now apply fupd_heap|intros n x _ _ E1 E2; cbn in E2; congruence|..].
        - intros a' b' _ X. rewrite P1, X. apply orb_true_r.
        - intros a' b' X Y. rewrite P1, Y, orb_false_r. unfold here. destruct (String.eqb_spec a' a) as [->|]; [|reflexivity].
          destruct (String.eqb_spec b' b) as [->|]; [|reflexivity]. apply tidy_dels in X. congruence. }
      split.
      { exists a, b, u, r. repeat (split; [auto|]). right. split; [reflexivity|]. rewrite P1. unfold here. now rewrite !String.eqb_refl. }
      split; [apply (add1 _ _ _ _ _ a b); auto|]. intros n Hn Hr. right. split; [exact Hr|intros []].
    - assert (B' : Base (fupd m r FUsers (mput a u))) by (apply (put_base m FUsers r b a u); auto).
      assert (P1 : forall a' b', pres (fupd m r FUsers (mput a u)) a' b' = pres m a' b')
        by (intros; unfold pres; now rewrite (lk_put m FUsers FRoles r b a) by assumption).
      assert (P2 : forall a' b', presU (fupd m r FUsers (mput a u)) b' a' = here a b a' b' || presU m b' a')
        by (intros; unfold presU; rewrite (lk_put m FUsers FUsers r b a) by assumption; cbn; now rewrite eqb_here2).
      split; [exact B'|]. split.
      { constructor; auto; [intros x ob Ho; now apply fupd_heap|intros n x _ _ E1 E2; cbn in E2; congruence|..]; intros a' b' _ X; now rewrite P1. }
      split.
      { split; [|split; [eauto|split; [eauto|now rewrite P1]]]. unfold answer_fits. rewrite Hj. split; [congruence|]. intros _. now rewrite HL. }
      split; [apply (add2 _ _ _ _ _ a b); auto|]. intros n Hn Hr. right. split; [exact Hr|intros []].
  Qed.
  Lemma unset_ok j o m l k : nth_error ops j = Some o -> Base m -> T j o m (PUnset l k) ->
    forall m' p', tstep None level None m (PUnset l k) = Val (m', p') -> step_goal j o m (PUnset l k) m' p'.
  Proof.
    intros Hj B [a [b [u [r [-> [Ha [Hb [-> [HL Hl]]]]]]]]] m' p'.
    assert (De : dels ops a b = true) by (apply del_in; eapply op_in; eauto).
    assert (Hlo : lo a b = false) by (unfold throughout; rewrite De; apply andb_false_r).
    destruct Hl as [->|[-> Hp]]; cbn [tstep]; intros [= <- <-].
    - assert (B' : Base (fupd m u FRoles (mdel b))) by (apply (del_base m FRoles u a b); auto).
      assert (P1 : forall a' b', pres (fupd m u FRoles (mdel b)) a' b' = negb (here a b a' b') && pres m a' b')
        by (intros; unfold pres; rewrite (lk_del m FRoles FRoles u a b) by assumption; reflexivity).
      assert (P2 : forall a' b', presU (fupd m u FRoles (mdel b)) b' a' = presU m b' a')
        by (intros; unfold presU; now rewrite (lk_del m FRoles FUsers u a b) by assumption).
      split; [exact B'|]. split.
      { constructor; auto; [intros x ob Ho; now apply fupd_heap|intros n x _ _ E1 E2; cbn in E2; congruence|..].
        - intros a' b' X Y. rewrite P1, Y, andb_true_r. apply negb_true_iff. unfold here. destruct (String.eqb_spec a' a) as [->|]; [|reflexivity].
          destruct (String.eqb_spec b' b) as [->|]; [|reflexivity]. apply tidy_dels in De. congruence.
        - intros a' b' _ X. rewrite P1, X. apply andb_false_r. }
      split.
      { exists a, b, u, r. repeat (split; [auto|]). right. split; [reflexivity|]. rewrite P1. unfold here. now rewrite !String.eqb_refl. }
      split; [apply (del1 _ _ _ _ _ a b); auto|]. intros n Hn Hr. right. split; [exact Hr|intros []].
    - assert (B' : Base (fupd m r FUsers (mdel a))) by (apply (del_base m FUsers r b a); auto).
      assert (P1 : forall a' b', pres (fupd m r FUsers (mdel a)) a' b' = pres m a' b')
        by (intros; unfold pres; now rewrite (lk_del m FUsers FRoles r b a) by assumption).
      assert (P2 : forall a' b', presU (fupd m r FUsers (mdel a)) b' a' = negb (here a b a' b') && presU m b' a')
        by (intros; unfold presU; rewrite (lk_del m FUsers FUsers r b a) by assumption; cbn; now rewrite eqb_here2).
      split; [exact B'|]. split.
      { constructor; auto; [intros x ob Ho; now apply fupd_heap|intros n x _ _ E1 E2; cbn in E2; congruence|..]; intros a' b' _ X; now rewrite P1. }
      split.
      { split; [|split; [eauto|split; [eauto|now rewrite P1]]]. unfold answer_fits. rewrite Hj. split; [congruence|]. intros _. now rewrite HL. }
      split; [apply (del2 _ _ _ _ _ a b); auto|]. intros n Hn Hr. right. split; [exact Hr|intros []].
  Qed.

  Lemma hasrole_ok j o m add u r : nth_error ops j = Some o -> Base m -> rivals j o m (PHasRole add u r) -> T j o m (PHasRole add u r) ->
    forall m' p', tstep None level None m (PHasRole add u r) = Val (m', p') -> step_goal j o m (PHasRole add u r) m' p'.
  Proof.
    intros Hj B Hv [a [b [Eo [Ha Hb]]]] m' p'. cbn [tstep]. rewrite (at_name _ _ _ B Hb), (at_name _ _ _ B Ha).
    assert (EP : mhas b (fget m u FRoles) = pres m a b) by (unfold pres, lk; now rewrite Ha).
    rewrite EP. destruct add; subst o; cbn [rivals won] in Hv.
    - assert (Ad : adds ops a b = true) by (apply add_in; eapply op_in; eauto).
      destruct (pres m a b) eqn:P; cbn [Bool.eqb]; intros [= <- <-]; apply moves_ok; auto; (split; [|split; [reflexivity|split; [discriminate|intros n _ _ []]]]).
      + split; [|split; [eauto|split; [eauto|exact P]]]. unfold answer_fits. rewrite Hj. split; [auto|]. intros Hu. destruct (Hv eq_refl eq_refl) as [->|[i [Hi1 Hi2]]]; [reflexivity|]. now apply Hu in Hi2.
      + exists a, b, u, r. split; [reflexivity|]. split; [exact Ha|]. split; [exact Hb|]. split; [reflexivity|]. split; [|now left]. destruct (L a b) eqn:EL; [|reflexivity].
        assert (X : lo a b = true) by (unfold throughout; now rewrite EL, (proj1 HT _ _ Ad)). apply (b_lo _ B) in X as [X _]. congruence.
    - assert (De : dels ops a b = true) by (apply del_in; eapply op_in; eauto).
      destruct (pres m a b) eqn:P; cbn [Bool.eqb]; intros [= <- <-]; apply moves_ok; auto; (split; [|split; [reflexivity|split; [discriminate|intros n _ _ []]]]).
      + exists a, b, u, r. split; [reflexivity|]. split; [exact Ha|]. split; [exact Hb|]. split; [reflexivity|]. split; [|now left]. apply (b_hi _ B) in P. unfold sometime in P. rewrite (tidy_dels _ _ De), orb_false_r in P. exact P.
      + split; [|split; [eauto|split; [eauto|exact P]]]. unfold answer_fits. rewrite Hj. split; [auto|]. intros Hu. destruct (Hv eq_refl eq_refl) as [->|[i [Hi1 Hi2]]]; [reflexivity|]. now apply Hu in Hi2.
  Qed.

  Lemma level_ok j o m l t todo next cl ch : nth_error ops j = Some o -> Base m -> T j o m (PLevel l t todo next cl) ->
    forall m' p', tstep None level ch m (PLevel l t todo next cl) = Val (m', p') -> step_goal j o m (PLevel l t todo next cl) m' p'.
  Proof.
    intros Hj B HTT m' p'. pose proof HTT as [Hc [a [d [-> [[Hat [Hd [Htd Hnx]]] Hs]]]]]. cbn [tstep].
    destruct todo as [|kv todo']; cbv beta iota zeta.
    - intros [= <- <-]. apply moves_ok; auto. unfold enter.
      assert (NF : (l = 0 \/ next = []) -> T j (OHas a t) m (PClean cl (YBool false))).
      { intros Hl. split; [exact Hc|]. split; [reflexivity|]. unfold answer_fits. rewrite Hj. split; [|discriminate].
        intros [X|X]; [contradiction|]. exfalso. destruct (Hs X) as [[n [x [r [Y _]]]]|[[n [x [r [Y [Z _]]]]]|[]]]; [discriminate|].
        destruct Hl as [->| ->]; [lia|discriminate]. }
      destruct l as [|l']; [split; [apply NF; now left|split; [reflexivity|split; [discriminate|auto]]]|].
      destruct next as [|kv next']; [split; [apply NF; now right|split; [reflexivity|split; [discriminate|auto]]]|].
      split; [|split; [reflexivity|split; [discriminate|auto]]].
      split; [exact Hc|]. exists a, (S d). split; [reflexivity|]. split.
      + split; [exact Hat|]. split; [lia|]. split; [exact Hnx|discriminate].
      + intros X. destruct (Hs X) as [[n [x [r [Y _]]]]|[[n [x [r [Y [Z W]]]]]|[]]]; [discriminate|]. left. exists n, x, r. split; [exact Y|]. split; [lia|exact W].
    - remember (kv :: todo') as todo eqn:Etodo. destruct ch as [k|]; [|intros [= <- <-]; apply moves_ok; auto; split; [exact HTT|split; [reflexivity|split; [auto|auto]]]].
      destruct (mget k todo) as [r|] eqn:Ek; [|intros [= <- <-]; apply moves_ok; auto; split; [exact HTT|split; [reflexivity|split; [auto|auto]]]].
      destruct (Htd _ _ Ek) as [Hnode Hch]. rewrite (node_name _ _ _ Hnode). cbn [match_set orb]. rewrite orb_false_r.
      destruct (String.eqb_spec t k) as [<-|Nk]; intros [= <- <-]; apply moves_ok; auto; (split; [|split; [reflexivity|split; [discriminate|auto]]]).
      + split; [exact Hc|]. split; [reflexivity|]. unfold answer_fits. rewrite Hj. split; [reflexivity|]. intros _. right. exists d. split; [lia|exact Hch].
      + split; [exact Hc|]. exists a, d, k, r. split; [reflexivity|]. split.
        { split; [exact Hat|]. split; [exact Hd|]. split; [|exact Hnx]. intros x y. rewrite mget_del. destruct (String.eqb x k); [discriminate|apply Htd]. }
        split; [congruence|]. split; [exact Hch|]. split; [apply range_start; auto|].
        intros X. destruct (Hs X) as [[n [x [y [Y [Z W]]]]]|[Y|[]]]; [|right; now left].
        destruct (String.eqb_spec x k) as [->|N]; [right; right; eauto|]. left. exists n, x, y. rewrite mget_del_neq by exact N. auto.
  Qed.

  Lemma fold_put_in (acc : list (string * nat)) : forall next x r, mget x (fold_left (fun nx kv => mput (fst kv) (snd kv) nx) acc next) = Some r ->
    In (x, r) acc \/ mget x next = Some r.
  Proof.
    induction acc as [|[k v] acc IH]; cbn; intros next x r H; [now right|]. destruct (IH _ _ _ H) as [X|X]; [auto|].
    rewrite mget_put in X. destruct (String.eqb_spec x k) as [->|]; [injection X as ->; auto|auto].
  Qed.
  Lemma fold_put_has (acc : list (string * nat)) : forall next x, (In x (map fst acc) \/ exists r, mget x next = Some r) ->
    exists r, mget x (fold_left (fun nx kv => mput (fst kv) (snd kv) nx) acc next) = Some r.
  Proof.
    induction acc as [|[k v] acc IH]; cbn; intros next x H; [now destruct H as [[]|H]|]. apply IH.
    destruct H as [[->|H]|[r H]]; [right; rewrite mget_put_eq; eauto|now left|]. right. rewrite mget_put. destruct (String.eqb x k); eauto.
  Qed.

  Lemma in_keys {V} k (m : smap V) : In k (mkeys m) <-> exists v, mget k m = Some v.
  Proof.
    destruct (mget k m) as [v|] eqn:E.
    - split; [eauto|]. intros _. destruct (in_dec string_dec k (mkeys m)) as [H|H]; [exact H|]. apply mget_None in H. congruence.
    - apply mget_None in E. split; [contradiction|]. intros [v H]. discriminate.
  Qed.
  (** What lies on a side of a role during a phase. *)
  Lemma side_lo m f r x k : Base m -> (f = FRoles \/ f = FUsers) -> node m x r -> side f lo x k = true -> exists v, mget k (fget m r f) = Some v.
  Proof.
    intros B Hf [_ Hn] H.
    assert (Kx : K x = true).
    { destruct Hf as [->| ->]; cbn in H; unfold throughout in H; apply andb_true_iff in H as [H _]; now apply HLK in H. }
    assert (E : mget x (m_all m) = Some r) by (apply Hn; unfold real; now rewrite Kx).
    assert (X : lk f m x k = true).
    { destruct Hf as [->| ->]; cbn in H; apply (b_lo _ B) in H; apply H. }
    unfold lk in X. rewrite E in X. now apply mhas_true in X.
  Qed.
  Lemma side_hi m f r x k v : Base m -> (f = FRoles \/ f = FUsers) -> node m x r -> mget k (fget m r f) = Some v -> side f hi x k = true.
  Proof.
    intros B Hf Hn E. destruct (b_vals _ B _ _ _ _ E) as [A1 [A2 _]]. rewrite (node_name _ _ _ Hn) in A1, A2.
    assert (X : lk f m x k = true) by (unfold lk; rewrite A2; apply mhas_true; eauto).
    destruct Hf as [->| ->]; cbn; [now apply (b_hi _ B)|now apply (b_hiU _ B)].
  Qed.

  (** The steps of a Range keep [ranging]. *)
  Inductive rstep_to (ch : option string) (m : mem) : list frame -> list (string * nat) -> list frame -> list (string * nat) -> Prop :=
  | rs_wait fs acc : rstep_to ch m fs acc fs acc
  | rs_open f r b fs acc : rstep_to ch m (FrNew f r b :: fs) acc (FrOpen f r b (mkeys (fget m r f)) [] :: fs) acc
  | rs_collect f r must vis fs acc x v : may_visit vis (mkeys (fget m r f)) x = true -> mget x (fget m r f) = Some v ->
      rstep_to ch m (FrOpen f r BCollect must vis :: fs) acc (FrOpen f r BCollect must (x :: vis) :: fs) (acc ++ [(x, v)])
  | rs_inner f r g must vis fs acc x v : mget x (fget m r f) = Some v ->
      rstep_to ch m (FrOpen f r (BInner g) must vis :: fs) acc (FrNew g v BCollect :: FrOpen f r (BInner g) must (x :: vis) :: fs) acc
  | rs_end f r b must vis fs acc : may_end must vis (mkeys (fget m r f)) = true -> rstep_to ch m (FrOpen f r b must vis :: fs) acc fs acc.
  Lemma range_steps ch m fs acc k cl m' p' : fs <> [] -> tstep None level ch m (PRange fs acc k cl) = Val (m', p') ->
    m' = m /\ exists fs' acc', p' = PRange fs' acc' k cl /\ rstep_to ch m fs acc fs' acc'.
  Proof.
    intros Hf. cbn [tstep]. destruct fs as [|[f r b|f r b must vis] fs]; [contradiction|..].
    - intros E. injection E as <- <-. split; [reflexivity|]. eexists _, _. split; [reflexivity|constructor].
    - destruct ch as [x|].
      + destruct (may_visit vis (mkeys (fget m r f)) x) eqn:V; [|intros E; injection E as <- <-; split; [reflexivity|]; eexists _, _; split; [reflexivity|constructor]].
        destruct (mget x (fget m r f)) as [v|] eqn:G; [|intros E; injection E as <- <-; split; [reflexivity|]; eexists _, _; split; [reflexivity|constructor]].
        destruct b as [|g]; intros E; injection E as <- <-; (split; [reflexivity|]); eexists _, _; (split; [reflexivity|]); econstructor; eauto.
      + destruct (may_end must vis (mkeys (fget m r f))) eqn:V; intros E; injection E as <- <-; (split; [reflexivity|]); eexists _, _; (split; [reflexivity|]); [now apply rs_end|constructor].
  Qed.
  Lemma silent_no_match m f r b must vis x v : Base m -> silent (FrOpen f r b must vis) -> mget x (fget m r f) = Some v -> b = BInner FMatched.
  Proof. intros B [->|[->|H]] E; [rewrite (b_match _ B) in E by auto; discriminate..|exact H]. Qed.
  Lemma ranging_step ch m f r x fs acc fs' acc' : Base m -> ranging m f r x fs acc -> rstep_to ch m fs acc fs' acc' -> ranging m f r x fs' acc'.
  Proof.
    intros B [Hf [Hn [Hd [Ha Hs]]]] H. destruct H as [fs acc|f1 r1 b1 fs acc|f1 r1 must vis fs acc k v V G|f1 r1 g must vis fs acc k v G|f1 r1 b1 must vis fs acc V].
    - repeat (split; [assumption|]). exact Hs.
    - repeat (split; [assumption|]). destruct Hs as [[-> [fs2 [E S]]]|[[must [vis [fs2 [E _]]]]|[S C]]]; [|discriminate|].
      + injection E as -> -> -> ->. right; left. eexists _, _, _. split; [reflexivity|]. split; [exact S|]. split; [|reflexivity].
        intros k Hk. apply in_keys. eapply side_lo; eauto.
      + right; right. split; [|exact C]. inversion S; subst. constructor; [assumption|assumption].
    - destruct Hs as [[_ [fs2 [E _]]]|[[must2 [vis2 [fs2 [E [S [C1 C2]]]]]]|[S C]]]; [discriminate| |].
      + injection E as -> -> -> -> ->. apply andb_true_iff in V as [V1 V2]. apply negb_true_iff in V2. apply sin_false in V2.
        destruct (b_vals _ B _ _ _ _ G) as [A1 [A2 [A3 A4]]]. split; [exact Hf|]. split; [exact Hn|]. rewrite map_app. cbn [map fst]. split; [|split].
        * apply (Permutation_NoDup (l := k :: map fst acc)); [apply Permutation_cons_append|]. constructor; [now rewrite <- C2|exact Hd].
        * intros y w Hy. apply in_app_or in Hy as [Hy|[[= <- <-]|[]]]; [now apply Ha|]. split; [exact A3|]. split; [exact A4|]. eapply side_hi; eauto.
        * right; left. eexists _, _, _. split; [reflexivity|]. split; [exact S|]. split; [exact C1|]. intros y. rewrite in_app_iff. cbn. rewrite C2. tauto.
      + exfalso. inversion S; subst. pose proof (silent_no_match _ _ _ _ _ _ _ _ B H1 G). discriminate.
    - repeat (split; [assumption|]). destruct Hs as [[_ [fs2 [E _]]]|[[must2 [vis2 [fs2 [E [S [C1 C2]]]]]]|[S C]]]; [discriminate..|].
      right; right. split; [|exact C]. inversion S; subst. pose proof (silent_no_match _ _ _ _ _ _ _ _ B H1 G) as X. injection X as ->.
      constructor; [cbn; auto|]. constructor; [exact H1|exact H2].
    - repeat (split; [assumption|]). destruct Hs as [[_ [fs2 [E _]]]|[[must2 [vis2 [fs2 [E [S [C1 C2]]]]]]|[S C]]]; [discriminate| |].
      + injection E as -> -> -> -> -> ->. right; right. split; [exact S|]. intros k Hk. apply C2. apply C1 in Hk as Hm.
        unfold may_end in V. rewrite forallb_forall in V. specialize (V _ Hm). apply orb_true_iff in V as [V|V]; [|now apply sin_In].
        exfalso. apply negb_true_iff in V. apply sin_false in V. apply V. apply in_keys. eapply side_lo; eauto.
      + right; right. split; [|exact C]. now inversion S.
  Qed.
  Lemma range_ok j o m fs acc k cl ch : nth_error ops j = Some o -> Base m -> T j o m (PRange fs acc k cl) ->
    forall m' p', tstep None level ch m (PRange fs acc k cl) = Val (m', p') -> step_goal j o m (PRange fs acc k cl) m' p'.
  Proof.
    intros Hj B [Hc HTT] m' p' Hst. destruct fs as [|fr fs].
    - cbn [tstep] in Hst. injection Hst as <- <-. apply moves_ok; auto. split; [|split; [reflexivity|split; [discriminate|destruct k; auto]]].
      destruct k as [l t todo next|].
      + destruct HTT as [a [d [x [r [-> [[Hat [Hd [Htd Hnx]]] [Hx [Hch [Hr Hs]]]]]]]]].
        destruct Hr as [_ [Hn [Hnd [Ha Hsh]]]].
        assert (Hl : forall y, lo x y = true -> In y (map fst acc)).
        { destruct Hsh as [[_ [fs' [X _]]]|[[? [? [? [X _]]]]|[_ X]]]; [discriminate..|]. intros y Hy. now apply X. }
        split; [exact Hc|]. exists a, d. split; [reflexivity|]. split.
        * split; [exact Hat|]. split; [exact Hd|]. split; [exact Htd|]. intros y v Hy. apply fold_put_in in Hy as [Hy|Hy]; [|now apply Hnx].
          destruct (Ha _ _ Hy) as [A1 [A2 A3]]. split; [now apply node_of|]. eapply chain_snoc; [exact Hch|exact A3].
        * intros X. destruct (Hs X) as [Y|[[n [y [v [Y [Z W]]]]]|[n [Y Z]]]]; [now left| |].
          -- right; left. destruct (fold_put_has acc next y) as [v' Hv']; [right; eauto|]. exists n, y, v'. auto.
          -- right; left. inversion Z as [z Ez|n' z y z' E1 E2]; subst; [contradiction|].
             destruct (fold_put_has acc next y) as [v Hv]; [left; now apply Hl|]. exists n', y, v. split; [exact Hv|]. split; [lia|exact E2].
      + destruct HTT as [f [x [r [Ho [Hf [Hn [Hnd [Ha Hsh]]]]]]]].
        assert (Hl : forall y, side f lo x y = true -> In y (map fst acc)).
        { destruct Hsh as [[_ [fs' [X _]]]|[[? [? [? [X _]]]]|[_ X]]]; [discriminate..|]. intros y Hy. now apply X. }
        assert (Hh : forall y, In y (map fst acc) -> side f hi x y = true).
        { intros y Hy. apply in_map_iff in Hy as [[y' v] [<- Hy]]. now apply Ha in Hy. }
        split; [exact Hc|]. destruct Ho as [[-> ->]|[-> ->]]; (split; [reflexivity|]); unfold answer_fits; rewrite Hj; (split; [exact Hnd|]); intros b; (split; [apply Hl|apply Hh]).
    - apply range_steps in Hst as [-> [fs' [acc' [-> Hst]]]]; [|discriminate]. apply moves_ok; auto. split; [|split; [reflexivity|split; [discriminate|auto]]].
      split; [exact Hc|]. destruct k as [l t todo next|].
      + destruct HTT as [a [d [x [r [Ho [Hse [Hx [Hch [Hr Hs]]]]]]]]]. exists a, d, x, r. repeat (split; [assumption|]). split; [|exact Hs]. eapply ranging_step; eauto.
      + destruct HTT as [f [x [r [Ho Hr]]]]. exists f, x, r. split; [exact Ho|]. eapply ranging_step; eauto.
  Qed.

  Lemma base_ext m m' : m_heap m' = m_heap m -> m_all m' = m_all m -> Base m -> Base m'.
  Proof.
    destruct m as [h a q], m' as [h' a' q']. cbn. intros -> ->. intros [B1 B2 B3 B4 B5 B6 B7]. constructor; assumption.
  Qed.
  Lemma step_ok j o m p ch m' p' : nth_error ops j = Some o -> Base m -> rivals j o m p -> T j o m p ->
    tstep None level ch m p = Val (m', p') -> step_goal j o m p m' p'.
  Proof.
    intros Hj B Hv HTT Hst.
    assert (WAIT : won p = true -> won p = true) by auto.
    destruct p as [o' gs n rest|o' gs n rest| | | |l k|l k|add u r|l t todo next cl|fs acc k cl|cl y|n r cl y|f n r open cl y|n cl y|y]; try contradiction.
    - cbn [tstep] in Hst. injection Hst as <- <-. destruct HTT as [-> [H2 [H3 H4]]]. destruct (mget n (m_all m)) as [r|] eqn:E.
      + apply moves_ok; auto.
        assert (E2 : map g_name (gs ++ [mkGot n r false]) ++ rest = op_names o) by (rewrite map_app, <- app_assoc; exact H2).
        assert (Gs : Forall (is_got m) (gs ++ [mkGot n r false])).
        { apply Forall_app. split; [exact H3|]. constructor; [|constructor]. split; [now apply node_of|discriminate]. }
        destruct (next_ok j o m _ rest Hj B E2 Gs H4) as [TT PP]. split; [exact TT|]. split; [reflexivity|]. split; [discriminate|].
        intros k Hk _ [g [X1 [X2 X3]]]. apply PP; [exact Hk|]. exists g. split; [apply in_or_app; now left|auto].
      + apply moves_ok; auto. split; [|split; [reflexivity|split; [discriminate|auto]]]. split; [reflexivity|]. split; [exact H2|]. split; [exact H3|]. split; [exact H4|]. split; [|auto].
        destruct (K n) eqn:Kn; [|reflexivity]. apply (b_known _ B) in Kn as [r Hr]. congruence.
    - cbn [tstep matching] in Hst. injection Hst as <- <-. pose proof HTT as [-> _]. now apply store_ok.
    - eapply set_ok; eauto.
    - eapply unset_ok; eauto.
    - eapply hasrole_ok; eauto.
    - eapply level_ok; eauto.
    - eapply range_ok; eauto.
    - destruct HTT as [Hc [Hu Ha]]. destruct cl as [|n cl]; cbn [tstep] in Hst; injection Hst as <- <-; apply moves_ok; auto.
      + split; [split; [exact Ha|destruct o; try discriminate; exact I]|]. split; [reflexivity|]. split; [discriminate|]. intros n _ _ [].
      + assert (Hn : real n = false) by (apply Hc; now left). assert (Hc' : clean cl) by (intros x Hx; apply Hc; now right).
        destruct (mget n (m_all m)) as [r|] eqn:E.
        * split; [cbn; auto|]. split; [reflexivity|]. split; [discriminate|]. intros x _ _ [->|X]; cbn; auto.
        * split; [cbn; auto|]. split; [reflexivity|]. split; [discriminate|]. intros x _ Hr [->|X]; [congruence|exact X].
    - cbn [tstep] in Hst. injection Hst as <- <-. now apply delall_ok.
    - destruct HTT as [Hf [Hn [Hc [Hu Ha]]]]. cbn [tstep] in Hst. rewrite (b_match _ B _ _ Hf) in Hst. cbn [mkeys map mget] in Hst.
      assert (MV : forall p', T j o m p' -> mid p' = false -> (forall x, In x cl -> pending p' x) -> step_goal j o m (PRem f n r open cl y) m p').
      { intros q Hq Hm Hp. apply moves_ok; auto. split; [exact Hq|]. split; [reflexivity|]. split; [discriminate|]. intros x _ _ X. now apply Hp. }
      destruct open as [[must vis]|]; [|injection Hst as <- <-; apply MV; cbn; auto].
      destruct ch as [x|].
      + unfold may_visit in Hst. cbn in Hst. injection Hst as <- <-. apply MV; cbn; auto.
      + destruct (may_end must vis []); injection Hst as <- <-; [|apply MV; cbn; auto].
        destruct f; apply MV; cbn; auto.
    - destruct HTT as [Hn [Hc [Hu Ha]]]. cbn [tstep] in Hst. injection Hst as <- <-.
      split; [now apply (base_ext m)|]. split; [now apply guar_same|]. split; [cbn; auto|]. split; [apply quiet; auto; discriminate|].
      intros x _ Hr. right. split; [exact Hr|auto].
    - cbn [tstep] in Hst. injection Hst as <- <-. apply moves_ok; auto. split; [exact HTT|]. split; [reflexivity|]. split; [auto|auto].
  Qed.

  (** ** The whole phase *)
  Record Inv (m : mem) (ts : list pc) : Prop := mkInv {
    i_base : Base m;
    i_len : List.length ts = List.length ops;
    i_T : forall i p o, nth_error ts i = Some p -> nth_error ops i = Some o -> T i o m p;
    i_add : forall a b, adds ops a b = true -> pres m a b = true ->
      presU m b a = true \/ exists i p, nth_error ops i = Some (OAdd a b) /\ nth_error ts i = Some p /\ mid p = true;
    i_addU : forall a b, adds ops a b = true -> presU m b a = true -> pres m a b = true;
    i_del : forall a b, dels ops a b = true -> presU m b a = true ->
      pres m a b = true \/ exists i p, nth_error ops i = Some (ODel a b) /\ nth_error ts i = Some p /\ mid p = true;
    i_win : forall a b, adds ops a b = true -> pres m a b = true ->
      L a b = true \/ exists i p, nth_error ops i = Some (OAdd a b) /\ nth_error ts i = Some p /\ won p = true;
    i_lose : forall a b, dels ops a b = true -> pres m a b = false ->
      L a b = false \/ exists i p, nth_error ops i = Some (ODel a b) /\ nth_error ts i = Some p /\ won p = true;
    i_temp : forall n, real n = false -> mget n (m_all m) <> None -> exists i p, nth_error ts i = Some p /\ pending p n
  }.
  Lemma here_true a b a' b' : here a b a' b' = true -> a' = a /\ b' = b.
  Proof. intros H. apply andb_true_iff in H as [H1 H2]. apply String.eqb_eq in H1, H2. auto. Qed.
  Lemma inv_step m ts j p ch m' p' : Inv m ts -> nth_error ts j = Some p -> tstep None level ch m p = Val (m', p') ->
    Inv m' (upd_at ts j (fun _ => p')).
  Proof.
    intros I Hp Hst. pose proof (i_base _ _ I) as B.
    assert (Ho : exists o, nth_error ops j = Some o).
    { destruct (nth_error ops j) eqn:E; [eauto|]. apply nth_error_None in E. rewrite <- (i_len _ _ I) in E. apply nth_error_None in E. congruence. }
    destruct Ho as [o Ho].
    assert (Hv : rivals j o m p).
    { unfold rivals. destruct o as [a b|a b| | |]; auto.
      - intros Hpr Hw. assert (Ad : adds ops a b = true) by (apply add_in; eapply op_in; eauto).
        destruct (i_win _ _ I _ _ Ad Hpr) as [X|[i [q [E1 [E2 E3]]]]]; [auto|]. right. exists i. split; [|exact E1]. intros ->. congruence.
      - intros Hpr Hw. assert (De : dels ops a b = true) by (apply del_in; eapply op_in; eauto).
        destruct (i_lose _ _ I _ _ De Hpr) as [X|[i [q [E1 [E2 E3]]]]]; [auto|]. right. exists i. split; [|exact E1]. intros ->. congruence. }
    destruct (step_ok j o m p ch m' p' Ho B Hv (i_T _ _ I _ _ _ Hp Ho) Hst) as [B' [G [TT [EF PS]]]].
    set (ts' := upd_at ts j (fun _ => p')).
    assert (Nj : nth_error ts' j = Some p') by (unfold ts'; now rewrite (nth_upd_same _ _ _ _ Hp)).
    assert (Ni : forall i, i <> j -> nth_error ts' i = nth_error ts i) by (intros i Hi; unfold ts'; apply nth_upd_other; congruence).
    (* a goroutine in a certain state *)
    assert (KEEP : forall (Q : rop -> Prop) (P : pc -> bool), (P p = true -> P p' = true) ->
      (exists i q, (exists oo, nth_error ops i = Some oo /\ Q oo) /\ nth_error ts i = Some q /\ P q = true) ->
      exists i q, (exists oo, nth_error ops i = Some oo /\ Q oo) /\ nth_error ts' i = Some q /\ P q = true).
    { intros Q P HP [i [q [E1 [E2 E3]]]]. destruct (Nat.eq_dec i j) as [->|N].
      - exists j, p'. split; [exact E1|]. split; [exact Nj|]. rewrite Hp in E2. injection E2 as <-. auto.
      - exists i, q. split; [exact E1|]. split; [now rewrite Ni|exact E3]. }
    assert (KEEPo : forall (oo : rop) (P : pc -> bool), (P p = true -> P p' = true) ->
      (exists i q, nth_error ops i = Some oo /\ nth_error ts i = Some q /\ P q = true) ->
      exists i q, nth_error ops i = Some oo /\ nth_error ts' i = Some q /\ P q = true).
    { intros oo P HP [i [q [E1 [E2 E3]]]]. destruct (KEEP (fun x => x = oo) P HP) as [i' [q' [[o' [F1 F2]] [F3 F4]]]]; [exists i, q; eauto|]. subst o'. eauto. }
    assert (NM : (mid p = false -> mid p = true -> mid p' = true)) by congruence.
    constructor.
    - exact B'.
    - unfold ts'. rewrite upd_length. apply (i_len _ _ I).
    - intros i q oi Hq Hi. destruct (Nat.eq_dec i j) as [->|N].
      + rewrite Nj in Hq. rewrite Ho in Hi. injection Hq as <-. injection Hi as <-. exact TT.
      + rewrite Ni in Hq by exact N. eapply stable; eauto. now apply (i_T _ _ I).
    - intros a b Ad. destruct EF as [E1 E2 E3 E4|x y -> E3 E4 E5 E1 E2|x y -> E3 E4 E1 E2|x y -> E3 E4 E5 E1 E2|x y -> E3 E4 E1 E2]; rewrite ?E1, ?E2; intros X.
      + destruct (i_add _ _ I _ _ Ad X) as [Y|Y]; [now left|right; apply KEEPo; auto].
      + destruct (here x y a b) eqn:Eh.
        * apply here_true in Eh as [-> ->]. right. exists j, p'. auto.
        * cbn in X. destruct (i_add _ _ I _ _ Ad X) as [Y|Y]; [now left|right; apply KEEPo; auto].
      + destruct (here x y a b) eqn:Eh; [now left|]. cbn. destruct (i_add _ _ I _ _ Ad X) as [Y|[i [q [F1 [F2 F3]]]]]; [now left|right].
        destruct (Nat.eq_dec i j) as [->|N]; [|exists i, q; rewrite Ni by exact N; auto]. exfalso. rewrite Ho in F1. injection F1 as -> ->. unfold here in Eh. now rewrite !String.eqb_refl in Eh.
      + apply andb_true_iff in X as [_ X]. destruct (i_add _ _ I _ _ Ad X) as [Y|Y]; [now left|right; apply KEEPo; auto].
      + assert (Eh : here x y a b = false).
        { destruct (here x y a b) eqn:Eh; [|reflexivity]. apply here_true in Eh as [-> ->]. congruence. }
        rewrite Eh. cbn. destruct (i_add _ _ I _ _ Ad X) as [Y|[i [q [F1 [F2 F3]]]]]; [now left|right].
        destruct (Nat.eq_dec i j) as [->|N]; [congruence|exists i, q; rewrite Ni by exact N; auto].
    - intros a b Ad. destruct EF as [E1 E2 E3 E4|x y -> E3 E4 E5 E1 E2|x y -> E3 E4 E1 E2|x y -> E3 E4 E5 E1 E2|x y -> E3 E4 E1 E2]; rewrite ?E1, ?E2; intros X.
      + now apply (i_addU _ _ I).
      + rewrite (i_addU _ _ I _ _ Ad X). apply orb_true_r.
      + apply orb_true_iff in X as [X|X]; [apply here_true in X as [-> ->]; exact E3|now apply (i_addU _ _ I)].
      + rewrite (i_addU _ _ I _ _ Ad X), andb_true_r. apply negb_true_iff. destruct (here x y a b) eqn:Eh; [|reflexivity]. apply here_true in Eh as [-> ->].
        rewrite (tidy_dels x y) in Ad; [discriminate|]. apply del_in. eapply op_in; eauto.
      + apply andb_true_iff in X as [_ X]. now apply (i_addU _ _ I).
    - intros a b De. destruct EF as [E1 E2 E3 E4|x y -> E3 E4 E5 E1 E2|x y -> E3 E4 E1 E2|x y -> E3 E4 E5 E1 E2|x y -> E3 E4 E1 E2]; rewrite ?E1, ?E2; intros X.
      + destruct (i_del _ _ I _ _ De X) as [Y|Y]; [now left|right; apply KEEPo; auto].
      + destruct (i_del _ _ I _ _ De X) as [Y|Y]; [left; rewrite Y; apply orb_true_r|right; apply KEEPo; auto].
      + assert (Eh : here x y a b = false).
        { destruct (here x y a b) eqn:Eh; [|reflexivity]. apply here_true in Eh as [-> ->]. apply tidy_dels in De. rewrite add_in in De; [discriminate|]. eapply op_in; eauto. }
        rewrite Eh in X. cbn in X. destruct (i_del _ _ I _ _ De X) as [Y|[i [q [F1 [F2 F3]]]]]; [now left|right].
        destruct (Nat.eq_dec i j) as [->|N]; [congruence|exists i, q; rewrite Ni by exact N; auto].
      + destruct (here x y a b) eqn:Eh.
        * apply here_true in Eh as [-> ->]. right. exists j, p'. auto.
        * cbn. destruct (i_del _ _ I _ _ De X) as [Y|Y]; [now left|right; apply KEEPo; auto].
      + apply andb_true_iff in X as [X1 X]. apply negb_true_iff in X1. destruct (i_del _ _ I _ _ De X) as [Y|[i [q [F1 [F2 F3]]]]]; [now left|right].
        destruct (Nat.eq_dec i j) as [->|N]; [|exists i, q; rewrite Ni by exact N; auto]. exfalso. rewrite Ho in F1. injection F1 as -> ->. unfold here in X1. now rewrite !String.eqb_refl in X1.
    - intros a b Ad. destruct EF as [E1 E2 E3 E4|x y -> E3 E4 E5 E1 E2|x y -> E3 E4 E1 E2|x y -> E3 E4 E5 E1 E2|x y -> E3 E4 E1 E2]; rewrite ?E1, ?E2; intros X.
      + destruct (i_win _ _ I _ _ Ad X) as [Y|Y]; [now left|right; apply KEEPo; auto].
      + destruct (here x y a b) eqn:Eh; [apply here_true in Eh as [-> ->]; right; exists j, p'; auto|].
        cbn in X. destruct (i_win _ _ I _ _ Ad X) as [Y|Y]; [now left|right; apply KEEPo; auto].
      + destruct (i_win _ _ I _ _ Ad X) as [Y|Y]; [now left|right; apply KEEPo; auto].
      + apply andb_true_iff in X as [_ X]. destruct (i_win _ _ I _ _ Ad X) as [Y|Y]; [now left|right; apply KEEPo; auto].
      + destruct (i_win _ _ I _ _ Ad X) as [Y|Y]; [now left|right; apply KEEPo; auto].
    - intros a b De. destruct EF as [E1 E2 E3 E4|x y -> E3 E4 E5 E1 E2|x y -> E3 E4 E1 E2|x y -> E3 E4 E5 E1 E2|x y -> E3 E4 E1 E2]; rewrite ?E1, ?E2; intros X.
      + destruct (i_lose _ _ I _ _ De X) as [Y|Y]; [now left|right; apply KEEPo; auto].
      + apply orb_false_iff in X as [_ X]. destruct (i_lose _ _ I _ _ De X) as [Y|Y]; [now left|right; apply KEEPo; auto].
      + destruct (i_lose _ _ I _ _ De X) as [Y|Y]; [now left|right; apply KEEPo; auto].
      + destruct (here x y a b) eqn:Eh; [apply here_true in Eh as [-> ->]; right; exists j, p'; auto|].
        cbn in X. destruct (i_lose _ _ I _ _ De X) as [Y|Y]; [now left|right; apply KEEPo; auto].
      + destruct (i_lose _ _ I _ _ De X) as [Y|Y]; [now left|right; apply KEEPo; auto].
    - intros n Hn Hr. destruct (PS n Hn Hr) as [X|[X Y]]; [exists j, p'; auto|]. destruct (i_temp _ _ I n Hn X) as [i [q [E1 E2]]].
      destruct (Nat.eq_dec i j) as [->|N].
      + rewrite Hp in E1. injection E1 as <-. exists j, p'. auto.
      + exists i, q. rewrite Ni by exact N. auto.
  Qed.
End Phase.
