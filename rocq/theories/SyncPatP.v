(** Lemmas about queries on a role manager with a matcher that run at the same time. *)
From Coq Require Import Lia.
From Verif Require Import GoBase GoBaseP PathM RbacSpec SyncRoleM SyncRoleSpec SyncRoleP SyncPatSpec.
Local Open Scope list_scope.

(** ** Memory between calls *)
Definition ref (m : mem) (n : string) (r : nat) : Prop := mget n (m_all m) = Some r.
Record core (m : mem) : Prop := mkCore {
  c_name : forall n r, ref m n r -> exists o, nth_error (m_heap m) r = Some o /\ o_name o = n;
  c_vals : forall r f k v, mget k (fget m r f) = Some v -> ref m (name_at m r) r /\ ref m k v
}.
Lemma core_at m n r : core m -> ref m n r -> name_at m r = n.
Proof. intros C H. destruct (c_name m C n r H) as (o & E & <-). unfold name_at. now rewrite E. Qed.
Lemma ref_fun m n r r' : ref m n r -> ref m n r' -> r = r'.
Proof. unfold ref. congruence. Qed.
Lemma lk_ref f m a u b : core m -> ref m a u -> (lk f m a b = true <-> exists v, mget b (fget m u f) = Some v).
Proof. intros C H. unfold lk. rewrite H. apply mhas_true. Qed.
Lemma lk_known f m a b : core m -> lk f m a b = true -> (exists u, ref m a u) /\ exists v, ref m b v.
Proof.
  intros C H. unfold lk in H. destruct (mget a (m_all m)) as [u|] eqn:E; [|discriminate]. split; [eauto|].
  apply mhas_true in H as [v Hv]. apply (c_vals m C) in Hv as [_ Hv]. eauto.
Qed.

Record prep (mm : imatcher) (m : mem) (L : linkset) (K : nameset) : Prop := mkPrep {
  p_core : core m;
  p_known : forall n, K n = mhas n (m_all m);
  p_roles : forall a b, lk FRoles m a b = L a b;
  p_users : forall a b, lk FUsers m b a = L a b;
  p_mat : forall p x, lk FMatched m p x = true <-> K p = true /\ K x = true /\ covers mm p x;
  p_mby : forall p x, lk FMatchedBy m x p = true <-> K p = true /\ K x = true /\ covers mm p x;
  p_pats : forall n, In n (m_pats m) <-> K n = true /\ IsPattern mm n = true
}.
Lemma prep_ref mm m L K n : prep mm m L K -> (K n = true <-> exists r, ref m n r).
Proof. intros P. rewrite (p_known _ _ _ _ P). apply mhas_true. Qed.
Lemma prep_links mm m L K a b : prep mm m L K -> L a b = true -> K a = true /\ K b = true.
Proof.
  intros P H. rewrite <- (p_roles _ _ _ _ P) in H. apply (lk_known _ _ _ _ (p_core _ _ _ _ P)) in H as [A B]. split; now apply (prep_ref _ _ _ _ _ P).
Qed.

(** ** Queries about known names *)
Section Query.
  Variables (mm : imatcher) (level : nat) (m : mem) (L : linkset) (K : nameset).
  Hypothesis P : prep mm m L K.
  Let C : core m := p_core _ _ _ _ P.

  (** What the frames of a Range in progress still collect. *)
  Definition yield (fr : frame) (x : string) (v : nat) : Prop :=
    match fr with
    | FrNew f r BCollect => mget x (fget m r f) = Some v
    | FrNew f r (BInner g) => exists k w, mget k (fget m r f) = Some w /\ mget x (fget m w g) = Some v
    | FrOpen f r BCollect _ visited => mget x (fget m r f) = Some v /\ ~ In x visited
    | FrOpen f r (BInner g) _ visited => exists k w, mget k (fget m r f) = Some w /\ ~ In k visited /\ mget x (fget m w g) = Some v
    end.
  Definition open_ok (fr : frame) : Prop :=
    match fr with FrNew _ _ _ => True | FrOpen f r _ must _ => must = mkeys (fget m r f) end.
  Definition total (fs : list frame) (acc : list (string * nat)) (x : string) (v : nat) : Prop :=
    In (x, v) acc \/ exists fr, In fr fs /\ yield fr x v.
  Lemma total_cons fr fs acc x v : total (fr :: fs) acc x v <-> yield fr x v \/ total fs acc x v.
  Proof.
    unfold total. cbn [In]. split.
    - intros [H|(f & [<-|Hf] & H)]; [right; now left|now left|right; right; eauto].
    - intros [H|[H|(f & Hf & H)]]; [right; eauto|now left|right; eauto].
  Qed.
  Lemma yield_ref fr x v : yield fr x v -> ref m x v.
  Proof.
    destruct fr as [f r [|g]|f r [|g] must visited]; cbn.
    - intros H. now apply (c_vals m C) in H.
    - intros (k & w & _ & H). now apply (c_vals m C) in H.
    - intros [H _]. now apply (c_vals m C) in H.
    - intros (k & w & _ & _ & H). now apply (c_vals m C) in H.
  Qed.

  (** One step of a Range: what is collected in the end does not change. *)
  Lemma range_step ch fs acc k cl p' : Forall open_ok fs -> tstep (Some mm) level ch m (PRange fs acc k cl) = Val (m, p') ->
    (exists fs' acc', p' = PRange fs' acc' k cl /\ Forall open_ok fs' /\ forall x v, total fs' acc' x v <-> total fs acc x v) \/
    (fs = [] /\ p' = match k with
                     | KLevel l target todo next => PLevel l target todo (fold_left (fun nx kv => mput (fst kv) (snd kv) nx) acc next) cl
                     | KNames => PClean cl (YNames (map fst acc))
                     end).
  Proof.
    intros O. destruct fs as [|fr fs]; cbn [tstep]; [intros H; injection H as <-; right; split; reflexivity|left].
    inversion O as [|? ? O1 O2]; subst. destruct fr as [f r b|f r b must visited].
    - injection H as <-. exists (FrOpen f r b (mkeys (fget m r f)) [] :: fs), acc. split; [reflexivity|]. split; [constructor; [reflexivity|exact O2]|].
      intros x v. rewrite !total_cons. destruct b as [|g]; cbn [yield In].
      + tauto.
      + split; (intros [(k0 & w & H)|H]; [left; exists k0, w; tauto|now right]).
    - cbn [open_ok] in O1. destruct ch as [x|].
      + destruct (may_visit visited (mkeys (fget m r f)) x) eqn:Em; [|injection H as <-; eexists _, _; split; [reflexivity|split; [exact O|tauto]]].
        apply andb_true_iff in Em as [_ Ev]. apply negb_true_iff, sin_false in Ev.
        destruct (mget x (fget m r f)) as [v|] eqn:Eg; [|injection H as <-; eexists _, _; split; [reflexivity|split; [exact O|tauto]]].
        destruct b as [|g]; injection H as <-.
        * eexists _, _. split; [reflexivity|]. split; [constructor; [exact O1|exact O2]|]. intros y w. rewrite !total_cons. unfold total. cbn [yield]. rewrite in_app_iff. cbn [In]. split.
          -- intros [[A B]|[[A|[A|[]]]|A]]; auto; [left; split; [exact A|]; intros X; apply B; now right|]. injection A as <- <-. now left.
          -- intros [[A B]|[A|A]]; auto. destruct (string_dec x y) as [<-|N]; [|left; split; [exact A|]; intros [X|X]; auto]. right. left. right. left. congruence.
        * eexists _, _. split; [reflexivity|]. split; [constructor; [exact I|constructor; [exact O1|exact O2]]|]. intros y w. rewrite !total_cons. cbn [yield In]. split.
          -- intros [A|[(k0 & w0 & A1 & A2 & A3)|A]]; [left; exists x, v; auto|left; exists k0, w0; tauto|now right].
          -- intros [(k0 & w0 & A1 & A2 & A3)|A]; [|auto]. destruct (string_dec x k0) as [<-|N]; [left; congruence|]. right; left. exists k0, w0. split; [exact A1|]. split; [|exact A3]. intros [X|X]; auto.
      + destruct (may_end must visited (mkeys (fget m r f))) eqn:Ee; injection H as <-; [|eexists _, _; split; [reflexivity|split; [exact O|tauto]]].
        eexists _, _. split; [reflexivity|]. split; [exact O2|]. intros y w. rewrite total_cons.
        assert (A : forall k0 v0, mget k0 (fget m r f) = Some v0 -> In k0 visited).
        { intros k0 v0 Hk. subst must. unfold may_end in Ee. rewrite forallb_forall in Ee.
          assert (Hi : In k0 (mkeys (fget m r f))) by (destruct (in_dec string_dec k0 (mkeys (fget m r f))) as [i|i]; [exact i|apply mget_None in i; congruence]).
          specialize (Ee k0 Hi). rewrite (proj2 (sin_In _ _) Hi) in Ee. now apply sin_In. }
        split; [auto|]. intros [Y|Y]; [exfalso|exact Y]. destruct b as [|g]; cbn [yield] in Y.
        * destruct Y as [Y1 Y2]. exact (Y2 (A _ _ Y1)).
        * destruct Y as (k0 & w0 & Y1 & Y2 & _). exact (Y2 (A _ _ Y1)).
  Qed.

  (** What is collected from the object of a known name. *)
  Lemma roles_frames u r x v : ref m u r -> (total (range_frames FRoles r) [] x v <-> ref m x v /\ pstep mm L K u x).
  Proof.
    intros Hu. assert (KU : K u = true) by (apply (prep_ref _ _ _ _ _ P); eauto).
    assert (F : forall f a ra b rb, ref m a ra -> ref m b rb -> lk f m a b = true -> mget b (fget m ra f) = Some rb).
    { intros f a ra b rb Ha Hb H. apply (lk_ref f m a ra b C Ha) in H as [w Hw]. pose proof (c_vals m C _ _ _ _ Hw) as [_ Hw']. now rewrite (ref_fun _ _ _ _ Hb Hw'). }
    assert (B : forall f a ra b rb, ref m a ra -> mget b (fget m ra f) = Some rb -> lk f m a b = true /\ ref m b rb).
    { intros f a ra b rb Ha H. split; [apply (lk_ref f m a ra b C Ha); eauto|]. now apply (c_vals m C) in H. }
    unfold range_frames. rewrite !total_cons. cbn [yield]. split.
    - intros [H|[(k & w & H1 & H2)|[(k & w & H1 & H2)|[[]|(fr & [] & _)]]]].
      + apply (B _ u) in H as [H Hx]; [|exact Hu]. split; [exact Hx|]. apply step_link. now rewrite <- (p_roles _ _ _ _ P).
      + apply (B _ u) in H1 as [H1 Hk]; [|exact Hu]. apply (B _ k) in H2 as [H2 Hx]; [|exact Hk]. split; [exact Hx|]. apply (p_mat _ _ _ _ P) in H2 as (_ & H3 & H4).
        apply (step_to_pattern _ _ _ _ _ k); [now rewrite <- (p_roles _ _ _ _ P)|exact H4|exact H3].
      + apply (B _ u) in H1 as [H1 Hk]; [|exact Hu]. apply (B _ k) in H2 as [H2 Hx]; [|exact Hk]. split; [exact Hx|]. apply (p_mby _ _ _ _ P) in H1 as (_ & _ & H4).
        apply (step_from_pattern _ _ _ _ _ k); [exact H4|now rewrite <- (p_roles _ _ _ _ P)].
    - intros [Hx [H|p H Hc Hk|p Hc H]].
      + left. apply (F _ u); auto. now rewrite (p_roles _ _ _ _ P).
      + right; left. destruct (prep_links _ _ _ _ _ _ P H) as [_ Kp]. apply (prep_ref _ _ _ _ _ P) in Kp as Rp. destruct Rp as [w Hw]. exists p, w. split.
        * apply (F _ u); auto. now rewrite (p_roles _ _ _ _ P).
        * apply (F _ p); auto. apply (p_mat _ _ _ _ P). auto.
      + right; right; left. destruct (prep_links _ _ _ _ _ _ P H) as [Kp _]. apply (prep_ref _ _ _ _ _ P) in Kp as Rp. destruct Rp as [w Hw]. exists p, w. split.
        * apply (F _ u); auto. apply (p_mby _ _ _ _ P). auto.
        * apply (F _ p); auto. now rewrite (p_roles _ _ _ _ P).
  Qed.
  Lemma users_frames u r x v : ref m u r -> (total (range_frames FUsers r) [] x v <-> ref m x v /\ pstep mm L K x u).
  Proof.
    intros Hu. assert (KU : K u = true) by (apply (prep_ref _ _ _ _ _ P); eauto).
    assert (F : forall f a ra b rb, ref m a ra -> ref m b rb -> lk f m a b = true -> mget b (fget m ra f) = Some rb).
    { intros f a ra b rb Ha Hb H. apply (lk_ref f m a ra b C Ha) in H as [w Hw]. pose proof (c_vals m C _ _ _ _ Hw) as [_ Hw']. now rewrite (ref_fun _ _ _ _ Hb Hw'). }
    assert (B : forall f a ra b rb, ref m a ra -> mget b (fget m ra f) = Some rb -> lk f m a b = true /\ ref m b rb).
    { intros f a ra b rb Ha H. split; [apply (lk_ref f m a ra b C Ha); eauto|]. now apply (c_vals m C) in H. }
    unfold range_frames. rewrite !total_cons. cbn [yield]. split.
    - intros [H|[(k & w & H1 & H2)|[(k & w & H1 & H2)|[[]|(fr & [] & _)]]]].
      + apply (B _ u) in H as [H Hx]; [|exact Hu]. split; [exact Hx|]. apply step_link. now rewrite <- (p_users _ _ _ _ P).
      + apply (B _ u) in H1 as [H1 Hk]; [|exact Hu]. apply (B _ k) in H2 as [H2 Hx]; [|exact Hk]. split; [exact Hx|]. apply (p_mat _ _ _ _ P) in H2 as (_ & H3 & H4).
        apply (step_from_pattern _ _ _ _ _ k); [exact H4|now rewrite <- (p_users _ _ _ _ P)].
      + apply (B _ u) in H1 as [H1 Hk]; [|exact Hu]. apply (B _ k) in H2 as [H2 Hx]; [|exact Hk]. split; [exact Hx|]. apply (p_mby _ _ _ _ P) in H1 as (_ & _ & H4).
        apply (step_to_pattern _ _ _ _ _ k); [now rewrite <- (p_users _ _ _ _ P)|exact H4|exact KU].
    - intros [Hx H]. assert (KX : K x = true) by (apply (prep_ref _ _ _ _ _ P); eauto). destruct H as [H|p H Hc Hk|p Hc H].
      + left. apply (F _ u); auto. now rewrite (p_users _ _ _ _ P).
      + right; right; left. destruct (prep_links _ _ _ _ _ _ P H) as [_ Kp]. apply (prep_ref _ _ _ _ _ P) in Kp as Rp. destruct Rp as [w Hw]. exists p, w. split.
        * apply (F _ u); auto. apply (p_mby _ _ _ _ P). auto.
        * apply (F _ p); auto. now rewrite (p_users _ _ _ _ P).
      + right; left. destruct (prep_links _ _ _ _ _ _ P H) as [Kp _]. apply (prep_ref _ _ _ _ _ P) in Kp as Rp. destruct Rp as [w Hw]. exists p, w. split.
        * apply (F _ u); auto. now rewrite (p_users _ _ _ _ P).
        * apply (F _ p); auto. apply (p_mat _ _ _ _ P). auto.
  Qed.

  (** The search of HasLink. *)
  Definition within (b : string) (l : nat) (x : string) : Prop := exists n z, n < l /\ chain (pstep mm L K) n x z /\ hits (Some mm) z b.
  Lemma within_S b l x : within b (S l) x <-> hits (Some mm) x b \/ exists y, pstep mm L K x y /\ within b l y.
  Proof.
    unfold within. split.
    - intros (n & z & H1 & H2 & H3). inversion H2 as [|n' a y c E H]; subst; [now left|]. right. exists y. split; [exact E|]. exists n', z. split; [lia|auto].
    - intros [H|(y & E & n & z & H1 & H2 & H3)]; [exists 0, x; split; [lia|split; [constructor|exact H]]|].
      exists (S n), z. split; [lia|]. split; [econstructor; eauto|exact H3].
  Qed.
  Definition some_within (b : string) (l : nat) (s : smap nat) : Prop := exists x v, mget x s = Some v /\ within b l x.
  Definition refs (s : smap nat) : Prop := forall x v, mget x s = Some v -> ref m x v.
  Lemma pstep_known x y : pstep mm L K x y -> K y = true.
  Proof. intros [H|p H Hc Hk|p Hc H]; [apply (prep_links _ _ _ _ _ _ P H)|exact Hk|apply (prep_links _ _ _ _ _ _ P H)]. Qed.
  Lemma hits_dec x t : (String.eqb t x || match_set (Some mm) x t = true) <-> hits (Some mm) x t.
  Proof.
    unfold hits. cbn. rewrite orb_true_iff, String.eqb_eq. split.
    - intros [->|H]; [now left|right; eauto].
    - intros [->|(m' & [= <-] & H)]; auto.
  Qed.

  Lemma put_all (acc : list (string * nat)) : forall (next : smap nat) x, mget x (fold_left (fun nx kv => mput (fst kv) (snd kv) nx) acc next) = None <-> mget x next = None /\ forall v, ~ In (x, v) acc.
  Proof.
    induction acc as [|[k w] acc IH]; intros next x; cbn [fold_left]; [firstorder|]. rewrite IH. cbn [fst snd]. rewrite mget_put. destruct (String.eqb_spec x k) as [->|N].
    - split; [intros [X _]; discriminate|intros [_ X]]. exfalso. apply (X w). now left.
    - split; intros [A B]; (split; [exact A|]); intros v Hv; [destruct Hv as [[= <- <-]|Hv]; [now apply N|exact (B v Hv)]|]. apply (B v). now right.
  Qed.
  Lemma put_refs (acc : list (string * nat)) : forall next, refs next -> (forall x v, In (x, v) acc -> ref m x v) -> refs (fold_left (fun nx kv => mput (fst kv) (snd kv) nx) acc next).
  Proof.
    induction acc as [|[k w] acc IH]; intros next Hn Ha; cbn [fold_left]; [exact Hn|]. apply IH; [|intros x v Hx; apply Ha; now right].
    cbn [fst snd]. intros x v. rewrite mget_put. destruct (String.eqb_spec x k) as [->|N]; [|apply Hn]. intros [= <-]. apply Ha. now left.
  Qed.
  Lemma put_within b l (acc : list (string * nat)) next : some_within b l (fold_left (fun nx kv => mput (fst kv) (snd kv) nx) acc next) <-> some_within b l next \/ exists x v, In (x, v) acc /\ within b l x.
  Proof.
    unfold some_within. split.
    - intros (x & v & H & W). destruct (mget x next) as [w|] eqn:E; [left; eauto|right].
      destruct (in_dec string_dec x (map fst acc)) as [i|i].
      + apply in_map_iff in i as [[x' v'] [<- Hi]]. exists x', v'. auto.
      + exfalso. assert (X : mget x (fold_left (fun nx kv => mput (fst kv) (snd kv) nx) acc next) = None); [|congruence]. apply put_all. split; [exact E|]. intros v' Hv. apply i. now apply (in_map fst) in Hv.
    - assert (G : forall x, ~ (mget x next = None /\ forall v, ~ In (x, v) acc) -> exists v, mget x (fold_left (fun nx kv => mput (fst kv) (snd kv) nx) acc next) = Some v).
      { intros x H. destruct (mget x (fold_left _ acc next)) as [v|] eqn:E; [eauto|]. apply put_all in E. contradiction. }
      intros [(x & v & H & W)|(x & v & H & W)].
      + destruct (G x) as [w Hw]; [intros [X _]; congruence|eauto].
      + destruct (G x) as [w Hw]; [intros [_ X]; exact (X v H)|eauto].
  Qed.

  Definition truth (a b : string) : Prop := hits (Some mm) a b \/ within b level a.
  Definition qinv (o : rop) (p : pc) : Prop :=
    match p with
    | PLoad o' gs n rest =>
        o' = o /\ updates o = false /\ op_names o = map g_name gs ++ n :: rest /\
        Forall (fun g => g_new g = false /\ ref m (g_name g) (g_ref g)) gs /\ (forall x, In x (n :: rest) -> K x = true) /\
        (forall a b, o = OHas a b -> ~ hits (Some mm) a b)
    | PLevel l t todo next cl =>
        cl = [] /\ exists a, o = OHas a t /\ refs todo /\ refs next /\ (truth a t <-> some_within t (S l) todo \/ some_within t l next)
    | PRange fs acc (KLevel l t todo next) cl =>
        cl = [] /\ Forall open_ok fs /\ (forall x v, In (x, v) acc -> ref m x v) /\ exists a, o = OHas a t /\ refs todo /\ refs next /\
        (truth a t <-> some_within t (S l) todo \/ some_within t l next \/ exists x v, total fs acc x v /\ within t l x)
    | PRange fs acc KNames cl =>
        cl = [] /\ Forall open_ok fs /\
        ((exists a, o = ORoles a /\ forall x v, total fs acc x v <-> ref m x v /\ pstep mm L K a x) \/
         (exists a, o = OUsers a /\ forall x v, total fs acc x v <-> ref m x v /\ pstep mm L K x a))
    | PClean cl y => cl = [] /\ updates o = false /\ pattern_answer mm level L K o y
    | PDone y => updates o = false /\ pattern_answer mm level L K o y
    | _ => False
    end.

  Lemma enter_q a t l s : refs s -> (truth a t <-> some_within t l s) -> qinv (OHas a t) (enter l t s []).
  Proof.
    intros Hr Ht. assert (N : ~ some_within t l s -> qinv (OHas a t) (PClean [] (YBool false))).
    { intros X. cbn. split; [reflexivity|]. split; [reflexivity|]. split; [discriminate|]. intros Y. exfalso. apply X, Ht, Y. }
    destruct l as [|l]; [apply N; intros (x & v & _ & n & z & H & _); lia|]. destruct s as [|kv s]; [apply N; intros (x & v & H & _); discriminate|].
    cbn [enter qinv]. split; [reflexivity|]. exists a. split; [reflexivity|]. split; [exact Hr|]. split; [discriminate|]. rewrite Ht. split; [auto|]. intros [X|(x & v & X & _)]; [exact X|discriminate].
  Qed.
  Lemma next_q o gs n r rest : qinv o (PLoad o gs n rest) -> ref m n r -> qinv o (next_got level o (gs ++ [mkGot n r false]) rest).
  Proof.
    intros (_ & U & N & G & Kn & NH) Hr. assert (G' : Forall (fun g => g_new g = false /\ ref m (g_name g) (g_ref g)) (gs ++ [mkGot n r false])).
    { apply Forall_app. split; [exact G|]. constructor; [split; [reflexivity|exact Hr]|constructor]. }
    destruct rest as [|n' rest]; cbn [next_got].
    - assert (N' : op_names o = map g_name (gs ++ [mkGot n r false])) by (rewrite map_app; exact N).
      revert G' N'. generalize (gs ++ [mkGot n r false]). clear G N Kn. intros gs' G' N'.
      assert (CL : map g_name (filter g_new (rev gs')) = []).
      { replace (filter g_new (rev gs')) with (@nil got); [reflexivity|]. symmetry. apply Forall_rev in G'. induction G' as [|g l [H _] G' IH]; cbn; [reflexivity|]. now rewrite H. }
      unfold after_got. rewrite CL. destruct o as [a b|a b|a b|a|a]; cbn in U; try discriminate U; cbn [op_names] in N'.
      + destruct gs' as [|g1 [|g2 [|g3 gs']]]; try discriminate N'. injection N' as -> ->. inversion G' as [|? ? [_ R1] G'']; subst. inversion G'' as [|? ? [_ R2] _]; subst.
        apply enter_q.
        * intros x v. cbn. destruct (String.eqb_spec x (g_name g1)) as [->|]; [|discriminate]. intros [= <-]. exact R1.
        * unfold truth. specialize (NH _ _ eq_refl). split; [intros [X|X]; [contradiction|]|intros (x & v & X & W)].
          -- exists (g_name g1), (g_ref g1). split; [cbn; now rewrite String.eqb_refl|exact X].
          -- cbn in X. destruct (String.eqb_spec x (g_name g1)) as [->|]; [|discriminate]. now right.
      + destruct gs' as [|g1 [|g2 gs']]; try discriminate N'. injection N' as ->. inversion G' as [|? ? [_ R1] _]; subst.
        cbn [qinv]. split; [reflexivity|]. split; [repeat constructor|]. left. eexists. split; [reflexivity|]. intros x v. now apply roles_frames.
      + destruct gs' as [|g1 [|g2 gs']]; try discriminate N'. injection N' as ->. inversion G' as [|? ? [_ R1] _]; subst.
        cbn [qinv]. split; [reflexivity|]. split; [repeat constructor|]. right. eexists. split; [reflexivity|]. intros x v. now apply users_frames.
    - cbn [qinv]. split; [reflexivity|]. split; [exact U|]. split; [rewrite map_app, <- app_assoc; exact N|]. split; [exact G'|]. split; [intros x Hx; apply Kn; now right|exact NH].
  Qed.
  Lemma range_val ch fs acc k cl : exists p', tstep (Some mm) level ch m (PRange fs acc k cl) = Val (m, p').
  Proof.
    destruct fs as [|[f r b|f r b must visited] fs]; cbn [tstep]; [eauto|eauto|]. destruct ch as [x|].
    - destruct (may_visit _ _ _); [|eauto]. destruct (mget _ _); eauto.
    - destruct (may_end _ _ _); eauto.
  Qed.
  Lemma total_nil acc x v : total [] acc x v <-> In (x, v) acc.
  Proof. unfold total. split; [intros [H|(fr & [] & _)]; exact H|now left]. Qed.
  Lemma qinv_step ch o p : qinv o p -> exists p', tstep (Some mm) level ch m p = Val (m, p') /\ qinv o p'.
  Proof.
    intros Q. destruct p as [o' gs n rest|o' gs n rest| | | |l k|l k|add u r|l t todo next cl|fs acc k cl|cl y|n r cl y|f n r open cl y|n cl y|y]; try contradiction Q.
    - pose proof Q as (-> & _ & _ & _ & Kn & _). cbn [tstep]. eexists. split; [reflexivity|].
      assert (X : K n = true) by (apply Kn; now left). apply (prep_ref _ _ _ _ _ P) in X as [r Hr]. unfold ref in Hr. rewrite Hr. now apply next_q.
    - destruct Q as (-> & a & -> & Rt & Rn & T). cbn [tstep]. destruct todo as [|kv todo].
      + eexists. split; [reflexivity|]. apply enter_q; [exact Rn|]. rewrite T. split; [intros [(x & v & X & _)|X]; [discriminate|exact X]|auto].
      + assert (Same : qinv (OHas a t) (PLevel l t (kv :: todo) next [])) by (cbn [qinv]; eauto 8).
        remember (kv :: todo) as td eqn:Etd. destruct ch as [k|]; [|eexists; split; [reflexivity|exact Same]].
        destruct (mget k td) as [r|] eqn:Ek; [|eexists; split; [reflexivity|exact Same]]. pose proof (Rt k r Ek) as Rk. rewrite (core_at m k r C Rk).
        destruct (String.eqb t k || match_set (Some mm) k t) eqn:Eh; (eexists; split; [reflexivity|]).
        * cbn [qinv]. split; [reflexivity|]. split; [reflexivity|]. cbn [pattern_answer]. split; [intros _|reflexivity]. change (truth a t). apply T. left. exists k, r. split; [exact Ek|]. apply within_S. left. now apply hits_dec.
        * assert (NH : ~ hits (Some mm) k t) by (intros X; apply hits_dec in X; congruence).
          cbn [qinv]. split; [reflexivity|]. split; [repeat constructor|]. split; [intros x v []|]. exists a. split; [reflexivity|].
          assert (Rt' : refs (mdel k td)) by (intros x v; rewrite mget_del; destruct (String.eqb x k); [discriminate|apply Rt]).
          split; [exact Rt'|]. split; [exact Rn|]. rewrite T. split.
          -- intros [(x & v & X & W)|X]; [|auto]. destruct (string_dec x k) as [->|N].
             ++ apply within_S in W as [W|(y & E & W)]; [contradiction|]. right; right. apply pstep_known in E as Ky. apply (prep_ref _ _ _ _ _ P) in Ky as [w Hw].
                exists y, w. split; [|exact W]. now apply (roles_frames k r y w Rk).
             ++ left. exists x, v. split; [|exact W]. rewrite mget_del_neq; auto.
          -- intros [(x & v & X & W)|[X|(x & v & X & W)]]; [left|now right|left].
             ++ rewrite mget_del in X. destruct (String.eqb x k); [discriminate|]. exists x, v. auto.
             ++ apply (roles_frames k r x v Rk) in X as [_ X]. exists k, r. split; [exact Ek|]. apply within_S. right. eauto.
    - destruct (range_val ch fs acc k cl) as [p' E]. exists p'. split; [exact E|]. destruct k as [l t todo next|].
      + destruct Q as (-> & O & Ra & a & -> & Rt & Rn & T). destruct (range_step ch fs acc _ [] p' O E) as [(fs' & acc' & -> & O' & TT)|[-> ->]].
        * cbn [qinv]. split; [reflexivity|]. split; [exact O'|]. split.
          { intros x v Hx. destruct (proj1 (TT x v) (or_introl Hx)) as [X|(fr & _ & X)]; [now apply Ra|now apply yield_ref in X]. }
          exists a. split; [reflexivity|]. split; [exact Rt|]. split; [exact Rn|]. rewrite T.
          assert (X : (exists x v, total fs acc x v /\ within t l x) <-> (exists x v, total fs' acc' x v /\ within t l x)); [|tauto].
          split; intros (x & v & X & W); exists x, v; (split; [now apply TT|exact W]).
        * cbn [qinv]. split; [reflexivity|]. exists a. split; [reflexivity|]. split; [exact Rt|]. split; [now apply put_refs|]. rewrite T, put_within.
          assert (X : (exists x v, total [] acc x v /\ within t l x) <-> (exists x v, In (x, v) acc /\ within t l x)); [|tauto].
          split; intros (x & v & X & W); exists x, v; (split; [now apply total_nil|exact W]).
      + destruct Q as (-> & O & T). destruct (range_step ch fs acc _ [] p' O E) as [(fs' & acc' & -> & O' & TT)|[-> ->]].
        * cbn [qinv]. split; [reflexivity|]. split; [exact O'|]. destruct T as [(a & -> & T)|(a & -> & T)]; [left|right]; (exists a; split; [reflexivity|]; intros x v; rewrite TT; apply T).
        * cbn [qinv]. split; [reflexivity|].
          assert (I : forall b, In b (map fst acc) <-> exists v, total [] acc b v).
          { intros b. rewrite in_map_iff. split; [intros [[b' v] [<- H]]; exists v; now apply total_nil|intros [v H]; exists (b, v); split; [reflexivity|now apply total_nil]]. }
          destruct T as [(a & -> & T)|(a & -> & T)]; (split; [reflexivity|]); cbn [pattern_answer]; intros b; rewrite I; split.
          -- intros [v X]. now apply T in X.
          -- intros X. apply pstep_known in X as Ky. apply (prep_ref _ _ _ _ _ P) in Ky as [w Hw]. exists w. now apply T.
          -- intros [v X]. apply T in X as [X Y]. split; [|exact Y]. apply (prep_ref _ _ _ _ _ P). eauto.
          -- intros [Ky X]. apply (prep_ref _ _ _ _ _ P) in Ky as [w Hw]. exists w. now apply T.
    - destruct Q as (-> & U & A). cbn [tstep]. eexists. split; [reflexivity|]. now split.
    - cbn [tstep]. eauto.
  Qed.
  Lemma start_q o : updates o = false -> (forall n, In n (op_names o) -> K n = true) -> qinv o (start (Some mm) o).
  Proof.
    intros U Kn. destruct o as [a b|a b|a b|a|a]; cbn in U; try discriminate U; cbn [start].
    - rewrite String.eqb_sym. destruct (String.eqb b a || match_set (Some mm) a b) eqn:E.
      + cbn. split; [reflexivity|]. split; [intros _; left; now apply hits_dec|reflexivity].
      + cbn [qinv]. repeat (split; [first [reflexivity|constructor|exact Kn]|]). intros x y [= <- <-] H. apply hits_dec in H. congruence.
    - cbn [qinv]. repeat (split; [first [reflexivity|constructor|exact Kn]|]). discriminate.
    - cbn [qinv]. repeat (split; [first [reflexivity|constructor|exact Kn]|]). discriminate.
  Qed.
  Lemma run_q sched : forall ops ts, Forall2 qinv ops ts -> exists ts', run (Some mm) level (m, ts) sched = Val (m, ts') /\ Forall2 qinv ops ts'.
  Proof.
    induction sched as [|[i ch] sched IH]; intros ops ts F; cbn [run]; [eauto|]. cbn [fst snd]. destruct (nth_error ts i) as [p|] eqn:E; [|auto].
    assert (G : forall ops ts i p, Forall2 qinv ops ts -> nth_error ts i = Some p -> exists p', tstep (Some mm) level ch m p = Val (m, p') /\ Forall2 qinv ops (upd_at ts i (fun _ => p'))).
    { clear -P C. intros ops ts i p F. revert i. induction F as [|o q ops ts Q F IH]; intros [|i] E; cbn in E; try discriminate E.
      - injection E as ->. destruct (qinv_step ch o p Q) as (p' & Es & Q'). exists p'. split; [exact Es|]. cbn. now constructor.
      - destruct (IH i E) as (p' & Es & F'). exists p'. split; [exact Es|]. cbn. now constructor. }
    destruct (G _ _ _ _ F E) as (p' & Es & F'). rewrite Es. cbn [obind]. now apply IH.
  Qed.

  (** Every query can be run to its end. *)
  Inductive ends (p : pc) : Prop :=
  | ends_done y : p = PDone y -> ends p
  | ends_step ch p' : tstep (Some mm) level ch m p = Val (m, p') -> ends p' -> ends p.
  Ltac go ch := eapply (ends_step _ ch); [reflexivity|].
  Lemma ends_open f r b fs k cl : (forall acc, ends (PRange fs acc k cl)) ->
    (forall g v must visited, b = BInner g -> (forall acc, ends (PRange (FrOpen f r b must visited :: fs) acc k cl)) ->
       forall acc, ends (PRange (FrNew g v BCollect :: FrOpen f r b must visited :: fs) acc k cl)) ->
    forall must visited acc, ends (PRange (FrOpen f r b must visited :: fs) acc k cl).
  Proof.
    intros Hk Hi must0 visited0 acc. set (keys := mkeys (fget m r f)).
    assert (G : forall todo must visited acc, (forall x, In x keys -> In x todo \/ In x visited) -> (forall x, In x todo -> In x keys) -> ends (PRange (FrOpen f r b must visited :: fs) acc k cl)).
    { induction todo as [|x todo IH]; intros must visited acc0 H1 H2.
      - eapply (ends_step _ None); [|apply (Hk acc0)]. cbn [tstep]. replace (may_end must visited (mkeys (fget m r f))) with true; [reflexivity|].
        symmetry. apply forallb_forall. intros x Hx. destruct (sin x (mkeys (fget m r f))) eqn:E; [|reflexivity]. cbn. apply sin_In in E. apply sin_In. destruct (H1 x E) as [[]|X]; exact X.
      - destruct (sin x visited) eqn:Ev.
        + apply IH; [|intros y Hy; apply H2; now right]. intros y Hy. destruct (H1 y Hy) as [[->|X]|X]; auto. right. now apply sin_In.
        + assert (Hx : In x keys) by (apply H2; now left). destruct (mget x (fget m r f)) as [v|] eqn:Em.
          2:{ exfalso. apply mget_None in Em. contradiction. }
          assert (N : forall acc1, ends (PRange (FrOpen f r b must (x :: visited) :: fs) acc1 k cl)).
          { intros acc1. apply IH; [|intros y Hy; apply H2; now right]. intros y Hy. destruct (H1 y Hy) as [[->|X]|X]; cbn; auto. }
          eapply (ends_step _ (Some x)); [cbn [tstep]; unfold may_visit; fold keys; rewrite (proj2 (sin_In x keys) Hx), Ev, Em; cbn [negb andb]; reflexivity|].
          destruct b as [|g] eqn:Eb; [apply N|]. now apply Hi. }
    apply (G keys); auto.
  Qed.
  Lemma ends_new f r b fs k cl : (forall must visited acc, ends (PRange (FrOpen f r b must visited :: fs) acc k cl)) ->
    forall acc, ends (PRange (FrNew f r b :: fs) acc k cl).
  Proof. intros H acc. go (@None string). apply H. Qed.
  Lemma ends_range k cl : (forall acc, ends (PRange [] acc k cl)) -> forall fs acc, ends (PRange fs acc k cl).
  Proof.
    intros H.
    assert (X : forall g v fs, (forall acc, ends (PRange fs acc k cl)) -> forall acc, ends (PRange (FrNew g v BCollect :: fs) acc k cl)).
    { intros g v fs Hk. apply ends_new. apply ends_open; [exact Hk|discriminate]. }
    induction fs as [|[f r b|f r b must visited] fs IH]; [exact H| |].
    - apply ends_new. apply ends_open; [exact IH|]. intros; now apply X.
    - apply ends_open; [exact IH|]. intros; now apply X.
  Qed.
  Lemma mdel_less k (v : nat) (todo : smap nat) : mget k todo = Some v -> List.length (mdel k todo) < List.length todo.
  Proof.
    induction todo as [|[k' v'] todo IH]; cbn; [discriminate|]. destruct (String.eqb_spec k k') as [->|N]; cbn.
    - intros _. assert (X : List.length (mdel k' todo) <= List.length todo); [|lia]. clear. induction todo as [|[a b] todo IH]; cbn; [lia|]. destruct (String.eqb k' a); cbn; lia.
    - intros H. apply IH in H. lia.
  Qed.
  Lemma ends_clean y : ends (PClean [] y).
  Proof. go (@None string). eapply ends_done. reflexivity. Qed.
  Lemma ends_level t : forall l todo next, ends (PLevel l t todo next []).
  Proof.
    induction l as [l IHl] using (well_founded_induction Nat.lt_wf_0).
    assert (G : forall n todo next, List.length todo <= n -> ends (PLevel l t todo next [])).
    { induction n as [|n IHn]; intros todo next Hn.
      - destruct todo; [|cbn in Hn; lia]. go (@None string). destruct l, next; try (now apply ends_clean). apply IHl. lia.
      - destruct todo as [|[k v] todo]; [go (@None string); destruct l, next; try (now apply ends_clean); apply IHl; lia|].
        assert (Ek : mget k ((k, v) :: todo) = Some v) by (cbn; now rewrite String.eqb_refl).
        remember ((k, v) :: todo) as td eqn:Etd. destruct (String.eqb t (name_at m v) || match_set (Some mm) (name_at m v) t) eqn:E.
        + eapply (ends_step _ (Some k)); [cbn [tstep]; rewrite Ek, E; rewrite Etd; reflexivity|]. now apply ends_clean.
        + eapply (ends_step _ (Some k)); [cbn [tstep]; rewrite Ek, E; rewrite Etd at 1; reflexivity|].
          apply ends_range. intros acc. go (@None string). apply IHn. apply mdel_less in Ek. lia. }
    intros todo next. now apply (G (List.length todo)).
  Qed.
  Lemma ends_q o p : qinv o p -> ends p.
  Proof.
    assert (RR : forall fs acc k o, qinv o (PRange fs acc k []) -> ends (PRange fs acc k [])).
    { intros fs acc k o' _. apply ends_range. intros acc'. go (@None string). destruct k; [apply ends_level|apply ends_clean]. }
    assert (NL : forall p, qinv o p -> (forall o' gs n rest, p <> PLoad o' gs n rest) -> ends p).
    { intros p0 Q N. destruct p0 as [o' gs n rest|o' gs n rest| | | |l k|l k|add u r|l t todo next cl|fs acc k cl|cl y|n r cl y|f n r open cl y|n cl y|y]; try contradiction Q.
      - now destruct (N o' gs n rest).
      - destruct Q as (-> & _). apply ends_level.
      - assert (cl = []) as -> by (destruct k; apply Q). eapply RR. exact Q.
      - destruct Q as (-> & _). apply ends_clean.
      - eapply ends_done. reflexivity. }
    intros Q. destruct p as [o' gs n rest| | | | | | | | | | | | | |]; try (apply NL; [exact Q|discriminate]).
    revert gs n Q. induction rest as [|n' rest IH]; intros gs n Q.
    - destruct (qinv_step None _ _ Q) as (p' & E & Q'). eapply ends_step; [exact E|]. apply NL; [exact Q'|]. cbn [tstep] in E.
      destruct Q as (-> & U & N & G & Kn & NH). assert (X : K n = true) by (apply Kn; now left). apply (prep_ref _ _ _ _ _ P) in X as [r Hr]. unfold ref in Hr. rewrite Hr in E. injection E as <-. intros. cbn.
      destruct o; destruct (gs ++ _) as [|? [|? ?]]; cbn; try discriminate; destruct level; discriminate.
    - destruct (qinv_step None _ _ Q) as (p' & E & Q'). eapply ends_step; [exact E|]. cbn [tstep] in E.
      destruct Q as (-> & U & N & G & Kn & NH). assert (X : K n = true) by (apply Kn; now left). apply (prep_ref _ _ _ _ _ P) in X as [r Hr]. unfold ref in Hr. rewrite Hr in E. injection E as <-. now apply IH.
  Qed.
  Lemma ends_in p : ends p -> forall l1 l2, exists sched y, run (Some mm) level (m, l1 ++ p :: l2) sched = Val (m, l1 ++ PDone y :: l2).
  Proof.
    assert (H0 : forall (l1 : list pc) x l2 f, upd_at (l1 ++ x :: l2) (List.length l1) f = l1 ++ f x :: l2).
    { clear. intros l1 x l2 f. induction l1 as [|y l1 IH]; cbn; [reflexivity|]. now rewrite IH. }
    intros H. induction H as [p y ->|p ch p' E H IH]; intros l1 l2; [exists [], y; auto|].
    destruct (IH l1 l2) as (sched & y & Hr). exists ((List.length l1, ch) :: sched), y.
    cbn [run fst snd]. rewrite nth_error_app2, Nat.sub_diag by lia. cbn [nth_error]. rewrite E. cbn [obind]. rewrite H0. exact Hr.
  Qed.
  Lemma run_cat s1 : forall s s2, run (Some mm) level s (s1 ++ s2) = (let! s' := run (Some mm) level s s1 in run (Some mm) level s' s2).
  Proof.
    induction s1 as [|[i ch] s1 IH]; intros s s2; cbn [run app obind]; [reflexivity|].
    destruct (nth_error (snd s) i) as [p|]; [|apply IH]. destruct (tstep (Some mm) level ch (fst s) p) as [[m' p']|]; cbn [obind]; [apply IH|reflexivity].
  Qed.
  Lemma all_end ops ts : Forall2 qinv ops ts -> forall ys, exists sched ys', run (Some mm) level (m, map PDone ys ++ ts) sched = Val (m, map PDone ys').
  Proof.
    intros F. induction F as [|o p ops ts Q F IH]; intros ys; [exists [], ys; now rewrite app_nil_r|].
    destruct (ends_in p (ends_q o p Q) (map PDone ys) ts) as (s1 & y & Hr). destruct (IH (ys ++ [y])) as (s2 & ys' & Hr2).
    exists (s1 ++ s2), ys'. rewrite run_cat, Hr. cbn [obind]. rewrite map_app, <- app_assoc in Hr2. exact Hr2.
  Qed.
End Query.

(** ** Memory, one field at a time *)
Record shape (m : mem) (K : nameset) (F : fld -> string -> string -> Prop) : Prop := mkShape {
  s_core : core m;
  s_known : forall n, K n = true <-> exists r, ref m n r;
  s_lk : forall f a b, lk f m a b = true <-> F f a b
}.
Lemma shape_ext m K K' F F' : shape m K F -> (forall n, K n = K' n) -> (forall f a b, F f a b <-> F' f a b) -> shape m K' F'.
Proof. intros [H1 H2 H3] HK HF. constructor; [exact H1|intros n; now rewrite <- HK|intros f a b; now rewrite <- HF]. Qed.
Lemma core_put m a u b v f : core m -> ref m a u -> ref m b v -> core (fupd m u f (mput b v)).
Proof.
  intros C Ha Hb. destruct (c_name m C a u Ha) as (o & Eo & No). constructor.
  - intros n r H. destruct (c_name m C n r H) as (o' & E' & N'). destruct (fupd_heap m u f (mput b v) r o' E') as (o2 & E2 & N2). exists o2. split; [exact E2|congruence].
  - intros r f' k w. rewrite name_fupd. destruct (Nat.eq_dec u r) as [<-|N]; [destruct (fld_dec f f') as [<-|N]|].
    + rewrite (fget_fupd_same _ _ _ _ _ Eo), mget_put. destruct (String.eqb_spec k b) as [->|Nk]; [|apply (c_vals m C)]. intros [= <-].
      rewrite (core_at m a u C Ha). now split.
    + rewrite fget_fupd_other by now right. apply (c_vals m C).
    + rewrite fget_fupd_other by now left. apply (c_vals m C).
Qed.
Lemma core_del m a u b f : core m -> ref m a u -> core (fupd m u f (mdel b)).
Proof.
  intros C Ha. destruct (c_name m C a u Ha) as (o & Eo & No). constructor.
  - intros n r H. destruct (c_name m C n r H) as (o' & E' & N'). destruct (fupd_heap m u f (mdel b) r o' E') as (o2 & E2 & N2). exists o2. split; [exact E2|congruence].
  - intros r f' k w. rewrite name_fupd. destruct (Nat.eq_dec u r) as [<-|N]; [destruct (fld_dec f f') as [<-|N]|].
    + rewrite (fget_fupd_same _ _ _ _ _ Eo), mget_del. destruct (String.eqb_spec k b) as [->|Nk]; [discriminate|apply (c_vals m C)].
    + rewrite fget_fupd_other by now right. apply (c_vals m C).
    + rewrite fget_fupd_other by now left. apply (c_vals m C).
Qed.
Lemma ref_inj m a b u : core m -> ref m a u -> ref m b u -> a = b.
Proof. intros C Ha Hb. rewrite <- (core_at m a u C Ha). now apply core_at. Qed.
Lemma shape_put m K F a u b v f : shape m K F -> ref m a u -> ref m b v ->
  shape (fupd m u f (mput b v)) K (fun f' x y => F f' x y \/ f' = f /\ x = a /\ y = b).
Proof.
  intros [C HK HF] Ha Hb. destruct (c_name m C a u Ha) as (o & Eo & No). constructor; [now apply (core_put m a)|exact HK|].
  intros f' x y. rewrite <- HF. unfold lk. change (m_all (fupd m u f (mput b v))) with (m_all m).
  destruct (mget x (m_all m)) as [w|] eqn:Ex.
  2:{ split; [discriminate|]. intros [H|(_ & -> & _)]; [discriminate|]. unfold ref in Ha. congruence. }
  destruct (Nat.eq_dec u w) as [<-|N].
  - assert (a = x) as <- by (now apply (ref_inj m a x u C)). destruct (fld_dec f f') as [<-|N].
    + rewrite (fget_fupd_same _ _ _ _ _ Eo). unfold mhas. rewrite mget_put. destruct (String.eqb_spec y b) as [->|Ny]; [tauto|].
      split; [auto|]. intros [H|(_ & _ & H)]; [exact H|contradiction].
    + rewrite fget_fupd_other by now right. split; [auto|]. intros [H|(H & _)]; [exact H|]. now destruct N.
  - rewrite fget_fupd_other by now left. split; [auto|]. intros [H|(_ & -> & _)]; [exact H|]. unfold ref in Ha. congruence.
Qed.
Lemma shape_del m K F a u b f : shape m K F -> ref m a u ->
  shape (fupd m u f (mdel b)) K (fun f' x y => F f' x y /\ ~ (f' = f /\ x = a /\ y = b)).
Proof.
  intros [C HK HF] Ha. destruct (c_name m C a u Ha) as (o & Eo & No). constructor; [now apply (core_del m a)|exact HK|].
  intros f' x y. rewrite <- HF. unfold lk. change (m_all (fupd m u f (mdel b))) with (m_all m).
  destruct (mget x (m_all m)) as [w|] eqn:Ex.
  2:{ split; [discriminate|]. intros [H _]; discriminate. }
  destruct (Nat.eq_dec u w) as [<-|N].
  - assert (a = x) as <- by (now apply (ref_inj m a x u C)). destruct (fld_dec f f') as [<-|N].
    + rewrite (fget_fupd_same _ _ _ _ _ Eo). unfold mhas. rewrite mget_del. destruct (String.eqb_spec y b) as [->|Ny].
      * split; [discriminate|]. intros [_ H]. destruct H. auto.
      * split; [|tauto]. intros H. split; [exact H|]. intros (_ & _ & X). contradiction.
    + rewrite fget_fupd_other by now right. split; [|tauto]. intros H. split; [exact H|]. intros (X & _). now destruct N.
  - rewrite fget_fupd_other by now left. split; [|tauto]. intros H. split; [exact H|]. intros (_ & -> & _). unfold ref in Ha. congruence.
Qed.
Lemma shape_store m K F n : shape m K F -> mget n (m_all m) = None -> 
  let r := List.length (m_heap m) in let m' := mkMem (m_heap m ++ [mkObj n [] [] [] []]) (mput n r (m_all m)) (m_pats m) in
  shape m' (fun x => K x || String.eqb x n) F /\ ref m' n r /\ forall x u, ref m x u -> ref m' x u.
Proof.
  intros [C HK HF] Hn r m'.
  assert (R : forall x u, ref m x u -> ref m' x u).
  { intros x u H. unfold ref, m'. cbn. rewrite mget_put. destruct (String.eqb_spec x n) as [->|]; [unfold ref in H; congruence|exact H]. }
  assert (Rn : ref m' n r) by (unfold ref, m'; cbn; rewrite mget_put; now rewrite String.eqb_refl).
  assert (Old : forall x u, ref m' x u -> x = n /\ u = r \/ ref m x u).
  { intros x u. unfold ref, m'. cbn. rewrite mget_put. destruct (String.eqb_spec x n) as [->|]; [intros [= <-]; auto|auto]. }
  assert (Lt : forall x u, ref m x u -> u < r).
  { intros x u H. destruct (c_name m C x u H) as (o & E & _). apply nth_error_Some. congruence. }
  assert (FG : forall u f, fget m' u f = fget m u f).
  { intros u f. unfold fget, m'. cbn. destruct (Nat.lt_ge_cases u r) as [H|H]; [now rewrite nth_error_app1|].
    rewrite nth_error_app2 by exact H. rewrite (proj2 (nth_error_None (m_heap m) u)) by exact H. fold r. destruct (u - r) as [|k]; cbn; [now destruct f|now destruct k]. }
  assert (NA : forall u, u < r -> name_at m' u = name_at m u).
  { intros u H. unfold name_at, m'. cbn. now rewrite nth_error_app1. }
  split; [|split; [exact Rn|exact R]]. constructor.
  - constructor.
    + intros x u H. destruct (Old x u H) as [[-> ->]|H'].
      * exists (mkObj n [] [] [] []). split; [|reflexivity]. unfold m', r. cbn. rewrite nth_error_app2, Nat.sub_diag by lia. reflexivity.
      * destruct (c_name m C x u H') as (o & E & N). exists o. split; [|exact N]. unfold m'. cbn. rewrite nth_error_app1; [exact E|]. apply nth_error_Some. congruence.
    + intros u f k v. rewrite FG. intros H. destruct (c_vals m C u f k v H) as [H1 H2]. rewrite (NA u) by (eapply Lt; exact H1). auto.
  - intros x. rewrite orb_true_iff, HK, String.eqb_eq. split.
    + intros [[u H]| ->]; eauto.
    + intros [u H]. destruct (Old x u H) as [[-> _]|H']; eauto.
  - intros f a b. rewrite <- HF. unfold lk at 1. unfold m' at 1. cbn [m_all]. rewrite mget_put. destruct (String.eqb_spec a n) as [->|N].
    + rewrite FG. unfold lk. rewrite Hn. split; [|discriminate]. intros H. apply mhas_true in H as [v H]. apply (c_vals m C) in H as [H _]. exfalso. apply Lt in H. lia.
    + unfold lk. destruct (mget a (m_all m)); [|tauto]. now rewrite FG.
Qed.

(** ** A call that runs alone *)
Definition full (mm : imatcher) (Lr Lu : linkset) (K : nameset) (f : fld) (a b : string) : Prop :=
  match f with
  | FRoles => Lr a b = true
  | FUsers => Lu b a = true
  | FMatched => K a = true /\ K b = true /\ covers mm a b
  | FMatchedBy => K b = true /\ K a = true /\ covers mm b a
  end.
Definition part (mm : imatcher) (L : linkset) (K : nameset) (n : string) (V1 V2 : list string) (f : fld) (a b : string) : Prop :=
  match f with
  | FRoles => L a b = true
  | FUsers => L b a = true
  | FMatched => (K a = true /\ K b = true /\ covers mm a b) /\ (a = n -> In b V1) /\ (b = n -> In a V1)
  | FMatchedBy => (K b = true /\ K a = true /\ covers mm b a) /\ (b = n -> In a V2) /\ (a = n -> In b V2)
  end.
Definition pats (mm : imatcher) (m : mem) (K : nameset) : Prop := forall n, In n (m_pats m) <-> K n = true /\ IsPattern mm n = true.
Lemma prep_shape mm m L K : prep mm m L K <-> shape m K (full mm L L K) /\ pats mm m K.
Proof.
  split.
  - intros P. split; [|exact (p_pats _ _ _ _ P)]. constructor; [exact (p_core _ _ _ _ P)|intros n; now apply (prep_ref mm m L K)|].
    intros [| | |] a b; cbn [full]; [now rewrite (p_roles _ _ _ _ P)|now rewrite (p_users _ _ _ _ P)|apply (p_mat _ _ _ _ P)|apply (p_mby _ _ _ _ P)].
  - intros [[C HK HF] HP]. constructor; auto.
    + intros n. apply eq_true_iff_eq. rewrite HK. symmetry. apply mhas_true.
    + intros a b. apply eq_true_iff_eq. apply HF.
    + intros a b. apply eq_true_iff_eq. apply HF.
    + intros p x. apply HF.
    + intros p x. apply HF.
Qed.
Lemma prep_ext mm m L L' K K' : prep mm m L K -> (forall a b, L a b = L' a b) -> (forall n, K n = K' n) -> prep mm m L' K'.
Proof.
  rewrite !prep_shape. intros [S HP] HL HK. split.
  - apply (shape_ext _ _ _ _ _ S HK). intros [| | |] a b; cbn [full]; now rewrite ?HL, ?HK.
  - intros n. now rewrite <- HK.
Qed.

Definition plus (m : mem) (n : string) (r : nat) : mem := mkMem (m_heap m) (mput n r (m_all m)) (m_pats m).
Lemma shape_all m m' K F : shape m K F -> m_heap m' = m_heap m -> (forall x, mget x (m_all m') = mget x (m_all m)) -> shape m' K F.
Proof.
  intros [C HK HF] E1 E2. assert (R : forall x u, ref m' x u <-> ref m x u) by (intros; unfold ref; now rewrite E2).
  assert (FG : forall u f, fget m' u f = fget m u f) by (intros; unfold fget; now rewrite E1).
  assert (NA : forall u, name_at m' u = name_at m u) by (intros; unfold name_at; now rewrite E1).
  constructor.
  - constructor; [intros n r H; rewrite E1; now apply C, R|]. intros r f k v. rewrite FG, NA, !R. apply C.
  - intros n. rewrite HK. split; intros [r H]; exists r; now apply R.
  - intros f a b. rewrite <- HF. unfold lk. rewrite E2. destruct (mget a (m_all m)); [now rewrite FG|tauto].
Qed.
(** A query with other names to forget in the end. *)
Definition recl (cl : list string) (p : pc) : pc :=
  match p with
  | PLevel l t todo next _ => PLevel l t todo next cl
  | PRange fs acc k _ => PRange fs acc k cl
  | PClean _ y => PClean cl y
  | _ => p
  end.
Definition asking (p : pc) : Prop := match p with PLevel _ _ _ _ _ | PRange _ _ _ _ => True | _ => False end.
Definition asked (p : pc) : Prop := match p with PLevel _ _ _ _ _ | PRange _ _ _ _ | PClean _ _ => True | _ => False end.
Lemma recl_enter l t s cl cl' : recl cl' (enter l t s cl) = enter l t s cl'.
Proof. destruct l, s; reflexivity. Qed.
Lemma asked_enter l t s cl : asked (enter l t s cl).
Proof. destruct l, s; exact I. Qed.
Lemma recl_step M level ch m p p' cl : asking p -> tstep M level ch m p = Val (m, p') -> asked p' /\ tstep M level ch m (recl cl p) = Val (m, recl cl p').
Proof.
  destruct p as [| | | | | | | |l t todo next cl0|fs acc k cl0| | | | |]; try contradiction; intros _; cbn [tstep recl].
  - destruct todo as [|kv todo]; [intros [= <-]; split; [apply asked_enter|now rewrite recl_enter]|]. destruct ch as [x|]; [|intros [= <-]; now split].
    destruct (mget x (kv :: todo)); [|intros [= <-]; now split]. destruct (_ || _); intros [= <-]; now split.
  - destruct fs as [|[f r b|f r b must visited] fs]; [intros [= <-]; destruct k; now split|intros [= <-]; now split|]. destruct ch as [x|].
    + destruct (may_visit _ _ _); [|intros [= <-]; now split]. destruct (mget _ _); [|intros [= <-]; now split]. destruct b; intros [= <-]; now split.
    + destruct (may_end _ _ _); intros [= <-]; now split.
Qed.

Lemma NoDup_app_snoc {X} (l : list X) x : NoDup l -> ~ In x l -> NoDup (l ++ [x]).
Proof. intros H N. apply NoDup_rev in H. rewrite <- (rev_involutive (l ++ [x])). apply NoDup_rev. rewrite rev_app_distr. cbn. constructor; [now rewrite <- in_rev|exact H]. Qed.

Section Update.
  Variables (mm : imatcher) (level : nat) (L : linkset) (K : nameset) (o : rop).
  Hypothesis LK : forall a b, L a b = true -> K a = true /\ K b = true.
  Hypothesis NH : forall a b, o = OHas a b -> ~ hits (Some mm) a b.
  Definition KO (n : string) : bool := K n || sin n (op_names o).
  Hypothesis A : forall p q, KO p = true -> KO q = true -> IsPattern mm q = true -> ~ covers mm p q.
  Definition kn (ns : list string) (n : string) : bool := K n || sin n ns.
  (** The names that the call created. *)
  Definition news (gs : list got) : list string := map g_name (filter g_new gs).
  Definition KC (cl : list string) (x : string) : bool := K x || sin x cl.
  Definition clean_ok (cl : list string) : Prop := NoDup cl /\ forall x, In x cl -> K x = false.
  Definition names (gs : list got) (l : list string) : Prop :=
    op_names o = map g_name gs ++ l /\ clean_ok (news gs) /\ forall x, kn (map g_name gs) x = KC (news gs) x.
  Definition got_refs (m : mem) (gs : list got) : Prop := Forall (fun g => ref m (g_name g) (g_ref g)) gs.
  Definition keys (m : mem) (pat : bool) : list string := if pat then mkeys (m_all m) else m_pats m.
  Definition KN (gs : list got) (n : string) : nameset := fun x => kn (map g_name gs) x || String.eqb x n.
  Definition mat (m : mem) (gs : list got) (n : string) (r : nat) (rest : list string) (pat : bool) (must V1 V2 : list string) : Prop :=
    (names gs (n :: rest) /\ kn (map g_name gs) n = false) /\ got_refs m gs /\ ref m n r /\ pat = IsPattern mm n /\ pats mm m (KN gs n) /\ must = keys m pat /\
    shape m (KN gs n) (part mm L (KN gs n) n V1 V2).

  (** While the name [n] is being forgotten. *)
  Definition cut (n : string) (cl : list string) (V1 V2 W1 W2 : list string) (f : fld) (a b : string) : Prop :=
    full mm L L (KC (n :: cl)) f a b /\
    match f with
    | FMatched => (a = n -> ~ In b V1) /\ (b = n -> ~ In a W1)
    | FMatchedBy => (b = n -> ~ In a V2) /\ (a = n -> ~ In b W2)
    | _ => True
    end.
  Definition all_of (n : string) (cl V : list string) : Prop := forall x, KC (n :: cl) x = true -> covers mm n x -> In x V.
  Definition all_by (n : string) (cl W : list string) : Prop := forall p, KC (n :: cl) p = true -> covers mm p n -> In p W.
  Definition going (m : mem) (n : string) (r : nat) (cl : list string) (y : ans) (V1 V2 W1 W2 : list string) : Prop :=
    updates o = false /\ clean_ok (n :: cl) /\ pattern_answer mm level L KO o y /\ mget n (m_all m) = None /\ pats mm m (KC (n :: cl)) /\
    shape (plus m n r) (KC (n :: cl)) (cut n cl V1 V2 W1 W2).

  Definition uinv (m : mem) (p : pc) : Prop :=
    match p with
    | PLoad o' gs n rest => o' = o /\ names gs (n :: rest) /\ prep mm m L (kn (map g_name gs)) /\ got_refs m gs
    | PStore o' gs n rest => o' = o /\ names gs (n :: rest) /\ prep mm m L (kn (map g_name gs)) /\ got_refs m gs /\ mget n (m_all m) = None
    | PPat o' gs n r rest =>
        o' = o /\ (names gs (n :: rest) /\ kn (map g_name gs) n = false) /\ got_refs m gs /\ ref m n r /\ IsPattern mm n = true /\ pats mm m (kn (map g_name gs)) /\
        shape m (KN gs n) (part mm L (KN gs n) n [] [])
    | PMatch o' gs n r rest pat None => o' = o /\ mat m gs n r rest pat (keys m pat) [] []
    | PMatch o' gs n r rest pat (Some (must, vis)) => o' = o /\ mat m gs n r rest pat must vis vis
    | PLoadPat k r back =>
        exists gs n rest must vis, back = PMatch o gs n r rest false (Some (must, k :: vis)) /\ mat m gs n r rest false must vis vis /\ covers mm k n /\ KN gs n k = true
    | PSet l back =>
        (exists gs n r rest pat must vis k p x rp rx,
           back = PMatch o gs n r rest pat (Some (must, k :: vis)) /\ ref m p rp /\ ref m x rx /\ covers mm p x /\ ~ covers mm x p /\
           (p = n /\ x = k \/ p = k /\ x = n) /\
           (l = [(rp, FMatched, x, rx); (rx, FMatchedBy, p, rp)] /\ mat m gs n r rest pat must vis vis \/
            l = [(rx, FMatchedBy, p, rp)] /\ mat m gs n r rest pat must (k :: vis) vis)) \/
        (exists a b u r, o = OAdd a b /\ ref m a u /\ ref m b r /\ L a b = false /\ back = PDone (YBool true) /\ pats mm m KO /\
           (l = [(u, FRoles, b, r); (r, FUsers, a, u)] /\ shape m KO (full mm L L KO) \/
            l = [(r, FUsers, a, u)] /\ shape m KO (full mm (phase_links L [o]) L KO)))
    | PUnset l back =>
        (exists n r cl y must vis x v, back = PRem FMatched n r (Some (must, x :: vis)) cl y /\ ref (plus m n r) x v /\ all_of n cl must /\
           (l = [(r, FMatched, x); (v, FMatchedBy, n)] /\ going m n r cl y vis vis [] [] \/
            l = [(v, FMatchedBy, n)] /\ going m n r cl y (x :: vis) vis [] [])) \/
        (exists n r cl y must vis x v V, back = PRem FMatchedBy n r (Some (must, x :: vis)) cl y /\ ref (plus m n r) x v /\ all_of n cl V /\ all_by n cl must /\
           (l = [(v, FMatched, n); (r, FMatchedBy, x)] /\ going m n r cl y V V vis vis \/
            l = [(r, FMatchedBy, x)] /\ going m n r cl y V V (x :: vis) vis)) \/
        exists a b u r, o = ODel a b /\ ref m a u /\ ref m b r /\ L a b = true /\ back = PDone (YBool true) /\ pats mm m KO /\
           (l = [(u, FRoles, b); (r, FUsers, a)] /\ shape m KO (full mm L L KO) \/
            l = [(r, FUsers, a)] /\ shape m KO (full mm (phase_links L [o]) L KO))
    | PHasRole add u r => exists a b, o = (if add then OAdd a b else ODel a b) /\ ref m a u /\ ref m b r /\ prep mm m L KO
    | PLevel _ _ _ _ cl | PRange _ _ _ cl =>
        updates o = false /\ clean_ok cl /\ (forall x, KC cl x = KO x) /\ prep mm m L KO /\ qinv mm level m L KO o (recl [] p)
    | PClean cl y => updates o = false /\ clean_ok cl /\ pattern_answer mm level L KO o y /\ prep mm m L (KC cl)
    | PDelAll n r cl y => updates o = false /\ clean_ok (n :: cl) /\ pattern_answer mm level L KO o y /\ prep mm m L (KC (n :: cl)) /\ ref m n r
    | PRem FMatched n r None cl y => going m n r cl y [] [] [] []
    | PRem FMatched n r (Some (must, vis)) cl y => going m n r cl y vis vis [] [] /\ all_of n cl must
    | PRem FMatchedBy n r None cl y => exists V, going m n r cl y V V [] [] /\ all_of n cl V
    | PRem FMatchedBy n r (Some (must, vis)) cl y => exists V, going m n r cl y V V vis vis /\ all_of n cl V /\ all_by n cl must
    | PRem _ _ _ _ _ _ => False
    | PPatDel n cl y =>
        updates o = false /\ clean_ok (n :: cl) /\ pattern_answer mm level L KO o y /\ pats mm m (KC (n :: cl)) /\ shape m (KC cl) (full mm L L (KC cl))
    | PDone y => pattern_answer mm level L KO o y /\ prep mm m (phase_links L [o]) (fun x => K x || (updates o && sin x (op_names o)))
    end.

  Lemma next_u m gs rest : names gs rest -> got_refs m gs -> prep mm m L (kn (map g_name gs)) -> uinv m (next_got level o gs rest).
  Proof.
    intros N G P. destruct rest as [|n rest]; cbn [next_got]; [|cbn [uinv]; auto].
    destruct N as (N & CO & NW). rewrite app_nil_r in N. assert (E : forall x, kn (map g_name gs) x = KO x) by (intros x; unfold kn, KO; now rewrite N).
    assert (X : forall (add : bool) a b, o = (if add then OAdd a b else ODel a b) -> uinv m (after_got level o gs)).
    { intros add a b Eo. assert (N' : [a; b] = map g_name gs) by (rewrite <- N, Eo; now destruct add).
      destruct gs as [|g1 [|g2 [|g3 gs]]]; try discriminate N'. injection N' as -> ->. inversion G as [|? ? R1 G']; subst. inversion G' as [|? ? R2 _]; subst.
      replace (after_got level o [g1; g2]) with (PHasRole add (g_ref g1) (g_ref g2)) by (rewrite Eo; now destruct add).
      cbn [uinv]. exists (g_name g1), (g_name g2). split; [exact Eo|]. split; [exact R1|]. split; [exact R2|]. now apply (prep_ext _ _ _ _ _ _ P). }
    destruct (updates o) eqn:U.
    - assert (D : exists (add : bool) a b, o = (if add then OAdd a b else ODel a b)).
      { clear -U. destruct o as [a b|a b|a b|a|a]; try discriminate U; [exists true, a, b|exists false, a, b]; reflexivity. }
      destruct D as (add & a & b & Eo). exact (X add a b Eo).
    - clear X. assert (PO : prep mm m L KO) by (now apply (prep_ext _ _ _ _ _ _ P)).
      set (cl := map g_name (filter g_new (rev gs))). set (gs' := map (fun g => mkGot (g_name g) (g_ref g) false) gs).
      assert (IN : forall x, In x cl <-> In x (news gs)).
      { intros x. unfold cl, news. rewrite !in_map_iff. split; intros (g & H1 & H2); exists g; (split; [exact H1|]); rewrite filter_In in *; [rewrite <- in_rev in H2|rewrite <- in_rev]; exact H2. }
      assert (CL : clean_ok cl).
      { destruct CO as [C1 C2]. split; [|intros x Hx; now apply C2, IN]. unfold cl. unfold news in C1.
        assert (Y : filter g_new (rev gs) = rev (filter g_new gs)).
        { clear. induction gs as [|g gs IH]; cbn; [reflexivity|]. rewrite filter_app, IH. cbn. destruct (g_new g); cbn; [reflexivity|now rewrite app_nil_r]. }
        rewrite Y, map_rev. now apply NoDup_rev. }
      assert (KE : forall x, KC cl x = KO x).
      { intros x. rewrite <- E, NW. unfold KC. f_equal. apply eq_true_iff_eq. now rewrite !sin_In. }
      assert (G2 : Forall (fun g => g_new g = false /\ ref m (g_name g) (g_ref g)) gs').
      { unfold gs'. apply Forall_map. eapply Forall_impl; [|exact G]. cbn. auto. }
      assert (N2 : map g_name gs' = map g_name gs) by (unfold gs'; rewrite map_map; reflexivity).
      assert (F2 : filter g_new (rev gs') = []).
      { apply Forall_rev in G2. induction G2 as [|g l [H _] G2 IH]; cbn; [reflexivity|]. now rewrite H. }
      assert (RC : after_got level o gs = recl cl (after_got level o gs') /\ asked (after_got level o gs') /\ qinv mm level m L KO o (after_got level o gs')).
      { assert (LAST : gs' <> []) by (intros X; rewrite X in N2; rewrite <- N2 in N; destruct o; discriminate N).
        split; [|split].
        - unfold after_got. rewrite F2. fold cl. destruct o as [a b|a b|a b|a|a]; try discriminate U; cbn [op_names] in N.
          + destruct gs as [|g1 [|g2 [|g3 gs]]]; try discriminate N. cbn [gs' map g_name g_ref]. symmetry. apply recl_enter.
          + destruct gs as [|g1 [|g2 gs]]; try discriminate N. reflexivity.
          + destruct gs as [|g1 [|g2 gs]]; try discriminate N. reflexivity.
        - unfold after_got. destruct o as [a b|a b|a b|a|a]; try discriminate U; cbn [op_names] in N.
          + destruct gs as [|g1 [|g2 [|g3 gs]]]; try discriminate N. cbn [gs' map]. apply asked_enter.
          + destruct gs as [|g1 [|g2 gs]]; try discriminate N. exact I.
          + destruct gs as [|g1 [|g2 gs]]; try discriminate N. exact I.
        - destruct (exists_last LAST) as (gs0 & g & Eg). rewrite Eg in *. apply Forall_app in G2 as [G0 G1]. inversion G1 as [|? ? [Gn Gr] _]; subst.
          destruct g as [gn gr gw]. cbn in Gn, Gr. subst gw. apply (next_q mm level m L KO PO o gs0 gn gr []); [|exact Gr]. cbn [qinv]. split; [reflexivity|]. split; [exact U|].
          rewrite map_app in N2. cbn in N2. split; [now rewrite N2|]. split; [exact G0|]. split; [|exact NH]. intros x [<-|[]]. apply (prep_ref _ _ _ _ _ PO). eauto. }
      destruct RC as (-> & AS & Q). destruct (after_got level o gs') as [| | | | | | | |l t todo next c0|fs acc k c0|c0 y| | | |]; try contradiction AS; cbn [recl uinv].
      + assert (c0 = []) as -> by apply Q. auto.
      + assert (c0 = []) as -> by (destruct k; apply Q). auto.
      + destruct Q as (_ & _ & Q). repeat (split; [first [exact U|exact CL|exact Q]|]). apply (prep_ext _ _ _ _ _ _ PO); [reflexivity|]. intros x. now rewrite KE.
  Qed.
  Lemma KN_app gs n r b x : KN gs n x = kn (map g_name (gs ++ [mkGot n r b])) x.
  Proof.
    unfold KN, kn. rewrite map_app. cbn [map g_name]. rewrite <- orb_assoc. f_equal. apply eq_true_iff_eq. rewrite orb_true_iff, !sin_In, in_app_iff, String.eqb_eq. cbn. intuition.
  Qed.
  Lemma names_next gs n r rest b : names gs (n :: rest) -> (b = false -> kn (map g_name gs) n = true) -> (b = true -> kn (map g_name gs) n = false) ->
    names (gs ++ [mkGot n r b]) rest.
  Proof.
    intros (N & [C1 C2] & NW) Hf Ht. assert (E : news (gs ++ [mkGot n r b]) = news gs ++ (if b then [n] else [])).
    { unfold news. rewrite filter_app, map_app. cbn. now destruct b. }
    split; [rewrite map_app, <- app_assoc; exact N|]. split.
    - rewrite E. destruct b; [|now rewrite app_nil_r]. specialize (Ht eq_refl). rewrite NW in Ht. unfold KC in Ht. apply orb_false_iff in Ht as [H1 H2]. apply sin_false in H2. split.
      + apply NoDup_app_snoc; assumption.
      + intros x Hx. apply in_app_iff in Hx as [Hx|[<-|[]]]; [now apply C2|exact H1].
    - intros x. rewrite <- KN_app. unfold KN. rewrite NW, E. unfold KC. destruct b; [|rewrite app_nil_r].
      + rewrite <- orb_assoc. f_equal. apply eq_true_iff_eq. rewrite orb_true_iff, !sin_In, in_app_iff, String.eqb_eq. cbn. intuition.
      + destruct (String.eqb_spec x n) as [->|]; [|now rewrite orb_false_r]. rewrite orb_true_r. symmetry. specialize (Hf eq_refl). now rewrite NW in Hf.
  Qed.
  Lemma KN_KO gs n rest x : names gs (n :: rest) -> KN gs n x = true -> KO x = true.
  Proof.
    intros (N & _). unfold KN, kn, KO. rewrite N, !orb_true_iff, !sin_In, in_app_iff, String.eqb_eq. cbn. intuition.
  Qed.
  Lemma part_none n V k (Kx : nameset) : ~ covers mm n k -> ~ covers mm k n -> forall f a b, part mm L Kx n V V f a b <-> part mm L Kx n (k :: V) (k :: V) f a b.
  Proof.
    intros N1 N2 f a b.
    assert (X : forall a b, covers mm a b -> (a = n -> In b (k :: V)) -> a = n -> In b V) by (intros a0 b0 Cv H E; destruct (H E) as [<-|H']; [subst; contradiction|exact H']).
    assert (Y : forall a b, covers mm a b -> (b = n -> In a (k :: V)) -> b = n -> In a V) by (intros a0 b0 Cv H E; destruct (H E) as [<-|H']; [subst; contradiction|exact H']).
    destruct f; cbn [part]; try tauto.
    - split; intros ((H1 & H2 & H3) & H4 & H5); (split; [auto|]); split; intros E; [right; auto|right; auto|exact (X a b H3 H4 E)|exact (Y a b H3 H5 E)].
    - split; intros ((H1 & H2 & H3) & H4 & H5); (split; [auto|]); split; intros E; [right; auto|right; auto|exact (X b a H3 H4 E)|exact (Y b a H3 H5 E)].
  Qed.
  Lemma part_pair n V k p x (Kx : nameset) : covers mm p x -> ~ covers mm x p -> (p = n /\ x = k \/ p = k /\ x = n) -> Kx p = true -> Kx x = true ->
    forall a b, (Kx a = true /\ Kx b = true /\ covers mm a b) /\ (a = n -> In b (k :: V)) /\ (b = n -> In a (k :: V)) <->
                ((Kx a = true /\ Kx b = true /\ covers mm a b) /\ (a = n -> In b V) /\ (b = n -> In a V)) \/ (a = p /\ b = x).
  Proof.
    intros Cv NC Hk Kp Kx' a b. split.
    - intros ((H1 & H2 & H3) & H4 & H5). destruct (string_dec a p) as [->|Na]; [destruct (string_dec b x) as [->|Nb]; [now right|]|].
      + left. split; [auto|]. destruct Hk as [[-> ->]|[-> ->]].
        * split; [intros E; destruct (H4 E) as [X|X]; [now subst|exact X]|]. intros ->. destruct H3 as [X _]. now destruct X.
        * split; [intros ->; destruct H3, Cv; now subst|]. intros ->. contradiction.
      + left. split; [auto|]. destruct Hk as [[-> ->]|[-> ->]].
        * split; [intros E; contradiction|]. intros ->. destruct (H5 eq_refl) as [<-|X]; [contradiction|exact X].
        * split; [intros ->; destruct (H4 eq_refl) as [<-|X]; [contradiction|exact X]|]. intros ->. destruct (H5 eq_refl) as [<-|X]; [contradiction|exact X].
    - intros [(H & H4 & H5)|[-> ->]]; [split; [exact H|]; split; intros E; right; auto|]. split; [auto|]. destruct Cv as [Npx _]. destruct Hk as [[-> ->]|[-> ->]].
      + split; [intros _; now left|]. intros ->. contradiction.
      + split; [intros ->; contradiction|]. intros _. now left.
  Qed.
  Lemma mat_visit m gs n r rest pat must vis k : mat m gs n r rest pat must vis vis -> ~ covers mm n k -> ~ covers mm k n -> mat m gs n r rest pat must (k :: vis) (k :: vis).
  Proof.
    intros (H1 & H2 & H3 & H4 & H5 & H6 & H7) N1 N2. repeat (split; [assumption|]). apply (shape_ext _ _ _ _ _ H7); [reflexivity|]. now apply part_none.
  Qed.
  Lemma mat_end m gs n r rest pat must vis : mat m gs n r rest pat must vis vis -> may_end must vis (keys m pat) = true -> prep mm m L (KN gs n).
  Proof.
    intros (H1 & H2 & H3 & H4 & H5 & H6 & H7) E. apply prep_shape. split; [|exact H5]. apply (shape_ext _ _ _ _ _ H7); [reflexivity|].
    assert (V : forall k, In k (keys m pat) -> In k vis).
    { intros k Hk. subst must. unfold may_end in E. rewrite forallb_forall in E. specialize (E k Hk). rewrite (proj2 (sin_In _ _) Hk) in E. now apply sin_In. }
    assert (X : forall a b, KN gs n a = true -> KN gs n b = true -> covers mm a b -> (a = n -> In b vis) /\ (b = n -> In a vis)).
    { intros a b Ka Kb Cv. destruct pat; cbn [keys] in V.
      - assert (Y : forall z, KN gs n z = true -> In z vis); [|split; auto]. intros z Kz. apply (s_known _ _ _ H7) in Kz as [w Hw]. apply V.
        destruct (in_dec string_dec z (mkeys (m_all m))) as [i|i]; [exact i|]. apply mget_None in i. unfold ref in Hw. congruence.
      - split; [intros ->; destruct Cv as (_ & Cv & _); congruence|]. intros ->. apply V, H5. split; [exact Ka|apply Cv]. }
    intros f a b. destruct f; cbn [part full]; try tauto.
    - split; [tauto|]. intros (Y1 & Y2 & Y3). split; [auto|]. now apply X.
    - split; [tauto|]. intros (Y1 & Y2 & Y3). split; [auto|]. now apply X.
  Qed.
  Lemma KO_up m L' : updates o = true -> prep mm m L' KO -> prep mm m L' (fun x => K x || (updates o && sin x (op_names o))).
  Proof. intros U P. apply (prep_ext _ _ _ _ _ _ P); [reflexivity|]. intros x. now rewrite U. Qed.
  Lemma to_u m cl p : updates o = false -> clean_ok cl -> (forall x, KC cl x = KO x) -> prep mm m L KO -> asked p -> qinv mm level m L KO o p -> uinv m (recl cl p).
  Proof.
    intros U CL KE PO AS Q. destruct p as [| | | | | | | |l t todo next c0|fs acc k c0|c0 y| | | |]; try contradiction AS; cbn [recl uinv].
    - assert (c0 = []) as -> by apply Q. auto.
    - assert (c0 = []) as -> by (destruct k; apply Q). auto.
    - destruct Q as (_ & _ & Q). repeat (split; [first [exact U|exact CL|exact Q]|]). apply (prep_ext _ _ _ _ _ _ PO); [reflexivity|]. intros x. now rewrite KE.
  Qed.
  Lemma KC_cons n cl x : KC (n :: cl) x = true <-> x = n \/ KC cl x = true.
  Proof. unfold KC. rewrite !orb_true_iff, !sin_In. cbn. intuition. Qed.
  Lemma gone n cl : clean_ok (n :: cl) -> KC cl n = false /\ clean_ok cl.
  Proof.
    intros [N H]. inversion N; subst. split; [|split; [assumption|intros x Hx; apply H; now right]].
    unfold KC. rewrite (H n (or_introl eq_refl)). cbn. now apply sin_false.
  Qed.
  Lemma going_end m n r cl y V W : going m n r cl y V V W W -> all_of n cl V -> all_by n cl W -> shape m (KC cl) (full mm L L (KC cl)).
  Proof.
    intros (U & CO & PA & Nn & HP & [C HK HF]) AO AB. destruct (gone n cl CO) as [Kn CO'].
    assert (LN : forall a b, L a b = true -> a <> n /\ b <> n).
    { intros a b H. apply LK in H as [H1 H2]. destruct CO as [_ CO]. specialize (CO n (or_introl eq_refl)). split; intros ->; congruence. }
    assert (CT : forall f a b, cut n cl V V W W f a b -> a <> n /\ b <> n).
    { intros f a b [H1 H2]. destruct f; cbn [full] in H1.
      - now apply LN in H1.
      - apply LN in H1. tauto.
      - destruct H1 as (K1 & K2 & Cv), H2 as [H2 H3]. split; intros ->; [apply (H2 eq_refl); now apply AO|apply (H3 eq_refl); now apply AB].
      - destruct H1 as (K1 & K2 & Cv), H2 as [H2 H3]. split; intros ->; [apply (H3 eq_refl); now apply AB|apply (H2 eq_refl); now apply AO]. }
    assert (R : forall x u, x <> n -> (ref (plus m n r) x u <-> ref m x u)).
    { intros x u N. unfold ref, plus. cbn. rewrite mget_put. destruct (String.eqb_spec x n); [contradiction|tauto]. }
    assert (LKE : forall f a b, a <> n -> lk f (plus m n r) a b = lk f m a b).
    { intros f a b N. unfold lk, plus. cbn [m_all]. rewrite mget_put. destruct (String.eqb_spec a n); [contradiction|reflexivity]. }
    constructor.
    - constructor.
      + intros x u H. assert (x <> n) by (intros ->; unfold ref in H; congruence). apply (c_name _ C x u). now apply R.
      + intros u f k v H. destruct (c_vals _ C u f k v H) as [H1 H2]. change (name_at (plus m n r) u) with (name_at m u) in H1.
        assert (X : cut n cl V V W W f (name_at m u) k) by (apply HF, (lk_ref f _ _ u k C H1); eauto). apply CT in X as [X1 X2]. split; now apply R.
    - intros x. destruct (string_dec x n) as [->|N].
      + rewrite Kn. split; [discriminate|]. intros [u H]. unfold ref in H. congruence.
      + assert (X : KC cl x = true <-> KC (n :: cl) x = true) by (rewrite KC_cons; tauto). rewrite X, HK. split; intros [u H]; exists u; now apply (R x u N).
    - intros f a b. destruct (string_dec a n) as [->|N].
      + unfold lk. rewrite Nn. split; [discriminate|]. intros H. exfalso. destruct f; cbn [full] in H; [apply LN in H; tauto|apply LN in H; tauto|destruct H; congruence|destruct H as (_ & H & _); congruence].
      + rewrite <- (LKE f a b N), HF. split.
        * intros H. apply CT in H as X. destruct H as [H _]. destruct f; cbn [full] in *; auto; rewrite !KC_cons in H; tauto.
        * intros H. assert (Nb : b <> n) by (intros ->; destruct f; cbn [full] in H; [apply LN in H; tauto|apply LN in H; tauto|destruct H as (_ & H & _); congruence|destruct H; congruence]).
          split; [destruct f; cbn [full] in *; auto; rewrite !KC_cons; tauto|]. destruct f; try exact I; split; intros X; contradiction.
  Qed.
  Lemma lk_key m n r cl V1 V2 W1 W2 f x : shape (plus m n r) (KC (n :: cl)) (cut n cl V1 V2 W1 W2) -> (In x (mkeys (fget m r f)) <-> cut n cl V1 V2 W1 W2 f n x).
  Proof.
    intros [C HK HF]. assert (Rn : ref (plus m n r) n r) by (unfold ref, plus; cbn; now rewrite mget_put, String.eqb_refl).
    rewrite <- HF, (lk_ref f _ n r x C Rn). change (fget (plus m n r) r f) with (fget m r f). split.
    - intros H. destruct (mget x (fget m r f)) as [v|] eqn:E; [eauto|]. apply mget_None in E. contradiction.
    - intros [v H]. destruct (in_dec string_dec x (mkeys (fget m r f))) as [i|i]; [exact i|]. apply mget_None in i. congruence.
  Qed.
  Lemma uinv_step ch m p : uinv m p -> exists m' p', tstep (Some mm) level ch m p = Val (m', p') /\ uinv m' p'.
  Proof.
    intros Q. destruct p as [o' gs n rest|o' gs n rest|o' gs n r rest|o' gs n r rest pat open|k r back|l back|l back|add u r|l t todo next cl|fs acc k cl|cl y|n r cl y|f n r open cl y|n cl y|y]; try contradiction Q; cbn [tstep].
    - (* PLoad *) destruct Q as (-> & N & P & G). eexists _, _. split; [reflexivity|]. destruct (mget n (m_all m)) as [r|] eqn:E; [|cbn [uinv]; auto 8].
      apply next_u.
      + apply names_next; [exact N|intros _; apply (prep_ref _ _ _ _ _ P); now exists r|discriminate].
      + apply Forall_app. split; [exact G|]. constructor; [exact E|constructor].
      + apply (prep_ext _ _ _ _ _ _ P); [reflexivity|]. intros x. rewrite <- KN_app. unfold KN. destruct (String.eqb_spec x n) as [->|]; [|now rewrite orb_false_r].
        rewrite orb_true_r. apply (prep_ref _ _ _ _ _ P). now exists r.
    - (* PStore *) destruct Q as (-> & N & P & G & E). eexists _, _. split; [reflexivity|].
      pose proof (proj1 (prep_shape _ _ _ _) P) as [S HP]. destruct (shape_store m _ _ n S E) as (S' & Rn & R).
      assert (Kn : kn (map g_name gs) n = false).
      { destruct (kn (map g_name gs) n) eqn:X; [|reflexivity]. apply (prep_ref _ _ _ _ _ P) in X as [w Hw]. unfold ref in Hw. congruence. }
      assert (S2 : shape (mkMem (m_heap m ++ [mkObj n [] [] [] []]) (mput n (List.length (m_heap m)) (m_all m)) (m_pats m)) (KN gs n) (part mm L (KN gs n) n [] [])).
      { apply (shape_ext _ _ _ _ _ S'); [reflexivity|].
        assert (X : forall a b, (kn (map g_name gs) a = true /\ kn (map g_name gs) b = true /\ covers mm a b) <-> (KN gs n a = true /\ KN gs n b = true /\ covers mm a b) /\ (a = n -> In b []) /\ (b = n -> In a [])).
        { intros a b. unfold KN. rewrite !orb_true_iff, !String.eqb_eq. split.
          - intros (H1 & H2 & H3). split; [auto|]. split; intros ->; congruence.
          - intros (([H1| ->] & [H2| ->] & H3) & H4 & H5); auto; exfalso; first [now apply H4|now apply H5]. }
        intros f a b. destruct f; cbn [full part]; try tauto; apply X. }
      assert (G' : got_refs (mkMem (m_heap m ++ [mkObj n [] [] [] []]) (mput n (List.length (m_heap m)) (m_all m)) (m_pats m)) gs).
      { unfold got_refs in *. rewrite Forall_forall in *. auto. }
      cbn [matching]. destruct (IsPattern mm n) eqn:EP.
      + cbn [uinv]. repeat (split; [first [reflexivity|assumption|split; assumption]|]). exact S2.
      + cbn [uinv]. split; [reflexivity|]. unfold mat. split; [now split|]. split; [exact G'|]. split; [exact Rn|]. split; [now rewrite EP|]. split; [|split; [reflexivity|exact S2]].
        intros x. cbn [m_pats]. rewrite (HP x). unfold KN. rewrite orb_true_iff, String.eqb_eq. split; [tauto|]. intros [[H| ->] H']; [auto|congruence].
    - (* PPat *) destruct Q as (-> & N & G & Rn & EP & HP & S). eexists _, _. split; [reflexivity|]. cbn [uinv]. split; [reflexivity|].
      unfold mat. split; [exact N|]. split; [exact G|]. split; [exact Rn|]. split; [now rewrite EP|]. split; [|split; [reflexivity|]].
      + intros x. cbn [m_pats]. rewrite sadd_In, (HP x). unfold KN. rewrite orb_true_iff, String.eqb_eq. split; [intros [->|[H H']]; auto|]. intros [[H| ->] H']; auto.
      + destruct S as [C HK HF]. constructor; [constructor; apply C|exact HK|exact HF].
    - (* PMatch *) destruct open as [[must vis]|].
      2:{ destruct Q as (-> & Q). eexists _, _. split; [reflexivity|]. cbn [uinv]. now split. }
      destruct Q as (-> & Q). pose proof Q as ((N & HN) & G & Rn & EP & HP & EM & S). fold (keys m pat).
      destruct ch as [k|].
      + destruct (may_visit vis (keys m pat) k) eqn:Em; [|eexists _, _; split; [reflexivity|]; cbn [uinv]; now split].
        apply andb_true_iff in Em as [Ek _]. apply sin_In in Ek. destruct pat; cbn [keys] in Ek.
        * assert (Kk : exists w, ref m k w).
          { unfold ref. destruct (mget k (m_all m)) as [w|] eqn:X; [eauto|]. apply mget_None in X. contradiction. }
          destruct Kk as [rk Rk]. assert (NC : ~ covers mm k n).
          { apply A; [| |now rewrite EP]; eapply KN_KO; try exact N; apply (s_known _ _ _ S); eauto. }
          destruct (negb (String.eqb n k) && match_set (Some mm) k n) eqn:Et.
          -- apply andb_true_iff in Et as [E1 E2]. apply negb_true_iff, String.eqb_neq in E1. cbn [match_set] in E2.
             unfold ref in Rk. rewrite Rk. eexists _, _. split; [reflexivity|]. cbn [uinv]. left.
             exists gs, n, r, rest, true, must, vis, k, n, k, r, rk. split; [reflexivity|]. split; [exact Rn|]. split; [exact Rk|]. split; [split; [exact E1|]; split; [now rewrite <- EP|exact E2]|]. split; [exact NC|]. split; [left; now split|]. left. now split.
          -- eexists _, _. split; [reflexivity|]. cbn [uinv]. split; [reflexivity|]. apply mat_visit; [exact Q| |exact NC].
             intros (C1 & _ & C3). rewrite (proj2 (String.eqb_neq n k) C1) in Et. cbn in Et. congruence.
        * apply HP in Ek as [Kk Pk]. assert (NC : ~ covers mm n k) by (intros (_ & X & _); congruence).
          destruct (negb (String.eqb k n) && match_set (Some mm) n k) eqn:Et.
          -- apply andb_true_iff in Et as [E1 E2]. apply negb_true_iff, String.eqb_neq in E1. cbn [match_set] in E2.
             eexists _, _. split; [reflexivity|]. cbn [uinv]. exists gs, n, rest, must, vis. split; [reflexivity|]. split; [exact Q|]. split; [split; auto|exact Kk].
          -- eexists _, _. split; [reflexivity|]. cbn [uinv]. split; [reflexivity|]. apply mat_visit; [exact Q|exact NC|].
             intros (C1 & _ & C3). rewrite (proj2 (String.eqb_neq k n) C1) in Et. cbn in Et. congruence.
      + destruct (may_end must vis (keys m pat)) eqn:Ee; [|eexists _, _; split; [reflexivity|]; cbn [uinv]; now split].
        eexists _, _. split; [reflexivity|]. apply next_u.
        * apply names_next; [exact N|discriminate|intros _; exact HN].
        * apply Forall_app. split; [exact G|]. constructor; [exact Rn|constructor].
        * apply (prep_ext _ _ L _ (KN gs n)); [now apply (mat_end m gs n r rest pat must vis)|reflexivity|]. intros x. apply KN_app.
    - (* PLoadPat *) destruct Q as (gs & n & rest & must & vis & -> & Q & Cv & Kk). pose proof Q as ((N & HN) & G & Rn & EP & HP & EM & S).
      apply (s_known _ _ _ S) in Kk as [rk Rk]. unfold ref in Rk. rewrite Rk. eexists _, _. split; [reflexivity|]. cbn [uinv]. left.
      rewrite (core_at m n r (s_core _ _ _ S) Rn).
      exists gs, n, r, rest, false, must, vis, k, k, n, rk, r. split; [reflexivity|]. split; [exact Rk|]. split; [exact Rn|]. split; [exact Cv|]. split; [intros (_ & X & _); congruence|]. split; [right; now split|]. left. now split.
    - (* PSet *) destruct Q as [(gs & n & r & rest & pat & must & vis & k & p & x & rp & rx & -> & Rp & Rx & Cv & NC & Hk & [[-> Q]|[-> Q]])|(a & b & u & r & Eo & Ra & Rb & HL & -> & HP & [[-> S]|[-> S]])];
        (eexists _, _; split; [reflexivity|]); cbn [uinv].
      + left. exists gs, n, r, rest, pat, must, vis, k, p, x, rp, rx. repeat (split; [first [reflexivity|assumption]|]). right. split; [reflexivity|].
        destruct Q as (N & G & Rn & EP & HP & EM & S). repeat (split; [assumption|]).
        assert (Kp : KN gs n p = true) by (apply (s_known _ _ _ S); eauto). assert (Kx : KN gs n x = true) by (apply (s_known _ _ _ S); eauto).
        apply (shape_ext _ _ _ _ _ (shape_put _ _ _ p rp x rx FMatched S Rp Rx)); [reflexivity|].
        intros f a b. destruct f; cbn [part]; [split; [intros [H|(X & _)]; [exact H|discriminate]|auto]..| |split; [intros [H|(X & _)]; [exact H|discriminate]|auto]].
        rewrite (part_pair n vis k p x (KN gs n) Cv NC Hk Kp Kx a b). split; [intros [H|(_ & H)]; auto|intros [H|H]; auto].
      + split; [reflexivity|]. destruct Q as (N & G & Rn & EP & HP & EM & S). repeat (split; [assumption|]).
        assert (Kp : KN gs n p = true) by (apply (s_known _ _ _ S); eauto). assert (Kx : KN gs n x = true) by (apply (s_known _ _ _ S); eauto).
        apply (shape_ext _ _ _ _ _ (shape_put _ _ _ x rx p rp FMatchedBy S Rx Rp)); [reflexivity|].
        intros f a b. destruct f; cbn [part]; [split; [intros [H|(X & _)]; [exact H|discriminate]|auto]..|].
        rewrite (part_pair n vis k p x (KN gs n) Cv NC Hk Kp Kx b a). split; [intros [H|(_ & H)]; tauto|intros [H|H]; tauto].
      + right. exists a, b, u, r. repeat (split; [first [reflexivity|assumption]|]). right. split; [reflexivity|].
        apply (shape_ext _ _ _ _ _ (shape_put _ _ _ a u b r FRoles S Ra Rb)); [reflexivity|].
        intros f x y. destruct f; cbn [full]; try (split; [intros [H|(X & _)]; [exact H|discriminate]|auto]).
        rewrite Eo. unfold phase_links. cbn. rewrite andb_true_r, orb_false_r, orb_true_iff, andb_true_iff, !String.eqb_eq. tauto.
      + split.
        * rewrite Eo. cbn. now rewrite HL.
        * apply KO_up; [now rewrite Eo|]. apply prep_shape. split; [|exact HP]. apply (shape_ext _ _ _ _ _ (shape_put _ _ _ b r a u FUsers S Rb Ra)); [reflexivity|].
          intros f x y. destruct f; cbn [full]; try (split; [intros [H|(X & _)]; [exact H|discriminate]|auto]).
          rewrite Eo. unfold phase_links. cbn. rewrite andb_true_r, orb_false_r, orb_true_iff, andb_true_iff, !String.eqb_eq. tauto.
    - (* PUnset *) destruct Q as [(n & r & cl & y & must & vis & x & v & -> & Rx & AO & [[-> Q]|[-> Q]])|[(n & r & cl & y & must & vis & x & v & V & -> & Rx & AO & AB & [[-> Q]|[-> Q]])|(a & b & u & r & Eo & Ra & Rb & HL & -> & HP & [[-> S]|[-> S]])]];
        (eexists _, _; split; [reflexivity|]); cbn [uinv].
      + left. exists n, r, cl, y, must, vis, x, v. repeat (split; [first [reflexivity|assumption]|]). right. split; [reflexivity|].
        destruct Q as (U & CO & PA & Nn & HP & S). repeat (split; [assumption|]).
        assert (Rn : ref (plus m n r) n r) by (unfold ref, plus; cbn; now rewrite mget_put, String.eqb_refl).
        apply (shape_ext _ _ _ _ _ (shape_del _ _ _ n r x FMatched S Rn)); [reflexivity|].
        intros f a b. destruct f; cbn [cut full]; try (split; [tauto|intros H; split; [exact H|intros (X & _); discriminate]]).
        split.
        * intros ((H & H1 & H2) & H3). split; [exact H|]. split; [|exact H2]. intros -> [->|X]; [now apply H3|now apply (H1 eq_refl)].
        * intros (H & H1 & H2). split; [split; [exact H|]; split; [intros E X; apply (H1 E); now right|exact H2]|]. intros (_ & -> & ->). apply (H1 eq_refl). now left.
      + destruct Q as (U & CO & PA & Nn & HP & S). split; [|exact AO]. repeat (split; [assumption|]).
        apply (shape_ext _ _ _ _ _ (shape_del _ _ _ x v n FMatchedBy S Rx)); [reflexivity|].
        intros f a b. destruct f; cbn [cut full]; try (split; [tauto|intros H; split; [exact H|intros (X & _); discriminate]]).
        split.
        * intros ((H & H1 & H2) & H3). split; [exact H|]. split; [|exact H2]. intros -> [->|X]; [now apply H3|now apply (H1 eq_refl)].
        * intros (H & H1 & H2). split; [split; [exact H|]; split; [intros E X; apply (H1 E); now right|exact H2]|]. intros (_ & -> & ->). apply (H1 eq_refl). now left.
      + right. left. exists n, r, cl, y, must, vis, x, v, V. repeat (split; [first [reflexivity|assumption]|]). right. split; [reflexivity|].
        destruct Q as (U & CO & PA & Nn & HP & S). repeat (split; [assumption|]).
        apply (shape_ext _ _ _ _ _ (shape_del _ _ _ x v n FMatched S Rx)); [reflexivity|].
        intros f a b. destruct f; cbn [cut full]; try (split; [tauto|intros H; split; [exact H|intros (X & _); discriminate]]).
        split.
        * intros ((H & H1 & H2) & H3). split; [exact H|]. split; [exact H1|]. intros -> [->|X]; [now apply H3|now apply (H2 eq_refl)].
        * intros (H & H1 & H2). split; [split; [exact H|]; split; [exact H1|intros E X; apply (H2 E); now right]|]. intros (_ & -> & ->). apply (H2 eq_refl). now left.
      + destruct Q as (U & CO & PA & Nn & HP & S). exists V. split; [|now split]. repeat (split; [assumption|]).
        assert (Rn : ref (plus m n r) n r) by (unfold ref, plus; cbn; now rewrite mget_put, String.eqb_refl).
        apply (shape_ext _ _ _ _ _ (shape_del _ _ _ n r x FMatchedBy S Rn)); [reflexivity|].
        intros f a b. destruct f; cbn [cut full]; try (split; [tauto|intros H; split; [exact H|intros (X & _); discriminate]]).
        split.
        * intros ((H & H1 & H2) & H3). split; [exact H|]. split; [exact H1|]. intros -> [->|X]; [now apply H3|now apply (H2 eq_refl)].
        * intros (H & H1 & H2). split; [split; [exact H|]; split; [exact H1|intros E X; apply (H2 E); now right]|]. intros (_ & -> & ->). apply (H2 eq_refl). now left.
      + right. right. exists a, b, u, r. repeat (split; [first [reflexivity|assumption]|]). right. split; [reflexivity|].
        apply (shape_ext _ _ _ _ _ (shape_del _ _ _ a u b FRoles S Ra)); [reflexivity|].
        intros f x y. destruct f; cbn [full]; try (split; [tauto|intros H; split; [exact H|intros (X & _); discriminate]]).
        rewrite Eo. unfold phase_links. cbn. rewrite !orb_false_r, andb_true_iff, negb_true_iff, andb_false_iff, !String.eqb_neq.
        destruct (string_dec x a), (string_dec y b); tauto.
      + split.
        * rewrite Eo. cbn. now rewrite HL.
        * apply KO_up; [now rewrite Eo|]. apply prep_shape. split; [|exact HP]. apply (shape_ext _ _ _ _ _ (shape_del _ _ _ b r a FUsers S Rb)); [reflexivity|].
          intros f x y. destruct f; cbn [full]; try (split; [tauto|intros H; split; [exact H|intros (X & _); discriminate]]).
          rewrite Eo. unfold phase_links. cbn. rewrite !orb_false_r, andb_true_iff, negb_true_iff, andb_false_iff, !String.eqb_neq.
          destruct (string_dec x b), (string_dec y a); tauto.
    - (* PHasRole *) destruct Q as (a & b & Eo & Ra & Rb & P). pose proof (p_core _ _ _ _ P) as C. rewrite (core_at m b r C Rb), (core_at m a u C Ra).
      assert (E : mhas b (fget m u FRoles) = L a b).
      { rewrite <- (p_roles _ _ _ _ P). unfold lk. unfold ref in Ra. now rewrite Ra. }
      rewrite E. pose proof (proj1 (prep_shape _ _ _ _) P) as [S HP]. destruct (L a b) eqn:EL, add; cbn [Bool.eqb]; (eexists _, _; split; [reflexivity|]); cbn [uinv].
      + split; [rewrite Eo; cbn; now rewrite EL|]. apply KO_up; [now rewrite Eo|]. apply (prep_ext _ _ _ _ _ _ P); [|reflexivity].
        intros x y. rewrite Eo. unfold phase_links. cbn. rewrite andb_true_r, orb_false_r. destruct (String.eqb_spec x a) as [->|]; cbn; [|now rewrite orb_false_r]. destruct (String.eqb_spec y b) as [->|]; cbn; [now rewrite EL|now rewrite orb_false_r].
      + right. right. exists a, b, u, r. repeat (split; [first [reflexivity|assumption]|]). left. now split.
      + right. exists a, b, u, r. repeat (split; [first [reflexivity|assumption]|]). left. now split.
      + split; [rewrite Eo; cbn; now rewrite EL|]. apply KO_up; [now rewrite Eo|]. apply (prep_ext _ _ _ _ _ _ P); [|reflexivity].
        intros x y. rewrite Eo. unfold phase_links. cbn. rewrite !orb_false_r. destruct (String.eqb_spec x a) as [->|]; cbn; [|now rewrite andb_true_r]. destruct (String.eqb_spec y b) as [->|]; cbn; [now rewrite EL|now rewrite andb_true_r].
    - (* PLevel *) destruct Q as (U & CL & KE & PO & Q). destruct (qinv_step mm level m L KO PO ch o _ Q) as (p' & E & Q').
      apply (recl_step _ _ _ _ (PLevel l t todo next []) _ cl I) in E as [AS E]. exists m, (recl cl p'). split; [exact E|]. now apply to_u.
    - (* PRange *) destruct Q as (U & CL & KE & PO & Q). destruct (qinv_step mm level m L KO PO ch o _ Q) as (p' & E & Q').
      apply (recl_step _ _ _ _ (PRange fs acc k []) _ cl I) in E as [AS E]. exists m, (recl cl p'). split; [exact E|]. now apply to_u.
    - (* PClean *) destruct Q as (U & CL & PA & P). destruct cl as [|n cl]; (eexists _, _; split; [reflexivity|]).
      + cbn [uinv]. split; [exact PA|]. apply (prep_ext _ _ _ _ _ _ P); [|intros x; unfold KC; cbn; now rewrite U].
        intros a b. unfold phase_links, adds, dels. cbn. clear -U. destruct o; try discriminate U; cbn; now rewrite orb_false_r, andb_true_r.
      + assert (X : KC (n :: cl) n = true) by (apply KC_cons; auto). apply (prep_ref _ _ _ _ _ P) in X as [r Hr]. unfold ref in Hr. rewrite Hr. cbn [uinv]. auto.
    - (* PDelAll *) destruct Q as (U & CL & PA & P & Rn). eexists _, _. split; [reflexivity|]. cbn [uinv]. apply prep_shape in P as [S HP].
      split; [exact U|]. split; [exact CL|]. split; [exact PA|]. split; [cbn; now rewrite mget_del, String.eqb_refl|]. split; [exact HP|].
      apply (shape_ext m _ (KC (n :: cl)) _ (cut n cl [] [] [] [])) in S; [|reflexivity|intros f a b; unfold cut; destruct f; cbn [In]; tauto].
      apply (shape_all m); [exact S|reflexivity|]. intros x. cbn. rewrite mget_put, mget_del. destruct (String.eqb_spec x n) as [->|]; [now rewrite Rn|reflexivity].
    - (* PRem *) destruct f; try contradiction Q.
      + destruct open as [[must vis]|].
        2:{ eexists _, _. split; [reflexivity|]. cbn [uinv]. split; [exact Q|]. intros x Kx Cv. apply (lk_key m n r cl [] [] [] [] FMatched x); [apply Q|].
            split; [split; [apply KC_cons; auto|split; assumption]|]. split; intros _ []. }
        destruct Q as [Q AO]. pose proof Q as (U & CO & PA & Nn & HP & S). destruct ch as [x|].
        * destruct (may_visit vis (mkeys (fget m r FMatched)) x) eqn:Em; [|eexists _, _; split; [reflexivity|now split]].
          destruct (mget x (fget m r FMatched)) as [v|] eqn:Ex; [|eexists _, _; split; [reflexivity|now split]]. eexists _, _. split; [reflexivity|].
          destruct (c_vals _ (s_core _ _ _ S) r FMatched x v Ex) as [_ Rx].
          assert (Rn : ref (plus m n r) n r) by (unfold ref, plus; cbn; now rewrite mget_put, String.eqb_refl).
          change (name_at m v) with (name_at (plus m n r) v). change (name_at m r) with (name_at (plus m n r) r).
          rewrite (core_at _ _ _ (s_core _ _ _ S) Rx), (core_at _ _ _ (s_core _ _ _ S) Rn). cbn [uinv]. left. exists n, r, cl, y, must, vis, x, v. auto 8.
        * destruct (may_end must vis (mkeys (fget m r FMatched))) eqn:Ee; [|eexists _, _; split; [reflexivity|now split]].
          eexists _, _. split; [reflexivity|]. cbn [uinv]. exists vis. split; [exact Q|]. intros x Kx Cv. specialize (AO x Kx Cv).
          unfold may_end in Ee. rewrite forallb_forall in Ee. specialize (Ee x AO). destruct (in_dec string_dec x vis) as [i|i]; [exact i|].
          apply orb_true_iff in Ee as [Ee|Ee]; [|now apply sin_In]. apply negb_true_iff, sin_false in Ee. exfalso. apply Ee. apply (lk_key m n r cl vis vis [] [] FMatched x S).
          split; [split; [apply KC_cons; auto|split; assumption]|]. split; [intros _; exact i|intros _ []].
      + destruct open as [[must vis]|].
        2:{ destruct Q as (V & Q & AO). eexists _, _. split; [reflexivity|]. cbn [uinv]. exists V. split; [exact Q|]. split; [exact AO|]. intros x Kx Cv. apply (lk_key m n r cl V V [] [] FMatchedBy x); [apply Q|].
            split; [split; [exact Kx|split; [apply KC_cons; auto|exact Cv]]|]. split; [|intros _ []]. intros ->. destruct Cv as [X _]. now destruct X. }
        destruct Q as (V & Q & AO & AB). pose proof Q as (U & CO & PA & Nn & HP & S). destruct ch as [x|].
        * destruct (may_visit vis (mkeys (fget m r FMatchedBy)) x) eqn:Em; [|eexists _, _; split; [reflexivity|cbn [uinv]; eauto]].
          destruct (mget x (fget m r FMatchedBy)) as [v|] eqn:Ex; [|eexists _, _; split; [reflexivity|cbn [uinv]; eauto]]. eexists _, _. split; [reflexivity|].
          destruct (c_vals _ (s_core _ _ _ S) r FMatchedBy x v Ex) as [_ Rx].
          assert (Rn : ref (plus m n r) n r) by (unfold ref, plus; cbn; now rewrite mget_put, String.eqb_refl).
          change (name_at m v) with (name_at (plus m n r) v). change (name_at m r) with (name_at (plus m n r) r).
          rewrite (core_at _ _ _ (s_core _ _ _ S) Rx), (core_at _ _ _ (s_core _ _ _ S) Rn). cbn [uinv]. right. left. exists n, r, cl, y, must, vis, x, v, V. auto 9.
        * destruct (may_end must vis (mkeys (fget m r FMatchedBy))) eqn:Ee; [|eexists _, _; split; [reflexivity|cbn [uinv]; eauto]].
          eexists _, _. split; [reflexivity|]. cbn [uinv]. repeat (split; [assumption|]). apply (going_end m n r cl y V vis Q AO). intros x Kx Cv. specialize (AB x Kx Cv).
          unfold may_end in Ee. rewrite forallb_forall in Ee. specialize (Ee x AB). destruct (in_dec string_dec x vis) as [i|i]; [exact i|].
          apply orb_true_iff in Ee as [Ee|Ee]; [|now apply sin_In]. apply negb_true_iff, sin_false in Ee. exfalso. apply Ee. apply (lk_key m n r cl V V vis vis FMatchedBy x S).
          split; [split; [exact Kx|split; [apply KC_cons; auto|exact Cv]]|]. split; [|intros _; exact i]. intros ->. destruct Cv as [X _]. now destruct X.
    - (* PPatDel *) destruct Q as (U & CO & PA & HP & S). destruct (gone n cl CO) as [Kn CO']. eexists _, _. split; [reflexivity|]. cbn [uinv].
      split; [exact U|]. split; [exact CO'|]. split; [exact PA|]. apply prep_shape. split.
      + now apply (shape_all m).
      + intros x. cbn [m_pats]. rewrite srem_In, (HP x), KC_cons. split; [tauto|]. intros [X Y]. split; [intros ->; congruence|]. auto.
    - (* PDone *) eauto.
  Qed.
  Lemma start_u m : prep mm m L K -> uinv m (start (Some mm) o).
  Proof.
    intros P. assert (P' : prep mm m L (kn [])) by (apply (prep_ext _ _ _ _ _ _ P); [reflexivity|]; intros n; unfold kn; cbn; now rewrite orb_false_r).
    assert (D : exists a l, start (Some mm) o = PLoad o [] a l /\ op_names o = a :: l).
    { clear -NH. destruct o as [a b|a b|a b|a|a]; cbn [start op_names]; try (eexists _, _; split; reflexivity). exists a, [b]. split; [|reflexivity].
      rewrite String.eqb_sym. destruct (String.eqb b a || match_set (Some mm) a b) eqn:E; [|reflexivity]. exfalso. apply (NH a b eq_refl). now apply hits_dec. }
    destruct D as (a & l & E1 & E2). rewrite E1. cbn [uinv]. split; [reflexivity|]. split; [|split; [exact P'|constructor]].
    split; [exact E2|]. split; [split; [constructor|intros x []]|reflexivity].
  Qed.
  Lemma run_u sched : forall m p, uinv m p -> exists m' p', run (Some mm) level (m, [p]) sched = Val (m', [p']) /\ uinv m' p'.
  Proof.
    induction sched as [|[i ch] sched IH]; intros m p Q; cbn [run]; [eauto|]. cbn [fst snd]. destruct i as [|i]; cbn [nth_error]; [|destruct i; cbn; auto].
    destruct (uinv_step ch m p Q) as (m' & p' & E & Q'). rewrite E. cbn [obind upd_at]. now apply IH.
  Qed.

  (** The call can be run to its end. *)
  Inductive uends (m : mem) (p : pc) : Prop :=
  | uends_done y : p = PDone y -> uends m p
  | uends_step ch m' p' : tstep (Some mm) level ch m p = Val (m', p') -> uends m' p' -> uends m p.
  Ltac go ch := eapply (uends_step _ _ ch); [reflexivity|].
  Lemma uends_has m add u r : uends m (PHasRole add u r).
  Proof.
    assert (D : forall m b, uends m (PDone (YBool b))) by (intros; eapply uends_done; reflexivity).
    destruct (Bool.eqb add (mhas (name_at m r) (fget m u FRoles))) eqn:Eb.
    - eapply (uends_step _ _ None); [cbn [tstep]; rewrite Eb; reflexivity|]. apply D.
    - destruct add; (eapply (uends_step _ _ None); [cbn [tstep]; rewrite Eb; reflexivity|]; go (@None string); go (@None string); apply D).
  Qed.
  Lemma uends_rem1 n r cl y : (forall m, uinv m (PRem FMatchedBy n r None cl y) -> uends m (PRem FMatchedBy n r None cl y)) ->
    forall todo m must vis, uinv m (PRem FMatched n r (Some (must, vis)) cl y) ->
      (forall x, KC (n :: cl) x = true -> covers mm n x -> In x todo \/ In x vis) -> uends m (PRem FMatched n r (Some (must, vis)) cl y).
  Proof.
    intros Kt. induction todo as [|x todo IH]; intros m must vis Q H.
    - destruct (uinv_step None m _ Q) as (m' & p' & E & Q'). eapply uends_step; [exact E|]. cbn [tstep] in E.
      replace (may_end must vis (mkeys (fget m r FMatched))) with true in E; [injection E as <- <-; now apply Kt|].
      symmetry. apply forallb_forall. intros x _. destruct (sin x (mkeys (fget m r FMatched))) eqn:E'; [|reflexivity]. apply sin_In in E'. cbn. apply sin_In.
      destruct Q as [(_ & _ & _ & _ & _ & S) _]. apply (lk_key m n r cl vis vis [] [] FMatched x S) in E' as [(_ & Kx & Cv) _]. destruct (H x Kx Cv) as [[]|X]; exact X.
    - destruct (sin x vis) eqn:Ev; [apply sin_In in Ev; apply IH; [exact Q|]; intros z Kz Cz; destruct (H z Kz Cz) as [[->|X]|X]; auto|].
      pose proof Q as [(_ & _ & _ & _ & _ & S) _]. destruct (sin x (mkeys (fget m r FMatched))) eqn:Ek.
      + destruct (uinv_step (Some x) m _ Q) as (m' & p' & E & Q'). eapply uends_step; [exact E|]. cbn [tstep] in E. unfold may_visit in E. rewrite Ek, Ev in E. cbn [andb negb] in E.
        apply sin_In in Ek. destruct (mget x (fget m r FMatched)) as [v|] eqn:Ex; [|apply mget_None in Ex; contradiction]. injection E as <- <-.
        destruct (uinv_step None m _ Q') as (m1 & p1 & E1 & Q1). eapply uends_step; [exact E1|]. cbn [tstep] in E1. injection E1 as <- <-.
        destruct (uinv_step None _ _ Q1) as (m2 & p2 & E2 & Q2). eapply uends_step; [exact E2|]. cbn [tstep] in E2. injection E2 as <- <-.
        apply IH; [exact Q2|]. intros z Kz Cz. destruct (H z Kz Cz) as [[->|X]|X]; cbn; auto.
      + apply IH; [exact Q|]. intros z Kz Cz. destruct (H z Kz Cz) as [[->|X]|X]; auto. exfalso. apply sin_false in Ek, Ev. apply Ek. apply (lk_key m n r cl vis vis [] [] FMatched z S).
        split; [split; [apply KC_cons; auto|split; assumption]|]. split; [intros _; exact Ev|intros _ []].
  Qed.
  Lemma uends_rem2 n r cl y : (forall m, uinv m (PPatDel n cl y) -> uends m (PPatDel n cl y)) ->
    forall todo m must vis, uinv m (PRem FMatchedBy n r (Some (must, vis)) cl y) ->
      (forall x, KC (n :: cl) x = true -> covers mm x n -> In x todo \/ In x vis) -> uends m (PRem FMatchedBy n r (Some (must, vis)) cl y).
  Proof.
    intros Kt. induction todo as [|x todo IH]; intros m must vis Q H.
    - destruct (uinv_step None m _ Q) as (m' & p' & E & Q'). eapply uends_step; [exact E|]. cbn [tstep] in E.
      replace (may_end must vis (mkeys (fget m r FMatchedBy))) with true in E; [injection E as <- <-; now apply Kt|].
      symmetry. apply forallb_forall. intros x _. destruct (sin x (mkeys (fget m r FMatchedBy))) eqn:E'; [|reflexivity]. apply sin_In in E'. cbn. apply sin_In.
      destruct Q as (V & (_ & _ & _ & _ & _ & S) & _). apply (lk_key m n r cl V V vis vis FMatchedBy x S) in E' as [(Kx & _ & Cv) _]. destruct (H x Kx Cv) as [[]|X]; exact X.
    - destruct (sin x vis) eqn:Ev; [apply sin_In in Ev; apply IH; [exact Q|]; intros z Kz Cz; destruct (H z Kz Cz) as [[->|X]|X]; auto|].
      pose proof Q as (V & (_ & _ & _ & _ & _ & S) & _). destruct (sin x (mkeys (fget m r FMatchedBy))) eqn:Ek.
      + destruct (uinv_step (Some x) m _ Q) as (m' & p' & E & Q'). eapply uends_step; [exact E|]. cbn [tstep] in E. unfold may_visit in E. rewrite Ek, Ev in E. cbn [andb negb] in E.
        apply sin_In in Ek. destruct (mget x (fget m r FMatchedBy)) as [v|] eqn:Ex; [|apply mget_None in Ex; contradiction]. injection E as <- <-.
        destruct (uinv_step None m _ Q') as (m1 & p1 & E1 & Q1). eapply uends_step; [exact E1|]. cbn [tstep] in E1. injection E1 as <- <-.
        destruct (uinv_step None _ _ Q1) as (m2 & p2 & E2 & Q2). eapply uends_step; [exact E2|]. cbn [tstep] in E2. injection E2 as <- <-.
        apply IH; [exact Q2|]. intros z Kz Cz. destruct (H z Kz Cz) as [[->|X]|X]; cbn; auto.
      + apply IH; [exact Q|]. intros z Kz Cz. destruct (H z Kz Cz) as [[->|X]|X]; auto. exfalso. apply sin_false in Ek, Ev. apply Ek. apply (lk_key m n r cl V V vis vis FMatchedBy z S).
        split; [split; [exact Kz|split; [apply KC_cons; auto|exact Cz]]|]. split; [|intros _; exact Ev]. intros ->. destruct Cz as [X _]. now destruct X.
  Qed.
  Lemma uends_clean cl y : (forall m, uinv m (PClean cl y) -> uends m (PClean cl y)) /\
    forall n m, (uinv m (PPatDel n cl y) -> uends m (PPatDel n cl y)) /\
      (forall f r open, uinv m (PRem f n r open cl y) -> uends m (PRem f n r open cl y)) /\ (forall r, uinv m (PDelAll n r cl y) -> uends m (PDelAll n r cl y)).
  Proof.
    assert (ST : forall cl, (forall m, uinv m (PClean cl y) -> uends m (PClean cl y)) -> forall n m, (uinv m (PPatDel n cl y) -> uends m (PPatDel n cl y)) /\
      (forall f r open, uinv m (PRem f n r open cl y) -> uends m (PRem f n r open cl y)) /\ (forall r, uinv m (PDelAll n r cl y) -> uends m (PDelAll n r cl y))).
    { clear cl. intros cl HC n.
      assert (H1 : forall m, uinv m (PPatDel n cl y) -> uends m (PPatDel n cl y)).
      { intros m Q. destruct (uinv_step None m _ Q) as (m1 & p1 & E1 & Q1). eapply uends_step; [exact E1|]. cbn [tstep] in E1. injection E1 as <- <-. now apply HC. }
      assert (ALL : forall m r V1 V2 W1 W2 x, shape (plus m n r) (KC (n :: cl)) (cut n cl V1 V2 W1 W2) -> KC (n :: cl) x = true -> In x (mkeys (m_all (plus m n r)))).
      { intros m r V1 V2 W1 W2 x S Kx. apply (s_known _ _ _ S) in Kx as [u Hu]. destruct (in_dec string_dec x (mkeys (m_all (plus m n r)))) as [i|i]; [exact i|]. apply mget_None in i. unfold ref in Hu. congruence. }
      assert (H2 : forall m r open, uinv m (PRem FMatchedBy n r open cl y) -> uends m (PRem FMatchedBy n r open cl y)).
      { assert (S2 : forall m r must vis, uinv m (PRem FMatchedBy n r (Some (must, vis)) cl y) -> uends m (PRem FMatchedBy n r (Some (must, vis)) cl y)).
        { intros m r must vis Q. apply (uends_rem2 n r cl y H1 (mkeys (m_all (plus m n r))) m must vis Q). intros x Kx _. left. destruct Q as (V & (_ & _ & _ & _ & _ & S) & _). now apply (ALL _ _ _ _ _ _ _ S). }
        intros m r [[must vis]|] Q; [now apply S2|]. destruct (uinv_step None m _ Q) as (m1 & p1 & E1 & Q1). eapply uends_step; [exact E1|]. cbn [tstep] in E1. injection E1 as <- <-. now apply S2. }
      assert (H3 : forall m r open, uinv m (PRem FMatched n r open cl y) -> uends m (PRem FMatched n r open cl y)).
      { assert (S2 : forall m r must vis, uinv m (PRem FMatched n r (Some (must, vis)) cl y) -> uends m (PRem FMatched n r (Some (must, vis)) cl y)).
        { intros m r must vis Q. apply (uends_rem1 n r cl y (fun m => H2 m r None) (mkeys (m_all (plus m n r))) m must vis Q). intros x Kx _. left. destruct Q as ((_ & _ & _ & _ & _ & S) & _). now apply (ALL _ _ _ _ _ _ _ S). }
        intros m r [[must vis]|] Q; [now apply S2|]. destruct (uinv_step None m _ Q) as (m1 & p1 & E1 & Q1). eapply uends_step; [exact E1|]. cbn [tstep] in E1. injection E1 as <- <-. now apply S2. }
      intros m. split; [now apply H1|]. split.
      - intros [| | |] r open Q; try contradiction Q; [now apply H3|now apply H2].
      - intros r Q. destruct (uinv_step None m _ Q) as (m1 & p1 & E1 & Q1). eapply uends_step; [exact E1|]. cbn [tstep] in E1. injection E1 as <- <-. now apply H3. }
    assert (HC : forall cl m, uinv m (PClean cl y) -> uends m (PClean cl y)).
    { clear cl. induction cl as [|n cl IH]; intros m Q; destruct (uinv_step None m _ Q) as (m1 & p1 & E1 & Q1); (eapply uends_step; [exact E1|]); cbn [tstep] in E1; injection E1 as <- <-.
      - eapply uends_done. reflexivity.
      - destruct (ST cl IH n m) as (A1 & A2 & A3). destruct (mget n (m_all m)); [now apply A3|now apply A1]. }
    split; [apply HC|]. apply ST, HC.
  Qed.
  Lemma uends_asking m cl p : asking p -> uinv m (recl cl p) -> uends m (recl cl p).
  Proof.
    intros AS Q. assert (X : updates o = false /\ clean_ok cl /\ (forall x, KC cl x = KO x) /\ prep mm m L KO /\ qinv mm level m L KO o (recl [] p)).
    { destruct p; try contradiction AS; exact Q. }
    destruct X as (U & CL & KE & PO & Q0). pose proof (ends_q mm level m L KO PO o _ Q0) as E. assert (AS' : asked (recl [] p)) by (destruct p; try contradiction AS; exact I).
    assert (RR : recl cl p = recl cl (recl [] p)) by (destruct p; reflexivity). rewrite RR. clear RR AS Q. revert Q0 AS'. induction E as [q y ->|q ch q' E1 E2 IH]; intros Q0 AS'; [contradiction AS'|].
    destruct q as [| | | | | | | |l t todo next c0|fs acc k c0|c0 y| | | |]; try contradiction AS'.
    - destruct (recl_step _ _ _ _ (PLevel l t todo next c0) _ cl I E1) as [AS2 E3]. eapply uends_step; [exact E3|]. apply IH; [|exact AS2]. destruct (qinv_step mm level m L KO PO ch o _ Q0) as (q2 & E4 & Q2). rewrite E1 in E4. injection E4 as <-. exact Q2.
    - destruct (recl_step _ _ _ _ (PRange fs acc k c0) _ cl I E1) as [AS2 E3]. eapply uends_step; [exact E3|]. apply IH; [|exact AS2]. destruct (qinv_step mm level m L KO PO ch o _ Q0) as (q2 & E4 & Q2). rewrite E1 in E4. injection E4 as <-. exact Q2.
    - cbn [recl]. apply uends_clean. apply (to_u m cl (PClean c0 y) U CL KE PO I Q0).
  Qed.
  Lemma uends_after m gs : uinv m (after_got level o gs) -> uends m (after_got level o gs).
  Proof.
    intros Q. destruct (after_got level o gs) as [| | | | | | |add u r|l t todo next c0|fs acc k c0|c0 y| | | |y] eqn:E; try contradiction Q;
      try (exfalso; revert E; unfold after_got; clear; destruct o, gs as [|? [|? ?]]; cbn; try discriminate; destruct level; discriminate).
    - apply uends_has.
    - exact (uends_asking m c0 (PLevel l t todo next c0) I Q).
    - exact (uends_asking m c0 (PRange fs acc k c0) I Q).
    - now apply uends_clean.
    - eapply uends_done. reflexivity.
  Qed.
  Lemma uends_match gs n r rest pat : (forall m g, uinv m (next_got level o (gs ++ [g]) rest) -> uends m (next_got level o (gs ++ [g]) rest)) ->
    forall todo m must vis, uinv m (PMatch o gs n r rest pat (Some (must, vis))) ->
      (forall x, In x (keys m pat) -> In x todo \/ In x vis) -> (forall x, In x todo -> In x (keys m pat)) ->
      uends m (PMatch o gs n r rest pat (Some (must, vis))).
  Proof.
    intros Kt. induction todo as [|x todo IH]; intros m must vis Q H1 H2.
    - destruct (uinv_step None m _ Q) as (m' & p' & E & Q'). eapply uends_step; [exact E|]. cbn [tstep] in E. fold (keys m pat) in E.
      replace (may_end must vis (keys m pat)) with true in E; [injection E as <- <-; now apply Kt|].
      symmetry. apply forallb_forall. intros x _. destruct (sin x (keys m pat)) eqn:E'; [|reflexivity]. cbn. apply sin_In in E'. apply sin_In. destruct (H1 x E') as [[]|X]; exact X.
    - destruct (sin x vis) eqn:Ev.
      + apply sin_In in Ev. apply IH; [exact Q| |intros y Hy; apply H2; now right]. intros y Hy. destruct (H1 y Hy) as [[->|X]|X]; auto.
      + assert (B : forall m', keys m' pat = keys m pat -> uinv m' (PMatch o gs n r rest pat (Some (must, x :: vis))) -> uends m' (PMatch o gs n r rest pat (Some (must, x :: vis)))).
        { intros m' Em Q'. apply IH; [exact Q'| |]; rewrite Em; [|intros y Hy; apply H2; now right]. intros y Hy. destruct (H1 y Hy) as [[->|X]|X]; cbn; auto. }
        assert (PS : forall a b m', keys m' pat = keys m pat -> uinv m' (PSet [a; b] (PMatch o gs n r rest pat (Some (must, x :: vis)))) -> uends m' (PSet [a; b] (PMatch o gs n r rest pat (Some (must, x :: vis))))).
        { intros [[[ra fa] na] va] [[[rb fb] nb] vb] m' Em Q'. destruct (uinv_step None m' _ Q') as (m1 & p1 & E1 & Q1). eapply uends_step; [exact E1|]. cbn [tstep] in E1. injection E1 as <- <-.
          destruct (uinv_step None _ _ Q1) as (m2 & p2 & E2 & Q2). eapply uends_step; [exact E2|]. cbn [tstep] in E2. injection E2 as <- <-. apply B; [|exact Q2]. rewrite <- Em. now destruct pat. }
        destruct (uinv_step (Some x) m _ Q) as (m' & p' & E & Q'). eapply uends_step; [exact E|]. cbn [tstep] in E. fold (keys m pat) in E.
        assert (Hx : may_visit vis (keys m pat) x = true) by (unfold may_visit; rewrite (proj2 (sin_In _ _) (H2 x (or_introl eq_refl))), Ev; reflexivity).
        rewrite Hx in E. destruct pat.
        * destruct (_ && _); [destruct (mget x (m_all m)) as [r2|]|]; injection E as <- <-; [now apply PS|now apply B|now apply B].
        * destruct (_ && _); injection E as <- <-; [|now apply B].
          destruct (uinv_step None m _ Q') as (m1 & p1 & E1 & Q1). eapply uends_step; [exact E1|]. cbn [tstep] in E1. destruct (mget x (m_all m)); [|discriminate]. injection E1 as <- <-. now apply PS.
  Qed.
  Lemma uends_load rest : forall m gs n, uinv m (PLoad o gs n rest) -> uends m (PLoad o gs n rest).
  Proof.
    induction rest as [|n' rest IH]; intros m gs n Q.
    - assert (Kt : forall m g, uinv m (next_got level o (gs ++ [g]) []) -> uends m (next_got level o (gs ++ [g]) [])).
      { intros m0 g Q0. now apply uends_after. }
      destruct (uinv_step None m _ Q) as (m' & p' & E & Q'). eapply uends_step; [exact E|]. cbn [tstep] in E. injection E as <- <-. destruct (mget n (m_all m)) as [r|]; [now apply Kt|].
      destruct (uinv_step None m _ Q') as (m1 & p1 & E1 & Q1). eapply uends_step; [exact E1|]. cbn [tstep matching] in E1. injection E1 as <- <-.
      destruct (IsPattern mm n).
      + destruct (uinv_step None _ _ Q1) as (m2 & p2 & E2 & Q2). eapply uends_step; [exact E2|]. cbn [tstep] in E2. injection E2 as <- <-.
        destruct (uinv_step None _ _ Q2) as (m3 & p3 & E3 & Q3). eapply uends_step; [exact E3|]. cbn [tstep] in E3. injection E3 as <- <-.
        eapply (uends_match gs n _ [] true Kt); [exact Q3|left; exact H|auto].
      + destruct (uinv_step None _ _ Q1) as (m3 & p3 & E3 & Q3). eapply uends_step; [exact E3|]. cbn [tstep] in E3. injection E3 as <- <-.
        eapply (uends_match gs n _ [] false Kt); [exact Q3|left; exact H|auto].
    - assert (Kt : forall m g, uinv m (next_got level o (gs ++ [g]) (n' :: rest)) -> uends m (next_got level o (gs ++ [g]) (n' :: rest))) by (intros; now apply IH).
      destruct (uinv_step None m _ Q) as (m' & p' & E & Q'). eapply uends_step; [exact E|]. cbn [tstep] in E. injection E as <- <-. destruct (mget n (m_all m)) as [r|]; [now apply Kt|].
      destruct (uinv_step None m _ Q') as (m1 & p1 & E1 & Q1). eapply uends_step; [exact E1|]. cbn [tstep matching] in E1. injection E1 as <- <-.
      destruct (IsPattern mm n).
      + destruct (uinv_step None _ _ Q1) as (m2 & p2 & E2 & Q2). eapply uends_step; [exact E2|]. cbn [tstep] in E2. injection E2 as <- <-.
        destruct (uinv_step None _ _ Q2) as (m3 & p3 & E3 & Q3). eapply uends_step; [exact E3|]. cbn [tstep] in E3. injection E3 as <- <-.
        eapply (uends_match gs n _ (n' :: rest) true Kt); [exact Q3|left; exact H|auto].
      + destruct (uinv_step None _ _ Q1) as (m3 & p3 & E3 & Q3). eapply uends_step; [exact E3|]. cbn [tstep] in E3. injection E3 as <- <-.
        eapply (uends_match gs n _ (n' :: rest) false Kt); [exact Q3|left; exact H|auto].
  Qed.
  Lemma uends_next m gs g rest : uinv m (next_got level o (gs ++ [g]) rest) -> uends m (next_got level o (gs ++ [g]) rest).
  Proof.
    destruct rest as [|n rest]; [apply uends_after|apply uends_load].
  Qed.
  Lemma uends_all p : forall m, uinv m p -> uends m p.
  Proof.
    assert (MS : forall m gs n r rest pat must vis, uinv m (PMatch o gs n r rest pat (Some (must, vis))) -> uends m (PMatch o gs n r rest pat (Some (must, vis)))).
    { intros m gs n r rest pat must vis Q. eapply (uends_match gs n r rest pat); [intros; now apply uends_next|exact Q|left; exact H|auto]. }
    assert (MN : forall m gs n r rest pat, uinv m (PMatch o gs n r rest pat None) -> uends m (PMatch o gs n r rest pat None)).
    { intros m gs n r rest pat Q. destruct (uinv_step None _ _ Q) as (m3 & p3 & E3 & Q3). eapply uends_step; [exact E3|]. cbn [tstep] in E3. injection E3 as <- <-. now apply MS. }
    assert (PP : forall m gs n r rest, uinv m (PPat o gs n r rest) -> uends m (PPat o gs n r rest)).
    { intros m gs n r rest Q. destruct (uinv_step None _ _ Q) as (m3 & p3 & E3 & Q3). eapply uends_step; [exact E3|]. cbn [tstep] in E3. injection E3 as <- <-. now apply MN. }
    assert (SS : forall back m l, (forall m, uinv m back -> uends m back) -> uinv m (PSet l back) -> uends m (PSet l back)).
    { intros back m l Hb. revert m. induction l as [|x l IH]; intros m Q; destruct (uinv_step None _ _ Q) as (m3 & p3 & E3 & Q3); (eapply uends_step; [exact E3|]); cbn [tstep] in E3.
      - injection E3 as <- <-. now apply Hb.
      - destruct x as [[[r f] n] v]. injection E3 as <- <-. destruct l; [now apply Hb|now apply IH]. }
    assert (UU : forall back m l, (forall m, uinv m back -> uends m back) -> uinv m (PUnset l back) -> uends m (PUnset l back)).
    { intros back m l Hb. revert m. induction l as [|x l IH]; intros m Q; destruct (uinv_step None _ _ Q) as (m3 & p3 & E3 & Q3); (eapply uends_step; [exact E3|]); cbn [tstep] in E3.
      - injection E3 as <- <-. now apply Hb.
      - destruct x as [[r f] n]. injection E3 as <- <-. destruct l; [now apply Hb|now apply IH]. }
    induction p as [o' gs n rest|o' gs n rest|o' gs n r rest|o' gs n r rest pat open|k r back IHb|l back IHb|l back IHb|add u r|l t todo next cl|fs acc k cl|cl y|n r cl y|f n r open cl y|n cl y|y]; intros m Q; try contradiction Q.
    - assert (o' = o) as -> by apply Q. now apply uends_load.
    - assert (o' = o) as -> by apply Q. destruct (uinv_step None m _ Q) as (m1 & p1 & E1 & Q1). eapply uends_step; [exact E1|]. cbn [tstep matching] in E1. injection E1 as <- <-.
      destruct (IsPattern mm n); [now apply PP|now apply MN].
    - assert (o' = o) as -> by apply Q. now apply PP.
    - assert (o' = o) as -> by (destruct open as [[? ?]|]; apply Q). destruct open as [[must vis]|]; [now apply MS|now apply MN].
    - destruct (uinv_step None m _ Q) as (m1 & p1 & E1 & Q1). eapply uends_step; [exact E1|]. cbn [tstep] in E1. destruct (mget k (m_all m)); [|discriminate]. injection E1 as <- <-. now apply SS.
    - now apply SS.
    - now apply UU.
    - apply uends_has.
    - exact (uends_asking m cl (PLevel l t todo next cl) I Q).
    - exact (uends_asking m cl (PRange fs acc k cl) I Q).
    - now apply uends_clean.
    - now apply uends_clean.
    - now apply uends_clean.
    - now apply uends_clean.
    - eapply uends_done. reflexivity.
  Qed.
  Lemma uends_run m p : uends m p -> exists sched m' y, run (Some mm) level (m, [p]) sched = Val (m', [PDone y]).
  Proof.
    intros H. induction H as [m p y ->|m p ch m' p' E H IH]; [exists [], m, y; reflexivity|]. destruct IH as (sched & m2 & y & Hr).
    exists ((0, ch) :: sched), m2, y. cbn [run fst snd nth_error]. rewrite E. cbn [obind upd_at]. exact Hr.
  Qed.
End Update.
