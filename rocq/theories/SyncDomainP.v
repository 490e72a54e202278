(** Lemmas about calls on a domain manager that run at the same time. *)
From Coq Require Import Lia.
From Verif Require Import GoBase GoBaseP RbacSpec PathM DomainM DomainSpec SyncRoleM SyncRoleSpec SyncRoleP SyncDomainM SyncDomainSpec Prop_SyncRole.
Local Open Scope string_scope. Local Open Scope list_scope. Local Open Scope nat_scope.

(** ** The managers stored below the first one *)
Fixpoint walk (d : dmem) (x : nat) (p : list string) : option nat :=
  match p with
  | [] => Some x
  | k :: p' => match mget k (dom_map d x) with Some y => walk d y p' | None => None end
  end.
Lemma walk_app d p : forall x q, walk d x (p ++ q) = match walk d x p with Some y => walk d y q | None => None end.
Proof. induction p as [|k p IH]; intros x q; cbn; [reflexivity|]. destruct (mget k (dom_map d x)); [apply IH|reflexivity]. Qed.
Definition at_dom (d : dmem) (p : list string) : option nat := walk d 0 p.
Definition at_role (d : dmem) (p : list string) : option nat :=
  match at_dom d p with Some x => mget defaultDomain (dom_map d x) | None => None end.
Lemma at_dom_snoc d p k : at_dom d (p ++ [k]) = match at_dom d p with Some x => mget k (dom_map d x) | None => None end.
Proof. unfold at_dom. rewrite walk_app. destruct (walk d 0 p) as [x|]; [|reflexivity]. cbn. now destruct (mget k (dom_map d x)). Qed.
Lemma at_dom_above d p q x : at_dom d (p ++ q) = Some x -> exists y, at_dom d p = Some y.
Proof. unfold at_dom. rewrite walk_app. destruct (walk d 0 p) as [y|]; [eauto|discriminate]. Qed.

Definition plain (p : list string) : Prop := ~ In defaultDomain p.
Lemma plain_app p q : plain (p ++ q) <-> plain p /\ plain q.
Proof. unfold plain. rewrite in_app_iff. tauto. Qed.
Lemma plain_nil : plain []. Proof. intros []. Qed.
Lemma plain_one k : plain [k] <-> k <> defaultDomain.
Proof. unfold plain. cbn. tauto. Qed.

Record wf (level : nat) (d : dmem) : Prop := mkWf {
  w_dom : forall p x, plain p -> at_dom d p = Some x -> x < List.length (d_doms d) /\ dom_level d x = level - List.length p;
  w_inj : forall p q x, plain p -> plain q -> at_dom d p = Some x -> at_dom d q = Some x -> p = q;
  w_role : forall p r, plain p -> at_role d p = Some r -> r < List.length (d_roles d) /\ role_level d r = level - S (List.length p);
  w_rinj : forall p q r, plain p -> plain q -> at_role d p = Some r -> at_role d q = Some r -> p = q
}.
Lemma wf0 level : wf level (dmem0 level).
Proof.
  assert (E : forall p x, at_dom (dmem0 level) p = Some x -> p = [] /\ x = 0) by (intros [|k p] x; cbn; [intros [= <-]; auto|discriminate]).
  assert (R : forall p r, at_role (dmem0 level) p = Some r -> False).
  { intros p r. unfold at_role. destruct (at_dom (dmem0 level) p) as [x|] eqn:Ex; [|discriminate]. apply E in Ex as [_ ->]. discriminate. }
  constructor.
  - intros p x _ H. apply E in H as [-> ->]. cbn. split; lia.
  - intros p q x _ _ H1 H2. apply E in H1 as [-> _]. apply E in H2 as [-> _]. reflexivity.
  - intros p r _ H. now apply R in H.
  - intros p q r _ _ H. now apply R in H.
Qed.

Lemma dom_map_put d x k v lr roles y : x < List.length (d_doms d) ->
  dom_map (mkDMem (dom_put d x k v ++ lr) roles) y =
  if Nat.eqb x y then mput k v (dom_map d x)
  else if y <? List.length (d_doms d) then dom_map d y else match nth_error lr (y - List.length (d_doms d)) with Some (_, m) => m | None => [] end.
Proof.
  intros Hx. unfold dom_map, dom_put. cbn [d_doms]. destruct (Nat.ltb_spec y (List.length (d_doms d))) as [Hy|Hy].
  - rewrite nth_error_app1 by (now rewrite upd_length). rewrite nth_upd. destruct (Nat.eqb_spec x y) as [->|N]; [|reflexivity].
    destruct (nth_error (d_doms d) y) as [[l m]|] eqn:E; [reflexivity|]. apply nth_error_None in E. lia.
  - rewrite nth_error_app2 by (now rewrite upd_length). rewrite upd_length. destruct (Nat.eqb_spec x y) as [->|N]; [lia|reflexivity].
Qed.
Lemma dom_level_put d x k v lr roles y :
  dom_level (mkDMem (dom_put d x k v ++ lr) roles) y =
  if y <? List.length (d_doms d) then dom_level d y else match nth_error lr (y - List.length (d_doms d)) with Some (l, _) => l | None => 0 end.
Proof.
  unfold dom_level, dom_put. cbn [d_doms]. destruct (Nat.ltb_spec y (List.length (d_doms d))) as [Hy|Hy].
  - rewrite nth_error_app1 by (now rewrite upd_length). rewrite nth_upd. destruct (Nat.eqb x y); [|reflexivity].
    destruct (nth_error (d_doms d) y) as [[l m]|]; reflexivity.
  - rewrite nth_error_app2 by (now rewrite upd_length). now rewrite upd_length.
Qed.

(** ** Storing a domain manager *)
Section StoreDom.
  Variables (level : nat) (d : dmem) (p : list string) (x : nat) (k : string).
  Hypothesis W : wf level d.
  Hypothesis Hp : plain (p ++ [k]).
  Hypothesis Hx : at_dom d p = Some x.
  Hypothesis Hk : mget k (dom_map d x) = None.
  Let n := List.length (d_doms d).
  Let d' := mkDMem (dom_put d x k n ++ [(dom_level d x - 1, [])]) (d_roles d).
  Lemma sd_xn : x < n. Proof. apply plain_app in Hp as [Hp1 _]. exact (proj1 (w_dom _ _ W _ _ Hp1 Hx)). Qed.
  Lemma sd_map y : dom_map d' y = if Nat.eqb x y then mput k n (dom_map d x) else if y <? n then dom_map d y else [].
  Proof.
    unfold d'. rewrite dom_map_put by exact sd_xn. destruct (Nat.eqb x y); [reflexivity|]. fold n. destruct (y <? n); [reflexivity|].
    destruct (y - n) as [|[|i]]; reflexivity.
  Qed.
  Lemma sd_none : at_dom d (p ++ [k]) = None. Proof. now rewrite at_dom_snoc, Hx. Qed.
  Lemma sd_at q : plain q -> at_dom d' q = if list_eq_dec string_dec q (p ++ [k]) then Some n else at_dom d q.
  Proof.
    induction q as [|k' q IH] using rev_ind; intros Hq.
    - destruct (list_eq_dec string_dec [] (p ++ [k])) as [E|_]; [now apply app_cons_not_nil in E|reflexivity].
    - apply plain_app in Hq as [Hq Hk']. rewrite at_dom_snoc, (at_dom_snoc d), IH by exact Hq.
      destruct (list_eq_dec string_dec q (p ++ [k])) as [->|Nq].
      + rewrite sd_none. destruct (list_eq_dec string_dec ((p ++ [k]) ++ [k']) (p ++ [k])) as [E|_].
        * apply (f_equal (@List.length _)) in E. rewrite !app_length in E. cbn in E. lia.
        * rewrite sd_map. pose proof sd_xn. destruct (Nat.eqb_spec x n); [lia|]. now rewrite Nat.ltb_irrefl.
      + destruct (at_dom d q) as [y|] eqn:Ey.
        * destruct (w_dom _ _ W _ _ Hq Ey) as [Hy _]. fold n in Hy. rewrite sd_map. destruct (Nat.eqb_spec x y) as [<-|Nxy].
          -- assert (q = p) by (apply (w_inj _ _ W q p x Hq); auto; now apply plain_app in Hp). subst q.
             destruct (list_eq_dec string_dec (p ++ [k']) (p ++ [k])) as [E|N].
             ++ apply app_inj_tail in E as [_ ->]. apply mget_put_eq.
             ++ apply mget_put_neq. intros ->. now apply N.
          -- destruct (Nat.ltb_spec y n); [|lia]. destruct (list_eq_dec string_dec (q ++ [k']) (p ++ [k])) as [E|_]; [|reflexivity].
             apply app_inj_tail in E as [-> _]. congruence.
        * destruct (list_eq_dec string_dec (q ++ [k']) (p ++ [k])) as [E|_]; [|reflexivity]. apply app_inj_tail in E as [-> _]. congruence.
  Qed.
  Lemma sd_role q : plain q -> at_role d' q = at_role d q.
  Proof.
    intros Hq. unfold at_role. rewrite sd_at by exact Hq. pose proof sd_xn. destruct (list_eq_dec string_dec q (p ++ [k])) as [->|N].
    - rewrite sd_none, sd_map. destruct (Nat.eqb_spec x n); [lia|]. now rewrite Nat.ltb_irrefl.
    - destruct (at_dom d q) as [y|] eqn:Ey; [|reflexivity]. destruct (w_dom _ _ W _ _ Hq Ey) as [Hy _]. fold n in Hy. rewrite sd_map.
      destruct (Nat.eqb_spec x y) as [<-|Nxy]; [|destruct (Nat.ltb_spec y n); [reflexivity|lia]].
      apply mget_put_neq. intros E. apply plain_app in Hp as [_ E']. apply plain_one in E'. now symmetry in E.
  Qed.
  Lemma sd_wf : wf level d'.
  Proof.
    pose proof sd_xn as Hxn. assert (Pp : plain p) by (now apply plain_app in Hp). constructor.
    - intros q y Hq. rewrite sd_at by exact Hq. unfold d'. rewrite dom_level_put. cbn [d_doms]. unfold dom_put. rewrite app_length, upd_length. fold n. cbn [List.length].
      destruct (list_eq_dec string_dec q (p ++ [k])) as [->|N].
      + intros [= <-]. split; [lia|]. rewrite Nat.ltb_irrefl, Nat.sub_diag. cbn. rewrite (proj2 (w_dom _ _ W _ _ Pp Hx)), app_length. cbn. lia.
      + intros E. destruct (w_dom _ _ W _ _ Hq E) as [E1 E2]. fold n in E1. split; [lia|]. destruct (Nat.ltb_spec y n); [exact E2|lia].
    - intros q1 q2 y H1 H2. rewrite !sd_at by assumption. destruct (list_eq_dec string_dec q1 (p ++ [k])) as [->|N1], (list_eq_dec string_dec q2 (p ++ [k])) as [->|N2]; auto.
      + intros [= <-] E. apply (w_dom _ _ W) in E; [|exact H2]. unfold n in E. lia.
      + intros E [= <-]. apply (w_dom _ _ W) in E; [|exact H1]. unfold n in E. lia.
      + apply (w_inj _ _ W); assumption.
    - intros q r Hq. rewrite sd_role by exact Hq. intros E. exact (w_role _ _ W _ _ Hq E).
    - intros q1 q2 r H1 H2. rewrite !sd_role by assumption. now apply (w_rinj _ _ W).
  Qed.
End StoreDom.

(** ** Storing a role manager *)
Section StoreRole.
  Variables (level : nat) (d : dmem) (p : list string) (x : nat).
  Hypothesis W : wf level d.
  Hypothesis Hp : plain p.
  Hypothesis Hx : at_dom d p = Some x.
  Hypothesis Hk : mget defaultDomain (dom_map d x) = None.
  Let n := List.length (d_roles d).
  Let d' := mkDMem (dom_put d x defaultDomain n) (d_roles d ++ [(dom_level d x - 1, mem0)]).
  Lemma sr_xn : x < List.length (d_doms d). Proof. exact (proj1 (w_dom _ _ W _ _ Hp Hx)). Qed.
  Lemma sr_map y : dom_map d' y = if Nat.eqb x y then mput defaultDomain n (dom_map d x) else dom_map d y.
  Proof.
    unfold d'. rewrite <- (app_nil_r (dom_put d x defaultDomain n)), dom_map_put by exact sr_xn. destruct (Nat.eqb x y); [reflexivity|].
    destruct (Nat.ltb_spec y (List.length (d_doms d))); [reflexivity|]. unfold dom_map.
    rewrite (proj2 (nth_error_None (d_doms d) y)) by assumption. now destruct (y - _).
  Qed.
  Lemma sr_at q : plain q -> at_dom d' q = at_dom d q.
  Proof.
    induction q as [|k' q IH] using rev_ind; intros Hq; [reflexivity|].
    apply plain_app in Hq as [Hq Hk']. apply plain_one in Hk'. rewrite at_dom_snoc, (at_dom_snoc d), IH by exact Hq. destruct (at_dom d q) as [y|]; [|reflexivity].
    rewrite sr_map. destruct (Nat.eqb_spec x y) as [<-|N]; [|reflexivity]. now apply mget_put_neq.
  Qed.
  Lemma sr_role q : plain q -> at_role d' q = if list_eq_dec string_dec q p then Some n else at_role d q.
  Proof.
    intros Hq. unfold at_role. rewrite sr_at by exact Hq. destruct (list_eq_dec string_dec q p) as [->|N].
    - rewrite Hx, sr_map, Nat.eqb_refl. apply mget_put_eq.
    - destruct (at_dom d q) as [y|] eqn:E; [|reflexivity]. rewrite sr_map. destruct (Nat.eqb_spec x y) as [<-|Nxy]; [|reflexivity].
      exfalso. apply N. exact (w_inj _ _ W q p x Hq Hp E Hx).
  Qed.
  Lemma sr_wf : wf level d'.
  Proof.
    pose proof sr_xn as Hxn. constructor.
    - intros q y Hq. rewrite sr_at by exact Hq. intros E. destruct (w_dom _ _ W _ _ Hq E) as [E1 E2]. unfold d'.
      rewrite <- (app_nil_r (dom_put d x defaultDomain n)), dom_level_put. cbn [d_doms]. unfold dom_put. rewrite app_length, upd_length.
      split; [lia|]. destruct (Nat.ltb_spec y (List.length (d_doms d))); [exact E2|lia].
    - intros q1 q2 y H1 H2. rewrite !sr_at by assumption. now apply (w_inj _ _ W).
    - intros q r Hq. rewrite sr_role by exact Hq. unfold role_level, d'. cbn [d_roles]. rewrite app_length. fold n. cbn [List.length].
      destruct (list_eq_dec string_dec q p) as [->|N].
      + intros [= <-]. split; [lia|]. rewrite nth_error_app2 by (unfold n; lia). unfold n. rewrite Nat.sub_diag. cbn.
        rewrite (proj2 (w_dom _ _ W _ _ Hp Hx)). lia.
      + intros E. destruct (w_role _ _ W _ _ Hq E) as [E1 E2]. fold n in E1. split; [lia|]. rewrite nth_error_app1 by exact E1. exact E2.
    - intros q1 q2 r H1 H2. rewrite !sr_role by assumption. destruct (list_eq_dec string_dec q1 p) as [->|N1], (list_eq_dec string_dec q2 p) as [->|N2]; auto.
      + intros [= <-] E. apply (w_role _ _ W) in E; [|exact H2]. unfold n in E. lia.
      + intros E [= <-]. apply (w_role _ _ W) in E; [|exact H1]. unfold n in E. lia.
      + apply (w_rinj _ _ W); assumption.
  Qed.
End StoreRole.

(** ** A phase *)
Definition key (rest : list string) : string := match rest with [] => defaultDomain | k :: _ => k end.
Record grow (d d' : dmem) : Prop := mkGrow {
  g_dom : forall p x, plain p -> at_dom d p = Some x -> at_dom d' p = Some x;
  g_role : forall p r, plain p -> at_role d p = Some r -> at_role d' p = Some r;
  g_new : forall p r, plain p -> at_role d' p = Some r -> at_role d p = Some r \/ List.length (d_roles d) <= r;
  g_len : List.length (d_roles d) <= List.length (d_roles d');
  g_level : forall r, r < List.length (d_roles d) -> role_level d' r = role_level d r
}.
Lemma grow_refl d : grow d d.
Proof. constructor; auto. Qed.
Lemma grow_trans d1 d2 d3 : grow d1 d2 -> grow d2 d3 -> grow d1 d3.
Proof.
  intros [A1 A2 A3 A4 A5] [B1 B2 B3 B4 B5]. constructor; auto; [|lia|].
  - intros p r Hp H. destruct (B3 p r Hp H) as [H1|H1]; [auto|right; lia].
  - intros r Hr. rewrite B5 by lia. auto.
Qed.
Lemma stores_updates o : stores o = updates o. Proof. now destruct o. Qed.

Section Phase.
  Variables (level : nat) (h : list (list dcall)) (d0 : dmem) (ops : list dcall).
  Hypothesis Plain : forall c, In c ops -> plain (snd c).
  Hypothesis Opens : one_opens h ops.
  Hypothesis Opened : forall ds, updates_in h ds -> exists r, at_role d0 ds = Some r.

  Definition T (d : dmem) (c : dcall) (t : dpc) : Prop :=
    match t with
    | QLoad o x rest => o = fst c /\ exists p, snd c = p ++ rest /\ at_dom d p = Some x
    | QStore o x rest => o = fst c /\ updates o = true /\ mget (key rest) (dom_map d x) = None /\ exists p, snd c = p ++ rest /\ at_dom d p = Some x
    | QRun r _ =>
        at_role d (snd c) = Some r \/
        (updates (fst c) = false /\ at_role d0 (snd c) = None /\ List.length (d_roles d0) <= r /\ r < List.length (d_roles d) /\
         role_level d r = level - S (List.length (snd c)) /\ forall q, plain q -> at_role d q <> Some r)
    end.
  Record PI (d : dmem) (ts : list dpc) : Prop := mkPI {
    pi_wf : wf level d;
    pi_grow : grow d0 d;
    pi_len : List.length ts = List.length ops;
    pi_T : forall i c t, nth_error ops i = Some c -> nth_error ts i = Some t -> T d c t;
    pi_priv : forall i j r p p' c, i <> j -> nth_error ts i = Some (QRun r p) -> nth_error ts j = Some (QRun r p') ->
      nth_error ops i = Some c -> at_role d (snd c) = Some r
  }.
  Lemma opened_below p : updates_below h p -> exists x, at_dom d0 p = Some x.
  Proof.
    intros [ds [[rest ->] Hu]]. apply Opened in Hu as [r Hr]. unfold at_role in Hr. destruct (at_dom d0 (p ++ rest)) as [x|] eqn:E; [|discriminate].
    exact (at_dom_above _ _ _ _ E).
  Qed.
  Lemma pi_start : wf level d0 -> PI d0 (map dstart ops).
  Proof.
    intros W. constructor; [exact W|apply grow_refl|now rewrite map_length|..].
    - intros i c t Hc Ht. rewrite nth_error_map, Hc in Ht. injection Ht as <-. cbn. split; [reflexivity|]. exists []. auto.
    - intros i j r p p' c _ Ht. rewrite nth_error_map in Ht. destruct (nth_error ops i); discriminate.
  Qed.
  Lemma op_plain i c : nth_error ops i = Some c -> plain (snd c).
  Proof. intros H. apply Plain. eapply nth_error_In; eauto. Qed.
  (** How a step of one call leaves the invariant of the others. *)
  Lemma pi_upd d ts d' j t t' c :
    PI d ts -> nth_error ts j = Some t -> nth_error ops j = Some c -> wf level d' -> grow d d' ->
    (forall i o x rest, i <> j -> nth_error ts i = Some (QStore o x rest) -> mget (key rest) (dom_map d' x) = None) ->
    T d' c t' ->
    (forall r p, t' = QRun r p -> (exists p0, t = QRun r p0) \/ (at_role d (snd c) = Some r) \/ r = List.length (d_roles d)) ->
    PI d' (upd_at ts j (fun _ => t')).
  Proof.
    intros [W G Len HT HP] Ht Hc W' G' HS HT' HR.
    assert (HTo : forall i ci ti, i <> j -> nth_error ops i = Some ci -> nth_error ts i = Some ti -> T d' ci ti).
    { intros i ci ti Hij Hci Hti. pose proof (op_plain _ _ Hci) as Pci. specialize (HT _ _ _ Hci Hti). destruct ti as [o x rest|o x rest|r p]; cbn in HT |- *.
      - destruct HT as [-> [p [E Ex]]]. split; [reflexivity|]. exists p. split; [exact E|]. apply (g_dom _ _ G'); [|exact Ex]. rewrite E in Pci. now apply plain_app in Pci.
      - destruct HT as [-> [Hu [_ [p [E Ex]]]]]. split; [reflexivity|]. split; [exact Hu|]. split; [eapply HS; eauto|]. exists p. split; [exact E|].
        apply (g_dom _ _ G'); [|exact Ex]. rewrite E in Pci. now apply plain_app in Pci.
      - destruct HT as [H|[H1 [H2 [H3 [H4 [H5 H6]]]]]]; [left; now apply (g_role _ _ G')|right].
        split; [exact H1|]. split; [exact H2|]. split; [exact H3|]. split; [pose proof (g_len _ _ G'); lia|]. split; [now rewrite (g_level _ _ G')|].
        intros q Hq E. destruct (g_new _ _ G' _ _ Hq E) as [E'|E']; [now apply H6 in E'|lia]. }
    assert (Hlt : forall i ci r p, nth_error ops i = Some ci -> nth_error ts i = Some (QRun r p) -> r < List.length (d_roles d)).
    { intros i ci r p Hci Hti. specialize (HT _ _ _ Hci Hti). destruct HT as [H|[_ [_ [_ [H _]]]]]; [|exact H].
      exact (proj1 (w_role _ _ W _ _ (op_plain _ _ Hci) H)). }
    (* a call that shares its role manager with the one that stepped is attached to it *)
    assert (Share : forall i ci r p p', i <> j -> nth_error ops i = Some ci -> nth_error ts i = Some (QRun r p) -> t' = QRun r p' ->
              at_role d' (snd ci) = Some r /\ at_role d' (snd c) = Some r).
    { intros i ci r p p' Hij Hci Hti E. destruct (HR _ _ E) as [[p0 ->]|[X|X]].
      - split; (apply (g_role _ _ G'); [now eapply op_plain; eauto|]); eapply HP; [|exact Hti|exact Ht|exact Hci| |exact Ht|exact Hti|exact Hc]; auto.
      - split; [|now apply (g_role _ _ G'); [eapply op_plain; eauto|]]. specialize (HT _ _ _ Hci Hti). destruct HT as [Hr|[_ [_ [_ [_ [_ Hr]]]]]].
        + now apply (g_role _ _ G'); [eapply op_plain; eauto|].
        + exfalso. exact (Hr _ (op_plain _ _ Hc) X).
      - exfalso. specialize (Hlt _ _ _ _ Hci Hti). lia. }
    constructor; [exact W'|exact (grow_trans _ _ _ G G')|now rewrite upd_length|..].
    - intros i ci ti Hci Hti. destruct (Nat.eq_dec i j) as [->|N]; [|rewrite nth_upd_other in Hti by auto; eauto].
      rewrite (nth_upd_same _ _ _ _ Ht) in Hti. injection Hti as <-. assert (ci = c) by congruence. now subst.
    - intros i i' r p p' ci Hii Hi Hi' Hci. destruct (Nat.eq_dec i j) as [->|N], (Nat.eq_dec i' j) as [->|N']; [congruence| | |].
      + rewrite (nth_upd_same _ _ _ _ Ht) in Hi. rewrite nth_upd_other in Hi' by auto. injection Hi as ->. assert (ci = c) by congruence. subst ci.
        destruct (nth_error ops i') as [c'|] eqn:Ec'; [|apply nth_error_None in Ec'; rewrite <- Len in Ec'; apply nth_error_None in Ec'; congruence].
        exact (proj2 (Share _ _ _ _ _ N' Ec' Hi' eq_refl)).
      + rewrite (nth_upd_same _ _ _ _ Ht) in Hi'. rewrite nth_upd_other in Hi by auto. injection Hi' as ->. exact (proj1 (Share _ _ _ _ _ N Hci Hi eq_refl)).
      + rewrite nth_upd_other in Hi, Hi' by auto. apply (g_role _ _ G'); [eapply op_plain; eauto|]. exact (HP _ _ _ _ _ _ Hii Hi Hi' Hci).
  Qed.
  Lemma walk_same d roles p : forall x, walk (mkDMem (d_doms d) roles) x p = walk d x p.
  Proof. induction p as [|k p IH]; intros x; cbn; [reflexivity|]. change (dom_map (mkDMem (d_doms d) roles) x) with (dom_map d x). now destruct (mget k (dom_map d x)). Qed.
  Lemma at_dom_same d roles p : at_dom (mkDMem (d_doms d) roles) p = at_dom d p.
  Proof. apply walk_same. Qed.
  Lemma at_role_same d roles p : at_role (mkDMem (d_doms d) roles) p = at_role d p.
  Proof. unfold at_role. now rewrite at_dom_same. Qed.
  Lemma grow_same d roles : List.length (d_roles d) <= List.length roles ->
    (forall r, r < List.length (d_roles d) -> role_level (mkDMem (d_doms d) roles) r = role_level d r) -> grow d (mkDMem (d_doms d) roles).
  Proof. intros H1 H2. constructor; auto; intros p x; rewrite ?at_dom_same, ?at_role_same; auto. Qed.
  Lemma wf_roles d roles : wf level d -> List.length (d_roles d) <= List.length roles ->
    (forall r, r < List.length (d_roles d) -> role_level (mkDMem (d_doms d) roles) r = role_level d r) -> wf level (mkDMem (d_doms d) roles).
  Proof.
    intros [W1 W2 W3 W4] Hl Hr. constructor; [intros p x; rewrite at_dom_same; apply W1|intros p q x; rewrite !at_dom_same; apply W2| |intros p q x; rewrite !at_role_same; apply W4].
    intros p r Hp. rewrite at_role_same. intros H. destruct (W3 _ _ Hp H) as [H1 H2]. cbn [d_roles]. split; [lia|]. now rewrite Hr.
  Qed.
  Lemma pi_step d ts ch j t d' t' : PI d ts -> nth_error ts j = Some t -> dstep ch d t = Val (d', t') -> PI d' (upd_at ts j (fun _ => t')).
  Proof.
    intros HI Ht Hs. pose proof HI as [W G Len HT HP].
    destruct (nth_error ops j) as [c|] eqn:Hc; [|apply nth_error_None in Hc; rewrite <- Len in Hc; apply nth_error_None in Hc; congruence].
    pose proof (op_plain _ _ Hc) as Pc. pose proof (HT _ _ _ Hc Ht) as Tj.
    assert (Keep : forall i o x rest, i <> j -> nth_error ts i = Some (QStore o x rest) -> mget (key rest) (dom_map d x) = None).
    { intros i o x rest _ Hi. destruct (nth_error ops i) as [ci|] eqn:Hci; [|apply nth_error_None in Hci; rewrite <- Len in Hci; apply nth_error_None in Hci; congruence].
      exact (proj1 (proj2 (proj2 (HT _ _ _ Hci Hi)))). }
    destruct t as [o x rest|o x rest|r p]; cbn in Hs, Tj.
    - destruct Tj as [-> [p [E Ex]]]. fold (key rest) in Hs. destruct (mget (key rest) (dom_map d x)) as [v|] eqn:Ek.
      + destruct rest as [|k rest].
        * injection Hs as <- <-. rewrite app_nil_r in E. subst p. assert (A : at_role d (snd c) = Some v) by (unfold at_role; now rewrite Ex).
          apply (pi_upd d ts d j _ _ c HI Ht Hc W (grow_refl d) Keep); [left; exact A|]. intros r p [= -> _]. auto.
        * injection Hs as <- <-. apply (pi_upd d ts d j _ _ c HI Ht Hc W (grow_refl d) Keep); [|discriminate]. cbn. split; [reflexivity|]. exists (p ++ [k]).
          rewrite <- app_assoc. split; [exact E|]. now rewrite at_dom_snoc, Ex.
      + assert (Hs' : (if stores (fst c) then Val (d, QStore (fst c) x rest) else Val (mkDMem (d_doms d) (d_roles d ++ [(dom_level d x - List.length rest - 1, mem0)]), QRun (List.length (d_roles d)) (start None (fst c)))) = Val (d', t'))
          by (destruct rest; exact Hs). clear Hs. destruct (stores (fst c)) eqn:Es.
        * injection Hs' as <- <-. apply (pi_upd d ts d j _ _ c HI Ht Hc W (grow_refl d) Keep); [|discriminate]. unfold T. rewrite <- stores_updates. repeat (split; [first [reflexivity|assumption]|]). exists p. auto.
        * injection Hs' as <- <-. rewrite stores_updates in Es. set (d' := mkDMem _ _).
          assert (Hlev : forall r, r < List.length (d_roles d) -> role_level d' r = role_level d r) by (intros r Hr; unfold role_level, d'; cbn [d_roles]; now rewrite nth_error_app1).
          assert (Hlen : List.length (d_roles d) <= List.length (d_roles d ++ [(dom_level d x - List.length rest - 1, mem0)])) by (rewrite app_length; lia).
          assert (Pp : plain p) by (rewrite E in Pc; now apply plain_app in Pc).
          assert (A : at_role d (snd c) = None).
          { unfold at_role. rewrite E. destruct rest as [|k rest]; [now rewrite app_nil_r, Ex|]. unfold at_dom in *. rewrite walk_app, Ex. cbn in Ek |- *. now rewrite Ek. }
          apply (pi_upd d ts d' j _ _ c HI Ht Hc); [now apply wf_roles|now apply grow_same|exact Keep| |intros r q [= <- _]; auto].
          right. split; [exact Es|]. split; [destruct (at_role d0 (snd c)) eqn:E0; [|reflexivity]; apply (g_role _ _ G) in E0; [congruence|exact Pc]|].
          split; [exact (g_len _ _ G)|]. split; [unfold d'; cbn [d_roles]; rewrite app_length; cbn; lia|]. split.
          -- unfold role_level, d'. cbn [d_roles]. rewrite nth_error_app2, Nat.sub_diag by lia. cbn. rewrite (proj2 (w_dom _ _ W _ _ Pp Ex)), E, app_length. lia.
          -- intros q Hq Eq. unfold d' in Eq. rewrite at_role_same in Eq. apply (w_role _ _ W) in Eq; [lia|exact Hq].
    - destruct Tj as [-> [Hu [Hk [p [E Ex]]]]]. assert (Pp : plain p) by (rewrite E in Pc; now apply plain_app in Pc).
      destruct rest as [|k rest]; cbn [key] in Hk.
      + injection Hs as <- <-. rewrite app_nil_r in E. subst p. set (d' := mkDMem _ _).
        pose proof (sr_wf level d (snd c) x W Pc Ex) as W'. fold d' in W'.
        assert (A : at_role d (snd c) = None) by (unfold at_role; now rewrite Ex).
        apply (pi_upd d ts d' j _ _ c HI Ht Hc W').
        * constructor.
          -- intros q y Hq Hy. unfold d'. rewrite (sr_at level d (snd c) x W Pc Ex) by exact Hq. exact Hy.
          -- intros q r Hq Hr. unfold d'. rewrite (sr_role level d (snd c) x W Pc Ex) by exact Hq. destruct (list_eq_dec string_dec q (snd c)) as [->|N]; [congruence|exact Hr].
          -- intros q r Hq. unfold d'. rewrite (sr_role level d (snd c) x W Pc Ex) by exact Hq. destruct (list_eq_dec string_dec q (snd c)) as [->|N]; [intros [= <-]; right; lia|auto].
          -- unfold d'. cbn [d_roles]. rewrite app_length. lia.
          -- intros r Hr. unfold role_level, d'. cbn [d_roles]. now rewrite nth_error_app1.
        * intros i o y rest Hij Hi. pose proof (Keep _ _ _ _ Hij Hi) as Hki. unfold d'. rewrite (sr_map level d (snd c) x W Pc Ex).
          destruct (Nat.eqb_spec x y) as [<-|Nxy]; [|exact Hki].
          destruct (nth_error ops i) as [ci|] eqn:Hci; [|apply nth_error_None in Hci; rewrite <- Len in Hci; apply nth_error_None in Hci; congruence].
          destruct (HT _ _ _ Hci Hi) as [-> [Hui [_ [pi [Ei Exi]]]]]. pose proof (op_plain _ _ Hci) as Pci. rewrite Ei in Pci. apply plain_app in Pci as [Ppi Pri].
          destruct rest as [|k rest]; cbn [key] in *.
          -- exfalso. apply Hij. rewrite app_nil_r in Ei. subst pi. assert (Ed : snd ci = snd c) by (apply (w_inj _ _ W _ _ x); auto).
             destruct ci as [oi di], c as [oc dc]. cbn [fst snd] in *. subst di.
             refine (proj1 Opens dc _ i j oi oc dc dc Hci Hc Hui Hu eq_refl eq_refl).
             intros Hup. apply Opened in Hup as [r Hr]. apply (g_role _ _ G) in Hr; [congruence|exact Pc].
          -- rewrite mget_put_neq; [exact Hki|]. intros ->. apply Pri. now left.
        * left. unfold d'. rewrite (sr_role level d (snd c) x W Pc Ex) by exact Pc. now destruct (list_eq_dec string_dec (snd c) (snd c)).
        * intros r q [= <- _]. auto.
      + injection Hs as <- <-. set (d' := mkDMem _ _).
        assert (Pk : plain (p ++ [k])) by (rewrite E in Pc; apply plain_app in Pc as [_ Pc]; apply plain_app; split; [exact Pp|]; apply (plain_app [k] rest) in Pc; tauto).
        pose proof (sd_wf level d p x k W Pk Ex Hk) as W'. fold d' in W'.
        assert (A : at_dom d (p ++ [k]) = None) by (rewrite at_dom_snoc, Ex; exact Hk).
        apply (pi_upd d ts d' j _ _ c HI Ht Hc W'); [| | |discriminate].
        * constructor; auto.
          -- intros q y Hq Hy. unfold d'. rewrite (sd_at level d p x k W Pk Ex Hk) by exact Hq. destruct (list_eq_dec string_dec q (p ++ [k])) as [->|N]; [congruence|exact Hy].
          -- intros q r Hq Hr. unfold d'. now rewrite (sd_role level d p x k W Pk Ex Hk).
          -- intros q r Hq. unfold d'. rewrite (sd_role level d p x k W Pk Ex Hk) by exact Hq. auto.
        * intros i o y rest' Hij Hi. pose proof (Keep _ _ _ _ Hij Hi) as Hki. unfold d'. rewrite (sd_map level d p x k W Pk Ex).
          destruct (nth_error ops i) as [ci|] eqn:Hci; [|apply nth_error_None in Hci; rewrite <- Len in Hci; apply nth_error_None in Hci; congruence].
          destruct (HT _ _ _ Hci Hi) as [-> [Hui [_ [pi [Ei Exi]]]]]. pose proof (op_plain _ _ Hci) as Pci. rewrite Ei in Pci. apply plain_app in Pci as [Ppi Pri].
          destruct (Nat.eqb_spec x y) as [<-|Nxy].
          -- assert (pi = p) by (apply (w_inj _ _ W _ _ x); auto). subst pi.
             destruct (string_dec (key rest') k) as [Ekk|Nk]; [|now rewrite mget_put_neq].
             exfalso. apply Hij. assert (Hin : k <> defaultDomain) by (apply plain_app in Pk; now apply plain_one).
             destruct rest' as [|k' rest']; cbn [key] in Ekk; [congruence|]. subst k'.
             destruct ci as [oi di], c as [oc dc]. cbn [fst snd] in *. subst di dc.
             refine (proj2 Opens (p ++ [k]) _ _ i j oi oc _ _ Hci Hc Hui Hu _ _).
             ++ intros X. now apply app_eq_nil in X as [_ X].
             ++ intros Hup. apply opened_below in Hup as [r Hr]. apply (g_dom _ _ G) in Hr; [congruence|exact Pk].
             ++ exists rest'. now rewrite <- app_assoc.
             ++ exists rest. now rewrite <- app_assoc.
          -- destruct (Nat.ltb_spec y (List.length (d_doms d))); [exact Hki|]. apply (w_dom _ _ W) in Exi; [lia|exact Ppi].
        * cbn. split; [reflexivity|]. exists (p ++ [k]). rewrite <- app_assoc. split; [exact E|].
          unfold d'. rewrite (sd_at level d p x k W Pk Ex Hk) by exact Pk. now destruct (list_eq_dec string_dec (p ++ [k]) (p ++ [k])).
    - destruct (tstep None (role_level d r) ch (role_mem d r) p) as [[m p']|] eqn:Ep; [|discriminate]. cbn [obind] in Hs. injection Hs as <- <-. set (d' := mkDMem _ _).
      assert (Hlev : forall r', role_level d' r' = role_level d r').
      { intros r'. unfold role_level, d'. cbn [d_roles]. rewrite nth_upd. destruct (Nat.eqb r r'); [|reflexivity]. now destruct (nth_error (d_roles d) r') as [[l m']|]. }
      assert (Hlen : List.length (d_roles d') = List.length (d_roles d)) by (unfold d'; cbn [d_roles]; apply upd_length).
      apply (pi_upd d ts d' j _ _ c HI Ht Hc); [apply wf_roles; [exact W|unfold d' in Hlen; cbn [d_roles] in Hlen; lia|auto]|apply grow_same; [unfold d' in Hlen; cbn [d_roles] in Hlen; lia|auto]|exact Keep| |intros r' q [= -> _]; eauto].
      unfold T. rewrite Hlev, Hlen. unfold d'. rewrite at_role_same. destruct Tj as [Tj|[H1 [H2 [H3 [H4 [H5 H6]]]]]]; [now left|right]. repeat (split; [assumption|]).
      intros q Hq. rewrite at_role_same. now apply H6.
  Qed.
  Lemma pi_run sched : forall d ts d' ts', PI d ts -> drun (d, ts) sched = Val (d', ts') -> PI d' ts'.
  Proof.
    induction sched as [|[i ch] sched IH]; intros d ts d' ts' HI; cbn [drun]; [intros [= <- <-]; exact HI|].
    cbn [fst snd]. destruct (nth_error ts i) as [t|] eqn:E; [|now apply IH].
    destruct (dstep ch d t) as [[d1 t1]|] eqn:Es; cbn [obind]; [|discriminate]. apply IH. eapply pi_step; eauto.
  Qed.
End Phase.

(** ** The calls that run on one role manager *)
Fixpoint pick {A} (mask : list bool) (l : list A) : list A :=
  match mask, l with
  | b :: mask', x :: l' => if b then x :: pick mask' l' else pick mask' l'
  | _, _ => []
  end.
Fixpoint ones (mask : list bool) : nat := match mask with [] => 0 | b :: mask' => (if b then 1 else 0) + ones mask' end.
Definition at_ref (r : nat) (t : dpc) : bool := match t with QRun r' _ => Nat.eqb r' r | _ => false end.
Definition pcof (c : dcall) (t : dpc) : pc := match t with QRun _ p => p | _ => start None (fst c) end.
Fixpoint view (mask : list bool) (ops : list dcall) (ts : list dpc) : list pc :=
  match mask, ops, ts with
  | b :: mask', c :: ops', t :: ts' => if b then pcof c t :: view mask' ops' ts' else view mask' ops' ts'
  | _, _, _ => []
  end.
Lemma view_out mask : forall ops ts j t', nth_error mask j = Some false -> view mask ops (upd_at ts j (fun _ => t')) = view mask ops ts.
Proof.
  induction mask as [|b mask IH]; intros [|c ops] [|t ts] [|j] t' H; cbn in *; try discriminate; try reflexivity.
  - now injection H as ->.
  - rewrite IH by exact H. reflexivity.
Qed.
Lemma view_in mask : forall ops ts j c t, nth_error mask j = Some true -> nth_error ops j = Some c -> nth_error ts j = Some t ->
  nth_error (view mask ops ts) (ones (firstn j mask)) = Some (pcof c t) /\
  forall t', view mask ops (upd_at ts j (fun _ => t')) = upd_at (view mask ops ts) (ones (firstn j mask)) (fun _ => pcof c t').
Proof.
  induction mask as [|b mask IH]; intros [|c0 ops] [|t0 ts] [|j] c t H1 H2 H3; cbn in *; try discriminate.
  - injection H1 as ->. injection H2 as ->. injection H3 as ->. split; reflexivity.
  - destruct (IH _ _ _ _ _ H1 H2 H3) as [E1 E2]. destruct b; cbn; split; auto. intros t'. now rewrite E2.
Qed.
Lemma view_same mask : forall ops ts j c t t', nth_error ops j = Some c -> nth_error ts j = Some t -> pcof c t = pcof c t' ->
  view mask ops (upd_at ts j (fun _ => t')) = view mask ops ts.
Proof.
  induction mask as [|b mask IH]; intros [|c0 ops] [|t0 ts] [|j] c t t' H1 H2 H3; cbn in *; try discriminate; try reflexivity.
  - injection H1 as ->. injection H2 as ->. now rewrite H3.
  - now rewrite (IH _ _ _ _ _ _ H1 H2 H3).
Qed.
Lemma view_start mask : forall ops, view mask ops (map dstart ops) = map (start None) (map fst (pick mask ops)).
Proof. induction mask as [|b mask IH]; intros [|c ops]; cbn; try reflexivity. rewrite IH. now destruct b. Qed.
Lemma view_done : forall ops ts ys mask, dfinished ts ys -> List.length ops = List.length ts -> view mask ops ts = map PDone (pick mask ys).
Proof.
  intros ops ts ys mask H. revert ops mask. induction H as [|t y ts ys [r ->] H IH]; intros [|c ops] [|b mask] Hl; cbn in *; try discriminate; try reflexivity.
  rewrite IH by lia. now destruct b.
Qed.

Lemma dstep_runs ch d r p d' t' : dstep ch d (QRun r p) = Val (d', t') -> exists p', t' = QRun r p'.
Proof. cbn. destruct (tstep None (role_level d r) ch (role_mem d r) p) as [[m p']|]; cbn; [|discriminate]. intros [= _ <-]. eauto. Qed.
Lemma drun_runs sched : forall d ts d' ts' j r p, drun (d, ts) sched = Val (d', ts') -> nth_error ts j = Some (QRun r p) -> exists p', nth_error ts' j = Some (QRun r p').
Proof.
  induction sched as [|[i ch] sched IH]; intros d ts d' ts' j r p; cbn [drun fst snd]; [intros [= _ <-]; eauto|].
  destruct (nth_error ts i) as [t|] eqn:E; [|apply IH]. destruct (dstep ch d t) as [[d1 t1]|] eqn:Es; cbn [obind]; [|discriminate]. intros H Hj.
  destruct (Nat.eq_dec i j) as [->|N].
  - assert (t = QRun r p) by congruence. subst t. destruct (dstep_runs _ _ _ _ _ _ Es) as [p1 ->]. eapply IH; [exact H|]. now rewrite (nth_upd_same _ _ _ _ E).
  - eapply IH; [exact H|]. rewrite nth_upd_other by exact N. exact Hj.
Qed.
(** A call changes no role manager but the one it runs on. *)
Lemma role_app d l r doms : r <= List.length (d_roles d) -> role_mem (mkDMem doms (d_roles d ++ [(l, mem0)])) r = role_mem d r.
Proof.
  intros H. unfold role_mem. cbn [d_roles]. destruct (Nat.eq_dec r (List.length (d_roles d))) as [->|N].
  - rewrite nth_error_app2, Nat.sub_diag by lia. cbn. now rewrite (proj2 (nth_error_None (d_roles d) _)).
  - now rewrite nth_error_app1 by lia.
Qed.
Lemma role_app_gt d l r doms : List.length (d_roles d) < r -> role_mem (mkDMem doms (d_roles d ++ [(l, mem0)])) r = role_mem d r.
Proof.
  intros H. unfold role_mem. cbn [d_roles]. rewrite nth_error_app2 by lia. rewrite (proj2 (nth_error_None (d_roles d) _)) by lia.
  destruct (r - List.length (d_roles d)) as [|[|n]] eqn:E; try reflexivity.
Qed.
Lemma dstep_other ch d t d' t' r : dstep ch d t = Val (d', t') -> at_ref r t = false ->
  role_mem d' r = role_mem d r.
Proof.
  assert (A : forall doms l, role_mem (mkDMem doms (d_roles d ++ [(l, mem0)])) r = role_mem d r)
    by (intros doms l; destruct (Nat.le_gt_cases r (List.length (d_roles d))); [now apply role_app|now apply role_app_gt]).
  destruct t as [o x rest|o x rest|r' p]; cbn [dstep at_ref].
  - intros H _. destruct (mget _ (dom_map d x)) as [v|], rest as [|k rest]; try (injection H as <- _; reflexivity); destruct (stores o); injection H as <- _; auto.
  - intros H _. destruct rest as [|k rest]; injection H as <- _; [apply A|reflexivity].
  - intros H N. destruct (tstep _ _ _ _ _) as [[m p']|]; cbn [obind] in H; [|discriminate]. injection H as <- _.
    unfold role_mem. cbn [d_roles]. rewrite nth_upd. now rewrite N.
Qed.
Lemma dstep_level ch d t d' t' : dstep ch d t = Val (d', t') ->
  List.length (d_roles d) <= List.length (d_roles d') /\ forall r, r < List.length (d_roles d) -> role_level d' r = role_level d r.
Proof.
  assert (A : forall doms l, List.length (d_roles d) <= List.length (d_roles (mkDMem doms (d_roles d ++ [(l, mem0)]))) /\
     forall r, r < List.length (d_roles d) -> role_level (mkDMem doms (d_roles d ++ [(l, mem0)])) r = role_level d r)
    by (intros doms l; cbn [d_roles]; rewrite app_length; split; [lia|]; intros r Hr; unfold role_level; cbn [d_roles]; now rewrite nth_error_app1).
  destruct t as [o x rest|o x rest|r' p]; cbn [dstep].
  - intros H. destruct (mget _ (dom_map d x)) as [v|], rest as [|k rest]; try (injection H as <- _; auto); destruct (stores o); injection H as <- _; auto.
  - intros H. destruct rest as [|k rest]; injection H as <- _; auto.
  - intros H. destruct (tstep _ _ _ _ _) as [[m p']|]; cbn [obind] in H; [|discriminate]. injection H as <- _.
    cbn [d_roles]. rewrite upd_length. split; [lia|]. intros r _. unfold role_level. cbn [d_roles]. rewrite nth_upd. destruct (Nat.eqb r' r); [|reflexivity].
    now destruct (nth_error (d_roles d) r) as [[l m']|].
Qed.
Lemma drun_level sched : forall d ts d' ts', drun (d, ts) sched = Val (d', ts') ->
  List.length (d_roles d) <= List.length (d_roles d') /\ forall r, r < List.length (d_roles d) -> role_level d' r = role_level d r.
Proof.
  induction sched as [|[i ch] sched IH]; intros d ts d' ts'; cbn [drun fst snd]; [intros [= <- _]; auto|].
  destruct (nth_error ts i) as [t|] eqn:E; [|apply IH]. destruct (dstep ch d t) as [[d1 t1]|] eqn:Es; cbn [obind]; [|discriminate]. intros H.
  apply dstep_level in Es as [L1 L2]. apply IH in H as [L3 L4]. split; [lia|]. intros r Hr. rewrite L4 by lia. auto.
Qed.

Section Sim.
  Variables (level : nat) (h : list (list dcall)) (d0 : dmem) (ops : list dcall).
  Hypothesis Plain : forall c, In c ops -> plain (snd c).
  Hypothesis Opens : one_opens h ops.
  Hypothesis Opened : forall ds, updates_in h ds -> exists r, at_role d0 ds = Some r.
  Lemma pi_bound d ts j c r p : PI level d0 ops d ts -> nth_error ops j = Some c -> nth_error ts j = Some (QRun r p) -> r < List.length (d_roles d).
  Proof.
    intros [W G Len HT HP] Hc Ht. destruct (HT _ _ _ Hc Ht) as [H|[_ [_ [_ [H _]]]]]; [|exact H].
    apply (w_role _ _ W) in H; [tauto|]. apply Plain. eapply nth_error_In; eauto.
  Qed.
  Lemma sim r sched : forall d ts d' fin, PI level d0 ops d ts -> drun (d, ts) sched = Val (d', fin) ->
    exists sched', run None (role_level d' r) (role_mem d r, view (map (at_ref r) fin) ops ts) sched' = Val (role_mem d' r, view (map (at_ref r) fin) ops fin).
  Proof.
    induction sched as [|[i ch] sched IH]; intros d ts d' fin HI Hr.
    - injection Hr as <- <-. now exists [].
    - cbn [drun fst snd] in Hr. destruct (nth_error ts i) as [t|] eqn:E; [|now apply (IH d ts)].
      destruct (dstep ch d t) as [[d1 t1]|] eqn:Es; cbn [obind] in Hr; [|discriminate].
      assert (HI1 : PI level d0 ops d1 (upd_at ts i (fun _ => t1))) by (eapply pi_step; eauto).
      destruct (IH _ _ _ _ HI1 Hr) as [sched' Hs].
      destruct (nth_error ops i) as [c|] eqn:Hc.
      2:{ apply nth_error_None in Hc. rewrite <- (pi_len _ _ _ _ _ HI) in Hc. apply nth_error_None in Hc. congruence. }
      destruct (at_ref r t) eqn:Ar.
      + destruct t as [| |r' p]; try discriminate. cbn in Ar. apply Nat.eqb_eq in Ar. subst r'.
        assert (Hm : nth_error (map (at_ref r) fin) i = Some true).
        { destruct (dstep_runs _ _ _ _ _ _ Es) as [p1 ->]. destruct (drun_runs _ _ _ _ _ i r p1 Hr) as [p2 H2]; [now rewrite (nth_upd_same _ _ _ _ E)|].
          rewrite nth_error_map, H2. cbn. now rewrite Nat.eqb_refl. }
        pose proof (pi_bound _ _ _ _ _ _ HI Hc E) as Hb.
        destruct (view_in _ _ _ _ _ _ Hm Hc E) as [V1 V2]. cbn [pcof] in V1.
        exists ((ones (firstn i (map (at_ref r) fin)), ch) :: sched'). cbn [run fst snd]. rewrite V1.
        pose proof (dstep_level _ _ _ _ _ Es) as [L1 L2]. pose proof (drun_level _ _ _ _ _ Hr) as [L3 L4]. rewrite (L4 r) by lia. rewrite L2 by exact Hb.
        rewrite (L4 r) in Hs by lia. rewrite L2 in Hs by exact Hb.
        cbn [dstep] in Es. destruct (tstep None (role_level d r) ch (role_mem d r) p) as [[m p']|]; cbn [obind] in Es |- *; [|discriminate]. injection Es as <- <-.
        rewrite V2 in Hs. cbn [pcof] in Hs.
        assert (Em : role_mem (mkDMem (d_doms d) (upd_at (d_roles d) r (fun lm => (fst lm, m)))) r = m).
        { unfold role_mem. cbn [d_roles]. rewrite nth_upd, Nat.eqb_refl. destruct (nth_error (d_roles d) r) eqn:En; [reflexivity|]. apply nth_error_None in En. lia. }
        rewrite Em in Hs. exact Hs.
      + rewrite (dstep_other _ _ _ _ _ _ Es Ar) in Hs. exists sched'. rewrite <- Hs. do 2 f_equal.
        destruct t as [o x rest|o x rest|r' p]; [| |].
        * symmetry. apply (view_same _ _ _ _ _ _ _ Hc E). destruct (pi_T _ _ _ _ _ HI _ _ _ Hc E) as [-> _]. cbn [dstep] in Es. cbn [pcof].
          destruct (mget _ (dom_map d x)) as [v|], rest as [|k rest]; try (injection Es as _ <-; reflexivity); destruct (stores (fst c)); injection Es as _ <-; reflexivity.
        * symmetry. apply (view_same _ _ _ _ _ _ _ Hc E). destruct (pi_T _ _ _ _ _ HI _ _ _ Hc E) as [-> _]. cbn [dstep] in Es. cbn [pcof].
          destruct rest as [|k rest]; injection Es as _ <-; reflexivity.
        * symmetry. apply view_out. destruct (dstep_runs _ _ _ _ _ _ Es) as [p1 ->]. destruct (drun_runs _ _ _ _ _ i r' p1 Hr) as [p2 H2]; [now rewrite (nth_upd_same _ _ _ _ E)|].
          rewrite nth_error_map, H2. exact (f_equal Some Ar).
  Qed.
  Lemma sim_phase r sched d' ts ys : wf level d0 -> drun (d0, map dstart ops) sched = Val (d', ts) -> dfinished ts ys ->
    exists sched', phase_runs None (role_level d' r) (role_mem d0 r) (map fst (pick (map (at_ref r) ts) ops)) sched' (role_mem d' r) (pick (map (at_ref r) ts) ys).
  Proof.
    intros W Hr Hf. pose proof (pi_start level d0 ops W) as HI. destruct (sim r _ _ _ _ _ HI Hr) as [sched' Hs]. exists sched'.
    eapply pi_run in HI; eauto. rewrite view_start in Hs. eexists. split; [exact Hs|]. red. apply view_done; [exact Hf|]. symmetry. exact (pi_len _ _ _ _ _ HI).
  Qed.
End Sim.

(** ** Selections of the calls of a phase *)
Lemma pick_embeds {A} (mask : list bool) : forall (maskd : list bool) (l : list A),
  (forall i, nth_error mask i = Some true -> nth_error maskd i = Some true) ->
  exists f, (forall i o, nth_error (pick mask l) i = Some o -> nth_error (pick maskd l) (f i) = Some o) /\
    (forall i j, f i = f j -> i = j) /\
    forall j, nth_error mask j = Some true -> f (ones (firstn j mask)) = ones (firstn j maskd).
Proof.
  induction mask as [|b mask IH]; intros maskd l H.
  - exists (fun i => i). cbn. split; [intros [|i] o; discriminate|]. split; [auto|]. intros [|j]; discriminate.
  - destruct maskd as [|b' maskd].
    + exists (fun i => i). split; [|split; [auto|]].
      * assert (E : forall (m : list bool) (l' : list A), (forall i, nth_error m i <> Some true) -> pick m l' = []).
        { clear. induction m as [|b m IH]; intros [|x l'] H; cbn; try reflexivity. destruct b; [now specialize (H 0)|]. apply IH. intros i. exact (H (S i)). }
        rewrite E; [intros [|i] o; discriminate|]. intros i Hi. apply H in Hi. destruct i; discriminate.
      * intros j Hj. apply H in Hj. destruct j; discriminate.
    + destruct l as [|x l].
      * destruct (IH maskd (@nil A) (fun i => H (S i))) as [f [_ [F2 F3]]]. cbn [pick].
        destruct b.
        -- pose proof (H 0 eq_refl) as E. injection E as ->. exists (fun i => match i with 0 => 0 | S i => S (f i) end).
           split; [intros [|i] o; discriminate|]. split; [intros [|i] [|j] E; try discriminate; try reflexivity; injection E as E; f_equal; now apply F2|].
           intros [|j] Hj; cbn; [reflexivity|]. f_equal. now apply F3.
        -- destruct b'.
           ++ exists (fun i => S (f i)). split; [intros [|i] o; discriminate|]. split; [intros i j E; injection E as E; now apply F2|].
              intros [|j] Hj; cbn in *; [discriminate|]. f_equal. now apply F3.
           ++ exists f. split; [intros [|i] o; discriminate|]. split; [exact F2|]. intros [|j] Hj; cbn in *; [discriminate|now apply F3].
      * destruct (IH maskd l (fun i => H (S i))) as [f [F1 [F2 F3]]]. destruct b.
        -- pose proof (H 0 eq_refl) as E. injection E as ->. exists (fun i => match i with 0 => 0 | S i => S (f i) end).
           split; [intros [|i] o; cbn; auto|]. split; [intros [|i] [|j] E; try discriminate; try reflexivity; injection E as E; f_equal; now apply F2|].
           intros [|j] Hj; cbn; [reflexivity|]. f_equal. now apply F3.
        -- destruct b'.
           ++ exists (fun i => S (f i)). split; [intros i o; cbn; auto|]. split; [intros i j E; injection E as E; now apply F2|].
              intros [|j] Hj; cbn in *; [discriminate|]. f_equal. now apply F3.
           ++ exists f. split; [exact F1|]. split; [exact F2|]. intros [|j] Hj; cbn in *; [discriminate|now apply F3].
Qed.
Lemma in_pick {A} (mask : list bool) : forall (l : list A) x, In x (pick mask l) <-> exists i, nth_error mask i = Some true /\ nth_error l i = Some x.
Proof.
  induction mask as [|b mask IH]; intros [|y l] x; cbn [pick].
  - split; [intros []|intros [[|i] [H _]]; discriminate].
  - split; [intros []|intros [[|i] [H _]]; discriminate].
  - split; [intros []|intros [[|i] [_ H]]; discriminate].
  - assert (E : In x (pick mask l) <-> exists i, nth_error (b :: mask) (S i) = Some true /\ nth_error (y :: l) (S i) = Some x) by apply IH. destruct b.
    + cbn [In]. rewrite E. split.
      * intros [->|[i H]]; [exists 0; auto|exists (S i); auto].
      * intros [[|i] [H1 H2]]; [left; cbn in H2; congruence|right; eauto].
    + rewrite E. split; [intros [i H]; exists (S i); auto|intros [[|i] [H1 H2]]; [discriminate|eauto]].
Qed.
Lemma pick_nth {A} (mask : list bool) : forall (l : list A) j, nth_error mask j = Some true -> nth_error (pick mask l) (ones (firstn j mask)) = nth_error l j.
Proof.
  induction mask as [|b mask IH]; intros [|y l] [|j] H; cbn in *; try discriminate; try reflexivity.
  - now destruct (ones (firstn j mask)), b.
  - now injection H as ->.
  - rewrite <- (IH l j H). now destruct b.
Qed.
Definition dmask (ds : list string) (ops : list dcall) : list bool := map (fun c : dcall => same_domain (snd c) ds) ops.
Lemma same_domain_true ds es : same_domain ds es = true <-> ds = es.
Proof. unfold same_domain. destruct (list_eq_dec string_dec ds es); split; congruence. Qed.
Lemma in_domain_pick ds ops : in_domain ds ops = map fst (pick (dmask ds ops) ops).
Proof. unfold in_domain, dmask. induction ops as [|c ops IH]; cbn; [reflexivity|]. destruct (same_domain (snd c) ds); cbn; congruence. Qed.
Lemma in_domain_count ds : forall ops j, List.length (in_domain ds (firstn j ops)) = ones (firstn j (dmask ds ops)).
Proof.
  unfold in_domain, dmask. induction ops as [|c ops IH]; intros [|j]; cbn; try reflexivity. rewrite <- IH. now destruct (same_domain (snd c) ds).
Qed.
Lemma dmask_nth ds ops i c : nth_error ops i = Some c -> (nth_error (dmask ds ops) i = Some true <-> snd c = ds).
Proof. intros H. unfold dmask. rewrite nth_error_map, H. cbn. rewrite <- same_domain_true. split; [now intros [= ->]|now intros ->]. Qed.

(** Answers that fit a selection of the calls fit them all. *)
Section Lift.
  Variables (A C : list rop) (f : nat -> nat).
  Hypothesis F1 : forall i o, nth_error A i = Some o -> nth_error C (f i) = Some o.
  Hypothesis F2 : forall i j, f i = f j -> i = j.
  Lemma sub_in o : In o A -> In o C.
  Proof. intros H. apply In_nth_error in H as [i H]. eapply nth_error_In. eauto. Qed.
  Lemma sub_exists g : existsb g A = true -> existsb g C = true.
  Proof. intros H. apply existsb_exists in H as [o [H1 H2]]. apply existsb_exists. exists o. split; [now apply sub_in|exact H2]. Qed.
  Lemma sub_tidy K : tidy K C -> tidy K A.
  Proof.
    intros [H1 H2]. split.
    - intros a b Ha. destruct (dels A a b) eqn:E; [|reflexivity]. apply sub_exists in Ha, E. apply H1 in Ha. unfold dels in *. congruence.
    - intros n Hn. destruct (H2 n Hn) as [X|X]; [left|right].
      + intros o Ho. apply X. now apply sub_in.
      + intros i j oi oj Hi Hj Mi Mj. apply F2. eapply X; eauto.
  Qed.
  Lemma sub_inherits level L1 L2 a b : (forall x y, L1 x y = true -> L2 x y = true) -> inherits level L1 a b -> inherits level L2 a b.
  Proof.
    intros H [->|[n [Hn Hc]]]; [now left|right]. exists n. split; [exact Hn|]. clear Hn. revert a Hc. induction n as [|n IH]; intros a Hc; inversion Hc; subst; econstructor; eauto.
    unfold edge in *. auto.
  Qed.
  Lemma sub_fits level L i y : answer_fits level L A i y -> answer_fits level L C (f i) y.
  Proof.
    assert (Tt : forall a b, throughout L C a b = true -> throughout L A a b = true).
    { intros a b H. apply andb_true_iff in H as [H1 H2]. apply andb_true_iff. split; [exact H1|]. destruct (dels A a b) eqn:E; [|reflexivity]. apply sub_exists in E. unfold dels in H2. now rewrite E in H2. }
    assert (St : forall a b, sometime L A a b = true -> sometime L C a b = true).
    { intros a b H. apply orb_true_iff in H as [H|H]; apply orb_true_iff; [now left|right]. now apply sub_exists. }
    unfold answer_fits. destruct (nth_error A i) as [o|] eqn:E; [|now intros []]. rewrite (F1 _ _ E). destruct o as [a b|a b|a b|a|a], y as [x|l]; try (now intros []).
    - intros [H1 H2]. split; [exact H1|]. intros U. apply H2. intros j Hj. apply F2. apply U. now apply F1.
    - intros [H1 H2]. split; [exact H1|]. intros U. apply H2. intros j Hj. apply F2. apply U. now apply F1.
    - intros [H1 H2]. split.
      + intros H. apply H1. eapply sub_inherits; [exact Tt|exact H].
      + intros H. eapply sub_inherits; [exact St|]. auto.
    - intros [H1 H2]. split; [exact H1|]. intros b. destruct (H2 b) as [H3 H4]. split; auto.
    - intros [H1 H2]. split; [exact H1|]. intros b. destruct (H2 b) as [H3 H4]. split; auto.
  Qed.
End Lift.

(** ** Phases *)
Record good (level : nat) (h : list (list dcall)) (d : dmem) : Prop := mkGood {
  q_wf : wf level d;
  q_plain : forall ops, In ops h -> plain_names ops;
  q_open : forall ds, updates_in h ds -> exists r, at_role d ds = Some r;
  q_rep : forall ds r, plain ds -> at_role d ds = Some r ->
    represents (role_mem d r) (links_after (map (in_domain ds) h)) (known_after (map (in_domain ds) h))
}.
Lemma unreserved_plain ds : unreserved ds -> plain ds.
Proof. unfold unreserved, plain. rewrite Forall_forall. intros H Hi. apply (H _ Hi). unfold reserved. auto. Qed.
Lemma in_domain_in ds ops o : In o (in_domain ds ops) <-> In (o, ds) ops.
Proof.
  unfold in_domain. rewrite in_map_iff. split.
  - intros [[o' ds'] [E H]]. cbn in E. subst o'. apply filter_In in H as [H1 H2]. apply same_domain_true in H2. cbn in H2. now subst.
  - intros H. exists (o, ds). split; [reflexivity|]. apply filter_In. split; [exact H|]. now apply same_domain_true.
Qed.
Lemma no_updates h ds : ~ updates_in h ds -> (forall a b, links_after (map (in_domain ds) h) a b = false) /\ forall n, known_after (map (in_domain ds) h) n = false.
Proof.
  induction h as [|ops h IH] using rev_ind; intros H; [split; reflexivity|].
  destruct IH as [IH1 IH2]; [intros [ops' [o [H1 H2]]]; apply H; exists ops', o; split; [apply in_or_app; now left|exact H2]|].
  assert (U : forall o, In o (in_domain ds ops) -> updates o = false).
  { intros o Ho. apply in_domain_in in Ho. destruct (updates o) eqn:E; [|reflexivity]. exfalso. apply H. exists ops, o. split; [apply in_or_app; right; now left|auto]. }
  rewrite map_app. cbn [map]. split.
  - intros a b. rewrite links_snoc. unfold phase_links. rewrite IH1. cbn [orb]. destruct (adds (in_domain ds ops) a b) eqn:E; [|reflexivity].
    apply adds_in in E. apply U in E. discriminate.
  - intros n. rewrite known_snoc, IH2. cbn [orb]. destruct (updated (in_domain ds ops) n) eqn:E; [|reflexivity].
    apply existsb_exists in E as [o [E1 E2]]. apply andb_true_iff in E2 as [E2 _]. apply U in E1. congruence.
Qed.
Lemma good0 level : good level [] (dmem0 level).
Proof.
  constructor; [apply wf0|intros ops []|intros ds [ops [o [[] _]]]|].
  intros ds r Hp H. apply (w_role _ _ (wf0 level)) in H; [|exact Hp]. cbn in H. lia.
Qed.
Lemma good_start level h d ds r : good level h d -> plain ds -> at_role d ds = Some r \/ (at_role d ds = None /\ List.length (d_roles d) <= r) ->
  represents (role_mem d r) (links_after (map (in_domain ds) h)) (known_after (map (in_domain ds) h)).
Proof.
  intros Q Hp [H|[H Hr]]; [now apply (q_rep _ _ _ Q)|]. destruct (no_updates h ds) as [N1 N2]; [intros U; apply (q_open _ _ _ Q) in U as [r' E]; congruence|].
  unfold role_mem. rewrite (proj2 (nth_error_None _ _) Hr). eapply rep_ext; [exact rep_mem0|intros a b; now rewrite N1|intros n; now rewrite N2].
Qed.

Lemma phase_good level h d ops sched d' ys :
  good level h d -> plain_names ops -> one_opens h ops -> (forall ds, tidy (known_after (map (in_domain ds) h)) (in_domain ds ops)) ->
  dphase_runs d ops sched d' ys ->
  good level (h ++ [ops]) d' /\ List.length ys = List.length ops /\ forall j y, nth_error ys j = Some y -> domain_answer level h ops j y.
Proof.
  intros Q HP HO HT [ts [Hr Hf]]. pose proof (q_wf _ _ _ Q) as W.
  assert (Pl : forall c, In c ops -> plain (snd c)) by (intros [o ds] Hc; apply unreserved_plain; exact (HP _ _ Hc)).
  assert (HI : PI level d ops d' ts) by (eapply pi_run; [exact Pl|exact HO|exact (q_open _ _ _ Q)|apply pi_start; exact W|exact Hr]).
  pose proof (pi_wf _ _ _ _ _ HI) as W'. pose proof (pi_grow _ _ _ _ _ HI) as G.
  assert (Lt : List.length ts = List.length ys) by (clear -Hf; induction Hf; cbn; congruence).
  assert (Len : List.length ys = List.length ops) by (rewrite <- Lt; exact (pi_len _ _ _ _ _ HI)).
  assert (Fin : forall j y, nth_error ys j = Some y -> exists c r, nth_error ops j = Some c /\ nth_error ts j = Some (QRun r (PDone y))).
  { intros j y Hy. destruct (nth_error ops j) as [c|] eqn:Hc; [|apply nth_error_None in Hc; rewrite <- Len in Hc; apply nth_error_None in Hc; congruence].
    exists c. revert Hy. clear -Hf. intros Hy. revert j Hy. induction Hf as [|t y' ts ys [r ->] H IH]; intros [|j] Hy; cbn in *; try discriminate.
    - injection Hy as ->. eauto.
    - destruct (IH _ Hy) as [r' [_ E]]. eauto. }
  assert (FinC : forall j c, nth_error ops j = Some c -> exists r y, nth_error ts j = Some (QRun r (PDone y))).
  { intros j c Hc. destruct (nth_error ys j) as [y|] eqn:Hy; [|apply nth_error_None in Hy; rewrite Len in Hy; apply nth_error_None in Hy; congruence].
    destruct (Fin _ _ Hy) as [_ [r [_ E]]]. eauto. }
  assert (Before : forall ds r, plain ds -> at_role d' ds = Some r -> at_role d ds = Some r \/ (at_role d ds = None /\ List.length (d_roles d) <= r)).
  { intros ds r Hp H. destruct (g_new _ _ G _ _ Hp H) as [X|X]; [now left|]. destruct (at_role d ds) as [r'|] eqn:E; [|now right]. left.
    apply (g_role _ _ G) in E; [congruence|exact Hp]. }
  (* the calls on role manager r are calls of domain ds *)
  assert (Run : forall ds r, plain ds -> (at_role d ds = Some r \/ (at_role d ds = None /\ List.length (d_roles d) <= r)) ->
     (forall i, nth_error (map (at_ref r) ts) i = Some true -> nth_error (dmask ds ops) i = Some true) ->
     represents (role_mem d' r) (phase_links (links_after (map (in_domain ds) h)) (map fst (pick (map (at_ref r) ts) ops)))
        (real (known_after (map (in_domain ds) h)) (map fst (pick (map (at_ref r) ts) ops))) /\
     forall j y, nth_error ys j = Some y -> nth_error (map (at_ref r) ts) j = Some true ->
       answer_fits (role_level d' r) (links_after (map (in_domain ds) h)) (in_domain ds ops) (List.length (in_domain ds (firstn j ops))) y).
  { intros ds r Hp Hb Hsub. destruct (sim_phase level h d ops Pl HO (q_open _ _ _ Q) r sched d' ts ys W Hr Hf) as [sched' Hs].
    destruct (pick_embeds _ _ ops Hsub) as [f [F1 [F2 F3]]].
    assert (F1' : forall i o, nth_error (map fst (pick (map (at_ref r) ts) ops)) i = Some o -> nth_error (in_domain ds ops) (f i) = Some o).
    { intros i o Hi. rewrite nth_error_map in Hi. rewrite in_domain_pick, nth_error_map.
      match type of Hi with option_map _ ?e = _ => destruct e as [c|] eqn:E end; [|discriminate Hi]. injection Hi as <-. exact (f_equal (option_map fst) (F1 _ _ E)). }
    destruct (phase_ok _ _ _ _ _ _ _ _ (good_start _ _ _ _ _ Q Hp Hb) (sub_tidy _ _ f F1' F2 _ (HT ds)) Hs) as [R [_ An]]. split; [exact R|].
    intros j y Hy Hm. rewrite in_domain_count, <- (F3 _ Hm). apply (sub_fits _ _ f F1' F2). apply An. now rewrite pick_nth. }
  assert (At : forall r i, nth_error (map (at_ref r) ts) i = Some true -> exists p, nth_error ts i = Some (QRun r p)).
  { intros r i H. rewrite nth_error_map in H. destruct (nth_error ts i) as [[| |r' p]|]; try discriminate. cbn in H. injection H as H. apply Nat.eqb_eq in H. subst. eauto. }
  assert (OpsAt : forall i t, nth_error ts i = Some t -> exists c, nth_error ops i = Some c).
  { intros i t Hi. destruct (nth_error ops i) as [c|] eqn:Hc; [eauto|]. apply nth_error_None in Hc. rewrite <- (pi_len _ _ _ _ _ HI) in Hc. apply nth_error_None in Hc. congruence. }
  split; [|split; [exact Len|]].
  - constructor.
    + exact W'.
    + intros o Ho. apply in_app_or in Ho as [Ho|[<-|[]]]; [now apply (q_plain _ _ _ Q)|exact HP].
    + intros ds [o [op [H1 [H2 H3]]]]. apply in_app_or in H1 as [H1|[<-|[]]].
      * assert (Hp : plain ds) by (apply unreserved_plain; exact (q_plain _ _ _ Q _ H1 _ _ H2)).
        destruct (q_open _ _ _ Q ds) as [r E]; [exists o, op; auto|]. apply (g_role _ _ G) in E; eauto.
      * apply In_nth_error in H2 as [i Hi]. destruct (FinC _ _ Hi) as [r [y Ht]]. destruct (pi_T _ _ _ _ _ HI _ _ _ Hi Ht) as [E|[E _]]; [eauto|cbn in E; congruence].
    + intros ds r Hp E. destruct (Run ds r Hp (Before _ _ Hp E)) as [R _].
      { intros i Hi. destruct (At _ _ Hi) as [p Ht]. destruct (OpsAt _ _ Ht) as [c Hc]. apply (dmask_nth ds ops i c Hc).
        destruct (pi_T _ _ _ _ _ HI _ _ _ Hc Ht) as [E'|[_ [_ [_ [_ [_ E']]]]]]; [|exfalso; now apply (E' ds Hp)].
        apply (w_rinj _ _ W' _ _ r); auto. apply Pl. eapply nth_error_In; eauto. }
      assert (Ex : forall g : rop -> bool, (forall o, g o = true -> updates o = true) -> existsb g (map fst (pick (map (at_ref r) ts) ops)) = existsb g (in_domain ds ops)).
      { intros g Hg. apply eq_true_iff_eq. rewrite !existsb_exists. split; intros [o [Ho Hgo]]; exists o; (split; [|exact Hgo]).
        - apply in_map_iff in Ho as [[o' ds'] [Eo Ho]]. cbn in Eo. subst o'. apply in_pick in Ho as [i [Hi Hc]]. destruct (At _ _ Hi) as [p Ht].
          destruct (pi_T _ _ _ _ _ HI _ _ _ Hc Ht) as [E'|[_ [_ [_ [_ [_ E']]]]]]; [|exfalso; now apply (E' ds Hp)]. cbn in E'.
          assert (ds' = ds) by (apply (w_rinj _ _ W' _ _ r); auto; exact (Pl _ (nth_error_In _ _ Hc))). subst ds'. apply in_domain_in. eapply nth_error_In; eauto.
        - apply in_domain_in in Ho. apply In_nth_error in Ho as [i Hc]. apply in_map_iff. exists (o, ds). split; [reflexivity|]. apply in_pick. exists i. split; [|exact Hc].
          destruct (FinC _ _ Hc) as [r' [y Ht]]. destruct (pi_T _ _ _ _ _ HI _ _ _ Hc Ht) as [E'|[E' _]]; [|cbn in E'; rewrite Hg in E' by exact Hgo; discriminate].
          cbn in E'. assert (r' = r) by congruence. subst r'. rewrite nth_error_map, Ht. cbn. now rewrite Nat.eqb_refl. }
      eapply rep_ext; [exact R| |].
      * intros a b. rewrite map_app. cbn [map]. rewrite links_snoc. unfold phase_links, adds, dels. rewrite !Ex; [reflexivity|intros []; discriminate || reflexivity..].
      * intros n. rewrite map_app. cbn [map]. rewrite known_snoc. unfold real, updated. rewrite Ex; [reflexivity|]. intros o Ho. now apply andb_true_iff in Ho.
  - intros j y Hy. destruct (Fin _ _ Hy) as [[o ds] [r [Hc Ht]]]. unfold domain_answer. rewrite Hc.
    assert (Hp : plain ds) by (exact (Pl _ (nth_error_In _ _ Hc))).
    assert (Hm : nth_error (map (at_ref r) ts) j = Some true) by (rewrite nth_error_map, Ht; cbn; now rewrite Nat.eqb_refl).
    pose proof (pi_T _ _ _ _ _ HI _ _ _ Hc Ht) as Tj. cbn in Tj.
    assert (Hl : role_level d' r = level - S (List.length ds)).
    { destruct Tj as [E|[_ [_ [_ [_ [E _]]]]]]; [|exact E]. exact (proj2 (w_role _ _ W' _ _ Hp E)). }
    rewrite <- Hl. apply (Run ds r Hp); [| |exact Hy|exact Hm].
    + destruct Tj as [E|[_ [E [E' _]]]]; [now apply Before|now right].
    + intros i Hi. destruct (At _ _ Hi) as [p Hti]. destruct (OpsAt _ _ Hti) as [c Hci]. apply (dmask_nth ds ops i c Hci).
      destruct (Nat.eq_dec i j) as [->|N]; [assert (c = (o, ds)) by congruence; now subst c|].
      pose proof (pi_priv _ _ _ _ _ HI _ _ _ _ _ _ N Hti Ht Hci) as E1. pose proof (pi_priv _ _ _ _ _ HI j i _ _ _ _ (not_eq_sym N) Ht Hti Hc) as E2. cbn in E2.
      apply (w_rinj _ _ W' _ _ r); auto. exact (Pl _ (nth_error_In _ _ Hci)).
Qed.
