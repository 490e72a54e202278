(** Lemmas about the role manager: the state behind a history, and the
    transparency of its match cache. *)
From Verif Require Import GoBase GoBaseP PolicyM CacheM CacheSpec PathM RbacM RbacSpec.
From Verif Require CacheP.

(** ** Views of the role map *)
Definition rl all a := r_roles (role_of all a).
Definition us all a := r_users (role_of all a).
Definition mt all a := r_matched (role_of all a).
Definition mb all a := r_matchedBy (role_of all a).
Definition rd all a := r_redundant (role_of all a).
Definition known (n : string) (all : smap role) := In n (mkeys all).

Lemma mhas_known n (all : smap role) : mhas n all = true <-> known n all.
Proof.
  unfold known. rewrite mhas_true. split.
  - intros [v Hv]. apply mget_In in Hv. apply in_map_iff. now exists (n, v).
  - intros H. destruct (mget n all) eqn:E; [eauto|]. now apply mget_None in E.
Qed.
Lemma mhas_unknown n (all : smap role) : mhas n all = false <-> ~ known n all.
Proof. rewrite <- mhas_known. destruct (mhas n all); intuition congruence. Qed.

Lemma role_of_unknown all n : ~ known n all -> role_of all n = newRole.
Proof. intros H. unfold role_of. now apply mget_None in H as ->. Qed.

Lemma mkeys_upd n f all : mkeys (upd_role n f all) = mkeys all.
Proof.
  unfold upd_role. destruct (mget n all) eqn:E; [|reflexivity].
  apply mkeys_put. apply mget_In in E. apply in_map_iff. now exists (n, r).
Qed.

Lemma role_of_upd n f all x : known n all ->
  role_of (upd_role n f all) x = if String.eqb x n then f (role_of all n) else role_of all x.
Proof.
  intros H. apply mhas_known in H. unfold upd_role, mhas, role_of in *.
  destruct (mget n all) eqn:E; [|discriminate]. rewrite mget_put.
  destruct (String.eqb_spec x n) as [->|]; reflexivity.
Qed.

Lemma known_upd n f all x : known x (upd_role n f all) <-> known x all.
Proof. unfold known. now rewrite mkeys_upd. Qed.

Lemma role_of_put n r all x : role_of (mput n r all) x = if String.eqb x n then r else role_of all x.
Proof. unfold role_of. rewrite mget_put. now destruct (String.eqb x n). Qed.

Lemma smap_ext {V} (a b : smap V) : NoDup (mkeys a) -> mkeys a = mkeys b ->
  (forall k, mget k a = mget k b) -> a = b.
Proof.
  revert b. induction a as [|[k v] a IH]; intros [|[k' v'] b] Hnd Hk Hg; try discriminate; [reflexivity|].
  cbn in Hk, Hnd. injection Hk as Hk0 Hk. subst k'. inversion Hnd as [|? ? Hni Hnd']; subst.
  assert (v = v').
  { specialize (Hg k). cbn in Hg. rewrite String.eqb_refl in Hg. now injection Hg. } subst v'.
  f_equal. apply IH; [exact Hnd'|exact Hk|]. intros x. specialize (Hg x). cbn in Hg.
  destruct (String.eqb_spec x k) as [Ex|]; [rewrite Ex|exact Hg].
  transitivity (@None V); [|symmetry]; apply mget_None; [exact Hni|]. unfold mkeys in *. now rewrite <- Hk.
Qed.

Lemma role_map_ext (a b : smap role) : NoDup (mkeys a) -> mkeys a = mkeys b ->
  (forall k, role_of a k = role_of b k) -> a = b.
Proof.
  intros Hnd Hk Hr. apply smap_ext; [exact Hnd|exact Hk|]. intros k. specialize (Hr k).
  destruct (in_dec string_dec k (mkeys a)) as [Hi|Hi].
  - assert (Hj : In k (mkeys b)) by now rewrite <- Hk.
    apply mhas_known in Hi, Hj. unfold mhas, role_of in *.
    destruct (mget k a), (mget k b); try discriminate. now subst.
  - assert (Hj : ~ In k (mkeys b)) by now rewrite <- Hk.
    apply mget_None in Hi as ->, Hj as ->. reflexivity.
Qed.

(** ** addMatch / removeMatch *)
Lemma keys_addMatch all a b : mkeys (addMatch all a b) = mkeys all.
Proof. unfold addMatch. now rewrite !mkeys_upd. Qed.
Lemma keys_removeMatch all a b : mkeys (removeMatch all a b) = mkeys all.
Proof. unfold removeMatch. now rewrite !mkeys_upd. Qed.

Lemma known_addMatch all a b n : known n (addMatch all a b) <-> known n all.
Proof. unfold known. now rewrite keys_addMatch. Qed.
Lemma known_removeMatch all a b n : known n (removeMatch all a b) <-> known n all.
Proof. unfold known. now rewrite keys_removeMatch. Qed.

Lemma views_addMatch all a b x : known a all -> known b all ->
  rl (addMatch all a b) x = rl all x /\ us (addMatch all a b) x = us all x /\
  rd (addMatch all a b) x = rd all x /\
  mt (addMatch all a b) x = (if String.eqb x a then sadd b (mt all a) else mt all x) /\
  mb (addMatch all a b) x = (if String.eqb x b then sadd a (mb all b) else mb all x).
Proof.
  intros Ha Hb. unfold addMatch, rl, us, rd, mt, mb.
  rewrite role_of_upd by now apply known_upd. rewrite !role_of_upd by exact Ha.
  destruct (String.eqb_spec x b), (String.eqb_spec x a), (String.eqb_spec b a); subst; cbn;
    auto 6; congruence.
Qed.

Lemma views_removeMatch all a b x : known a all -> known b all ->
  rl (removeMatch all a b) x = rl all x /\ us (removeMatch all a b) x = us all x /\
  rd (removeMatch all a b) x = rd all x /\
  mt (removeMatch all a b) x = (if String.eqb x a then srem b (mt all a) else mt all x) /\
  mb (removeMatch all a b) x = (if String.eqb x b then srem a (mb all b) else mb all x).
Proof.
  intros Ha Hb. unfold removeMatch, rl, us, rd, mt, mb.
  rewrite role_of_upd by now apply known_upd. rewrite !role_of_upd by exact Ha.
  destruct (String.eqb_spec x b), (String.eqb_spec x a), (String.eqb_spec b a); subst; cbn;
    auto 6; congruence.
Qed.

(** ** The structural invariant *)
Record core (all : smap role) (pats : list string) : Prop := mkCore {
  c_nodup : NoDup (mkeys all);
  c_sym : forall a b, In b (rl all a) <-> In a (us all b);
  c_msym : forall a b, In b (mt all a) <-> In a (mb all b);
  c_irr : forall a, ~ In a (mt all a);
  c_ndrl : forall a, NoDup (rl all a);
  c_ndus : forall a, NoDup (us all a);
  c_pats : forall p, In p pats -> known p all;
  c_ndpats : NoDup pats
}.

Lemma view_known_rl all a b : In b (rl all a) -> known a all.
Proof.
  intros H. destruct (in_dec string_dec a (mkeys all)) as [Hi|Hi]; [exact Hi|].
  unfold rl in H. now rewrite role_of_unknown in H.
Qed.
Lemma view_known_us all a b : In b (us all a) -> known a all.
Proof.
  intros H. destruct (in_dec string_dec a (mkeys all)) as [Hi|Hi]; [exact Hi|].
  unfold us in H. now rewrite role_of_unknown in H.
Qed.
Lemma view_known_mt all a b : In b (mt all a) -> known a all.
Proof.
  intros H. destruct (in_dec string_dec a (mkeys all)) as [Hi|Hi]; [exact Hi|].
  unfold mt in H. now rewrite role_of_unknown in H.
Qed.
Lemma view_known_mb all a b : In b (mb all a) -> known a all.
Proof.
  intros H. destruct (in_dec string_dec a (mkeys all)) as [Hi|Hi]; [exact Hi|].
  unfold mb in H. now rewrite role_of_unknown in H.
Qed.

Section Core.
  Context (all : smap role) (pats : list string) (C : core all pats).
  Lemma core_rl_known a b : In b (rl all a) -> known a all /\ known b all.
  Proof. intros H. split; [now apply view_known_rl in H|]. apply (c_sym _ _ C) in H. now apply view_known_us in H. Qed.
  Lemma core_mt_known a b : In b (mt all a) -> known a all /\ known b all.
  Proof. intros H. split; [now apply view_known_mt in H|]. apply (c_msym _ _ C) in H. now apply view_known_mb in H. Qed.
End Core.

Lemma core_nil : core [] [].
Proof.
  assert (E : forall n, role_of [] n = newRole) by reflexivity.
  constructor; unfold rl, us, mt, mb; intros; rewrite ?E; cbn; try tauto; constructor.
Qed.

(** Two role maps with the same views are equal. *)
Lemma role_eq r1 r2 : r_roles r1 = r_roles r2 -> r_users r1 = r_users r2 ->
  r_matched r1 = r_matched r2 -> r_matchedBy r1 = r_matchedBy r2 -> r_redundant r1 = r_redundant r2 -> r1 = r2.
Proof. destruct r1, r2; cbn; congruence. Qed.

(** ** Folding addMatch over a list *)
Lemma fold_match_from name l : forall all, known name all -> (forall x, In x l -> known x all) ->
  let all' := fold_left (fun a r => addMatch a name r) l all in
  mkeys all' = mkeys all /\
  (forall x, rl all' x = rl all x /\ us all' x = us all x /\ rd all' x = rd all x) /\
  (forall x, mt all' x = if String.eqb x name then fold_left (fun s y => sadd y s) l (mt all name) else mt all x) /\
  (forall x, mb all' x = if sin x l then sadd name (mb all x) else mb all x).
Proof.
  induction l as [|y l IH]; intros all Hn Hl; cbn [fold_left sin].
  - split; [reflexivity|]. split; [auto|]. split; [|reflexivity]. intros x.
    now destruct (String.eqb_spec x name) as [->|].
  - assert (Hy : known y all) by (apply Hl; now left).
    destruct (IH (addMatch all name y)) as [K [A [B D]]].
    { now apply known_addMatch. } { intros x Hx. apply known_addMatch, Hl. now right. }
    cbn in K, A, B, D |- *. split; [now rewrite K, keys_addMatch|].
    pose proof (fun x => views_addMatch all name y x Hn Hy) as V. split; [|split].
    + intros x. destruct (A x) as [-> [-> ->]]. destruct (V x) as [-> [-> [-> _]]]. auto.
    + intros x. rewrite B. destruct (V x) as [_ [_ [_ [-> _]]]]. destruct (V name) as [_ [_ [_ [-> _]]]].
      rewrite String.eqb_refl. now destruct (String.eqb_spec x name) as [->|].
    + intros x. rewrite D. destruct (V x) as [_ [_ [_ [_ ->]]]].
      destruct (String.eqb_spec x y) as [->|]; [|reflexivity].
      destruct (sin y l); [|reflexivity]. unfold sadd at 1. rewrite (proj2 (sin_In name _)); [reflexivity|].
      apply sadd_In. now left.
Qed.

Lemma fold_match_to name l : forall all, known name all -> (forall x, In x l -> known x all) ->
  let all' := fold_left (fun a r => addMatch a r name) l all in
  mkeys all' = mkeys all /\
  (forall x, rl all' x = rl all x /\ us all' x = us all x /\ rd all' x = rd all x) /\
  (forall x, mb all' x = if String.eqb x name then fold_left (fun s y => sadd y s) l (mb all name) else mb all x) /\
  (forall x, mt all' x = if sin x l then sadd name (mt all x) else mt all x).
Proof.
  induction l as [|y l IH]; intros all Hn Hl; cbn [fold_left sin].
  - split; [reflexivity|]. split; [auto|]. split; [|reflexivity]. intros x.
    now destruct (String.eqb_spec x name) as [->|].
  - assert (Hy : known y all) by (apply Hl; now left).
    destruct (IH (addMatch all y name)) as [K [A [B D]]].
    { now apply known_addMatch. } { intros x Hx. apply known_addMatch, Hl. now right. }
    cbn in K, A, B, D |- *. split; [now rewrite K, keys_addMatch|].
    pose proof (fun x => views_addMatch all y name x Hy Hn) as V. split; [|split].
    + intros x. destruct (A x) as [-> [-> ->]]. destruct (V x) as [-> [-> [-> _]]]. auto.
    + intros x. rewrite B. destruct (V x) as [_ [_ [_ [_ ->]]]]. destruct (V name) as [_ [_ [_ [_ ->]]]].
      rewrite String.eqb_refl. now destruct (String.eqb_spec x name) as [->|].
    + intros x. rewrite D. destruct (V x) as [_ [_ [_ [-> _]]]].
      destruct (String.eqb_spec x y) as [->|]; [|reflexivity].
      destruct (sin y l); [|reflexivity]. unfold sadd at 1. rewrite (proj2 (sin_In name _)); [reflexivity|].
      apply sadd_In. now left.
Qed.

Lemma fold_sadd_In (l s : list string) x : In x (fold_left (fun s y => sadd y s) l s) <-> In x s \/ In x l.
Proof.
  revert s. induction l as [|y l IH]; intros s; cbn; [tauto|]. rewrite IH, sadd_In. intuition.
Qed.
Lemma fold_sadd_NoDup (l s : list string) : NoDup s -> NoDup (fold_left (fun s y => sadd y s) l s).
Proof. revert s. induction l as [|y l IH]; intros s H; cbn; [exact H|]. now apply IH, NoDup_sadd. Qed.

Lemma srem_sadd x l : ~ In x l -> srem x (sadd x l) = l.
Proof.
  intros H. unfold sadd. rewrite (proj2 (sin_false x l) H), srem_app, (srem_notin _ _ H). cbn.
  now rewrite String.eqb_refl, app_nil_r.
Qed.

(** ** removeMatches *)
Lemma removeMatches_views all n :
  known n all -> (forall a b, In b (mt all a) <-> In a (mb all b)) -> ~ In n (mt all n) ->
  let all' := removeMatches all n in
  mkeys all' = mkeys all /\
  (forall x, rl all' x = rl all x /\ us all' x = us all x /\ rd all' x = rd all x) /\
  (forall x, x <> n -> mt all' x = srem n (mt all x) /\ mb all' x = srem n (mb all x)).
Proof.
  intros Hn Hsym Hirr. unfold removeMatches.
  (* first loop *)
  assert (F1 : forall l a0, known n a0 -> (forall x, In x l -> known x a0 /\ x <> n) ->
    let a' := fold_left (fun a x => removeMatch a n x) l a0 in
    mkeys a' = mkeys a0 /\
    (forall x, rl a' x = rl a0 x /\ us a' x = us a0 x /\ rd a' x = rd a0 x) /\
    (forall x, x <> n -> mt a' x = mt a0 x) /\
    (forall x, mb a' x = if sin x l then srem n (mb a0 x) else mb a0 x)).
  { induction l as [|y l IH]; intros a0 H0 Hl; cbn [fold_left sin]; [auto|].
    destruct (Hl y ltac:(now left)) as [Hy Hyn].
    destruct (IH (removeMatch a0 n y)) as [K [A [B D]]].
    { now apply known_removeMatch. }
    { intros x Hx. destruct (Hl x ltac:(now right)). split; [now apply known_removeMatch|assumption]. }
    cbn in K, A, B, D |- *. pose proof (fun x => views_removeMatch a0 n y x H0 Hy) as V.
    split; [now rewrite K, keys_removeMatch|]. split; [|split].
    - intros x. destruct (A x) as [-> [-> ->]]. destruct (V x) as [-> [-> [-> _]]]. auto.
    - intros x Hx. rewrite (B x Hx). destruct (V x) as [_ [_ [_ [-> _]]]].
      destruct (String.eqb_spec x n); [contradiction|reflexivity].
    - intros x. rewrite D. destruct (V x) as [_ [_ [_ [_ ->]]]].
      destruct (String.eqb_spec x y) as [->|]; [|reflexivity].
      destruct (sin y l); [|reflexivity]. apply srem_notin. rewrite srem_In. tauto. }
  assert (F2 : forall l a0, known n a0 -> (forall x, In x l -> known x a0 /\ x <> n) ->
    let a' := fold_left (fun a x => removeMatch a x n) l a0 in
    mkeys a' = mkeys a0 /\
    (forall x, rl a' x = rl a0 x /\ us a' x = us a0 x /\ rd a' x = rd a0 x) /\
    (forall x, x <> n -> mb a' x = mb a0 x) /\
    (forall x, mt a' x = if sin x l then srem n (mt a0 x) else mt a0 x)).
  { induction l as [|y l IH]; intros a0 H0 Hl; cbn [fold_left sin]; [auto|].
    destruct (Hl y ltac:(now left)) as [Hy Hyn].
    destruct (IH (removeMatch a0 y n)) as [K [A [B D]]].
    { now apply known_removeMatch. }
    { intros x Hx. destruct (Hl x ltac:(now right)). split; [now apply known_removeMatch|assumption]. }
    cbn in K, A, B, D |- *. pose proof (fun x => views_removeMatch a0 y n x Hy H0) as V.
    split; [now rewrite K, keys_removeMatch|]. split; [|split].
    - intros x. destruct (A x) as [-> [-> ->]]. destruct (V x) as [-> [-> [-> _]]]. auto.
    - intros x Hx. rewrite (B x Hx). destruct (V x) as [_ [_ [_ [_ ->]]]].
      destruct (String.eqb_spec x n); [contradiction|reflexivity].
    - intros x. rewrite D. destruct (V x) as [_ [_ [_ [-> _]]]].
      destruct (String.eqb_spec x y) as [->|]; [|reflexivity].
      destruct (sin y l); [|reflexivity]. apply srem_notin. rewrite srem_In. tauto. }
  assert (L1 : forall x, In x (mt all n) -> known x all /\ x <> n).
  { intros x Hx. split; [|intros ->; contradiction]. apply Hsym in Hx. now apply view_known_mb in Hx. }
  destruct (F1 (mt all n) all Hn L1) as [K1 [A1 [B1 D1]]]. fold (mt all n).
  set (a1 := fold_left (fun a x => removeMatch a n x) (mt all n) all) in *. fold (mb a1 n).
  assert (Emb : mb a1 n = mb all n).
  { rewrite D1. rewrite (proj2 (sin_false n _)); auto. }
  assert (L2 : forall x, In x (mb a1 n) -> known x a1 /\ x <> n).
  { rewrite Emb. intros x Hx. apply Hsym in Hx. split; [|intros ->; contradiction].
    unfold known. rewrite K1. now apply view_known_mt in Hx. }
  assert (Hn1 : known n a1) by (unfold known; now rewrite K1).
  destruct (F2 (mb a1 n) a1 Hn1 L2) as [K2 [A2 [B2 D2]]]. cbn in *.
  split; [congruence|]. split.
  - intros x. destruct (A2 x) as [-> [-> ->]]. apply A1.
  - intros x Hx. rewrite D2, (B2 x Hx), Emb, (B1 x Hx), D1. split.
    + destruct (sin x (mb all n)) eqn:E; [reflexivity|]. symmetry. apply srem_notin.
      apply sin_false in E. rewrite Hsym. exact E.
    + destruct (sin x (mt all n)) eqn:E; [reflexivity|]. symmetry. apply srem_notin.
      apply sin_false in E. rewrite <- Hsym. exact E.
Qed.

(** ** getRole without its cache *)
Definition pmatch (m : option imatcher) (s p : string) : bool :=
  match m with None => false | Some mm => Match mm s p end.
Definition is_pat (m : option imatcher) (s : string) : bool :=
  match m with None => false | Some mm => IsPattern mm s end.

Definition found_roles m pattern (names : list string) :=
  filter (fun x => negb (String.eqb pattern x) && pmatch m x pattern) names.
Definition found_pats m name (pats : list string) :=
  filter (fun p => negb (String.eqb p name) && pmatch m name p) pats.

Definition pget (ord : order) (m : option imatcher) (all : smap role) (pats : list string) (name : string)
    : smap role * list string :=
  if mhas name all then (all, pats)
  else
    let all1 := mput name newRole all in
    match m with
    | None => (all1, pats)
    | Some _ =>
        if is_pat m name then
          (fold_left (fun a r => addMatch a name r) (found_roles m name (ord (mkeys all1))) all1, sadd name pats)
        else
          (fold_left (fun a r => addMatch a r name) (found_pats m name (ord pats)) all1, pats)
    end.

(** What a new name changes: nothing but matches with the new name. *)
Record extends (m : option imatcher) (all : smap role) pats name (all' : smap role) pats' : Prop := mkExt {
  e_keys : mkeys all' = mkeys all ++ [name];
  e_core : core all' pats';
  e_rl : forall x, rl all' x = rl all x;
  e_us : forall x, us all' x = us all x;
  e_rd : forall x, rd all' x = rd all x;
  e_mt : forall x, x <> name -> srem name (mt all' x) = mt all x;
  e_mb : forall x, x <> name -> srem name (mb all' x) = mb all x;
  e_new : forall p x, In x (mt all' p) <->
            In x (mt all p) \/
            (p = name /\ p <> x /\ is_pat m p = true /\ known x all /\ pmatch m x p = true) \/
            (x = name /\ p <> x /\ is_pat m x = false /\ In p pats /\ pmatch m x p = true);
  e_pats : pats' = if is_pat m name then sadd name pats else pats
}.

Lemma known_put (all : smap role) n r x : known x (mput n r all) <-> x = n \/ known x all.
Proof. unfold known. apply In_mkeys_put. Qed.

Lemma pget_extends ord m all pats name :
  good_order ord -> core all pats -> ~ known name all ->
  extends m all pats name (fst (pget ord m all pats name)) (snd (pget ord m all pats name)).
Proof.
  intros Ho C Hu. unfold pget. rewrite (proj2 (mhas_unknown name all) Hu).
  set (all1 := mput name newRole all).
  assert (K1 : mkeys all1 = mkeys all ++ [name]).
  { unfold all1, mkeys. rewrite mput_new by exact Hu. now rewrite map_app. }
  assert (R1 : forall x, role_of all1 x = role_of all x).
  { intros x. unfold all1. rewrite role_of_put. destruct (String.eqb_spec x name) as [->|]; [|reflexivity].
    symmetry. now apply role_of_unknown. }
  assert (V1 : forall x, rl all1 x = rl all x /\ us all1 x = us all x /\ rd all1 x = rd all x /\
                         mt all1 x = mt all x /\ mb all1 x = mb all x).
  { intros x. unfold rl, us, rd, mt, mb. rewrite R1. auto 6. }
  assert (Hn1 : known name all1) by (apply known_put; now left).
  assert (Nmt : forall x, ~ In name (mt all x)).
  { intros x H. now destruct (core_mt_known _ _ C _ _ H). }
  assert (Nmb : forall x, ~ In name (mb all x)).
  { intros x H. apply (c_msym _ _ C) in H. apply view_known_mt in H. contradiction. }
  assert (Emt : mt all name = []) by (unfold mt; now rewrite role_of_unknown).
  assert (Emb : mb all name = []) by (unfold mb; now rewrite role_of_unknown).
  assert (Npat : ~ In name pats) by (intros H; apply (c_pats _ _ C) in H; contradiction).
  assert (Nd1 : NoDup (mkeys all1)) by (unfold all1; apply NoDup_mput, C).
  destruct m as [mm|].
  2:{ (* no matcher *)
    cbn. constructor; try (intros x; now apply V1); try exact K1.
    - constructor.
      + exact Nd1.
      + intros a b. destruct (V1 a) as [-> _], (V1 b) as [_ [-> _]]. apply C.
      + intros a b. destruct (V1 a) as [_ [_ [_ [-> _]]]], (V1 b) as [_ [_ [_ [_ ->]]]]. apply C.
      + intros a. destruct (V1 a) as [_ [_ [_ [-> _]]]]. apply C.
      + intros a. destruct (V1 a) as [-> _]. apply C.
      + intros a. destruct (V1 a) as [_ [-> _]]. apply C.
      + intros p Hp. apply known_put. right. now apply (c_pats _ _ C).
      + apply C.
    - intros x _. destruct (V1 x) as [_ [_ [_ [-> _]]]]. now apply srem_notin.
    - intros x _. destruct (V1 x) as [_ [_ [_ [_ ->]]]]. now apply srem_notin.
    - intros p x. destruct (V1 p) as [_ [_ [_ [-> _]]]]. cbn. intuition discriminate.
    - reflexivity. }
  destruct (is_pat (Some mm) name) eqn:Ep; cbn [fst snd].
  - (* a new pattern *)
    set (l := found_roles (Some mm) name (ord (mkeys all1))).
    assert (Hl : forall x, In x l <-> name <> x /\ known x all /\ Match mm x name = true).
    { intros x. unfold l, found_roles. rewrite filter_In. cbn.
      assert (Hio : In x (ord (mkeys all1)) <-> In x (mkeys all1)).
      { split; apply Permutation_in; [|symmetry]; apply Ho. }
      rewrite Hio, K1, in_app_iff, andb_true_iff, negb_true_iff, String.eqb_neq. cbn. unfold known. intuition. }
    destruct (fold_match_from name l all1 Hn1) as [K [A [B D]]].
    { intros x Hx. apply Hl in Hx. apply known_put. tauto. }
    cbn in K, A, B, D. set (all2 := fold_left (fun a r => addMatch a name r) l all1) in *.
    assert (B' : forall p x, In x (mt all2 p) <-> In x (mt all p) \/ (p = name /\ In x l)).
    { intros p x. rewrite B. destruct (V1 name) as [_ [_ [_ [-> _]]]]. destruct (V1 p) as [_ [_ [_ [-> _]]]].
      destruct (String.eqb_spec p name) as [->|]; [|intuition congruence]. rewrite fold_sadd_In. tauto. }
    assert (D' : forall p x, In p (mb all2 x) <-> In p (mb all x) \/ (p = name /\ In x l)).
    { intros p x. rewrite D. destruct (V1 x) as [_ [_ [_ [_ ->]]]]. rewrite <- sin_In with (l := l).
      destruct (sin x l); [rewrite sadd_In|]; intuition discriminate. }
    constructor; try (intros x; now rewrite ?(proj1 (A x)), ?(proj1 (proj2 (A x))), ?(proj2 (proj2 (A x))); apply V1).
    + now rewrite K.
    + constructor.
      * now rewrite K.
      * intros a b. rewrite (proj1 (A a)), (proj1 (proj2 (A b))).
        destruct (V1 a) as [-> _], (V1 b) as [_ [-> _]]. apply C.
      * intros a b. rewrite B', D'. rewrite (c_msym _ _ C a b). tauto.
      * intros a. rewrite B', Hl. intros [H|[-> H]]; [now apply (c_irr _ _ C) in H|tauto].
      * intros a. rewrite (proj1 (A a)). destruct (V1 a) as [-> _]. apply C.
      * intros a. rewrite (proj1 (proj2 (A a))). destruct (V1 a) as [_ [-> _]]. apply C.
      * intros p Hp. apply sadd_In in Hp. unfold known. rewrite K. destruct Hp as [->|Hp]; [exact Hn1|].
        apply known_put. right. now apply (c_pats _ _ C).
      * apply NoDup_sadd, C.
    + intros x Hx. rewrite B. destruct (String.eqb_spec x name); [contradiction|].
      destruct (V1 x) as [_ [_ [_ [-> _]]]]. now apply srem_notin.
    + intros x Hx. rewrite D. destruct (V1 x) as [_ [_ [_ [_ ->]]]].
      destruct (sin x l); [now apply srem_sadd|now apply srem_notin].
    + intros p x. rewrite B', Hl. split.
      * intros [H|[-> [H1 [H2 H3]]]]; [now left|]. right; left. cbn in *. tauto.
      * intros [H|[[-> [H1 [H2 [H3 H4]]]]|[-> [H1 [H2 [H3 H4]]]]]]; [now left|right; tauto|].
        cbn in *. congruence.
    + now rewrite Ep.
  - (* a new ordinary name *)
    set (l := found_pats (Some mm) name (ord pats)).
    assert (Hl : forall p, In p l <-> p <> name /\ In p pats /\ Match mm name p = true).
    { intros x. unfold l, found_pats. rewrite filter_In. cbn.
      assert (Hio : In x (ord pats) <-> In x pats).
      { split; apply Permutation_in; [|symmetry]; apply Ho. }
      rewrite Hio, andb_true_iff, negb_true_iff, String.eqb_neq. tauto. }
    destruct (fold_match_to name l all1 Hn1) as [K [A [B D]]].
    { intros x Hx. apply Hl in Hx. apply known_put. right. now apply (c_pats _ _ C). }
    cbn in K, A, B, D. set (all2 := fold_left (fun a r => addMatch a r name) l all1) in *.
    assert (B' : forall x p, In p (mb all2 x) <-> In p (mb all x) \/ (x = name /\ In p l)).
    { intros x p. rewrite B. destruct (V1 name) as [_ [_ [_ [_ ->]]]]. destruct (V1 x) as [_ [_ [_ [_ ->]]]].
      destruct (String.eqb_spec x name) as [->|]; [|intuition congruence]. rewrite fold_sadd_In. tauto. }
    assert (D' : forall x p, In x (mt all2 p) <-> In x (mt all p) \/ (x = name /\ In p l)).
    { intros x p. rewrite D. destruct (V1 p) as [_ [_ [_ [-> _]]]]. rewrite <- sin_In with (l := l).
      destruct (sin p l); [rewrite sadd_In|]; intuition discriminate. }
    constructor; try (intros x; now rewrite ?(proj1 (A x)), ?(proj1 (proj2 (A x))), ?(proj2 (proj2 (A x))); apply V1).
    + now rewrite K.
    + constructor.
      * now rewrite K.
      * intros a b. rewrite (proj1 (A a)), (proj1 (proj2 (A b))).
        destruct (V1 a) as [-> _], (V1 b) as [_ [-> _]]. apply C.
      * intros a b. rewrite D', B'. rewrite (c_msym _ _ C a b). tauto.
      * intros a. rewrite D', Hl. intros [H|[-> H]]; [now apply (c_irr _ _ C) in H|tauto].
      * intros a. rewrite (proj1 (A a)). destruct (V1 a) as [-> _]. apply C.
      * intros a. rewrite (proj1 (proj2 (A a))). destruct (V1 a) as [_ [-> _]]. apply C.
      * intros p Hp. unfold known. rewrite K. apply known_put. right. now apply (c_pats _ _ C).
      * apply C.
    + intros x Hx. rewrite D. destruct (V1 x) as [_ [_ [_ [-> _]]]].
      destruct (sin x l); [now apply srem_sadd|now apply srem_notin].
    + intros x Hx. rewrite B. destruct (String.eqb_spec x name); [contradiction|].
      destruct (V1 x) as [_ [_ [_ [_ ->]]]]. now apply srem_notin.
    + intros p x. rewrite D', Hl. split.
      * intros [H|[-> [H1 [H2 H3]]]]; [now left|]. right; right. cbn in *. auto.
      * intros [H|[[-> [H1 [H2 [H3 H4]]]]|[-> [H1 [H2 [H3 H4]]]]]]; [now left| |right; tauto].
        cbn in *. congruence.
    + now rewrite Ep.
Qed.

(** Removing a name that was just created restores the state exactly. *)
Lemma remove_extends m all pats name all' pats' level mm c :
  core all pats -> ~ known name all -> extends m all pats name all' pats' ->
  rm_removeRole (mkRM all' pats' level mm c) name = mkRM all pats level mm c.
Proof.
  intros C Hu E. pose proof (e_core _ _ _ _ _ _ E) as C'.
  assert (Hk : known name all').
  { unfold known. rewrite (e_keys _ _ _ _ _ _ E), in_app_iff. right. now left. }
  unfold rm_removeRole. cbn. rewrite (proj2 (mhas_known name all') Hk). cbn. unfold with_all, with_patterns. cbn.
  destruct (removeMatches_views all' name Hk (c_msym _ _ C') (c_irr _ _ C' _)) as [K [A B]]. cbn in K, A, B.
  f_equal.
  - apply role_map_ext.
    + apply NoDup_mdel. rewrite K. apply C'.
    + assert (H : forall m2 : smap role, mkeys (mdel name m2) = srem name (mkeys m2)).
      { induction m2 as [|[k v] m2 IH]; cbn; [reflexivity|]. destruct (String.eqb name k); [exact IH|].
        cbn. unfold mkeys in IH. now rewrite IH. }
      rewrite H, K, (e_keys _ _ _ _ _ _ E), srem_app, (srem_notin _ _ Hu). cbn.
      now rewrite String.eqb_refl, app_nil_r.
    + intros x. unfold role_of at 1. rewrite mget_del. destruct (String.eqb_spec x name) as [->|Hx].
      { symmetry. now apply role_of_unknown. }
      fold (role_of (removeMatches all' name) x). destruct (A x) as [H1 [H2 H3]]. destruct (B x Hx) as [H4 H5].
      unfold rl, us, rd, mt, mb in *.
      apply role_eq.
      * rewrite H1. apply E.
      * rewrite H2. apply E.
      * rewrite H4. now apply (e_mt _ _ _ _ _ _ E).
      * rewrite H5. now apply (e_mb _ _ _ _ _ _ E).
      * rewrite H3. apply E.
  - rewrite (e_pats _ _ _ _ _ _ E).
    assert (Npat : ~ In name pats) by (intros H; apply (c_pats _ _ C) in H; contradiction).
    destruct (is_pat m name); [now apply srem_sadd|now apply srem_notin].
Qed.
