(** Lemmas about the domain manager without domain matcher. *)
From Verif Require Import GoBase GoBaseP PolicyM CacheM CacheSpec PathM RbacM RbacSpec RbacP RbacP2 RbacP3 RbacP4 DomainM DomainSpec.

Lemma path_eqb_true p q : path_eqb p q = true <-> p = q.
Proof. unfold path_eqb. destruct (list_eq_dec string_dec p q); split; congruence. Qed.
Lemma path_eqb_refl p : path_eqb p p = true.
Proof. now apply path_eqb_true. Qed.
Lemma path_eqb_false p q : path_eqb p q = false <-> p <> q.
Proof. unfold path_eqb. destruct (list_eq_dec string_dec p q); split; congruence. Qed.

(** ** Where a domain list leads *)
Lemma place_unreserved ds : unreserved ds -> place ds = (ds, []).
Proof.
  induction 1 as [|d ds Hd Hds IH]; cbn; [reflexivity|]. unfold reserved in Hd.
  destruct (String.eqb_spec d REDUNDANT_ROLE); [tauto|]. destruct (String.eqb_spec d defaultDomain); [tauto|].
  now rewrite IH.
Qed.

(** ** The tree, flattened *)
Fixpoint lookup (p : list string) (x : irm) : option rolemgr :=
  match x with
  | IRole _ => None
  | IDom d =>
      match p with
      | [] => match mget defaultDomain (d_map d) with Some (IRole rm) => Some rm | _ => None end
      | k :: p' =>
          if String.eqb k defaultDomain then None
          else match mget k (d_map d) with Some x' => lookup p' x' | None => None end
      end
  end.

(** Without domain matcher. *)
Inductive tok (m : option imatcher) : irm -> Z -> Prop :=
| tok_dom d :
    d_matcher d = m -> d_dmatcher d = None ->
    (forall x, mget defaultDomain (d_map d) = Some x -> exists rm, x = IRole rm) ->
    (forall k x, k <> defaultDomain -> mget k (d_map d) = Some x -> tok m x (d_level d - 1)) ->
    tok m (IDom d) (d_level d).

Lemma tok_start level m : tok m (domains_with level m None) level.
Proof. apply (tok_dom m (mkDM [] [] level m None (NewLRUCache 100))); cbn; auto; discriminate. Qed.

(** The common shape of all calls. *)
Fixpoint i_at {A} (f : list string -> rolemgr -> outcome (rolemgr * A)) (store : bool) (n : nat) (x : irm)
    (ds : list string) : outcome (irm * A) :=
  match x with
  | IRole rm => let! (rm, a) := f ds rm in Val (IRole rm, a)
  | IDom d =>
      match n with
      | O => Panic
      | S n =>
          let (domain, sub) := getDomain ds in
          let (d, rm) := match mget domain (d_map d) with
                         | Some rm => (d, rm)
                         | None => let rm := new_manager d domain in
                                   (if store then d_with_map d (mput domain rm (d_map d)) else d, rm)
                         end in
          let! (rm, a) := i_at f store n rm sub in
          Val (IDom (put_back d domain rm), a)
      end
  end.

Definition notree (x : irm) : Prop := match x with IRole _ => True | IDom d => d_dmatcher d = None end.

Lemma getRM_none add ord d domain store : d_dmatcher d = None ->
  getRoleManager add ord d domain store =
  Val (match mget domain (d_map d) with
       | Some rm => (d, rm)
       | None => (if store then d_with_map d (mput domain (new_manager d domain) (d_map d)) else d, new_manager d domain)
       end).
Proof.
  intros H. unfold getRoleManager. destruct (mget domain (d_map d)); [reflexivity|].
  destruct store; cbn; now rewrite H.
Qed.

Definition tok' m (x : irm) (lv : Z) : Prop := (exists rm, x = IRole rm) \/ tok m x lv.

Lemma tok_child m d k x : tok m (IDom d) (d_level d) -> mget k (d_map d) = Some x -> tok' m x (d_level d - 1).
Proof.
  intros H E. inversion H as [d' H1 H2 H3 H4]; subst. destruct (string_dec k defaultDomain) as [->|Hk].
  - left. now apply H3. - right. now apply (H4 k).
Qed.
Lemma tok_new m d k : tok m (IDom d) (d_level d) -> tok' m (new_manager d k) (d_level d - 1).
Proof.
  intros H. inversion H as [d' H1 H2 H3 H4]; subst. unfold new_manager. destruct (String.eqb_spec k defaultDomain); cbn.
  - left. eauto.
  - right. rewrite H2. apply tok_start.
Qed.

Lemma AddLink_at m ord a b n : forall x lv ds, tok' m x lv ->
  i_AddLink n ord x a b ds = i_at (fun ds rm => rm_AddLink ord rm a b ds) true n x ds.
Proof.
  induction n as [|n IH]; intros x lv ds [[rm ->]|H]; try reflexivity.
  - inversion H as [d H1 H2 H3 H4]; subst. cbn [i_AddLink i_at]. destruct (getDomain ds) as [domain sub].
    rewrite getRM_none by exact H2. cbn [obind].
    assert (Hp : forall dd rm, d_dmatcher dd = None -> is_dpattern (put_back dd domain rm) domain = false).
    { intros dd rm Hdd. unfold is_dpattern, put_back. destruct (mhas domain (d_map dd)); cbn; now rewrite Hdd. }
    destruct (mget domain (d_map d)) as [x|] eqn:E.
    + rewrite (IH x (d_level d - 1)%Z) by (eapply tok_child; eassumption).
      destruct (i_at _ true n x sub) as [[x' r]|]; cbn [obind]; [|reflexivity]. now rewrite Hp.
    + rewrite (IH _ (d_level d - 1)%Z) by now apply tok_new.
      destruct (i_at _ true n (new_manager d domain) sub) as [[x' r]|]; cbn [obind]; [|reflexivity]. now rewrite Hp.
Qed.

Lemma DeleteLink_at m ord a b n : forall x lv ds, tok' m x lv ->
  i_DeleteLink n ord x a b ds = i_at (fun ds rm => rm_DeleteLink ord rm a b ds) true n x ds.
Proof.
  induction n as [|n IH]; intros x lv ds [[rm ->]|H]; try reflexivity.
  - inversion H as [d H1 H2 H3 H4]; subst. cbn [i_DeleteLink i_at]. destruct (getDomain ds) as [domain sub].
    rewrite getRM_none by exact H2. cbn [obind].
    assert (Hp : forall dd rm, d_dmatcher dd = None -> is_dpattern (put_back dd domain rm) domain = false).
    { intros dd rm Hdd. unfold is_dpattern, put_back. destruct (mhas domain (d_map dd)); cbn; now rewrite Hdd. }
    destruct (mget domain (d_map d)) as [x|] eqn:E.
    + rewrite (IH x (d_level d - 1)%Z) by (eapply tok_child; eassumption).
      destruct (i_at _ true n x sub) as [[x' r]|]; cbn [obind]; [|reflexivity]. now rewrite Hp.
    + rewrite (IH _ (d_level d - 1)%Z) by now apply tok_new.
      destruct (i_at _ true n (new_manager d domain) sub) as [[x' r]|]; cbn [obind]; [|reflexivity]. now rewrite Hp.
Qed.

Lemma query_at {A} (ask : rolemgr -> outcome (rolemgr * A)) m ord n : forall x lv ds, tok' m x lv ->
  i_query ask n ord x ds = i_at (fun _ rm => ask rm) false n x ds.
Proof.
  induction n as [|n IH]; intros x lv ds [[rm ->]|H]; try reflexivity.
  - inversion H as [d H1 H2 H3 H4]; subst. cbn [i_query i_at]. destruct (getDomain ds) as [domain sub].
    rewrite getRM_none by exact H2. cbn [obind].
    destruct (mget domain (d_map d)) as [x|] eqn:E.
    + rewrite (IH x (d_level d - 1)%Z) by (eapply tok_child; eassumption). reflexivity.
    + rewrite (IH _ (d_level d - 1)%Z) by now apply tok_new. reflexivity.
Qed.

(** The role manager a place starts with. *)
Definition fresh (m : option imatcher) (level : Z) (p : list string) : rolemgr :=
  newRoleManagerWithMatchingFunc (level - 1 - Z.of_nat (List.length p)) m.
Definition current m level p x : rolemgr := match lookup p x with Some rm => rm | None => fresh m level p end.

Lemma mhas_get {V} k (l : smap V) : mhas k l = match mget k l with Some _ => true | None => false end.
Proof. reflexivity. Qed.

Lemma lookup_put d k x p : lookup p (IDom (d_with_map d (mput k x (d_map d)))) =
  match p with
  | [] => if String.eqb k defaultDomain then (match x with IRole rm => Some rm | _ => None end) else lookup [] (IDom d)
  | k' :: p' => if String.eqb k' k then (if String.eqb k' defaultDomain then None else lookup p' x)
                else lookup p (IDom d)
  end.
Proof.
  destruct p as [|k' p']; cbn [lookup d_with_map d_map].
  - rewrite mget_put. rewrite String.eqb_sym. destruct (String.eqb k defaultDomain); reflexivity.
  - rewrite mget_put. destruct (String.eqb_spec k' k) as [->|]; [|reflexivity].
    destruct (String.eqb k defaultDomain); reflexivity.
Qed.

Definition is_some {A} (o : option A) : bool := match o with Some _ => true | None => false end.

Lemma getDomain_place ds :
  (getDomain ds = (defaultDomain, snd (place ds)) /\ fst (place ds) = []) \/
  (exists d rest, ds = d :: rest /\ d <> defaultDomain /\ getDomain ds = (d, rest) /\
     fst (place ds) = d :: fst (place rest) /\ snd (place ds) = snd (place rest)).
Proof.
  destruct ds as [|d rest]; cbn; [left; auto|].
  destruct (String.eqb_spec d REDUNDANT_ROLE); cbn; [left; auto|].
  destruct (String.eqb_spec d defaultDomain) as [->|]; cbn; [left; auto|].
  right. exists d, rest. auto.
Qed.

Lemma IRole_inj a b : IRole a = IRole b -> a = b.
Proof. now intros [= ->]. Qed.

Lemma tok_put m d k x : tok m (IDom d) (d_level d) ->
  (if String.eqb k defaultDomain then exists rm, x = IRole rm else tok m x (d_level d - 1)) ->
  tok m (IDom (d_with_map d (mput k x (d_map d)))) (d_level d).
Proof.
  intros H Hx. inversion H as [d' H1 H2 H3 H4]; subst.
  apply (tok_dom (d_matcher d) (d_with_map d (mput k x (d_map d)))); cbn; auto.
  - intros y. rewrite mget_put. rewrite String.eqb_sym. destruct (String.eqb k defaultDomain); [|apply H3]. now intros [= <-].
  - intros k' y Hk. rewrite mget_put. destruct (String.eqb_spec k' k) as [E|]; [|now apply H4].
    intros [= <-]. subst k'. destruct (String.eqb_spec k defaultDomain); [contradiction|exact Hx].
Qed.

Lemma d_with_map_twice d x y : d_with_map (d_with_map d x) y = d_with_map d y.
Proof. reflexivity. Qed.
Lemma mput_twice {V} k (v w : V) (l : smap V) : mput k w (mput k v l) = mput k w l.
Proof.
  induction l as [|[k' v'] l IH]; cbn; [now rewrite String.eqb_refl|].
  destruct (String.eqb k k') eqn:E; cbn; rewrite ?String.eqb_refl, ?E; [reflexivity|now rewrite IH].
Qed.

Lemma lookup_empty pats lv m dm c p : lookup p (IDom (mkDM [] pats lv m dm c)) = None.
Proof. destruct p as [|k p]; cbn; [reflexivity|]. now destruct (String.eqb k defaultDomain). Qed.

(** What [i_at] does to the map of one level, once the child is done. *)
Definition close (store : bool) (d : dommgr irm) domain (x : irm) : irm :=
  IDom (if store || mhas domain (d_map d) then d_with_map d (mput domain x (d_map d)) else d).

Lemma i_at_step {A} f store n d (ds : list string) :
  @i_at A f store (S n) (IDom d) ds =
  let (domain, sub) := getDomain ds in
  let! (rm, a) := i_at f store n (match mget domain (d_map d) with Some rm => rm | None => new_manager d domain end) sub in
  Val (close store d domain rm, a).
Proof.
  cbn [i_at]. destruct (getDomain ds) as [domain sub]. unfold close, put_back.
  destruct (mget domain (d_map d)) as [x|] eqn:E.
  - destruct (i_at f store n x sub) as [[x' a]|]; cbn [obind]; [|reflexivity].
    rewrite mhas_get, E. now rewrite orb_true_r.
  - destruct (i_at f store n (new_manager d domain) sub) as [[x' a]|]; cbn [obind]; [|reflexivity].
    destruct store; cbn [orb d_with_map d_map].
    + rewrite mhas_get, mget_put, String.eqb_refl, mput_twice. reflexivity.
    + rewrite mhas_get, E. reflexivity.
Qed.

Lemma at_spec {A} (f : list string -> rolemgr -> outcome (rolemgr * A)) store m : forall n ds x level,
  tok m x level -> List.length ds < n ->
  match f (snd (place ds)) (current m level (fst (place ds)) x) with
  | Panic => i_at f store n x ds = Panic
  | Val (s', a) => exists x', i_at f store n x ds = Val (x', a) /\ tok m x' level /\
      forall q, lookup q x' = if path_eqb q (fst (place ds)) && (store || is_some (lookup (fst (place ds)) x))
                              then Some s' else lookup q x
  end.
Proof.
  induction n as [|n IH]; intros ds x level H Hn; [lia|].
  inversion H as [d H1 H2 H3 H4]; subst. rewrite i_at_step.
  destruct (getDomain_place ds) as [[Eg Ep]|[k [rest [-> [Hk [Eg [Ep Es]]]]]]]; rewrite Eg.
  - (* the default entry *)
    rewrite Ep. set (sub := snd (place ds)).
    assert (Ec : exists rm, match mget defaultDomain (d_map d) with Some rm => rm | None => new_manager d defaultDomain end = IRole rm
                            /\ rm = current (d_matcher d) (d_level d) [] (IDom d)).
    { unfold current. cbn [lookup]. destruct (mget defaultDomain (d_map d)) as [y|] eqn:E.
      - destruct (H3 _ eq_refl) as [rm ->]. eauto.
      - unfold new_manager. rewrite String.eqb_refl. cbn [negb]. eexists. split; [reflexivity|].
        unfold fresh. cbn [List.length]. now rewrite Z.sub_0_r. }
    destruct Ec as [rm [-> ->]].
    set (s := current (d_matcher d) (d_level d) [] (IDom d)).
    assert (Ei : i_at f store n (IRole s) sub = let! (rm, a) := f sub s in Val (IRole rm, a)) by (destruct n; reflexivity).
    rewrite Ei. destruct (f sub s) as [[s' a]|]; cbn [obind]; [|reflexivity].
    eexists. split; [reflexivity|]. unfold close.
    assert (Em : is_some (lookup [] (IDom d)) = mhas defaultDomain (d_map d)).
    { cbn [lookup]. rewrite mhas_get. destruct (mget defaultDomain (d_map d)) as [y|] eqn:E; [|reflexivity].
      destruct (H3 _ eq_refl) as [rm ->]. reflexivity. }
    rewrite Em. destruct (store || mhas defaultDomain (d_map d)).
    + split; [apply tok_put; [exact H|rewrite String.eqb_refl; eauto]|]. intros q. rewrite lookup_put, String.eqb_refl.
      destruct q as [|k q]; [now rewrite path_eqb_refl|].
      assert (path_eqb (k :: q) [] = false) as -> by now apply path_eqb_false. cbn [andb].
      destruct (String.eqb_spec k defaultDomain) as [->|]; [cbn; reflexivity|reflexivity].
    + split; [exact H|]. intros q. now rewrite andb_false_r.
  - (* a named domain *)
    cbn [List.length] in Hn. rewrite Ep, Es. set (p := fst (place rest)). set (sub := snd (place rest)).
    set (child := match mget k (d_map d) with Some rm => rm | None => new_manager d k end).
    assert (Hc : tok (d_matcher d) child (d_level d - 1)).
    { unfold child. destruct (mget k (d_map d)) as [y|] eqn:E; [now apply (H4 k)|].
      destruct (tok_new _ _ k H) as [[rm E']|E']; [|exact E'].
      unfold new_manager in E'. destruct (String.eqb_spec k defaultDomain); [contradiction|discriminate]. }
    assert (Hcur : current (d_matcher d) (d_level d - 1) p child = current (d_matcher d) (d_level d) (k :: p) (IDom d)).
    { unfold current. cbn [lookup]. destruct (String.eqb_spec k defaultDomain); [contradiction|].
      assert (Hf : fresh (d_matcher d) (d_level d - 1) p = fresh (d_matcher d) (d_level d) (k :: p)).
      { unfold fresh. f_equal. cbn [List.length]. lia. }
      unfold child. destruct (mget k (d_map d)) as [y|] eqn:E; [now rewrite Hf|]. rewrite Hf.
      unfold new_manager. destruct (String.eqb_spec k defaultDomain); [contradiction|]. cbn [negb]. now rewrite lookup_empty. }
    specialize (IH rest child _ Hc ltac:(lia)). fold p sub in IH. rewrite Hcur in IH.
    destruct (f sub (current (d_matcher d) (d_level d) (k :: p) (IDom d))) as [[s' a]|]; [|now rewrite IH].
    destruct IH as [c' [Ei [Hc' Hl]]]. rewrite Ei. cbn [obind]. eexists. split; [reflexivity|]. unfold close.
    assert (Em : is_some (lookup (k :: p) (IDom d)) = mhas k (d_map d) && is_some (lookup p child)).
    { cbn [lookup]. destruct (String.eqb_spec k defaultDomain); [contradiction|]. unfold child. rewrite mhas_get.
      destruct (mget k (d_map d)); reflexivity. }
    rewrite Em. destruct (store || mhas k (d_map d)) eqn:Es'.
    + split.
      * apply tok_put; [exact H|]. destruct (String.eqb_spec k defaultDomain); [contradiction|exact Hc'].
      * intros q. rewrite lookup_put. destruct (String.eqb_spec k defaultDomain) as [|Hk']; [contradiction|].
        destruct q as [|k' q].
        { assert (path_eqb [] (k :: p) = false) as -> by now apply path_eqb_false. reflexivity. }
        destruct (String.eqb_spec k' k) as [->|Hne].
        -- destruct (String.eqb_spec k defaultDomain); [contradiction|]. rewrite Hl.
           assert (path_eqb (k :: q) (k :: p) = path_eqb q p) as ->.
           { unfold path_eqb. destruct (list_eq_dec string_dec q p), (list_eq_dec string_dec (k :: q) (k :: p)); congruence. }
           assert (Eq : lookup q child = lookup (k :: q) (IDom d)).
           { cbn [lookup]. destruct (String.eqb_spec k defaultDomain); [contradiction|]. unfold child.
             destruct (mget k (d_map d)); [reflexivity|]. unfold new_manager.
             destruct (String.eqb_spec k defaultDomain); [contradiction|]. cbn [negb]. now rewrite lookup_empty. }
           rewrite <- Eq. destruct store; cbn [orb] in *; [reflexivity|]. rewrite Es'. reflexivity.
        -- assert (path_eqb (k' :: q) (k :: p) = false) as -> by (apply path_eqb_false; congruence). reflexivity.
    + apply orb_false_iff in Es' as [-> Eh]. split; [exact H|]. intros q. rewrite Eh. cbn [andb orb]. now rewrite andb_false_r.
Qed.
