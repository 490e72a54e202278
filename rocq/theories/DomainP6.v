(** Lemmas about installing matchers on a domain manager. *)
From Verif Require Import GoBase GoBaseP PolicyM CacheM PathM RbacM RbacSpec RbacP RbacP2 RbacP3 RbacP4 RbacP5 Prop_Rbac
  DomainM DomainSpec DomainP DomainP2 DomainP3 DomainP4 DomainP5 Prop_Domain.

(** ** A loop over the entries of a map *)
Fixpoint on_all (f : irm -> outcome irm) (l : list (string * irm)) : outcome (list (string * irm)) :=
  match l with
  | [] => Val []
  | (k, v) :: l' => let! v := f v in let! l' := on_all f l' in Val ((k, v) :: l')
  end.

Lemma SetMatcher_dom ord d m : i_SetMatcher ord (IDom d) m =
  let! l := on_all (fun v => i_SetMatcher ord v m) (d_map d) in
  Val (IDom (mkDM l (d_patterns d) (d_level d) m (d_dmatcher d) (d_cache d))).
Proof.
  cbn [i_SetMatcher].
  assert (E : forall l, (fix go (l : list (string * irm)) : outcome (list (string * irm)) :=
                   match l with
                   | [] => Val []
                   | (k, v) :: l' => let! v := i_SetMatcher ord v m in let! l' := go l' in Val ((k, v) :: l')
                   end) l = on_all (fun v => i_SetMatcher ord v m) l).
  { induction l as [|[k v] l IH]; [reflexivity|]. cbn [on_all]. rewrite IH. reflexivity. }
  rewrite E. reflexivity.
Qed.

Lemma SetDomainMatcher_dom ord d m : i_SetDomainMatcher ord (IDom d) m =
  let! l := on_all (fun v => i_SetDomainMatcher ord v m) (d_map d) in
  dm_rebuild ord (mkDM l (d_patterns d) (d_level d) (d_matcher d) m (d_cache d)).
Proof.
  cbn [i_SetDomainMatcher].
  assert (E : forall l, (fix go (l : list (string * irm)) : outcome (list (string * irm)) :=
                   match l with
                   | [] => Val []
                   | (k, v) :: l' => let! v := i_SetDomainMatcher ord v m in let! l' := go l' in Val ((k, v) :: l')
                   end) l = on_all (fun v => i_SetDomainMatcher ord v m) l).
  { induction l as [|[k v] l IH]; [reflexivity|]. cbn [on_all]. rewrite IH. reflexivity. }
  rewrite E. reflexivity.
Qed.

Lemma on_all_ok (f : irm -> outcome irm) (C : string -> irm -> irm -> Prop) l :
  (forall k v, In (k, v) l -> exists v', f v = Val v' /\ C k v v') ->
  exists l', on_all f l = Val l' /\ mkeys l' = mkeys l /\
    forall k, match mget k l with None => mget k l' = None | Some v => exists v', mget k l' = Some v' /\ C k v v' end.
Proof.
  induction l as [|[k v] l IH]; intros H; cbn [on_all].
  - exists []. cbn. auto.
  - destruct (H k v) as [v' [-> Hc]]; [now left|]. cbn [obind].
    destruct IH as [l' [-> [Ek Hl]]]; [intros k0 v0 Hi; apply H; now right|]. cbn [obind].
    exists ((k, v') :: l'). split; [reflexivity|]. split; [exact (f_equal (cons k) Ek)|].
    intros k0. cbn [mget]. destruct (String.eqb_spec k0 k) as [->|]; [eauto|apply Hl].
Qed.

Lemma in_mget {V} k (v : V) l : NoDup (mkeys l) -> In (k, v) l -> mget k l = Some v.
Proof.
  induction l as [|[k' v'] l IH]; cbn; [tauto|]. intros N [H|H].
  - injection H as -> ->. now rewrite String.eqb_refl.
  - inversion N as [|? ? Hn N']; subst. destruct (String.eqb_spec k k') as [->|]; [|now apply IH].
    exfalso. apply Hn. change (In k' (map fst l)). apply in_map_iff. now exists (k', v).
Qed.

(** ** SetMatcher without domain matcher: every leaf gets the matcher *)
Lemma setm_tree m0 m ord x lv : tok m0 x lv -> nk x ->
  (forall p rm, lookup p x = Some rm -> exists rm', rm_SetMatcher ord rm m = Val rm') ->
  exists x', i_SetMatcher ord x m = Val x' /\ tok m x' lv /\
    forall p, match lookup p x with
              | None => lookup p x' = None
              | Some rm => exists rm', rm_SetMatcher ord rm m = Val rm' /\ lookup p x' = Some rm'
              end.
Proof.
  induction 1 as [d H1 H2 H3 H4 IH]. intros N Hs. inversion N as [|d' Nd Nc]; subst. rewrite SetMatcher_dom.
  set (C := fun k v v' => if String.eqb k defaultDomain
     then exists rm rm', v = IRole rm /\ v' = IRole rm' /\ rm_SetMatcher ord rm m = Val rm'
     else tok m v' (d_level d - 1) /\
          forall p, match lookup p v with
              | None => lookup p v' = None
              | Some rm => exists rm', rm_SetMatcher ord rm m = Val rm' /\ lookup p v' = Some rm'
              end).
  destruct (on_all_ok (fun v => i_SetMatcher ord v m) C (d_map d)) as [l' [-> [_ Hl]]].
  { intros k v Hi. apply (in_mget k v _ Nd) in Hi. unfold C. destruct (String.eqb_spec k defaultDomain) as [->|Hk].
    - destruct (H3 _ Hi) as [rm ->]. destruct (Hs [] rm) as [rm' E]; [cbn; now rewrite Hi|].
      exists (IRole rm'). cbn [i_SetMatcher]. rewrite E. cbn [obind]. split; [reflexivity|]. now exists rm, rm'.
    - apply (IH k v Hk Hi); [now apply (Nc k)|]. intros p rm L. apply (Hs (k :: p)). cbn.
      destruct (String.eqb_spec k defaultDomain); [contradiction|]. now rewrite Hi. }
  cbn [obind]. eexists. split; [reflexivity|]. split.
  - apply (tok_dom m (mkDM l' (d_patterns d) (d_level d) m (d_dmatcher d) (d_cache d))); cbn; auto.
    + intros v Hv. specialize (Hl defaultDomain). destruct (mget defaultDomain (d_map d)) as [w|]; [|congruence].
      destruct Hl as [v' [E Hc]]. unfold C in Hc. cbn in Hc. destruct Hc as [rm [rm' [_ [-> _]]]]. exists rm'. congruence.
    + intros k v Hk Hv. specialize (Hl k). destruct (mget k (d_map d)) as [w|]; [|congruence].
      destruct Hl as [v' [E Hc]]. unfold C in Hc. destruct (String.eqb_spec k defaultDomain); [contradiction|].
      assert (v = v') as -> by congruence. apply Hc.
  - intros [|k p]; cbn [lookup d_map].
    + specialize (Hl defaultDomain). destruct (mget defaultDomain (d_map d)) as [w|] eqn:Ew; [|now rewrite Hl].
      destruct Hl as [v' [-> Hc]]. unfold C in Hc. cbn in Hc. destruct Hc as [rm [rm' [-> [-> E]]]]. eauto.
    + destruct (String.eqb_spec k defaultDomain) as [|Hk]; [reflexivity|].
      specialize (Hl k). destruct (mget k (d_map d)) as [w|] eqn:Ew; [|now rewrite Hl].
      destruct Hl as [v' [-> Hc]]. unfold C in Hc. destruct (String.eqb_spec k defaultDomain); [contradiction|]. apply Hc.
Qed.

(** ** The tree after calls that name one domain each *)

(** The manager of one domain, without nested domains. *)
Definition flat_child (rmm : option imatcher) (level : Z) (v : irm) : Prop :=
  exists o pats dm c, v = IDom (mkDM (match o with None => [] | Some rm => [(defaultDomain, IRole rm)] end) pats (level - 1) rmm dm c).
Definition flat (rmm : option imatcher) (level : Z) (x : irm) : Prop :=
  exists d, x = IDom d /\ d_level d = level /\ d_matcher d = rmm /\ mget defaultDomain (d_map d) = None /\
    forall k v, mget k (d_map d) = Some v -> flat_child rmm level v.

Definition one_domain_each (c : dcall) : Prop :=
  match call_domains c with Some ds => exists d, ds = [d] | None => True end.

Lemma flat_step rmm level ord x c x' a : tok rmm x level -> flat rmm level x -> one_domain_each c ->
  (match call_domains c with Some ds => unreserved ds | None => True end) ->
  dstep ord x c = Val (x', a) -> flat rmm level x'.
Proof.
  intros T F O U E. unfold one_domain_each in O. destruct (call_domains c) as [ds|] eqn:Ec.
  - destruct O as [k ->]. inversion U as [|? ? Hk _]; subst. unfold reserved in Hk.
    rewrite (dstep_at rmm level ord x c [k] T Ec) in E.
    destruct F as [d [-> [F1 [F2 [F3 F4]]]]]. unfold fuel in E. rewrite i_at_step in E. cbn [getDomain] in E.
    destruct (String.eqb_spec k REDUNDANT_ROLE) as [|Hr]; [tauto|].
    assert (Hkd : k <> defaultDomain) by tauto.
    destruct (i_at (leaf ord c) (stores c) _ _ []) as [[rm a']|] eqn:Er in E; cbn [obind] in E; [|discriminate].
    injection E as <- <-.
    assert (Fc : flat_child rmm level (match mget k (d_map d) with Some rm => rm | None => new_manager d k end)).
    { destruct (mget k (d_map d)) as [v|] eqn:Ev; [now apply (F4 k)|]. unfold new_manager.
      destruct (String.eqb_spec k defaultDomain); [contradiction|]. cbn [negb]. rewrite F1, F2. exists None. eauto. }
    assert (Fr : flat_child rmm level rm).
    { destruct Fc as [o [pats [dm [cc Ev]]]]. rewrite Ev in Er. cbn [List.length] in Er. rewrite i_at_step in Er. cbn [getDomain d_map] in Er.
      assert (G : forall n r, i_at (leaf ord c) (stores c) n (IRole r) [] = let! (rm, a) := leaf ord c [] r in Val (IRole rm, a))
        by (intros [|n] r; reflexivity).
      rewrite Nat.add_comm in Er. cbn [Nat.add] in Er.
      destruct o as [r|]; cbn [mget] in Er.
      - rewrite String.eqb_refl, G in Er. destruct (leaf ord c [] r) as [[r' a'']|]; cbn [obind] in Er; [|discriminate].
        injection Er as <- <-. unfold close. cbn [d_map]. rewrite mhas_get. cbn [mget]. rewrite String.eqb_refl, orb_true_r.
        exists (Some r'), pats, dm, cc. reflexivity.
      - unfold new_manager in Er. rewrite String.eqb_refl in Er. cbn [negb] in Er. rewrite G in Er.
        destruct (leaf ord c [] _) as [[r' a'']|]; cbn [obind] in Er; [|discriminate]. injection Er as <- <-.
        unfold close. cbn [d_map]. rewrite mhas_get. cbn [mget]. rewrite orb_false_r. destruct (stores c).
        + exists (Some r'), pats, dm, cc. reflexivity.
        + exists None. eauto. }
    unfold close. destruct (stores c || mhas k (d_map d)).
    + eexists. split; [reflexivity|]. cbn [d_with_map d_level d_matcher d_map]. split; [exact F1|]. split; [exact F2|].
      split; [|intros k' v'; rewrite mget_put; destruct (String.eqb k' k); [intros [= <-]; exact Fr|apply F4]].
      rewrite mget_put. destruct (String.eqb_spec defaultDomain k); [congruence|exact F3].
    + exists d. auto.
  - destruct c; try discriminate. cbn in E. injection E as <- <-. destruct F as [d [-> [F1 [F2 _]]]]. cbn.
    exists (dm_Clear d). cbn. repeat split; auto. discriminate.
Qed.

Lemma flat_exec level h : forall x R x' xs, rel None level x R -> good_d h -> ordinary h ->
  Forall (fun c => one_domain_each (snd c)) h -> flat None level x -> dexec x h = Val (x', xs) -> flat None level x'.
Proof.
  induction h as [|[o c] h IH]; intros x R x' xs HR Hg Hor H1 H E; cbn [dexec] in E; [now injection E as <- _|].
  inversion Hg as [|? ? Ho Hg']; subst. inversion Hor as [|? ? Hu Hor']; subst. inversion H1 as [|? ? Hc H1']; subst.
  destruct (dstep_rel None level o x R c HR Ho) as [x1 [R1 [a [E1 [_ [HR1 _]]]]]]; [intros n _; exact I|].
  rewrite E1 in E. cbn [obind] in E. destruct (dexec x1 h) as [[x2 xs2]|] eqn:E2; cbn [obind] in E; [|discriminate].
  injection E as <- <-. eapply IH; eauto. eapply flat_step; [apply (r_tok _ _ _ _ HR)|exact H|exact Hc|exact Hu|exact E1].
Qed.

(** SetMatcher on such a tree. *)
Lemma flat_set ord m rmm level x x' : flat rmm level x -> i_SetMatcher ord x m = Val x' -> nk x -> flat m level x' /\ nk x'.
Proof.
  intros [d [-> [F1 [F2 [F3 F4]]]]] E N. rewrite SetMatcher_dom in E. inversion N as [|d' Nd Nc]; subst d'.
  destruct (on_all _ (d_map d)) as [l|] eqn:Ea; cbn [obind] in E; [|discriminate]. injection E as <-.
  assert (G : forall l0 l1, on_all (fun v => i_SetMatcher ord v m) l0 = Val l1 -> mkeys l1 = mkeys l0 /\
     forall k v, mget k l1 = Some v -> exists v0, mget k l0 = Some v0 /\ i_SetMatcher ord v0 m = Val v).
  { induction l0 as [|[k0 v0] l0 IH]; intros l1 E; cbn [on_all] in E; [injection E as <-; split; [reflexivity|discriminate]|].
    destruct (i_SetMatcher ord v0 m) as [v1|] eqn:E1; cbn [obind] in E; [|discriminate].
    destruct (on_all _ l0) as [l2|]; cbn [obind] in E; [|discriminate]. injection E as <-. destruct (IH l2 eq_refl) as [A B].
    split; [exact (f_equal (cons k0) A)|]. intros k v. cbn [mget]. destruct (String.eqb k k0); [intros [= <-]; eauto|apply B]. }
  destruct (G _ _ Ea) as [Ek Hl].
  assert (Fc : forall v0 v, flat_child rmm level v0 -> i_SetMatcher ord v0 m = Val v -> flat_child m level v /\ nk v).
  { intros v0 v [o [pats [dm [c ->]]]] E. rewrite SetMatcher_dom in E. cbn [d_map d_patterns d_level d_dmatcher d_cache] in E. destruct o as [rm|]; cbn [on_all i_SetMatcher] in E.
    - destruct (rm_SetMatcher ord rm m) as [rm'|]; cbn [obind] in E; [|discriminate]. injection E as <-. split; [exists (Some rm'); eauto|].
      constructor; cbn; [repeat constructor; intros []|]. intros k v. destruct (String.eqb_spec k defaultDomain) as [->|]; [|discriminate]. intros [= <-]. constructor.
    - cbn [obind] in E. injection E as <-. split; [exists None; eauto|]. constructor; cbn; [constructor|discriminate]. }
  split.
  - eexists. split; [reflexivity|]. cbn [d_level d_matcher d_map]. split; [exact F1|]. split; [reflexivity|]. split.
    + destruct (mget defaultDomain l) as [v|] eqn:Ev; [|reflexivity]. destruct (Hl _ _ Ev) as [v0 [E0 _]]. congruence.
    + intros k v Hv. destruct (Hl _ _ Hv) as [v0 [E0 E1]]. exact (proj1 (Fc _ _ (F4 _ _ E0) E1)).
  - constructor; cbn [d_map]; [now rewrite Ek|]. intros k v Hv. destruct (Hl _ _ Hv) as [v0 [E0 E1]]. exact (proj2 (Fc _ _ (F4 _ _ E0) E1)).
Qed.

(** ** SetDomainMatcher *)
Section SetDM.
Variable dm : imatcher.
Variable level : Z.
Hypothesis Hdef : IsPattern dm defaultDomain = false.
Variable rmm : option imatcher.
Variable N : string -> Prop.
Hypothesis HN : names_ok rmm N.

Lemma i_Add_child ord o a b : good_order ord ->
  i_Add ord (child dm level rmm o) a b [] =
  (let! (rm, x) := rm_AddLink ord (cur level rmm o) a b [] in Val (child dm level rmm (Some rm), x)).
Proof. intros Ho. unfold i_Add, fuel. exact (child_add dm level Hdef rmm _ ord o a b false Ho). Qed.

Lemma child_adds ord ls : forall o E, good_order ord -> Forall (fit N) ls ->
  leafok level rmm N (cur level rmm o) E -> no_flags (rm_all (cur level rmm o)) ->
  exists o', i_adds ord (child dm level rmm o) ls = Val (child dm level rmm o') /\
    leafok level rmm N (cur level rmm o') (fun u v => E u v \/ In (u, v, []) ls) /\ no_flags (rm_all (cur level rmm o')).
Proof.
  induction ls as [|[[a b] ds] ls IH]; intros o E Ho Hls HE Hf; cbn [i_adds].
  - exists o. split; [reflexivity|]. split; [|exact Hf]. eapply leafok_ext; [exact HE|]. cbn. tauto.
  - inversion Hls as [|? ? [Hd [Na Nb]] Hls']; subst. cbn in Hd, Na, Nb. subst ds. rewrite i_Add_child by exact Ho.
    destruct (leaf_add level rmm N HN ord (cur level rmm o) E a b false Ho Na Nb HE) as [rm' [x [E1 [HE' [_ Hf']]]]].
    cbn [flag] in E1. rewrite E1. cbn [obind].
    destruct (IH (Some rm') _ Ho Hls' HE' (Hf' eq_refl Hf)) as [o' [-> [HE2 Hf2]]]. exists o'. split; [reflexivity|].
    split; [|exact Hf2]. eapply leafok_ext; [exact HE2|]. intros u v. cbn. split.
    + intros [[[-> ->]|H]|H]; auto. + intros [H|[[= -> ->]|H]]; auto.
Qed.

Lemma in_child_links ord o u v ds : good_order ord -> no_flags (rm_all (cur level rmm o)) -> forall E, leafok level rmm N (cur level rmm o) E ->
  In (u, v, ds) (i_links ord (child dm level rmm o)) <-> ds = [] /\ E u v.
Proof.
  intros Ho Hf E [[L [K [Hh HL]]] _ _]. rewrite child_links by exact Ho. rewrite in_map_iff. split.
  - intros [r [Er Hr]]. apply (in_all_links _ _ _ Ho) in Hr as [a [b [-> [Hr _]]]]. cbn in Er. injection Er as <- <- <-.
    split; [reflexivity|]. apply HL. now apply (wh_links _ _ _ _ Hh).
  - intros [-> H]. exists [u; v]. split; [reflexivity|]. apply (in_all_links _ _ _ Ho). exists u, v. split; [reflexivity|].
    split; [|rewrite Hf; easy]. apply (wh_links _ _ _ _ Hh). now apply HL.
Qed.

Lemma i_links_map ord (x y : dommgr irm) : d_map x = d_map y -> i_links ord (IDom x) = i_links ord (IDom y).
Proof. intros E. rewrite !i_links_dom, E. reflexivity. Qed.

Lemma child_set ord v : good_order ord -> flat_child rmm level v -> (forall u w ds, In (u, w, ds) (i_links ord v) -> N u /\ N w) ->
  exists v', i_SetDomainMatcher ord v (Some dm) = Val v' /\
    forall u w ds, In (u, w, ds) (i_links ord v') <-> In (u, w, ds) (i_links ord v).
Proof.
  intros Ho [o [pats [dm0 [c ->]]]] Hn. rewrite SetDomainMatcher_dom. cbn [d_map d_patterns d_level d_matcher d_cache].
  match goal with |- context [on_all ?f ?l] => assert (E : on_all f l = Val l) by (destruct o; reflexivity) end.
  rewrite E. cbn [obind]. unfold dm_rebuild, dm_Clear. cbn [d_level d_matcher d_dmatcher].
  change (IDom (mkDM [] [] (level - 1) rmm (Some dm) (NewLRUCache 100))) with (child dm level rmm None).
  repeat match goal with |- context [i_links ord (IDom (mkDM ?mp ?p2 ?l2 ?m2 ?d2 ?c2))] =>
    rewrite (i_links_map ord (mkDM mp p2 l2 m2 d2 c2) (mkDM (match o with None => [] | Some rm => [(defaultDomain, IRole rm)] end) [] (level - 1) rmm (Some dm) (NewLRUCache 100)) eq_refl);
    fold (child dm level rmm o) end.
  assert (Hd : forall u w ds, In (u, w, ds) (i_links ord (child dm level rmm o)) -> ds = []).
  { intros u w ds H. rewrite child_links in H by exact Ho. apply in_map_iff in H as [r [Er _]]. now injection Er as _ _ <-. }
  destruct (child_adds ord (i_links ord (child dm level rmm o)) None (fun _ _ => False) Ho) as [o' [-> [HE Hf]]].
  - apply Forall_forall. intros [[u w] ds] H. split; [exact (Hd u w ds H)|]. exact (Hn u w ds H).
  - apply leafok_new.
  - intros u. reflexivity.
  - eexists. split; [reflexivity|]. intros u w ds. rewrite (in_child_links ord o' u w ds Ho Hf _ HE). split.
    + intros [-> [[]|H]]. exact H.
    + intros H. pose proof (Hd _ _ _ H). subst ds. auto.
Qed.

Lemma adds_exec ord ls : forall x y xs,
  dexec x (map (fun '(a, b, ds) => (ord, DAdd a b ds)) ls) = Val (y, xs) -> i_adds ord x ls = Val y.
Proof.
  induction ls as [|[[a b] ds] ls IH]; intros x y xs; cbn [map dexec i_adds dstep].
  - intros [= <- <-]. reflexivity.
  - destruct (i_Add ord x a b ds) as [[x1 r]|]; cbn [obind]; [|discriminate].
    destruct (dexec x1 _) as [[x2 xs2]|] eqn:E; cbn [obind]; [|discriminate]. intros [= <- <-]. eapply IH. exact E.
Qed.

(** Installing the matcher on a manager without nested domains is adding its
    links, in some order, to an empty manager with the matcher. *)
Lemma set_dm ord x : good_order ord -> flat rmm level x -> nk x -> (forall u w ds, In (u, w, ds) (i_links ord x) -> N u /\ N w) ->
  exists ls, (forall u w ds, In (u, w, ds) ls <-> In (u, w, ds) (i_links ord x)) /\
    i_SetDomainMatcher ord x (Some dm) = i_adds ord (domains_with level rmm (Some dm)) ls.
Proof.
  intros Ho [d [-> [F1 [F2 [F3 F4]]]]] Nk Hn. rewrite SetDomainMatcher_dom. inversion Nk as [|d' Nd Nc]; subst d'.
  destruct (on_all_ok (fun v => i_SetDomainMatcher ord v (Some dm))
     (fun k v v' => forall u w ds, In (u, w, ds) (i_links ord v') <-> In (u, w, ds) (i_links ord v)) (d_map d)) as [l' [-> [Ek Hl]]].
  { intros k v Hi. apply (in_mget k v _ Nd) in Hi. apply child_set; [exact Ho|eapply F4; exact Hi|].
    intros u w ds H. destruct (String.eqb_spec k defaultDomain) as [->|Hk]; [congruence|]. apply (Hn u w (k :: ds)). rewrite i_links_dom. apply in_flat_map. exists k.
    split; [apply (Permutation_in _ (Permutation_sym (Ho _))), key_get; eauto|]. rewrite Hi. apply in_under. destruct (String.eqb_spec k defaultDomain); [contradiction|]. eauto. }
  cbn [obind]. unfold dm_rebuild, dm_Clear. cbn [d_level d_matcher d_dmatcher]. rewrite F1, F2.
  eexists. split; [|reflexivity]. intros u w ds. rewrite !i_links_dom. cbn [d_map]. rewrite Ek, !in_flat_map.
  split; intros [k [Hk H]]; exists k; (split; [exact Hk|]); specialize (Hl k).
  - destruct (mget k (d_map d)) as [v|]; [|rewrite Hl in H; destruct H]. destruct Hl as [v' [El Hv]]. rewrite El in H.
    apply in_under. apply in_under in H. destruct (String.eqb k defaultDomain); [now apply Hv|].
    destruct H as [ds' [-> H]]. exists ds'. split; [reflexivity|now apply Hv].
  - destruct (mget k (d_map d)) as [v|]; [|destruct H]. destruct Hl as [v' [El Hv]]. rewrite El.
    apply in_under. apply in_under in H. destruct (String.eqb k defaultDomain); [now apply Hv|].
    destruct H as [ds' [-> H]]. exists ds'. split; [reflexivity|now apply Hv].
Qed.
End SetDM.
