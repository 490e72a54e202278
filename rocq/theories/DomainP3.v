(** The domain manager with a domain matcher, for calls that name exactly one
    domain. *)
From Verif Require Import GoBase GoBaseP PolicyM CacheM CacheSpec PathM RbacM RbacSpec RbacP RbacP2 RbacP3 RbacP4 RbacP5 DomainM DomainSpec DomainP.

Section WithMatcher.
Variable dm : imatcher.
Variable level : Z.
Hypothesis Hdef : IsPattern dm defaultDomain = false.
(** The role matcher, and the names it can be used with. *)
Variable rmm : option imatcher.
Variable N : string -> Prop.
Hypothesis HN : names_ok rmm N.

Definition leaf0 : rolemgr := newRoleManagerWithMatchingFunc (level - 2) rmm.
Definition child (o : option rolemgr) : irm :=
  IDom (mkDM (match o with None => [] | Some rm => [(defaultDomain, IRole rm)] end) [] (level - 1) rmm (Some dm) (NewLRUCache 100)).
Definition cur (o : option rolemgr) : rolemgr := match o with Some rm => rm | None => leaf0 end.
Definition flag (b : bool) : list string := if b then [REDUNDANT_ROLE] else [].

Lemma ord_nil ord : good_order ord -> ord [] = [].
Proof. intros H. apply Permutation_nil. symmetry. apply H. Qed.

Lemma child_get add ord o store : good_order ord ->
  getRoleManager add ord (mkDM (match o with None => [] | Some rm => [(defaultDomain, IRole rm)] end) [] (level - 1) rmm (Some dm) (NewLRUCache 100))
    defaultDomain store =
  Val (mkDM (match o with Some rm => [(defaultDomain, IRole rm)]
             | None => if store then [(defaultDomain, IRole leaf0)] else [] end) [] (level - 1) rmm (Some dm) (NewLRUCache 100), IRole (cur o)).
Proof.
  intros Ho. unfold getRoleManager. cbn [d_map]. destruct o as [rm|]; cbn [mget].
  - rewrite String.eqb_refl. reflexivity.
  - unfold new_manager. rewrite String.eqb_refl. cbn [negb d_level d_matcher].
    replace (level - 1 - 1)%Z with (level - 2)%Z by lia. change (newRoleManagerWithMatchingFunc (level - 2) rmm) with leaf0.
    destruct store; cbn [d_dmatcher d_with_map d_map mput d_patterns]; rewrite Hdef, (ord_nil ord Ho);
      cbn [dmatchingPatterns obind flat_map copy_links]; reflexivity.
Qed.

Lemma child_add n ord o a b f : good_order ord ->
  i_AddLink (S n) ord (child o) a b (flag f) =
  (let! (rm, x) := rm_AddLink ord (cur o) a b (flag f) in Val (child (Some rm), x)).
Proof.
  intros Ho. unfold child at 1. cbn [i_AddLink].
  assert (Eg : getDomain (flag f) = (defaultDomain, flag f)) by now destruct f.
  rewrite Eg, (child_get _ ord o true Ho). cbn [obind].
  assert (Ei : i_AddLink n ord (IRole (cur o)) a b (flag f) =
    (let! (rm, x) := rm_AddLink ord (cur o) a b (flag f) in Val (IRole rm, x))) by (destruct n; reflexivity).
  rewrite Ei. destruct (rm_AddLink ord (cur o) a b (flag f)) as [[rm x]|]; cbn [obind]; [|reflexivity].
  unfold put_back, is_dpattern. destruct o as [r|]; cbn; rewrite Hdef; reflexivity.
Qed.

Lemma child_query {A} (ask : rolemgr -> outcome (rolemgr * A)) n ord o : good_order ord ->
  i_query ask (S n) ord (child o) [] =
  (let! (rm, x) := ask (cur o) in Val (child (match o with None => None | Some _ => Some rm end), x)).
Proof.
  intros Ho. unfold child at 1. cbn [i_query getDomain]. rewrite (child_get _ ord o false Ho). cbn [obind].
  assert (Ei : i_query ask n ord (IRole (cur o)) [] =
    (let! (rm, x) := ask (cur o) in Val (IRole rm, x))) by (destruct n; reflexivity).
  rewrite Ei. destruct (ask (cur o)) as [[rm x]|]; cbn [obind]; [|reflexivity].
  unfold put_back. destruct o as [r|]; reflexivity.
Qed.

Lemma child_links ord o : good_order ord ->
  i_links ord (child o) = map (fun r => (hd "" r, hd "" (tl r), [])) (all_links ord (rm_all (cur o)))%string.
Proof.
  intros Ho. unfold child. cbn [i_links d_map]. destruct o as [rm|]; cbn [mkeys map fst].
  - assert (ord [defaultDomain] = [defaultDomain]) as ->.
    { apply Permutation_length_1_inv. symmetry. apply Ho. }
    cbn [flat_map mget]. rewrite String.eqb_refl. cbn [cur app]. rewrite app_nil_r.
    assert (Hp : Forall (fun r => exists a b, r = [a; b]) (all_links ord (rm_all rm))).
    { apply Forall_forall. intros r Hr. apply in_all_links in Hr; [|exact Ho]. destruct Hr as [u [v [-> _]]]. eauto. }
    change (map (fun '(a, b, ds) => (a, b, ds) : link)
      (flat_map (fun r : rule => match r with a :: b :: _ => [(a, b, [])] | _ => [] end) (all_links ord (rm_all rm)))
      = map (fun r => (hd "" r, hd "" (tl r), []))%string (all_links ord (rm_all rm))).
    generalize dependent (all_links ord (rm_all rm)). intros l Hp.
    induction Hp as [|r l [a [b ->]] Hl IH]; cbn; [reflexivity|]. f_equal. exact IH.
  - rewrite (ord_nil ord Ho). cbn [flat_map cur leaf0 rm_all newRoleManagerWithMatchingFunc].
    unfold all_links. cbn. now rewrite (ord_nil ord Ho).
Qed.

(** Links and flags of a leaf. *)
Record leafok (rm : rolemgr) (E : string -> string -> Prop) : Prop := mkLeaf {
  lf_holds : exists L K, wholds N rm L K /\ forall a b, L a b = true <-> E a b;
  lf_m : rm_matcher rm = rmm;
  lf_lv : rm_level rm = (level - 2)%Z
}.

Lemma leafok_ext rm E E' : leafok rm E -> (forall a b, E a b <-> E' a b) -> leafok rm E'.
Proof.
  intros [[L [K [H HL]]] Hm Hl] He. constructor; auto. exists L, K. split; [exact H|]. intros a b. now rewrite HL.
Qed.
Lemma leafok_new : leafok leaf0 (fun _ _ => False).
Proof.
  constructor; [|reflexivity|reflexivity]. exists no_links, no_names. split; [apply wholds_start|].
  intros a b. cbn. split; [discriminate|tauto].
Qed.

Lemma leafok_names rm E : leafok rm E -> names_ok (rm_matcher rm) N.
Proof. intros [_ -> _]. exact HN. Qed.
Lemma leafok_in rm E a b : leafok rm E -> E a b -> N a /\ N b.
Proof.
  intros [[L [K [H HL]]] _ _] He. apply HL in He. destruct (wholds_link_known _ _ _ _ _ _ H He) as [Ka Kb].
  split; now apply (wh_N _ _ _ _ H).
Qed.

Lemma leaf_add ord rm E a b f : good_order ord -> N a -> N b -> leafok rm E ->
  exists rm' x, rm_AddLink ord rm a b (flag f) = Val (rm', x) /\
    leafok rm' (fun u v => (u = a /\ v = b) \/ E u v) /\
    (x = true <-> ~ E a b) /\ (f = false -> no_flags (rm_all rm) -> no_flags (rm_all rm')).
Proof.
  intros Ho Na Nb H. pose proof (leafok_names _ _ H) as HA. destruct H as [[L [K [Hh HL]]] Hm Hl].
  assert (Hn : forall n, In n (call_names (RAdd a b (flag f))) -> N n) by (intros n [<-|[<-|[]]]; assumption).
  destruct (wholds_step _ rm L K ord (RAdd a b (flag f)) HA Ho Hh Hn) as [rm' [x [Es [Hh' [Hm' [Hl' [Ha _]]]]]]].
  pose proof (wno_flags_step N rm L K ord (RAdd a b (flag f)) rm' x HA Ho Hh Hn) as Hnf.
  specialize (Ha a b _ eq_refl). subst x. cbn [rstep] in Es.
  destruct (rm_AddLink ord rm a b (flag f)) as [[r y]|] eqn:Ead; [|discriminate]. cbn [obind] in Es. injection Es as -> ->.
  exists rm', (negb (L a b)). split; [reflexivity|]. split; [|split].
  - constructor; [|congruence|congruence]. exists (links_step L (RAdd a b (flag f))), (names_step K (RAdd a b (flag f))).
    split; [exact Hh'|]. intros u v. cbn. unfold link_add. rewrite orb_true_iff, andb_true_iff, !String.eqb_eq, HL. tauto.
  - rewrite <- HL. destruct (L a b); cbn; intuition congruence.
  - intros -> Hf. apply Hnf; [reflexivity|exact Hf|]. cbn [rstep]. rewrite Ead. reflexivity.
Qed.

(** A link without domains between names the matcher can be used with. *)
Definition fit (l : link) : Prop := snd l = [] /\ N (fst (fst l)) /\ N (snd (fst l)).
Lemma copy_ok n ord ls : forall o E, good_order ord -> Forall fit ls -> leafok (cur o) E ->
  exists o', copy_links (i_AddLink (S n) ord) (child o) ls = Val (child o') /\
    leafok (cur o') (fun u v => E u v \/ In (u, v, []) ls).
Proof.
  induction ls as [|[[a b] ds] ls IH]; intros o E Ho Hls HE; cbn [copy_links].
  - exists o. split; [reflexivity|]. eapply leafok_ext; [exact HE|]. cbn. tauto.
  - inversion Hls as [|? ? [Hd [Na Nb]] Hls']; subst. cbn in Hd, Na, Nb. subst ds. cbn [app].
    change [REDUNDANT_ROLE] with (flag true). rewrite child_add by exact Ho.
    destruct (leaf_add ord (cur o) E a b true Ho Na Nb HE) as [rm' [x [-> [HE' _]]]]. cbn [obind].
    destruct (IH (Some rm') _ Ho Hls' HE') as [o' [-> HE2]]. exists o'. split; [reflexivity|].
    eapply leafok_ext; [exact HE2|]. intros u v. cbn. split.
    + intros [[[-> ->]|H]|H]; auto. + intros [H|[[= -> ->]|H]]; auto.
Qed.

(** ** The matcher cache of the root *)
Definition fake (d : dommgr irm) : rolemgr := mkRM [] [] 0 (d_dmatcher d) (d_cache d).
Lemma dm_match_fake d s p :
  dm_match d s p = (let! (rm, b) := rm_match (fake d) s p in Val (d_with_cache d (rm_cache rm), b)).
Proof.
  unfold dm_match, rm_match. cbn [fake rm_cache rm_matcher].
  destruct (Get (d_cache d) (join "$$" [s; p])) as [[c [v|]]|]; cbn [obind]; try reflexivity.
  destruct (d_dmatcher d) as [mm|]; [|reflexivity].
  destruct (Put c (join "$$" [s; p]) (Match mm s p)) as [c'|]; reflexivity.
Qed.

Lemma dm_match_ok d s p : d_dmatcher d = Some dm -> cache_ok (Some dm) (d_cache d) -> plain s -> plain p ->
  exists c', dm_match d s p = Val (d_with_cache d c', Match dm s p) /\ cache_ok (Some dm) c'.
Proof.
  intros Hd Hc Hs Hp. rewrite dm_match_fake.
  destruct (match_ok (fake d) dm s p) as [c' [b [-> [Hc' Hb]]]]; [exact Hd|cbn; rewrite Hd; exact Hc|].
  cbn [obind]. exists c'. rewrite (Hb Hs Hp). cbn in Hc'. rewrite Hd in Hc'. auto.
Qed.

Definition sel (f : string -> bool) := filter f.

Lemma matchingRMs_ok p : plain p -> forall names d, d_dmatcher d = Some dm -> cache_ok (Some dm) (d_cache d) ->
  (forall n, In n names -> plain n) ->
  exists c', matchingRMs d p names =
      Val (d_with_cache d c', filter (fun k => negb (String.eqb p k) && Match dm k p) names) /\ cache_ok (Some dm) c'.
Proof.
  intros Hp. induction names as [|k names IH]; intros d Hd Hc Hn; cbn [matchingRMs filter].
  - exists (d_cache d). split; [now destruct d|exact Hc].
  - destruct (String.eqb p k) eqn:E; cbn [negb andb].
    + apply IH; auto. intros n H. apply Hn. now right.
    + destruct (dm_match_ok d k p Hd Hc (Hn k (or_introl eq_refl)) Hp) as [c1 [-> Hc1]]. cbn [obind].
      destruct (IH (d_with_cache d c1) Hd Hc1) as [c2 [-> Hc2]]; [intros n H; apply Hn; now right|]. cbn [obind].
      exists c2. split; [|exact Hc2]. now destruct (Match dm k p).
Qed.

Lemma dmatchingPatterns_ok k : plain k -> forall pats d, d_dmatcher d = Some dm -> cache_ok (Some dm) (d_cache d) ->
  (forall n, In n pats -> plain n /\ mget n (d_map d) <> None) ->
  exists c' l, dmatchingPatterns d k pats = Val (d_with_cache d c', l) /\ cache_ok (Some dm) c' /\
    (forall y, In y l <-> exists p, In p pats /\ p <> k /\ Match dm k p = true /\ mget p (d_map d) = Some y).
Proof.
  intros Hk. induction pats as [|p pats IH]; intros d Hd Hc Hn; cbn [dmatchingPatterns].
  - exists (d_cache d), []. split; [now destruct d|]. split; [exact Hc|]. cbn. intros y. split; [tauto|intros [p [[] _]]].
  - assert (Hn' : forall n, In n pats -> plain n /\ mget n (d_map d) <> None) by (intros n H; apply Hn; now right).
    destruct (String.eqb_spec p k) as [Epk|Epk]; cbn [negb].
    + destruct (IH d Hd Hc Hn') as [c' [l [-> [Hc' Hl]]]]. exists c', l. split; [reflexivity|]. split; [exact Hc'|].
      intros y. rewrite Hl. split; intros [q [Hq R]]; exists q; (split; [|exact R]); [now right|].
      destruct Hq as [->|Hq]; [tauto|exact Hq].
    + destruct (Hn p (or_introl eq_refl)) as [Hpp Hpm].
      destruct (dm_match_ok d k p Hd Hc Hk Hpp) as [c1 [-> Hc1]]. cbn [obind].
      destruct (Match dm k p) eqn:Em.
      * cbn [d_with_cache d_map]. destruct (mget p (d_map d)) as [y0|] eqn:Eg; [|tauto].
        destruct (IH (d_with_cache d c1) Hd Hc1 Hn') as [c2 [l [-> [Hc2 Hl]]]]. cbn [obind].
        exists c2, (y0 :: l). split; [reflexivity|]. split; [exact Hc2|]. intros y. cbn [In]. rewrite Hl. split.
        -- intros [<-|[q [Hq R]]]; [exists p; auto|exists q; auto].
        -- intros [q [[->|Hq] R]]; [left; destruct R as [_ [_ R]]; congruence|right; exists q; auto].
      * destruct (IH (d_with_cache d c1) Hd Hc1 Hn') as [c2 [l [-> [Hc2 Hl]]]].
        exists c2, l. split; [reflexivity|]. split; [exact Hc2|]. intros y. rewrite Hl.
        split; intros [q [Hq R]]; exists q; (split; [|exact R]); [now right|].
        destruct Hq as [->|Hq]; [destruct R as [_ [R _]]; congruence|exact Hq].
Qed.

Lemma on_each_ok (f : irm -> outcome (irm * bool)) (P Q : string -> irm -> Prop) : forall l d,
  NoDup l -> (forall k y, In k l -> P k y -> exists y' r, f y = Val (y', r) /\ Q k y') ->
  (forall k y, mget k (d_map d) = Some y -> P k y) ->
  exists mp, on_each f d l = Val (d_with_map d mp) /\
    mkeys mp = mkeys (d_map d) /\
    (forall k y, mget k mp = Some y -> if in_dec string_dec k l then Q k y else P k y).
Proof.
  assert (G : forall l d (R : string -> irm -> Prop),
    NoDup l -> (forall k y, In k l -> R k y -> exists y' r, f y = Val (y', r) /\ Q k y') ->
    (forall k y, mget k (d_map d) = Some y -> R k y) ->
    exists mp, on_each f d l = Val (d_with_map d mp) /\ mkeys mp = mkeys (d_map d) /\
      (forall k y, mget k mp = Some y -> if in_dec string_dec k l then Q k y else R k y)).
  { induction l as [|k0 l IH]; intros d R Hnd Hf HR; cbn [on_each].
    - exists (d_map d). split; [now destruct d|]. split; [reflexivity|]. intros k y H. cbn. now apply HR.
    - inversion Hnd as [|? ? Hni Hnd']; subst. destruct (mget k0 (d_map d)) as [y0|] eqn:E0.
      + destruct (Hf k0 y0 (or_introl eq_refl) (HR _ _ E0)) as [y0' [r [-> HQ]]]. cbn [obind].
        unfold put_back. rewrite mhas_get, E0.
        destruct (IH (d_with_map d (mput k0 y0' (d_map d))) (fun k y => if string_dec k k0 then Q k y else R k y) Hnd') as [mp [Eo [Ek Hmp]]].
        * intros k y Hk. destruct (string_dec k k0) as [->|]; [contradiction|]. apply Hf. now right.
        * cbn. intros k y. rewrite mget_put. destruct (String.eqb_spec k k0) as [->|Hne].
          -- intros [= <-]. now destruct (string_dec k0 k0).
          -- intros H. destruct (string_dec k k0); [contradiction|]. now apply HR.
        * exists mp. split; [exact Eo|]. split.
          -- rewrite Ek. cbn [d_with_map d_map]. apply mkeys_put. change k0 with (fst (k0, y0)). apply in_map. now apply mget_In.
          -- intros k y H. specialize (Hmp k y H). destruct (in_dec string_dec k l), (in_dec string_dec k (k0 :: l)); cbn in *; try tauto.
             ++ destruct (string_dec k k0) as [->|]; [exact Hmp|]. exfalso. intuition congruence.
             ++ destruct (string_dec k k0) as [->|]; [tauto|exact Hmp].
      + destruct (IH d R Hnd') as [mp [Eo [Ek Hmp]]]; [intros k y Hk; apply Hf; now right|exact HR|].
        exists mp. split; [exact Eo|]. split; [exact Ek|]. intros k y H. specialize (Hmp k y H).
        destruct (in_dec string_dec k l), (in_dec string_dec k (k0 :: l)); cbn in *; try tauto.
        exfalso. assert (k0 = k) as -> by (intuition congruence).
        assert (In k (mkeys mp)) as Hin by (change k with (fst (k, y)); apply in_map; now apply mget_In).
        rewrite Ek in Hin. apply mget_None in E0. contradiction. }
  intros l d Hnd Hf HP. exact (G l d P Hnd Hf HP).
Qed.
End WithMatcher.
