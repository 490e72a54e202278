(** The invariant of add-only histories under a domain matcher. *)
From Verif Require Import GoBase GoBaseP PolicyM CacheM CacheSpec PathM RbacM RbacSpec RbacP RbacP2 RbacP3 RbacP4 RbacP5 DomainM DomainSpec DomainP DomainP3.

Lemma wholds_holds N rm L K : rm_matcher rm = None -> wholds N rm L K -> holds N rm L K.
Proof.
  intros Hm [A B C D E F G]. constructor; auto. intros p x. rewrite Hm in F |- *. cbn in F |- *. split; [apply F|].
  intros (_ & _ & _ & X & _). discriminate.
Qed.
Lemma any_names : names_ok None (fun _ => True).
Proof. intros n _. exact I. Qed.
Lemma any_allowed rm : rm_matcher rm = None -> allowed (rm_matcher rm) (fun _ => True).
Proof. intros ->. constructor; [intros; exact I|discriminate]. Qed.

Section WithMatcher.
Variable dm : imatcher.
Variable level : Z.
Hypothesis Hdef : IsPattern dm defaultDomain = false.
Variable rmm : option imatcher.
Variable N : string -> Prop.
Hypothesis HN : names_ok rmm N.
(** The domain names in use. *)
Variable Dn : string -> Prop.
Hypothesis Dplain : forall k, Dn k -> plain k.
Hypothesis Dun : forall k, Dn k -> ~ reserved k.
Hypothesis Dapart : forall p q, Dn p -> Dn q -> IsPattern dm q = true -> ~ covers dm p q.

Notation hist := (list (order * dcall)).
Definition uses (h : hist) : Prop := forall a b k, added_link h a b k -> Dn k.

Record Inv (h : hist) (mp : smap irm) (pats : list string) (c : lru bool) : Prop := mkInv {
  v_cache : cache_ok (Some dm) c;
  v_nd : NoDup (mkeys mp);
  v_leaf : forall k y, mget k mp = Some y ->
             exists rm, y = child dm level rmm (Some rm) /\ leafok level rmm N rm (effective dm h k) /\
                        (IsPattern dm k = true -> no_flags (rm_all rm));
  v_keys : forall k, In k (mkeys mp) <-> exists a b, added_link h a b k;
  v_pats : forall p, In p pats <-> In p (mkeys mp) /\ IsPattern dm p = true
}.
Definition root mp pats c : dommgr irm := mkDM mp pats level rmm (Some dm) c.

Lemma i_AddLink_S n ord d a b ds : i_AddLink (S n) ord (IDom d) a b ds =
  let (domain, sub) := getDomain ds in
  let! (d, rm) := getRoleManager (i_AddLink n ord) ord d domain true in
  let! (rm, added) := i_AddLink n ord rm a b sub in
  let d := put_back d domain rm in
  if is_dpattern d domain then
    let! (d, l) := matchingRMs d domain (ord (mkeys (d_map d))) in
    let! d := on_each (fun rm => i_AddLink n ord rm a b (sub ++ [REDUNDANT_ROLE])%list) d l in
    Val (IDom d, added)
  else Val (IDom d, added).
Proof. reflexivity. Qed.
Lemma i_query_S {A} (ask : rolemgr -> outcome (rolemgr * A)) n ord d ds : i_query ask (S n) ord (IDom d) ds =
  let (domain, sub) := getDomain ds in
  let! (d, rm) := getRoleManager (i_AddLink n ord) ord d domain false in
  let! (rm, a) := i_query ask n ord rm sub in
  Val (IDom (put_back d domain rm), a).
Proof. reflexivity. Qed.

Lemma key_get (mp : smap irm) k : In k (mkeys mp) <-> exists y, mget k mp = Some y.
Proof.
  split.
  - intros H. destruct (mget k mp) as [y|] eqn:E; [eauto|]. apply mget_None in E. contradiction.
  - intros [y H]. change k with (fst (k, y)). apply in_map. now apply mget_In.
Qed.

Lemma effective_pattern h p u v : uses h -> Dn p -> IsPattern dm p = true ->
  (effective dm h p u v <-> added_link h u v p).
Proof.
  intros Hu Hp Hi. split.
  - intros [k [Ha [->|Hc]]]; [exact Ha|]. exfalso. exact (Dapart k p (Hu _ _ _ Ha) Hp Hi Hc).
  - intros H. exists p. auto.
Qed.

Lemma new_child mp pats c k : k <> defaultDomain -> new_manager (root mp pats c) k = child dm level rmm None.
Proof. intros H. unfold new_manager. destruct (String.eqb_spec k defaultDomain); [contradiction|]. reflexivity. Qed.

(** The links copied into a new domain. *)
Lemma copied h mp pats c k ord (l : list irm) :
  good_order ord -> Inv h mp pats c -> uses h -> Dn k -> mget k mp = None ->
  (forall y, In y l <-> exists p, In p pats /\ p <> k /\ Match dm k p = true /\ mget p mp = Some y) ->
  Forall (fit N) (flat_map (i_links ord) l) /\
  (forall u v, In (u, v, []) (flat_map (i_links ord) l) <-> effective dm h k u v).
Proof.
  intros Ho HI Hu Hk Hn Hl.
  assert (Hy : forall y, In y l -> exists p rm, In p pats /\ covers dm p k /\ y = child dm level rmm (Some rm) /\
             leafok level rmm N rm (effective dm h p) /\ no_flags (rm_all rm) /\ IsPattern dm p = true /\ Dn p).
  { intros y H. apply Hl in H as [p [Hp [Hne [Hm Hg]]]]. destruct (v_leaf _ _ _ _ HI p y Hg) as [rm [-> [Hlf Hnf]]].
    pose proof (proj1 (v_pats _ _ _ _ HI p) Hp) as [Hpk Hpi]. exists p, rm. unfold covers.
    apply (v_keys _ _ _ _ HI) in Hpk as [a [b Ha]]. apply Hu in Ha. auto 10. }
  assert (Hin : forall y p rm, y = child dm level rmm (Some rm) -> leafok level rmm N rm (effective dm h p) -> no_flags (rm_all rm) ->
             forall a b ds, In (a, b, ds) (i_links ord y) <-> ds = [] /\ effective dm h p a b).
  { intros y p rm -> Hlf Hnf a b ds. rewrite child_links by exact Ho. rewrite in_map_iff. cbn [cur].
    destruct Hlf as [[L [K [Hh HL]]] _ _]. setoid_rewrite in_all_links; [|exact Ho]. split.
    - intros [r [E [u [v [-> [Hr _]]]]]]. cbn in E. injection E as <- <- <-. split; [reflexivity|].
      apply HL. now apply (wh_links _ _ _ _ Hh).
    - intros [-> He]. exists [a; b]. split; [reflexivity|]. exists a, b. split; [reflexivity|]. split.
      + apply (wh_links _ _ _ _ Hh). now apply HL.
      + rewrite Hnf. easy. }
  split.
  - apply Forall_forall. intros [[a b] ds] H. apply in_flat_map in H as [y [Hyl H]].
    destruct (Hy y Hyl) as [p [rm [_ [_ [E [Hlf [Hnf _]]]]]]]. apply (Hin y p rm E Hlf Hnf a b ds) in H. destruct H as [-> H]. split; [reflexivity|]. exact (leafok_in _ _ _ _ _ _ _ Hlf H).
  - intros u v. rewrite in_flat_map. split.
    + intros [y [Hyl H]]. destruct (Hy y Hyl) as [p [rm [_ [Hc [E [Hlf [Hnf [Hpi Hpd]]]]]]]].
      pose proof (proj1 (Hin y p rm E Hlf Hnf u v []) H) as [_ H1]. apply effective_pattern in H1; auto. exists p. auto.
    + intros [p [Ha [->|Hc]]].
      * exfalso. assert (In k (mkeys mp)) by (apply (v_keys _ _ _ _ HI); eauto). apply mget_None in Hn. contradiction.
      * assert (Hpk : In p (mkeys mp)) by (apply (v_keys _ _ _ _ HI); eauto).
        destruct (proj1 (key_get mp p) Hpk) as [y Hg]. destruct Hc as [Hne [Hi Hm]].
        assert (Hyl : In y l).
        { apply Hl. exists p. split; [apply (v_pats _ _ _ _ HI); auto|auto]. }
        exists y. split; [exact Hyl|]. destruct (v_leaf _ _ _ _ HI p y Hg) as [rm [E [Hlf Hnf]]].
        apply (Hin y p rm E Hlf (Hnf Hi)). split; [reflexivity|]. exists p. auto.
Qed.

Lemma get_ok h mp pats c n ord k (store : bool) :
  good_order ord -> Inv h mp pats c -> uses h -> Dn k -> (store = false -> IsPattern dm k = false) ->
  exists mp1 pats1 c1 o,
    getRoleManager (i_AddLink (S n) ord) ord (root mp pats c) k store = Val (root mp1 pats1 c1, child dm level rmm o) /\
    cache_ok (Some dm) c1 /\ NoDup (mkeys mp1) /\
    (forall k', In k' (mkeys mp1) <-> In k' (mkeys mp) \/ (store = true /\ k' = k)) /\
    (forall k', k' <> k -> mget k' mp1 = mget k' mp) /\
    (forall p, In p pats1 <-> In p pats \/ (p = k /\ IsPattern dm k = true)) /\
    (mget k mp1 = None \/ exists o', mget k mp1 = Some (child dm level rmm o')) /\
    leafok level rmm N (cur level rmm o) (effective dm h k) /\
    (IsPattern dm k = true -> no_flags (rm_all (cur level rmm o))) /\
    (In k (mkeys mp) -> mget k mp1 = Some (child dm level rmm o) /\ o <> None).
Proof.
  intros Ho HI Hu Hk Hst. unfold getRoleManager. cbn [root d_map].
  assert (Hkd : k <> defaultDomain) by (intros ->; apply (Dun _ Hk); now left).
  destruct (mget k mp) as [y|] eqn:Eg.
  - destruct (v_leaf _ _ _ _ HI k y Eg) as [rm [-> [Hlf Hnf]]].
    exists mp, pats, c, (Some rm). split; [reflexivity|]. split; [apply HI|]. split; [apply HI|].
    assert (Hki : In k (mkeys mp)) by (apply key_get; eauto).
    split; [intros k'; split; [auto|intros [?|[_ ->]]; assumption]|]. split; [auto|].
    split; [intros p; split; [auto|intros [?|[-> Hi]]; [assumption|]; apply (v_pats _ _ _ _ HI); auto]|].
    split; [eauto|]. split; [exact Hlf|]. split; [exact Hnf|]. intros _. split; [exact Eg|discriminate].
  - rewrite new_child by exact Hkd.
    set (mp1 := if store then mput k (child dm level rmm None) mp else mp).
    assert (Er : (if store then d_with_map (root mp pats c) (mput k (child dm level rmm None) mp) else root mp pats c) = root mp1 pats c)
      by (unfold mp1; now destruct store).
    cbv zeta. unfold root in Er |- *. cbn [d_map] in Er |- *. rewrite Er. clear Er.
    change (d_dmatcher (mkDM mp1 pats level rmm (Some dm) c)) with (Some dm). cbn match.
    assert (Hnk : ~ In k (mkeys mp)) by now apply mget_None.
    assert (Hnd1 : NoDup (mkeys mp1)) by (unfold mp1; destruct store; [apply NoDup_mput|]; apply HI).
    assert (Hk1 : forall k', In k' (mkeys mp1) <-> In k' (mkeys mp) \/ (store = true /\ k' = k)).
    { intros k'. unfold mp1. destruct store; [rewrite In_mkeys_put; intuition congruence|intuition congruence]. }
    assert (Hg1 : forall k', k' <> k -> mget k' mp1 = mget k' mp).
    { intros k' Hne. unfold mp1. destruct store; [|reflexivity]. rewrite mget_put. destruct (String.eqb_spec k' k); [contradiction|reflexivity]. }
    assert (Hgk : mget k mp1 = None \/ exists o', mget k mp1 = Some (child dm level rmm o')).
    { unfold mp1. destruct store; [|auto]. rewrite mget_put, String.eqb_refl. eauto. }
    destruct (IsPattern dm k) eqn:Ei.
    + exists mp1, (sadd k pats), c, None. split; [reflexivity|]. split; [apply HI|]. split; [exact Hnd1|]. split; [exact Hk1|].
      split; [exact Hg1|]. split; [intros p; rewrite sadd_In; intuition|]. split; [exact Hgk|].
      split; [|split; [|intros H; contradiction]].
      * eapply leafok_ext; [apply leafok_new|]. intros u v. split; [tauto|]. intros He. exfalso.
        apply effective_pattern in He; auto. apply Hnk. apply (v_keys _ _ _ _ HI). eauto.
      * intros _ u. reflexivity.
    + destruct (dmatchingPatterns_ok dm k (Dplain k Hk) (ord pats) (root mp1 pats c) eq_refl (v_cache _ _ _ _ HI)) as [c1 [l [El [Hc1 Hl]]]].
      { intros p Hp. apply (Permutation_in _ (Ho pats)) in Hp. apply (v_pats _ _ _ _ HI) in Hp as [Hp Hi].
        assert (Hpk : p <> k) by congruence. split.
        - apply Dplain. apply (v_keys _ _ _ _ HI) in Hp as [a [b Ha]]. exact (Hu _ _ _ Ha).
        - cbn. rewrite Hg1 by exact Hpk. apply key_get in Hp as [y Hy]. congruence. }
      unfold root in El. cbn [d_patterns]. rewrite El. cbn [obind].
      assert (Hl' : forall y, In y l <-> exists p, In p pats /\ p <> k /\ Match dm k p = true /\ mget p mp = Some y).
      { intros y. rewrite Hl. cbn. split; intros [p [Hp [Hne [Hm Hg]]]]; exists p;
          (split; [first [exact (Permutation_in _ (Ho pats) Hp)|exact (Permutation_in _ (Permutation_sym (Ho pats)) Hp)]|]).
        - rewrite Hg1 in Hg by exact Hne. auto. - rewrite Hg1 by exact Hne. auto. }
      destruct (copied h mp pats c k ord l Ho HI Hu Hk Eg Hl') as [Hf Hcp].
      destruct (copy_ok dm level Hdef rmm N HN n ord (flat_map (i_links ord) l) None (fun _ _ => False) Ho Hf (leafok_new level rmm N)) as [o' [-> Hlf]].
      cbn [obind]. exists mp1, pats, c1, o'. split; [reflexivity|]. split; [exact Hc1|]. split; [exact Hnd1|]. split; [exact Hk1|].
      split; [exact Hg1|]. split; [intuition congruence|]. split; [exact Hgk|].
      split; [|split; [discriminate|intros H; contradiction]].
      eapply leafok_ext; [exact Hlf|]. intros u v. pose proof (Hcp u v) as Hcp'. split; [intros [[]|H]; apply Hcp'; exact H|intros H; right; apply Hcp'; exact H].
Qed.

Lemma effective_snoc h o a b k d u v :
  effective dm (h ++ [(o, DAdd a b [k])]) d u v <->
  (u = a /\ v = b /\ (k = d \/ covers dm k d)) \/ effective dm h d u v.
Proof.
  unfold effective, added_link. setoid_rewrite in_app_iff. cbn. split.
  - intros [k' [[o' [H|[H|[]]]] Hc]].
    + right. exists k'. split; [eauto|exact Hc].
    + injection H as _ <- <- <-. auto.
  - intros [[-> [-> Hc]]|[k' [[o' H] Hc]]].
    + exists k. split; [eauto|exact Hc]. + exists k'. split; [eauto|exact Hc].
Qed.
Lemma added_snoc h o a b k u v d :
  added_link (h ++ [(o, DAdd a b [k])]) u v d <-> (u = a /\ v = b /\ d = k) \/ added_link h u v d.
Proof.
  unfold added_link. setoid_rewrite in_app_iff. cbn. split.
  - intros [o' [H|[H|[]]]]; [eauto|]. injection H as _ <- <- <-. auto.
  - intros [[-> [-> ->]]|[o' H]]; eauto.
Qed.

Lemma getDomain_one k : Dn k -> getDomain [k] = (k, []).
Proof. intros H. cbn. destruct (String.eqb_spec k REDUNDANT_ROLE); [|reflexivity]. exfalso. apply (Dun _ H). now right. Qed.

(** Adding a link. *)
Lemma add_ok h mp pats c ord o0 a b k n :
  good_order ord -> N a -> N b -> Inv h mp pats c -> uses h -> Dn k ->
  exists mp' pats' c' r, i_AddLink (S (S n)) ord (IDom (root mp pats c)) a b [k] = Val (IDom (root mp' pats' c'), r) /\
    Inv (h ++ [(o0, DAdd a b [k])]) mp' pats' c' /\ (r = true <-> ~ effective dm h k a b).
Proof.
  intros Ho Na Nb HI Hu Hk. rewrite i_AddLink_S, (getDomain_one k Hk).
  destruct (get_ok h mp pats c n ord k true Ho HI Hu Hk ltac:(discriminate))
    as [mp1 [pats1 [c1 [o [Eg [Hc1 [Hnd1 [Hk1 [Hg1 [Hp1 [_ [Hlf [Hnf _]]]]]]]]]]]]].
  rewrite Eg. cbn [obind]. pose proof (child_add dm level Hdef rmm n ord o a b false Ho) as Eca.
  change (flag false) with (@nil string) in Eca. rewrite Eca. clear Eca Eg. change (@nil string) with (flag false).
  destruct (leaf_add level rmm N HN ord (cur level rmm o) _ a b false Ho Na Nb Hlf) as [rm1 [r [-> [Hlf1 [Hr Hnf1]]]]]. cbn [obind].
  set (mp2 := mput k (child dm level rmm (Some rm1)) mp1).
  assert (Epb : put_back (root mp1 pats1 c1) k (child dm level rmm (Some rm1)) = root mp2 pats1 c1).
  { unfold put_back. cbn [root d_map]. assert (mhas k mp1 = true) as ->; [|reflexivity].
    apply mhas_true. apply key_get. apply Hk1. auto. }
  rewrite Epb. unfold is_dpattern. cbn [root d_dmatcher].
  assert (Hk2 : forall k', In k' (mkeys mp2) <-> In k' (mkeys mp) \/ k' = k).
  { intros k'. unfold mp2. rewrite In_mkeys_put, Hk1. intuition. }
  assert (Hnd2 : NoDup (mkeys mp2)) by now apply NoDup_mput.
  assert (Hkeys : forall k', In k' (mkeys mp2) <-> exists u v, added_link (h ++ [(o0, DAdd a b [k])]) u v k').
  { intros k'. rewrite Hk2, (v_keys _ _ _ _ HI). setoid_rewrite added_snoc. split.
    - intros [[u [v H]]| ->]; [eauto|]. exists a, b. auto.
    - intros [u [v [[_ [_ ->]]|H]]]; eauto. }
  assert (Hpats : forall p, In p pats1 <-> In p (mkeys mp2) /\ IsPattern dm p = true).
  { intros p. rewrite Hp1, Hk2, (v_pats _ _ _ _ HI). split; [intros [?|[-> ?]]; tauto|].
    intros [[H|H] Hi]; [tauto|subst; auto]. }
  assert (Hold : forall k' y, k' <> k -> mget k' mp2 = Some y -> exists rm, y = child dm level rmm (Some rm) /\
     leafok level rmm N rm (effective dm h k') /\ (IsPattern dm k' = true -> no_flags (rm_all rm))).
  { intros k' y Hne. unfold mp2. rewrite mget_put. destruct (String.eqb_spec k' k); [contradiction|].
    rewrite Hg1 by exact Hne. apply (v_leaf _ _ _ _ HI). }
  assert (Hnew : forall y, mget k mp2 = Some y -> exists rm, y = child dm level rmm (Some rm) /\
     leafok level rmm N rm (effective dm (h ++ [(o0, DAdd a b [k])]) k) /\ (IsPattern dm k = true -> no_flags (rm_all rm))).
  { intros y. unfold mp2. rewrite mget_put, String.eqb_refl. intros [= <-]. exists rm1. split; [reflexivity|]. split.
    - eapply leafok_ext; [exact Hlf1|]. intros u v. rewrite effective_snoc. intuition.
    - intros Hi. apply Hnf1; auto. }
  assert (Hb : IsPattern dm k = true \/ IsPattern dm k = false) by (destruct (IsPattern dm k); auto).
  destruct Hb as [Ei|Ei]; rewrite Ei.
  - (* a pattern domain: the matching domains get the link too *)
    destruct (matchingRMs_ok dm k (Dplain k Hk) (ord (mkeys mp2)) (root mp2 pats1 c1) eq_refl Hc1) as [c2 [Em Hc2]].
    { intros k' H. apply (Permutation_in _ (Ho _)) in H. apply Hk2 in H as [H| ->]; [|now apply Dplain].
      apply Dplain. apply (v_keys _ _ _ _ HI) in H as [u [v H]]. exact (Hu _ _ _ H). }
    unfold root in Em |- *. cbn [d_map]. rewrite Em. cbn [obind]. set (l := filter _ _).
    assert (Hl : forall k', In k' l <-> In k' (mkeys mp2) /\ covers dm k k').
    { intros k'. unfold l. rewrite filter_In, andb_true_iff, negb_true_iff, String.eqb_neq. unfold covers. split.
      - intros [H1 [H2 H3]]. split; [exact (Permutation_in _ (Ho _) H1)|]. auto.
      - intros [H1 [H2 [_ H3]]]. split; [exact (Permutation_in _ (Permutation_sym (Ho _)) H1)|]. auto. }
    set (P := fun k' y => exists rm, y = child dm level rmm (Some rm) /\
                leafok level rmm N rm (effective dm (if string_dec k' k then h ++ [(o0, DAdd a b [k])] else h) k') /\
                (IsPattern dm k' = true -> no_flags (rm_all rm))).
    set (Q := fun k' y => exists rm, y = child dm level rmm (Some rm) /\
                leafok level rmm N rm (effective dm (h ++ [(o0, DAdd a b [k])]) k') /\ IsPattern dm k' = false).
    destruct (on_each_ok (fun rm => i_AddLink (S n) ord rm a b [REDUNDANT_ROLE]) P Q l
                (d_with_cache (mkDM mp2 pats1 level rmm (Some dm) c1) c2)) as [mp3 [Eo [Ek3 Hmp3]]].
    + unfold l. apply NoDup_filter'. eapply Permutation_NoDup; [symmetry; apply Ho|exact Hnd2].
    + intros k' y Hin [rm [-> [Hlf' Hnf']]]. apply Hl in Hin as [Hin Hcov].
      change [REDUNDANT_ROLE] with (flag true). rewrite child_add by assumption. cbn [cur].
      destruct (leaf_add level rmm N HN ord rm _ a b true Ho Na Nb Hlf') as [rm' [r' [-> [Hlf2 _]]]]. cbn [obind].
      do 2 eexists. split; [reflexivity|]. exists rm'. split; [reflexivity|].
      assert (Hne : k' <> k) by (destruct Hcov as [Hne _]; congruence). split.
      * eapply leafok_ext; [exact Hlf2|]. intros u v. rewrite effective_snoc.
        destruct (string_dec k' k); [contradiction|]. intuition.
      * destruct (IsPattern dm k') eqn:Ei'; [|reflexivity]. exfalso.
        apply (Dapart k k' Hk); [|exact Ei'|exact Hcov].
        apply Hk2 in Hin as [Hin|Hin]; [|congruence].
        apply (v_keys _ _ _ _ HI) in Hin as [u [v Hin]]. exact (Hu _ _ _ Hin).
    + cbn. intros k' y Hy. unfold P. destruct (string_dec k' k) as [->|Hne]; [exact (Hnew y Hy)|].
      now apply Hold.
    + cbn [app flag] in *. rewrite Eo. cbn [obind]. exists mp3, pats1, c2, r. split; [reflexivity|]. split; [|exact Hr].
      cbn [d_with_cache d_map] in Ek3. constructor; rewrite ?Ek3; auto.
      intros k' y Hy. specialize (Hmp3 k' y Hy).
      destruct (in_dec string_dec k' l) as [Hin|Hin].
      * destruct Hmp3 as [rm [-> [Hlf' Hi]]]. exists rm. split; [reflexivity|]. split; [exact Hlf'|]. congruence.
      * destruct Hmp3 as [rm [-> [Hlf' Hi]]]. exists rm. split; [reflexivity|]. split; [|exact Hi].
        destruct (string_dec k' k) as [->|Hne]; [exact Hlf'|].
        eapply leafok_ext; [exact Hlf'|]. intros u v. rewrite effective_snoc.
        assert (Hnc : ~ (k = k' \/ covers dm k k')).
        { intros [->|Hc]; [congruence|]. apply Hin, Hl. split; [|exact Hc]. rewrite <- Ek3. apply key_get. eauto. }
        tauto.
  - exists mp2, pats1, c1, r. split; [reflexivity|]. split; [|exact Hr]. constructor; auto.
    intros k' y Hy. destruct (string_dec k' k) as [->|Hne]; [exact (Hnew y Hy)|].
    destruct (Hold k' y Hne Hy) as [rm [-> [Hlf' Hi]]]. exists rm. split; [reflexivity|]. split; [|exact Hi].
    eapply leafok_ext; [exact Hlf'|]. intros u v. rewrite effective_snoc.
    assert (Hnc : ~ (k = k' \/ covers dm k k')) by (intros [->|[_ [Hc _]]]; congruence). tauto.
Qed.

(** Queries. *)
Definition leafq {A} (ask : rolemgr -> outcome (rolemgr * A)) : Prop :=
  forall rm E, leafok level rmm N rm E -> exists rm' a, ask rm = Val (rm', a) /\ leafok level rmm N rm' E /\
    (no_flags (rm_all rm) -> no_flags (rm_all rm')).

Lemma query_ok {A} (ask : rolemgr -> outcome (rolemgr * A)) h mp pats c ord k n :
  good_order ord -> Inv h mp pats c -> uses h -> Dn k -> IsPattern dm k = false -> leafq ask ->
  exists c' mp' pats' rm rm' a, i_query ask (S (S n)) ord (IDom (root mp pats c)) [k] = Val (IDom (root mp' pats' c'), a) /\
    Inv h mp' pats' c' /\ leafok level rmm N rm (effective dm h k) /\ ask rm = Val (rm', a).
Proof.
  intros Ho HI Hu Hk Hi Hq.
  rewrite i_query_S, (getDomain_one k Hk).
  destruct (get_ok h mp pats c n ord k false Ho HI Hu Hk (fun _ => Hi))
    as [mp1 [pats1 [c1 [o [Eg [Hc1 [Hnd1 [Hk1 [Hg1 [Hp1 [Hgk [Hlf [_ Hko]]]]]]]]]]]]].
  rewrite Eg. cbn [obind]. pose proof (child_query dm level Hdef rmm ask n ord o Ho) as Eq. rewrite Eq. clear Eq.
  destruct (Hq _ _ Hlf) as [rm' [a [Ea [Hlf' Hnf']]]]. rewrite Ea. cbn [obind].
  assert (Hsp : forall p, In p pats1 <-> In p pats) by (intros p; rewrite Hp1; intuition congruence).
  unfold put_back. cbn [root d_map]. rewrite mhas_get.
  destruct (in_dec string_dec k (mkeys mp)) as [Hin|Hin].
  - destruct (Hko Hin) as [Hkg Hne]. rewrite Hkg. destruct o as [rm|]; [|congruence].
    exists c1, (mput k (child dm level rmm (Some rm')) mp1), pats1, rm, rm', a. split; [reflexivity|].
    split; [|split; [exact Hlf|exact Ea]].
    assert (Hmk : mkeys (mput k (child dm level rmm (Some rm')) mp1) = mkeys mp1).
    { apply mkeys_put. apply key_get. eauto. }
    constructor; rewrite ?Hmk; auto.
    + intros k' y. rewrite mget_put. destruct (String.eqb_spec k' k) as [->|Hn].
      * intros [= <-]. exists rm'. split; [reflexivity|]. split; [exact Hlf'|congruence].
      * rewrite Hg1 by exact Hn. apply (v_leaf _ _ _ _ HI).
    + intros k'. rewrite Hk1, <- (v_keys _ _ _ _ HI). intuition congruence.
    + intros p. rewrite Hsp, (v_pats _ _ _ _ HI), Hk1. intuition congruence.
  - destruct (mget k mp1) as [y|] eqn:Eg1.
    + exfalso. assert (Hx : In k (mkeys mp1)) by (apply key_get; eauto). apply Hk1 in Hx as [Hx|[Hx _]]; [contradiction|discriminate].
    + exists c1, mp1, pats1, (cur level rmm o), rm', a. split; [reflexivity|]. split; [|split; [exact Hlf|exact Ea]].
      constructor; auto.
      * intros k' y Hy. destruct (string_dec k' k) as [->|Hn]; [congruence|]. rewrite Hg1 in Hy by exact Hn. now apply (v_leaf _ _ _ _ HI).
      * intros k'. rewrite Hk1, <- (v_keys _ _ _ _ HI). intuition congruence.
      * intros p. rewrite Hsp, (v_pats _ _ _ _ HI), Hk1. intuition congruence.
Qed.

Lemma leafq_rstep ord c : good_order ord -> (forall n, In n (call_names c) -> N n) -> is_query c -> leafq (fun rm => rstep ord rm c).
Proof.
  intros Ho Hn Hq rm E H. pose proof (leafok_names _ _ _ HN _ _ H) as HA. destruct H as [[L [K [Hh HL]]] Hm Hl].
  destruct (wholds_step _ rm L K ord c HA Ho Hh Hn) as [rm' [x [Es [Hh' [Hm' [Hl' _]]]]]].
  exists rm', x. split; [exact Es|]. split.
  - constructor; [|congruence|congruence]. exists (links_step L c), (names_step K c). split; [exact Hh'|].
    intros u v. destruct c; cbn in Hq; try contradiction; cbn; apply HL.
  - intros Hf. eapply (wno_flags_step N rm L K ord c rm' x HA Ho Hh Hn); auto.
    destruct c; cbn in *; auto; contradiction.
Qed.

Lemma Inv_query h o c0 mp pats c : Inv h mp pats c -> is_dquery c0 -> Inv (h ++ [(o, c0)]) mp pats c.
Proof.
  intros [A B C D E] Hq.
  assert (Ha : forall u v k, added_link (h ++ [(o, c0)]) u v k <-> added_link h u v k).
  { intros u v k. unfold added_link. setoid_rewrite in_app_iff. cbn. split; [|intros [o' H]; eauto].
    intros [o' [H|[H|[]]]]; [eauto|]. injection H as _ ->. destruct Hq. }
  constructor; auto.
  - intros k y Hy. destruct (C k y Hy) as [rm [-> [Hlf Hnf]]]. exists rm. split; [reflexivity|]. split; [|exact Hnf].
    eapply leafok_ext; [exact Hlf|]. intros u v. unfold effective. setoid_rewrite Ha. reflexivity.
  - intros k. rewrite D. setoid_rewrite Ha. reflexivity.
Qed.

Lemma i_query_map {A B} (g : A -> B) (ask : rolemgr -> outcome (rolemgr * A)) n ord : forall x ds,
  i_query (fun rm => let! (rm, a) := ask rm in Val (rm, g a)) n ord x ds =
  (let! (x, a) := i_query ask n ord x ds in Val (x, g a)).
Proof.
  induction n as [|n IH]; intros [rm|d] ds; cbn [i_query].
  - destruct (ask rm) as [[? ?]|]; reflexivity.
  - reflexivity.
  - destruct (ask rm) as [[? ?]|]; reflexivity.
  - destruct (getDomain ds) as [domain sub].
    destruct (getRoleManager (i_AddLink n ord) ord d domain false) as [[d' x]|]; cbn [obind]; [|reflexivity].
    rewrite IH. destruct (i_query ask n ord x sub) as [[? ?]|]; reflexivity.
Qed.

Lemma dstep_query ord x c ds : is_dquery c -> call_domains c = Some ds ->
  dstep ord x c = i_query (fun rm => rstep ord rm (without_domains c)) (fuel x ds) ord x ds.
Proof.
  intros Hq Ec. destruct c; cbn in Hq; try contradiction; cbn in Ec; injection Ec as ->; cbn [dstep without_domains rstep]; symmetry.
  - exact (i_query_map ABool (fun rm => rm_HasLink ord rm a b) (fuel x ds) ord x ds).
  - exact (i_query_map ANames (fun rm => rm_GetRoles ord rm a) (fuel x ds) ord x ds).
  - exact (i_query_map ANames (fun rm => rm_GetUsers ord rm a) (fuel x ds) ord x ds).
Qed.

(** Whole histories. *)
Lemma hist_inv : forall h2 h1 mp pats c,
  good_d h2 -> Forall (fun x => add_only dm (snd x)) h2 -> (forall k, In k (domains_of h2) -> Dn k) ->
  (forall n, In n (mentioned_d h2) -> N n) -> uses h1 -> Inv h1 mp pats c ->
  exists mp' pats' c' xs, dexec (IDom (root mp pats c)) h2 = Val (IDom (root mp' pats' c'), xs) /\
    List.length xs = List.length h2 /\
    Inv (h1 ++ h2) mp' pats' c' /\ uses (h1 ++ h2).
Proof.
  induction h2 as [|[o c0] h2 IH]; intros h1 mp pats c Hg Ha Hd Hn Hu HI; cbn [dexec].
  - exists mp, pats, c, []. rewrite app_nil_r. auto.
  - inversion Hg as [|? ? Ho Hg']; inversion Ha as [|? ? Hc Ha']; subst. cbn [fst snd] in *.
    assert (Hd' : forall k, In k (domains_of h2) -> Dn k) by (intros k H; apply Hd; cbn; apply in_or_app; auto).
    assert (Hn1 : forall n, In n (call_names (without_domains c0)) -> N n) by (intros n H; apply Hn; cbn; apply in_or_app; now left).
    assert (Hn' : forall n, In n (mentioned_d h2) -> N n) by (intros n H; apply Hn; cbn; apply in_or_app; now right).
    assert (Hstep : exists mp1 pats1 c1 x, dstep o (IDom (root mp pats c)) c0 = Val (IDom (root mp1 pats1 c1), x) /\
              Inv (h1 ++ [(o, c0)]) mp1 pats1 c1 /\ uses (h1 ++ [(o, c0)])).
    { assert (Hq : forall ds, is_dquery c0 -> call_domains c0 = Some ds -> (exists k, ds = [k] /\ Dn k /\ IsPattern dm k = false) ->
        exists mp1 pats1 c1 x, dstep o (IDom (root mp pats c)) c0 = Val (IDom (root mp1 pats1 c1), x) /\
              Inv (h1 ++ [(o, c0)]) mp1 pats1 c1 /\ uses (h1 ++ [(o, c0)])).
      { intros ds Hq Ec [k [-> [Hk Hi]]]. rewrite (dstep_query o _ c0 [k] Hq Ec).
        destruct (query_ok (fun rm => rstep o rm (without_domains c0)) h1 mp pats c o k (i_depth (IDom (root mp pats c)) + 1) Ho HI Hu Hk Hi)
          as [c1 [mp1 [pats1 [rm [rm' [a [E [HI1 _]]]]]]]].
        { apply leafq_rstep; [exact Ho|exact Hn1|]. destruct c0; cbn in *; auto; contradiction. }
        exists mp1, pats1, c1, a. split; [exact E|]. split; [now apply Inv_query|].
        intros u v k' [o' H]. apply in_app_iff in H as [H|[H|[]]]; [eapply Hu; exists o'; exact H|]. injection H as _ ->. destruct Hq. }
      destruct c0 as [a b ds|a b ds|a b ds|a ds|a ds|]; cbn in Hc; try contradiction;
        destruct ds as [|k [|k2 ds]]; try contradiction; assert (Hk : Dn k) by (apply Hd; cbn; auto).
      - destruct (add_ok h1 mp pats c o o a b k (i_depth (IDom (root mp pats c)) + 1) Ho (Hn1 _ (or_introl eq_refl)) (Hn1 _ (or_intror (or_introl eq_refl))) HI Hu Hk) as [mp1 [pats1 [c1 [r [E [HI1 _]]]]]].
        exists mp1, pats1, c1, (ABool r). split; [|split; [exact HI1|]].
        + cbn [dstep]. unfold i_Add, fuel. cbn [List.length]. rewrite E. reflexivity.
        + intros u v k' H. apply added_snoc in H as [[_ [_ ->]]|H]; [exact Hk|eapply Hu; exact H].
      - apply (Hq [k]); cbn; eauto.
      - apply (Hq [k]); cbn; eauto.
      - apply (Hq [k]); cbn; eauto. }
    destruct Hstep as [mp1 [pats1 [c1 [x [E [HI1 Hu1]]]]]]. rewrite E. cbn [obind].
    destruct (IH _ mp1 pats1 c1 Hg' Ha' Hd' Hn' Hu1 HI1) as [mp2 [pats2 [c2 [xs [E2 [Hlen [HI2 Hu2]]]]]]].
    rewrite E2. cbn [obind]. rewrite <- app_assoc in HI2, Hu2. cbn in HI2, Hu2.
    exists mp2, pats2, c2, (x :: xs). cbn [List.length]. auto.
Qed.

Lemma Inv_start : Inv [] [] [] (NewLRUCache 100).
Proof.
  constructor; [apply cache_ok_new|constructor|discriminate| |].
  - intros k. cbn. split; [tauto|intros [a [b [o []]]]].
  - intros p. cbn. tauto.
Qed.
End WithMatcher.
