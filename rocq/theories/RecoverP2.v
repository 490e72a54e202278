(** What every call leaves behind, whether it returned or panicked. *)
From Verif Require Import GoBase GoBaseP PolicyM CacheM CacheSpec PathM RbacM RbacSpec RbacP RbacP2 RbacP3
  RecoverM RecoverSpec RecoverP.
From Verif Require CacheP.

Section Inv.
  Context (fails : string -> string -> bool) (mm : imatcher) (F : Prop).

  (** Cached answers are right, and no panicking pair is cached. *)
  Definition qc (c : lru bool) : Prop :=
    l_cap c = 100 /\ exists ns l, CacheP.rep c ns l /\ List.length l <= 100 /\
      forall k b s p, In (k, b) l -> plain s -> plain p -> k = join "$$" [s; p] ->
        b = Match mm s p /\ fails s p = false.

  Lemma qc_ok c : qc c -> cache_ok (Some mm) c.
  Proof.
    intros [H [ns [l [R [Hl Hk]]]]]. split; [exact H|]. exists ns, l. split; [exact R|]. split; [exact Hl|].
    intros k b s p A B D E. now destruct (Hk k b s p A B D E).
  Qed.
  Lemma qc_new : qc (NewLRUCache 100).
  Proof.
    split; [reflexivity|]. exists [], []. split; [apply CacheP.rep_new|]. split; [cbn; lia|]. intros k b s p [].
  Qed.

  Lemma q_match_ok rm s p :
    rm_matcher rm = Some mm -> qc (rm_cache rm) -> plain s -> plain p ->
    exists c', q_match fails rm s p = (with_cache rm c', if fails s p then None else Some (Match mm s p)) /\ qc c'.
  Proof.
    intros Hm [Hcap [ns [l [R [Hlen Hok]]]]] Hs Hp.
    unfold q_match. set (key := join "$$" [s; p]).
    destruct (CacheP.Get_rep (rm_cache rm) ns l key R) as [c1 [ns1 [-> [Hc1 R1]]]].
    destruct (mget key l) as [b|] eqn:E.
    - destruct (Hok key b s p (mget_In _ _ _ E) Hs Hp eq_refl) as [-> ->].
      exists c1. split; [reflexivity|].
      split; [congruence|]. exists ns1, (touch key l). split; [exact R1|].
      split; [pose proof (touch_length key l); lia|]. intros k b' s' p' Hin. apply touch_In in Hin. eauto.
    - rewrite Hm. assert (Ht : touch key l = l) by (unfold touch; now rewrite E). rewrite Ht in R1.
      assert (Q1 : qc c1).
      { split; [congruence|]. exists ns1, l. auto. }
      destruct (fails s p) eqn:Ef; [exists c1; auto|].
      destruct (CacheP.Put_rep c1 ns1 l key (Match mm s p) ltac:(lia) R1 ltac:(lia)) as [c2 [ns2 [-> [Hc2 R2]]]].
      exists c2. split; [reflexivity|].
      split; [congruence|]. exists ns2, (lru_put_keep (l_cap c1) key (Match mm s p) l).
      split; [exact R2|]. unfold lru_put_keep. rewrite E, Hc1, Hcap. split.
      + destruct (Nat.leb_spec 100 (List.length l)); cbn; [|lia].
        assert (l <> []) by (intros ->; cbn in *; lia). rewrite removelast_length; [lia|assumption].
      + intros k b' s' p' Hin Hs' Hp' Hk. assert (Hin' : (key, Match mm s p) = (k, b') \/ In (k, b') l).
        { destruct Hin as [Hin|Hin]; [now left|right]. destruct (Nat.leb 100 (List.length l)); [|exact Hin].
          clear -Hin. induction l as [|x l IH]; [easy|]. destruct l as [|y l]; [easy|].
          destruct Hin as [->|Hin]; [now left|right; auto]. }
        destruct Hin' as [Heq|Hin']; [|eauto]. injection Heq as <- <-. subst key.
        destruct (key_inj s' p' s p Hs' Hp' (eq_sym Hk)) as [-> ->]. auto.
  Qed.

  Record inv (L : linkset) (rm : rolemgr) : Prop := mkInv {
    i_m : rm_matcher rm = Some mm;
    i_core : core (rm_all rm) (rm_patterns rm);
    i_qc : qc (rm_cache rm);
    i_ok : forall n, known n (rm_all rm) -> plain n;
    i_links : forall a b, In b (rl (rm_all rm) a) <-> L a b = true;
    i_pats : forall p, In p (rm_patterns rm) <-> known p (rm_all rm) /\ IsPattern mm p = true;
    i_mt : forall p x, In x (mt (rm_all rm) p) -> covers mm p x;
    i_rd : F -> forall x, rd (rm_all rm) x = []
  }.

  Lemma inv_wf L rm : inv L rm -> wf rm.
  Proof.
    intros I. constructor.
    - apply I.
    - rewrite (i_m _ _ I). apply qc_ok, I.
    - intros n H. rewrite (i_m _ _ I). cbn. now apply (i_ok _ _ I).
  Qed.

  Lemma inv_cache L rm c : inv L rm -> qc c -> inv L (with_cache rm c).
  Proof. intros [] H. constructor; auto. Qed.

  Lemma inv_start level : inv no_links (newRoleManagerWithMatchingFunc level (Some mm)).
  Proof.
    constructor; cbn; try reflexivity.
    - apply core_nil.
    - apply qc_new.
    - intros n [].
    - intros a b. split; [intros []|discriminate].
    - intros p. split; [intros []|intros [[] _]].
    - intros p x [].
  Qed.

  Lemma core_addMatch all pats a b : known a all -> known b all -> a <> b ->
    core all pats -> core (addMatch all a b) pats.
  Proof.
    intros Ha Hb Hne C. pose proof (fun x => views_addMatch all a b x Ha Hb) as V. constructor.
    - rewrite keys_addMatch. apply C.
    - intros x y. destruct (V x) as [-> _], (V y) as [_ [-> _]]. apply C.
    - intros x y. destruct (V x) as [_ [_ [_ [-> _]]]], (V y) as [_ [_ [_ [_ ->]]]].
      pose proof (c_msym _ _ C x y) as H.
      destruct (String.eqb_spec x a) as [->|Nx], (String.eqb_spec y b) as [->|Ny]; rewrite ?sadd_In, ?H.
      + intuition.
      + intuition; subst; congruence.
      + intuition; subst; congruence.
      + tauto.
    - intros x. destruct (V x) as [_ [_ [_ [-> _]]]]. destruct (String.eqb_spec x a) as [->|]; [|apply C].
      rewrite sadd_In. intros [H|H]; [congruence|now apply (c_irr _ _ C) in H].
    - intros x. destruct (V x) as [-> _]. apply C.
    - intros x. destruct (V x) as [_ [-> _]]. apply C.
    - intros p Hp. apply known_addMatch. now apply C.
    - apply C.
  Qed.

  Lemma inv_addMatch L rm p x : inv L rm -> known p (rm_all rm) -> known x (rm_all rm) -> covers mm p x ->
    inv L (with_all rm (addMatch (rm_all rm) p x)).
  Proof.
    intros I Hp Hx Hc. pose proof (fun y => views_addMatch (rm_all rm) p x y Hp Hx) as V.
    constructor; cbn [rm_matcher rm_all rm_patterns rm_cache with_all].
    - apply I.
    - apply core_addMatch; auto; [apply Hc|apply I].
    - apply I.
    - intros n Hn. apply (i_ok _ _ I). now apply known_addMatch in Hn.
    - intros a b. destruct (V a) as [-> _]. apply I.
    - intros q. rewrite known_addMatch. apply I.
    - intros q y. destruct (V q) as [_ [_ [_ [-> _]]]]. destruct (String.eqb_spec q p) as [->|]; [|apply I].
      rewrite sadd_In. intros [->|H]; [exact Hc|now apply (i_mt _ _ I)].
    - intros HF y. destruct (V y) as [_ [_ [-> _]]]. now apply I.
  Qed.

  Lemma inv_new L rm n : inv L rm -> ~ known n (rm_all rm) -> plain n ->
    inv L (with_patterns (with_all rm (mput n newRole (rm_all rm)))
             (if IsPattern mm n then sadd n (rm_patterns rm) else rm_patterns rm)).
  Proof.
    intros I Hu Hn. set (all1 := mput n newRole (rm_all rm)).
    assert (R1 : forall x, role_of all1 x = role_of (rm_all rm) x).
    { intros x. unfold all1. rewrite role_of_put. destruct (String.eqb_spec x n) as [->|]; [|reflexivity].
      symmetry. now apply role_of_unknown. }
    assert (V1 : forall x, rl all1 x = rl (rm_all rm) x /\ us all1 x = us (rm_all rm) x /\ rd all1 x = rd (rm_all rm) x /\
                           mt all1 x = mt (rm_all rm) x /\ mb all1 x = mb (rm_all rm) x).
    { intros x. unfold rl, us, rd, mt, mb. rewrite R1. auto 6. }
    pose proof (i_core _ _ I) as C.
    assert (HP : forall p, In p (if IsPattern mm n then sadd n (rm_patterns rm) else rm_patterns rm) <->
                   known p all1 /\ IsPattern mm p = true).
    { intros p. unfold all1. rewrite known_put. pose proof (i_pats _ _ I p) as Hp.
      destruct (IsPattern mm n) eqn:En; rewrite ?sadd_In, Hp; intuition; subst; congruence. }
    constructor; cbn [rm_matcher rm_all rm_patterns rm_cache with_all with_patterns].
    - apply I.
    - constructor.
      + unfold all1. apply NoDup_mput, C.
      + intros a b. destruct (V1 a) as [-> _], (V1 b) as [_ [-> _]]. apply C.
      + intros a b. destruct (V1 a) as [_ [_ [_ [-> _]]]], (V1 b) as [_ [_ [_ [_ ->]]]]. apply C.
      + intros a. destruct (V1 a) as [_ [_ [_ [-> _]]]]. apply C.
      + intros a. destruct (V1 a) as [-> _]. apply C.
      + intros a. destruct (V1 a) as [_ [-> _]]. apply C.
      + intros p Hp. now apply HP in Hp.
      + destruct (IsPattern mm n); [apply NoDup_sadd|]; apply C.
    - apply I.
    - intros x Hx. apply known_put in Hx as [->|Hx]; [exact Hn|now apply (i_ok _ _ I)].
    - intros a b. destruct (V1 a) as [-> _]. apply I.
    - exact HP.
    - intros p x. destruct (V1 p) as [_ [_ [_ [-> _]]]]. apply I.
    - intros HF x. destruct (V1 x) as [_ [_ [-> _]]]. now apply I.
  Qed.

  Definition same_names (rm rm' : rolemgr) : Prop :=
    mkeys (rm_all rm') = mkeys (rm_all rm) /\ rm_level rm' = rm_level rm.
  Lemma same_names_trans a b c : same_names a b -> same_names b c -> same_names a c.
  Proof. unfold same_names. intuition congruence. Qed.
  Lemma same_names_known a b n : same_names a b -> known n (rm_all b) <-> known n (rm_all a).
  Proof. intros [H _]. unfold known. now rewrite H. Qed.

  Lemma q_roles_inv L pattern names : forall rm rm' r, inv L rm ->
    known pattern (rm_all rm) -> IsPattern mm pattern = true -> (forall x, In x names -> known x (rm_all rm)) ->
    q_roles fails rm pattern names = (rm', r) ->
    inv L rm' /\ same_names rm rm' /\
    r = if existsb (fun x => negb (String.eqb pattern x) && fails x pattern) names then None else Some tt.
  Proof.
    induction names as [|n names IH]; intros rm rm' r I Hp Hpat Hn; cbn.
    { intros H. injection H as <- <-. split; [exact I|]. split; [split; reflexivity|reflexivity]. }
    destruct (String.eqb_spec pattern n) as [->|Hne]; cbn [negb andb orb].
    { apply IH; auto. intros x Hx. apply Hn. now right. }
    assert (Hkn : known n (rm_all rm)) by (apply Hn; now left).
    destruct (q_match_ok rm n pattern (i_m _ _ I) (i_qc _ _ I) (i_ok _ _ I _ Hkn) (i_ok _ _ I _ Hp)) as [c' [E Q]].
    rewrite E. unfold pbind. cbn [fst snd]. destruct (fails n pattern).
    { cbn [orb]. intros H. injection H as <- <-. split; [now apply inv_cache|]. split; [split; reflexivity|reflexivity]. }
    cbn [orb]. intros H. pose proof (inv_cache _ _ _ I Q) as I1.
    destruct (Match mm n pattern) eqn:Em.
    - assert (I2 := inv_addMatch _ _ pattern n I1 Hp Hkn (conj Hne (conj Hpat Em))).
      apply IH in H; auto.
      + destruct H as [A [B D]]. split; [exact A|]. split; [|exact D].
        eapply same_names_trans; [|exact B]. split; [apply keys_addMatch|reflexivity].
      + now apply known_addMatch.
      + intros x Hx. apply known_addMatch. apply Hn. now right.
    - apply IH in H; auto. intros x Hx. apply Hn. now right.
  Qed.

  Lemma q_patterns_inv L name pats : forall rm rm' r, inv L rm ->
    known name (rm_all rm) -> (forall p, In p pats -> known p (rm_all rm) /\ IsPattern mm p = true) ->
    q_patterns fails rm name pats = (rm', r) ->
    inv L rm' /\ same_names rm rm' /\
    r = if existsb (fun p => negb (String.eqb p name) && fails name p) pats then None else Some tt.
  Proof.
    induction pats as [|p pats IH]; intros rm rm' r I Hk Hn; cbn.
    { intros H. injection H as <- <-. split; [exact I|]. split; [split; reflexivity|reflexivity]. }
    destruct (String.eqb_spec p name) as [->|Hne]; cbn [negb andb orb].
    { apply IH; auto. intros x Hx. apply Hn. now right. }
    destruct (Hn p ltac:(now left)) as [Hkp Hpp].
    destruct (q_match_ok rm name p (i_m _ _ I) (i_qc _ _ I) (i_ok _ _ I _ Hk) (i_ok _ _ I _ Hkp)) as [c' [E Q]].
    rewrite E. unfold pbind. cbn [fst snd]. destruct (fails name p).
    { cbn [orb]. intros H. injection H as <- <-. split; [now apply inv_cache|]. split; [split; reflexivity|reflexivity]. }
    cbn [orb]. cbn [rm_all with_cache]. rewrite (proj2 (mhas_known p (rm_all rm)) Hkp), andb_false_r.
    intros H. pose proof (inv_cache _ _ _ I Q) as I1.
    destruct (Match mm name p) eqn:Em.
    - assert (I2 := inv_addMatch _ _ p name I1 Hkp Hk (conj Hne (conj Hpp Em))).
      apply IH in H; auto.
      + destruct H as [A [B D]]. split; [exact A|]. split; [|exact D].
        eapply same_names_trans; [|exact B]. split; [apply keys_addMatch|reflexivity].
      + now apply known_addMatch.
      + intros x Hx. cbn [rm_all with_all]. rewrite known_addMatch. apply Hn. now right.
    - apply IH in H; auto. intros x Hx. apply Hn. now right.
  Qed.

  (** Looking up the unknown name [n] calls the matching function on a pair it
      panics on. *)
  Definition trips (all : smap role) (n : string) : Prop :=
    (IsPattern mm n = true /\ exists x, known x all /\ fails x n = true) \/
    (IsPattern mm n = false /\ exists p, known p all /\ IsPattern mm p = true /\ fails n p = true).

  Lemma q_getRole_inv L ord rm n rm' r : good_order ord -> inv L rm -> plain n ->
    q_getRole fails ord rm n = (rm', r) ->
    inv L rm' /\ (forall x, known x (rm_all rm') <-> x = n \/ known x (rm_all rm)) /\
    rm_level rm' = rm_level rm /\
    (r = None <-> ~ known n (rm_all rm) /\ trips (rm_all rm) n) /\
    (forall b, r = Some b ->
       rm' = mkRM (fst (fullget ord rm n)) (snd (fullget ord rm n)) (rm_level rm) (rm_matcher rm) (rm_cache rm') /\
       b = negb (mhas n (rm_all rm))).
  Proof.
    intros Ho I Hn H.
    assert (G : forall b, r = Some b ->
       rm' = mkRM (fst (fullget ord rm n)) (snd (fullget ord rm n)) (rm_level rm) (rm_matcher rm) (rm_cache rm') /\
       b = negb (mhas n (rm_all rm))).
    { intros b ->. apply q_getRole_val in H.
      destruct (getRole_pure ord rm n Ho (inv_wf _ _ I)) as [c' [E _]].
      { rewrite (i_m _ _ I). exact Hn. }
      rewrite E in H. injection H as <- <-. split; reflexivity. }
    revert H. unfold q_getRole. destruct (mhas n (rm_all rm)) eqn:Ek.
    { intros H. injection H as <- <-. apply mhas_known in Ek. split; [exact I|]. split.
      - intros x. intuition. now subst.
      - split; [reflexivity|]. split; [|exact G]. split; [discriminate|tauto]. }
    apply mhas_unknown in Ek. pose proof (inv_new _ _ _ I Ek Hn) as I1.
    cbn [rm_matcher with_all]. rewrite (i_m _ _ I) in G |- *.
    assert (Hio : forall l x, In x (ord l) <-> In x l).
    { intros l x. split; apply Permutation_in; [|symmetry]; apply Ho. }
    assert (Hex : forall f l, existsb f (ord l) = true <-> exists x, In x l /\ f x = true).
    { intros f l. rewrite existsb_exists. split; intros [x [A B]]; exists x; (split; [now apply Hio|exact B]). }
    destruct (IsPattern mm n) eqn:Ep; intros H.
    - destruct (q_roles fails _ n _) as [s u] eqn:Eq. cbn [rm_all with_all with_patterns rm_patterns] in *.
      apply (q_roles_inv L) in Eq as [A [B D]];
        [|exact I1|apply known_put; now left|exact Ep|intros x Hx; exact (proj1 (Hio _ _) Hx)].
      assert (Kx : forall x, known x (rm_all s) <-> x = n \/ known x (rm_all rm)).
      { intros x. rewrite (same_names_known _ _ x B). cbn [rm_all with_patterns with_all]. apply known_put. }
      assert (Lv : rm_level s = rm_level rm) by apply B.
      unfold pbind in H. cbn [fst snd] in H.
      assert (T : u = None <-> ~ known n (rm_all rm) /\ trips (rm_all rm) n).
      { rewrite D. destruct (existsb _ _) eqn:Ex.
        - apply Hex in Ex as [x [Hx Hf]]. apply andb_true_iff in Hf as [Hf1 Hf2].
          apply negb_true_iff, String.eqb_neq in Hf1. split; [intros _|reflexivity]. split; [exact Ek|].
          left. split; [exact Ep|]. exists x. split; [|exact Hf2]. apply known_put in Hx as [Hx|Hx]; congruence.
        - split; [discriminate|]. intros [_ [[_ [x [Hx Hf]]]|[E0 _]]]; [|congruence]. exfalso.
          assert (Ht : existsb (fun x => negb (String.eqb n x) && fails x n)
                         (ord (mkeys (mput n newRole (rm_all rm)))) = true).
          { apply Hex. exists x. split; [apply known_put; now right|]. rewrite Hf, andb_true_r.
            apply negb_true_iff, String.eqb_neq. intros ->. contradiction. }
          congruence. }
      destruct u as [[]|]; injection H as <- <-.
      + split; [exact A|]. split; [exact Kx|]. split; [exact Lv|]. split; [|exact G].
        split; [discriminate|]. intros X. apply T in X. discriminate.
      + split; [exact A|]. split; [exact Kx|]. split; [exact Lv|]. split; [|exact G].
        split; [intros _; now apply T|reflexivity].
    - assert (Ew : with_patterns (with_all rm (mput n newRole (rm_all rm))) (rm_patterns rm)
                   = with_all rm (mput n newRole (rm_all rm))) by reflexivity.
      rewrite Ew in I1.
      destruct (q_patterns fails _ n _) as [s u] eqn:Eq. cbn [rm_all with_all with_patterns rm_patterns] in *.
      apply (q_patterns_inv L) in Eq as [A [B D]];
        [|exact I1|apply known_put; now left|intros x Hx; apply (i_pats _ _ I1); exact (proj1 (Hio _ _) Hx)].
      assert (Kx : forall x, known x (rm_all s) <-> x = n \/ known x (rm_all rm)).
      { intros x. rewrite (same_names_known _ _ x B). cbn [rm_all with_patterns with_all]. apply known_put. }
      assert (Lv : rm_level s = rm_level rm) by apply B.
      unfold pbind in H. cbn [fst snd] in H.
      assert (T : u = None <-> ~ known n (rm_all rm) /\ trips (rm_all rm) n).
      { rewrite D. destruct (existsb _ _) eqn:Ex.
        - apply Hex in Ex as [x [Hx Hf]]. apply andb_true_iff in Hf as [Hf1 Hf2].
          apply negb_true_iff, String.eqb_neq in Hf1. split; [intros _|reflexivity]. split; [exact Ek|].
          right. split; [exact Ep|]. exists x. apply (i_pats _ _ I) in Hx as [Hx1 Hx2]. auto.
        - split; [discriminate|]. intros [_ [[E0 _]|[_ [x [Hx [Hpx Hf]]]]]]; [congruence|]. exfalso.
          assert (Ht : existsb (fun p => negb (String.eqb p n) && fails n p) (ord (rm_patterns rm)) = true).
          { apply Hex. exists x. split; [now apply (i_pats _ _ I)|]. rewrite Hf, andb_true_r.
            apply negb_true_iff, String.eqb_neq. intros ->. contradiction. }
          congruence. }
      destruct u as [[]|]; injection H as <- <-.
      + split; [exact A|]. split; [exact Kx|]. split; [exact Lv|]. split; [|exact G].
        split; [discriminate|]. intros X. apply T in X. discriminate.
      + split; [exact A|]. split; [exact Kx|]. split; [exact Lv|]. split; [|exact G].
        split; [intros _; now apply T|reflexivity].
  Qed.

  (** The search touches nothing but the cache. *)
  Lemma q_level_inv L ord target roles : forall rm next rm' r, inv L rm -> plain target ->
    (forall x, In x roles -> plain x) ->
    q_level fails ord rm target roles next = (rm', r) ->
    exists c', rm' = with_cache rm c' /\ qc c' /\ (r = None -> exists x, fails x target = true) /\
      (forall l, r = Some (Some l) -> forall y, In y l -> In y next \/ exists x, In y (rangeRoles ord (rm_all rm) x)).
  Proof.
    induction roles as [|x roles IH]; intros rm next rm' r I Ht Hr; cbn [q_level].
    { intros H. injection H as <- <-. exists (rm_cache rm). split; [now destruct rm|]. split; [apply I|].
      split; [discriminate|]. intros l [= <-] y Hy. now left. }
    destruct (String.eqb target x).
    { unfold pbind. cbn [fst snd]. intros H. injection H as <- <-. exists (rm_cache rm). split; [now destruct rm|].
      split; [apply I|]. split; [discriminate|]. discriminate. }
    unfold q_match_if_set. rewrite (i_m _ _ I).
    destruct (q_match_ok rm x target (i_m _ _ I) (i_qc _ _ I) (Hr x ltac:(now left)) Ht) as [c' [E Q]].
    rewrite E. unfold pbind. cbn [fst snd]. destruct (fails x target) eqn:Ef.
    { intros H. injection H as <- <-. exists c'. split; [reflexivity|]. split; [exact Q|]. split; [eauto|discriminate]. }
    destruct (Match mm x target).
    { intros H. injection H as <- <-. exists c'. split; [reflexivity|]. split; [exact Q|]. split; discriminate. }
    intros H. apply IH in H; [|now apply inv_cache|exact Ht|intros y Hy; apply Hr; now right].
    destruct H as [c2 [-> [Q2 [N2 S2]]]]. exists c2. split; [reflexivity|]. split; [exact Q2|]. split; [exact N2|].
    intros l Hl y Hy. destruct (S2 l Hl y Hy) as [Hy'|[z Hz]].
    - apply fold_sadd_In in Hy' as [Hy'|Hy']; [now left|]. right. exists x. exact Hy'.
    - right. now exists z.
  Qed.

  Lemma q_helper_inv L ord target : good_order ord -> forall level rm roles rm' r, inv L rm -> plain target ->
    (forall x, In x roles -> plain x) ->
    q_helper fails ord level rm target roles = (rm', r) ->
    exists c', rm' = with_cache rm c' /\ qc c' /\ (r = None -> exists x, fails x target = true).
  Proof.
    intros Ho. induction level as [|level IH]; intros rm roles rm' r I Ht Hr; cbn [q_helper].
    { intros H. injection H as <- <-. exists (rm_cache rm). split; [now destruct rm|]. split; [apply I|discriminate]. }
    destruct roles as [|r0 roles'].
    { intros H. injection H as <- <-. exists (rm_cache rm). split; [now destruct rm|]. split; [apply I|discriminate]. }
    set (roles := r0 :: roles') in *.
    destruct (q_level fails ord rm target (ord roles) []) as [s nx] eqn:E.
    apply (q_level_inv L) in E as [c' [-> [Q [N S]]]]; auto.
    2:{ intros x Hx. apply Hr. eapply Permutation_in; [apply Ho|exact Hx]. }
    unfold pbind. cbn [fst snd]. destruct nx as [[nx|]|].
    - intros H. apply IH in H; [|now apply inv_cache|exact Ht|].
      + destruct H as [c2 [-> [Q2 N2]]]. exists c2. auto.
      + intros y Hy. destruct (S nx eq_refl y Hy) as [[]|[x Hx]]. apply (i_ok _ _ I).
        eapply rangeRoles_known; [exact Ho|apply I|exact Hx].
    - intros H. injection H as <- <-. exists c'. split; [reflexivity|]. split; [exact Q|discriminate].
    - intros H. injection H as <- <-. exists c'. split; [reflexivity|]. split; [exact Q|]. auto.
  Qed.
End Inv.
