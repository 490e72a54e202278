(** Patterns as users: what a role manager answers about ordinary names, with
    patterns that may stand for one another and matchers set at any time. *)
From Verif Require Import GoBase GoBaseP PolicyM CacheM CacheSpec PathM RbacM RbacSpec RbacP RbacP2 RbacP3 RbacP4 PatternsM PatternsSpec.

(** As [holds], but which names a pattern stands for is exact for ordinary
    names only: two patterns that match each other are recorded in one
    direction or both, depending on the order of the calls. *)
Record wholds (N : string -> Prop) (rm : rolemgr) (L : linkset) (K : nameset) : Prop := mkWHolds {
  wh_wf : wf rm;
  wh_links : forall a b, In b (rl (rm_all rm) a) <-> L a b = true;
  wh_names : forall n, known n (rm_all rm) <-> K n = true;
  wh_N : forall n, K n = true -> N n;
  wh_pats : forall p, In p (rm_patterns rm) <-> K p = true /\ is_pat (rm_matcher rm) p = true;
  wh_sound : forall p x, In x (mt (rm_all rm) p) ->
           K p = true /\ K x = true /\ p <> x /\ is_pat (rm_matcher rm) p = true /\ pmatch (rm_matcher rm) x p = true;
  wh_full : forall p x, K p = true -> K x = true -> p <> x -> is_pat (rm_matcher rm) p = true ->
           pmatch (rm_matcher rm) x p = true -> is_pat (rm_matcher rm) x = false -> In x (mt (rm_all rm) p)
}.

Definition names_ok (m : option imatcher) (N : string -> Prop) : Prop := forall n, N n -> okname m n.

Lemma wholds_start N level m : wholds N (newRoleManagerWithMatchingFunc level m) no_links no_names.
Proof.
  constructor; cbn.
  - apply wf_start.
  - intros a b. split; [intros []|discriminate].
  - intros n. split; [intros []|discriminate].
  - discriminate.
  - intros p. split; [intros []|intros [H _]; discriminate].
  - intros p x [].
  - discriminate.
Qed.

Lemma wholds_with_cache N rm L K c : wholds N rm L K -> cache_ok (rm_matcher rm) c -> wholds N (with_cache rm c) L K.
Proof. intros [A B D E F G I] H. constructor; auto. now apply wf_with_cache. Qed.

Lemma wholds_get N rm L K ord a c :
  names_ok (rm_matcher rm) N -> good_order ord -> wholds N rm L K -> N a -> cache_ok (rm_matcher rm) c ->
  wholds N (rm_of (rm_matcher rm) (rm_level rm) (fullget ord rm a) c) L (name_add a K).
Proof.
  intros HA Ho H Ha Hc. pose proof (wh_wf _ _ _ _ H) as W.
  destruct (fullget_cases ord rm a Ho W) as [[Hk E]|[Hk E]].
  - rewrite E. cbn. assert (HK : K a = true) by now apply (wh_names _ _ _ _ H).
    assert (EK : forall n, name_add a K n = true <-> K n = true).
    { intros n. rewrite name_add_true. intuition. now subst. }
    constructor; cbn.
    + destruct W; constructor; auto.
    + apply H.
    + intros n. rewrite EK. apply H.
    + intros n. rewrite EK. apply H.
    + intros p. rewrite EK. apply H.
    + intros p x. rewrite !EK. apply H.
    + intros p x. rewrite !EK. apply H.
  - constructor; cbn.
    + apply wf_fullget; auto.
    + intros x y. rewrite (e_rl _ _ _ _ _ _ E). apply H.
    + intros n. rewrite name_add_true, <- (wh_names _ _ _ _ H). now apply known_fullget.
    + intros n. rewrite name_add_true. intros [->|Hn]; [exact Ha|now apply H].
    + intros p. rewrite (e_pats _ _ _ _ _ _ E), name_add_true.
      pose proof (wh_pats _ _ _ _ H p) as Hp.
      destruct (is_pat (rm_matcher rm) a) eqn:Ea; [rewrite sadd_In|]; rewrite Hp; intuition; subst; auto; congruence.
    + intros p x. rewrite (e_new _ _ _ _ _ _ E), !name_add_true.
      rewrite (wh_names _ _ _ _ H x), (wh_pats _ _ _ _ H p). intros [Hi|Hi].
      * apply (wh_sound _ _ _ _ H) in Hi. tauto.
      * destruct Hi as [[-> [? [? [? ?]]]]|[-> [? [? [[? ?] ?]]]]]; intuition.
    + intros p x. rewrite !name_add_true. intros Hp Hx Hne Hpat Hm Hord.
      apply (e_new _ _ _ _ _ _ E). rewrite (wh_names _ _ _ _ H x), (wh_pats _ _ _ _ H p).
      destruct Hp as [->|Hp], Hx as [->|Hx]; [contradiction|tauto|tauto|].
      left. now apply (wh_full _ _ _ _ H).
Qed.

Lemma wholds_get2 N rm L K ord a b c :
  names_ok (rm_matcher rm) N -> good_order ord -> wholds N rm L K -> N a -> N b -> cache_ok (rm_matcher rm) c ->
  wholds N (rm_of (rm_matcher rm) (rm_level rm) (get2 ord (rm_matcher rm) (state rm) a b) c) L
        (name_add b (name_add a K)).
Proof.
  intros HA Ho H Ha Hb Hc. pose proof (wholds_get N rm L K ord a c HA Ho H Ha Hc) as H1.
  exact (wholds_get N (rm_of (rm_matcher rm) (rm_level rm) (fullget ord rm a) c) L (name_add a K) ord b c HA Ho H1 Hb Hc).
Qed.

Lemma wL_of N rm L K a b : wholds N rm L K -> sin b (rl (rm_all rm) a) = L a b.
Proof.
  intros H. destruct (L a b) eqn:E.
  - apply sin_In. now apply (wh_links _ _ _ _ H).
  - apply sin_false. rewrite (wh_links _ _ _ _ H). congruence.
Qed.

Lemma wholds_step N rm L K ord c :
  names_ok (rm_matcher rm) N -> good_order ord -> wholds N rm L K -> (forall n, In n (call_names c) -> N n) ->
  exists rm' x, rstep ord rm c = Val (rm', x) /\ wholds N rm' (links_step L c) (names_step K c) /\
    rm_matcher rm' = rm_matcher rm /\ rm_level rm' = rm_level rm /\
    (forall a b ds, c = RAdd a b ds -> x = ABool (negb (L a b))) /\
    (forall a b ds, c = RDel a b ds -> x = ABool (L a b)).
Proof.
  intros HA Ho H Hn. pose proof (wh_wf _ _ _ _ H) as W.
  assert (Hok : forall n, In n (call_names c) -> okname (rm_matcher rm) n) by (intros; apply HA, Hn; assumption).
  destruct c as [a b ds|a b ds|a b|a|a|]; cbn [rstep call_names links_step names_step] in *.
  - assert (Ha : N a) by (apply Hn; cbn; auto). assert (Hb : N b) by (apply Hn; cbn; auto).
    destruct (AddLink_pure ord rm a b ds Ho W (HA _ Ha) (HA _ Hb)) as [c1 [-> G1]]. cbn [obind].
    pose proof (wholds_get2 N rm L K ord a b c1 HA Ho H Ha Hb (w_cache _ G1)) as H2.
    destruct (padd_spec ord rm a b ds c1 Ho W (HA _ Ha) (HA _ Hb) G1)
      as [W3 [P3 [K3 [S3 [L3 [M3 _]]]]]].
    do 2 eexists. split; [reflexivity|]. split; [|split; [reflexivity|split; [reflexivity|split]]].
    + constructor; cbn [rm_of rm_all rm_patterns rm_matcher].
      * exact W3.
      * intros x y. rewrite L3. unfold link_add. rewrite orb_true_iff, andb_true_iff, !String.eqb_eq.
        pose proof (wh_links _ _ _ _ H2 x y) as Hl. cbn [rm_of rm_all] in Hl. rewrite Hl. tauto.
      * intros n. unfold known. rewrite K3. apply (wh_names _ _ _ _ H2).
      * apply (wh_N _ _ _ _ H2).
      * intros p. rewrite P3. apply (wh_pats _ _ _ _ H2).
      * intros p x. destruct (M3 p) as [-> _]. apply (wh_sound _ _ _ _ H2).
      * intros p x. destruct (M3 p) as [-> _]. apply (wh_full _ _ _ _ H2).
    + intros a' b' ds' [= <- <- <-]. f_equal. rewrite S3. f_equal. apply (wL_of _ _ _ _ _ _ H2).
    + discriminate.
  - assert (Ha : N a) by (apply Hn; cbn; auto). assert (Hb : N b) by (apply Hn; cbn; auto).
    destruct (DeleteLink_pure ord rm a b ds Ho W (HA _ Ha) (HA _ Hb)) as [c1 [-> G1]]. cbn [obind].
    pose proof (wholds_get2 N rm L K ord a b c1 HA Ho H Ha Hb (w_cache _ G1)) as H2.
    destruct (pdel_spec ord rm a b ds c1 Ho W (HA _ Ha) (HA _ Hb) G1)
      as [W3 [P3 [K3 [S3 [L3 [M3 _]]]]]].
    do 2 eexists. split; [reflexivity|]. split; [|split; [reflexivity|split; [reflexivity|split]]].
    + constructor; cbn [rm_of rm_all rm_patterns rm_matcher].
      * exact W3.
      * intros x y. rewrite L3. unfold link_del. rewrite andb_true_iff, negb_true_iff.
        pose proof (wh_links _ _ _ _ H2 x y) as Hl. cbn [rm_of rm_all] in Hl. rewrite Hl.
        rewrite andb_false_iff, !String.eqb_neq.
        destruct (string_dec x a), (string_dec y b); intuition.
      * intros n. unfold known. rewrite K3. apply (wh_names _ _ _ _ H2).
      * apply (wh_N _ _ _ _ H2).
      * intros p. rewrite P3. apply (wh_pats _ _ _ _ H2).
      * intros p x. destruct (M3 p) as [-> _]. apply (wh_sound _ _ _ _ H2).
      * intros p x. destruct (M3 p) as [-> _]. apply (wh_full _ _ _ _ H2).
    + discriminate.
    + intros a' b' ds' [= <- <- <-]. f_equal. rewrite S3. apply (wL_of _ _ _ _ _ _ H2).
  - destruct (HasLink_pure ord rm a b Ho W) as [c1 [-> G1]]; [apply Hok; cbn; auto..|]. cbn [obind].
    do 2 eexists. split; [reflexivity|]. split; [now apply wholds_with_cache|].
    split; [reflexivity|]. split; [reflexivity|]. split; discriminate.
  - destruct (GetRoles_pure ord rm a Ho W) as [c1 [-> G1]]; [apply Hok; cbn; auto..|]. cbn [obind].
    do 2 eexists. split; [reflexivity|]. split; [now apply wholds_with_cache|].
    split; [reflexivity|]. split; [reflexivity|]. split; discriminate.
  - destruct (GetUsers_pure ord rm a Ho W) as [c1 [-> G1]]; [apply Hok; cbn; auto..|]. cbn [obind].
    do 2 eexists. split; [reflexivity|]. split; [now apply wholds_with_cache|].
    split; [reflexivity|]. split; [reflexivity|]. split; discriminate.
  - do 2 eexists. split; [reflexivity|]. split; [apply wholds_start|].
    split; [reflexivity|]. split; [reflexivity|]. split; discriminate.
Qed.

Lemma wholds_exec N h : forall rm L K,
  names_ok (rm_matcher rm) N -> good h -> wholds N rm L K -> (forall n, In n (mentioned h) -> N n) ->
  exists rm' xs, rexec rm h = Val (rm', xs) /\
    wholds N rm' (fold_left links_step (map snd h) L) (fold_left names_step (map snd h) K) /\
    rm_matcher rm' = rm_matcher rm /\ rm_level rm' = rm_level rm.
Proof.
  induction h as [|[o c] h IH]; intros rm L K HA Hg H Hn; cbn [rexec map fold_left snd].
  - exists rm, []. auto.
  - inversion Hg as [|? ? Ho Hg']; subst.
    destruct (wholds_step N rm L K o c HA Ho H) as [rm1 [x [-> [H1 [Hm [Hl _]]]]]].
    { intros n Hi. apply Hn. cbn. apply in_or_app. now left. }
    cbn [obind]. rewrite <- Hm in HA.
    destruct (IH rm1 _ _ HA Hg' H1) as [rm2 [xs [-> [H2 [Hm2 Hl2]]]]].
    { intros n Hi. apply Hn. cbn. apply in_or_app. now right. }
    cbn [obind]. exists rm2, (x :: xs). split; [reflexivity|]. split; [exact H2|]. split; congruence.
Qed.

Lemma wholds_link_known N rm L K a b : wholds N rm L K -> L a b = true -> K a = true /\ K b = true.
Proof.
  intros H E. apply (wh_links _ _ _ _ H) in E. apply (core_rl_known _ _ (w_core _ (wh_wf _ _ _ _ H))) in E.
  split; now apply (wh_names _ _ _ _ H).
Qed.

Lemma wno_flags_step N rm L K ord c rm' x :
  names_ok (rm_matcher rm) N -> good_order ord -> wholds N rm L K -> (forall n, In n (call_names c) -> N n) ->
  unflagged c -> no_flags (rm_all rm) -> rstep ord rm c = Val (rm', x) -> no_flags (rm_all rm').
Proof.
  intros HA Ho H Hn Hu Hf Hs. pose proof (wh_wf _ _ _ _ H) as W.
  assert (Hok : forall n, In n (call_names c) -> okname (rm_matcher rm) n) by (intros; apply HA, Hn; assumption).
  destruct c as [a b ds|a b ds|a b|a|a|]; cbn [rstep call_names unflagged] in *.
  - destruct (AddLink_pure ord rm a b ds Ho W) as [c1 [E G1]]; [apply Hok; cbn; auto..|].
    destruct (padd_spec ord rm a b ds c1 Ho W) as [_ [_ [_ [_ [_ [_ R]]]]]]; [apply Hok; cbn; auto..|exact G1|].
    rewrite E in Hs. cbn [obind] in Hs. injection Hs as <- _. intros u.
    transitivity (rd (fst (get2 ord (rm_matcher rm) (state rm) a b)) u); [exact (R Hu u)|].
    rewrite rd_get2; auto. apply Hok; cbn; auto.
  - destruct (DeleteLink_pure ord rm a b ds Ho W) as [c1 [E G1]]; [apply Hok; cbn; auto..|].
    destruct (pdel_spec ord rm a b ds c1 Ho W) as [_ [_ [_ [_ [_ [_ R]]]]]]; [apply Hok; cbn; auto..|exact G1|].
    rewrite E in Hs. cbn [obind] in Hs. injection Hs as <- _. intros u.
    transitivity (rd (fst (get2 ord (rm_matcher rm) (state rm) a b)) u); [exact (R Hu u)|].
    rewrite rd_get2; auto. apply Hok; cbn; auto.
  - destruct (HasLink_pure ord rm a b Ho W) as [c1 [E G1]]; [apply Hok; cbn; auto..|].
    rewrite E in Hs. cbn [obind] in Hs. injection Hs as <- _. exact Hf.
  - destruct (GetRoles_pure ord rm a Ho W) as [c1 [E G1]]; [apply Hok; cbn; auto..|].
    rewrite E in Hs. cbn [obind] in Hs. injection Hs as <- _. exact Hf.
  - destruct (GetUsers_pure ord rm a Ho W) as [c1 [E G1]]; [apply Hok; cbn; auto..|].
    rewrite E in Hs. cbn [obind] in Hs. injection Hs as <- _. exact Hf.
  - injection Hs as <- _. intros u. reflexivity.
Qed.

Lemma wno_flags_exec N h : forall rm L K rm' xs,
  names_ok (rm_matcher rm) N -> good h -> wholds N rm L K -> (forall n, In n (mentioned h) -> N n) ->
  Forall (fun c => unflagged (snd c)) h -> no_flags (rm_all rm) ->
  rexec rm h = Val (rm', xs) -> no_flags (rm_all rm').
Proof.
  induction h as [|[o c] h IH]; intros rm L K rm' xs HA Hg H Hn Hu Hf He; cbn [rexec] in He.
  - injection He as <- _. exact Hf.
  - inversion Hg as [|? ? Ho Hg']; subst. inversion Hu as [|? ? Hc Hu']; subst.
    assert (Hn1 : forall n, In n (call_names c) -> N n) by (intros n Hi; apply Hn; cbn; apply in_or_app; now left).
    destruct (wholds_step N rm L K o c HA Ho H Hn1) as [rm1 [x [E1 [H1 [Hm _]]]]].
    rewrite E1 in He. cbn [obind] in He.
    destruct (rexec rm1 h) as [[rm2 ys]|] eqn:E2; [|discriminate]. cbn [obind] in He. injection He as <- <-.
    rewrite <- Hm in HA. eapply IH; [exact HA|exact Hg'|exact H1| |exact Hu'| |exact E2].
    + intros n Hi. apply Hn. cbn. apply in_or_app. now right.
    + rewrite Hm in HA. eapply wno_flags_step; eauto.
Qed.

Lemma wholds_ext N rm L K L' K' : wholds N rm L K -> (forall a b, L a b = true <-> L' a b = true) ->
  (forall n, K n = true <-> K' n = true) -> wholds N rm L' K'.
Proof.
  intros [A B C D E F G] HL HK. constructor; auto.
  - intros a b. rewrite B. apply HL.
  - intros n. rewrite C. apply HK.
  - intros n Hn. apply D. now apply HK.
  - intros p. rewrite E, HK. tauto.
  - intros p x Hx. rewrite <- !HK. now apply F.
  - intros p x. rewrite <- !HK. apply G.
Qed.

Lemma SetMatcher_wholds N1 N2 rm L K ord m2 :
  good_order ord -> wholds N1 rm L K -> no_flags (rm_all rm) ->
  names_ok m2 N2 -> (forall a b, L a b = true -> N2 a /\ N2 b) ->
  exists rm' K', rm_SetMatcher ord rm m2 = Val rm' /\ wholds N2 rm' L K' /\ link_names L K' /\
    no_flags (rm_all rm') /\ rm_matcher rm' = m2 /\ rm_level rm' = rm_level rm.
Proof.
  intros Ho H Hf HA2 HN2. unfold rm_SetMatcher, rm_rebuild. cbn [rm_all rm_Clear rm_level rm_matcher].
  set (ls := all_links ord (rm_all rm)).
  assert (Hls : forall r, In r ls <-> exists u v, r = [u; v] /\ L u v = true).
  { intros r. unfold ls. rewrite in_all_links by exact Ho. split; intros [u [v [-> Hr]]]; exists u, v; (split; [reflexivity|]).
    - now apply (wh_links _ _ _ _ H).
    - split; [now apply (wh_links _ _ _ _ H)|]. rewrite Hf. easy. }
  assert (Hshape : Forall (fun r => exists a b, r = [a; b]) ls).
  { apply Forall_forall. intros r Hr. apply Hls in Hr as [u [v [-> _]]]. eauto. }
  rewrite add_links_exec by exact Hshape.
  set (h := map (fun r => (ord, RAdd (hd ""%string r) (hd ""%string (tl r)) [])) ls).
  assert (Hg : good h).
  { unfold good, h. apply Forall_forall. intros c Hc. apply in_map_iff in Hc as [r [<- _]]. exact Ho. }
  assert (Hm : forall n, In n (mentioned h) -> N2 n).
  { intros n Hn. unfold mentioned, h in Hn. apply in_flat_map in Hn as [c [Hc Hn]].
    apply in_map_iff in Hc as [r [<- Hr]]. apply Hls in Hr as [u [v [-> Hl]]]. cbn in Hn.
    destruct (HN2 u v Hl). destruct Hn as [<-|[<-|[]]]; assumption. }
  change (mkRM [] [] (rm_level rm) m2 (NewLRUCache 100)) with (newRoleManagerWithMatchingFunc (rm_level rm) m2).
  destruct (wholds_exec N2 h (newRoleManagerWithMatchingFunc (rm_level rm) m2) no_links no_names HA2 Hg (wholds_start _ _ _) Hm)
    as [rm' [xs [E [H' [Em El]]]]].
  replace (rexec _ h) with (rexec (newRoleManagerWithMatchingFunc (rm_level rm) m2) h) by reflexivity.
  rewrite E. cbn [obind].
  set (K' := fold_left names_step (map snd h) no_names) in *.
  exists rm', K'. split; [reflexivity|]. split; [|split; [|split; [|split]]].
  - eapply wholds_ext; [exact H'| |reflexivity]. intros a b. unfold h. rewrite (fold_links_adds ord ls _ _ _ Hshape), Hls.
    split; [intros [[u [v [[= -> ->] Hl]]]|Hx]; [exact Hl|discriminate]|]. intros Hl. left. eauto.
  - intros n. unfold K', h. rewrite (fold_names_adds ord ls _ _ Hshape). setoid_rewrite Hls. split.
    + intros [[a [b [[u [v [[= -> ->] Hl]]] [->| ->]]]]|Hx]; [eauto|eauto|discriminate].
    + intros [x [Hl|Hl]]; left; [exists n, x|exists x, n]; split; eauto.
  - eapply (wno_flags_exec N2 h (newRoleManagerWithMatchingFunc (rm_level rm) m2));
      [exact HA2|exact Hg|apply (wholds_start N2)|exact Hm| | |exact E].
    + unfold h. apply Forall_forall. intros c Hc. apply in_map_iff in Hc as [r [<- _]]. reflexivity.
    + intros u. reflexivity.
  - exact Em.
  - exact El.
Qed.

(** ** What HasLink answers about ordinary names *)

Lemma range_ustep N rm L K ord u v :
  good_order ord -> wholds N rm L K -> K u = true -> is_pat (rm_matcher rm) u = false ->
  (forall x y, L x y = true -> is_pat (rm_matcher rm) y = false) ->
  In v (rangeRoles ord (rm_all rm) u) <-> ustep (rm_matcher rm) L u v.
Proof.
  intros Ho H Hu Pu Pt. rewrite rangeRoles_In by exact Ho. rewrite (wh_links _ _ _ _ H).
  pose proof (wh_sound _ _ _ _ H) as Hs. pose proof (wh_full _ _ _ _ H) as Hf.
  pose proof (c_msym _ _ (w_core _ (wh_wf _ _ _ _ H))) as Hsym. unfold ustep. split.
  - intros [E|[[p [Hp Hx]]|[p [Hp Hx]]]].
    + exists u. auto.
    + apply (wh_links _ _ _ _ H) in Hp. apply Hs in Hx as [_ [_ [_ [Hpat _]]]]. rewrite (Pt _ _ Hp) in Hpat. discriminate.
    + apply Hsym in Hp. apply Hs in Hp as [_ [_ [Hne [Hpat Hm]]]]. apply (wh_links _ _ _ _ H) in Hx.
      exists p. split; [exact Hx|]. right. destruct (rm_matcher rm) as [mm|]; cbn in Hpat, Hm; [|discriminate].
      exists mm. split; [reflexivity|]. unfold covers. auto.
  - intros [p [E [->|[mm [Em [Hne [Hpat Hm]]]]]]]; [now left|]. right; right. exists p.
    split; [|now apply (wh_links _ _ _ _ H)]. apply Hsym. rewrite Em in Hf, Pu. cbn in Hf, Pu.
    apply Hf; auto. now apply (wholds_link_known _ _ _ _ _ _ H) in E.
Qed.

Lemma HasLink_wholds N rm L K ord a b :
  names_ok (rm_matcher rm) N -> good_order ord -> wholds N rm L K -> N a -> N b ->
  is_pat (rm_matcher rm) a = false -> (forall x y, L x y = true -> is_pat (rm_matcher rm) y = false) ->
  exists rm' x, rm_HasLink ord rm a b = Val (rm', x) /\
    (x = true <-> hits (rm_matcher rm) a b \/
       exists k y, (Z.of_nat k < rm_level rm)%Z /\
         chain (ustep (rm_matcher rm) L) k a y /\ hits (rm_matcher rm) y b).
Proof.
  intros HA Ho H Ha Hb Pa Pt. pose proof (wh_wf _ _ _ _ H) as W.
  destruct (HasLink_pure ord rm a b Ho W (HA _ Ha) (HA _ Hb)) as [c' [-> Hc']].
  do 2 eexists. split; [reflexivity|]. unfold phas.
  rewrite (String.eqb_sym a b). pose proof (pmatch_hits (rm_matcher rm) a b) as Hh.
  destruct (String.eqb b a || pmatch (rm_matcher rm) a b) eqn:E.
  { split; [left; now apply Hh|reflexivity]. }
  rewrite phelper_spec by exact Ho.
  pose proof (wholds_get2 N rm L K ord a b c' HA Ho H Ha Hb Hc') as H2.
  assert (Hch : forall k y, chain (fun u v => In v (rangeRoles ord (fst (get2 ord (rm_matcher rm) (state rm) a b)) u)) k a y
                <-> chain (ustep (rm_matcher rm) L) k a y).
  { intros k y. apply chain_iff with
      (Q := fun n => name_add b (name_add a K) n = true /\ is_pat (rm_matcher rm) n = false).
    - intros u v [Hu Pu]. exact (range_ustep _ _ _ _ ord u v Ho H2 Hu Pu Pt).
    - intros u v [Hu Pu] Huv. split.
      + apply (wh_names _ _ _ _ H2).
        eapply rangeRoles_known; [exact Ho|apply (w_core _ (wh_wf _ _ _ _ H2))|exact Huv].
      + apply (range_ustep _ _ _ _ ord u v Ho H2 Hu Pu Pt) in Huv as [u' [Hl _]]. exact (Pt _ _ Hl).
    - rewrite !name_add_true. auto. }
  split.
  - intros [k [r [y [Hk [[<-|[]] [Hc Hf]]]]]]. right. exists k, y. split; [lia|].
    split; [now apply Hch|now apply pmatch_hits].
  - intros [Hhit|[k [y [Hk [Hc Hf]]]]]; [apply Hh in Hhit; discriminate|].
    exists k, a, y. split; [lia|]. split; [now left|]. split; [now apply Hch|now apply pmatch_hits].
Qed.

Lemma GetRoles_wholds N rm L K ord a :
  names_ok (rm_matcher rm) N -> good_order ord -> wholds N rm L K -> N a ->
  is_pat (rm_matcher rm) a = false -> (forall x y, L x y = true -> is_pat (rm_matcher rm) y = false) ->
  exists rm' l, rm_GetRoles ord rm a = Val (rm', l) /\
    forall b, In b l <-> ustep (rm_matcher rm) L a b.
Proof.
  intros HA Ho H Ha Pa Pt. pose proof (wh_wf _ _ _ _ H) as W.
  destruct (GetRoles_pure ord rm a Ho W (HA _ Ha)) as [c' [-> Hc']].
  do 2 eexists. split; [reflexivity|]. intros b.
  pose proof (wholds_get N rm L K ord a c' HA Ho H Ha Hc') as H1.
  apply (range_ustep _ _ _ _ ord a b Ho H1); auto. apply name_add_true. auto.
Qed.

(** The users of a role, as far as they are ordinary names. *)
Lemma GetUsers_wholds N rm L K ord a :
  names_ok (rm_matcher rm) N -> good_order ord -> wholds N rm L K -> N a ->
  (forall x y, L x y = true -> is_pat (rm_matcher rm) y = false) ->
  exists rm' l, rm_GetUsers ord rm a = Val (rm', l) /\
    forall b, is_pat (rm_matcher rm) b = false ->
      (In b l <-> name_add a K b = true /\ ustep (rm_matcher rm) L b a).
Proof.
  intros HA Ho H Ha Pt. pose proof (wh_wf _ _ _ _ H) as W.
  destruct (GetUsers_pure ord rm a Ho W (HA _ Ha)) as [c' [-> Hc']].
  do 2 eexists. split; [reflexivity|]. intros b Pb.
  pose proof (wholds_get N rm L K ord a c' HA Ho H Ha Hc') as H1.
  set (K' := name_add a K) in *.
  assert (HKa : K' a = true) by (apply name_add_true; auto).
  set (r1 := rm_of (rm_matcher rm) (rm_level rm) (fullget ord rm a) c') in *.
  assert (C : core (rm_all r1) (rm_patterns r1)) by apply (w_core _ (wh_wf _ _ _ _ H1)).
  change (In b (rangeUsers ord (rm_all r1) a) <-> K' b = true /\ ustep (rm_matcher rm) L b a).
  rewrite rangeUsers_In by exact Ho.
  assert (Hus : forall u v, In v (us (rm_all r1) u) <-> L v u = true).
  { intros u v. rewrite <- (c_sym _ _ C). apply (wh_links _ _ _ _ H1). }
  pose proof (wh_sound _ _ _ _ H1) as Hs. pose proof (wh_full _ _ _ _ H1) as Hf.
  cbn [rm_matcher r1 rm_of] in Hs, Hf.
  pose proof (fun x y => wholds_link_known _ _ _ _ x y H1) as HLK.
  rewrite Hus. unfold ustep. split.
  - intros [E|[[p [Hp Hx]]|[p [Hp Hx]]]].
    + split; [now apply HLK in E|]. exists b. auto.
    + apply Hus in Hp. apply Hs in Hx as [_ [Hx [Hne [Hpat Hm]]]]. split; [exact Hx|].
      exists p. split; [exact Hp|]. right. destruct (rm_matcher rm) as [mm|]; cbn in Hpat, Hm; [|discriminate].
      exists mm. split; [reflexivity|]. unfold covers. auto.
    + apply (c_msym _ _ C) in Hp. apply Hs in Hp as [_ [_ [_ [Hpat _]]]]. apply Hus in Hx.
      rewrite (Pt _ _ Hx) in Hpat. discriminate.
  - intros [Hb [p [E [->|[mm [Em [Hne [Hpat Hm]]]]]]]]; [now left|]. right; left. exists p.
    split; [now apply Hus|]. rewrite Em in Hf, Pb. cbn in Hf, Pb. apply Hf; auto. now apply HLK in E.
Qed.

(** ** Histories with SetMatcher *)
Definition pok (N : string -> Prop) (rm : rolemgr) (L : linkset) : Prop :=
  (exists K, wholds N rm L K) /\ no_flags (rm_all rm).

Lemma pok_step (N : string -> Prop) rm L ord c :
  names_ok (rm_matcher rm) N -> good_order ord ->
  match c with PCall c => unflagged c /\ (forall n, In n (call_names c) -> N n) | PSet m => names_ok m N end ->
  pok N rm L ->
  exists rm' x, pat_step ord rm c = Val (rm', x) /\ pok N rm' (plinks_step L c) /\
    rm_matcher rm' = pmatcher_step (rm_matcher rm) c /\ rm_level rm' = rm_level rm.
Proof.
  intros HN Ho Hc [[K H] Hf].
  destruct c as [c|m]; cbn [pat_step plinks_step pmatcher_step].
  - destruct Hc as [Hu Hn].
    destruct (wholds_step N rm L K ord c HN Ho H Hn) as [rm' [x [E [H' [Em [El _]]]]]].
    exists rm', x. split; [exact E|]. split; [|auto]. split; [eauto|].
    exact (wno_flags_step N rm L K ord c rm' x HN Ho H Hn Hu Hf E).
  - destruct (SetMatcher_wholds N N rm L K ord m Ho H Hf Hc) as [rm' [K' [E [H' [_ [Hf' [Em El]]]]]]].
    { intros a b Hl. destruct (wholds_link_known _ _ _ _ _ _ H Hl) as [Ka Kb].
      split; now apply (wh_N _ _ _ _ H). }
    rewrite E. cbn [obind]. do 2 eexists. split; [reflexivity|]. split; [split; eauto|auto].
Qed.

Lemma pok_exec (N : string -> Prop) h : forall rm L,
  (forall m, m = rm_matcher rm \/ In (PSet m) (map snd h) -> names_ok m N) ->
  Forall (fun c => good_order (fst c) /\ match snd c with PCall c => unflagged c | PSet _ => True end) h ->
  (forall n, In n (pnames h) -> N n) -> pok N rm L ->
  exists rm' xs, pat_exec rm h = Val (rm', xs) /\ pok N rm' (fold_left plinks_step (map snd h) L) /\
    rm_matcher rm' = fold_left pmatcher_step (map snd h) (rm_matcher rm) /\ rm_level rm' = rm_level rm.
Proof.
  induction h as [|[o c] h IH]; intros rm L HN Hg Hn H; cbn [pat_exec map fold_left snd].
  - exists rm, []. auto.
  - inversion Hg as [|? ? [Ho Hu] Hg']; subst. cbn [fst snd] in Ho, Hu.
    destruct (pok_step N rm L o c (HN _ (or_introl eq_refl)) Ho) as [rm1 [x [-> [H1 [Em El]]]]]; [|exact H|].
    { destruct c as [c|m]; [|apply HN; right; now left]. split; [exact Hu|]. intros n Hi. apply Hn. cbn. apply in_or_app. now left. }
    cbn [obind].
    destruct (IH rm1 (plinks_step L c)) as [rm2 [xs [-> [H2 [Em2 El2]]]]]; [|exact Hg'| |exact H1|].
    { intros m [->|Hi]; apply HN; [|right; now right]. rewrite Em. destruct c as [c|m]; cbn; auto. }
    { intros n Hi. apply Hn. cbn. apply in_or_app. now right. }
    cbn [obind]. exists rm2, (x :: xs). split; [reflexivity|]. split; [exact H2|]. rewrite Em2, Em. split; congruence.
Qed.
