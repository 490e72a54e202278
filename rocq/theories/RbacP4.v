(** GetUsers, enumeration of links, SetMatcher. *)
From Verif Require Import GoBase GoBaseP PolicyM CacheM CacheSpec PathM RbacM RbacSpec RbacP RbacP2 RbacP3.

Lemma GetUsers_holds N rm L K ord a :
  allowed (rm_matcher rm) N -> good_order ord -> holds N rm L K -> N a ->
  exists rm' l, rm_GetUsers ord rm a = Val (rm', l) /\
    forall b, In b l <-> name_add a K b = true /\ estep (rm_matcher rm) L (name_add a K) b a.
Proof.
  intros HA Ho H Ha. pose proof (h_wf _ _ _ _ H) as W.
  destruct (GetUsers_pure ord rm a Ho W (a_ok _ _ HA _ Ha)) as [c' [-> Hc']].
  do 2 eexists. split; [reflexivity|]. intros b.
  pose proof (holds_get N rm L K ord a c' HA Ho H Ha Hc') as H1.
  set (K' := name_add a K) in *.
  assert (HKa : K' a = true) by (apply name_add_true; auto).
  set (r1 := rm_of (rm_matcher rm) (rm_level rm) (fullget ord rm a) c') in *.
  assert (C : core (rm_all r1) (rm_patterns r1)) by apply (w_core _ (h_wf _ _ _ _ H1)).
  change (In b (rangeUsers ord (rm_all r1) a) <-> K' b = true /\ estep (rm_matcher rm) L K' b a).
  rewrite rangeUsers_In by exact Ho.
  assert (Hus : forall u v, In v (us (rm_all r1) u) <-> L v u = true).
  { intros u v. rewrite <- (c_sym _ _ C). apply (h_links _ _ _ _ H1). }
  pose proof (h_mt _ _ _ _ H1) as Hmt. cbn [rm_matcher r1 rm_of] in Hmt.
  pose proof (fun x y => holds_link_known _ _ _ _ x y H1) as HLK.
  rewrite Hus. unfold estep. destruct (rm_matcher rm) as [mm|]; cbn in Hmt.
  - split.
    + intros [E|[[p [Hp Hx]]|[p [Hp Hx]]]].
      * split; [now apply HLK in E|now apply step_link].
      * apply Hus in Hp. apply Hmt in Hx. split; [tauto|].
        apply (step_from_pattern _ _ _ _ _ p); unfold covers; tauto.
      * apply (c_msym _ _ C) in Hp. apply Hmt in Hp. apply Hus in Hx. split; [now apply HLK in Hx|].
        apply (step_to_pattern _ _ _ _ _ p); unfold covers; tauto.
    + intros [Hb [E|p E [Hne [Hip Hma]] Hv|p [Hne [Hip Hma]] E]]; [now left|right; right|right; left].
      * exists p. split; [|now apply Hus]. apply (c_msym _ _ C). apply Hmt. apply HLK in E. tauto.
      * exists p. split; [now apply Hus|]. apply Hmt. apply HLK in E. tauto.
  - split.
    + intros [E|[[p [Hp Hx]]|[p [Hp Hx]]]]; [split; [now apply HLK in E|exact E]| |].
      * apply Hmt in Hx. intuition discriminate.
      * apply (c_msym _ _ C) in Hp. apply Hmt in Hp. intuition discriminate.
    + tauto.
Qed.

(** ** Enumerating the links *)
Lemma range_all {S} (fn : S -> rule -> S) l st : range_vals (fun s r => (fn s r, true)) st l = (fold_left fn l st, true).
Proof. revert st. induction l as [|r l IH]; intros st; cbn; [reflexivity|apply IH]. Qed.

Lemma rangeLinks_all {S} ord all (fn : S -> rule -> S) st :
  rangeLinks ord all (fun s r => (fn s r, true)) st = fold_left fn (all_links ord all) st.
Proof.
  unfold rangeLinks, all_links. revert st. induction (ord (mkeys all)) as [|u l IH]; intros st; cbn; [reflexivity|].
  rewrite range_all. cbn. rewrite fold_left_app. apply IH.
Qed.

Lemma fold_snoc {A} (l st : list A) : fold_left (fun s r => s ++ [r]) l st = st ++ l.
Proof.
  revert st. induction l as [|x l IH]; intros st; cbn; [now rewrite app_nil_r|]. rewrite IH, <- app_assoc. reflexivity.
Qed.

Lemma in_all_links ord all r : good_order ord ->
  In r (all_links ord all) <-> exists u v, r = [u; v] /\ In v (rl all u) /\ ~ In v (rd all u).
Proof.
  intros Ho. assert (Hio : forall l x, In x (ord l) <-> In x l).
  { intros l x. split; apply Permutation_in; [|symmetry]; apply Ho. }
  unfold all_links, user_links. rewrite in_flat_map. split.
  - intros [u [_ H]]. apply in_map_iff in H as [v [<- H]]. apply filter_In in H as [H1 H2].
    exists u, v. split; [reflexivity|]. split; [now apply Hio|]. apply negb_true_iff, sin_false in H2. exact H2.
  - intros [u [v [-> [H1 H2]]]]. exists u. split; [apply Hio; now apply view_known_rl in H1|].
    apply in_map_iff. exists v. split; [reflexivity|]. apply filter_In. split; [now apply Hio|].
    now apply negb_true_iff, sin_false.
Qed.

Lemma NoDup_filter' {A} (f : A -> bool) l : NoDup l -> NoDup (filter f l).
Proof.
  induction 1 as [|x l Hni Hnd IH]; cbn; [constructor|]. destruct (f x); [|exact IH].
  constructor; [|exact IH]. rewrite filter_In. tauto.
Qed.

Lemma NoDup_flat {A B} (f : A -> list B) l : NoDup l -> (forall a, NoDup (f a)) ->
  (forall a b x, In x (f a) -> In x (f b) -> a = b) -> NoDup (flat_map f l).
Proof.
  intros Hl Hf Hd. induction Hl as [|a l Hni Hl IH]; cbn; [constructor|].
  assert (H : forall l1 l2 : list B, NoDup l1 -> NoDup l2 -> (forall x, In x l1 -> ~ In x l2) -> NoDup (l1 ++ l2)).
  { induction 1 as [|x l1 Hx H1 IH1]; intros H2 Hdis; cbn; [exact H2|]. constructor.
    - rewrite in_app_iff. intros [H|H]; [contradiction|]. apply (Hdis x); [now left|exact H].
    - apply IH1; [exact H2|]. intros y Hy. apply Hdis. now right. }
  apply H; [apply Hf|exact IH|]. intros x Hx Hin. apply in_flat_map in Hin as [b [Hb Hxb]].
  rewrite (Hd a b x Hx Hxb) in Hni. contradiction.
Qed.

Lemma NoDup_all_links ord all pats : good_order ord -> core all pats -> NoDup (all_links ord all).
Proof.
  intros Ho C. unfold all_links. apply NoDup_flat.
  - eapply Permutation_NoDup; [symmetry; apply Ho|apply C].
  - intros u. unfold user_links. apply FinFun.Injective_map_NoDup.
    + intros x y H. now injection H.
    + apply NoDup_filter'. eapply Permutation_NoDup; [symmetry; apply Ho|apply (c_ndrl _ _ C)].
  - intros a b x Ha Hb. unfold user_links in *. apply in_map_iff in Ha as [v [<- _]].
    apply in_map_iff in Hb as [w [H _]]. now injection H.
Qed.

(** Without flagged calls there are no flags. *)
Definition no_flags (all : smap role) : Prop := forall u, rd all u = [].

Lemma rd_get2 ord rm a b : good_order ord -> wf rm -> okname (rm_matcher rm) a ->
  forall x, rd (fst (get2 ord (rm_matcher rm) (state rm) a b)) x = rd (rm_all rm) x.
Proof.
  intros Ho W Ha x. pose proof (getRole_pure ord _ a Ho W Ha) as [c1 [_ Hc1]].
  pose proof (wf_fullget ord rm a c1 Ho W Ha Hc1) as W1.
  assert (H1 : rd (fst (fullget ord rm a)) x = rd (rm_all rm) x).
  { destruct (fullget_cases ord rm a Ho W) as [[_ ->]|[_ E]]; [reflexivity|apply E]. }
  destruct (fullget_cases ord _ b Ho W1) as [[_ H]|[_ E]].
  - unfold get2. unfold fullget in H. cbn in H. unfold fullget in H1. cbn in *. rewrite H. exact H1.
  - pose proof (e_rd _ _ _ _ _ _ E x) as H. unfold fullget in H. cbn in H. unfold get2. cbn.
    rewrite H. exact H1.
Qed.

Lemma no_flags_step N rm L K ord c rm' x :
  allowed (rm_matcher rm) N -> good_order ord -> holds N rm L K -> (forall n, In n (call_names c) -> N n) ->
  unflagged c -> no_flags (rm_all rm) -> rstep ord rm c = Val (rm', x) -> no_flags (rm_all rm').
Proof.
  intros HA Ho H Hn Hu Hf Hs. pose proof (h_wf _ _ _ _ H) as W.
  assert (Hok : forall n, In n (call_names c) -> okname (rm_matcher rm) n) by (intros; apply HA, Hn; assumption).
  destruct c as [a b ds|a b ds|a b|a|a|]; cbn [rstep call_names unflagged] in *.
  - destruct (AddLink_pure ord rm a b ds Ho W) as [c1 [E G1]]; [apply Hok; cbn; auto..|].
    destruct (padd_spec ord rm a b ds c1 Ho W) as [_ [_ [_ [_ [_ [_ R]]]]]]; [apply Hok; cbn; auto..|exact G1|].
    rewrite E in Hs. cbn [obind] in Hs. injection Hs as <- _. intros u.
    transitivity (rd (fst (get2 ord (rm_matcher rm) (state rm) a b)) u); [exact (R Hu u)|].
    rewrite rd_get2; auto. apply Hok; cbn; auto.
  - destruct (DeleteLink_pure ord rm a b ds Ho W) as [c1 [E G1]]; [apply Hok; cbn; auto..|].
    destruct (pdel_spec ord rm a b ds c1 Ho W) as [_ [_ [_ [_ [_ [_ R]]]]]]; [apply Hok; cbn; auto..|exact G1|].
    rewrite E in Hs. cbn [obind] in Hs. injection Hs as <- _. intros u.
    transitivity (rd (fst (get2 ord (rm_matcher rm) (state rm) a b)) u); [exact (R Hu u)|].
    rewrite rd_get2; auto. apply Hok; cbn; auto.
  - destruct (HasLink_pure ord rm a b Ho W) as [c1 [E G1]]; [apply Hok; cbn; auto..|].
    rewrite E in Hs. cbn [obind] in Hs. injection Hs as <- _. exact Hf.
  - destruct (GetRoles_pure ord rm a Ho W) as [c1 [E G1]]; [apply Hok; cbn; auto..|].
    rewrite E in Hs. cbn [obind] in Hs. injection Hs as <- _. exact Hf.
  - destruct (GetUsers_pure ord rm a Ho W) as [c1 [E G1]]; [apply Hok; cbn; auto..|].
    rewrite E in Hs. cbn [obind] in Hs. injection Hs as <- _. exact Hf.
  - injection Hs as <- _. intros u. reflexivity.
Qed.

Lemma no_flags_exec N h : forall rm L K rm' xs,
  allowed (rm_matcher rm) N -> good h -> holds N rm L K -> (forall n, In n (mentioned h) -> N n) ->
  Forall (fun c => unflagged (snd c)) h -> no_flags (rm_all rm) ->
  rexec rm h = Val (rm', xs) -> no_flags (rm_all rm').
Proof.
  induction h as [|[o c] h IH]; intros rm L K rm' xs HA Hg H Hn Hu Hf He; cbn [rexec] in He.
  - injection He as <- _. exact Hf.
  - inversion Hg as [|? ? Ho Hg']; subst. inversion Hu as [|? ? Hc Hu']; subst.
    assert (Hn1 : forall n, In n (call_names c) -> N n) by (intros n Hi; apply Hn; cbn; apply in_or_app; now left).
    destruct (holds_step N rm L K o c HA Ho H Hn1) as [rm1 [x [E1 [H1 [Hm _]]]]].
    rewrite E1 in He. cbn [obind] in He.
    destruct (rexec rm1 h) as [[rm2 ys]|] eqn:E2; [|discriminate]. cbn [obind] in He. injection He as <- <-.
    rewrite <- Hm in HA. eapply IH; [exact HA|exact Hg'|exact H1| |exact Hu'| |exact E2].
    + intros n Hi. apply Hn. cbn. apply in_or_app. now right.
    + rewrite Hm in HA. eapply no_flags_step; eauto.
Qed.

(** ** SetMatcher *)
Lemma add_links_exec ord ls : forall rm, Forall (fun r => exists a b, r = [a; b]) ls ->
  add_links ord rm ls =
  (let! (rm, _) := rexec rm (map (fun r => (ord, RAdd (hd "" r) (hd "" (tl r)) [])) ls) in Val rm)%string.
Proof.
  induction ls as [|r ls IH]; intros rm H; [reflexivity|]. inversion H as [|? ? [a [b ->]] H']; subst.
  cbn [add_links map rexec rstep hd tl]. destruct (rm_AddLink ord rm a b []) as [[rm1 x]|]; cbn [obind]; [|reflexivity].
  rewrite IH by exact H'. destruct (rexec rm1 _) as [[rm2 xs]|]; reflexivity.
Qed.

Lemma fold_links_adds ord (ls : list rule) L0 a b :
  Forall (fun r => exists a b, r = [a; b]) ls ->
  fold_left links_step (map snd (map (fun r => (ord : order, RAdd (hd "" r) (hd "" (tl r)) [])) ls)) L0 a b = true <->
  In [a; b] ls \/ L0 a b = true.
Proof.
  revert L0. induction ls as [|r ls IH]; intros L0 H; cbn [map fold_left In]; [tauto|].
  inversion H as [|? ? [u [v ->]] H']; subst. rewrite IH by exact H'. cbn. unfold link_add.
  rewrite orb_true_iff, andb_true_iff, !String.eqb_eq. split.
  - intros [?|[[-> ->]|?]]; auto.
  - intros [[[= -> ->]|?]|?]; auto.
Qed.
Lemma fold_names_adds ord (ls : list rule) K0 n :
  Forall (fun r => exists a b, r = [a; b]) ls ->
  fold_left names_step (map snd (map (fun r => (ord : order, RAdd (hd "" r) (hd "" (tl r)) [])) ls)) K0 n = true <->
  (exists a b, In [a; b] ls /\ (n = a \/ n = b)) \/ K0 n = true.
Proof.
  revert K0. induction ls as [|r ls IH]; intros K0 H; cbn [map fold_left In].
  { split; [auto|]. intros [[a [b [[] _]]]|H0]; exact H0. }
  inversion H as [|? ? [u [v ->]] H']; subst. rewrite IH by exact H'. cbn. rewrite !name_add_true. split.
  - intros [[a [b [Hi Hn]]]|[->|[->|?]]]; eauto 7.
  - intros [[a [b [[[= <- <-]|Hi] Hn]]]|?]; [destruct Hn as [->| ->]|left|]; eauto 7.
Qed.

(** A name at the end of some link. *)
Definition link_names (L : linkset) (K : nameset) : Prop :=
  forall n, K n = true <-> exists x, L n x = true \/ L x n = true.

Lemma holds_ext N rm L K L' K' : holds N rm L K -> (forall a b, L a b = true <-> L' a b = true) ->
  (forall n, K n = true <-> K' n = true) -> holds N rm L' K'.
Proof.
  intros [A B C D E F] HL HK. constructor; auto.
  - intros a b. rewrite B. apply HL.
  - intros n. rewrite C. apply HK.
  - intros n Hn. apply D. now apply HK.
  - intros p. rewrite E, HK. tauto.
  - intros p x. rewrite F, !HK. tauto.
Qed.

(** SetMatcher keeps the links that are not flagged; the names it knows
    afterwards are those that occur in a link. *)
Lemma SetMatcher_holds N1 N2 rm L K ord m2 :
  good_order ord -> holds N1 rm L K -> no_flags (rm_all rm) ->
  allowed m2 N2 -> (forall a b, L a b = true -> N2 a /\ N2 b) ->
  exists rm' K', rm_SetMatcher ord rm m2 = Val rm' /\ holds N2 rm' L K' /\ link_names L K' /\
    no_flags (rm_all rm') /\ rm_matcher rm' = m2 /\ rm_level rm' = rm_level rm.
Proof.
  intros Ho H Hf HA2 HN2. unfold rm_SetMatcher, rm_rebuild. cbn [rm_all rm_Clear rm_level rm_matcher].
  set (ls := all_links ord (rm_all rm)).
  assert (Hls : forall r, In r ls <-> exists u v, r = [u; v] /\ L u v = true).
  { intros r. unfold ls. rewrite in_all_links by exact Ho. split; intros [u [v [-> Hr]]]; exists u, v; (split; [reflexivity|]).
    - now apply (h_links _ _ _ _ H).
    - split; [now apply (h_links _ _ _ _ H)|]. rewrite Hf. easy. }
  assert (Hshape : Forall (fun r => exists a b, r = [a; b]) ls).
  { apply Forall_forall. intros r Hr. apply Hls in Hr as [u [v [-> _]]]. eauto. }
  rewrite add_links_exec by exact Hshape.
  set (h := map (fun r => (ord, RAdd (hd ""%string r) (hd ""%string (tl r)) [])) ls).
  assert (Hg : good h).
  { unfold good, h. apply Forall_forall. intros c Hc. apply in_map_iff in Hc as [r [<- _]]. exact Ho. }
  assert (Hm : forall n, In n (mentioned h) -> N2 n).
  { intros n Hn. unfold mentioned, h in Hn. apply in_flat_map in Hn as [c [Hc Hn]].
    apply in_map_iff in Hc as [r [<- Hr]]. apply Hls in Hr as [u [v [-> Hl]]]. cbn in Hn.
    destruct (HN2 u v Hl). destruct Hn as [<-|[<-|[]]]; assumption. }
  change (mkRM [] [] (rm_level rm) m2 (NewLRUCache 100)) with (newRoleManagerWithMatchingFunc (rm_level rm) m2).
  destruct (holds_exec N2 h (newRoleManagerWithMatchingFunc (rm_level rm) m2) no_links no_names HA2 Hg (holds_start _ _ _) Hm)
    as [rm' [xs [E [H' [Em El]]]]].
  replace (rexec _ h) with (rexec (newRoleManagerWithMatchingFunc (rm_level rm) m2) h) by reflexivity.
  rewrite E. cbn [obind].
  set (K' := fold_left names_step (map snd h) no_names) in *.
  exists rm', K'. split; [reflexivity|]. split; [|split; [|split; [|split]]].
  - eapply holds_ext; [exact H'| |reflexivity]. intros a b. unfold h. rewrite (fold_links_adds ord ls _ _ _ Hshape), Hls.
    split; [intros [[u [v [[= -> ->] Hl]]]|Hx]; [exact Hl|discriminate]|]. intros Hl. left. eauto.
  - intros n. unfold K', h. rewrite (fold_names_adds ord ls _ _ Hshape). setoid_rewrite Hls. split.
    + intros [[a [b [[u [v [[= -> ->] Hl]]] [->| ->]]]]|Hx]; [eauto|eauto|discriminate].
    + intros [x [Hl|Hl]]; left; [exists n, x|exists x, n]; split; eauto.
  - eapply (no_flags_exec N2 h (newRoleManagerWithMatchingFunc (rm_level rm) m2));
      [exact HA2|exact Hg|apply (holds_start N2)|exact Hm| | |exact E].
    + unfold h. apply Forall_forall. intros c Hc. apply in_map_iff in Hc as [r [<- _]]. reflexivity.
    + intros u. reflexivity.
  - exact Em.
  - exact El.
Qed.
