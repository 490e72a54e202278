(** Histories with recovered panics. *)
From Verif Require Import GoBase GoBaseP PolicyM CacheM CacheSpec PathM RbacM RbacSpec RbacP RbacP2 RbacP3 RbacP4
  RecoverM RecoverSpec RecoverP RecoverP2.

Definition every_name : nameset := fun _ => true.

Section Steps.
  Context (fails : string -> string -> bool) (mm : imatcher) (F : Prop).

  Notation inv := (inv fails mm F).
  Notation trips := (trips fails mm).

  Lemma inv_ext L L' rm : (forall a b, L a b = L' a b) -> inv L rm -> inv L' rm.
  Proof. intros H [A B C D E G I J]. constructor; auto. intros a b. rewrite <- H. apply E. Qed.

  Lemma inv_clear L rm : inv L rm -> inv no_links (rm_Clear rm).
  Proof.
    intros I. pose proof (inv_start fails mm F (rm_level rm)) as H.
    unfold rm_Clear. rewrite (i_m _ _ _ _ _ I). exact H.
  Qed.

  (** Adding or deleting the link once both names are known. *)
  Lemma inv_link L rm a b ds : inv L rm -> known a (rm_all rm) -> known b (rm_all rm) ->
    (F -> is_redundant ds = false) ->
    let all := if is_redundant ds then upd_role a (on_redundant (sadd b)) (rm_all rm) else rm_all rm in
    inv (link_add a b L) (with_all rm (fst (addRole all a b))) /\ snd (addRole all a b) = negb (L a b) /\
    mkeys (fst (addRole all a b)) = mkeys (rm_all rm).
  Proof.
    intros I Ha Hb HF. cbv zeta.
    set (all := if is_redundant ds then upd_role a (on_redundant (sadd b)) (rm_all rm) else rm_all rm).
    assert (Vr : forall x, rl all x = rl (rm_all rm) x /\ mt all x = mt (rm_all rm) x /\
                           (F -> rd all x = rd (rm_all rm) x)).
    { intros x. unfold all. destruct (is_redundant ds) eqn:E; [|auto].
      destruct (views_redundant (rm_all rm) a (sadd b) x Ha) as [-> [_ [-> [_ _]]]].
      split; [reflexivity|]. split; [reflexivity|]. intros f. specialize (HF f). discriminate. }
    assert (Kr : mkeys all = mkeys (rm_all rm)) by (unfold all; destruct (is_redundant ds); [apply mkeys_upd|reflexivity]).
    assert (Cr : core all (rm_patterns rm)).
    { unfold all. destruct (is_redundant ds); [apply core_redundant; [exact Ha|]|]; apply I. }
    assert (Ka : known a all) by (unfold known; now rewrite Kr).
    assert (Kb : known b all) by (unfold known; now rewrite Kr).
    destruct (addRole_spec all _ a b Ka Kb Cr) as [C3 [K3 [S3 [L3 M3]]]].
    split; [|split].
    - constructor; cbn [rm_matcher rm_all rm_patterns rm_cache with_all].
      + apply I. + exact C3. + apply I.
      + intros n. unfold known. rewrite K3, Kr. apply I.
      + intros x y. rewrite L3. destruct (Vr x) as [-> _]. rewrite (i_links _ _ _ _ _ I).
        unfold link_add. rewrite orb_true_iff, andb_true_iff, !String.eqb_eq. tauto.
      + intros p. unfold known. rewrite K3, Kr. apply I.
      + intros p x. destruct (M3 p) as [-> _]. destruct (Vr p) as [_ [-> _]]. apply I.
      + intros f x. destruct (M3 x) as [_ [_ ->]]. destruct (Vr x) as [_ [_ E]]. rewrite (E f). now apply I.
    - rewrite S3. destruct (Vr a) as [-> _]. f_equal. destruct (L a b) eqn:E.
      + apply sin_In, (i_links _ _ _ _ _ I), E.
      + apply sin_false. rewrite (i_links _ _ _ _ _ I). congruence.
    - congruence.
  Qed.

  Lemma inv_unlink L rm a b ds : inv L rm -> known a (rm_all rm) -> known b (rm_all rm) ->
    (F -> is_redundant ds = false) ->
    let all := if is_redundant ds then upd_role a (on_redundant (srem b)) (rm_all rm) else rm_all rm in
    inv (link_del a b L) (with_all rm (fst (removeRole all a b))) /\ snd (removeRole all a b) = L a b /\
    mkeys (fst (removeRole all a b)) = mkeys (rm_all rm).
  Proof.
    intros I Ha Hb HF. cbv zeta.
    set (all := if is_redundant ds then upd_role a (on_redundant (srem b)) (rm_all rm) else rm_all rm).
    assert (Vr : forall x, rl all x = rl (rm_all rm) x /\ mt all x = mt (rm_all rm) x /\
                           (F -> rd all x = rd (rm_all rm) x)).
    { intros x. unfold all. destruct (is_redundant ds) eqn:E; [|auto].
      destruct (views_redundant (rm_all rm) a (srem b) x Ha) as [-> [_ [-> [_ _]]]].
      split; [reflexivity|]. split; [reflexivity|]. intros f. specialize (HF f). discriminate. }
    assert (Kr : mkeys all = mkeys (rm_all rm)) by (unfold all; destruct (is_redundant ds); [apply mkeys_upd|reflexivity]).
    assert (Cr : core all (rm_patterns rm)).
    { unfold all. destruct (is_redundant ds); [apply core_redundant; [exact Ha|]|]; apply I. }
    assert (Ka : known a all) by (unfold known; now rewrite Kr).
    assert (Kb : known b all) by (unfold known; now rewrite Kr).
    destruct (removeRole_spec all _ a b Ka Kb Cr) as [C3 [K3 [S3 [L3 M3]]]].
    split; [|split].
    - constructor; cbn [rm_matcher rm_all rm_patterns rm_cache with_all].
      + apply I. + exact C3. + apply I.
      + intros n. unfold known. rewrite K3, Kr. apply I.
      + intros x y. rewrite L3. destruct (Vr x) as [-> _]. rewrite (i_links _ _ _ _ _ I).
        unfold link_del. rewrite andb_true_iff, negb_true_iff.
        destruct (String.eqb_spec x a), (String.eqb_spec y b); cbn; intuition congruence.
      + intros p. unfold known. rewrite K3, Kr. apply I.
      + intros p x. destruct (M3 p) as [-> _]. destruct (Vr p) as [_ [-> _]]. apply I.
      + intros f x. destruct (M3 x) as [_ [_ ->]]. destruct (Vr x) as [_ [_ E]]. rewrite (E f). now apply I.
    - rewrite S3. destruct (Vr a) as [-> _]. destruct (L a b) eqn:E.
      + apply sin_In, (i_links _ _ _ _ _ I), E.
      + apply sin_false. rewrite (i_links _ _ _ _ _ I). congruence.
    - congruence.
  Qed.

  (** A pair of look-ups. *)
  Definition trips2 (all : smap role) (a b : string) : Prop :=
    (~ known a all /\ trips all a) \/
    (~ known b all /\ b <> a /\
      ((IsPattern mm b = true /\ exists x, (x = a \/ known x all) /\ fails x b = true) \/
       (IsPattern mm b = false /\ exists p, (p = a \/ known p all) /\ IsPattern mm p = true /\ fails b p = true))).

  Lemma trips_after all all' a b : (forall x, known x all' <-> x = a \/ known x all) ->
    (~ known b all' /\ trips all' b) <->
    (~ known b all /\ b <> a /\
      ((IsPattern mm b = true /\ exists x, (x = a \/ known x all) /\ fails x b = true) \/
       (IsPattern mm b = false /\ exists p, (p = a \/ known p all) /\ IsPattern mm p = true /\ fails b p = true))).
  Proof.
    intros H. unfold RecoverP2.trips. rewrite H. setoid_rewrite H. tauto.
  Qed.

  (** What a call leaves: the links change only if it returned. *)
  Lemma q_step_inv L ord rm c rm' x : good_order ord -> inv L rm ->
    (forall n, In n (call_names c) -> plain n) -> (F -> unflagged c) ->
    q_step fails ord rm c = (rm', x) ->
    inv (match x with Some _ => links_step L c | None => L end) rm' /\ rm_level rm' = rm_level rm /\
    (forall a b ds, c = RAdd a b ds -> forall y, x = Some y -> y = ABool (negb (L a b))) /\
    (forall a b ds, c = RDel a b ds -> forall y, x = Some y -> y = ABool (L a b)).
  Proof.
    intros Ho I Hn HF. destruct c as [a b ds|a b ds|a b|a|a|]; cbn [q_step call_names links_step unflagged] in *.
    - assert (Ha : plain a) by (apply Hn; cbn; auto). assert (Hb : plain b) by (apply Hn; cbn; auto).
      unfold q_AddLink. destruct (q_getRole fails ord rm a) as [s1 r1] eqn:E1.
      destruct (q_getRole_inv _ _ _ _ _ _ _ _ _ Ho I Ha E1) as [I1 [K1 [L1 [T1 G1]]]].
      unfold pbind at 2. cbn [fst snd]. destruct r1 as [u1|].
      2:{ cbn. intros H. injection H as <- <-. split; [exact I1|]. split; [exact L1|]. split; discriminate. }
      destruct (q_getRole fails ord s1 b) as [s2 r2] eqn:E2.
      destruct (q_getRole_inv _ _ _ _ _ _ _ _ _ Ho I1 Hb E2) as [I2 [K2 [L2 [T2 G2]]]].
      unfold pbind at 2. cbn [fst snd]. destruct r2 as [u2|].
      2:{ cbn. intros H. injection H as <- <-. split; [exact I2|]. split; [congruence|]. split; discriminate. }
      assert (Ka : known a (rm_all s2)) by (apply K2; right; apply K1; now left).
      assert (Kb : known b (rm_all s2)) by (apply K2; now left).
      destruct (inv_link L s2 a b ds I2 Ka Kb HF) as [I3 [S3 _]].
      destruct (addRole _ a b) as [al ad]. cbn [fst snd] in *. cbn. intros H. injection H as <- <-.
      split; [exact I3|]. split; [cbn; congruence|]. split; [|discriminate].
      intros a' b' ds' [= <- <- <-] y [= <-]. now rewrite S3.
    - assert (Ha : plain a) by (apply Hn; cbn; auto). assert (Hb : plain b) by (apply Hn; cbn; auto).
      unfold q_DeleteLink. destruct (q_getRole fails ord rm a) as [s1 r1] eqn:E1.
      destruct (q_getRole_inv _ _ _ _ _ _ _ _ _ Ho I Ha E1) as [I1 [K1 [L1 [T1 G1]]]].
      unfold pbind at 2. cbn [fst snd]. destruct r1 as [u1|].
      2:{ cbn. intros H. injection H as <- <-. split; [exact I1|]. split; [exact L1|]. split; discriminate. }
      destruct (q_getRole fails ord s1 b) as [s2 r2] eqn:E2.
      destruct (q_getRole_inv _ _ _ _ _ _ _ _ _ Ho I1 Hb E2) as [I2 [K2 [L2 [T2 G2]]]].
      unfold pbind at 2. cbn [fst snd]. destruct r2 as [u2|].
      2:{ cbn. intros H. injection H as <- <-. split; [exact I2|]. split; [congruence|]. split; discriminate. }
      assert (Ka : known a (rm_all s2)) by (apply K2; right; apply K1; now left).
      assert (Kb : known b (rm_all s2)) by (apply K2; now left).
      destruct (inv_unlink L s2 a b ds I2 Ka Kb HF) as [I3 [S3 _]].
      destruct (removeRole _ a b) as [al ad]. cbn [fst snd] in *. cbn. intros H. injection H as <- <-.
      split; [exact I3|]. split; [cbn; congruence|]. split; [discriminate|].
      intros a' b' ds' [= <- <- <-] y [= <-]. now rewrite S3.
    - assert (Ha : plain a) by (apply Hn; cbn; auto). assert (Hb : plain b) by (apply Hn; cbn; auto).
      destruct (q_HasLink fails ord rm a b) as [s r] eqn:E. intros H.
      assert (G : inv L s /\ rm_level s = rm_level rm).
      { clear H. revert E. unfold q_HasLink. destruct (String.eqb a b).
        { cbn. intros H. injection H as <- <-. auto. }
        unfold q_match_if_set. rewrite (i_m _ _ _ _ _ I).
        destruct (q_match_ok _ _ rm a b (i_m _ _ _ _ _ I) (i_qc _ _ _ _ _ I) Ha Hb) as [c0 [-> Q0]].
        pose proof (inv_cache _ _ _ _ _ _ I Q0) as I0.
        unfold pbind at 1. cbn [fst snd]. destruct (fails a b).
        { intros H. injection H as <- <-. auto. }
        destruct (Match mm a b).
        { intros H. injection H as <- <-. auto. }
        destruct (q_getRole fails ord (with_cache rm c0) a) as [s1 r1] eqn:E1.
        destruct (q_getRole_inv _ _ _ _ _ _ _ _ _ Ho I0 Ha E1) as [I1 [K1 [L1 [T1 G1]]]].
        unfold pbind at 1. cbn [fst snd]. destruct r1 as [u1|].
        2:{ intros H. injection H as <- <-. auto. }
        destruct (q_getRole fails ord s1 b) as [s2 r2] eqn:E2.
        destruct (q_getRole_inv _ _ _ _ _ _ _ _ _ Ho I1 Hb E2) as [I2 [K2 [L2 [T2 G2]]]].
        unfold pbind at 1. cbn [fst snd]. destruct r2 as [u2|].
        2:{ intros H. injection H as <- <-. split; [exact I2|]. rewrite L2, L1. reflexivity. }
        destruct (q_helper fails ord (Z.to_nat (rm_level s2)) s2 b [a]) as [s3 r3] eqn:E3.
        apply (q_helper_inv fails mm F L ord b Ho) in E3 as [c3 [-> [Q3 _]]];
          [|exact I2|exact Hb|intros z [<-|[]]; exact Ha].
        intros H. injection H as <- <-.
        destruct (G2 _ eq_refl) as [G2' ->]. destruct (G1 _ eq_refl) as [G1' ->].
        pose proof (remove_fullget ord s1 b c3 Ho (inv_wf _ _ _ _ _ I1)) as R2.
        pose proof (remove_fullget ord (with_cache rm c0) a c3 Ho (inv_wf _ _ _ _ _ I0)) as R1.
        assert (W2 : with_cache s2 c3 = mkRM (fst (fullget ord s1 b)) (snd (fullget ord s1 b))
                       (rm_level s1) (rm_matcher s1) c3) by (rewrite G2'; reflexivity).
        rewrite W2, R2.
        assert (W1 : with_cache s1 c3 = mkRM (fst (fullget ord (with_cache rm c0) a))
                       (snd (fullget ord (with_cache rm c0) a))
                       (rm_level (with_cache rm c0)) (rm_matcher (with_cache rm c0)) c3) by (rewrite G1'; reflexivity).
        rewrite W1, R1. split; [now apply inv_cache|reflexivity]. }
      destruct G as [G1 G2]. unfold pbind in H. cbn [fst snd] in H.
      destruct r as [v|]; injection H as <- <-; (split; [exact G1|]; split; [exact G2|]; split; discriminate).
    - assert (Ha : plain a) by (apply Hn; cbn; auto).
      unfold q_GetRoles. destruct (q_getRole fails ord rm a) as [s1 r1] eqn:E1.
      destruct (q_getRole_inv _ _ _ _ _ _ _ _ _ Ho I Ha E1) as [I1 [K1 [L1 [T1 G1]]]].
      unfold pbind. cbn [fst snd]. destruct r1 as [u1|]; cbn [fst snd]; intros H; injection H as <- <-.
      2:{ split; [exact I1|]. split; [exact L1|]. split; discriminate. }
      destruct (G1 _ eq_refl) as [G ->]. rewrite G.
      rewrite (remove_fullget ord rm a _ Ho (inv_wf _ _ _ _ _ I)).
      split; [apply inv_cache; [exact I|apply I1]|]. split; [reflexivity|]. split; discriminate.
    - assert (Ha : plain a) by (apply Hn; cbn; auto).
      unfold q_GetUsers. destruct (q_getRole fails ord rm a) as [s1 r1] eqn:E1.
      destruct (q_getRole_inv _ _ _ _ _ _ _ _ _ Ho I Ha E1) as [I1 [K1 [L1 [T1 G1]]]].
      unfold pbind. cbn [fst snd]. destruct r1 as [u1|]; cbn [fst snd]; intros H; injection H as <- <-.
      2:{ split; [exact I1|]. split; [exact L1|]. split; discriminate. }
      destruct (G1 _ eq_refl) as [G ->]. rewrite G.
      rewrite (remove_fullget ord rm a _ Ho (inv_wf _ _ _ _ _ I)).
      split; [apply inv_cache; [exact I|apply I1]|]. split; [reflexivity|]. split; discriminate.
    - intros H. injection H as <- <-. split; [eapply inv_clear, I|]. split; [reflexivity|]. split; discriminate.
  Qed.

  Lemma q_exec_inv h : forall L rm rm' xs, inv L rm -> good h ->
    (forall n, In n (mentioned h) -> plain n) -> (F -> Forall (fun c => unflagged (snd c)) h) ->
    q_exec fails rm h = (rm', xs) ->
    inv (fold_left (fun L cx => match snd cx with Some _ => links_step L (snd (fst cx)) | None => L end)
                   (combine h xs) L) rm' /\ rm_level rm' = rm_level rm /\ List.length xs = List.length h.
  Proof.
    induction h as [|[ord c] h IH]; intros L rm rm' xs I Hg Hn HF; cbn [q_exec].
    { intros H. injection H as <- <-. auto. }
    destruct (q_step fails ord rm c) as [s x] eqn:E1. destruct (q_exec fails s h) as [s2 ys] eqn:E2.
    intros H. injection H as <- <-. inversion Hg as [|? ? Ho Hg']; subst. cbn in Ho.
    apply (q_step_inv L) in E1 as [I1 [L1 _]]; auto.
    2:{ intros n Hi. apply Hn. cbn. apply in_or_app. now left. }
    2:{ intros f. specialize (HF f). now inversion HF. }
    eapply IH in E2; [|exact I1|exact Hg'| |].
    - destruct E2 as [A [B D]]. cbn [combine fold_left fst snd]. split; [exact A|]. split; [congruence|]. cbn. congruence.
    - intros n Hi. apply Hn. cbn. apply in_or_app. now right.
    - intros f. specialize (HF f). now inversion HF.
  Qed.

  (** ** What answers mean *)
  Lemma range_step L rm ord u v : good_order ord -> inv L rm ->
    In v (rangeRoles ord (rm_all rm) u) -> RbacSpec.pstep mm L every_name u v.
  Proof.
    intros Ho I H. apply rangeRoles_In in H; [|exact Ho].
    destruct H as [H|[[p [H1 H2]]|[p [H1 H2]]]].
    - apply step_link. now apply I.
    - apply (step_to_pattern _ _ _ _ _ p); [now apply I|eapply i_mt; eauto|reflexivity].
    - apply (step_from_pattern _ _ _ _ _ p); [|now apply I].
      apply (c_msym _ _ (i_core _ _ _ _ _ I)) in H1. eapply i_mt; eauto.
  Qed.
  Lemma range_step_users L rm ord u v : good_order ord -> inv L rm ->
    In v (rangeUsers ord (rm_all rm) u) -> RbacSpec.pstep mm L every_name v u.
  Proof.
    intros Ho I H. apply rangeUsers_In in H; [|exact Ho]. pose proof (c_sym _ _ (i_core _ _ _ _ _ I)) as S.
    destruct H as [H|[[p [H1 H2]]|[p [H1 H2]]]].
    - apply step_link. apply I. now apply S.
    - apply (step_from_pattern _ _ _ _ _ p); [eapply i_mt; eauto|]. apply I. now apply S.
    - apply (step_to_pattern _ _ _ _ _ p); [apply I; now apply S| |reflexivity].
      apply (c_msym _ _ (i_core _ _ _ _ _ I)) in H1. eapply i_mt; eauto.
  Qed.

  Lemma chain_sub (E E' : string -> string -> Prop) n a b :
    (forall u v, E u v -> E' u v) -> RbacSpec.chain E n a b -> RbacSpec.chain E' n a b.
  Proof. intros H C. induction C; [constructor|econstructor; eauto]. Qed.

  Lemma HasLink_sound L ord rm a b rm' : good_order ord -> inv L rm -> plain a -> plain b ->
    q_step fails ord rm (RHas a b) = (rm', Some (ABool true)) ->
    exists k x, RbacSpec.chain (RbacSpec.pstep mm L every_name) k a x /\ hits (Some mm) x b /\
                (k = 0 \/ (Z.of_nat k < rm_level rm)%Z).
  Proof.
    intros Ho I Ha Hb. cbn [q_step]. intros H. apply pbind_some in H as [s [v [H E]]].
    injection E as -> ->. revert H. unfold q_HasLink.
    destruct (String.eqb_spec a b) as [->|Hne].
    { intros _. exists 0, b. split; [constructor|]. split; [now left|auto]. }
    unfold q_match_if_set. rewrite (i_m _ _ _ _ _ I).
    destruct (q_match_ok _ _ rm a b (i_m _ _ _ _ _ I) (i_qc _ _ _ _ _ I) Ha Hb) as [c0 [-> Q0]].
    pose proof (inv_cache _ _ _ _ _ _ I Q0) as I0.
    unfold pbind at 1. cbn [fst snd]. destruct (fails a b); [discriminate|].
    destruct (Match mm a b) eqn:Em.
    { intros _. exists 0, a. split; [constructor|]. split; [right; eauto|auto]. }
    intros H. apply pbind_some in H as [s1 [u1 [E1 H]]]. apply pbind_some in H as [s2 [u2 [E2 H]]].
    destruct (q_getRole_inv _ _ _ _ _ _ _ _ _ Ho I0 Ha E1) as [I1 [K1 [L1 _]]].
    destruct (q_getRole_inv _ _ _ _ _ _ _ _ _ Ho I1 Hb E2) as [I2 [K2 [L2 _]]].
    destruct (q_helper fails ord (Z.to_nat (rm_level s2)) s2 b [a]) as [s3 r3] eqn:E3.
    injection H as _ ->. apply q_helper_val in E3.
    destruct (hasLinkHelper_pure ord b Ho (Z.to_nat (rm_level s2)) s2 [a] (inv_wf _ _ _ _ _ I2)) as [c3 [E _]].
    - rewrite (i_m _ _ _ _ _ I2). exact Hb.
    - intros r [<-|[]]. rewrite (i_m _ _ _ _ _ I2). exact Ha.
    - rewrite E3 in E. injection E as _ E. symmetry in E. rewrite (i_m _ _ _ _ _ I2) in E.
      apply phelper_spec in E; [|exact Ho]. destruct E as [k [r [x [Hk [[<-|[]] [Hc Hf]]]]]].
      exists k, x. split; [eapply chain_sub; [|exact Hc]; intros u v Hu; eapply range_step; eauto|].
      split.
      + unfold pfound in Hf. apply orb_true_iff in Hf as [Hf|Hf]; [left; symmetry; now apply String.eqb_eq|].
        right. exists mm. auto.
      + right. cbn in L1. rewrite L2, L1 in Hk. lia.
  Qed.

  Lemma GetRoles_sound L ord rm a rm' l : good_order ord -> inv L rm -> plain a ->
    q_step fails ord rm (RRoles a) = (rm', Some (ANames l)) ->
    forall v, In v l -> RbacSpec.pstep mm L every_name a v.
  Proof.
    intros Ho I Ha. cbn [q_step]. intros H. apply pbind_some in H as [s [v [H E]]]. injection E as -> ->.
    unfold q_GetRoles in H. apply pbind_some in H as [s1 [u1 [E1 H]]]. injection H as _ <-.
    destruct (q_getRole_inv _ _ _ _ _ _ _ _ _ Ho I Ha E1) as [I1 _].
    intros v Hv. eapply range_step; eauto.
  Qed.
  Lemma GetUsers_sound L ord rm a rm' l : good_order ord -> inv L rm -> plain a ->
    q_step fails ord rm (RUsers a) = (rm', Some (ANames l)) ->
    forall v, In v l -> RbacSpec.pstep mm L every_name v a.
  Proof.
    intros Ho I Ha. cbn [q_step]. intros H. apply pbind_some in H as [s [v [H E]]]. injection E as -> ->.
    unfold q_GetUsers in H. apply pbind_some in H as [s1 [u1 [E1 H]]]. injection H as _ <-.
    destruct (q_getRole_inv _ _ _ _ _ _ _ _ _ Ho I Ha E1) as [I1 _].
    intros v Hv. eapply range_step_users; eauto.
  Qed.

  Lemma listed_inv L rm ord : good_order ord -> inv L rm -> F ->
    forall r, In r (all_links ord (rm_all rm)) <-> exists u v, r = [u; v] /\ L u v = true.
  Proof.
    intros Ho I f r. rewrite in_all_links by exact Ho.
    split; intros [u [v [-> H]]]; exists u, v; (split; [reflexivity|]).
    - apply (i_links _ _ _ _ _ I), H.
    - split; [now apply (i_links _ _ _ _ _ I)|]. rewrite (i_rd _ _ _ _ _ I f). intros [].
  Qed.

  (** ** Rebuilding *)
  Lemma q_links_inv ord ls : forall L rm rm' r, good_order ord -> inv L rm ->
    (forall l, In l ls -> exists a b, l = [a; b] /\ plain a /\ plain b) ->
    q_links fails ord rm ls = (rm', r) ->
    exists done rest, ls = done ++ rest /\ (r = Some tt -> rest = []) /\
      inv (fold_left (fun L l => link_add (hd ""%string l) (hd ""%string (tl l)) L) done L) rm'.
  Proof.
    induction ls as [|l ls IH]; intros L rm rm' r Ho I Hp; cbn [q_links].
    { intros H. injection H as <- <-. exists [], []. auto. }
    destruct (Hp l ltac:(now left)) as [a [b [-> [Ha Hb]]]].
    destruct (q_AddLink fails ord rm a b []) as [s x] eqn:E. unfold pbind. cbn [fst snd].
    pose proof (q_step_inv L ord rm (RAdd a b []) s (option_map ABool x) Ho I) as G. cbn [q_step] in G.
    rewrite E in G. unfold pbind in G. cbn [fst snd] in G.
    destruct G as [G _].
    { intros n [<-|[<-|[]]]; assumption. }
    { reflexivity. }
    { now destruct x. }
    destruct x as [x|]; cbn [option_map] in G.
    - intros H. apply IH with (L := link_add a b L) in H; auto.
      + destruct H as [done [rest [-> [Hr I2]]]]. exists ([a; b] :: done), rest. auto.
      + intros l Hl. apply Hp. now right.
    - intros H. injection H as <- <-. exists [], ([a; b] :: ls). split; [reflexivity|].
      split; [discriminate|exact G].
  Qed.
End Steps.
