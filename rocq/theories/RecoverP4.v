(** Which calls panic, for a matching function that panics on malformed
    patterns. *)
From Verif Require Import GoBase GoBaseP PolicyM CacheM CacheSpec PathM RbacM RbacSpec RbacP RbacP2 RbacP3 RbacP4
  RecoverM RecoverSpec RecoverP RecoverP2 RecoverP3.

Section Bad.
  Context (bad : string -> bool) (mm : imatcher) (F : Prop).
  Definition on_pattern : string -> string -> bool := fun _ p => bad p.

  Notation inv := (inv on_pattern mm F).
  Notation trips := (trips on_pattern mm).

  Definition agree (K : list string) (all : smap role) : Prop := forall n, In n K <-> known n all.

  Lemma panics_on_trips K all n : agree K all ->
    panics_on (IsPattern mm) bad K n = true <-> trips all n.
  Proof.
    intros H. unfold panics_on, RecoverP2.trips, on_pattern. destruct (IsPattern mm n) eqn:E.
    - rewrite andb_true_iff. split.
      + intros [Hb Hk]. left. split; [reflexivity|]. destruct K as [|k K]; [discriminate|].
        exists k. split; [apply H; now left|exact Hb].
      + intros [[_ [x [Hx Hb]]]|[? _]]; [|discriminate]. split; [exact Hb|]. apply H in Hx. now destruct K.
    - rewrite existsb_exists. split.
      + intros [p [Hp Hb]]. apply andb_true_iff in Hb as [H1 H2]. right. split; [reflexivity|].
        exists p. split; [now apply H|auto].
      + intros [[? _]|[_ [p [Hp [H1 H2]]]]]; [discriminate|]. exists p. split; [now apply H|].
        now rewrite H1, H2.
  Qed.

  Lemma look_ok L K ord rm n rm' r : good_order ord -> inv L rm -> plain n -> agree K (rm_all rm) ->
    q_getRole on_pattern ord rm n = (rm', r) ->
    agree (fst (look (IsPattern mm) bad K n)) (rm_all rm') /\
    (r = None <-> snd (look (IsPattern mm) bad K n) = true).
  Proof.
    intros Ho I Hn HA E. destruct (q_getRole_inv _ _ _ _ _ _ _ _ _ Ho I Hn E) as [_ [K1 [_ [T1 _]]]].
    assert (HB : forall y, In y K <-> known y (rm_all rm)) by exact HA.
    unfold look. destruct (sin n K) eqn:Es; cbn [fst snd].
    - apply sin_In, HB in Es. split.
      + intros x. rewrite K1, HB. split; [tauto|]. intros [->|H]; [exact Es|exact H].
      + rewrite T1. split; [tauto|discriminate].
    - apply sin_false in Es. split.
      + intros x. rewrite K1. cbn. rewrite HB. intuition congruence.
      + rewrite T1, (panics_on_trips K (rm_all rm)) by exact HA. rewrite <- (HB n). tauto.
  Qed.

  Lemma step_names L K ord rm c rm' x : good_order ord -> inv L rm -> agree K (rm_all rm) ->
    (forall n, In n (call_names c) -> plain n) ->
    q_step on_pattern ord rm c = (rm', x) ->
    agree (fst (names_after (IsPattern mm) bad (Match mm) K c)) (rm_all rm') /\
    panicked x = snd (names_after (IsPattern mm) bad (Match mm) K c).
  Proof.
    intros Ho I HA Hn. pose proof (inv_wf _ _ _ _ _ I) as W.
    assert (T : forall (r : option bool) b, (r = None <-> b = true) -> b = match r with None => true | Some _ => false end).
    { intros [v|] [|] H; try reflexivity; exfalso; intuition discriminate. }
    destruct c as [a b ds|a b ds|a b|a|a|]; cbn [q_step call_names names_after] in *.
    - assert (Ha : plain a) by (apply Hn; cbn; auto). assert (Hb : plain b) by (apply Hn; cbn; auto).
      unfold q_AddLink, look2. destruct (q_getRole on_pattern ord rm a) as [s1 r1] eqn:E1.
      destruct (look_ok _ _ _ _ _ _ _ Ho I Ha HA E1) as [A1 P1]. apply T in P1.
      destruct (q_getRole_inv _ _ _ _ _ _ _ _ _ Ho I Ha E1) as [I1 [K1 _]].
      destruct (look (IsPattern mm) bad K a) as [k1 p1]. cbn [fst snd] in *. subst p1.
      unfold pbind at 2. cbn [fst snd]. destruct r1 as [u1|].
      2:{ cbn. intros H. injection H as <- <-. auto. }
      destruct (q_getRole on_pattern ord s1 b) as [s2 r2] eqn:E2.
      destruct (look_ok _ _ _ _ _ _ _ Ho I1 Hb A1 E2) as [A2 P2]. apply T in P2.
      destruct (q_getRole_inv _ _ _ _ _ _ _ _ _ Ho I1 Hb E2) as [I2 [K2 _]].
      destruct (look (IsPattern mm) bad k1 b) as [k2 p2]. cbn [fst snd] in *. subst p2.
      unfold pbind at 2. cbn [fst snd]. destruct r2 as [u2|].
      2:{ cbn. intros H. injection H as <- <-. auto. }
      cbv zeta.
      set (al := if is_redundant ds then upd_role a (on_redundant (sadd b)) (rm_all s2) else rm_all s2).
      assert (Ea : mkeys (fst (addRole al a b)) = mkeys (rm_all s2)).
      { assert (El : mkeys al = mkeys (rm_all s2)) by (unfold al; destruct (is_redundant ds); [apply mkeys_upd|reflexivity]).
        unfold addRole. destruct (hasRole al a b); cbn [fst]; [exact El|]. now rewrite !mkeys_upd. }
      destruct (addRole al a b) as [al' ad]. cbn. intros H. injection H as <- <-. split; [|reflexivity].
      intros n. cbn [rm_all with_all]. unfold known. cbn [fst] in Ea. rewrite Ea. apply A2.
    - assert (Ha : plain a) by (apply Hn; cbn; auto). assert (Hb : plain b) by (apply Hn; cbn; auto).
      unfold q_DeleteLink, look2. destruct (q_getRole on_pattern ord rm a) as [s1 r1] eqn:E1.
      destruct (look_ok _ _ _ _ _ _ _ Ho I Ha HA E1) as [A1 P1]. apply T in P1.
      destruct (q_getRole_inv _ _ _ _ _ _ _ _ _ Ho I Ha E1) as [I1 [K1 _]].
      destruct (look (IsPattern mm) bad K a) as [k1 p1]. cbn [fst snd] in *. subst p1.
      unfold pbind at 2. cbn [fst snd]. destruct r1 as [u1|].
      2:{ cbn. intros H. injection H as <- <-. auto. }
      destruct (q_getRole on_pattern ord s1 b) as [s2 r2] eqn:E2.
      destruct (look_ok _ _ _ _ _ _ _ Ho I1 Hb A1 E2) as [A2 P2]. apply T in P2.
      destruct (q_getRole_inv _ _ _ _ _ _ _ _ _ Ho I1 Hb E2) as [I2 [K2 _]].
      destruct (look (IsPattern mm) bad k1 b) as [k2 p2]. cbn [fst snd] in *. subst p2.
      unfold pbind at 2. cbn [fst snd]. destruct r2 as [u2|].
      2:{ cbn. intros H. injection H as <- <-. auto. }
      cbv zeta.
      set (al := if is_redundant ds then upd_role a (on_redundant (srem b)) (rm_all s2) else rm_all s2).
      assert (Ea : mkeys (fst (removeRole al a b)) = mkeys (rm_all s2)).
      { assert (El : mkeys al = mkeys (rm_all s2)) by (unfold al; destruct (is_redundant ds); [apply mkeys_upd|reflexivity]).
        unfold removeRole. destruct (negb (hasRole al a b)); cbn [fst]; [exact El|]. now rewrite !mkeys_upd. }
      destruct (removeRole al a b) as [al' ad]. cbn. intros H. injection H as <- <-. split; [|reflexivity].
      intros n. cbn [rm_all with_all]. unfold known. cbn [fst] in Ea. rewrite Ea. apply A2.
    - assert (Ha : plain a) by (apply Hn; cbn; auto). assert (Hb : plain b) by (apply Hn; cbn; auto).
      intros H.
      assert (G : forall v, x = Some v -> agree K (rm_all rm')).
      { intros v ->. assert (H' : q_step on_pattern ord rm (RHas a b) = (rm', Some v)) by exact H.
        apply q_step_val in H'. cbn [rstep] in H'.
        destruct (HasLink_pure ord rm a b Ho W) as [c' [E _]]; [rewrite (i_m _ _ _ _ _ I); assumption..|].
        rewrite E in H'. cbn [obind] in H'. injection H' as <- _. exact HA. }
      revert H. unfold q_HasLink. destruct (String.eqb a b).
      { cbn. intros H. injection H as <- <-. auto. }
      unfold q_match_if_set. rewrite (i_m _ _ _ _ _ I).
      destruct (q_match_ok _ _ rm a b (i_m _ _ _ _ _ I) (i_qc _ _ _ _ _ I) Ha Hb) as [c0 [-> Q0]].
      pose proof (inv_cache _ _ _ _ _ _ I Q0) as I0.
      unfold pbind at 2. cbn [fst snd]. change (on_pattern a b) with (bad b). destruct (bad b) eqn:Ebad.
      { cbn. intros H. injection H as <- <-. auto. }
      destruct (Match mm a b).
      { cbn. intros H. injection H as <- <-. auto. }
      unfold look2.
      destruct (q_getRole on_pattern ord (with_cache rm c0) a) as [s1 r1] eqn:E1.
      destruct (look_ok _ _ _ _ _ _ _ Ho I0 Ha HA E1) as [A1 P1]. apply T in P1.
      destruct (q_getRole_inv _ _ _ _ _ _ _ _ _ Ho I0 Ha E1) as [I1 [K1 _]].
      destruct (look (IsPattern mm) bad K a) as [k1 p1]. cbn [fst snd] in *. subst p1.
      unfold pbind at 2. cbn [fst snd]. destruct r1 as [u1|].
      2:{ cbn. intros H. injection H as <- <-. auto. }
      destruct (q_getRole on_pattern ord s1 b) as [s2 r2] eqn:E2.
      destruct (look_ok _ _ _ _ _ _ _ Ho I1 Hb A1 E2) as [A2 P2]. apply T in P2.
      destruct (q_getRole_inv _ _ _ _ _ _ _ _ _ Ho I1 Hb E2) as [I2 [K2 _]].
      destruct (look (IsPattern mm) bad k1 b) as [k2 p2]. cbn [fst snd] in *. subst p2.
      unfold pbind at 2. cbn [fst snd]. destruct r2 as [u2|].
      2:{ cbn. intros H. injection H as <- <-. auto. }
      destruct (q_helper on_pattern ord (Z.to_nat (rm_level s2)) s2 b [a]) as [s3 r3] eqn:E3.
      apply (q_helper_inv on_pattern mm F L ord b Ho) in E3 as [c3 [_ [_ N3]]];
        [|exact I2|exact Hb|intros z [<-|[]]; exact Ha].
      destruct r3 as [v|].
      2:{ destruct (N3 eq_refl) as [z Hz]. unfold on_pattern in Hz. congruence. }
      unfold pbind. cbn [fst snd]. intros H. injection H as <- <-. split; [|reflexivity].
      eapply G; reflexivity.
    - assert (Ha : plain a) by (apply Hn; cbn; auto). intros H.
      assert (G : forall v, x = Some v -> agree K (rm_all rm')).
      { intros v ->. assert (H' : q_step on_pattern ord rm (RRoles a) = (rm', Some v)) by exact H.
        apply q_step_val in H'. cbn [rstep] in H'.
        destruct (GetRoles_pure ord rm a Ho W) as [c' [E _]]; [rewrite (i_m _ _ _ _ _ I); assumption..|].
        rewrite E in H'. cbn [obind] in H'. injection H' as <- _. exact HA. }
      revert H. unfold q_GetRoles. destruct (q_getRole on_pattern ord rm a) as [s1 r1] eqn:E1.
      destruct (look_ok _ _ _ _ _ _ _ Ho I Ha HA E1) as [A1 P1]. apply T in P1.
      destruct (look (IsPattern mm) bad K a) as [k1 p1]. cbn [fst snd] in *. subst p1.
      unfold pbind. cbn [fst snd]. destruct r1 as [u1|]; cbn [fst snd]; intros H; injection H as <- <-.
      + split; [eapply G; reflexivity|reflexivity].
      + auto.
    - assert (Ha : plain a) by (apply Hn; cbn; auto). intros H.
      assert (G : forall v, x = Some v -> agree K (rm_all rm')).
      { intros v ->. assert (H' : q_step on_pattern ord rm (RUsers a) = (rm', Some v)) by exact H.
        apply q_step_val in H'. cbn [rstep] in H'.
        destruct (GetUsers_pure ord rm a Ho W) as [c' [E _]]; [rewrite (i_m _ _ _ _ _ I); assumption..|].
        rewrite E in H'. cbn [obind] in H'. injection H' as <- _. exact HA. }
      revert H. unfold q_GetUsers. destruct (q_getRole on_pattern ord rm a) as [s1 r1] eqn:E1.
      destruct (look_ok _ _ _ _ _ _ _ Ho I Ha HA E1) as [A1 P1]. apply T in P1.
      destruct (look (IsPattern mm) bad K a) as [k1 p1]. cbn [fst snd] in *. subst p1.
      unfold pbind. cbn [fst snd]. destruct r1 as [u1|]; cbn [fst snd]; intros H; injection H as <- <-.
      + split; [eapply G; reflexivity|reflexivity].
      + auto.
    - intros H. injection H as <- <-. split; [|reflexivity]. intros n. cbn. tauto.
  Qed.
End Bad.

Lemma exec_panics bad mm h : forall L K rm rm' xs,
  inv (on_pattern bad) mm False L rm -> agree K (rm_all rm) -> good h ->
  (forall n, In n (mentioned h) -> plain n) ->
  q_exec (on_pattern bad) rm h = (rm', xs) ->
  map panicked xs = expected_panics (IsPattern mm) bad (Match mm) K h.
Proof.
  induction h as [|[ord c] h IH]; intros L K rm rm' xs I HA Hg Hn; cbn [q_exec expected_panics].
  { intros H. injection H as <- <-. reflexivity. }
  destruct (q_step (on_pattern bad) ord rm c) as [s x] eqn:E1.
  destruct (q_exec (on_pattern bad) s h) as [s2 ys] eqn:E2.
  intros H. injection H as <- <-. inversion Hg as [|? ? Ho Hg']; subst. cbn in Ho.
  assert (Hc : forall n, In n (call_names c) -> plain n) by (intros n Hi; apply Hn; cbn; apply in_or_app; now left).
  destruct (step_names _ _ _ L K ord rm c s x Ho I HA Hc E1) as [A1 P1].
  destruct (q_step_inv _ _ _ L ord rm c s x Ho I Hc ltac:(intros []) E1) as [I1 _].
  destruct (names_after (IsPattern mm) bad (Match mm) K c) as [k p]. cbn [fst snd] in *.
  cbn [map]. rewrite P1. f_equal. eapply IH; [exact I1|exact A1|exact Hg'| |exact E2].
  intros n Hi. apply Hn. cbn. apply in_or_app. now right.
Qed.

Lemma q_exec_app fails h1 : forall rm h2,
  q_exec fails rm (h1 ++ h2) =
  (let (r1, xs) := q_exec fails rm h1 in let (r2, ys) := q_exec fails r1 h2 in (r2, xs ++ ys)).
Proof.
  induction h1 as [|[o c] h1 IH]; intros rm h2; cbn [app q_exec].
  - now destruct (q_exec fails rm h2).
  - destruct (q_step fails o rm c) as [s x]. rewrite IH.
    destruct (q_exec fails s h1) as [r1 xs]. destruct (q_exec fails r1 h2). reflexivity.
Qed.
