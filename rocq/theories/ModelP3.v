(** Invariants of the model: every call, every history. *)
From Verif Require Import GoBase GoBaseP DefsM PolicyM PolicySpec PolicyP MatcherDefM MatcherM MatcherSpec MatcherP MatcherP2
  RbacM RbacSpec DomainM ModelM ModelSpec ModelP ModelP2.
Local Notation pstep := PolicyM.pstep.

(** Matchers stay where they are. *)
Definition stable (m m' : model) (g g' : ghost) : Prop :=
  forall j x, nth_error (md_mats m) j = Some x -> g_mb g' j = g_mb g j /\
    exists x', nth_error (md_mats m') j = Some x' /\ m_def x' = m_def x /\ m_tree x' = m_tree x.

Lemma stable_same m m' g g' : md_mats m' = md_mats m -> g_mb g' = g_mb g -> stable m m' g g'.
Proof. intros A B j x H. rewrite A, B. split; [reflexivity|]. exists x. auto. Qed.
Lemma stable_trans m1 m2 m3 g1 g2 g3 : stable m1 m2 g1 g2 -> stable m2 m3 g2 g3 -> stable m1 m3 g1 g3.
Proof.
  intros A B j x H. destruct (A j x H) as [E [y [Hy [F G]]]]. destruct (B j y Hy) as [E' [z [Hz [F' G']]]].
  split; [congruence|]. exists z. repeat split; congruence.
Qed.

Lemma act_stable o m g i a m' b : Core m g -> act o m i a = Val (m', b) ->
  forall g', g_mb g' = g_mb g -> stable m m' g g'.
Proof.
  intros V H g' Eg j x Hx. rewrite Eg. split; [reflexivity|]. unfold act in H.
  destruct (nth_error (md_objs m) i) as [[bo ls]|] eqn:Ei; [|discriminate]. cbn [o_body o_listeners] in H.
  destruct (v_lis _ _ V _ _ _ Ei) as [Nd _].
  assert (G : forall es ms, notify_all (md_mats m) ls es = Val ms ->
    exists x', nth_error ms j = Some x' /\ m_def x' = m_def x /\ m_tree x' = m_tree x).
  { intros es ms En. destruct (notify_all_ok _ _ _ _ Nd En) as [_ [Out Ins]].
    destruct (in_dec Nat.eq_dec j ls) as [Hin|Hout].
    - destruct (Ins _ _ Hin Hx) as [x' [A B]]. apply m_events_def in B. exists x'. tauto.
    - exists x. rewrite Out by exact Hout. auto. }
  destruct bo as [p|rm].
  - destruct (pstep p a) as [[p' b'] es]. destruct (notify_all (md_mats m) ls es) as [ms|] eqn:En; cbn in H; [|discriminate].
    injection H as <- <-. cbn. eauto.
  - destruct (nth_error (md_rms m) rm) as [y|]; [|discriminate].
    destruct (act_role (o_names o) y a) as [[[x' b'] es]|]; cbn [obind] in H; [|discriminate].
    destruct (notify_all (md_mats m) ls es) as [ms|] eqn:En; cbn in H; [|discriminate]. injection H as <- <-. cbn. eauto.
Qed.

Lemma hist_act_p h m g key i p ls a o c m' b : Core m g -> Hist h m g ->
  mget key (md_pMap m) = Some i -> nth_error (md_objs m) i = Some (mkObj (OPolicy p) ls) ->
  act o m i a = Val (m', b) ->
  (forall k, p_key k -> p_step k (p_history k h) c =
     if String.eqb k key then option_map (fun l => l ++ [a]) (p_history k h) else p_history k h) ->
  (forall k, g_key k -> g_step k (g_history k h) (o, c) = g_history k h) ->
  Hist (h ++ [(o, c)]) m' (mkG (upd (g_ops g) i (g_ops g i ++ [a])) (g_mb g) (g_rh g)).
Proof.
  intros V [P Q] Hk Hi Ha Hp Hg. destruct (core_act_p _ _ _ _ _ _ _ _ _ V Hi Ha) as [_ [(A & B & _) [_ [D _]]]].
  constructor; cbn [g_ops g_rh].
  - intros k Hpk. rewrite A, p_history_snoc, Hp, <- P by exact Hpk. destruct (String.eqb_spec k key) as [->|Hne].
    + rewrite Hk. cbn. now rewrite upd_same.
    + destruct (mget k (md_pMap m)) as [i'|] eqn:E; cbn; [|reflexivity]. rewrite upd_other; [reflexivity|].
      intros ->. apply Hne. eapply (v_pinj _ _ V); eauto.
  - intros k Hgk. rewrite B, g_history_snoc, Hg by exact Hgk. specialize (Q k Hgk).
    destruct (mget k (md_rpMap m)) as [i'|]; [|exact Q]. destruct Q as [rm [l [X Y]]]. exists rm, l. split; [|exact Y].
    rewrite D, nth_set_nth by (eapply nth_lt; eauto). destruct (Nat.eqb_spec i' i) as [->|]; [congruence|exact X].
Qed.

Lemma hist_act_r h m g key i rm ls a o c d m' b : Core m g -> Hist h m g ->
  mget key (md_rpMap m) = Some i -> nth_error (md_objs m) i = Some (mkObj (ORole rm) ls) ->
  act o m i a = Val (m', b) -> d_call a = Some d ->
  (forall k, p_key k -> p_step k (p_history k h) c = p_history k h) ->
  (forall k, g_key k -> g_step k (g_history k h) (o, c) =
     if String.eqb k key then option_map (fun s => (fst s, snd s ++ [(o_names o, d)])) (g_history k h) else g_history k h) ->
  Hist (h ++ [(o, c)]) m' (mkG (g_ops g) (g_mb g) (upd (g_rh g) rm (fst (g_rh g rm), snd (g_rh g rm) ++ [(o_names o, d)]))).
Proof.
  intros V [P Q] Hk Hi Ha Hd Hp Hg. destruct (core_act_r _ _ _ _ _ _ _ _ _ V Hi Ha) as [_ [_ [_ [(A & B & _) D]]]].
  constructor; cbn [g_ops g_rh].
  - intros k Hpk. rewrite A, p_history_snoc, Hp by exact Hpk. now apply P.
  - intros k Hgk. rewrite B, g_history_snoc, Hg by exact Hgk. specialize (Q k Hgk).
    destruct (String.eqb_spec k key) as [->|Hne].
    + rewrite Hk in Q |- *. destruct Q as [r' [l [X Y]]]. rewrite Hi in X. injection X as <- <-. exists rm, ls. rewrite D.
      split; [exact Hi|]. rewrite Y, upd_same. reflexivity.
    + destruct (mget k (md_rpMap m)) as [i'|] eqn:E; [|exact Q]. destruct Q as [r' [l [X Y]]]. exists r', l. rewrite D.
      split; [exact X|]. rewrite upd_other; [exact Y|]. intros ->. apply Hne. eapply (v_rinj _ _ V); eauto.
      rewrite Hk. f_equal. eapply (v_rminj _ _ V); eauto.
Qed.

(** What every call guarantees. *)
Definition step_spec (h : list (orders * mcall)) (m : model) (g : ghost) (o : orders) (c : mcall) (m' : model) (g' : ghost) : Prop :=
  Core m' g' /\ Hist (h ++ [(o, c)]) m' g' /\ stable m m' g g' /\
  (forall pk mk, leaves_alone pk mk c ->
     mget pk (md_pMap m') = mget pk (md_pMap m) /\ mget mk (md_mMap m') = mget mk (md_mMap m)).

Lemma frame_step h m g o c m' : Core m g -> Hist h m g -> same_heap m m' ->
  (forall k acc, p_key k -> p_step k acc c = acc) -> (forall k acc, g_key k -> g_step k acc (o, c) = acc) ->
  step_spec h m g o c m' g.
Proof.
  intros V W S Hp Hg. split; [eapply core_frame; eauto|]. split; [eapply hist_frame; eauto|].
  destruct S as (A & B & C & D & F & G). split; [now apply stable_same|]. intros. rewrite A, G. auto.
Qed.

Lemma key_neq (c c' : ascii) k k' : first_byte k = Some c -> first_byte k' = Some c' -> c <> c' -> String.eqb k k' = false.
Proof. intros A B N. apply String.eqb_neq. congruence. Qed.

Lemma act_step h m g o key i a c m' b : Core m g -> Hist h m g -> act o m i a = Val (m', b) ->
  (mget key (md_pMap m) = Some i /\
   (forall k, p_key k -> p_step k (p_history k h) c =
     if String.eqb k key then option_map (fun l => l ++ [a]) (p_history k h) else p_history k h) /\
   (forall k, g_key k -> g_step k (g_history k h) (o, c) = g_history k h)) \/
  (mget key (md_rpMap m) = Some i /\
   (forall k, p_key k -> p_step k (p_history k h) c = p_history k h) /\
   (forall k d, d_call a = Some d -> g_key k -> g_step k (g_history k h) (o, c) =
     if String.eqb k key then option_map (fun s => (fst s, snd s ++ [(o_names o, d)])) (g_history k h) else g_history k h)) ->
  exists g', step_spec h m g o c m' g'.
Proof.
  intros V W Ha [[Hk [Hp Hg]]|[Hk [Hp Hg]]].
  - destruct (v_p _ _ V _ _ Hk) as [_ [p [ls Hi]]]. destruct (core_act_p _ _ _ _ _ _ _ _ _ V Hi Ha) as [C [(A & B & D & _) _]].
    eexists. split; [exact C|]. split; [eapply hist_act_p; eauto|]. split; [eapply act_stable; eauto|].
    intros. rewrite A, D. auto.
  - destruct (v_r _ _ V _ _ Hk) as [rm [ls Hi]]. destruct (core_act_r _ _ _ _ _ _ _ _ _ V Hi Ha) as [d [Hd [C [(A & B & D & _) _]]]].
    eexists. split; [exact C|]. split; [eapply hist_act_r; eauto|]. split; [eapply act_stable; eauto|].
    intros. rewrite A, D. auto.
Qed.

Lemma of_section_key k key r : of_section k (key :: r) = if String.eqb key k then Some r else None.
Proof. reflexivity. Qed.

Lemma add_step o h m g rl m' b e es : Core m g -> Hist h m g -> model_AddRule o m rl = Val (m', b, e, es) ->
  exists g', step_spec h m g o (CAdd rl) m' g'.
Proof.
  intros V W H. destruct rl as [|key r]; [discriminate|]. cbn [model_AddRule] in H.
  destruct (first_byte key) as [c|] eqn:Ec; [|discriminate].
  destruct (Ascii.eqb_spec c "p") as [->|Np].
  - destruct (mget key (md_pMap m)) as [i|] eqn:Ek.
    + destruct (act o m i (PAdd r)) as [[m1 b1]|] eqn:Ea; cbn in H; [|discriminate]. injection H as <- <- <- <-.
      eapply (act_step h m g o key); eauto. left. split; [exact Ek|]. split.
      * intros k Hk. cbn [p_step]. rewrite of_section_key, String.eqb_sym. now destruct (String.eqb k key).
      * intros k Hk. cbn [g_step]. rewrite of_section_key. rewrite (key_neq _ _ _ _ Ec Hk) by discriminate. reflexivity.
    + injection H as <- <- <- <-. exists g. pose proof (v_phist _ _ _ W key Ec) as Z. rewrite Ek in Z. cbn in Z.
      split; [exact V|]. split; [|split; [now apply stable_same|auto]]. constructor.
      * intros k Hk. rewrite p_history_snoc. cbn [p_step]. rewrite of_section_key, (v_phist _ _ _ W k Hk).
        destruct (String.eqb_spec key k) as [->|]; [rewrite <- Z; reflexivity|reflexivity].
      * intros k Hk. rewrite g_history_snoc. cbn [g_step]. rewrite of_section_key.
        rewrite (key_neq _ _ _ _ Ec Hk) by discriminate. exact (v_ghist _ _ _ W k Hk).
  - destruct (Ascii.eqb_spec c "g") as [->|Ng].
    + destruct (mget key (md_rpMap m)) as [i|] eqn:Ek.
      * destruct (act o m i (PAdd r)) as [[m1 b1]|] eqn:Ea; cbn in H; [|discriminate]. injection H as <- <- <- <-.
        eapply (act_step h m g o key); eauto. right. split; [exact Ek|]. split.
        -- intros k Hk. cbn [p_step]. rewrite of_section_key, (key_neq _ _ _ _ Ec Hk) by discriminate. reflexivity.
        -- intros k d Hd Hk. cbn [g_step]. rewrite of_section_key, String.eqb_sym.
           destruct r as [|n1 [|n2 ds]]; cbn in Hd; try discriminate. injection Hd as <-. now destruct (String.eqb k key).
      * injection H as <- <- <- <-. exists g. pose proof (v_ghist _ _ _ W key Ec) as Z. rewrite Ek in Z.
        split; [exact V|]. split; [|split; [now apply stable_same|auto]]. constructor.
        -- intros k Hk. rewrite p_history_snoc. cbn [p_step]. rewrite of_section_key, (key_neq _ _ _ _ Ec Hk) by discriminate.
           exact (v_phist _ _ _ W k Hk).
        -- intros k Hk. rewrite g_history_snoc. cbn [g_step]. rewrite of_section_key.
           destruct (String.eqb_spec key k) as [<-|]; [|exact (v_ghist _ _ _ W k Hk)].
           rewrite Ek, Z. destruct r as [|n1 [|n2 ds]]; reflexivity.
    + injection H as <- <- <- <-. exists g. apply frame_step; auto; [repeat split| |]; intros k acc Hk;
      cbn [p_step g_step]; rewrite of_section_key, (key_neq _ _ _ _ Ec Hk) by assumption; reflexivity.
Qed.

Lemma remove_step o h m g rl m' b e es : Core m g -> Hist h m g -> model_RemoveRule o m rl = Val (m', b, e, es) ->
  exists g', step_spec h m g o (CRemove rl) m' g'.
Proof.
  intros V W H. destruct rl as [|key r]; [discriminate|]. cbn [model_RemoveRule] in H.
  destruct (first_byte key) as [c|] eqn:Ec; [|discriminate].
  destruct (Ascii.eqb_spec c "p") as [->|Np].
  - destruct (mget key (md_pMap m)) as [i|] eqn:Ek.
    + destruct (act o m i (PRemove r)) as [[m1 b1]|] eqn:Ea; cbn in H; [|discriminate]. injection H as <- <- <- <-.
      eapply (act_step h m g o key); eauto. left. split; [exact Ek|]. split.
      * intros k Hk. cbn [p_step]. rewrite of_section_key, String.eqb_sym. now destruct (String.eqb k key).
      * intros k Hk. cbn [g_step]. rewrite of_section_key. rewrite (key_neq _ _ _ _ Ec Hk) by discriminate. reflexivity.
    + injection H as <- <- <- <-. exists g. pose proof (v_phist _ _ _ W key Ec) as Z. rewrite Ek in Z. cbn in Z.
      split; [exact V|]. split; [|split; [now apply stable_same|auto]]. constructor.
      * intros k Hk. rewrite p_history_snoc. cbn [p_step]. rewrite of_section_key, (v_phist _ _ _ W k Hk).
        destruct (String.eqb_spec key k) as [->|]; [rewrite <- Z; reflexivity|reflexivity].
      * intros k Hk. rewrite g_history_snoc. cbn [g_step]. rewrite of_section_key.
        rewrite (key_neq _ _ _ _ Ec Hk) by discriminate. exact (v_ghist _ _ _ W k Hk).
  - destruct (Ascii.eqb_spec c "g") as [->|Ng].
    + destruct (mget key (md_rpMap m)) as [i|] eqn:Ek.
      * destruct (act o m i (PRemove r)) as [[m1 b1]|] eqn:Ea; cbn in H; [|discriminate]. injection H as <- <- <- <-.
        eapply (act_step h m g o key); eauto. right. split; [exact Ek|]. split.
        -- intros k Hk. cbn [p_step]. rewrite of_section_key, (key_neq _ _ _ _ Ec Hk) by discriminate. reflexivity.
        -- intros k d Hd Hk. cbn [g_step]. rewrite of_section_key, String.eqb_sym.
           destruct r as [|n1 [|n2 ds]]; cbn in Hd; try discriminate. injection Hd as <-. now destruct (String.eqb k key).
      * injection H as <- <- <- <-. exists g. pose proof (v_ghist _ _ _ W key Ec) as Z. rewrite Ek in Z.
        split; [exact V|]. split; [|split; [now apply stable_same|auto]]. constructor.
        -- intros k Hk. rewrite p_history_snoc. cbn [p_step]. rewrite of_section_key, (key_neq _ _ _ _ Ec Hk) by discriminate.
           exact (v_phist _ _ _ W k Hk).
        -- intros k Hk. rewrite g_history_snoc. cbn [g_step]. rewrite of_section_key.
           destruct (String.eqb_spec key k) as [<-|]; [|exact (v_ghist _ _ _ W k Hk)].
           rewrite Ek, Z. destruct r as [|n1 [|n2 ds]]; reflexivity.
    + injection H as <- <- <- <-. exists g. apply frame_step; auto; [repeat split| |]; intros k acc Hk;
      cbn [p_step g_step]; rewrite of_section_key, (key_neq _ _ _ _ Ec Hk) by assumption; reflexivity.
Qed.

Lemma clear_step o h m g key m' e : Core m g -> Hist h m g -> ClearPolicy o m key = Val (m', e) ->
  exists g', step_spec h m g o (CClear key) m' g'.
Proof.
  intros V W H. unfold ClearPolicy, GetPolicy in H.
  destruct (mget key (md_pMap m)) as [i|] eqn:Ek.
  - destruct (act o m i PClear) as [[m1 b1]|] eqn:Ea; cbn in H; [|discriminate]. injection H as <- <-.
    destruct (v_p _ _ V _ _ Ek) as [Hpk _].
    eapply (act_step h m g o key); eauto. left. split; [exact Ek|]. split.
    + intros k Hk. cbn [p_step]. rewrite String.eqb_sym. reflexivity.
    + intros k Hk. cbn [g_step]. rewrite (key_neq _ _ _ _ Hpk Hk) by discriminate. reflexivity.
  - destruct (mget key (md_rpMap m)) as [i|] eqn:Er.
    + destruct (act o m i PClear) as [[m1 b1]|] eqn:Ea; cbn in H; [|discriminate]. injection H as <- <-.
      eapply (act_step h m g o key); eauto. right. split; [exact Er|]. split.
      * intros k Hk. cbn [p_step]. destruct (String.eqb_spec key k) as [->|]; [|reflexivity].
        rewrite <- (v_phist _ _ _ W k Hk), Ek. reflexivity.
      * intros k d Hd Hk. cbn in Hd. injection Hd as <-. cbn [g_step]. rewrite String.eqb_sym. reflexivity.
    + injection H as <- <-. exists g. split; [exact V|]. split; [|split; [now apply stable_same|auto]]. constructor.
      * intros k Hk. rewrite p_history_snoc. cbn [p_step]. pose proof (v_phist _ _ _ W k Hk) as Z.
        destruct (String.eqb_spec key k) as [->|]; [|exact Z]. rewrite Ek in *. cbn in *. rewrite <- Z. reflexivity.
      * intros k Hk. rewrite g_history_snoc. cbn [g_step]. pose proof (v_ghist _ _ _ W k Hk) as Z.
        destruct (String.eqb_spec key k) as [->|]; [|exact Z]. rewrite Er in *. rewrite Z. reflexivity.
Qed.

(** Redefining and removing sections. *)
Lemma setdef_step o h m g s key v m' e : Core m g -> Hist h m g -> SetDef m s key v = Val (m', e) ->
  exists g', step_spec h m g o (CSetDef s key v) m' g'.
Proof.
  intros V W H. unfold SetDef in H.
  destruct (keyPrefix s) as [c|] eqn:Es.
  2:{ injection H as <- <-. exists g. destruct s; try discriminate. apply frame_step; auto. repeat split. }
  destruct (first_byte key) as [c'|] eqn:Ec; [|discriminate].
  destruct (Ascii.eqb_spec c' c) as [->|Hne].
  - injection H as <- <-. destruct s; cbn in Es; try discriminate; injection Es as <-.
    + exists g. apply frame_step; auto. repeat split.
    + (* p *) set (m1 := set_p m (mput key (NewPolicyDef key v) (md_p m))).
      assert (S : same_heap m m1) by (repeat split).
      pose proof (core_frame _ _ _ S V) as V1.
      assert (W1 : Hist h m1 g) by (destruct W as [P Q]; constructor; [exact P|exact Q]).
      eexists. split; [apply (core_alloc_p m1 g key Ec V1)|]. split; [apply (hist_alloc_p h m1 g key v o Ec V1 W1)|].
      split; [now apply stable_same|].
      intros pk mk L. cbn in L. cbn. rewrite mget_put. apply not_eq_sym in L. split; [|reflexivity].
      destruct (String.eqb_spec pk key); congruence.
    + (* g *) set (m1 := set_g m (mput key (NewRoleDef key v) (md_g m))).
      assert (S : same_heap m m1) by (repeat split).
      pose proof (core_frame _ _ _ S V) as V1.
      assert (W1 : Hist h m1 g) by (destruct W as [P Q]; constructor; [exact P|exact Q]).
      change (addRoleDef m key v) with (alloc_r m1 key (fresh_manager v)).
      eexists. split; [apply (core_alloc_r m1 g key (fresh_manager v) V1)|].
      split; [apply (hist_alloc_r h m1 g key (fresh_manager v) o _ V1 W1)|].
      * reflexivity.
      * intros k acc Hk. cbn [g_step]. now rewrite String.eqb_sym.
      * split; [now apply stable_same|]. intros. split; reflexivity.
    + exists g. apply frame_step; auto. repeat split.
    + exists g. apply frame_step; auto. repeat split.
  - injection H as <- <-. exists g. destruct s; cbn in Es; try discriminate; injection Es as <-;
    (split; [exact V|]; split; [|split; [now apply stable_same|auto]]); constructor; intros k Hk.
    all: rewrite ?p_history_snoc, ?g_history_snoc; cbn [p_step g_step].
    all: try (rewrite (key_neq _ _ _ _ Ec Hk) by congruence).
    all: solve [apply (v_phist _ _ _ W k Hk)|apply (v_ghist _ _ _ W k Hk)].
Qed.

Lemma removedef_step o h m g s key m' e : Core m g -> Hist h m g -> RemoveDef m s key = (m', e) ->
  exists g', step_spec h m g o (CRemoveDef s key) m' g'.
Proof.
  intros V W H. destruct s; cbn in H; injection H as <- <-; exists g.
  - apply frame_step; auto. repeat split.
  - assert (S : same_heap m (set_p m (mdel key (md_p m)))) by (repeat split).
    split; [apply (core_del_p _ g key (core_frame _ _ _ S V))|]. split; [|split; [now apply stable_same|]].
    + constructor; intros k Hk; rewrite ?p_history_snoc, ?g_history_snoc; cbn [p_step g_step].
      * cbn. rewrite mget_del, String.eqb_sym. destruct (String.eqb key k); [reflexivity|apply (v_phist _ _ _ W k Hk)].
      * apply (v_ghist _ _ _ W k Hk).
    + intros pk mk L. cbn in *. rewrite mget_del. split; [|reflexivity]. destruct (String.eqb_spec pk key); congruence.
  - assert (S : same_heap m (set_g m (mdel key (md_g m)))) by (repeat split).
    pose proof (core_del_r _ g key (core_frame _ _ _ S V)) as V1.
    split; [eapply core_frame; [|exact V1]; repeat split|]. split; [|split; [now apply stable_same|auto]].
    constructor; intros k Hk; rewrite ?p_history_snoc, ?g_history_snoc; cbn [p_step g_step].
    + apply (v_phist _ _ _ W k Hk).
    + cbn. rewrite mget_del, String.eqb_sym. destruct (String.eqb key k); [reflexivity|apply (v_ghist _ _ _ W k Hk)].
  - apply frame_step; auto. repeat split.
  - split; [|split; [|split; [now apply stable_same|]]].
    + destruct V as [Vp Vpi Vr Vri Vrm Vo Vx Vb Vl Vm Vn Vmm].
      constructor; cbn [removeMatcherDef set_mMap set_m md_pMap md_rpMap md_objs md_rms md_mats md_mMap]; try assumption.
      intros k j. rewrite mget_del. destruct (String.eqb k key); [discriminate|apply Vmm].
    + constructor; intros k Hk; rewrite ?p_history_snoc, ?g_history_snoc; cbn [p_step g_step].
      * apply (v_phist _ _ _ W k Hk).
      * apply (v_ghist _ _ _ W k Hk).
    + intros pk mk L. cbn in *. rewrite mget_del. split; [reflexivity|]. destruct (String.eqb_spec mk key); congruence.
  - apply frame_step; auto. repeat split.
Qed.

(** Building matchers changes no history. *)
Definition quiet (m m' : model) (g g' : ghost) : Prop :=
  md_pMap m' = md_pMap m /\ md_rpMap m' = md_rpMap m /\ md_rms m' = md_rms m /\ md_m m' = md_m m /\ md_fm m' = md_fm m /\ md_p m' = md_p m /\
  (forall i ob, nth_error (md_objs m) i = Some ob -> exists ls', nth_error (md_objs m') i = Some (mkObj (o_body ob) ls')) /\
  g_ops g' = g_ops g /\ g_rh g' = g_rh g /\ stable m m' g g'.

Lemma quiet_refl m g : quiet m m g g.
Proof. repeat split; auto; [intros i [b l] H; exists l; exact H|]. eauto. Qed.
Lemma quiet_trans m1 m2 m3 g1 g2 g3 : quiet m1 m2 g1 g2 -> quiet m2 m3 g2 g3 -> quiet m1 m3 g1 g3.
Proof.
  intros (A1 & A2 & A3 & A4 & A5 & Ap & A6 & A7 & A8 & A9) (B1 & B2 & B3 & B4 & B5 & Bp & B6 & B7 & B8 & B9).
  split; [congruence|]. split; [congruence|]. split; [congruence|]. split; [congruence|]. split; [congruence|]. split; [congruence|].
  split; [|split; [congruence|]; split; [congruence|]; eapply stable_trans; eauto].
  intros i ob H. destruct (A6 _ _ H) as [l H1]. destruct (B6 _ _ H1) as [l' H2]. eauto.
Qed.
Lemma hist_quiet h m m' g g' o c : quiet m m' g g' -> Hist h m g ->
  (forall k acc, p_key k -> p_step k acc c = acc) -> (forall k acc, g_key k -> g_step k acc (o, c) = acc) ->
  Hist (h ++ [(o, c)]) m' g'.
Proof.
  intros (A1 & A2 & A3 & A4 & A5 & Ap & A6 & A7 & A8 & A9) [P Q] Hp Hg. constructor; intros k Hk.
  - rewrite p_history_snoc, Hp, A1, A7 by exact Hk. now apply P.
  - rewrite g_history_snoc, Hg, A2 by exact Hk. specialize (Q k Hk).
    destruct (mget k (md_rpMap m)) as [i|]; [|exact Q]. destruct Q as [rm [ls [X Y]]].
    destruct (A6 _ _ X) as [l' Z]. exists rm, l'. rewrite A8. auto.
Qed.

(** A matcher built on its policy as it is now. *)
Definition built_now (E : env) (o : orders) (m : model) (g : ghost) (j : nat) (expr : string) : Prop :=
  exists root i x d, Build (e_grow E) (e_parse E (mkeys (md_fm m))) expr = inl root /\
    GetPolicy m (GetPolicyKey root) = Some i /\ nth_error (md_mats m) j = Some x /\
    m_tree x = root /\ m_def x = d /\ g_mb g j = (i, List.length (g_ops g i)) /\
    (p_key (GetPolicyKey root) -> mget (GetPolicyKey root) (md_p m) = Some d).

Lemma built_quiet E o m m' g g' j expr : quiet m m' g g' -> built_now E o m g j expr -> built_now E o m' g' j expr.
Proof.
  intros (A1 & A2 & A3 & A4 & A5 & Ap & A6 & A7 & A8 & A9) (root & i & x & d & B1 & B2 & B3 & B4 & B5 & B6 & B7).
  destruct (A9 _ _ B3) as [C1 [x' [C2 [C3 C4]]]]. exists root, i, x', d.
  unfold GetPolicy in *. rewrite A1, A2, A5, A7, Ap, C1. repeat split; auto; congruence.
Qed.

Lemma buildfrom_step E o m g expr m' r : good_orders o -> Core m g -> BuildMatcherFromDef E o m expr = Val (m', r) ->
  exists g', Core m' g' /\ quiet m m' g g' /\ md_mMap m' = md_mMap m /\
    (forall j, r = inl j -> List.length (md_mats m') = S j /\ built_now E o m' g' j expr) /\
    (forall e, r = inr e -> m' = m /\ g' = g).
Proof.
  intros Go V H. destruct (core_build _ _ _ _ _ _ _ Go V H) as [(A1 & A2 & A3 & A4 & A5 & A6 & A7 & A8 & A9 & A10) [B [C [D [F R]]]]].
  destruct r as [j|e].
  - destruct R as (root & i & d & x & R1 & R2 & R3 & R4 & R5 & R6 & R7 & R8 & R9 & R10 & R11).
    eexists. split; [exact R11|]. split; [|split; [exact A3|split; [|discriminate]]].
    + split; [exact A1|]. split; [exact A2|]. split; [exact B|]. split; [exact A8|]. split; [exact A10|]. split; [exact A5|].
      split; [exact C|]. split; [reflexivity|]. split; [reflexivity|].
      intros j1 y Hy. cbn [g_mb]. rewrite upd_other by (apply nth_lt in Hy; lia). split; [reflexivity|]. exists y. auto.
    + intros j1 Hj. injection Hj as <-. split; [exact R2|]. exists root, i, x, d. cbn [g_mb g_ops]. rewrite upd_same, A5, A10.
      unfold GetPolicy in *. rewrite A1, A2. repeat split; auto.
  - subst m'. exists g. split; [exact V|]. split; [apply quiet_refl|]. split; [reflexivity|]. split; [discriminate|auto].
Qed.

Lemma core_mMap m g key j : Core m g -> j < List.length (md_mats m) -> Core (set_mMap m (mput key j (md_mMap m))) g.
Proof.
  intros [Vp Vpi Vr Vri Vrm Vo Vx Vb Vl Vm Vn Vmm] Hj.
  constructor; cbn [set_mMap md_pMap md_rpMap md_objs md_rms md_mats md_mMap]; try assumption.
  intros k j'. rewrite mget_put. destruct (String.eqb k key); [intros H; injection H as <-; exact Hj|apply Vmm].
Qed.

Lemma buildkey_step E o m g key m' e : good_orders o -> Core m g -> BuildMatcher E o m key = Val (m', e) ->
  exists g', Core m' g' /\ quiet m m' g g' /\
    (forall mk, mk <> key -> mget mk (md_mMap m') = mget mk (md_mMap m)) /\
    (e <> None -> md_mMap m' = md_mMap m) /\
    (e = None -> exists expr j, mget key (md_m m) = Some expr /\ mget key (md_mMap m') = Some j /\ built_now E o m' g' j expr).
Proof.
  intros Go V H. unfold BuildMatcher in H. destruct (mget key (md_m m)) as [expr|] eqn:Ek.
  2:{ injection H as <- <-. exists g. split; [exact V|]. split; [apply quiet_refl|]. split; [auto|]. split; [auto|discriminate]. }
  destruct (BuildMatcherFromDef E o m expr) as [[m1 r]|] eqn:Eb; cbn in H; [|discriminate].
  destruct (buildfrom_step _ _ _ _ _ _ _ Go V Eb) as [g' [V1 [Q [Mm [Hl Hr]]]]]. exists g'.
  destruct r as [j|e1].
  - injection H as <- <-. destruct (Hl j eq_refl) as [Lj B]. split; [apply core_mMap; [exact V1|lia]|].
    assert (Q2 : quiet m1 (set_mMap m1 (mput key j (md_mMap m1))) g' g').
    { repeat split; auto; [intros i [b l] X; exists l; exact X|]. eauto. }
    split; [eapply quiet_trans; eauto|]. split; [|split; [congruence|]].
    + intros mk Hne. cbn. rewrite mget_put, Mm. destruct (String.eqb_spec mk key); congruence.
    + intros _. exists expr, j. split; [reflexivity|]. split; [cbn; rewrite mget_put, String.eqb_refl; reflexivity|].
      eapply built_quiet; eauto.
  - injection H as <- <-. destruct (Hr e1 eq_refl) as [-> ->].
    split; [exact V|]. split; [exact Q|]. split; [auto|]. split; [auto|discriminate].
Qed.

Lemma loop_step E o keys : good_orders o -> forall m g m' e, Core m g -> build_loop E o m keys = Val (m', e) ->
  exists g', Core m' g' /\ quiet m m' g g' /\
    (forall mk, ~ In mk keys -> mget mk (md_mMap m') = mget mk (md_mMap m)) /\
    (e = None -> forall mk, In mk keys ->
       exists expr j, mget mk (md_m m') = Some expr /\ mget mk (md_mMap m') = Some j /\ built_now E o m' g' j expr).
Proof.
  intros Go. induction keys as [|key keys IH]; intros m g m' e V H; cbn [build_loop] in H.
  - injection H as <- <-. exists g. split; [exact V|]. split; [apply quiet_refl|]. split; [auto|]. intros _ mk [].
  - destruct (BuildMatcher E o m key) as [[m1 e1]|] eqn:Eb; cbn [obind] in H; [|discriminate].
    destruct (buildkey_step _ _ _ _ _ _ _ Go V Eb) as [g1 [V1 [Q1 [O1 [N1 B1]]]]].
    destruct e1 as [e1|].
    + injection H as <- <-. exists g1. split; [exact V1|]. split; [exact Q1|]. split; [|discriminate].
      intros mk _. rewrite N1 by discriminate. reflexivity.
    + destruct (IH _ _ _ _ V1 H) as [g2 [V2 [Q2 [O2 B2]]]]. exists g2. split; [exact V2|].
      split; [eapply quiet_trans; eauto|]. split.
      * intros mk Hn. rewrite O2, O1; auto; intros X; apply Hn; cbn; auto.
      * intros -> mk Hin. destruct (in_dec string_dec mk keys) as [Hi|Hni]; [now apply B2|].
        destruct Hin as [<-|Hi]; [|contradiction]. destruct (B1 eq_refl) as [expr [j [X1 [X2 X3]]]].
        exists expr, j. pose proof Q2 as Q2'. destruct Q1 as (_ & _ & _ & Qm & _), Q2' as (_ & _ & _ & Z4 & _).
        split; [congruence|]. split; [rewrite O2 by exact Hni; exact X2|].
        eapply built_quiet; [exact Q2|exact X3].
Qed.

Lemma step_ok E o c h m g m' r : good_orders o -> Core m g -> Hist h m g -> mstep E o m c = Val (m', r) ->
  exists g', step_spec h m g o c m' g'.
Proof.
  intros Go V W H. destruct c; cbn [mstep] in H.
  - destruct (SetDef m s key value) as [[m1 e]|] eqn:Es; cbn [obind] in H; [|discriminate]. injection H as <- <-.
    eapply setdef_step; eauto.
  - destruct (RemoveDef m s key) as [m1 e] eqn:Es. injection H as <- <-. eapply removedef_step; eauto.
  - destruct (model_AddRule o m r0) as [[[[m1 b] e] es]|] eqn:Es; cbn [obind] in H; [|discriminate]. injection H as <- <-.
    eapply add_step; eauto.
  - destruct (model_RemoveRule o m r0) as [[[[m1 b] e] es]|] eqn:Es; cbn [obind] in H; [|discriminate]. injection H as <- <-.
    eapply remove_step; eauto.
  - destruct (ClearPolicy o m key) as [[m1 e]|] eqn:Es; cbn [obind] in H; [|discriminate]. injection H as <- <-.
    eapply clear_step; eauto.
  - destruct (BuildMatchers E o m) as [[m1 e]|] eqn:Es; cbn [obind] in H; [|discriminate]. injection H as <- <-.
    destruct (loop_step _ _ _ Go _ _ _ _ V Es) as [g' [V1 [Q [O B]]]]. exists g'. split; [exact V1|].
    split; [eapply hist_quiet; eauto|]. split; [apply Q|]. intros pk mk [].
  - destruct (BuildMatcher E o m key) as [[m1 e]|] eqn:Es; cbn [obind] in H; [|discriminate]. injection H as <- <-.
    destruct (buildkey_step _ _ _ _ _ _ _ Go V Es) as [g' [V1 [Q [O _]]]]. exists g'. split; [exact V1|].
    split; [eapply hist_quiet; eauto|]. split; [apply Q|]. intros pk mk L. cbn in L. split; [now rewrite (proj1 Q)|].
    apply O. congruence.
  - destruct (BuildMatcherFromDef E o m expr) as [[m1 e]|] eqn:Es; cbn [obind] in H; [|discriminate]. injection H as <- <-.
    destruct (buildfrom_step _ _ _ _ _ _ _ Go V Es) as [g' [V1 [Q [O _]]]]. exists g'. split; [exact V1|].
    split; [eapply hist_quiet; eauto|]. split; [apply Q|]. intros pk mk L. rewrite O, (proj1 Q). auto.
  - injection H as <- <-. change (SetRoleManager (set_rms m (md_rms m ++ [x])) key (Datatypes.length (md_rms m))) with (alloc_r m key x).
    eexists. split; [apply (core_alloc_r m g key x V)|].
    split; [apply (hist_alloc_r h m g key x o _ V W)|].
    + reflexivity.
    + intros k acc Hk. cbn [g_step]. now rewrite String.eqb_sym.
    + split; [now apply stable_same|]. intros. split; reflexivity.
  - injection H as <- <-. exists g. apply frame_step; auto. repeat split.
  - destruct (RemoveFunction m name) as [m1 b] eqn:Er. injection Er as <- <-. injection H as <- <-. exists g. apply frame_step; auto. repeat split.
Qed.

Lemma core_new E : exists g, Core (NewModel E) g /\ Hist [] (NewModel E) g.
Proof.
  exists (mkG (fun _ => []) (fun _ => (0, 0)) (fun _ => (IRole (NewRoleManager 10), []))).
  split; constructor; cbn; try discriminate; try (intros [|i]; discriminate).
  - split; constructor.
  - reflexivity.
  - reflexivity.
Qed.

Lemma exec_ok E h2 : forall h1 m g m' rs, good_m h2 -> Core m g -> Hist h1 m g -> mexec E m h2 = Val (m', rs) ->
  exists g', Core m' g' /\ Hist (h1 ++ h2) m' g' /\ stable m m' g g' /\
  (forall pk mk, Forall (fun oc => leaves_alone pk mk (snd oc)) h2 ->
     mget pk (md_pMap m') = mget pk (md_pMap m) /\ mget mk (md_mMap m') = mget mk (md_mMap m)).
Proof.
  induction h2 as [|[o c] h2 IH]; intros h1 m g m' rs Go V W H; cbn [mexec] in H.
  - injection H as <- <-. exists g. rewrite app_nil_r. split; [exact V|]. split; [exact W|]. split; [now apply stable_same|]. auto.
  - destruct (mstep E o m c) as [[m1 r]|] eqn:Es; cbn [obind] in H; [|discriminate].
    destruct (mexec E m1 h2) as [[m2 rs2]|] eqn:Ee; cbn [obind] in H; [|discriminate]. injection H as <- <-.
    inversion Go as [|? ? G1 G2]; subst. cbn in G1.
    destruct (step_ok _ _ _ _ _ _ _ _ G1 V W Es) as [g1 [V1 [W1 [S1 L1]]]].
    destruct (IH _ _ _ _ _ G2 V1 W1 Ee) as [g2 [V2 [W2 [S2 L2]]]]. exists g2. split; [exact V2|].
    split; [now rewrite <- app_assoc in W2|]. split; [eapply stable_trans; eauto|].
    intros pk mk Hf. inversion Hf as [|? ? F1 F2]; subst. destruct (L1 pk mk F1), (L2 pk mk F2). split; congruence.
Qed.

Lemma reachable_ok E h m rs : good_m h -> mexec E (NewModel E) h = Val (m, rs) -> exists g, Core m g /\ Hist h m g.
Proof.
  intros Go H. destruct (core_new E) as [g [V W]]. destruct (exec_ok E h [] _ _ _ _ Go V W H) as [g' [V' [W' _]]]. eauto.
Qed.
