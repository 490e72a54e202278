(** Property C74: a configured matcher over a grouping section follows the rules
    of the section. *)
From Verif Require Import GoBase GoBaseP DefsM DefsP PolicyM PolicySpec PolicyP EffectorM EffectorP MatcherDefM MatcherM MatcherSpec MatcherP MatcherP2
  RbacM RbacSpec DomainM DomainSpec EvalM ModelM ModelSpec ModelP ModelP2 ModelP3 ModelP4 ModelP5 ModelP6 SafeP EnforcerM EnforcerSpec EnforcerP.
From Verif Require Import Prop_Effect Prop_Policy Prop_Matcher Prop_Model Prop_ModelDefs Prop_Enforce Prop_Query Prop_Adhoc.
Local Notation pstep := PolicyM.pstep.

(** ** The hypotheses

    Calls that neither redefine, remove nor clear grouping section [pk] and neither
    remove nor rebuild matcher [mk]. *)
Definition leaves_group (pk mk : string) (c : mcall) : Prop :=
  match c with
  | CSetDef G_SEC k _ | CRemoveDef G_SEC k | CSetRM k _ | CClear k => k <> pk
  | CRemoveDef M_SEC k => k <> mk
  | CBuild => False
  | CBuildKey k => k <> mk
  | _ => True
  end.
(** Matcher [mk] is in service after [h]: it was last built, after [ha], with the
    stage tree [root] on the grouping section it names; [hb] are the calls since. *)
Definition g_service (E : env) (h : list (orders * mcall)) (mk : string) (root : stage) (ha hb : list (orders * mcall)) : Prop :=
  key_of M_SEC mk /\ g_key (GetPolicyKey root) /\ (exists t, def_text G_SEC (GetPolicyKey root) ha = Some t) /\
  exists o c m1 rs1 m2 x expr,
    h = ha ++ (o, c) :: hb /\ (c = CBuild \/ c = CBuildKey mk) /\
    mexec E (NewModel E) ha = Val (m1, rs1) /\ mstep E o m1 c = Val (m2, x) /\ x_err x = None /\
    def_text M_SEC mk ha = Some expr /\
    Build (e_grow E) (e_parse E (mkeys (md_fm m1))) expr = inl root /\
    Forall (fun oc => leaves_group (GetPolicyKey root) mk (snd oc)) hb.
(** The rules of the section in these calls are written the way they are listed
    (two names without domains) and are comma-free. *)
Definition written_as_listed (pk : string) (ha hb : list (orders * mcall)) : Prop :=
  Forall (fun oc => match snd oc with
                    | CAdd rl | CRemove rl => forall r, of_section pk rl = Some r -> as_listed ha rl = rl /\ comma_free r
                    | _ => True
                    end) hb.

(** ** Matchers only change with the section they are attached to *)
Lemma buildfrom_keeps E o m expr m' r : BuildMatcherFromDef E o m expr = Val (m', r) ->
  (forall j x, nth_error (md_mats m) j = Some x -> nth_error (md_mats m') j = Some x) /\
  (forall i, obj_rules o m' i = obj_rules o m i) /\ md_mMap m' = md_mMap m /\ md_p m' = md_p m /\ md_pMap m' = md_pMap m /\ md_rpMap m' = md_rpMap m /\
  md_fm m' = md_fm m /\ md_m m' = md_m m.
Proof.
  unfold BuildMatcherFromDef. intros H. destruct (Build _ _ _) as [root|e]; [|injection H as <- <-; auto 12].
  destruct (first_byte _); [|discriminate]. destruct (if Ascii.eqb _ "p" then _ else _) as [d|]; [|injection H as <- <-; auto 12].
  destruct (GetPolicy _ _) as [i|]; [|injection H as <- <-; auto 12].
  destruct (nth_error (md_objs m) i) as [[b l]|] eqn:Ei; [|discriminate].
  destruct (NewMatcher _ _ _) as [x|]; cbn in H; [|discriminate]. injection H as <- <-. cbn.
  split; [|split; [|auto 12]].
  - intros j y Hy. rewrite nth_error_app1; [exact Hy|]. eapply nth_lt; eauto.
  - intros i0. unfold obj_rules, obj_Range. cbn [md_objs md_rms set_mats set_objs]. rewrite nth_set_nth by (eapply nth_lt; eauto).
    destruct (Nat.eqb_spec i0 i) as [->|]; [|reflexivity]. rewrite Ei. reflexivity.
Qed.
Lemma buildkey_keeps E o m k m' e : BuildMatcher E o m k = Val (m', e) ->
  (forall j x, nth_error (md_mats m) j = Some x -> nth_error (md_mats m') j = Some x) /\
  (forall i, obj_rules o m' i = obj_rules o m i) /\ md_p m' = md_p m /\ md_pMap m' = md_pMap m /\ md_rpMap m' = md_rpMap m /\
  md_fm m' = md_fm m /\ md_m m' = md_m m /\ (forall k', k' <> k -> mget k' (md_mMap m') = mget k' (md_mMap m)).
Proof.
  unfold BuildMatcher. intros H. destruct (mget k (md_m m)) as [expr|]; [|injection H as <- <-; auto 12].
  apply obind_val in H as [[m1 r] [Eb H]]. destruct (buildfrom_keeps _ _ _ _ _ _ Eb) as (A & B & C & D & F & G & I1 & J).
  destruct r; injection H as <- <-; cbn; repeat (split; [assumption|]).
  - intros k' Hk. rewrite mget_put, C. destruct (String.eqb_spec k' k); congruence.
  - intros k' Hk. now rewrite C.
Qed.
Lemma loop_keeps E o keys : forall m m' e, build_loop E o m keys = Val (m', e) ->
  (forall j x, nth_error (md_mats m) j = Some x -> nth_error (md_mats m') j = Some x) /\
  (forall i, obj_rules o m' i = obj_rules o m i) /\ md_p m' = md_p m /\ md_pMap m' = md_pMap m /\ md_rpMap m' = md_rpMap m /\
  md_fm m' = md_fm m /\ md_m m' = md_m m /\ (forall k', ~ In k' keys -> mget k' (md_mMap m') = mget k' (md_mMap m)).
Proof.
  induction keys as [|k keys IH]; intros m m' e H; cbn [build_loop] in H; [injection H as <- <-; auto 12|].
  apply obind_val in H as [[m1 e1] [Eb H]]. destruct (buildkey_keeps _ _ _ _ _ _ Eb) as (A & B & D & F & G & I1 & J & K).
  destruct e1.
  - injection H as <- <-. repeat (split; [assumption|]). intros k' Hk. apply K. intros ->. apply Hk. now left.
  - destruct (IH _ _ _ H) as (A' & B' & D' & F' & G' & I1' & J' & K').
    split; [auto|]. split; [intros i; now rewrite B', B|]. repeat (split; [congruence|]).
    intros k' Hk. rewrite K', K; [reflexivity|intros ->; apply Hk; now left|intros X; apply Hk; now right].
Qed.

(** What building a matcher leaves in the model. *)
Lemma buildkey_built E o m mk expr root m' : BuildMatcher E o m mk = Val (m', None) -> mget mk (md_m m) = Some expr ->
  Build (e_grow E) (e_parse E (mkeys (md_fm m))) expr = inl root -> g_key (GetPolicyKey root) ->
  exists i j y, mget mk (md_mMap m') = Some j /\ nth_error (md_mats m') j = Some y /\ GetPolicy m (GetPolicyKey root) = Some i /\
    NewMatcher (NewPolicyDef (GetPolicyKey root) "user, role, domain") (obj_rules o m i) root = Val y.
Proof.
  intros H Em Hb Kg. unfold BuildMatcher in H. rewrite Em in H. apply obind_val in H as [[m1 r] [Eb H]]. destruct r as [j|]; [|discriminate].
  injection H as <-. unfold BuildMatcherFromDef in Eb. rewrite Hb, Kg in Eb. cbn [Ascii.eqb] in Eb.
  change (Ascii.eqb "g" "p") with false in Eb. change (Ascii.eqb "g" "g") with true in Eb. cbn iota in Eb.
  destruct (GetPolicy m (GetPolicyKey root)) as [i|] eqn:Ei; [|discriminate]. destruct (nth_error (md_objs m) i) as [ob|]; [|discriminate].
  apply obind_val in Eb as [y [Ey Eb]]. injection Eb as <- <-. exists i, (List.length (md_mats m)), y. cbn.
  split; [rewrite mget_put, String.eqb_refl; reflexivity|]. split; [rewrite nth_error_app2, Nat.sub_diag by lia; reflexivity|]. auto.
Qed.
Lemma loop_built E o mk expr root keys : forall m m', build_loop E o m keys = Val (m', None) -> In mk keys -> mget mk (md_m m) = Some expr ->
  Build (e_grow E) (e_parse E (mkeys (md_fm m))) expr = inl root -> g_key (GetPolicyKey root) ->
  exists i j y, mget mk (md_mMap m') = Some j /\ nth_error (md_mats m') j = Some y /\ GetPolicy m (GetPolicyKey root) = Some i /\
    NewMatcher (NewPolicyDef (GetPolicyKey root) "user, role, domain") (obj_rules o m i) root = Val y.
Proof.
  induction keys as [|k keys IH]; intros m m' H Hin Em Hb Kg; [destruct Hin|]. cbn [build_loop] in H.
  apply obind_val in H as [[m1 e1] [Eb H]]. destruct e1; [discriminate|].
  destruct (buildkey_keeps _ _ _ _ _ _ Eb) as (A & B & D & F & G & I1 & J & K).
  destruct (in_dec string_dec mk keys) as [Hr|Hr].
  - destruct (IH m1 m' H Hr) as [i [j [y [X1 [X2 [X3 X4]]]]]]; try congruence.
    exists i, j, y. split; [exact X1|]. split; [exact X2|]. unfold GetPolicy in *. rewrite F, G in X3. rewrite B in X4. auto.
  - destruct Hin as [->|Hin]; [|contradiction].
    destruct (buildkey_built _ _ _ _ _ _ _ Eb Em Hb Kg) as [i [j [y [X1 [X2 X3]]]]].
    destruct (loop_keeps _ _ _ _ _ _ H) as (A' & _ & _ & _ & _ & _ & _ & K').
    exists i, j, y. split; [rewrite K' by exact Hr; exact X1|]. auto.
Qed.

(** What a call does to a matcher attached to grouping section [pk]. *)
Definition section_events (pk : string) (c : mcall) (b : bool) : list event :=
  match c with
  | CAdd rl => match of_section pk rl with Some r => if b then [EvtAdded r] else [] | None => [] end
  | CRemove rl => match of_section pk rl with Some r => if b then [EvtRemoved r] else [] | None => [] end
  | _ => []
  end.

Lemma act_events o m g i i' a m' b j x : Core m g -> act o m i' a = Val (m', b) -> fst (g_mb g j) = i -> nth_error (md_mats m) j = Some x ->
  (i' <> i -> nth_error (md_mats m') j = Some x) /\
  (i' = i -> forall rm ls, nth_error (md_objs m) i = Some (mkObj (ORole rm) ls) ->
     exists x' mgr mgr' es, act_role (o_names o) mgr a = Val (mgr', b, es) /\ m_events x es = Val x' /\ nth_error (md_mats m') j = Some x').
Proof.
  intros V H Hj Hx. unfold act in H. destruct (nth_error (md_objs m) i') as [[bo ls]|] eqn:Ei; [|discriminate]. cbn [o_body o_listeners] in H.
  destruct (v_lis _ _ V _ _ _ Ei) as [Nd Hl].
  assert (N : forall es ms, notify_all (md_mats m) ls es = Val ms -> i' <> i -> nth_error ms j = Some x).
  { intros es ms En Hne. destruct (notify_all_ok _ _ _ _ Nd En) as [_ [Out _]]. rewrite Out; [exact Hx|]. intros Hin. apply Hl in Hin as [Hin _]. congruence. }
  destruct bo as [p|rm].
  - destruct (pstep p a) as [[p' b'] es]. apply obind_val in H as [ms [En H]]. injection H as <- <-. cbn. split; [eauto|].
    intros -> rm ls' Ho. rewrite Ho in Ei. discriminate.
  - destruct (nth_error (md_rms m) rm) as [mgr|]; [|discriminate]. apply obind_val in H as [[[mgr' b'] es] [Ea H]].
    apply obind_val in H as [ms [En H]]. injection H as <- <-. cbn. split; [eauto|].
    intros -> rm' ls' Ho. rewrite Ho in Ei. injection Ei as -> ->.
    destruct (notify_all_ok _ _ _ _ Nd En) as [_ [_ Ins]].
    destruct (v_mat _ _ V _ _ Hx) as [bo [ls2 [M1 [M2 _]]]]. rewrite Hj, Ho in M1. injection M1 as <- <-.
    destruct (Ins j x M2 Hx) as [x' [X1 X2]]. exists x', mgr, mgr', es. auto.
Qed.


Lemma rule_group o m g i a (k : string) m' b j x pk : Core m g -> g_key pk -> mget pk (md_rpMap m) = Some i -> fst (g_mb g j) = i ->
  nth_error (md_mats m) j = Some x -> forall i', (p_key k /\ mget k (md_pMap m) = Some i' \/ g_key k /\ mget k (md_rpMap m) = Some i') ->
  act o m i' a = Val (m', b) ->
  md_rpMap m' = md_rpMap m /\ md_mMap m' = md_mMap m /\
  (k <> pk -> nth_error (md_mats m') j = Some x) /\
  (k = pk -> exists x' mgr mgr' es, act_role (o_names o) mgr a = Val (mgr', b, es) /\ m_events x es = Val x' /\ nth_error (md_mats m') j = Some x').
Proof.
  intros V Kg Hi Hj Hx i' Hk H. destruct (act_events _ _ _ _ _ _ _ _ _ _ V H Hj Hx) as [A1 A2].
  destruct (v_r _ _ V _ _ Hi) as [rm [ls Ho]].
  assert (M : same_maps m m').
  { destruct Hk as [[_ Hk]|[_ Hk]].
    - destruct (v_p _ _ V _ _ Hk) as [_ [p [l E1]]]. apply (core_act_p _ _ _ _ _ _ _ _ _ V E1 H).
    - destruct (v_r _ _ V _ _ Hk) as [r1 [l E1]]. destruct (core_act_r _ _ _ _ _ _ _ _ _ V E1 H) as [_ [_ [_ [M _]]]]. exact M. }
  destruct M as (_ & M2 & M3 & _). split; [exact M2|]. split; [exact M3|]. split.
  - intros Hne. apply A1. intros ->. destruct Hk as [[_ Hk]|[_ Hk]].
    + destruct (v_p _ _ V _ _ Hk) as [_ [p [l E1]]]. congruence.
    + apply Hne. eapply (v_rinj _ _ V); eauto.
  - intros ->. destruct Hk as [[Kp _]|[_ Hk]]; [exfalso; exact (pg_key _ Kp Kg)|].
    apply (A2 ltac:(congruence) rm ls Ho).
Qed.

Lemma group_step E o m g c m' res pk mk i j x : Core m g -> g_key pk -> mget pk (md_rpMap m) = Some i -> fst (g_mb g j) = i ->
  nth_error (md_mats m) j = Some x -> mstep E o m c = Val (m', res) -> leaves_group pk mk c ->
  mget pk (md_rpMap m') = Some i /\ mget mk (md_mMap m') = mget mk (md_mMap m) /\
  exists x', nth_error (md_mats m') j = Some x' /\ m_events x (section_events pk c (x_bool res)) = Val x'.
Proof.
  intros V Kg Hi Hj Hx H L. destruct c; cbn [mstep section_events] in *.
  - apply obind_val in H as [[m1 e] [Es H]]. injection H as <- <-. unfold SetDef in Es.
    destruct (keyPrefix s) as [c|] eqn:Ec; [|injection Es as <- <-; eauto]. destruct (first_byte key) as [c'|]; [|discriminate].
    destruct (Ascii.eqb c' c); [|injection Es as <- <-; eauto]. injection Es as <- _. destruct s; cbn; eauto.
    cbn in L. rewrite mget_put. destruct (String.eqb_spec pk key); [congruence|eauto].
  - destruct (RemoveDef m s key) as [m1 e] eqn:Es. injection H as <- <-. destruct s; cbn in Es; injection Es as <- <-; cbn; eauto.
    + cbn in L. rewrite mget_del. destruct (String.eqb_spec pk key); [congruence|eauto].
    + cbn in L. rewrite mget_del. destruct (String.eqb_spec mk key); [congruence|eauto].
  - apply obind_val in H as [[[[m1 b] e] es] [Es H]]. injection H as <- <-. cbn [x_bool]. unfold model_AddRule in Es.
    destruct r as [|k r]; [discriminate|]. rewrite of_section_key. destruct (first_byte k) as [c|] eqn:Ec; [|discriminate].
    assert (G : forall i', (p_key k /\ mget k (md_pMap m) = Some i' \/ g_key k /\ mget k (md_rpMap m) = Some i') ->
       (let! (m0, b0) := act o m i' (PAdd r) in Val (m0, b0, None, if b0 : bool then [MAdded (k :: r)] else [])) = Val (m1, b, e, es) ->
       mget pk (md_rpMap m1) = Some i /\ mget mk (md_mMap m1) = mget mk (md_mMap m) /\
       exists x', nth_error (md_mats m1) j = Some x' /\
         m_events x (match (if String.eqb k pk then Some r else None) with Some r0 => if b then [EvtAdded r0] else [] | None => [] end) = Val x').
    { intros i' Hk Ha. apply obind_val in Ha as [[m0 b0] [Ea Ha]]. injection Ha as <- <- _ _.
      destruct (rule_group o m g i (PAdd r) k m0 b0 j x pk V Kg Hi Hj Hx i' Hk Ea) as [A1 [A2 [A3 A4]]].
      split; [now rewrite A1|]. split; [now rewrite A2|]. destruct (String.eqb_spec k pk) as [Ek|Nk].
      - destruct (A4 Ek) as [x' [mgr [mgr' [es0 [B1 [B2 B3]]]]]]. exists x'. split; [exact B3|]. cbn in B1. destruct r as [|n1 [|n2 ds]]; try discriminate.
        apply obind_val in B1 as [[y bb] [_ B1]]. injection B1 as _ -> <-. exact B2.
      - exists x. split; [now apply A3|reflexivity]. }
    assert (N : m1 = m -> k <> pk -> mget pk (md_rpMap m1) = Some i /\ mget mk (md_mMap m1) = mget mk (md_mMap m) /\
       exists x', nth_error (md_mats m1) j = Some x' /\
         m_events x (match (if String.eqb k pk then Some r else None) with Some r0 => if b then [EvtAdded r0] else [] | None => [] end) = Val x').
    { intros -> Nk. destruct (String.eqb_spec k pk); [congruence|]. split; [exact Hi|]. split; [reflexivity|]. exists x. auto. }
    destruct (Ascii.eqb_spec c "p") as [->|].
    + destruct (mget k (md_pMap m)) as [i'|] eqn:Ek; [apply (G i'); auto|]. injection Es as <- <- <- <-. apply N; [reflexivity|].
      intros ->. exact (pg_key pk Ec Kg).
    + destruct (Ascii.eqb_spec c "g") as [->|].
      * destruct (mget k (md_rpMap m)) as [i'|] eqn:Ek; [apply (G i'); auto|]. injection Es as <- <- <- <-. apply N; [reflexivity|]. congruence.
      * injection Es as <- <- <- <-. apply N; [reflexivity|]. intros ->. unfold g_key in Kg. congruence.
  - apply obind_val in H as [[[[m1 b] e] es] [Es H]]. injection H as <- <-. cbn [x_bool]. unfold model_RemoveRule in Es.
    destruct r as [|k r]; [discriminate|]. rewrite of_section_key. destruct (first_byte k) as [c|] eqn:Ec; [|discriminate].
    assert (G : forall i', (p_key k /\ mget k (md_pMap m) = Some i' \/ g_key k /\ mget k (md_rpMap m) = Some i') ->
       (let! (m0, b0) := act o m i' (PRemove r) in Val (m0, b0, None, if b0 : bool then [MRemoved (k :: r)] else [])) = Val (m1, b, e, es) ->
       mget pk (md_rpMap m1) = Some i /\ mget mk (md_mMap m1) = mget mk (md_mMap m) /\
       exists x', nth_error (md_mats m1) j = Some x' /\
         m_events x (match (if String.eqb k pk then Some r else None) with Some r0 => if b then [EvtRemoved r0] else [] | None => [] end) = Val x').
    { intros i' Hk Ha. apply obind_val in Ha as [[m0 b0] [Ea Ha]]. injection Ha as <- <- _ _.
      destruct (rule_group o m g i (PRemove r) k m0 b0 j x pk V Kg Hi Hj Hx i' Hk Ea) as [A1 [A2 [A3 A4]]].
      split; [now rewrite A1|]. split; [now rewrite A2|]. destruct (String.eqb_spec k pk) as [Ek|Nk].
      - destruct (A4 Ek) as [x' [mgr [mgr' [es0 [B1 [B2 B3]]]]]]. exists x'. split; [exact B3|]. cbn in B1. destruct r as [|n1 [|n2 ds]]; try discriminate.
        apply obind_val in B1 as [[y bb] [_ B1]]. injection B1 as _ -> <-. exact B2.
      - exists x. split; [now apply A3|reflexivity]. }
    assert (N : m1 = m -> k <> pk -> mget pk (md_rpMap m1) = Some i /\ mget mk (md_mMap m1) = mget mk (md_mMap m) /\
       exists x', nth_error (md_mats m1) j = Some x' /\
         m_events x (match (if String.eqb k pk then Some r else None) with Some r0 => if b then [EvtRemoved r0] else [] | None => [] end) = Val x').
    { intros -> Nk. destruct (String.eqb_spec k pk); [congruence|]. split; [exact Hi|]. split; [reflexivity|]. exists x. auto. }
    destruct (Ascii.eqb_spec c "p") as [->|].
    + destruct (mget k (md_pMap m)) as [i'|] eqn:Ek; [apply (G i'); auto|]. injection Es as <- <- <- <-. apply N; [reflexivity|].
      intros ->. exact (pg_key pk Ec Kg).
    + destruct (Ascii.eqb_spec c "g") as [->|].
      * destruct (mget k (md_rpMap m)) as [i'|] eqn:Ek; [apply (G i'); auto|]. injection Es as <- <- <- <-. apply N; [reflexivity|]. congruence.
      * injection Es as <- <- <- <-. apply N; [reflexivity|]. intros ->. unfold g_key in Kg. congruence.
  - apply obind_val in H as [[m1 e] [Es H]]. injection H as <- <-. unfold ClearPolicy, GetPolicy in Es. cbn in L.
    assert (G : forall i', mget key (md_pMap m) = Some i' \/ mget key (md_rpMap m) = Some i' ->
       (let! (m0, _) := act o m i' PClear in Val (m0, None)) = Val (m1, e) ->
       mget pk (md_rpMap m1) = Some i /\ mget mk (md_mMap m1) = mget mk (md_mMap m) /\
       exists x', nth_error (md_mats m1) j = Some x' /\ m_events x [] = Val x').
    { intros i' Hk Ha. apply obind_val in Ha as [[m0 b0] [Ea Ha]]. injection Ha as <- _.
      destruct (act_events _ _ _ _ _ _ _ _ _ _ V Ea Hj Hx) as [A1 _]. destruct (v_r _ _ V _ _ Hi) as [rm [ls Ho]].
      assert (M : same_maps m m0 /\ i' <> i).
      { destruct Hk as [Hk|Hk].
        - destruct (v_p _ _ V _ _ Hk) as [_ [p [l E1]]]. split; [apply (core_act_p _ _ _ _ _ _ _ _ _ V E1 Ea)|]. intros ->. congruence.
        - destruct (v_r _ _ V _ _ Hk) as [r1 [l E1]]. destruct (core_act_r _ _ _ _ _ _ _ _ _ V E1 Ea) as [_ [_ [_ [M _]]]]. split; [exact M|].
          intros ->. apply L. eapply (v_rinj _ _ V); eauto. }
      destruct M as [(_ & M2 & M3 & _) Hne]. split; [now rewrite M2|]. split; [now rewrite M3|]. exists x. split; [now apply A1|reflexivity]. }
    destruct (mget key (md_pMap m)) as [i'|] eqn:E1; [apply (G i'); auto|].
    destruct (mget key (md_rpMap m)) as [i'|] eqn:E2; [apply (G i'); auto|]. injection Es as <- <-. split; [exact Hi|]. split; [reflexivity|]. exists x. auto.
  - destruct L.
  - apply obind_val in H as [[m1 e] [Es H]]. injection H as <- <-. destruct (buildkey_keeps _ _ _ _ _ _ Es) as (A & B & D & F & G & I1 & J & K).
    split; [now rewrite G|]. split; [apply K; cbn in L; congruence|]. exists x. split; [auto|reflexivity].
  - apply obind_val in H as [[m1 e] [Es H]]. injection H as <- <-. destruct (buildfrom_keeps _ _ _ _ _ _ Es) as (A & B & C & D & F & G & I1 & J).
    split; [now rewrite G|]. split; [now rewrite C|]. exists x. split; [auto|reflexivity].
  - injection H as <- <-. cbn. cbn in L. rewrite mget_put. destruct (String.eqb_spec pk key); [congruence|eauto].
  - injection H as <- <-. cbn. eauto.
  - destruct (RemoveFunction m name) as [m1 b] eqn:Er. injection Er as <- <-. injection H as <- <-. cbn. eauto.
Qed.

Lemma kind_kept pk mk ha hb : tame hb -> Forall (fun oc => leaves_group pk mk (snd oc)) hb ->
  option_map fst (g_history pk (ha ++ hb)) = option_map fst (g_history pk ha).
Proof.
  intros T F. induction hb as [|[o c] hb IH] using rev_ind; [now rewrite app_nil_r|].
  apply Forall_app in T as [T Tc], F as [F Fc]. inversion Tc as [|? ? Hc _]; subst. inversion Fc as [|? ? Lc _]; subst. cbn in Hc, Lc.
  rewrite app_assoc, g_history_snoc, <- (IH T F). set (s := g_history pk (ha ++ hb)). clearbody s.
  assert (M : forall d, option_map fst (option_map (fun a : irm * list (RbacM.order * dcall) => (fst a, snd a ++ [(o_names o, d)])) s) = option_map fst s)
    by (intros d; now destruct s).
  destruct c; cbn [g_step]; try reflexivity; try contradiction.
  - destruct s0; cbn in Lc; try reflexivity. destruct (String.eqb_spec key pk); [congruence|reflexivity].
  - destruct s0; cbn in Lc; try reflexivity. destruct (String.eqb_spec key pk); [congruence|reflexivity].
  - destruct (of_section pk r) as [[|? [|? ?]]|]; try reflexivity. apply M.
  - destruct (of_section pk r) as [[|? [|? ?]]|]; try reflexivity. apply M.
  - cbn in Lc. destruct (String.eqb_spec key pk); [congruence|reflexivity].
Qed.
Lemma as_listed_kind h h' pk r : g_key pk -> option_map fst (g_history pk h') = option_map fst (g_history pk h) ->
  as_listed h' (pk :: r) = as_listed h (pk :: r).
Proof.
  intros Kg H. unfold as_listed. rewrite Kg. destruct (g_history pk h') as [[x' c']|], (g_history pk h) as [[x c]|]; cbn in H; try discriminate; [|reflexivity].
  injection H as ->. reflexivity.
Qed.
(** Calls that do not name a rule of the section keep its rules. *)
Lemma kept_present pk mk h o c : g_key pk -> tame_call c -> leaves_group pk mk c ->
  (forall rl r, c = CAdd rl \/ c = CRemove rl -> of_section pk rl <> Some r) -> forall r, present (h ++ [(o, c)]) (pk :: r) <-> present h (pk :: r).
Proof.
  intros Kg Tc L N r. assert (G : g_history pk (h ++ [(o, c)]) = g_history pk h).
  { rewrite g_history_snoc. destruct c; cbn [g_step]; try reflexivity; try contradiction.
    - destruct s; cbn in L; try reflexivity. destruct (String.eqb_spec key pk); [congruence|reflexivity].
    - destruct s; cbn in L; try reflexivity. destruct (String.eqb_spec key pk); [congruence|reflexivity].
    - destruct (of_section pk r0) as [x|] eqn:Eo; [|reflexivity]. exfalso. exact (N r0 x (or_introl eq_refl) Eo).
    - destruct (of_section pk r0) as [x|] eqn:Eo; [|reflexivity]. exfalso. exact (N r0 x (or_intror eq_refl) Eo).
    - cbn in L. destruct (String.eqb_spec key pk); [congruence|reflexivity]. }
  rewrite !g_present by exact Kg. now rewrite G.
Qed.

Definition group_def (k : string) : argdef := NewPolicyDef k "user, role, domain".

(** A matcher in service has followed the section. *)
Lemma group_lives E mk root ha o c m1 rs1 m2 x expr hb : let pk := GetPolicyKey root in
  key_of M_SEC mk -> g_key pk -> (exists t, def_text G_SEC pk ha = Some t) ->
  (c = CBuild \/ c = CBuildKey mk) -> mexec E (NewModel E) ha = Val (m1, rs1) -> mstep E o m1 c = Val (m2, x) -> x_err x = None ->
  def_text M_SEC mk ha = Some expr -> Build (e_grow E) (e_parse E (mkeys (md_fm m1))) expr = inl root ->
  (forall r, present ha (pk :: r) -> comma_free r) ->
  good_m (ha ++ (o, c) :: hb) -> tame (ha ++ (o, c) :: hb) ->
  Forall (fun oc => leaves_group pk mk (snd oc)) hb -> written_as_listed pk ha hb ->
  forall m rs, mexec E (NewModel E) (ha ++ (o, c) :: hb) = Val (m, rs) ->
  exists g i j y l h2, Core m g /\ Hist (ha ++ (o, c) :: hb) m g /\ mget pk (md_rpMap m) = Some i /\ fst (g_mb g j) = i /\
    mget mk (md_mMap m) = Some j /\ nth_error (md_mats m) j = Some y /\
    Forall comma_free l /\ (forall r, In r l <-> present ha (pk :: r)) /\
    plain_ops h2 /\ lives (group_def pk) root (map PAdd l) h2 y /\
    (forall r, set_of (map PAdd l ++ h2) r = true <-> present (ha ++ (o, c) :: hb) (pk :: r)) /\
    (forall r, recorded (map PAdd l) h2 r -> present ha (pk :: r) \/ In (CAdd (pk :: r)) (map snd hb)).
Proof.
  intros pk Km Kg Hd Hc Ha Hs Hx Ht HB Hp. induction hb as [|[o' c'] hb IH] using rev_ind; intros G T F Wr m rs H.
  - apply Forall_app in G as [Ga Gc]. inversion Gc as [|? ? Go _]; subst. cbn in Go.
    apply Forall_app in T as [Ta _].
    pose proof (mexec_snoc E (NewModel E) ha o c m1 rs1 m2 x Ha Hs) as H'. rewrite H in H'. injection H' as -> _.
    destruct (reachable_ok E ha m1 rs1 Ga Ha) as [g1 [V1 W1]]. pose proof (defs_exec E ha m1 rs1 Ha) as D1.
    assert (Em : mget mk (md_m m1) = Some expr) by (rewrite (f_m _ _ D1 mk Km); exact Ht).
    assert (X : exists g2, Core m2 g2 /\ Hist (ha ++ [(o, c)]) m2 g2 /\ quiet m1 m2 g1 g2 /\
              (exists j, mget mk (md_mMap m2) = Some j /\ built_now E o m2 g2 j expr) /\
              exists i j y, mget mk (md_mMap m2) = Some j /\ nth_error (md_mats m2) j = Some y /\ GetPolicy m1 pk = Some i /\
                NewMatcher (group_def pk) (obj_rules o m1 i) root = Val y).
    { destruct Hc as [-> | ->]; cbn [mstep] in Hs; apply obind_val in Hs as [[m' e] [Es Hs]]; injection Hs as <- <-; cbn in Hx; subst e.
      - pose proof (loop_in E o m1 m' None mk Go Es ltac:(congruence)) as Hin.
        destruct (loop_step _ _ _ Go _ _ _ _ V1 Es) as [g' [V [Q [_ B]]]]. exists g'. split; [exact V|].
        split; [eapply hist_quiet; eauto|]. split; [exact Q|]. split.
        + destruct (B eq_refl mk Hin) as [ex [j [A1 [A2 A3]]]].
          exists j. split; [exact A2|]. destruct Q as (_ & _ & _ & Qm & _). rewrite Qm, Em in A1. injection A1 as <-. exact A3.
        + exact (loop_built E o mk expr root _ m1 m' Es Hin Em HB Kg).
      - destruct (buildkey_step _ _ _ _ _ _ _ Go V1 Es) as [g' [V [Q [_ [_ B]]]]]. exists g'. split; [exact V|].
        split; [eapply hist_quiet; eauto|]. split; [exact Q|]. split.
        + destruct (B eq_refl) as [ex [j [A1 [A2 A3]]]]. exists j. split; [exact A2|]. rewrite Em in A1. injection A1 as <-. exact A3.
        + exact (buildkey_built E o m1 mk expr root m' Es Em HB Kg). }
    destruct X as [g2 [V2 [W2 [Q [[j' [Ej' B]] [i [j [y [Ej [Ey [Ei Hy]]]]]]]]]]].
    rewrite Ej in Ej'. injection Ej' as <-.
    destruct Q as (Q1 & Q2 & Q3 & Q4 & Q5 & Q6 & _).
    destruct B as (root' & i' & y' & d & B1 & B2 & B3 & B4 & B5 & B6 & B7). rewrite Q5, HB in B1. injection B1 as <-. fold pk in B2.
    assert (i' = i) by (unfold GetPolicy in *; rewrite Q1, Q2 in B2; congruence). subst i'.
    assert (Er : mget pk (md_rpMap m2) = Some i).
    { unfold GetPolicy in B2. destruct (mget pk (md_pMap m2)) as [i'|] eqn:Ep; [|exact B2]. exfalso. apply (pg_key pk); [|exact Kg]. apply (v_p _ _ V2 _ _ Ep). }
    destruct (section_rules E ha m1 rs1 o pk (group_def pk) Ga Go Ta Ha) as [c1 [i1 [ob [_ [_ [S3 [_ [Nl Ll]]]]]]]].
    { right. split; [exact Kg|]. split; [exact Hd|reflexivity]. }
    rewrite Ei in S3. injection S3 as <-.
    assert (Fl : Forall comma_free (obj_rules o m1 i)) by (apply Forall_forall; intros r Hr; apply Hp, Ll, Hr).
    exists g2, i, j, y, (obj_rules o m1 i), [].
    split; [exact V2|]. split; [exact W2|]. split; [exact Er|]. split; [now rewrite B6|]. split; [exact Ej|]. split; [exact Ey|].
    split; [exact Fl|]. split; [exact Ll|]. split; [apply Forall_nil|]. split; [apply fresh_lives; [exact Nl| |exact Hy]; rewrite Forall_forall in Fl; intros r r' Hr Hr'; apply plain_inj; auto|].
    assert (Pr : forall r, present (ha ++ [(o, c)]) (pk :: r) <-> present ha (pk :: r)).
    { intros r. rewrite !g_present, g_history_snoc by exact Kg. destruct Hc as [-> | ->]; reflexivity. }
    split.
    + intros r. rewrite app_nil_r, set_of_adds, Pr. apply Ll.
    + intros r Hr. left. apply Ll, set_of_adds, Hr.
  - assert (Eh : ha ++ (o, c) :: hb ++ [(o', c')] = (ha ++ (o, c) :: hb) ++ [(o', c')]) by now rewrite <- app_assoc.
    rewrite Eh in *. set (h := ha ++ (o, c) :: hb) in *.
    apply Forall_app in G as [G Gc], T as [T Tc], F as [F Fc], Wr as [Wr Wc].
    inversion Gc as [|? ? Go' _]; subst. inversion Tc as [|? ? Tc' _]; subst. inversion Fc as [|? ? Lc _]; subst. inversion Wc as [|? ? Wc' _]; subst. cbn in Go', Tc', Lc, Wc'.
    apply mexec_snoc_inv in H as [m0 [rs0 [res [H0 [Hst _]]]]].
    destruct (IH G T F Wr m0 rs0 H0) as (g & i & j & y & l & h2 & V & W & Hi & Hj & Hm & Hy & Fl & Ll & Ph & Lv & Hset & Hrec). clear IH.
    destruct (step_ok E o' c' h m0 g m res Go' V W Hst) as [g' [V' [W' [St _]]]].
    destruct (group_step E o' m0 g c' m res pk mk i j y V Kg Hi Hj Hy Hst Lc) as [Hi' [Hm' [y' [Hy' Ev]]]].
    destruct (St j y Hy) as [Sg _].
    assert (K1 : option_map fst (g_history pk h) = option_map fst (g_history pk ha)).
    { unfold h. change (ha ++ (o, c) :: hb) with (ha ++ [(o, c)] ++ hb). rewrite app_assoc. rewrite (kind_kept pk mk); [| |exact F].
      - rewrite g_history_snoc. destruct Hc as [-> | ->]; reflexivity.
      - apply Forall_app in T as [_ T]. inversion T; assumption. }
    assert (Hg : exists s, g_history pk h = Some s).
    { pose proof (v_ghist _ _ _ W pk Kg) as X. rewrite Hi in X. destruct X as [rm [ls [_ X]]]. eauto. }
    destruct Hg as [s Hg].
    assert (Plain : plain_ops (map PAdd l ++ h2)) by (apply Forall_app; split; [now apply plain_adds|exact Ph]).
    assert (Cases : (exists r, c' = CAdd (pk :: r)) \/ (exists r, c' = CRemove (pk :: r)) \/
                    (forall rl r, c' = CAdd rl \/ c' = CRemove rl -> of_section pk rl <> Some r)).
    { destruct c' as [| |rl|rl| | | | | | |]; try (right; right; intros rl r [X|X]; discriminate).
      - destruct (of_section pk rl) as [r|] eqn:Eo; [left; exists r; apply of_section_eq in Eo; congruence|].
        right. right. intros rl' r [X|X]; congruence.
      - destruct (of_section pk rl) as [r|] eqn:Eo; [right; left; exists r; apply of_section_eq in Eo; congruence|].
        right. right. intros rl' r [X|X]; congruence. }
    destruct Cases as [[r ->]|[[r ->]|N]].
    + destruct (Wc' r) as [Al Cf]; [apply of_section_eq; reflexivity|].
      rewrite <- (as_listed_kind ha h pk r Kg K1) in Al.
      assert (Sec : in_section h (pk :: r) <> None) by (rewrite (in_section_g h pk r Kg), Hg; destruct r as [|? [|? ?]]; discriminate).
      pose proof (step_long E h o' m0 rs0 _ (pk :: r) m res G H0 (or_introl eq_refl) Sec Hst) as Ln.
      destruct (in_section h (pk :: r)) as [b0|] eqn:Es; [|congruence]. pose proof (in_section_listed h (pk :: r) b0 Ln Es) as Lst. rewrite Al, <- Hset in Lst.
      destruct (rule_result E h o' m0 rs0 (pk :: r) b0 G Go' T Tc' H0 Es) as [R1 _].
      cbn [mstep] in Hst. apply obind_val in Hst as [[[[m' b] e] es] [Est Hst]]. injection Hst as -> <-. destruct (R1 _ _ _ _ Est) as [-> _]. cbn [x_bool] in Ev.
      assert (Eb : set_of (map PAdd l ++ h2) r = b0) by (destruct (set_of (map PAdd l ++ h2) r), b0; try reflexivity; [symmetry|]; apply Lst; reflexivity).
      exists g', i, j, y', l, (h2 ++ [PAdd r]).
      split; [exact V'|]. split; [exact W'|]. split; [exact Hi'|]. split; [now rewrite Sg|]. split; [congruence|]. split; [exact Hy'|].
      split; [exact Fl|]. split; [exact Ll|]. split; [apply Forall_app; split; [exact Ph|constructor; [exact Cf|constructor]]|].
      destruct (C01_policy_set (map PAdd l ++ h2) r Plain Cf) as [P1 _]. cbn [fst] in P1.
      set (p := fst (pexec NewPolicy (map PAdd l ++ h2))) in *.
      split; [|split].
      * cbn [section_events] in Ev. rewrite of_section_key, String.eqb_refl in Ev. rewrite Eb in P1.
        destruct (AddRule p r) as [[p' b'] es'] eqn:Ea. cbn in P1.
        assert (Ees : es' = if negb b0 then [EvtAdded r] else []).
        { unfold AddRule in Ea. destruct (mget (Hash r) p); injection Ea as <- <- <-; rewrite <- P1; reflexivity. }
        eapply lives_snoc with (p := p) (b := b') (es := es'); [exact Lv|reflexivity|cbn [PolicyM.pstep]; rewrite Ea; reflexivity|]. rewrite Ees. exact Ev.
      * intros r'. rewrite app_assoc, set_of_snoc. cbn [set_step]. unfold set_add. rewrite (present_add h o' (pk :: r) (pk :: r') Ln), Al, Es, <- Hset, orb_true_iff.
        destruct (rule_eqb_spec r' r) as [->|Hne].
        -- split; [intros _; right; split; [discriminate|reflexivity]|auto].
        -- split; [intros [X|X]; [discriminate|auto]|intros [X|[_ X]]; [auto|congruence]].
      * intros r' Hr. unfold recorded in Hr. rewrite fold_left_app in Hr. cbn [fold_left recorded_step] in Hr. rewrite map_app, in_app_iff.
        destruct Hr as [->|Hr]; [right; right; now left|]. destruct (Hrec r' Hr) as [X|X]; [now left|right; now left].
    + destruct (Wc' r) as [Al Cf]; [apply of_section_eq; reflexivity|].
      rewrite <- (as_listed_kind ha h pk r Kg K1) in Al.
      assert (Sec : in_section h (pk :: r) <> None) by (rewrite (in_section_g h pk r Kg), Hg; destruct r as [|? [|? ?]]; discriminate).
      pose proof (step_long E h o' m0 rs0 _ (pk :: r) m res G H0 (or_intror eq_refl) Sec Hst) as Ln.
      destruct (in_section h (pk :: r)) as [b0|] eqn:Es; [|congruence]. pose proof (in_section_listed h (pk :: r) b0 Ln Es) as Lst. rewrite Al, <- Hset in Lst.
      destruct (rule_result E h o' m0 rs0 (pk :: r) b0 G Go' T Tc' H0 Es) as [_ R1].
      cbn [mstep] in Hst. apply obind_val in Hst as [[[[m' b] e] es] [Est Hst]]. injection Hst as -> <-. destruct (R1 _ _ _ _ Est) as [-> _]. cbn [x_bool] in Ev.
      assert (Eb : set_of (map PAdd l ++ h2) r = b0) by (destruct (set_of (map PAdd l ++ h2) r), b0; try reflexivity; [symmetry|]; apply Lst; reflexivity).
      exists g', i, j, y', l, (h2 ++ [PRemove r]).
      split; [exact V'|]. split; [exact W'|]. split; [exact Hi'|]. split; [now rewrite Sg|]. split; [congruence|]. split; [exact Hy'|].
      split; [exact Fl|]. split; [exact Ll|]. split; [apply Forall_app; split; [exact Ph|constructor; [exact Cf|constructor]]|].
      destruct (C01_policy_set (map PAdd l ++ h2) r Plain Cf) as [_ [P1 _]]. cbn [fst] in P1.
      set (p := fst (pexec NewPolicy (map PAdd l ++ h2))) in *.
      split; [|split].
      * cbn [section_events] in Ev. rewrite of_section_key, String.eqb_refl in Ev. rewrite Eb in P1.
        destruct (RemoveRule p r) as [[p' b'] es'] eqn:Ea. cbn in P1.
        assert (Ees : es' = if b0 then [EvtRemoved r] else []).
        { unfold RemoveRule in Ea. destruct (mget (Hash r) p); injection Ea as <- <- <-; rewrite <- P1; reflexivity. }
        eapply lives_snoc with (p := p) (b := b') (es := es'); [exact Lv|reflexivity|cbn [PolicyM.pstep]; rewrite Ea; reflexivity|]. rewrite Ees. exact Ev.
      * intros r'. rewrite app_assoc, set_of_snoc. cbn [set_step]. unfold set_remove. rewrite (present_remove h o' (pk :: r) (pk :: r') Ln), Al, <- Hset, andb_true_iff.
        destruct (rule_eqb_spec r' r) as [->|Hne]; cbn [negb].
        -- split; [intros [X _]; discriminate|intros [_ X]; congruence].
        -- split; [intros [_ X]; split; [exact X|congruence]|intros [X _]; auto].
      * intros r' Hr. unfold recorded in Hr. rewrite fold_left_app in Hr. cbn [fold_left recorded_step] in Hr. rewrite map_app, in_app_iff.
        destruct (Hrec r' Hr) as [X|X]; [now left|right; now left].
    + assert (Ev0 : section_events pk c' (x_bool res) = []).
      { destruct c' as [| |rl|rl| | | | | | |]; try reflexivity; cbn [section_events];
          (destruct (of_section pk rl) as [r|] eqn:Eo; [exfalso; eapply N; eauto|reflexivity]). }
      rewrite Ev0 in Ev. injection Ev as <-.
      exists g', i, j, y, l, h2.
      split; [exact V'|]. split; [exact W'|]. split; [exact Hi'|]. split; [now rewrite Sg|]. split; [congruence|]. split; [exact Hy'|].
      split; [exact Fl|]. split; [exact Ll|]. split; [exact Ph|]. split; [exact Lv|]. split.
      * intros r. rewrite Hset. symmetry. apply (kept_present pk mk h o' c' Kg Tc' Lc N).
      * intros r Hr. rewrite map_app, in_app_iff. destruct (Hrec r Hr) as [X|X]; [now left|right; now left].
Qed.

(** ** C74: Filter through a configured matcher over a grouping section

    The rules a condition can be asked about: those present when the matcher was
    built and those added since. *)
Definition ever (pk : string) (ha hb : list (orders * mcall)) (r : rule) : Prop :=
  present ha (pk :: r) \/ In (CAdd (pk :: r)) (map snd hb).

Theorem C74_filter_partial :
  forall E h m rs o ps mk root rk rtext ha hb,
    let pk := GetPolicyKey root in let pd := NewPolicyDef pk "user, role, domain" in let rd := NewRequestDef rk rtext in
    good_m h -> good_orders o -> tame h -> mexec E (NewModel E) h = Val (m, rs) ->
    g_service E h mk root ha hb -> narrow root = true ->
    uses_matcher mk ps -> uses_request rk ps -> key_of R_SEC rk -> def_text R_SEC rk h = Some rtext ->
    (forall r, present ha (pk :: r) -> comma_free r) -> written_as_listed pk ha hb ->
    sound_conditions (e_eval E (functions o m)) pd rd (vals_of ps) root (ever pk ha hb) ->
    (forall e, In e (texts root) -> evaluates (e_eval E (functions o m)) pd rd (vals_of ps) e (blank pd)) ->
    blank_fails E o m ps pd rd root ->
    exists ms, Filter E o m ps = Val (m, (ms, None)) /\
      (forall x, In x ms <-> exists r, x = pk :: r /\ present h x /\ matches E o m ps pd rd root r = true) /\
      (forall r, present h (pk :: r) -> occ ms (pk :: r) = times (e_eval E (functions o m)) pd rd (vals_of ps) root r).
Proof.
  intros E h m rs o ps mk root rk rtext ha hb pk pd rd G Go T H (Km & Kg & Hd & o1 & c & m1 & rs1 & m2 & x1 & expr & -> & Hc & Ha & Hs & Hx & Ht & HB & F) Hn Um Ur Kr Hr Hp Wr SC Hbe Hb.
  destruct (group_lives E mk root ha o1 c m1 rs1 m2 x1 expr hb Km Kg Hd Hc Ha Hs Hx Ht HB Hp G T F Wr m rs H)
    as (g & i & j & y & l & h2 & V & W & Hi & Hj & Hm & Hy & Fl & Ll & Ph & Lv & Hset & Hrec).
  set (h := ha ++ (o1, c) :: hb) in *. fold pk in Hset, Hrec, Ll, Lv.
  assert (SC' : sound_conditions (e_eval E (functions o m)) pd rd (vals_of ps) root (recorded (map PAdd l) h2)).
  { apply (sound_sub _ _ _ _ _ _ _ Hrec); [intros _; now right|exact SC]. }
  destruct (C10_reported_exactly (e_eval E (functions o m)) (o_match o) pd rd (vals_of ps) root (map PAdd l) h2 y
              (proj2 (proj2 Go)) Hn (told_apart_ops _ _ _ _ (plain_adds _ Fl) Ph) Lv SC') as [ys [k [A [B C]]]].
  assert (Hk : k = 0).
  { destruct k as [|k]; [reflexivity|]. exfalso. destruct C as [C _]. destruct C as [w [Hw [pre [e [-> [X _]]]]]]; [lia|].
    rewrite (Hb pre e Hw) in X. discriminate. }
  subst k. pose proof (defs_exec _ _ _ _ H) as D.
  assert (Er : mget rk (md_r m) = Some rd) by (rewrite (f_r _ _ D _ Kr), Hr; reflexivity).
  destruct (context_named E o m mk rk j rd ps (key_of_ne _ _ Km) (key_of_ne _ _ Kr) Hm Er Um Ur) as [x [B1 [B2 B3]]].
  assert (Dy : m_def y = pd).
  { destruct Lv as (p1 & es1 & p2 & es2 & l0 & m0 & _ & _ & _ & Hnm & He). apply NewMatcher_def in Hnm as [Hd' _].
    apply m_events_def in He as [He _]. rewrite He. exact Hd'. }
  assert (Hin : forall r, In r ys <-> 0 < (if set_of (map PAdd l ++ h2) r then times (e_eval E (functions o m)) pd rd (vals_of ps) root r else 0)).
  { intros r. rewrite occ_In, B. destruct (rule_eqb r (blank pd)); now rewrite Nat.add_0_r. }
  exists (map (cons pk) ys). split; [|split].
  - unfold Filter, enforcer_RangeMatches. rewrite B1. cbn [obind]. unfold RangeMatchesWithContext. rewrite B2, B3.
    rewrite (range_collects _ _ _ _ _ _ _ Hy), A, Dy. reflexivity.
  - intros z. rewrite in_map_iff. split.
    + intros [r [<- Hr']]. exists r. split; [reflexivity|]. apply Hin in Hr'. rewrite <- Hset. unfold matches. rewrite <- times_satisfies.
      destruct (set_of (map PAdd l ++ h2) r); [auto|lia].
    + intros [r [-> [Hpr Hm']]]. exists r. split; [reflexivity|]. apply Hin. apply Hset in Hpr. rewrite Hpr. apply times_satisfies in Hm'. lia.
  - intros r Hpr. unfold occ at 1. rewrite keyed_occ, B. apply Hset in Hpr. rewrite Hpr. destruct (rule_eqb r (blank pd)); lia.
Qed.
Print Assumptions C74_filter_partial.

(** ** The full statement fails: clearing the section is not followed

    [leaves_group] cannot be dropped.  After the section is cleared it is empty, but
    the configured matcher goes on reporting the rule. *)
Definition gb_env : env := ga_env.
Definition gb_ha : list (orders * mcall) :=
  [(ex_o, CSetDef R_SEC "r" "sub"); (ex_o, CSetDef G_SEC "g" "_, _"); (ex_o, CSetDef M_SEC "m" "r.sub == g.user"); (ex_o, CAdd ["g"; "alice"; "admin"])]%string.
Definition gb_ps : list param := [PVal (VStr "alice")].

Theorem C74_clear_refuted :
  exists E h m rs o ps,
    good_m h /\ good_orders o /\ tame h /\ mexec E (NewModel E) h = Val (m, rs) /\
    (forall r, ~ present h ("g"%string :: r)) /\
    Filter E o m ps = Val (m, ([["g"; "alice"; "admin"]%string], None)).
Proof.
  set (h := (gb_ha ++ [(ex_o, CBuild); (ex_o, CClear "g")])%list).
  destruct (mexec gb_env (NewModel gb_env) h) as [[m rs]|] eqn:Em; [|vm_compute in Em; discriminate].
  assert (Gh : good_m h) by (repeat (apply Forall_cons; [apply ex_o_good|]); apply Forall_nil).
  assert (Th : tame h) by (unfold h, gb_ha; cbn [app]; tame_tac).
  exists gb_env, h, m, rs, ex_o, gb_ps. split; [exact Gh|]. split; [apply ex_o_good|]. split; [exact Th|]. split; [exact Em|]. split.
  - destruct (model_listing gb_env h ex_o m rs Gh ex_o_good Th Em) as [_ L]. intros r Hr. apply L in Hr. revert Hr.
    vm_compute in Em. injection Em as <- <-. vm_compute. auto.
  - vm_compute in Em. injection Em as <- <-. vm_compute. reflexivity.
Qed.
Print Assumptions C74_clear_refuted.

(** ** Example: a role is granted, another one taken away after the build. *)
Definition gb_hb : list (orders * mcall) := [(ex_rev, CAdd ["g"; "alice"; "dev"]); (ex_o, CAdd ["g"; "bob"; "dev"]); (ex_o, CRemove ["g"; "alice"; "admin"])]%string.
Definition gb_h : list (orders * mcall) := (gb_ha ++ (ex_o, CBuild) :: gb_hb)%list.
Definition gb_m : model := match mexec gb_env (NewModel gb_env) gb_h with Val (m, _) => m | Panic => NewModel gb_env end.

Lemma gb_present r : present gb_ha ("g" :: r)%string <-> r = ["alice"; "admin"]%string.
Proof.
  destruct (mexec gb_env (NewModel gb_env) gb_ha) as [[m rs]|] eqn:Em; [|vm_compute in Em; discriminate].
  assert (Gh : good_m gb_ha) by (repeat (apply Forall_cons; [apply ex_o_good|]); apply Forall_nil).
  assert (Th : tame gb_ha) by (unfold gb_ha; tame_tac).
  destruct (model_listing gb_env gb_ha ex_o m rs Gh ex_o_good Th Em) as [_ L]. rewrite <- L. vm_compute in Em. injection Em as <- <-.
  match goal with |- In _ ?l <-> _ => assert (X : l = [["g"; "alice"; "admin"]%string]) by (vm_compute; reflexivity); rewrite X end.
  cbn. intuition congruence.
Qed.

Example C74_example :
  let pd := NewPolicyDef "g" "user, role, domain" in let rd := NewRequestDef "r" "sub" in
  good_m gb_h /\ tame gb_h /\ (exists rs, mexec gb_env (NewModel gb_env) gb_h = Val (gb_m, rs)) /\
  g_service gb_env gb_h "m" ga_root gb_ha gb_hb /\ narrow ga_root = true /\
  uses_matcher "m" gb_ps /\ uses_request "r" gb_ps /\ def_text R_SEC "r" gb_h = Some "sub"%string /\
  (forall r, present gb_ha ("g" :: r)%string -> comma_free r) /\ written_as_listed "g" gb_ha gb_hb /\
  sound_conditions (e_eval gb_env (functions ex_o gb_m)) pd rd (vals_of gb_ps) ga_root (ever "g" gb_ha gb_hb) /\
  (forall e, In e (texts ga_root) -> evaluates (e_eval gb_env (functions ex_o gb_m)) pd rd (vals_of gb_ps) e (blank pd)) /\
  blank_fails gb_env ex_o gb_m gb_ps pd rd ga_root /\
  Filter gb_env ex_o gb_m gb_ps = Val (gb_m, ([["g"; "alice"; "dev"]%string], None)).
Proof.
  cbv zeta. split; [repeat (apply Forall_cons; [first [apply ex_o_good|apply ex_rev_good]|]); apply Forall_nil|].
  split; [unfold gb_h, gb_ha, gb_hb; cbn [app]; tame_tac|].
  split; [eexists; vm_compute; reflexivity|].
  split.
  { split; [exists "m"%char; auto|]. split; [reflexivity|]. split; [exists "_, _"%string; reflexivity|].
    destruct (mexec gb_env (NewModel gb_env) gb_ha) as [[m1 rs1]|] eqn:Em; [|vm_compute in Em; discriminate].
    destruct (mstep gb_env ex_o m1 CBuild) as [[m2 x]|] eqn:Es; [|vm_compute in Em; injection Em as <- <-; vm_compute in Es; discriminate].
    exists ex_o, CBuild, m1, rs1, m2, x, "r.sub == g.user"%string. split; [reflexivity|]. split; [now left|]. split; [reflexivity|]. split; [exact Es|].
    vm_compute in Em. injection Em as <- <-. split; [vm_compute in Es; now injection Es as <- <-|].
    split; [reflexivity|]. split; [vm_compute; reflexivity|]. repeat constructor. }
  split; [reflexivity|].
  split; [split; [repeat constructor|now left]|]. split; [split; [repeat constructor|now left]|]. split; [reflexivity|].
  split; [intros r Hr; apply gb_present in Hr as ->; split; [discriminate|repeat constructor]|].
  split.
  { unfold written_as_listed, gb_hb. repeat (apply Forall_cons || apply Forall_nil); cbn [snd]; intros r Hr; injection Hr as <-; (split; [reflexivity|split; [discriminate|repeat constructor]]). }
  assert (Ev : (forall r, ever "g" gb_ha gb_hb r -> r = ["alice"; "admin"] \/ r = ["alice"; "dev"] \/ r = ["bob"; "dev"])%string).
  { intros r [Hr|Hr]; [apply gb_present in Hr; auto|]. cbn in Hr. intuition congruence. }
  split; [|split; [|split]].
  - apply sound_named. intros e [<-|[]]. split; [|split].
    + intros r Hr x [<-|[]]. apply Ev in Hr as [-> | [-> | ->]]; discriminate.
    + intros get get' H1 H2. cbn. rewrite (H1 "g_user"%string), (H2 "r_sub"%string) by (try discriminate; now left). reflexivity.
    + intros r [Hr| ->]; [apply Ev in Hr as [-> | [-> | ->]]|]; (split; [reflexivity|]); eexists; vm_compute; reflexivity.
  - intros e [<-|[]]. split; [reflexivity|]. eexists. vm_compute. reflexivity.
  - intros w e Hw. cbn in Hw. destruct Hw as [Hw|[]]. destruct w as [|? [|? ?]]; try discriminate. injection Hw as <-. vm_compute. reflexivity.
  - vm_compute. reflexivity.
Qed.
