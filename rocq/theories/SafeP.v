From Verif Require Import GoBase GoBaseP DefsM DefsP PolicyM PolicySpec PolicyP MatcherDefM MatcherM MatcherSpec MatcherP MatcherP2
  RbacM RbacSpec RbacP RbacP2 RbacP3 RbacP4 Prop_Rbac DomainM DomainSpec DomainP DomainP2 DomainP5 Prop_Domain ModelM ModelSpec ModelP ModelP2 ModelP3 ModelP4 ModelP5 ModelP6 SafeSpec.

(** ** Matchers *)
Definition all_narrow (ms : list matcher) : Prop := forall j y, nth_error ms j = Some y -> narrow (m_tree y) = true.

Lemma notify_total e ids : forall ms, all_narrow ms -> Forall (fun j => j < List.length ms) ids ->
  exists ms', notify ms ids e = Val ms' /\ all_narrow ms' /\ List.length ms' = List.length ms.
Proof.
  induction ids as [|i ids IH]; intros ms N F; cbn [notify]; [eauto|].
  inversion F as [|? ? F1 F2]; subst. destruct (nth_error ms i) as [x|] eqn:Ex; [|apply nth_error_None in Ex; lia].
  destruct (event_total x e (N _ _ Ex)) as [y Ey]. rewrite Ey. cbn [obind].
  destruct (IH (set_nth ms i y)) as [ms' [A [B C]]].
  - intros j z. rewrite nth_set_nth by exact F1. destruct (Nat.eqb_spec j i) as [->|]; [|apply N].
    intros H. injection H as <-. destruct (m_event_def _ _ _ Ey) as [_ ->]. eauto.
  - rewrite set_nth_length. exact F2.
  - exists ms'. split; [exact A|]. split; [exact B|]. now rewrite C, set_nth_length.
Qed.
Lemma notify_all_total ids es : forall ms, all_narrow ms -> Forall (fun j => j < List.length ms) ids ->
  exists ms', notify_all ms ids es = Val ms' /\ all_narrow ms'.
Proof.
  induction es as [|e es IH]; intros ms N F; cbn [notify_all]; [eauto|].
  destruct (notify_total e ids ms N F) as [ms1 [A [B C]]]. rewrite A. cbn [obind]. apply IH; [exact B|]. now rewrite C.
Qed.

(** ** Role managers *)
Lemma role_total rm : forall h rm' xs, rexec rm (direct_calls h) = Val (rm', xs) -> dexec (IRole rm) h = Val (IRole rm', xs).
Proof.
  intros h. revert rm. induction h as [|[o c] h IH]; intros rm rm' xs H; cbn [direct_calls map rexec fst snd] in H.
  - injection H as <- <-. reflexivity.
  - fold (direct_calls h) in H. destruct (rstep o rm (direct c)) as [[r1 a]|] eqn:Es; cbn [obind] in H; [|discriminate].
    destruct (rexec r1 (direct_calls h)) as [[r2 xs2]|] eqn:Ee; cbn [obind] in H; [|discriminate]. injection H as <- <-.
    cbn [dexec]. assert (G : dstep o (IRole rm) c = Val (IRole r1, a)).
    { destruct c; cbn [dstep direct rstep] in *; unfold i_Add, i_Del, i_Has, i_Roles, i_Users, fuel; cbn [i_AddLink i_DeleteLink i_query].
      - destruct (rm_AddLink o rm a0 b ds) as [[r y]|]; cbn [obind] in *; [|discriminate]. now injection Es as <- <-.
      - destruct (rm_DeleteLink o rm a0 b ds) as [[r y]|]; cbn [obind] in *; [|discriminate]. now injection Es as <- <-.
      - destruct (rm_HasLink o rm a0 b) as [[r y]|]; cbn [obind] in *; [|discriminate]. now injection Es as <- <-.
      - destruct (rm_GetRoles o rm a0) as [[r y]|]; cbn [obind] in *; [|discriminate]. now injection Es as <- <-.
      - destruct (rm_GetUsers o rm a0) as [[r y]|]; cbn [obind] in *; [|discriminate]. now injection Es as <- <-.
      - now injection Es as <- <-. }
    rewrite G. cbn [obind]. rewrite (IH _ _ _ Ee). reflexivity.
Qed.
Lemma dexec_total x0 calls : (x0 = IRole (NewRoleManager 10) \/ x0 = IDom (NewDomainManager 10)) -> good_d calls ->
  exists x xs, dexec x0 calls = Val (x, xs).
Proof.
  intros [-> | ->] G.
  - destruct (reached 10 (direct_calls calls) (good_direct _ G)) as [rm [xs [E _]]]. exists (IRole rm), xs. now apply role_total.
  - destruct (C33_isolated_places 10 None [] calls G) as [x [xs [_ [E _]]]]; [intros n _; exact I|]. exists x, xs. exact E.
Qed.

Lemma g_fresh h k x calls : Forall (fun c => no_rm (snd c)) h -> good_m h -> g_history k h = Some (x, calls) ->
  (x = IRole (NewRoleManager 10) \/ x = IDom (NewDomainManager 10)) /\ good_d calls.
Proof.
  intros T G. revert x calls. induction h as [|[o c] h IH] using rev_ind; intros x calls H; [discriminate|].
  apply Forall_app in T as [T Tc]. inversion Tc as [|? ? Hc _]; subst. cbn in Hc.
  apply Forall_app in G as [G Gc]. inversion Gc as [|? ? Ho _]; subst. cbn in Ho. destruct Ho as [Ho _].
  rewrite g_history_snoc in H. specialize (IH T G).
  assert (L : forall d, option_map (fun a => (fst a, snd a ++ [(o_names o, d)])) (g_history k h) = Some (x, calls) ->
     (x = IRole (NewRoleManager 10) \/ x = IDom (NewDomainManager 10)) /\ good_d calls).
  { intros d E. destruct (g_history k h) as [[y l]|]; [|discriminate]. cbn in E. injection E as <- <-.
    destruct (IH _ _ eq_refl) as [A C]. split; [exact A|]. apply Forall_app. split; [exact C|]. repeat constructor; assumption. }
  destruct c; cbn [g_step] in H; try (now apply IH).
  - destruct s; try (now apply IH). destruct (String.eqb key k); [|now apply IH]. injection H as <- <-.
    unfold fresh_manager. split; [destruct (Nat.eqb _ 2); auto|]. constructor.
  - destruct s; try (now apply IH). destruct (String.eqb key k); [discriminate|now apply IH].
  - destruct (of_section k r) as [[|a [|b ds]]|]; try (now apply IH). eapply L; eauto.
  - destruct (of_section k r) as [[|a [|b ds]]|]; try (now apply IH). eapply L; eauto.
  - destruct (String.eqb key k); [|now apply IH]. eapply L; eauto.
Qed.

(** ** One call *)
Record Calm (E : env) (h : list (orders * mcall)) (m : model) : Prop := {
  k_mats : all_narrow (md_mats m);
  k_defs : forall k expr, mget k (md_m m) = Some expr -> at_most_two E expr;
  k_gkeys : gkeys m
}.

Lemma act_p_total o m g k i a : Core m g -> all_narrow (md_mats m) -> mget k (md_pMap m) = Some i ->
  exists m' b, act o m i a = Val (m', b) /\ all_narrow (md_mats m').
Proof.
  intros V N Hi. destruct (v_p m g V k i Hi) as [_ [p [ls Eo]]]. unfold act. rewrite Eo. cbn [o_body o_listeners].
  destruct (PolicyM.pstep p a) as [[p' b] es]. destruct (notify_all_total ls es (md_mats m) N) as [ms [A B]].
  - apply Forall_forall. intros j Hj. destruct (v_lis m g V _ _ _ Eo) as [_ L]. apply L, Hj.
  - rewrite A. cbn [obind]. eexists _, _. split; [reflexivity|exact B].
Qed.
Lemma act_g_total o h m g k i a : good_m h -> good_orders o -> Forall (fun c => no_rm (snd c)) h -> Core m g -> Hist h m g ->
  all_narrow (md_mats m) -> g_key k -> mget k (md_rpMap m) = Some i ->
  (match a with PAdd r | PRemove r => 2 <= List.length r | PClear => True end) ->
  exists m' b, act o m i a = Val (m', b) /\ all_narrow (md_mats m').
Proof.
  intros G [Ho _] T V W N Hk Hi Ha. pose proof (v_ghist h m g W k Hk) as Hg. rewrite Hi in Hg. destruct Hg as [rm [ls [Eo Hg]]].
  pose proof (v_rmb m g V i rm ls Eo) as Hl. unfold act. rewrite Eo. cbn [o_body o_listeners].
  destruct (nth_error (md_rms m) rm) as [x|] eqn:Ex; [|apply nth_error_None in Ex; lia].
  destruct (v_rm m g V rm x Ex) as [xs Exs]. destruct (g_rh g rm) as [x0 calls]. cbn [fst snd] in Exs.
  destruct (g_fresh h k x0 calls T G Hg) as [A C].
  assert (Ea : exists x' b es, act_role (o_names o) x a = Val (x', b, es)).
  { assert (D : forall c, exists z an, dstep (o_names o) x c = Val (z, an)).
    { intros c. destruct (dexec_total x0 (calls ++ [(o_names o, c)]) A) as [z [zs Ez]].
      - apply Forall_app. split; [exact C|]. repeat constructor; exact Ho.
      - rewrite dexec_app, Exs in Ez. cbn [obind dexec] in Ez. destruct (dstep (o_names o) x c) as [[z1 an]|]; [eauto|discriminate]. }
    destruct a as [[|n1 [|n2 ds]]|[|n1 [|n2 ds]]|]; cbn [act_role]; cbn in Ha; try lia; [| |eauto].
    - destruct (D (DAdd n1 n2 ds)) as [z [an Ez]]. cbn [dstep] in Ez. destruct (i_Add _ _ _ _ _) as [[y b]|]; [|discriminate]. cbn. eauto.
    - destruct (D (DDel n1 n2 ds)) as [z [an Ez]]. cbn [dstep] in Ez. destruct (i_Del _ _ _ _ _) as [[y b]|]; [|discriminate]. cbn. eauto. }
  destruct Ea as [x' [b [es ->]]]. cbn [obind].
  destruct (notify_all_total ls es (md_mats m) N) as [ms [B1 B2]].
  - apply Forall_forall. intros j Hj. destruct (v_lis m g V _ _ _ Eo) as [_ L]. apply L, Hj.
  - rewrite B1. cbn [obind]. eexists _, _. split; [reflexivity|exact B2].
Qed.

Lemma policy_key_byte root : exists c, first_byte (GetPolicyKey root) = Some c.
Proof.
  unfold GetPolicyKey. destruct (RecursivePolicyArgs root) as [|a l] eqn:E; [exists "p"%char; reflexivity|].
  assert (H : forall s x, In x (RecursivePolicyArgs s) -> exists c rest, x = String c rest /\ c <> "_"%char).
  { clear. assert (F : forall n t x, In x (find_args n ["p"%char; "g"%char] ["_"%char] t) -> exists c rest, x = String c rest /\ c <> "_"%char).
    { induction n as [|n IH]; intros t x; cbn [find_args]; [intros []|]. destruct t as [|c t]; [intros []|].
      destruct (match_arg _ _ (String c t)) as [[[k id] rest]|] eqn:M; [|apply IH].
      intros [<-|Hx]; [|eapply IH; eauto]. unfold match_arg in M.
      destruct (existsb (Ascii.eqb c) _) eqn:Ex; [|discriminate]. destruct (span is_digit t) as [ds s2].
      destruct s2 as [|sep s3]; [discriminate|]. destruct (existsb (Ascii.eqb sep) _); [|discriminate].
      destruct (span is_ident s3) as [id' s4]. destruct (String.eqb id' ""); [discriminate|]. injection M as <- <- <-.
      cbn [append]. eexists _, _. split; [reflexivity|]. intros ->. discriminate. }
    induction s as [e cs IH] using stage_ind2. intros x. cbn [RecursivePolicyArgs]. intros [Hx|Hx]%in_app_or; [eapply F; eauto|].
    apply in_flat_map in Hx as [c [Hc Hx]]. rewrite Forall_forall in IH. eapply IH; eauto. }
  destruct (H root a) as [c [rest [-> Hc]]]; [rewrite E; now left|].
  cbn [split_char]. destruct (Ascii.eqb_spec "_"%char c) as [X|_]; [now subst|].
  destruct (split_char "_" rest) as [|y ys]; eexists; reflexivity.
Qed.

Lemma buildfrom_total E o m g expr : Core m g -> all_narrow (md_mats m) -> at_most_two E expr ->
  exists m' r, BuildMatcherFromDef E o m expr = Val (m', r) /\ all_narrow (md_mats m').
Proof.
  intros V N T. unfold BuildMatcherFromDef. destruct (Build _ _ expr) as [root|e] eqn:Eb; [|eauto].
  destruct (policy_key_byte root) as [c ->].
  destruct (if Ascii.eqb c "p" then _ else _) as [d|]; [|eauto].
  destruct (GetPolicy m (GetPolicyKey root)) as [i|] eqn:Ei; [|eauto].
  assert (Eo : exists ob, nth_error (md_objs m) i = Some ob).
  { unfold GetPolicy in Ei. destruct (mget _ (md_pMap m)) as [i'|] eqn:Ep.
    - injection Ei as ->. destruct (v_p m g V _ _ Ep) as [_ [p [ls X]]]. eauto.
    - destruct (v_r m g V _ _ Ei) as [rm [ls X]]. eauto. }
  destruct Eo as [ob ->]. unfold NewMatcher.
  destruct (events_total (map EvtAdded (obj_rules o m i)) (mkMatcher d root empty_root) (T _ _ Eb)) as [x Ex]. rewrite Ex. cbn [obind].
  eexists _, _. split; [reflexivity|]. cbn. intros j y. rewrite nth_snoc. destruct (Nat.eqb_spec j (List.length (md_mats m))); [|apply N].
  intros H. injection H as <-. apply m_events_def in Ex as [_ ->]. exact (T _ _ Eb).
Qed.
Lemma buildkey_total E o m g key : good_orders o -> Core m g -> all_narrow (md_mats m) ->
  (forall k expr, mget k (md_m m) = Some expr -> at_most_two E expr) ->
  exists m' r, BuildMatcher E o m key = Val (m', r) /\ all_narrow (md_mats m').
Proof.
  intros Go V N D. unfold BuildMatcher. destruct (mget key (md_m m)) as [expr|] eqn:Ek; [|eauto].
  destruct (buildfrom_total E o m g expr V N (D _ _ Ek)) as [m1 [r [-> N1]]]. cbn [obind]. destruct r; eauto.
Qed.
Lemma loop_total E o keys : good_orders o -> forall m g, Core m g -> all_narrow (md_mats m) ->
  (forall k expr, mget k (md_m m) = Some expr -> at_most_two E expr) ->
  exists m' r, build_loop E o m keys = Val (m', r) /\ all_narrow (md_mats m').
Proof.
  intros Go. induction keys as [|k keys IH]; intros m g V N D; cbn [build_loop]; [eauto|].
  destruct (buildkey_total E o m g k Go V N D) as [m1 [e [Eb N1]]]. rewrite Eb. cbn [obind]. destruct e as [e|]; [eauto|].
  destruct (buildkey_step _ _ _ _ _ _ _ Go V Eb) as [g1 [V1 [(_ & _ & _ & Qm & _) _]]].
  apply (IH m1 g1 V1 N1). rewrite Qm. exact D.
Qed.

Lemma step_total E h m g o c : good_m h -> good_orders o -> calm E h -> calm_call E c -> Core m g -> Hist h m g -> Calm E h m ->
  exists m' r, mstep E o m c = Val (m', r) /\ Calm E (h ++ [(o, c)]) m'.
Proof.
  intros G Go Ch Cc V W [N D K].
  assert (T : Forall (fun c => no_rm (snd c)) h) by (eapply Forall_impl; [|exact Ch]; intros [o' []]; cbn; auto).
  assert (T1 : no_rm c) by (destruct c; cbn in Cc |- *; auto).
  assert (F : forall m' r, mstep E o m c = Val (m', r) -> all_narrow (md_mats m') -> md_m m' = md_m m ->
     exists m' r, mstep E o m c = Val (m', r) /\ Calm E (h ++ [(o, c)]) m').
  { intros m' r Es Hn Hm. exists m', r. split; [exact Es|]. constructor; [exact Hn|rewrite Hm; exact D|eapply gkeys_step; eauto]. }
  assert (Act : forall i a m' b, act o m i a = Val (m', b) -> md_m m' = md_m m).
  { intros i a m' b Ha. apply act_maps in Ha as (_ & _ & _ & _ & _ & _ & _ & Z & _). exact Z. }
  assert (Rules : forall rl, shaped rl -> exists k r c0, rl = k :: r /\ first_byte k = Some c0 /\ (g_key k -> 2 <= List.length r)).
  { intros [|k r]; [intros []|]. intros [Hk Hr]. destruct k as [|c0 k]; [congruence|]. exists (String c0 k), r, c0. auto. }
  destruct c; cbn [calm_call] in Cc.
  - destruct Cc as [Hk Hm]. destruct key as [|c0 key]; [congruence|]. cbn [mstep SetDef].
    unfold SetDef. cbn [first_byte].
    destruct s; cbn [keyPrefix]; try (destruct (Ascii.eqb c0 _) eqn:Ec);
      cbn [obind]; eexists _, _; (split; [reflexivity|]); (constructor; [exact N| |]);
      try exact D; try exact K.
    + intros k i. cbn. rewrite mget_put. destruct (String.eqb_spec k (String c0 key)) as [->|]; [|apply K].
      intros _. unfold g_key. cbn. apply Ascii.eqb_eq in Ec as ->. reflexivity.
    + intros k expr. cbn. rewrite mget_put. destruct (String.eqb_spec k (String c0 key)) as [->|]; [|apply D].
      intros X. injection X as <-. apply Hm. reflexivity.
  - cbn [mstep]. destruct (RemoveDef m s key) as [m' e] eqn:Er. eexists _, _. split; [reflexivity|].
    destruct s; injection Er as <- <-; (constructor; [exact N| |]); try exact D; try exact K.
    + intros k i. cbn. rewrite mget_del. destruct (String.eqb k key); [discriminate|apply K].
    + intros k expr. cbn. rewrite mget_del. destruct (String.eqb k key); [discriminate|apply D].
  - destruct (Rules _ Cc) as [k [r' [c0 [-> [Hc Hr]]]]].
    assert (X : exists m' b e es, model_AddRule o m (k :: r') = Val (m', b, e, es) /\ all_narrow (md_mats m') /\ md_m m' = md_m m).
    { cbn [model_AddRule]. rewrite Hc. destruct (Ascii.eqb_spec c0 "p") as [->|_].
      - destruct (mget k (md_pMap m)) as [i|] eqn:Ei; [|eauto 8].
        destruct (act_p_total o m g k i (PAdd r') V N Ei) as [m' [b [Ea Na]]]. rewrite Ea. cbn [obind]. eauto 10.
      - destruct (Ascii.eqb_spec c0 "g") as [->|_]; [|eauto 8]. destruct (mget k (md_rpMap m)) as [i|] eqn:Ei; [|eauto 8].
        destruct (act_g_total o h m g k i (PAdd r') G Go T V W N Hc Ei (Hr Hc)) as [m' [b [Ea Na]]]. rewrite Ea. cbn [obind]. eauto 10. }
    destruct X as [m' [b [e [es [X [Y Z]]]]]]. eapply F; [cbn [mstep]; rewrite X; reflexivity|exact Y|exact Z].
  - destruct (Rules _ Cc) as [k [r' [c0 [-> [Hc Hr]]]]].
    assert (X : exists m' b e es, model_RemoveRule o m (k :: r') = Val (m', b, e, es) /\ all_narrow (md_mats m') /\ md_m m' = md_m m).
    { cbn [model_RemoveRule]. rewrite Hc. destruct (Ascii.eqb_spec c0 "p") as [->|_].
      - destruct (mget k (md_pMap m)) as [i|] eqn:Ei; [|eauto 8].
        destruct (act_p_total o m g k i (PRemove r') V N Ei) as [m' [b [Ea Na]]]. rewrite Ea. cbn [obind]. eauto 10.
      - destruct (Ascii.eqb_spec c0 "g") as [->|_]; [|eauto 8]. destruct (mget k (md_rpMap m)) as [i|] eqn:Ei; [|eauto 8].
        destruct (act_g_total o h m g k i (PRemove r') G Go T V W N Hc Ei (Hr Hc)) as [m' [b [Ea Na]]]. rewrite Ea. cbn [obind]. eauto 10. }
    destruct X as [m' [b [e [es [X [Y Z]]]]]]. eapply F; [cbn [mstep]; rewrite X; reflexivity|exact Y|exact Z].
  - assert (X : exists m' e, ClearPolicy o m key = Val (m', e) /\ all_narrow (md_mats m') /\ md_m m' = md_m m).
    { unfold ClearPolicy, GetPolicy. destruct (mget key (md_pMap m)) as [i|] eqn:Ei.
      - destruct (act_p_total o m g key i PClear V N Ei) as [m' [b [Ea Na]]]. rewrite Ea. cbn [obind]. eauto 8.
      - destruct (mget key (md_rpMap m)) as [i|] eqn:Ei'; [|eauto 8].
        destruct (act_g_total o h m g key i PClear G Go T V W N (K _ _ Ei') Ei' I) as [m' [b [Ea Na]]]. rewrite Ea. cbn [obind]. eauto 8. }
    destruct X as [m' [e [X [Y Z]]]]. eapply F; [cbn [mstep]; rewrite X; reflexivity|exact Y|exact Z].
  - destruct (loop_total E o (o_names o (mkeys (md_m m))) Go m g V N D) as [m' [e [X Y]]].
    destruct (loop_step _ _ _ Go _ _ _ _ V X) as [g1 [_ [(_ & _ & _ & Qm & _) _]]].
    eapply F; [cbn [mstep]; unfold BuildMatchers; rewrite X; reflexivity|exact Y|exact Qm].
  - destruct (buildkey_total E o m g key Go V N D) as [m' [e [X Y]]].
    destruct (buildkey_step _ _ _ _ _ _ _ Go V X) as [g1 [_ [(_ & _ & _ & Qm & _) _]]].
    eapply F; [cbn [mstep]; rewrite X; reflexivity|exact Y|exact Qm].
  - destruct (buildfrom_total E o m g expr V N Cc) as [m' [e [X Y]]].
    destruct (buildfrom_step _ _ _ _ _ _ _ Go V X) as [g1 [_ [(_ & _ & _ & Qm & _) _]]].
    eapply F; [cbn [mstep]; rewrite X; reflexivity|exact Y|exact Qm].
  - destruct Cc.
  - eapply F; [reflexivity|exact N|reflexivity].
  - eapply F; [reflexivity|exact N|reflexivity].
Qed.

Lemma run_total E h : good_m h -> calm E h -> exists m rs, mexec E (NewModel E) h = Val (m, rs) /\ Calm E h m.
Proof.
  induction h as [|[o c] h IH] using rev_ind; intros G C.
  - eexists _, _. split; [reflexivity|]. constructor; [intros [|j]; discriminate|discriminate|intros k i; discriminate].
  - apply Forall_app in G as [G G1]. apply Forall_app in C as [C C1]. destruct (IH G C) as [m [rs [H K]]].
    destruct (reachable_ok E h m rs G H) as [g [V W]].
    destruct (step_total E h m g o c G (Forall_inv G1) C (Forall_inv C1) V W K) as [m' [r [Es K']]].
    exists m', (rs ++ [r]). split; [eapply mexec_snoc; eauto|exact K'].
Qed.
