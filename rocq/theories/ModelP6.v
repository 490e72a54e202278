(** Lemmas about definitions and about the matchers of a model. *)
From Verif Require Import GoBase GoBaseP DefsM PolicyM PolicySpec PolicyP MatcherDefM MatcherM MatcherSpec
  RbacM RbacSpec DomainM ModelM ModelSpec ModelP ModelP2 ModelP3 ModelP4 ModelP5.
Local Notation pstep := PolicyM.pstep.

Lemma def_text_snoc s k h o c : def_text s k (h ++ [(o, c)]) = def_step s k (def_text s k h) c.
Proof. unfold def_text. now rewrite map_app, fold_left_app. Qed.

(** The definition maps hold exactly the definitions. *)
Record Defs (h : list (orders * mcall)) (m : model) : Prop := mkDefs {
  f_r : forall k, key_of R_SEC k -> mget k (md_r m) = option_map (NewRequestDef k) (def_text R_SEC k h);
  f_p : forall k, key_of P_SEC k -> mget k (md_p m) = option_map (NewPolicyDef k) (def_text P_SEC k h);
  f_g : forall k, key_of G_SEC k -> mget k (md_g m) = option_map (NewRoleDef k) (def_text G_SEC k h);
  f_e : forall k, key_of E_SEC k -> mget k (md_e m) = option_map (NewEffectDef k) (def_text E_SEC k h);
  f_m : forall k, key_of M_SEC k -> mget k (md_m m) = def_text M_SEC k h;
  f_eff : forall k, key_of E_SEC k -> mget k (md_eMap m) = option_map ed_expr (option_map (NewEffectDef k) (def_text E_SEC k h));
  f_keys : forall s k, In k (sec_keys m s) -> key_of s k;
  f_nd : forall s, NoDup (sec_keys m s)
}.

Lemma same_defs_step h m m' o c : same_defs m m' -> md_eMap m' = md_eMap m ->
  (forall s k acc, def_step s k acc c = acc) -> Defs h m -> Defs (h ++ [(o, c)]) m'.
Proof.
  intros (A & B & C & D & F) G Hs [? ? ? ? ? ? K N].
  constructor; intros; rewrite ?def_text_snoc, ?Hs, ?A, ?B, ?C, ?D, ?F, ?G; auto.
  - apply (K s k). destruct s; cbn in *; congruence.
  - specialize (N s). destruct s; cbn in *; congruence.
Qed.

Lemma setdef_defs h m s key value m' e o : SetDef m s key value = Val (m', e) -> Defs h m -> Defs (h ++ [(o, CSetDef s key value)]) m'.
Proof.
  intros H D. unfold SetDef in H.
  assert (Bad : (forall c, keyPrefix s = Some c -> first_byte key <> Some c) -> m' = m -> Defs (h ++ [(o, CSetDef s key value)]) m').
  { intros Hk ->. destruct D. constructor; auto; intros k Hq; rewrite ?def_text_snoc; cbn [def_step];
    (match goal with |- context [sec_eqb s ?t] => destruct (sec_eqb s t && String.eqb key k) eqn:Eb; [exfalso|auto] end);
    apply andb_true_iff in Eb as [E1 E2]; apply String.eqb_eq in E2 as ->;
    destruct s; try discriminate E1; destruct Hq as [c [Q1 Q2]]; exact (Hk c Q1 Q2). }
  destruct (keyPrefix s) as [c|] eqn:Es; [|injection H as <- <-; apply Bad; [discriminate|reflexivity]].
  destruct (first_byte key) as [c'|] eqn:Ek; [|discriminate].
  destruct (Ascii.eqb_spec c' c) as [->|Hne]; [|injection H as <- <-; apply Bad; [intros c0 Q; injection Q as <-; congruence|reflexivity]].
  injection H as <- <-. clear Bad. assert (Kk : key_of s key) by (exists c; auto).
  destruct D as [A1 A2 A3 A4 A5 A6 A7 A8].
  assert (G : forall {V} (mp : smap V) v (f : string -> V) t k0, t = s -> 
    v = f value -> (mget k0 mp = option_map f (def_text t k0 h)) ->
    mget k0 (mput key v mp) = option_map f (def_step t k0 (def_text t k0 h) (CSetDef s key value))).
  { intros V mp v f t k0 -> -> Hm. cbn [def_step]. replace (sec_eqb s s) with true by (destruct s; try reflexivity; discriminate).
    cbn [andb]. rewrite mget_put, (String.eqb_sym k0 key). destruct (String.eqb_spec key k0) as [->|]; [reflexivity|exact Hm]. }
  assert (G0 : forall t k0 acc, sec_eqb s t = false -> def_step t k0 acc (CSetDef s key value) = acc).
  { intros t k0 acc Ht. cbn. now rewrite Ht. }
  destruct s; try discriminate Es; constructor; intros; rewrite ?def_text_snoc; cbn [md_r md_p md_g md_e md_m md_eMap addRequestDef addPolicyDef addRoleDef addEffectDef addMatcherDef set_r set_p set_g set_e set_m set_eMap set_pMap set_rpMap set_rms set_fm set_objs SetRoleManager new_obj];
    try (rewrite G0 by reflexivity; auto; fail).
  all: try (apply (G _ _ _ (NewRequestDef k) R_SEC k); auto; fail).
  all: try (match goal with Hq : key_of _ _ |- _ => idtac end).
  all: try (cbn [def_step sec_eqb andb]; rewrite mget_put, (String.eqb_sym k key);
            (destruct (String.eqb_spec key k) as [->|]; [reflexivity|auto]); fail).
  all: try (match goal with Hin : In _ (sec_keys _ _) |- _ => idtac end;
       match goal with Hin : In ?k (sec_keys _ ?t) |- _ => specialize (A7 t k);
         destruct t; cbn [sec_keys md_r md_p md_g md_e md_m addRequestDef addPolicyDef addRoleDef addEffectDef addMatcherDef set_r set_p set_g set_e set_m set_eMap set_pMap set_rpMap set_rms set_fm set_objs SetRoleManager new_obj] in *;
         try (apply In_mkeys_put in Hin as [->|Hin]; [exact Kk|]); auto end; fail).
  all: match goal with |- NoDup (sec_keys _ ?t) => specialize (A8 t); destruct t; cbn in *; auto; now apply NoDup_mput end.
Qed.

Lemma removedef_defs h m s key m' e o : RemoveDef m s key = (m', e) -> Defs h m -> Defs (h ++ [(o, CRemoveDef s key)]) m'.
Proof.
  intros H D. destruct D as [A1 A2 A3 A4 A5 A6 A7 A8].
  assert (G0 : forall t k0 acc, sec_eqb s t = false -> def_step t k0 acc (CRemoveDef s key) = acc).
  { intros t k0 acc Ht. cbn. now rewrite Ht. }
  destruct s; cbn in H; injection H as <- <-; constructor; intros; rewrite ?def_text_snoc;
    cbn [md_r md_p md_g md_e md_m md_eMap removeRequestDef removePolicyDef removeRoleDef removeEffectDef removeMatcherDef set_r set_p set_g set_e set_m set_eMap set_pMap set_rpMap set_fm set_mMap];
    try (rewrite G0 by reflexivity; auto; fail).
  all: try (cbn [def_step sec_eqb andb]; rewrite mget_del, (String.eqb_sym k key);
            (destruct (String.eqb_spec key k) as [->|]; [reflexivity|auto]); fail).
  all: try (match goal with Hin : In ?k (sec_keys _ ?t) |- _ => specialize (A7 t k);
         destruct t; cbn [sec_keys md_r md_p md_g md_e md_m removeRequestDef removePolicyDef removeRoleDef removeEffectDef removeMatcherDef set_r set_p set_g set_e set_m set_eMap set_pMap set_rpMap set_fm set_mMap] in *;
         try (apply In_mkeys_del in Hin as [_ Hin]); auto end; fail).
  all: match goal with |- NoDup (sec_keys _ ?t) => specialize (A8 t); destruct t; cbn in *; auto; now apply NoDup_mdel end.
Qed.

Lemma maps_same_defs m m' : same_maps m m' -> same_defs m m' /\ md_eMap m' = md_eMap m.
Proof. unfold same_maps, same_defs. tauto. Qed.

Lemma defs_step E o m c m' r h : mstep E o m c = Val (m', r) -> Defs h m -> Defs (h ++ [(o, c)]) m'.
Proof.
  intros H D. destruct c; cbn [mstep] in H.
  - apply obind_val in H as [[m1 e] [Es H]]. injection H as <- <-. eapply setdef_defs; eauto.
  - destruct (RemoveDef m s key) as [m1 e] eqn:Es. injection H as <- <-. eapply removedef_defs; eauto.
  - apply obind_val in H as [[[[m1 b] e] es] [Es H]]. injection H as <- <-. apply add_maps, maps_same_defs in Es as [A B].
    eapply same_defs_step; [exact A|exact B|reflexivity|exact D].
  - apply obind_val in H as [[[[m1 b] e] es] [Es H]]. injection H as <- <-. apply remove_maps, maps_same_defs in Es as [A B].
    eapply same_defs_step; [exact A|exact B|reflexivity|exact D].
  - apply obind_val in H as [[m1 e] [Es H]]. injection H as <- <-. apply clear_maps, maps_same_defs in Es as [A B].
    eapply same_defs_step; [exact A|exact B|reflexivity|exact D].
  - apply obind_val in H as [[m1 e] [Es H]]. injection H as <- <-. apply loop_maps in Es as (A & _ & _ & _ & B). eapply same_defs_step; [exact A|exact B|reflexivity|exact D].
  - apply obind_val in H as [[m1 e] [Es H]]. injection H as <- <-. apply buildkey_maps in Es as (A & _ & _ & _ & B). eapply same_defs_step; [exact A|exact B|reflexivity|exact D].
  - apply obind_val in H as [[m1 e] [Es H]]. injection H as <- <-. apply buildfrom_maps in Es as (A & _ & _ & _ & B). eapply same_defs_step; [exact A|exact B|reflexivity|exact D].
  - injection H as <- <-. apply (same_defs_step h m); [repeat split|reflexivity|reflexivity|exact D].
  - injection H as <- <-. apply (same_defs_step h m); [repeat split|reflexivity|reflexivity|exact D].
  - cbn in H. injection H as <- <-. apply (same_defs_step h m); [repeat split|reflexivity|reflexivity|exact D].
Qed.

Lemma defs_new E : Defs [] (NewModel E).
Proof. constructor; try reflexivity; intros []; cbn; try contradiction; constructor. Qed.

Lemma defs_exec E h : forall m rs, mexec E (NewModel E) h = Val (m, rs) -> Defs h m.
Proof.
  induction h as [|[o c] h IH] using rev_ind; intros m rs H.
  - injection H as <- <-. apply defs_new.
  - apply mexec_snoc_inv in H as [m1 [rs1 [x [H1 [Hs _]]]]]. eapply defs_step; eauto.
Qed.

(** Policy sections and their definitions go together. *)
Lemma p_defined h k : p_key k -> p_history k h = None <-> def_text P_SEC k h = None.
Proof.
  intros Hk. induction h as [|[o c] h IH] using rev_ind; [split; reflexivity|]. rewrite p_history_snoc, def_text_snoc.
  destruct c; cbn [p_step def_step]; try exact IH.
  - destruct s; cbn [sec_eqb andb]; try exact IH. destruct (String.eqb key k); [split; discriminate|exact IH].
  - destruct s; cbn [sec_eqb andb]; try exact IH. destruct (String.eqb key k); [split; reflexivity|exact IH].
  - destruct (of_section k r); [|exact IH]. rewrite <- IH. destruct (p_history k h); cbn; split; congruence.
  - destruct (of_section k r); [|exact IH]. rewrite <- IH. destruct (p_history k h); cbn; split; congruence.
  - destruct (String.eqb key k); [|exact IH]. rewrite <- IH. destruct (p_history k h); cbn; split; congruence.
Qed.

(** More calls on a section that is not redefined. *)
Lemma p_history_more pk mk ha hb ops : Forall (fun oc => leaves_alone pk mk (snd oc)) hb -> p_history pk ha = Some ops ->
  p_history pk (ha ++ hb) = Some (ops ++ p_calls pk hb) /\
  fold_left (p_step pk) (map snd hb) (Some []) = Some (p_calls pk hb).
Proof.
  intros F E. induction hb as [|[o c] hb IH] using rev_ind.
  - rewrite app_nil_r. unfold p_calls. cbn. now rewrite app_nil_r.
  - apply Forall_app in F as [F Fc]. inversion Fc as [|? ? Hc _]; subst. cbn [snd] in Hc. destruct (IH F) as [A B].
    rewrite app_assoc, p_history_snoc, A. unfold p_calls. rewrite map_app, fold_left_app, B. cbn [map fold_left snd].
    destruct c; cbn [p_step leaves_alone] in *; try (split; reflexivity).
    + destruct s; try (split; reflexivity). destruct (String.eqb_spec key pk); [congruence|split; reflexivity].
    + destruct s; try (split; reflexivity). destruct (String.eqb_spec key pk); [congruence|split; reflexivity].
    + destruct (of_section pk r); cbn; rewrite ?app_assoc; split; reflexivity.
    + destruct (of_section pk r); cbn; rewrite ?app_assoc; split; reflexivity.
    + destruct (String.eqb key pk); cbn; rewrite ?app_assoc; split; reflexivity.
Qed.

Lemma loop_in E o m m' e mk : good_orders o -> BuildMatchers E o m = Val (m', e) -> mget mk (md_m m) <> None ->
  In mk (o_names o (mkeys (md_m m))).
Proof.
  intros [Ho _] _ H. apply (DomainP5.in_order _ _ _ Ho). destruct (mget mk (md_m m)) as [x|] eqn:Em; [|congruence].
  eapply DomainP5.mget_key; eauto.
Qed.

Lemma matcher_lives E ha o c hb mk m1 rs1 m2 x m rs expr root :
  good_m ha -> good_orders o -> good_m hb -> c = CBuild \/ c = CBuildKey mk ->
  mexec E (NewModel E) ha = Val (m1, rs1) -> mstep E o m1 c = Val (m2, x) -> x_err x = None -> mexec E m2 hb = Val (m, rs) ->
  key_of M_SEC mk -> def_text M_SEC mk ha = Some expr ->
  Build (e_grow E) (e_parse E (mkeys (md_fm m1))) expr = inl root -> p_key (GetPolicyKey root) ->
  Forall (fun oc => leaves_alone (GetPolicyKey root) mk (snd oc)) hb ->
  exists ptext ops j y, def_text P_SEC (GetPolicyKey root) ha = Some ptext /\ p_history (GetPolicyKey root) ha = Some ops /\
    mget mk (md_mMap m) = Some j /\ nth_error (md_mats m) j = Some y /\
    lives (NewPolicyDef (GetPolicyKey root) ptext) root ops (p_calls (GetPolicyKey root) hb) y.
Proof.
  intros Ga Go Gb Hc Ha Hs Hx Hb Hk Ht HB Hp F. set (pk := GetPolicyKey root) in *.
  destruct (reachable_ok E ha m1 rs1 Ga Ha) as [g1 [V1 W1]]. pose proof (defs_exec E ha m1 rs1 Ha) as D1.
  assert (Hh : p_history pk (ha ++ [(o, c)]) = p_history pk ha).
  { rewrite p_history_snoc. destruct Hc as [-> | ->]; reflexivity. }
  assert (Em : mget mk (md_m m1) = Some expr) by (rewrite (f_m _ _ D1 mk Hk); exact Ht).
  assert (X : exists g2, Core m2 g2 /\ Hist (ha ++ [(o, c)]) m2 g2 /\ quiet m1 m2 g1 g2 /\
              exists j, mget mk (md_mMap m2) = Some j /\ built_now E o m2 g2 j expr).
  { destruct Hc as [-> | ->]; cbn [mstep] in Hs; apply obind_val in Hs as [[m' e] [Es Hs]]; injection Hs as <- <-; cbn in Hx; subst e.
    - pose proof (loop_in E o m1 m' None mk Go Es ltac:(congruence)) as Hin.
      destruct (loop_step _ _ _ Go _ _ _ _ V1 Es) as [g' [V [Q [_ B]]]]. exists g'. split; [exact V|].
      split; [eapply hist_quiet; eauto|]. split; [exact Q|]. destruct (B eq_refl mk Hin) as [ex [j [A1 [A2 A3]]]].
      exists j. split; [exact A2|]. destruct Q as (_ & _ & _ & Qm & _). rewrite Qm, Em in A1. injection A1 as <-. exact A3.
    - destruct (buildkey_step _ _ _ _ _ _ _ Go V1 Es) as [g' [V [Q [_ [_ B]]]]]. exists g'. split; [exact V|].
      split; [eapply hist_quiet; eauto|]. split; [exact Q|]. destruct (B eq_refl) as [ex [j [A1 [A2 A3]]]].
      exists j. split; [exact A2|]. rewrite Em in A1. injection A1 as <-. exact A3. }
  destruct X as [g2 [V2 [W2 [Q [j [Ej B]]]]]].
  destruct Q as (Q1 & Q2 & Q3 & Q4 & Q5 & Q6 & _).
  destruct B as (root' & i & x2 & d & B1 & B2 & B3 & B4 & B5 & B6 & B7). rewrite Q5, HB in B1. injection B1 as <-.
  fold pk in B2, B7. specialize (B7 Hp). rewrite Q6 in B7.
  assert (Kp : key_of P_SEC pk) by (exists "p"%char; split; [reflexivity|exact Hp]).
  rewrite (f_p _ _ D1 pk Kp) in B7. destruct (def_text P_SEC pk ha) as [ptext|] eqn:Ep; [|discriminate]. injection B7 as B7.
  destruct (p_history pk ha) as [ops|] eqn:Eo; [|apply p_defined in Eo; [congruence|exact Hp]].
  destruct (exec_ok E hb _ _ _ _ _ Gb V2 W2 Hb) as [g [V [W [St L]]]]. destruct (L pk mk F) as [L1 L2].
  destruct (St j x2 B3) as [Sg [y [Sy [Sd Stt]]]].
  exists ptext, ops, j, y. split; [reflexivity|]. split; [reflexivity|]. split; [congruence|]. split; [exact Sy|].
  assert (Hi : mget pk (md_pMap m2) = Some i /\ g_ops g2 i = ops).
  { pose proof (v_phist _ _ _ W2 pk Hp) as P. rewrite Hh in P. unfold GetPolicy in B2.
    destruct (mget pk (md_pMap m2)) as [i'|]; [|discriminate]. injection B2 as ->. cbn in P. injection P as ->. auto. }
  destruct Hi as [Hi Hops].
  destruct (p_history_more pk mk (ha ++ [(o, c)]) hb ops F Hh) as [P1 _].
  pose proof (v_phist _ _ _ W pk Hp) as P. rewrite L1, Hi, P1 in P. cbn in P. injection P as P.
  destruct (v_mat _ _ V j y Sy) as [bo [ls [M1 [_ M2]]]]. rewrite Sg, B6 in M1, M2. cbn [fst snd] in M1, M2.
  destruct (v_p _ _ V pk i ltac:(congruence)) as [_ [p [ls' Eobj]]]. rewrite Eobj in M1. injection M1 as <- <-.
  destruct (M2 p eq_refl) as [_ M3]. rewrite Hops, P in M3.
  rewrite firstn_app, firstn_all, Nat.sub_diag, app_nil_r in M3. cbn [firstn] in M3.
  rewrite skipn_app, skipn_all, Nat.sub_diag in M3. cbn [skipn app] in M3.
  rewrite Sd, B5, Stt, B4, <- B7 in M3. exact M3.
Qed.
