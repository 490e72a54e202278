(** Property C82: a policy handed over with SetPolicy. *)
From Verif Require Import GoBase GoBaseP DefsM PolicyM PolicySpec PolicyP MatcherDefM MatcherM MatcherSpec
  RbacM RbacSpec DomainM DomainSpec EvalM ModelM ModelSpec ModelP ModelP2 ModelP3 ModelP4 ModelP5 ModelP6 Prop_Model Prop_ModelDefs
  EnforcerM EnforcerSpec SettersM SettersSpec.
Local Notation pstep := PolicyM.pstep.

Lemma mput_same {V} k (v : V) m : mget k m = Some v -> mput k v m = m.
Proof.
  induction m as [|[k' v'] m IH]; cbn; [discriminate|]. destruct (String.eqb_spec k k') as [->|].
  - now intros [= ->].
  - intros H. now rewrite IH.
Qed.
Lemma set_nth_last {A} (l : list A) x y : set_nth (l ++ [x]) (List.length l) y = l ++ [y].
Proof. induction l as [|a l IH]; cbn; [reflexivity|]. now rewrite IH. Qed.
Lemma nth_last {A} (l : list A) x : nth_error (l ++ [x]) (List.length l) = Some x.
Proof. induction l; cbn; auto. Qed.

(** A model whose section [k] is its newest object, without listeners. *)
Definition on_top (m : model) (k : string) (p : policy) : model :=
  set_pMap (set_objs m (md_objs m ++ [mkObj (OPolicy p) []])) (mput k (List.length (md_objs m)) (md_pMap m)).

Lemma hand_over_top m k ops : hand_over m k ops = on_top m k (fst (pexec NewPolicy ops)).
Proof. reflexivity. Qed.

Lemma top_act o m k p a : act o (on_top m k p) (List.length (md_objs m)) a = Val (on_top m k (fst (fst (pstep p a))), snd (fst (pstep p a))).
Proof.
  unfold act. unfold on_top at 1. cbn [md_objs set_pMap set_objs]. rewrite nth_last. cbn [o_body o_listeners].
  destruct (pstep p a) as [[p' b] es]. cbn [fst snd].
  assert (N : forall ms, notify_all ms [] es = Val ms) by (intros ms; induction es as [|e es IH]; cbn; auto).
  rewrite N. cbn [obind]. unfold on_top. cbn [md_objs set_pMap set_objs set_mats md_mats]. rewrite set_nth_last. reflexivity.
Qed.
Lemma top_step E o m k p a : p_key k ->
  exists x, mstep E o (on_top m k p) (pop_call k a) = Val (on_top m k (fst (fst (pstep p a))), x).
Proof.
  intros K. assert (G : mget k (md_pMap (on_top m k p)) = Some (List.length (md_objs m))).
  { unfold on_top. cbn [md_pMap set_pMap]. rewrite mget_put, String.eqb_refl. reflexivity. }
  destruct a as [r|r|]; cbn [pop_call mstep].
  - unfold model_AddRule. rewrite K. cbn [Ascii.eqb Bool.eqb]. cbv beta iota. rewrite G, top_act. eexists. reflexivity.
  - unfold model_RemoveRule. rewrite K. cbn [Ascii.eqb Bool.eqb]. cbv beta iota. rewrite G, top_act. eexists. reflexivity.
  - unfold ClearPolicy, GetPolicy. rewrite G, top_act. eexists. reflexivity.
Qed.
Lemma top_ops E o m k ops : p_key k -> forall p,
  exists xs, mexec E (on_top m k p) (map (fun a => (o, pop_call k a)) ops) = Val (on_top m k (fst (pexec p ops)), xs).
Proof.
  intros K. induction ops as [|a ops IH]; intros p; cbn [map mexec pexec].
  - exists []. reflexivity.
  - destruct (top_step E o m k p a K) as [x ->]. cbn [obind]. destruct (pstep p a) as [[p' b] es]. cbn [fst].
    destruct (IH p') as [xs ->]. cbn [obind]. destruct (pexec p' ops) as [p'' es']. exists (x :: xs). reflexivity.
Qed.

Lemma pk_of k : p_key k <-> key_of P_SEC k.
Proof. unfold p_key, key_of. cbn. split; [intros H; eexists; eauto|]. intros [c [[= <-] H]]. exact H. Qed.

(** ** C82: SetPolicy hands over a policy with its rules

    Handing over a policy to a defined section has exactly the effect of
    redefining the section with its present text and making the same calls on it.
    Nothing that happens afterwards can tell the two apart. *)
Theorem C82_same_as_redefining :
  forall E h m rs o k v ops,
    mexec E (NewModel E) h = Val (m, rs) -> p_key k -> def_text P_SEC k h = Some v ->
    exists xs, mexec E m (redefine o k v ops) = Val (hand_over m k ops, xs).
Proof.
  intros E h m rs o k v ops H K Hv. pose proof (f_p _ _ (defs_exec E h m rs H) k (proj1 (pk_of k) K)) as D. rewrite Hv in D.
  unfold redefine. cbn [mexec mstep]. unfold SetDef. cbn [keyPrefix]. rewrite K. cbn [Ascii.eqb Bool.eqb]. cbv beta iota.
  cbn [obind]. unfold addPolicyDef. rewrite (mput_same _ _ _ D).
  assert (S : set_p m (md_p m) = m) by now destruct m. rewrite S. cbn [new_obj md_pMap md_objs set_objs].
  destruct (top_ops E o m k ops K NewPolicy) as [xs Hx]. unfold on_top at 1 in Hx. rewrite Hx. cbn [obind].
  rewrite hand_over_top. eexists. reflexivity.
Qed.
Print Assumptions C82_same_as_redefining.

Lemma xexec_app E h1 : forall m0 h2 m rs, xexec E m0 (h1 ++ h2) = Val (m, rs) ->
  exists m1 rs1 rs2, xexec E m0 h1 = Val (m1, rs1) /\ xexec E m1 h2 = Val (m, rs2) /\ rs = rs1 ++ rs2.
Proof.
  induction h1 as [|[o c] h1 IH]; intros m0 h2 m rs H; cbn [app xexec] in *.
  - exists m0, [], rs. auto.
  - apply obind_val in H as [[m1 r1] [E1 H]]. apply obind_val in H as [[m2 rs2] [E2 H]]. injection H as <- <-.
    apply IH in E2 as [m3 [rs3 [rs4 [A [B ->]]]]]. exists m3, (r1 :: rs3), rs4. rewrite E1. cbn [obind]. rewrite A. auto.
Qed.

(** Every history with SetPolicy leads to the state of one without. *)
Definition same_meaning (h : list (orders * xcall)) (h' : list (orders * mcall)) : Prop :=
  (forall k, p_key k -> p_history k h' = xp_history k h) /\
  (forall k, g_key k -> g_history k h' = g_history k (other_calls h)) /\
  (forall s k, def_text s k h' = def_text s k (other_calls h)).

Lemma redefine_p k o v ops k' acc : p_key k' ->
  fold_left (p_step k') (map snd (redefine o k v ops)) acc = if String.eqb k k' then Some ops else acc.
Proof.
  intros K. unfold redefine. cbn [map snd fold_left p_step]. destruct (String.eqb_spec k k') as [->|Hne].
  - replace ops with ([] ++ ops) at 2 by reflexivity. generalize (@nil pop). induction ops as [|a ops IH]; intros l; cbn [map snd fold_left].
    + now rewrite app_nil_r.
    + replace (p_step k' (Some l) (pop_call k' a)) with (Some (l ++ [a])).
      * rewrite IH. now rewrite <- app_assoc.
      * destruct a; cbn; now rewrite String.eqb_refl.
  - revert acc. induction ops as [|a ops IH]; intros acc; cbn [map snd fold_left]; [reflexivity|].
    replace (p_step k' acc (pop_call k a)) with acc; [apply IH|].
    apply String.eqb_neq in Hne. destruct a; cbn; now rewrite Hne.
Qed.
Lemma redefine_g k o v ops k' acc : p_key k -> g_key k' -> fold_left (g_step k') (redefine o k v ops) acc = acc.
Proof.
  intros K G. assert (Hne : String.eqb k k' = false) by (apply String.eqb_neq; intros ->; exact (pg_key k' K G)).
  unfold redefine. cbn [fold_left g_step]. revert acc.
  induction ops as [|a ops IH]; intros acc; cbn [map fold_left]; [reflexivity|].
  rewrite <- IH. f_equal. destruct a; cbn; now rewrite Hne.
Qed.
Lemma redefine_def k o v ops s k' acc : (s = P_SEC -> k = k' -> acc = Some v) ->
  fold_left (def_step s k') (map snd (redefine o k v ops)) acc = acc.
Proof.
  intros H. unfold redefine. cbn [map snd fold_left def_step].
  replace (if sec_eqb P_SEC s && String.eqb k k' then Some v else acc) with acc.
  - clear H. induction ops as [|a ops IH]; cbn [map snd fold_left]; [reflexivity|]. destruct a; exact IH.
  - destruct s; cbn; try reflexivity. destruct (String.eqb_spec k k'); [|reflexivity]. now apply H.
Qed.

Lemma xp_history_snoc k h o c : xp_history k (h ++ [(o, c)]) = xp_step k (xp_history k h) c.
Proof. unfold xp_history. now rewrite map_app, fold_left_app. Qed.
Lemma other_snoc h o c : other_calls (h ++ [(o, c)]) = other_calls h ++ match c with XCall c => [(o, c)] | XSetPolicy _ _ => [] end.
Proof. unfold other_calls. rewrite flat_map_app. cbn. now rewrite app_nil_r. Qed.

Lemma without_setpolicy E h : forall m rs, xgood h -> xtame h -> to_defined h -> xexec E (NewModel E) h = Val (m, rs) ->
  exists h' rs', mexec E (NewModel E) h' = Val (m, rs') /\ good_m h' /\ tame h' /\ same_meaning h h'.
Proof.
  induction h as [|[o c] h IH] using rev_ind; intros m rs G T D H.
  - cbn in H. injection H as <- <-. exists [], []. repeat split; constructor.
  - apply Forall_app in G as [G Go]. apply Forall_inv in Go. apply Forall_app in T as [T Tc]. apply Forall_inv in Tc. cbn [fst snd] in Go, Tc.
    apply xexec_app in H as [m1 [rs1 [rs2 [H1 [H2 ->]]]]].
    destruct (IH m1 rs1 G T) as [h' [rs' [E1 [G' [T' [M1 [M2 M3]]]]]]]; [|exact H1|].
    { intros h1 o1 k ops h2 ->. apply (D h1 o1 k ops (h2 ++ [(o, c)])). now rewrite <- app_assoc. }
    cbn [xexec] in H2. apply obind_val in H2 as [[m2 r2] [E2 H2]]. cbn in H2. injection H2 as <- <-.
    destruct c as [c|k ops]; cbn [xstep] in E2.
    + exists (h' ++ [(o, c)]), (rs' ++ [r2]). split; [exact (mexec_snoc _ _ _ _ _ _ _ _ _ E1 E2)|].
      split; [apply Forall_app; split; [exact G'|repeat constructor; apply Go]|].
      split; [apply Forall_app; split; [exact T'|constructor; [exact Tc|constructor]]|].
      repeat split; intros.
      * rewrite p_history_snoc, xp_history_snoc, M1 by assumption. reflexivity.
      * rewrite other_snoc, !g_history_snoc, M2 by assumption. reflexivity.
      * rewrite other_snoc, !def_text_snoc, M3. reflexivity.
    + injection E2 as <- <-. destruct (D h o k ops [] eq_refl) as [K Kd].
      destruct (def_text P_SEC k (other_calls h)) as [v|] eqn:Ev; [|congruence].
      rewrite <- M3 in Ev. destruct (C82_same_as_redefining E h' m1 rs' o k v ops E1 K Ev) as [xs Ex].
      exists (h' ++ redefine o k v ops), (rs' ++ xs). split; [apply mexec_app; eauto 10|].
      split; [apply Forall_app; split; [exact G'|]; constructor; [exact Go|]; apply Forall_map, Forall_forall; intros; exact Go|].
      split; [apply Forall_app; split; [exact T'|]; constructor; [exact I|]; apply Forall_map; eapply Forall_impl; [|exact Tc]|].
      { intros a Ha. cbn [snd]. destruct a as [r|r|]; cbn [pop_call tame_call op_ok] in *; try exact I;
          (split; [intros _; exact Ha|intros Hg; exfalso; exact (pg_key _ K Hg)]). }
      repeat split; intros.
      * unfold p_history. rewrite map_app, fold_left_app, redefine_p, xp_history_snoc by assumption. cbn [xp_step].
        destruct (String.eqb k k0); [reflexivity|]. now apply M1.
      * unfold g_history at 1. rewrite fold_left_app, redefine_g by assumption. rewrite other_snoc, app_nil_r. now apply M2.
      * unfold def_text at 1. rewrite map_app, fold_left_app, redefine_def; [rewrite other_snoc, app_nil_r; apply M3|].
        intros -> <-. exact Ev.
Qed.

(** After any history with policies handed over to defined sections, RangeRules
    lists exactly the rules that are present, each once: for a section that got a
    policy, those of that policy and of the calls since then. *)
Theorem C82_listing_partial :
  forall E h o m rs,
    xgood h -> xtame h -> to_defined h -> good_orders o -> xexec E (NewModel E) h = Val (m, rs) ->
    NoDup (model_rules o m) /\ forall rl, In rl (model_rules o m) <-> xpresent h rl.
Proof.
  intros E h o m rs G T D Ho H. destruct (without_setpolicy E h m rs G T D H) as [h' [rs' [E1 [G' [T' [M1 [M2 M3]]]]]]].
  destruct (model_listing E h' o m rs' G' Ho T' E1) as [A B]. split; [exact A|]. intros rl. rewrite B.
  destruct rl as [|k r]; cbn [present xpresent]; [tauto|]. split.
  - intros [[K [ops [P Q]]]|[K [s [a [b [ds [P Q]]]]]]].
    + left. split; [exact K|]. exists ops. rewrite <- M1 by exact K. auto.
    + right. split; [exact K|]. right. split; [exact K|]. exists s, a, b, ds. rewrite <- M2 by exact K. auto.
  - intros [[K [ops [P Q]]]|[K [[K' _]|[_ [s [a [b [ds [P Q]]]]]]]]].
    + left. split; [exact K|]. exists ops. rewrite M1 by exact K. auto.
    + exfalso. exact (pg_key k K' K).
    + right. split; [exact K|]. exists s, a, b, ds. rewrite M2 by exact K. auto.
Qed.
Print Assumptions C82_listing_partial.

Ltac ops_tac := solve [repeat (apply Forall_cons; [cbn; split; [discriminate|repeat constructor]|]); apply Forall_nil].
(** A policy with two rules replaces the one of section "p"; one of its rules is
    then revoked through the model and another one added. *)
Definition set_ex : list (orders * xcall) :=
  map (fun oc => (fst oc, XCall (snd oc))) stale_h ++
  [(ex_o, XSetPolicy "p" [PAdd ["bob"; "data1"]; PAdd ["carol"; "data2"]]); (ex_o, XCall (CRemove ["p"; "carol"; "data2"]));
   (ex_rev, XCall (CAdd ["p"; "dave"; "data2"]))]%string.
Lemma set_ex_defined : to_defined set_ex.
Proof.
  intros h1 o k ops h2 H.
  do 8 (destruct h1 as [|? h1];
    [first [discriminate H | injection H as <- <- <- <-; split; [reflexivity|vm_compute; discriminate]]
    |injection H as <- H]). destruct h1; discriminate H.
Qed.
Lemma set_ex_ok : xgood set_ex /\ xtame set_ex.
Proof.
  split; [repeat constructor; try apply ex_o_good; apply ex_rev_good|].
  unfold xtame, set_ex, stale_h. cbn [map app fst snd].
  repeat (apply Forall_cons; [cbn [snd tame_call]; first [exact I|tame_rule_tac|ops_tac]|]); apply Forall_nil.
Qed.
Example C82_listing_ex :
  xgood set_ex /\ xtame set_ex /\ to_defined set_ex /\
  exists m rs, xexec ex_env (NewModel ex_env) set_ex = Val (m, rs) /\
    model_rules ex_o m = [["p"; "bob"; "data1"]; ["p"; "dave"; "data2"]]%string.
Proof.
  split; [apply set_ex_ok|]. split; [apply set_ex_ok|]. split; [exact set_ex_defined|].
  eexists _, _. split; vm_compute; reflexivity.
Qed.
Example C82_redefining_ex :
  exists m rs xs, mexec ex_env (NewModel ex_env) stale_h = Val (m, rs) /\ p_key "p" /\
    def_text P_SEC "p" stale_h = Some "sub, obj"%string /\
    mexec ex_env m (redefine ex_o "p" "sub, obj" [PAdd ["bob"; "data1"]]) = Val (hand_over m "p" [PAdd ["bob"; "data1"]], xs)%string.
Proof.
  eexists _, _, _. split; [vm_compute; reflexivity|]. split; [reflexivity|]. split; vm_compute; reflexivity.
Qed.

(** Decisions do not follow: a matcher that was built before SetPolicy goes on
    reporting the rules of the replaced policy, and none of the new one, until
    the matchers are built again. *)
Theorem C82_decisions_refuted :
  let h := map (fun oc => (fst oc, XCall (snd oc))) stale_h ++ [(ex_o, XSetPolicy "p" [PAdd ["bob"; "data1"]])]%string in
  xgood h /\ xtame h /\ to_defined h /\
  (exists m rs, xexec ex_env (NewModel ex_env) h = Val (m, rs) /\
     model_rules ex_o m = [["p"; "bob"; "data1"]] /\
     matches_of ex_env ex_o m "m" "r" alice = Val ([["p"; "alice"; "data1"]], None))%string /\
  (exists m rs, xexec ex_env (NewModel ex_env) (h ++ [(ex_o, XCall CBuild)]) = Val (m, rs) /\
     matches_of ex_env ex_o m "m" "r" alice = Val ([], None)).
Proof.
  cbv zeta. split; [repeat constructor; apply ex_o_good|]. split.
  { unfold xtame, stale_h. cbn [map app fst snd].
    repeat (apply Forall_cons; [cbn [snd tame_call]; first [exact I|tame_rule_tac|ops_tac]|]); apply Forall_nil. }
  split.
  { intros h1 o k ops h2 H.
    do 6 (destruct h1 as [|? h1];
      [first [discriminate H | injection H as <- <- <- <-; split; [reflexivity|vm_compute; discriminate]]
      |injection H as <- H]). destruct h1; discriminate H. }
  split; (eexists _, _; split; [vm_compute; reflexivity|]); [split|]; vm_compute; reflexivity.
Qed.
Print Assumptions C82_decisions_refuted.

(** A policy handed over to a grouping section is listed and returned by
    GetPolicy and cleared by ClearPolicy, but rules added to and removed from
    that section never reach it. *)
Theorem C82_grouping_refuted :
  let h := [(ex_o, XCall (CSetDef G_SEC "g" "_, _")); (ex_o, XSetPolicy "g" [PAdd ["alice"; "admin"]])]%string in
  (exists m rs, xexec ex_env (NewModel ex_env) h = Val (m, rs) /\ model_rules ex_o m = [["g"; "alice"; "admin"]])%string /\
  (exists m rs, xexec ex_env (NewModel ex_env) (h ++ [(ex_o, XCall (CAdd ["g"; "alice"; "admin"]%string))]) = Val (m, rs ++ [mkRes true None [MAdded ["g"; "alice"; "admin"]%string]]) /\
     model_rules ex_o m = [["g"; "alice"; "admin"]; ["g"; "alice"; "admin"]]%string) /\
  (exists m rs, xexec ex_env (NewModel ex_env) (h ++ [(ex_o, XCall (CRemove ["g"; "alice"; "admin"]%string))]) = Val (m, rs ++ [mkRes false None []]) /\
     model_rules ex_o m = [["g"; "alice"; "admin"]]%string).
Proof.
  cbv zeta. split; [|split].
  - eexists _, _. split; vm_compute; reflexivity.
  - eexists _, [_; _]. split; vm_compute; reflexivity.
  - eexists _, [_; _]. split; vm_compute; reflexivity.
Qed.
Print Assumptions C82_grouping_refuted.
