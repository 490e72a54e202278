(** Lemmas about the rules a model holds. *)
From Verif Require Import GoBase GoBaseP DefsM PolicyM PolicySpec PolicyP MatcherDefM MatcherM MatcherSpec
  RbacM RbacSpec RbacP RbacP2 RbacP3 RbacP4 Prop_Rbac DomainM DomainSpec DomainP DomainP2 DomainP5 Prop_Policy Prop_Domain Prop_DomainLinks ModelM ModelSpec ModelP ModelP2 ModelP3.
Local Notation pstep := PolicyM.pstep.

Lemma is_redundant_unreserved ds : unreserved ds -> is_redundant ds = false.
Proof.
  intros H. destruct H as [|d ds Hd H]; [reflexivity|]. cbn. apply String.eqb_neq. intros ->. apply Hd. now right.
Qed.

(** Histories of tame calls. *)
Lemma p_tame h k ops : tame h -> p_key k -> p_history k h = Some ops -> Forall (op_ok comma_free) ops.
Proof.
  intros T Hk. revert ops. induction h as [|[o c] h IH] using rev_ind; intros ops H; [discriminate|].
  apply Forall_app in T as [T Tc]. inversion Tc as [|? ? Hc _]; subst. cbn in Hc.
  rewrite p_history_snoc in H. specialize (IH T).
  assert (G : forall a, op_ok comma_free a -> option_map (fun l => l ++ [a]) (p_history k h) = Some ops -> Forall (op_ok comma_free) ops).
  { intros a Ha E. destruct (p_history k h) as [l|]; [|discriminate]. injection E as <-. apply Forall_app. auto. }
  destruct c; cbn [p_step] in H; try (now apply IH).
  - destruct s; try (now apply IH). destruct (String.eqb key k); [injection H as <-; constructor|now apply IH].
  - destruct s; try (now apply IH). destruct (String.eqb key k); [discriminate|now apply IH].
  - destruct r as [|k' r]; [now apply IH|]. cbn in H. destruct (String.eqb_spec k' k) as [->|]; [|now apply IH].
    eapply G; [|exact H]. now apply Hc.
  - destruct r as [|k' r]; [now apply IH|]. cbn in H. destruct (String.eqb_spec k' k) as [->|]; [|now apply IH].
    eapply G; [|exact H]. now apply Hc.
  - destruct (String.eqb key k); [|now apply IH]. eapply G; [|exact H]. exact I.
Qed.

Lemma g_tame h k x calls : tame h -> good_m h -> g_key k -> g_history k h = Some (x, calls) ->
  (x = IRole (NewRoleManager 10) \/ x = IDom (NewDomainManager 10)) /\ ordinary calls /\ good_d calls /\
  Forall (fun c => match snd c with DAdd _ _ _ | DDel _ _ _ | DClear => True | _ => False end) calls.
Proof.
  intros T G Hk. revert x calls. induction h as [|[o c] h IH] using rev_ind; intros x calls H; [discriminate|].
  apply Forall_app in T as [T Tc]. inversion Tc as [|? ? Hc _]; subst. cbn in Hc.
  apply Forall_app in G as [G Gc]. inversion Gc as [|? ? Ho _]; subst. cbn in Ho. destruct Ho as [Ho _].
  rewrite g_history_snoc in H. specialize (IH T G).
  assert (L : forall d, (match call_domains d with Some ds => unreserved ds | None => True end) ->
     (match d with DAdd _ _ _ | DDel _ _ _ | DClear => True | _ => False end) ->
     option_map (fun a => (fst a, snd a ++ [(o_names o, d)])) (g_history k h) = Some (x, calls) ->
     (x = IRole (NewRoleManager 10) \/ x = IDom (NewDomainManager 10)) /\ ordinary calls /\ good_d calls /\
     Forall (fun c => match snd c with DAdd _ _ _ | DDel _ _ _ | DClear => True | _ => False end) calls).
  { intros d Hd Hs E. destruct (g_history k h) as [[y l]|]; [|discriminate]. cbn in E. injection E as <- <-.
    destruct (IH _ _ eq_refl) as [A [B [C D]]]. split; [exact A|].
    split; [apply Forall_app; split; [exact B|]; repeat constructor; exact Hd|].
    split; apply Forall_app; (split; [assumption|]); repeat constructor; assumption. }
  destruct c; cbn [g_step] in H; try (now apply IH).
  - destruct s; try (now apply IH). destruct (String.eqb key k); [|now apply IH]. injection H as <- <-.
    unfold fresh_manager. split; [destruct (Nat.eqb _ 2); auto|]. repeat split; constructor.
  - destruct s; try (now apply IH). destruct (String.eqb key k); [discriminate|now apply IH].
  - destruct r as [|k' r]; [now apply IH|]. cbn [of_section] in H. destruct (String.eqb_spec k' k) as [->|]; [|now apply IH].
    destruct r as [|a [|b ds]]; try (now apply IH). apply (L (DAdd a b ds) (proj2 Hc Hk) I H).
  - destruct r as [|k' r]; [now apply IH|]. cbn [of_section] in H. destruct (String.eqb_spec k' k) as [->|]; [|now apply IH].
    destruct r as [|a [|b ds]]; try (now apply IH). apply (L (DDel a b ds) (proj2 Hc Hk) I H).
  - destruct (String.eqb key k); [|now apply IH]. apply (L DClear I I H).
Qed.

(** Without SetRoleManager every grouping section has a grouping key. *)
Definition no_rm (c : mcall) : Prop := match c with CSetRM _ _ => False | _ => True end.
Definition gkeys (m : model) : Prop := forall k i, mget k (md_rpMap m) = Some i -> g_key k.

Lemma act_maps o m i a m' b : act o m i a = Val (m', b) -> same_maps m m'.
Proof.
  unfold act. intros H. destruct (nth_error (md_objs m) i) as [[bo ls]|]; [|discriminate]. cbn [o_body o_listeners] in H.
  destruct bo as [p|rm].
  - destruct (pstep p a) as [[p' b'] es]. destruct (notify_all _ _ _) as [ms|]; cbn in H; [|discriminate]. injection H as <- <-. repeat split.
  - destruct (nth_error (md_rms m) rm) as [x|]; [|discriminate].
    destruct (act_role (o_names o) x a) as [[[x' b'] es]|]; cbn [obind] in H; [|discriminate].
    destruct (notify_all _ _ _) as [ms|]; cbn in H; [|discriminate]. injection H as <- <-. repeat split.
Qed.

Lemma add_maps o m rl m' b e es : model_AddRule o m rl = Val (m', b, e, es) -> same_maps m m'.
Proof.
  intros H. destruct rl as [|key r]; [discriminate|]. cbn [model_AddRule] in H. destruct (first_byte key) as [c|]; [|discriminate].
  destruct (Ascii.eqb c "p").
  - destruct (mget key (md_pMap m)) as [i|]; [|injection H as <- <- <- <-; repeat split].
    destruct (act o m i (PAdd r)) as [[m1 b1]|] eqn:E; cbn in H; [|discriminate]. injection H as <- <- <- <-. eapply act_maps; eauto.
  - destruct (Ascii.eqb c "g"); [|injection H as <- <- <- <-; repeat split].
    destruct (mget key (md_rpMap m)) as [i|]; [|injection H as <- <- <- <-; repeat split].
    destruct (act o m i (PAdd r)) as [[m1 b1]|] eqn:E; cbn in H; [|discriminate]. injection H as <- <- <- <-. eapply act_maps; eauto.
Qed.
Lemma remove_maps o m rl m' b e es : model_RemoveRule o m rl = Val (m', b, e, es) -> same_maps m m'.
Proof.
  intros H. destruct rl as [|key r]; [discriminate|]. cbn [model_RemoveRule] in H. destruct (first_byte key) as [c|]; [|discriminate].
  destruct (Ascii.eqb c "p").
  - destruct (mget key (md_pMap m)) as [i|]; [|injection H as <- <- <- <-; repeat split].
    destruct (act o m i (PRemove r)) as [[m1 b1]|] eqn:E; cbn in H; [|discriminate]. injection H as <- <- <- <-. eapply act_maps; eauto.
  - destruct (Ascii.eqb c "g"); [|injection H as <- <- <- <-; repeat split].
    destruct (mget key (md_rpMap m)) as [i|]; [|injection H as <- <- <- <-; repeat split].
    destruct (act o m i (PRemove r)) as [[m1 b1]|] eqn:E; cbn in H; [|discriminate]. injection H as <- <- <- <-. eapply act_maps; eauto.
Qed.
Lemma clear_maps o m k m' e : ClearPolicy o m k = Val (m', e) -> same_maps m m'.
Proof.
  unfold ClearPolicy. intros H. destruct (GetPolicy m k) as [i|]; [|injection H as <- <-; repeat split].
  destruct (act o m i PClear) as [[m1 b1]|] eqn:E; cbn in H; [|discriminate]. injection H as <- <-. eapply act_maps; eauto.
Qed.

(** Definitions only change through SetDef and RemoveDef. *)
Definition same_defs (m m' : model) : Prop :=
  md_r m' = md_r m /\ md_p m' = md_p m /\ md_g m' = md_g m /\ md_e m' = md_e m /\ md_m m' = md_m m.
Lemma same_maps_defs m m' : same_maps m m' -> same_defs m m'.
Proof. unfold same_maps, same_defs. tauto. Qed.

Lemma buildfrom_maps E o m expr m' r : BuildMatcherFromDef E o m expr = Val (m', r) ->
  same_defs m m' /\ md_pMap m' = md_pMap m /\ md_rpMap m' = md_rpMap m /\ md_fm m' = md_fm m /\ md_eMap m' = md_eMap m.
Proof.
  unfold BuildMatcherFromDef. intros H. destruct (Build _ _ _) as [root|e]; [|injection H as <- <-; repeat split].
  destruct (first_byte _); [|discriminate]. destruct (if Ascii.eqb _ "p" then _ else _) as [d|]; [|injection H as <- <-; repeat split].
  destruct (GetPolicy _ _) as [i|]; [|injection H as <- <-; repeat split].
  destruct (nth_error (md_objs m) i) as [ob|]; [|discriminate].
  destruct (NewMatcher _ _ _) as [x|]; cbn in H; [|discriminate]. injection H as <- <-. repeat split.
Qed.
Lemma buildkey_maps E o m k m' r : BuildMatcher E o m k = Val (m', r) ->
  same_defs m m' /\ md_pMap m' = md_pMap m /\ md_rpMap m' = md_rpMap m /\ md_fm m' = md_fm m /\ md_eMap m' = md_eMap m.
Proof.
  unfold BuildMatcher. intros H. destruct (mget k (md_m m)) as [expr|]; [|injection H as <- <-; repeat split].
  destruct (BuildMatcherFromDef E o m expr) as [[m1 r1]|] eqn:Eb; cbn in H; [|discriminate]. apply buildfrom_maps in Eb.
  destruct r1; injection H as <- <-; exact Eb.
Qed.
Lemma loop_maps E o keys : forall m m' r, build_loop E o m keys = Val (m', r) ->
  same_defs m m' /\ md_pMap m' = md_pMap m /\ md_rpMap m' = md_rpMap m /\ md_fm m' = md_fm m /\ md_eMap m' = md_eMap m.
Proof.
  induction keys as [|k keys IH]; intros m m' r H; cbn [build_loop] in H; [injection H as <- <-; repeat split|].
  destruct (BuildMatcher E o m k) as [[m1 e1]|] eqn:Eb; cbn [obind] in H; [|discriminate]. apply buildkey_maps in Eb.
  destruct e1; [injection H as <- <-; exact Eb|]. apply IH in H. unfold same_defs in *.
  destruct Eb as [(A1 & A2 & A3 & A4 & A5) [A6 [A7 [A8 A9]]]], H as [(B1 & B2 & B3 & B4 & B5) [B6 [B7 [B8 B9]]]].
  repeat split; congruence.
Qed.

Lemma gkeys_step E o m c m' r : no_rm c -> gkeys m -> mstep E o m c = Val (m', r) -> gkeys m'.
Proof.
  intros Hc G H. destruct c; cbn [mstep] in H.
  - unfold SetDef in H. destruct (keyPrefix s) as [cc|] eqn:Es; [|cbn in H; injection H as <- <-; exact G].
    destruct (first_byte key) as [c'|] eqn:Ek; [|discriminate].
    destruct (Ascii.eqb_spec c' cc) as [->|]; cbn in H; injection H as <- <-; [|exact G].
    destruct s; try exact G. intros k i. cbn. rewrite mget_put. destruct (String.eqb_spec k key) as [->|]; [|apply G].
    intros _. cbn in Es. injection Es as <-. exact Ek.
  - destruct s; cbn in H; injection H as <- <-; try exact G. intros k i. cbn. rewrite mget_del.
    destruct (String.eqb k key); [discriminate|apply G].
  - destruct (model_AddRule o m r0) as [[[[m1 b] e] es]|] eqn:Es; cbn [obind] in H; [|discriminate]. injection H as <- <-.
    apply add_maps in Es. destruct Es as (_ & Es & _). unfold gkeys. rewrite Es. exact G.
  - destruct (model_RemoveRule o m r0) as [[[[m1 b] e] es]|] eqn:Es; cbn [obind] in H; [|discriminate]. injection H as <- <-.
    apply remove_maps in Es. destruct Es as (_ & Es & _). unfold gkeys. rewrite Es. exact G.
  - destruct (ClearPolicy o m key) as [[m1 e]|] eqn:Es; cbn [obind] in H; [|discriminate]. injection H as <- <-.
    apply clear_maps in Es. destruct Es as (_ & Es & _). unfold gkeys. rewrite Es. exact G.
  - destruct (BuildMatchers E o m) as [[m1 e]|] eqn:Es; cbn [obind] in H; [|discriminate]. injection H as <- <-.
    apply loop_maps in Es. destruct Es as (_ & _ & Es & _). unfold gkeys. rewrite Es. exact G.
  - destruct (BuildMatcher E o m key) as [[m1 e]|] eqn:Es; cbn [obind] in H; [|discriminate]. injection H as <- <-.
    apply buildkey_maps in Es. destruct Es as (_ & _ & Es & _). unfold gkeys. rewrite Es. exact G.
  - destruct (BuildMatcherFromDef E o m expr) as [[m1 e]|] eqn:Es; cbn [obind] in H; [|discriminate]. injection H as <- <-.
    apply buildfrom_maps in Es. destruct Es as (_ & _ & Es & _). unfold gkeys. rewrite Es. exact G.
  - destruct Hc.
  - injection H as <- <-. exact G.
  - cbn in H. injection H as <- <-. exact G.
Qed.
Lemma gkeys_exec E h : forall m m' rs, Forall (fun c => no_rm (snd c)) h -> gkeys m -> mexec E m h = Val (m', rs) -> gkeys m'.
Proof.
  induction h as [|[o c] h IH]; intros m m' rs F G H; cbn [mexec] in H; [injection H as <- <-; exact G|].
  destruct (mstep E o m c) as [[m1 r]|] eqn:Es; cbn [obind] in H; [|discriminate].
  destruct (mexec E m1 h) as [[m2 rs2]|] eqn:Ee; cbn [obind] in H; [|discriminate]. injection H as <- <-.
  inversion F as [|? ? F1 F2]; subst. apply (IH m1 m2 rs2 F2); [|exact Ee]. eapply gkeys_step; [exact F1|exact G|exact Es].
Qed.
Lemma tame_no_rm h : tame h -> Forall (fun c => no_rm (snd c)) h.
Proof. apply Forall_impl. intros [o c] H. destruct c; cbn in *; auto. Qed.

(** ** Enumeration with a callback that collects *)
Lemma range_vals_collect {A} (f : rule -> A) l acc :
  range_vals (fun (a : list A) r => (a ++ [f r], true)) acc l = (acc ++ map f l, true).
Proof.
  revert acc. induction l as [|r l IH]; intros acc; cbn; [now rewrite app_nil_r|]. rewrite IH, <- app_assoc. reflexivity.
Qed.
Lemma fold_collect {A B} (f : B -> A) l acc : fold_left (fun (a : list A) r => a ++ [f r]) l acc = acc ++ map f l.
Proof.
  revert acc. induction l as [|r l IH]; intros acc; cbn; [now rewrite app_nil_r|]. rewrite IH, <- app_assoc. reflexivity.
Qed.
Lemma fold_left_ext {A B} (f g : A -> B -> A) l : (forall a b, f a b = g a b) -> forall acc, fold_left f l acc = fold_left g l acc.
Proof. intros H. induction l as [|x l IH]; intros acc; cbn; [reflexivity|]. now rewrite H, IH. Qed.
Lemma i_Range_collect {A} ord x (f : rule -> A) acc :
  i_Range ord x (fun (a : list A) r => (a ++ [f r], true)) acc =
  acc ++ map f (i_Range ord x (fun l r => (l ++ [r], true)) []).
Proof.
  destruct x as [rm|d]; cbn [i_Range].
  - unfold rm_Range. rewrite (rangeLinks_all ord (rm_all rm) (fun (a : list A) r => a ++ [f r])).
    rewrite (rangeLinks_all ord (rm_all rm) (fun a r => a ++ [r])). rewrite fold_collect. f_equal. f_equal.
    rewrite (fold_collect (fun r => r)). cbn. now rewrite map_id.
  - rewrite (fold_left_ext (fun st '(a, b, ds) => fst (st ++ [f (a :: b :: ds)], true)) (fun (st : list A) (l : link) => st ++ [f (fst (fst l) :: snd (fst l) :: snd l)])).
    2:{ intros st [[a b] ds]. reflexivity. }
    rewrite fold_collect. f_equal.
    rewrite (fold_left_ext (fun st '(a, b, ds) => fst (st ++ [a :: b :: ds], true)) (fun (st : list rule) (l : link) => st ++ [fst (fst l) :: snd (fst l) :: snd l])).
    2:{ intros st [[a b] ds]. reflexivity. }
    rewrite (fold_collect (fun l : link => fst (fst l) :: snd (fst l) :: snd l)). cbn. now rewrite map_map.
Qed.

Lemma obj_Range_collect {A} o m i (f : rule -> A) acc :
  obj_Range o m i (fun (a : list A) r => (a ++ [f r], true)) acc = acc ++ map f (obj_rules o m i).
Proof.
  unfold obj_rules, obj_Range. destruct (nth_error (md_objs m) i) as [[bo ls]|]; cbn [o_body]; [|now rewrite app_nil_r].
  destruct bo as [p|rm].
  - unfold Range. rewrite range_vals_collect. rewrite (range_vals_collect (fun r => r)). cbn. now rewrite map_id.
  - destruct (nth_error (md_rms m) rm) as [x|]; [|now rewrite app_nil_r]. apply i_Range_collect.
Qed.

Definition section_rules (o : orders) (m : model) (sm : smap nat) : list rule :=
  flat_map (fun key => match mget key sm with None => [] | Some i => map (cons key) (obj_rules o m i) end) (o_names o (mkeys sm)).

Lemma range_section_collect o m sm acc :
  range_section o m sm (fun l r => (l ++ [r], true)) acc = acc ++ section_rules o m sm.
Proof.
  unfold range_section, section_rules. revert acc. induction (o_names o (mkeys sm)) as [|k l IH]; intros acc; cbn [fold_left flat_map].
  - now rewrite app_nil_r.
  - rewrite IH. destruct (mget k sm) as [i|]; [|reflexivity]. rewrite (obj_Range_collect o m i (cons k)). now rewrite app_assoc.
Qed.

Lemma model_rules_eq o m : model_rules o m = section_rules o m (md_pMap m) ++ section_rules o m (md_rpMap m).
Proof. unfold model_rules, RangeRules. now rewrite !range_section_collect. Qed.

Lemma in_section_rules o m sm rl : good_orders o ->
  In rl (section_rules o m sm) <-> exists k r i, rl = k :: r /\ mget k sm = Some i /\ In r (obj_rules o m i).
Proof.
  intros [Ho _]. unfold section_rules. rewrite in_flat_map. split.
  - intros [k [_ H]]. destruct (mget k sm) as [i|] eqn:E; [|destruct H]. apply in_map_iff in H as [r [<- H]]. eauto 6.
  - intros [k [r [i [-> [E H]]]]]. exists k. rewrite E. split; [|now apply in_map].
    apply (in_order _ _ _ Ho). eapply mget_key; eauto.
Qed.
Lemma NoDup_section_rules o m sm : good_orders o -> NoDup (mkeys sm) ->
  (forall k i, mget k sm = Some i -> NoDup (obj_rules o m i)) -> NoDup (section_rules o m sm).
Proof.
  intros [Ho _] N H. apply NoDup_flat2.
  - eapply Permutation_NoDup; [symmetry; apply Ho|exact N].
  - intros k _. destruct (mget k sm) as [i|] eqn:E; [|constructor]. apply FinFun.Injective_map_NoDup; [congruence|eauto].
  - intros k1 k2 rl H1 H2. destruct (mget k1 sm); [|destruct H1]. destruct (mget k2 sm); [|destruct H2].
    apply in_map_iff in H1 as [r1 [<- _]]. apply in_map_iff in H2 as [r2 [E _]]. now injection E.
Qed.

(** Managers without domains. *)
Lemma dexec_role rm h rm' xs : dexec (IRole rm) h = Val (rm', xs) ->
  exists rm1, rm' = IRole rm1 /\ rexec rm (direct_calls h) = Val (rm1, xs).
Proof.
  revert rm xs. induction h as [|[o c] h IH]; intros rm xs H; cbn [dexec] in H.
  - injection H as <- <-. exists rm. auto.
  - destruct (dstep o (IRole rm) c) as [[x1 a]|] eqn:Es; cbn [obind] in H; [|discriminate].
    destruct (dexec x1 h) as [[x2 xs2]|] eqn:Ee; cbn [obind] in H; [|discriminate]. injection H as <- <-.
    assert (G : exists r1, x1 = IRole r1 /\ rstep o rm (direct c) = Val (r1, a)).
    { destruct c; cbn [dstep direct rstep] in *.
      - unfold i_Add, fuel in Es. cbn [i_AddLink] in Es. destruct (rm_AddLink o rm a0 b ds) as [[r1 y]|]; cbn [obind] in *; [|discriminate].
        injection Es as <- <-. eauto.
      - unfold i_Del, fuel in Es. cbn [i_DeleteLink] in Es. destruct (rm_DeleteLink o rm a0 b ds) as [[r1 y]|]; cbn [obind] in *; [|discriminate].
        injection Es as <- <-. eauto.
      - unfold i_Has, fuel in Es. cbn [i_query] in Es. destruct (rm_HasLink o rm a0 b) as [[r1 y]|]; cbn [obind] in *; [|discriminate].
        injection Es as <- <-. eauto.
      - unfold i_Roles, fuel in Es. cbn [i_query] in Es. destruct (rm_GetRoles o rm a0) as [[r1 y]|]; cbn [obind] in *; [|discriminate].
        injection Es as <- <-. eauto.
      - unfold i_Users, fuel in Es. cbn [i_query] in Es. destruct (rm_GetUsers o rm a0) as [[r1 y]|]; cbn [obind] in *; [|discriminate].
        injection Es as <- <-. eauto.
      - injection Es as <- <-. eauto. }
    destruct G as [r1 [-> G]]. destruct (IH _ _ Ee) as [r2 [-> Hr]]. exists r2. split; [reflexivity|].
    cbn [direct_calls map fst snd rexec]. rewrite G. cbn [obind]. fold (direct_calls h). rewrite Hr. reflexivity.
Qed.

Lemma good_direct h : good_d h -> good (direct_calls h).
Proof. unfold good_d, good, direct_calls. rewrite Forall_map. apply Forall_impl. auto. Qed.
Lemma unflagged_direct h : ordinary h -> Forall (fun c => unflagged (snd c)) (direct_calls h).
Proof.
  unfold ordinary, direct_calls. rewrite Forall_map. apply Forall_impl. intros [o c] H. destruct c; cbn in *; auto;
  now apply is_redundant_unreserved.
Qed.

Lemma obind_val {A B} (x : outcome A) (f : A -> outcome B) y : obind x f = Val y -> exists v, x = Val v /\ f v = Val y.
Proof. destruct x as [v|]; cbn; [eauto|discriminate]. Qed.
Lemma add_dom n ord d a b ds x r : i_AddLink n ord (IDom d) a b ds = Val (x, r) -> exists d', x = IDom d'.
Proof.
  destruct n as [|n]; [discriminate|]. cbn [i_AddLink]. destruct (getDomain ds) as [dn sub]. intros H.
  apply obind_val in H as [[d1 r1] [_ H]]. apply obind_val in H as [[r2 b2] [_ H]].
  destruct (is_dpattern _ _); [|injection H as <- _; eauto].
  apply obind_val in H as [[d2 l2] [_ H]]. apply obind_val in H as [d3 [_ H]]. injection H as <- _. eauto.
Qed.
Lemma del_dom n ord d a b ds x r : i_DeleteLink n ord (IDom d) a b ds = Val (x, r) -> exists d', x = IDom d'.
Proof.
  destruct n as [|n]; [discriminate|]. cbn [i_DeleteLink]. destruct (getDomain ds) as [dn sub]. intros H.
  apply obind_val in H as [[d1 r1] [_ H]]. apply obind_val in H as [[r2 b2] [_ H]].
  destruct (is_dpattern _ _); [|injection H as <- _; eauto].
  apply obind_val in H as [[d2 l2] [_ H]]. apply obind_val in H as [d3 [_ H]]. injection H as <- _. eauto.
Qed.
Lemma query_dom {A} (ask : rolemgr -> outcome (rolemgr * A)) n ord d ds x r :
  i_query ask n ord (IDom d) ds = Val (x, r) -> exists d', x = IDom d'.
Proof.
  destruct n as [|n]; [discriminate|]. cbn [i_query]. destruct (getDomain ds) as [dn sub]. intros H.
  apply obind_val in H as [[d1 r1] [_ H]]. apply obind_val in H as [[r2 b2] [_ H]]. injection H as <- _. eauto.
Qed.
Lemma dexec_dom calls : forall d x xs, dexec (IDom d) calls = Val (x, xs) -> exists d', x = IDom d'.
Proof.
  induction calls as [|[o c] calls IH]; intros d x xs E; cbn [dexec] in E; [injection E as <- _; eauto|].
  apply obind_val in E as [[x1 a] [Es E]]. apply obind_val in E as [[x2 xs2] [Ee E]]. injection E as <- _.
  assert (exists d1, x1 = IDom d1) as [d1 ->]; [|eapply IH; exact Ee].
  destruct c; cbn [dstep] in Es; try (apply obind_val in Es as [[y z] [Es Ey]]; injection Ey as <- _).
  - eapply add_dom; exact Es.
  - eapply del_dom; exact Es.
  - eapply query_dom; exact Es.
  - eapply query_dom; exact Es.
  - eapply query_dom; exact Es.
  - injection Es as <- _. cbn. eauto.
Qed.

(** The links of a manager after a tame history, as rules. *)
Definition g_listing (ord : RbacM.order) (x : irm) : list rule := i_Range ord x (fun l r => (l ++ [r], true)) [].

Lemma g_listing_ok x0 calls ord x xs :
  (x0 = IRole (NewRoleManager 10) \/ x0 = IDom (NewDomainManager 10)) -> ordinary calls -> good_d calls -> good_order ord ->
  dexec x0 calls = Val (x, xs) ->
  NoDup (g_listing ord x) /\
  (forall r, In r (g_listing ord x) <-> exists a b ds, r = a :: b :: ds /\ linked (x0, calls) a b ds = true).
Proof.
  intros Hx Ho Hg Hord E. destruct Hx as [-> | ->].
  - apply dexec_role in E as [rm [-> E]]. cbn [linked fst snd].
    destruct (C03_links_set 10 (direct_calls calls) ord "" "" (good_direct _ Hg) Hord (unflagged_direct _ Ho)) as [rm' [ys [E' [_ [_ [N L]]]]]].
    rewrite E in E'. injection E' as <- _. change (g_listing ord (IRole rm)) with (listed ord rm). split; [exact N|].
    intros r. rewrite L. split.
    + intros [u [v [-> H]]]. exists u, v, []. auto.
    + intros [a [b [ds [-> H]]]]. destruct ds; [eauto|discriminate].
  - cbn [linked fst snd].
    destruct (domain_listing 10 calls ord Hg Ho Hord) as [x' [ys [E' [N L]]]].
    change (domains_with 10 None None) with (IDom (NewDomainManager 10)) in E'. rewrite E in E'. injection E' as <- _.
    assert (T : exists d, x = IDom d) by (eapply dexec_dom; exact E).
    destruct T as [d ->]. unfold g_listing. cbn [i_Range].
    rewrite (fold_left_ext (fun st '(a, b, ds) => fst (st ++ [a :: b :: ds], true)) (fun (st : list rule) (l : link) => st ++ [fst (fst l) :: snd (fst l) :: snd l])).
    2:{ intros st [[a b] ds]. reflexivity. }
    rewrite (fold_collect (fun l : link => fst (fst l) :: snd (fst l) :: snd l)). cbn [app]. split.
    + apply FinFun.Injective_map_NoDup; [|exact N]. intros [[a b] ds] [[a' b'] ds'] Q. cbn in Q. now injection Q as -> -> ->.
    + intros r. rewrite in_map_iff. split.
      * intros [[[a b] ds] [<- H]]. exists a, b, ds. split; [reflexivity|]. now apply L.
      * intros [a [b [ds [-> H]]]]. exists (a, b, ds). split; [reflexivity|]. now apply L.
Qed.

Lemma set_of_added h r : set_of h r = true -> In (PAdd r) h.
Proof.
  induction h as [|a h IH] using rev_ind; [discriminate|]. unfold set_of. rewrite fold_left_app. cbn [fold_left].
  fold (set_of h). rewrite in_app_iff. destruct a; cbn [set_step].
  - unfold set_add. intros H. apply orb_true_iff in H as [H|H]; [|auto].
    right. left. destruct (rule_eqb_spec r r0) as [->|]; [reflexivity|discriminate].
  - unfold set_remove. intros H. apply andb_true_iff in H as [_ H]. auto.
  - discriminate.
Qed.

Lemma NoDup_app2 {A} (l1 l2 : list A) : NoDup l1 -> NoDup l2 -> (forall x, In x l1 -> In x l2 -> False) -> NoDup (l1 ++ l2).
Proof.
  induction 1 as [|x l1 Hx N IH]; intros N2 D; [exact N2|]. cbn. constructor.
  - rewrite in_app_iff. intros [H|H]; [auto|]. apply (D x); [now left|exact H].
  - apply IH; [exact N2|]. intros y H1 H2. apply (D y); [now right|exact H2].
Qed.

(** The rules of one section. *)
Lemma p_rules_ok h o m g k i : good_orders o -> tame h -> Core m g -> Hist h m g -> p_key k -> mget k (md_pMap m) = Some i ->
  exists ops p ls, p_history k h = Some ops /\ nth_error (md_objs m) i = Some (mkObj (OPolicy p) ls) /\
    fst (pexec NewPolicy ops) = p /\ Forall (op_ok comma_free) ops /\
    NoDup (obj_rules o m i) /\ forall r, In r (obj_rules o m i) <-> set_of ops r = true.
Proof.
  intros [_ [Hr _]] T V W Hk Ei. destruct (v_p m g V k i Ei) as [_ [p [ls Eo]]].
  pose proof (v_phist h m g W k Hk) as Hh. rewrite Ei in Hh. cbn in Hh. symmetry in Hh.
  pose proof (p_tame h k _ T Hk Hh) as Hok.
  exists (g_ops g i), p, ls. split; [exact Hh|]. split; [exact Eo|]. split; [apply (v_obj m g V i p ls Eo)|]. split; [exact Hok|].
  assert (Eq : obj_rules o m i = o_rules o (mvals p)).
  { unfold obj_rules, obj_Range. rewrite Eo. cbn [o_body]. unfold Range. rewrite (range_vals_collect (fun r => r)). cbn. apply map_id. }
  pose proof (C01_policy_set (g_ops g i)) as Q.
  assert (Qr : forall r, comma_free r -> In r (mvals p) <-> set_of (g_ops g i) r = true).
  { intros r Hc. destruct (Q r Hok Hc) as [_ [_ [[_ H] _]]]. rewrite <- (v_obj m g V i p ls Eo). now apply H. }
  assert (NF : NoDup (mvals p) /\ Forall comma_free (mvals p)).
  { destruct (Q ["x"%string] Hok) as [_ [_ [[N _] F]]].
    - split; [discriminate|repeat constructor].
    - rewrite <- (v_obj m g V i p ls Eo). split; assumption. }
  destruct NF as [N F]. rewrite Eq. split; [eapply Permutation_NoDup; [symmetry; apply Hr|exact N]|].
  intros r. split; intros H.
  - apply Qr; [|apply (Permutation_in _ (Hr _)), H]. rewrite Forall_forall in F. apply F, (Permutation_in _ (Hr _)), H.
  - apply (Permutation_in _ (Permutation_sym (Hr _))), Qr; [|exact H]. apply set_of_added in H.
    rewrite Forall_forall in Hok. apply (Hok _ H).
Qed.

Lemma g_rules_ok h o m g k i : good_m h -> good_orders o -> tame h -> Core m g -> Hist h m g -> g_key k -> mget k (md_rpMap m) = Some i ->
  exists s rm ls x xs, g_history k h = Some s /\ nth_error (md_objs m) i = Some (mkObj (ORole rm) ls) /\
    nth_error (md_rms m) rm = Some x /\ dexec (fst s) (snd s) = Val (x, xs) /\
    (fst s = IRole (NewRoleManager 10) \/ fst s = IDom (NewDomainManager 10)) /\ ordinary (snd s) /\ good_d (snd s) /\
    NoDup (obj_rules o m i) /\
    forall r, In r (obj_rules o m i) <-> exists a b ds, r = a :: b :: ds /\ linked s a b ds = true.
Proof.
  intros Go [Hn _] T V W Hk Ei. pose proof (v_ghist h m g W k Hk) as Hg. rewrite Ei in Hg.
  destruct Hg as [rm [ls [Eo Hg]]]. pose proof (v_rmb m g V i rm ls Eo) as Hl.
  destruct (nth_error (md_rms m) rm) as [x|] eqn:Ex; [|apply nth_error_None in Ex; lia].
  destruct (v_rm m g V rm x Ex) as [xs Exs]. destruct (g_rh g rm) as [x0 calls].
  destruct (g_tame h k x0 calls T Go Hk Hg) as [A [B [C _]]]. cbn [fst snd] in *.
  exists (x0, calls), rm, ls, x, xs. cbn [fst snd]. repeat (split; [assumption|]).
  assert (Eq : obj_rules o m i = g_listing (o_names o) x).
  { unfold obj_rules, obj_Range. rewrite Eo. cbn [o_body]. now rewrite Ex. }
  rewrite Eq. exact (g_listing_ok x0 calls (o_names o) x xs A B C Hn Exs).
Qed.

Lemma model_listing E h o m rs : good_m h -> good_orders o -> tame h -> mexec E (NewModel E) h = Val (m, rs) ->
  NoDup (model_rules o m) /\ forall rl, In rl (model_rules o m) <-> present h rl.
Proof.
  intros Go Ho T H. destruct (reachable_ok E h m rs Go H) as [g [V W]].
  assert (G : gkeys m).
  { eapply gkeys_exec; [apply tame_no_rm, T| |exact H]. intros k i. discriminate. }
  assert (Pk : forall k i, mget k (md_pMap m) = Some i -> p_key k) by (intros k i Hi; apply (v_p m g V k i Hi)).
  rewrite model_rules_eq. split.
  - apply NoDup_app2.
    + apply (NoDup_section_rules o m _ Ho (proj1 (v_nd m g V))). intros k i Hi.
      destruct (p_rules_ok h o m g k i Ho T V W (Pk k i Hi) Hi) as [ops [p [ls [_ [_ [_ [_ [N _]]]]]]]]. exact N.
    + apply (NoDup_section_rules o m _ Ho (proj2 (v_nd m g V))). intros k i Hi.
      destruct (g_rules_ok h o m g k i Go Ho T V W (G k i Hi) Hi) as [s [rm [ls [x [xs [_ [_ [_ [_ [_ [_ [_ [N _]]]]]]]]]]]]]. exact N.
    + intros rl H1 H2. apply (in_section_rules o m _ rl Ho) in H1 as [k [r [i [-> [E1 _]]]]].
      apply (in_section_rules o m _ _ Ho) in H2 as [k2 [r2 [i2 [Eq [E2 _]]]]]. injection Eq as <- <-.
      exact (pg_key k (Pk k i E1) (G k i2 E2)).
  - intros rl. rewrite in_app_iff, !in_section_rules by exact Ho. split.
    + intros [[k [r [i [-> [Ei Hr]]]]]|[k [r [i [-> [Ei Hr]]]]]].
      * left. split; [exact (Pk k i Ei)|].
        destruct (p_rules_ok h o m g k i Ho T V W (Pk k i Ei) Ei) as [ops [p [ls [Eh [_ [_ [_ [_ L]]]]]]]].
        exists ops. split; [exact Eh|]. now apply L.
      * right. split; [exact (G k i Ei)|].
        destruct (g_rules_ok h o m g k i Go Ho T V W (G k i Ei) Ei) as [s [rm [ls [x [xs [Eh [_ [_ [_ [_ [_ [_ [_ L]]]]]]]]]]]]].
        apply L in Hr. destruct Hr as [a [b [ds [Er Hl]]]]. exists s, a, b, ds. auto.
    + destruct rl as [|k r]; [intros []|]. intros [[Hk [ops [Eh Hs]]]|[Hk [s [a [b [ds [Eh [-> Hl]]]]]]]].
      * left. pose proof (v_phist h m g W k Hk) as Hh. destruct (mget k (md_pMap m)) as [i|] eqn:Ei; [|cbn in Hh; congruence].
        destruct (p_rules_ok h o m g k i Ho T V W Hk Ei) as [ops' [p [ls [Eh' [_ [_ [_ [_ L]]]]]]]].
        rewrite Eh in Eh'. injection Eh' as <-. exists k, r, i. split; [reflexivity|]. split; [exact Ei|]. now apply L.
      * right. pose proof (v_ghist h m g W k Hk) as Hh. destruct (mget k (md_rpMap m)) as [i|] eqn:Ei; [|congruence].
        destruct (g_rules_ok h o m g k i Go Ho T V W Hk Ei) as [s' [rm [ls [x [xs [Eh' [_ [_ [_ [_ [_ [_ [_ L]]]]]]]]]]]]].
        rewrite Eh in Eh'. injection Eh' as <-. exists k, (a :: b :: ds), i. split; [reflexivity|]. split; [exact Ei|].
        apply L. eauto.
Qed.

(** Results of AddRule and RemoveRule. *)
Lemma act_p_result o m i a m' b p ls : nth_error (md_objs m) i = Some (mkObj (OPolicy p) ls) ->
  act o m i a = Val (m', b) -> b = snd (fst (pstep p a)).
Proof.
  intros Eo H. unfold act in H. rewrite Eo in H. cbn [o_body o_listeners] in H.
  destruct (pstep p a) as [[p' b'] es]. apply obind_val in H as [ms [_ H]]. now injection H as _ <-.
Qed.
Lemma act_r_result o m i a m' b rm ls x : nth_error (md_objs m) i = Some (mkObj (ORole rm) ls) -> nth_error (md_rms m) rm = Some x ->
  act o m i a = Val (m', b) -> exists x' es, act_role (o_names o) x a = Val (x', b, es).
Proof.
  intros Eo Ex H. unfold act in H. rewrite Eo in H. cbn [o_body o_listeners] in H. rewrite Ex in H.
  apply obind_val in H as [[[x' b'] es] [E H]]. apply obind_val in H as [ms [_ H]]. injection H as _ <-. eauto.
Qed.

Definition kept (x : irm) (ds : list string) : list string := match x with IRole _ => [] | IDom _ => ds end.
Lemma role_result s ord x xs a b ds :
  (fst s = IRole (NewRoleManager 10) \/ fst s = IDom (NewDomainManager 10)) -> ordinary (snd s) -> good_d (snd s) -> good_order ord ->
  unreserved ds -> dexec (fst s) (snd s) = Val (x, xs) ->
  (exists x', i_Add ord x a b ds = Val (x', negb (linked s a b (kept (fst s) ds)))) /\
  (exists x', i_Del ord x a b ds = Val (x', linked s a b (kept (fst s) ds))).
Proof.
  destruct s as [x0 calls]. cbn [fst snd]. intros [-> | ->] Hor Hg Ho Hd E; cbn [linked kept fst snd].
  - apply dexec_role in E as [rm [-> E]].
    destruct (reached 10 (direct_calls calls) (good_direct _ Hg)) as [rm' [ys [E' [Hh [Em _]]]]].
    rewrite E in E'. injection E' as <- _.
    assert (HA : allowed (rm_matcher rm) (fun _ => True)) by (rewrite Em; apply all_allowed).
    split.
    + destruct (holds_step _ rm _ _ ord (RAdd a b ds) HA Ho Hh (fun _ _ => I)) as [rm' [y [Es [_ [_ [_ [Ha _]]]]]]].
      cbn [rstep] in Es. apply obind_val in Es as [[rm1 z] [Es E2]]. injection E2 as <- <-.
      specialize (Ha a b ds eq_refl). injection Ha as ->. exists (IRole rm1). unfold i_Add, fuel. cbn [i_AddLink]. rewrite Es. reflexivity.
    + destruct (holds_step _ rm _ _ ord (RDel a b ds) HA Ho Hh (fun _ _ => I)) as [rm' [y [Es [_ [_ [_ [_ Ha]]]]]]].
      cbn [rstep] in Es. apply obind_val in Es as [[rm1 z] [Es E2]]. injection E2 as <- <-.
      specialize (Ha a b ds eq_refl). injection Ha as ->. exists (IRole rm1). unfold i_Del, fuel. cbn [i_DeleteLink]. rewrite Es. reflexivity.
  - destruct (C03_domain_links_set 10 calls ord a b ds Hg Hor Ho Hd) as [x' [ys [E' [A [B _]]]]].
    change (domains_with 10 None None) with (IDom (NewDomainManager 10)) in E'. rewrite E in E'. injection E' as <- _. auto.
Qed.

(** ** Results of AddRule and RemoveRule, for any rule with a section key *)
Definition section_error (k : string) : goerr :=
  match first_byte k with Some "g"%char => ErrRMNotFound | _ => ErrPolicyNotFound end.
