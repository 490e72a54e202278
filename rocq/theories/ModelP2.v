(** Invariants of the model: rules and matchers. *)
From Verif Require Import GoBase GoBaseP DefsM PolicyM PolicySpec PolicyP MatcherDefM MatcherM MatcherSpec MatcherP MatcherP2
  RbacM RbacSpec DomainM ModelM ModelSpec ModelP.
Local Notation pstep := PolicyM.pstep.

Definition same_maps (m m' : model) : Prop :=
  md_pMap m' = md_pMap m /\ md_rpMap m' = md_rpMap m /\ md_mMap m' = md_mMap m /\
  md_r m' = md_r m /\ md_p m' = md_p m /\ md_g m' = md_g m /\ md_e m' = md_e m /\ md_m m' = md_m m /\
  md_eMap m' = md_eMap m /\ md_fm m' = md_fm m.

Lemma core_act_p o m g i p ls a m' b : Core m g ->
  nth_error (md_objs m) i = Some (mkObj (OPolicy p) ls) -> act o m i a = Val (m', b) ->
  Core m' (mkG (upd (g_ops g) i (g_ops g i ++ [a])) (g_mb g) (g_rh g)) /\ same_maps m m' /\
  md_rms m' = md_rms m /\ md_objs m' = set_nth (md_objs m) i (mkObj (OPolicy (fst (fst (pstep p a)))) ls) /\
  b = snd (fst (pstep p a)).
Proof.
  intros V Hi H. unfold act in H. rewrite Hi in H. cbn [o_body o_listeners] in H.
  destruct (pstep p a) as [[p' b'] es] eqn:Es.
  destruct (notify_all (md_mats m) ls es) as [ms|] eqn:En; cbn in H; [|discriminate]. injection H as <- <-.
  cbn [fst snd]. split; [|split; [repeat split|repeat split]].
  destruct V as [Vp Vpi Vr Vri Vrm Vo Vx Vb Vl Vm Vn Vmm].
  destruct (Vl _ _ _ Hi) as [Nd Hls]. destruct (notify_all_ok _ _ _ _ Nd En) as [Lm [Out Ins]].
  pose proof (nth_lt _ _ _ Hi) as Li.
  constructor; cbn [md_pMap md_rpMap md_objs md_rms md_mats md_mMap set_mats set_objs g_ops g_mb g_rh]; try assumption.
  - intros k j H. destruct (Vp _ _ H) as [X [q [l E]]]. split; [exact X|]. rewrite nth_set_nth by exact Li.
    destruct (Nat.eqb j i); eauto.
  - intros k j H. destruct (Vr _ _ H) as [rm [l E]]. rewrite nth_set_nth by exact Li.
    destruct (Nat.eqb_spec j i) as [->|]; [congruence|eauto].
  - intros i1 i2 rm l1 l2. rewrite !nth_set_nth by exact Li.
    destruct (Nat.eqb i1 i), (Nat.eqb i2 i); try discriminate. apply Vrm.
  - intros i1 q l. rewrite nth_set_nth by exact Li. destruct (Nat.eqb_spec i1 i) as [->|Hne].
    + intros H. injection H as <- <-. rewrite upd_same, pexec_fst_snoc, (Vo _ _ _ Hi), Es. reflexivity.
    + rewrite upd_other by exact Hne. apply Vo.
  - intros i1 rm l. rewrite nth_set_nth by exact Li. destruct (Nat.eqb i1 i); [discriminate|apply Vb].
  - intros i1 bo l. rewrite nth_set_nth by exact Li. rewrite Lm. destruct (Nat.eqb_spec i1 i) as [->|Hne]; [|apply Vl].
    intros H. injection H as <- <-. split; assumption.
  - intros j x Hx. destruct (in_dec Nat.eq_dec j ls) as [Hin|Hout].
    + assert (Hj : j < List.length (md_mats m)) by (apply Hls; exact Hin).
      destruct (nth_error (md_mats m) j) as [y|] eqn:Ey; [|apply nth_error_None in Ey; lia].
      destruct (Ins _ _ Hin Ey) as [x' [E1 E2]]. rewrite Hx in E1. injection E1 as <-.
      destruct (Vm _ _ Ey) as [bo [l [A [B C]]]]. rewrite (proj1 (Hls _ Hin)) in *. rewrite Hi in A. injection A as <- <-.
      exists (OPolicy p'), ls. rewrite nth_set_nth, Nat.eqb_refl by exact Li. split; [reflexivity|]. split; [exact B|].
      intros q _. rewrite upd_same. destruct (C p eq_refl) as [Le Lv]. rewrite app_length. cbn. split; [lia|].
      rewrite firstn_app, skipn_app. replace (snd (g_mb g j) - List.length (g_ops g i)) with 0 by lia.
      cbn [firstn skipn]. rewrite app_nil_r. destruct (m_events_def _ _ _ E2) as [-> ->].
      eapply lives_snoc with (p := p) (b := b') (es := es); [exact Lv| | |exact E2].
      * rewrite firstn_skipn. now apply Vo with ls.
      * rewrite Es. reflexivity.
    + rewrite Out in Hx by exact Hout. destruct (Vm _ _ Hx) as [bo [l [A [B C]]]].
      assert (Hne : fst (g_mb g j) <> i). { intros Heq. rewrite Heq, Hi in A. injection A as <- <-. contradiction. }
      exists bo, l. rewrite nth_set_nth by exact Li. destruct (Nat.eqb_spec (fst (g_mb g j)) i); [contradiction|].
      split; [exact A|]. split; [exact B|]. intros q Hq. rewrite upd_other by exact Hne. now apply C with q.
  - intros k j H. rewrite Lm. eauto.
Qed.

(** The call on a manager. *)
Definition d_call (a : pop) : option dcall :=
  match a with
  | PAdd (x :: y :: ds) => Some (DAdd x y ds)
  | PRemove (x :: y :: ds) => Some (DDel x y ds)
  | PClear => Some DClear
  | _ => None
  end.

Lemma act_role_step ord x a x' b es : act_role ord x a = Val (x', b, es) ->
  exists c an, d_call a = Some c /\ dstep ord x c = Val (x', an) /\ (an = ABool b \/ c = DClear).
Proof.
  destruct a as [[|n1 [|n2 ds]]|[|n1 [|n2 ds]]|]; cbn [act_role]; try discriminate; intros H.
  - destruct (i_Add ord x n1 n2 ds) as [[y c]|] eqn:E; cbn [obind] in H; [|discriminate]. injection H as <- <- ?.
    eexists _, _. split; [reflexivity|]. cbn [dstep]. rewrite E. split; [reflexivity|now left].
  - destruct (i_Del ord x n1 n2 ds) as [[y c]|] eqn:E; cbn [obind] in H; [|discriminate]. injection H as <- <- ?.
    eexists _, _. split; [reflexivity|]. cbn [dstep]. rewrite E. split; [reflexivity|now left].
  - injection H as <- <- ?. eexists _, _. split; [reflexivity|]. cbn [dstep]. split; [reflexivity|now right].
Qed.

Lemma dexec_snoc h ord c : forall x y xs, dexec x h = Val (y, xs) -> forall z an, dstep ord y c = Val (z, an) ->
  dexec x (h ++ [(ord, c)]) = Val (z, xs ++ [an]).
Proof.
  induction h as [|[o1 c1] h IH]; intros x y xs H z an Hs; cbn in *.
  - injection H as <- <-. rewrite Hs. reflexivity.
  - destruct (dstep o1 x c1) as [[x1 a1]|]; cbn in *; [|discriminate].
    destruct (dexec x1 h) as [[x2 as2]|] eqn:E; cbn in *; [|discriminate]. injection H as <- <-.
    rewrite (IH _ _ _ E _ _ Hs). reflexivity.
Qed.

Lemma core_act_r o m g i rm ls a m' b : Core m g ->
  nth_error (md_objs m) i = Some (mkObj (ORole rm) ls) -> act o m i a = Val (m', b) ->
  exists c, d_call a = Some c /\
  Core m' (mkG (g_ops g) (g_mb g) (upd (g_rh g) rm (fst (g_rh g rm), snd (g_rh g rm) ++ [(o_names o, c)]))) /\
  same_maps m m' /\ md_objs m' = md_objs m.
Proof.
  intros V Hi H. unfold act in H. rewrite Hi in H. cbn [o_body o_listeners] in H.
  destruct (nth_error (md_rms m) rm) as [x|] eqn:Ex; [|discriminate].
  destruct (act_role (o_names o) x a) as [[[x' b'] es]|] eqn:Ea; cbn in H; [|discriminate].
  destruct (notify_all (md_mats m) ls es) as [ms|] eqn:En; cbn in H; [|discriminate]. injection H as <- <-.
  destruct (act_role_step _ _ _ _ _ _ Ea) as [c [an [Ec [Es _]]]]. exists c. split; [exact Ec|].
  split; [|split; [repeat split|reflexivity]].
  destruct V as [Vp Vpi Vr Vri Vrm Vo Vx Vb Vl Vm Vn Vmm].
  destruct (Vl _ _ _ Hi) as [Nd Hls]. destruct (notify_all_ok _ _ _ _ Nd En) as [Lm [Out Ins]].
  pose proof (nth_lt _ _ _ Ex) as Lx.
  constructor; cbn [md_pMap md_rpMap md_objs md_rms md_mats md_mMap set_mats set_rms g_ops g_mb g_rh]; try assumption.
  - intros r y. rewrite nth_set_nth by exact Lx. destruct (Nat.eqb_spec r rm) as [->|Hne].
    + intros H. injection H as <-. rewrite upd_same. cbn [fst snd]. destruct (Vx _ _ Ex) as [xs Hxs].
      exists (xs ++ [an]). eapply dexec_snoc; eauto.
    + rewrite upd_other by exact Hne. apply Vx.
  - intros i1 r l H. rewrite set_nth_length. eauto.
  - intros i1 bo l H. rewrite Lm. now apply Vl with bo.
  - intros j y Hy. destruct (in_dec Nat.eq_dec j ls) as [Hin|Hout].
    + destruct (Hls _ Hin) as [Hf Hj].
      destruct (nth_error (md_mats m) j) as [z|] eqn:Ez; [|apply nth_error_None in Ez; lia].
      destruct (Vm _ _ Ez) as [bo [l [A [B C]]]]. exists bo, l. split; [exact A|]. split; [exact B|].
      intros p ->. rewrite Hf, Hi in A. discriminate.
    + rewrite Out in Hy by exact Hout. apply (Vm _ _ Hy).
  - intros k j H. rewrite Lm. eauto.
Qed.

(** Ranging over a policy object. *)
Lemma range_collect l acc :
  range_vals (fun (a : list rule) r => (a ++ [r], true)) acc l = (acc ++ l, true).
Proof.
  revert acc. induction l as [|r l IH]; intros acc; cbn; [now rewrite app_nil_r|].
  rewrite IH, <- app_assoc. reflexivity.
Qed.
Lemma obj_rules_policy o m i p ls : nth_error (md_objs m) i = Some (mkObj (OPolicy p) ls) ->
  obj_rules o m i = o_rules o (mvals p).
Proof. intros H. unfold obj_rules, obj_Range, Range. rewrite H. cbn. now rewrite range_collect. Qed.

Lemma NewMatcher_def d l s x : NewMatcher d l s = Val x -> m_def x = d /\ m_tree x = s.
Proof. unfold NewMatcher. intros H. apply m_events_def in H as [-> ->]. auto. Qed.

(** Building a matcher. *)
Lemma core_build E o m g expr m' r : good_orders o -> Core m g ->
  BuildMatcherFromDef E o m expr = Val (m', r) ->
  same_maps m m' /\ md_rms m' = md_rms m /\
  (forall i ob, nth_error (md_objs m) i = Some ob ->
     exists ls', nth_error (md_objs m') i = Some (mkObj (o_body ob) ls')) /\
  (forall i ob, nth_error (md_objs m') i = Some ob ->
     exists ls', nth_error (md_objs m) i = Some (mkObj (o_body ob) ls')) /\
  (forall j x, nth_error (md_mats m) j = Some x -> nth_error (md_mats m') j = Some x) /\
  match r with
  | inr e => m' = m
  | inl j => exists root i d x,
      j = List.length (md_mats m) /\ List.length (md_mats m') = S j /\
      Build (e_grow E) (e_parse E (mkeys (md_fm m))) expr = inl root /\
      GetPolicy m (GetPolicyKey root) = Some i /\
      (p_key (GetPolicyKey root) -> mget (GetPolicyKey root) (md_p m) = Some d) /\
      (~ p_key (GetPolicyKey root) -> d = NewPolicyDef (GetPolicyKey root) "user, role, domain") /\
      NewMatcher d (obj_rules o m i) root = Val x /\ nth_error (md_mats m') j = Some x /\
      m_def x = d /\ m_tree x = root /\
      Core m' (mkG (g_ops g) (upd (g_mb g) j (i, List.length (g_ops g i))) (g_rh g))
  end.
Proof.
  intros [Go1 [Go2 Go3]] V H. unfold BuildMatcherFromDef in H.
  destruct (Build _ _ expr) as [root|e] eqn:Eb.
  2:{ injection H as <- <-. repeat split; eauto; intros i [b l] Hi; exists l; exact Hi. }
  destruct (first_byte (GetPolicyKey root)) as [c|] eqn:Ec; [|discriminate].
  set (pd := if Ascii.eqb c "p" then mget (GetPolicyKey root) (md_p m) else _) in H.
  destruct pd as [d|] eqn:Epd.
  2:{ injection H as <- <-. repeat split; eauto; intros i [b l] Hi; exists l; exact Hi. }
  destruct (GetPolicy m (GetPolicyKey root)) as [i|] eqn:Ei.
  2:{ injection H as <- <-. repeat split; eauto; intros i [b l] Hi; exists l; exact Hi. }
  destruct (nth_error (md_objs m) i) as [[bo ls]|] eqn:Eo; [|discriminate]. cbn [o_body o_listeners] in H.
  destruct (NewMatcher d (obj_rules o m i) root) as [x|] eqn:Ex; cbn in H; [|discriminate]. injection H as <- <-.
  pose proof (nth_lt _ _ _ Eo) as Li. set (j := List.length (md_mats m)).
  split; [repeat split|]. split; [reflexivity|].
  cbn [md_objs md_mats set_mats set_objs].
  split; [|split; [|split]].
  - intros i1 [b1 l1] H1. cbn. rewrite nth_set_nth by exact Li. destruct (Nat.eqb_spec i1 i) as [->|]; [|eauto].
    rewrite Eo in H1. injection H1 as <- <-. eauto.
  - intros i1 [b1 l1]. cbn. rewrite nth_set_nth by exact Li. destruct (Nat.eqb_spec i1 i) as [->|]; [|eauto].
    intros H1. injection H1 as <- <-. eauto.
  - intros j1 y Hy. rewrite nth_snoc. destruct (Nat.eqb_spec j1 (List.length (md_mats m))) as [->|]; [|exact Hy].
    apply nth_lt in Hy. lia.
  - exists root, i, d, x. split; [reflexivity|]. split; [rewrite app_length; cbn; lia|]. split; [reflexivity|]. split; [exact Ei|].
    split.
    { intros Hp. unfold p_key in Hp. rewrite Ec in Hp. injection Hp as ->. exact Epd. }
    split.
    { intros Hp. unfold p_key in Hp. rewrite Ec in Hp. unfold pd in Epd. destruct (Ascii.eqb_spec c "p") as [->|]; [congruence|].
      destruct (Ascii.eqb c "g"); congruence. }
    split; [exact Ex|]. rewrite nth_snoc. fold j. rewrite Nat.eqb_refl. split; [reflexivity|].
    destruct (NewMatcher_def _ _ _ _ Ex) as [Xd Xs]. split; [exact Xd|]. split; [exact Xs|].
    destruct V as [Vp Vpi Vr Vri Vrm Vo Vx Vb Vl Vm Vn Vmm].
    constructor; cbn [md_pMap md_rpMap md_objs md_rms md_mats md_mMap set_mats set_objs g_ops g_mb g_rh]; try assumption.
    + intros k i1 H1. destruct (Vp _ _ H1) as [X [p [l E1]]]. split; [exact X|]. rewrite nth_set_nth by exact Li.
      destruct (Nat.eqb_spec i1 i) as [->|]; [|eauto]. rewrite Eo in E1. injection E1 as -> ->. eauto.
    + intros k i1 H1. destruct (Vr _ _ H1) as [rm [l E1]]. rewrite nth_set_nth by exact Li.
      destruct (Nat.eqb_spec i1 i) as [->|]; [|eauto]. rewrite Eo in E1. injection E1 as -> ->. eauto.
    + intros i1 i2 rm l1 l2. rewrite !nth_set_nth by exact Li.
      destruct (Nat.eqb_spec i1 i) as [->|], (Nat.eqb_spec i2 i) as [->|]; intros A B; auto.
      * injection A as -> <-. eapply Vrm; eauto.
      * injection B as -> <-. eapply Vrm; eauto.
      * eapply Vrm; eauto.
    + intros i1 p l. rewrite nth_set_nth by exact Li. destruct (Nat.eqb_spec i1 i) as [->|]; [|apply Vo].
      intros A. injection A as -> <-. eapply Vo; eauto.
    + intros i1 rm l. rewrite nth_set_nth by exact Li. destruct (Nat.eqb_spec i1 i) as [->|]; [|apply Vb].
      intros A. injection A as -> <-. eapply Vb; eauto.
    + intros i1 b1 l1. rewrite nth_set_nth by exact Li. rewrite app_length. cbn.
      destruct (Nat.eqb_spec i1 i) as [->|Hne].
      * intros A. injection A as <- <-. destruct (Vl _ _ _ Eo) as [N L]. split.
        -- apply (Permutation_NoDup (Permutation_cons_append ls j)). constructor; [|exact N].
           intros C. apply L in C. unfold j in C. lia.
        -- intros j1 [Hj|[<-|[]]]%in_app_or.
           ++ destruct (L _ Hj). fold j. rewrite upd_other by (unfold j; lia). split; [assumption|]. unfold j. lia.
           ++ fold j. rewrite upd_same. split; [reflexivity|]. unfold j. lia.
      * intros A. destruct (Vl _ _ _ A) as [N L]. split; [exact N|]. intros j1 Hj. destruct (L _ Hj).
        rewrite upd_other by (unfold j; lia). split; [assumption|lia].
    + intros j1 y. rewrite nth_snoc. fold j. destruct (Nat.eqb_spec j1 j) as [->|Hne].
      * intros A. injection A as <-. rewrite upd_same. cbn [fst snd]. exists bo, (ls ++ [j]).
        rewrite nth_set_nth, Nat.eqb_refl by exact Li. split; [reflexivity|]. split; [apply in_or_app; right; now left|].
        intros p ->. split; [lia|]. rewrite firstn_all, skipn_all. rewrite Xd, Xs.
        destruct (pexec [] (g_ops g i)) as [p1 es1] eqn:Ep.
        pose proof (Vo _ _ _ Eo) as Hp. rewrite Ep in Hp. cbn in Hp. subst p1.
        eapply lives_now; [exact Ep| |exact Ex]. rewrite (obj_rules_policy o m i p ls Eo). apply Go2.
      * intros A. rewrite upd_other by exact Hne. destruct (Vm _ _ A) as [b1 [l1 [B [C D]]]].
        rewrite nth_set_nth by exact Li. destruct (Nat.eqb_spec (fst (g_mb g j1)) i) as [Heq|Hni].
        -- rewrite Heq, Eo in B. injection B as <- <-. exists bo, (ls ++ [j]). split; [reflexivity|].
           split; [apply in_or_app; now left|exact D].
        -- exists b1, l1. auto.
    + intros k j1 A. rewrite app_length. cbn. apply Vmm in A. lia.
Qed.
