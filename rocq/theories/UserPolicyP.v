(** Lemmas on user-written policies. *)
From Verif Require Import GoBase GoBaseP DefsM PolicyM PolicySpec PolicyP MatcherDefM MatcherM MatcherSpec
  RbacM RbacSpec DomainM DomainSpec EvalM ModelM ModelSpec ModelP ModelP2 ModelP3 ModelP4 ModelP5 ModelP6 Prop_Model Prop_ModelDefs
  EnforcerM EnforcerSpec SettersM SettersSpec Prop_Setters UserPolicyM UserPolicySpec.
Local Notation pstep := PolicyM.pstep.

(** ** The bodies of policy objects *)
Definition body (m : model) (j : nat) : option pbody := option_map o_body (nth_error (md_objs m) j).

(** The object a rule call reaches. *)
Definition target (m : model) (c : mcall) : option nat :=
  match c with
  | CAdd (k :: _) | CRemove (k :: _) =>
      match first_byte k with
      | Some a => if Ascii.eqb a "p" then mget k (md_pMap m) else if Ascii.eqb a "g" then mget k (md_rpMap m) else None
      | None => None
      end
  | CClear k => GetPolicy m k
  | _ => None
  end.

Lemma body_lt m j b : body m j = Some b -> j < List.length (md_objs m).
Proof. unfold body. destruct (nth_error (md_objs m) j) eqn:E; [|discriminate]. intros _. exact (nth_lt _ _ _ E). Qed.
Lemma body_new m b0 j b : body m j = Some b -> body (fst (new_obj m b0)) j = Some b.
Proof.
  intros H. pose proof (body_lt _ _ _ H) as L. unfold body, new_obj in *. cbn [fst md_objs set_objs].
  rewrite nth_error_app1 by exact L. exact H.
Qed.
Lemma body_act o m i a m' x j : act o m i a = Val (m', x) -> j <> i -> body m' j = body m j.
Proof.
  unfold act. intros H Hne. destruct (nth_error (md_objs m) i) as [ob|] eqn:Ei; [|discriminate]. destruct (o_body ob) as [p|rm].
  - destruct (pstep p a) as [[p' b] es]. apply obind_val in H as [ms [_ H]]. injection H as <- <-.
    unfold body. cbn [md_objs set_mats set_objs]. rewrite nth_set_nth by exact (nth_lt _ _ _ Ei).
    destruct (Nat.eqb_spec j i); [contradiction|reflexivity].
  - destruct (nth_error (md_rms m) rm); [|discriminate]. apply obind_val in H as [[[x' b] es] [_ H]].
    apply obind_val in H as [ms [_ H]]. injection H as <- <-. reflexivity.
Qed.
Lemma len_act o m i a m' x : act o m i a = Val (m', x) -> List.length (md_objs m') = List.length (md_objs m) /\ same_maps m m'.
Proof.
  unfold act. intros H. destruct (nth_error (md_objs m) i) as [ob|] eqn:Ei; [|discriminate]. destruct (o_body ob) as [p|rm].
  - destruct (pstep p a) as [[p' b] es]. apply obind_val in H as [ms [_ H]]. injection H as <- <-.
    cbn [md_objs set_mats set_objs]. rewrite set_nth_length. split; [reflexivity|repeat split].
  - destruct (nth_error (md_rms m) rm); [|discriminate]. apply obind_val in H as [[[x' b] es] [_ H]].
    apply obind_val in H as [ms [_ H]]. injection H as <- <-. split; [reflexivity|repeat split].
Qed.

Lemma adhoc_keeps E o m expr m' r : BuildMatcherFromDef E o m expr = Val (m', r) ->
  (forall j, body m' j = body m j) /\ List.length (md_objs m') = List.length (md_objs m) /\
  md_pMap m' = md_pMap m /\ md_rpMap m' = md_rpMap m.
Proof.
  unfold BuildMatcherFromDef. destruct (Build (e_grow E) (e_parse E (mkeys (md_fm m))) expr) as [root|e]; [|intros [= <- _]; auto].
  destruct (first_byte (GetPolicyKey root)) as [c|]; [|discriminate]. cbv zeta.
  match goal with |- context [match ?d with Some _ => _ | None => _ end] => destruct d as [d0|]; [|intros [= <- _]; auto] end.
  destruct (GetPolicy m (GetPolicyKey root)) as [i|]; [|intros [= <- _]; auto].
  destruct (nth_error (md_objs m) i) as [ob|] eqn:Ei; [|discriminate]. intros H. apply obind_val in H as [x [_ H]]. injection H as <- _.
  cbn [md_objs md_pMap md_rpMap set_mats set_objs]. split; [|rewrite set_nth_length; auto].
  intros j. unfold body. cbn [md_objs set_mats set_objs]. rewrite nth_set_nth by exact (nth_lt _ _ _ Ei).
  destruct (Nat.eqb_spec j i) as [->|]; [|reflexivity]. rewrite Ei. reflexivity.
Qed.
Lemma build_keeps E o m key m' e : BuildMatcher E o m key = Val (m', e) ->
  (forall j, body m' j = body m j) /\ List.length (md_objs m') = List.length (md_objs m) /\
  md_pMap m' = md_pMap m /\ md_rpMap m' = md_rpMap m.
Proof.
  unfold BuildMatcher. destruct (mget key (md_m m)) as [expr|]; [|intros [= <- _]; auto]. intros H.
  apply obind_val in H as [[m1 r] [Hb H]]. pose proof (adhoc_keeps _ _ _ _ _ _ Hb) as K.
  destruct r as [j|e']; injection H as <- _; exact K.
Qed.
Lemma loop_keeps E o keys : forall m m' e, build_loop E o m keys = Val (m', e) ->
  (forall j, body m' j = body m j) /\ List.length (md_objs m') = List.length (md_objs m) /\
  md_pMap m' = md_pMap m /\ md_rpMap m' = md_rpMap m.
Proof.
  induction keys as [|key keys IH]; intros m m' e H; cbn [build_loop] in H; [injection H as <- _; auto|].
  apply obind_val in H as [[m1 e1] [Hb H]]. destruct (build_keeps _ _ _ _ _ _ Hb) as (A & B & C & D).
  destruct e1 as [e1|]; [injection H as <- _; auto|]. destruct (IH _ _ _ H) as (A' & B' & C' & D').
  split; [intros j; rewrite A'; apply A|]. split; [congruence|]. split; congruence.
Qed.

(** A call changes the body of no policy object but the one it reaches. *)
Lemma step_body E o m c m' x j b : mstep E o m c = Val (m', x) -> body m j = Some b -> target m c <> Some j -> body m' j = Some b.
Proof.
  intros H Hb Ht. destruct c as [s k v|s k|rl|rl|k| |k|expr|k y|n f|n]; cbn [mstep] in H.
  - apply obind_val in H as [[m1 e] [Hd H]]. injection H as <- _. unfold SetDef in Hd.
    destruct (keyPrefix s) as [c|]; [|injection Hd as <- _; exact Hb]. destruct (first_byte k) as [c'|]; [|discriminate].
    destruct (Ascii.eqb c' c); [|injection Hd as <- _; exact Hb]. injection Hd as <- _.
    destruct s; try exact Hb; [exact (body_new (set_p m _) _ _ _ Hb)|].
    unfold addRoleDef, SetRoleManager. exact (body_new (set_rms (set_g m _) _) _ _ _ Hb).
  - destruct (RemoveDef m s k) as [m1 e] eqn:Hd. injection H as <- _. unfold RemoveDef in Hd. destruct s; injection Hd as <- _; exact Hb.
  - destruct rl as [|k r]; [discriminate|]. cbn [target] in Ht. unfold model_AddRule in H.
    destruct (first_byte k) as [a|]; [|discriminate]. destruct (Ascii.eqb a "p"); [|destruct (Ascii.eqb a "g")].
    + destruct (mget k (md_pMap m)) as [i|]; [|injection H as <- _; exact Hb]. rewrite <- Hb.
      apply obind_val in H as [[[[m1 ?] ?] ?] [Ha H]]. apply obind_val in Ha as [[m2 b2] [Ha H2]]. injection H2 as -> <- <- <-. injection H as <- _.
      eapply body_act; [exact Ha|congruence].
    + destruct (mget k (md_rpMap m)) as [i|]; [|injection H as <- _; exact Hb]. rewrite <- Hb.
      apply obind_val in H as [[[[m1 ?] ?] ?] [Ha H]]. apply obind_val in Ha as [[m2 b2] [Ha H2]]. injection H2 as -> <- <- <-. injection H as <- _.
      eapply body_act; [exact Ha|congruence].
    + injection H as <- _. exact Hb.
  - destruct rl as [|k r]; [discriminate|]. cbn [target] in Ht. unfold model_RemoveRule in H.
    destruct (first_byte k) as [a|]; [|discriminate]. destruct (Ascii.eqb a "p"); [|destruct (Ascii.eqb a "g")].
    + destruct (mget k (md_pMap m)) as [i|]; [|injection H as <- _; exact Hb]. rewrite <- Hb.
      apply obind_val in H as [[[[m1 ?] ?] ?] [Ha H]]. apply obind_val in Ha as [[m2 b2] [Ha H2]]. injection H2 as -> <- <- <-. injection H as <- _.
      eapply body_act; [exact Ha|congruence].
    + destruct (mget k (md_rpMap m)) as [i|]; [|injection H as <- _; exact Hb]. rewrite <- Hb.
      apply obind_val in H as [[[[m1 ?] ?] ?] [Ha H]]. apply obind_val in Ha as [[m2 b2] [Ha H2]]. injection H2 as -> <- <- <-. injection H as <- _.
      eapply body_act; [exact Ha|congruence].
    + injection H as <- _. exact Hb.
  - apply obind_val in H as [[m1 e] [Hc H]]. injection H as <- _. cbn [target] in Ht. unfold ClearPolicy in Hc.
    destruct (GetPolicy m k) as [i|]; [|injection Hc as <- _; exact Hb]. apply obind_val in Hc as [[m2 b2] [Ha Hc]]. injection Hc as <- _.
    rewrite <- Hb. eapply body_act; [exact Ha|congruence].
  - apply obind_val in H as [[m1 e] [Hc H]]. injection H as <- _. destruct (loop_keeps _ _ _ _ _ _ Hc) as [A _]. now rewrite A.
  - apply obind_val in H as [[m1 e] [Hc H]]. injection H as <- _. destruct (build_keeps _ _ _ _ _ _ Hc) as [A _]. now rewrite A.
  - apply obind_val in H as [[m1 e] [Hc H]]. injection H as <- _. destruct (adhoc_keeps _ _ _ _ _ _ Hc) as [A _]. now rewrite A.
  - injection H as <- _. exact (body_new (set_rms m _) _ _ _ Hb).
  - injection H as <- _. exact Hb.
  - destruct (RemoveFunction m n) as [m1 b1] eqn:Hr. injection H as <- _. injection Hr as <- _. exact Hb.
Qed.

(** The role policies. *)
Definition low (m : model) : Prop := forall k i, mget k (md_rpMap m) = Some i -> i < List.length (md_objs m).
(** [m'] has the role policies of [m] and maybe new objects. *)
Lemma step_rp E o m c m' x : mstep E o m c = Val (m', x) ->
  List.length (md_objs m) <= List.length (md_objs m') /\
  forall k i, mget k (md_rpMap m') = Some i -> mget k (md_rpMap m) = Some i \/ (i = List.length (md_objs m) /\ i < List.length (md_objs m') /\ (g_key k \/ exists y, c = CSetRM k y)).
Proof.
  assert (Same : forall m1, md_objs m1 = md_objs m \/ List.length (md_objs m1) = List.length (md_objs m) -> md_rpMap m1 = md_rpMap m ->
    List.length (md_objs m) <= List.length (md_objs m1) /\
    forall k i, mget k (md_rpMap m1) = Some i -> mget k (md_rpMap m) = Some i \/ (i = List.length (md_objs m) /\ i < List.length (md_objs m1) /\ (g_key k \/ exists y, c = CSetRM k y))).
  { intros m1 [A|A] B; rewrite B; (split; [rewrite A; lia|auto]). }
  assert (Act : forall i a m1 b, act o m i a = Val (m1, b) ->
    List.length (md_objs m) <= List.length (md_objs m1) /\
    forall k i, mget k (md_rpMap m1) = Some i -> mget k (md_rpMap m) = Some i \/ (i = List.length (md_objs m) /\ i < List.length (md_objs m1) /\ (g_key k \/ exists y, c = CSetRM k y))).
  { intros i a m1 b Ha. destruct (len_act _ _ _ _ _ _ Ha) as [L (_ & R & _)]. apply Same; auto. }
  assert (Srm : forall m0 k rm, md_objs m0 = md_objs m -> md_rpMap m0 = md_rpMap m ->
    List.length (md_objs m) <= List.length (md_objs (SetRoleManager m0 k rm)) /\
    forall k' i, mget k' (md_rpMap (SetRoleManager m0 k rm)) = Some i -> mget k' (md_rpMap m) = Some i \/ (i = List.length (md_objs m) /\ i < List.length (md_objs (SetRoleManager m0 k rm)) /\ k' = k)).
  { intros m0 k rm A B. unfold SetRoleManager. cbn [new_obj md_objs md_rpMap set_fm set_rpMap set_objs]. rewrite A, B, app_length. cbn. split; [lia|].
    intros k' i. rewrite mget_put. destruct (String.eqb_spec k' k); [intros [= <-]; right; split; [reflexivity|]; split; [lia|assumption]|auto]. }
  intros H. destruct c as [s k v|s k|rl|rl|k| |k|expr|k y|n f|n]; cbn [mstep] in H.
  - apply obind_val in H as [[m1 e] [Hd H]]. injection H as <- _. unfold SetDef in Hd.
    destruct (keyPrefix s) as [c|] eqn:Ekp; [|injection Hd as <- _; now apply Same; auto]. destruct (first_byte k) as [c'|] eqn:Ef; [|discriminate].
    destruct (Ascii.eqb_spec c' c) as [Ec|]; [|injection Hd as <- _; now apply Same; auto]. injection Hd as <- _.
    destruct s; try (apply Same; auto; fail).
    + unfold addPolicyDef. cbn [new_obj md_objs md_rpMap set_p set_pMap set_objs]. rewrite app_length. cbn. split; [lia|auto].
    + unfold addRoleDef. destruct (Srm (set_rms (set_g m (mput k (NewRoleDef k v) (md_g m))) (md_rms m ++ [if Nat.eqb (rd_nargs (NewRoleDef k v)) 2 then IRole (NewRoleManager 10) else IDom (NewDomainManager 10)])) k (List.length (md_rms m)) eq_refl eq_refl) as [S1 S2].
      split; [exact S1|]. intros k' i Hi. destruct (S2 k' i Hi) as [X|(X1 & X2 & ->)]; [now left|right]. repeat split; [exact X1|exact X2|left].
      cbn in Ekp. injection Ekp as <-. unfold g_key. now rewrite Ef, Ec.
  - destruct (RemoveDef m s k) as [m1 e] eqn:Hd. injection H as <- _. unfold RemoveDef in Hd.
    destruct s; injection Hd as <- _; try (apply Same; auto; fail).
    unfold removeRoleDef. cbn [md_objs md_rpMap set_fm set_rpMap set_g]. split; [lia|]. intros k' i. rewrite mget_del.
    destruct (String.eqb k' k); [discriminate|auto].
  - destruct rl as [|k r]; [discriminate|]. unfold model_AddRule in H.
    destruct (first_byte k) as [a|]; [|discriminate]. destruct (Ascii.eqb a "p"); [|destruct (Ascii.eqb a "g")].
    + destruct (mget k (md_pMap m)) as [i|]; [|injection H as <- _; now apply Same; auto].
      apply obind_val in H as [[[[m1 ?] ?] ?] [Ha H]]. apply obind_val in Ha as [[m2 b2] [Ha H2]]. injection H2 as -> <- <- <-. injection H as <- _. eauto.
    + destruct (mget k (md_rpMap m)) as [i|]; [|injection H as <- _; now apply Same; auto].
      apply obind_val in H as [[[[m1 ?] ?] ?] [Ha H]]. apply obind_val in Ha as [[m2 b2] [Ha H2]]. injection H2 as -> <- <- <-. injection H as <- _. eauto.
    + injection H as <- _. now apply Same; auto.
  - destruct rl as [|k r]; [discriminate|]. unfold model_RemoveRule in H.
    destruct (first_byte k) as [a|]; [|discriminate]. destruct (Ascii.eqb a "p"); [|destruct (Ascii.eqb a "g")].
    + destruct (mget k (md_pMap m)) as [i|]; [|injection H as <- _; now apply Same; auto].
      apply obind_val in H as [[[[m1 ?] ?] ?] [Ha H]]. apply obind_val in Ha as [[m2 b2] [Ha H2]]. injection H2 as -> <- <- <-. injection H as <- _. eauto.
    + destruct (mget k (md_rpMap m)) as [i|]; [|injection H as <- _; now apply Same; auto].
      apply obind_val in H as [[[[m1 ?] ?] ?] [Ha H]]. apply obind_val in Ha as [[m2 b2] [Ha H2]]. injection H2 as -> <- <- <-. injection H as <- _. eauto.
    + injection H as <- _. now apply Same; auto.
  - apply obind_val in H as [[m1 e] [Hc H]]. injection H as <- _. unfold ClearPolicy in Hc.
    destruct (GetPolicy m k) as [i|]; [|injection Hc as <- _; now apply Same; auto]. apply obind_val in Hc as [[m2 b2] [Ha Hc]]. injection Hc as <- _. eauto.
  - apply obind_val in H as [[m1 e] [Hc H]]. injection H as <- _. destruct (loop_keeps _ _ _ _ _ _ Hc) as (A & B & C & D). apply Same; auto.
  - apply obind_val in H as [[m1 e] [Hc H]]. injection H as <- _. destruct (build_keeps _ _ _ _ _ _ Hc) as (A & B & C & D). apply Same; auto.
  - apply obind_val in H as [[m1 e] [Hc H]]. injection H as <- _. destruct (adhoc_keeps _ _ _ _ _ _ Hc) as (A & B & C & D). apply Same; auto.
  - injection H as <- _. destruct (Srm (set_rms m (md_rms m ++ [y])) k (List.length (md_rms m)) eq_refl eq_refl) as [S1 S2].
    split; [exact S1|]. intros k' i Hi. destruct (S2 k' i Hi) as [X|(X1 & X2 & ->)]; [now left|right]. repeat split; [exact X1|exact X2|right; eauto].
  - injection H as <- _. now apply Same; auto.
  - destruct (RemoveFunction m n) as [m1 b1] eqn:Hr. injection H as <- _. injection Hr as <- _. now apply Same; auto.
Qed.

(** ** A built-in policy that does what the events say *)
Lemma listing_get l h : mget h (listing l) = None <-> ~ In h (map Hash l).
Proof.
  induction l as [|r l IH]; cbn; [tauto|]. destruct (String.eqb_spec h (Hash r)) as [->|Hne].
  - split; [discriminate|]. intros H. exfalso. apply H. now left.
  - rewrite IH. split; [intros H [X|X]; [congruence|auto]|]. intros H X. apply H. now right.
Qed.
Lemma listing_put l r : ~ In (Hash r) (map Hash l) -> mput (Hash r) r (listing l) = listing (l ++ [r]).
Proof.
  induction l as [|x l IH]; cbn; [reflexivity|]. intros H. destruct (String.eqb_spec (Hash r) (Hash x)) as [E|Hne].
  - exfalso. apply H. now left.
  - f_equal. apply IH. tauto.
Qed.
Lemma listing_del_none l h : ~ In h (map Hash l) -> mdel h (listing l) = listing l.
Proof.
  induction l as [|x l IH]; cbn; [reflexivity|]. intros H. destruct (String.eqb_spec h (Hash x)) as [E|Hne].
  - exfalso. apply H. now left.
  - f_equal. apply IH. tauto.
Qed.
Lemma listing_del l1 r l2 : hash_apart (l1 ++ r :: l2) -> mdel (Hash r) (listing (l1 ++ r :: l2)) = listing (l1 ++ l2).
Proof.
  unfold hash_apart. induction l1 as [|x l1 IH]; cbn.
  - intros N. apply NoDup_cons_iff in N as [N _]. rewrite String.eqb_refl. exact (listing_del_none l2 (Hash r) N).
  - intros N. apply NoDup_cons_iff in N as [N N']. destruct (String.eqb_spec (Hash r) (Hash x)) as [E|Hne].
    + exfalso. apply N. rewrite map_app, in_app_iff. right. left. exact E.
    + f_equal. now apply IH.
Qed.
Lemma listing_mvals l : mvals (listing l) = l.
Proof. unfold listing, mvals. rewrite map_map. cbn. apply map_id. Qed.

Lemma tells_apart l es l' : tells l es l' -> hash_apart l -> hash_apart l'.
Proof.
  induction 1 as [|l r es l' Hn _ IH|l1 r l2 es l' _ IH|l es l' _ IH]; intros N; [exact N|apply IH|apply IH|apply IH; constructor]; unfold hash_apart in *.
  - rewrite map_app. cbn. apply Permutation_NoDup with (Hash r :: map Hash l); [apply Permutation_cons_append|constructor; assumption].
  - rewrite map_app in *. cbn [map] in N. exact (NoDup_remove_1 _ _ _ N).
Qed.

Lemma set_nth_same {X} (l : list X) i x : nth_error l i = Some x -> set_nth l i x = l.
Proof. revert i. induction l as [|y l IH]; intros [|i] H; cbn in *; try discriminate; [congruence|]. f_equal. now apply IH. Qed.
Lemma set_nth_twice {X} (l : list X) i x y : set_nth (set_nth l i x) i y = set_nth l i y.
Proof. revert i. induction l as [|z l IH]; intros [|i]; cbn; auto. now rewrite IH. Qed.
Lemma notify_nil ms ids : notify_all ms ids [] = Val ms.
Proof. reflexivity. Qed.

Definition with_rules (m : model) (i : nat) (l : list rule) (ls : list nat) (ms : list matcher) : model :=
  set_mats (set_objs m (set_nth (md_objs m) i (mkObj (OPolicy (listing l)) ls))) ms.

(** The calls that the events stand for bring a built-in policy, and those that
    listen to it, to the same place. *)
Lemma tells_run E o key i ls es l l' : tells l es l' -> p_key key -> hash_apart l -> forall m ms,
  mget key (md_pMap m) = Some i -> nth_error (md_objs m) i = Some (mkObj (OPolicy (listing l)) ls) ->
  notify_all (md_mats m) ls es = Val ms ->
  exists xs, mexec E m (map (fun e => (o, pop_call key (event_op e))) es) = Val (with_rules m i l' ls ms, xs).
Proof.
  intros T K. induction T as [l|l r es l' Hn T IH|l1 r l2 es l' T IH|l es l' T IH]; intros N m ms Hk Ho Hm.
  - cbn in Hm. injection Hm as <-. exists []. cbn. f_equal. f_equal. unfold with_rules. rewrite (set_nth_same _ _ _ Ho). now destruct m.
  - cbn [notify_all] in Hm. apply obind_val in Hm as [ms1 [Hm1 Hm]]. cbn [map event_op pop_call mexec mstep].
    unfold model_AddRule. rewrite K. cbn [Ascii.eqb Bool.eqb]. cbv beta iota. rewrite Hk. unfold act. rewrite Ho. cbn [o_body o_listeners].
    cbn [pstep]. unfold AddRule. rewrite (proj2 (listing_get l (Hash r)) Hn), (listing_put l r Hn). cbn [notify_all]. rewrite Hm1. cbn [obind].
    change (set_mats (set_objs m (set_nth (md_objs m) i (mkObj (OPolicy (listing (l ++ [r]))) ls))) ms1) with (with_rules m i (l ++ [r]) ls ms1).
    destruct (IH (tells_apart l [EvtAdded r] (l ++ [r]) (tells_added _ _ _ _ Hn (tells_end _)) N) (with_rules m i (l ++ [r]) ls ms1) ms) as [xs Hx];
      [exact Hk| |exact Hm|].
    { cbn [with_rules md_objs set_mats set_objs]. rewrite nth_set_nth by exact (nth_lt _ _ _ Ho). now rewrite Nat.eqb_refl. }
    rewrite Hx. cbn [obind]. unfold with_rules. cbn [md_objs set_mats set_objs md_r md_p md_g md_e md_m md_pMap md_rpMap md_eMap md_mMap md_fm md_rms].
    rewrite set_nth_twice. eexists. reflexivity.
  - cbn [notify_all] in Hm. apply obind_val in Hm as [ms1 [Hm1 Hm]]. cbn [map event_op pop_call mexec mstep].
    unfold model_RemoveRule. rewrite K. cbn [Ascii.eqb Bool.eqb]. cbv beta iota. rewrite Hk. unfold act. rewrite Ho. cbn [o_body o_listeners].
    cbn [pstep]. unfold RemoveRule. destruct (mget (Hash r) (listing (l1 ++ r :: l2))) as [v|] eqn:Eg.
    2:{ exfalso. apply listing_get in Eg. apply Eg. rewrite map_app, in_app_iff. right. now left. }
    rewrite (listing_del _ _ _ N). cbn [notify_all]. rewrite Hm1. cbn [obind].
    change (set_mats (set_objs m (set_nth (md_objs m) i (mkObj (OPolicy (listing (l1 ++ l2))) ls))) ms1) with (with_rules m i (l1 ++ l2) ls ms1).
    destruct (IH (tells_apart _ [EvtRemoved r] (l1 ++ l2) (tells_removed _ _ _ _ _ (tells_end _)) N) (with_rules m i (l1 ++ l2) ls ms1) ms) as [xs Hx];
      [exact Hk| |exact Hm|].
    { cbn [with_rules md_objs set_mats set_objs]. rewrite nth_set_nth by exact (nth_lt _ _ _ Ho). now rewrite Nat.eqb_refl. }
    rewrite Hx. cbn [obind]. unfold with_rules. cbn [md_objs set_mats set_objs md_r md_p md_g md_e md_m md_pMap md_rpMap md_eMap md_mMap md_fm md_rms].
    rewrite set_nth_twice. eexists. reflexivity.
  - cbn [notify_all] in Hm. apply obind_val in Hm as [ms1 [Hm1 Hm]]. cbn [map event_op pop_call mexec mstep].
    unfold ClearPolicy, GetPolicy. rewrite Hk. unfold act. rewrite Ho. cbn [o_body o_listeners pstep Clear notify_all]. rewrite Hm1. cbn [obind].
    change (set_mats (set_objs m (set_nth (md_objs m) i (mkObj (OPolicy []) ls))) ms1) with (with_rules m i [] ls ms1).
    destruct (IH (NoDup_nil _) (with_rules m i [] ls ms1) ms) as [xs Hx]; [exact Hk| |exact Hm|].
    { cbn [with_rules md_objs set_mats set_objs]. rewrite nth_set_nth by exact (nth_lt _ _ _ Ho). now rewrite Nat.eqb_refl. }
    rewrite Hx. cbn [obind]. unfold with_rules. cbn [md_objs set_mats set_objs md_r md_p md_g md_e md_m md_pMap md_rpMap md_eMap md_mMap md_fm md_rms].
    rewrite set_nth_twice. eexists. reflexivity.
Qed.

(** Adding told-apart rules to a new policy gives the listing. *)
Lemma adds_listing l2 : forall l1, hash_apart (l1 ++ l2) -> fst (pexec (listing l1) (map PAdd l2)) = listing (l1 ++ l2).
Proof.
  induction l2 as [|r l2 IH]; intros l1 N; cbn [map pexec]; [now rewrite app_nil_r|].
  assert (Hn : ~ In (Hash r) (map Hash l1)).
  { unfold hash_apart in N. rewrite map_app in N. cbn in N. pose proof (NoDup_remove_2 _ _ _ N) as X. rewrite in_app_iff in X. tauto. }
  cbn [pstep]. unfold AddRule. rewrite (proj2 (listing_get l1 (Hash r)) Hn), (listing_put l1 r Hn).
  specialize (IH (l1 ++ [r])). rewrite <- app_assoc in IH. cbn in IH. specialize (IH N).
  destruct (pexec (listing (l1 ++ [r])) (map PAdd l2)) as [p es]. exact IH.
Qed.

(** ** Reachable states *)
Section Reach.
  Context {S A : Type} (U : upolicy S A) (E : env).

  Record USync (um : umodel S) : Prop := mkSync {
    y_body : forall i s, um_state um i = Some s -> body (um_m um) i = Some (OPolicy (listing (u_Range U s)));
    y_rp : forall k i, mget k (md_rpMap (um_m um)) = Some i -> i < List.length (md_objs (um_m um)) /\ um_state um i = None
  }.

  Lemma sync_new : USync (NewUModel E).
  Proof. constructor; cbn; discriminate. Qed.

  Lemma become_spec (um : umodel S) i s es um' : u_become U um i s es = Val um' -> exists b ls ms,
    nth_error (md_objs (um_m um)) i = Some (mkObj b ls) /\ notify_all (md_mats (um_m um)) ls es = Val ms /\
    um' = mkUM (with_rules (um_m um) i (u_Range U s) ls ms) (put_state (um_state um) i s).
  Proof.
    unfold u_become. destruct (nth_error (md_objs (um_m um)) i) as [[b ls]|]; [|discriminate]. cbn [o_listeners].
    intros H. apply obind_val in H as [ms [Hn H]]. injection H as <-. exists b, ls, ms. auto.
  Qed.
  Lemma become_sync (um : umodel S) i s0 s es um' : USync um -> um_state um i = Some s0 -> u_become U um i s es = Val um' -> USync um'.
  Proof.
    intros [Yb Yr] Hs H. apply become_spec in H as [b [ls [ms [Ho [_ ->]]]]]. pose proof (nth_lt _ _ _ Ho) as L. constructor.
    - intros j s'. cbn [um_state um_m]. unfold put_state, body, with_rules. cbn [md_objs set_mats set_objs]. rewrite nth_set_nth by exact L.
      destruct (Nat.eqb j i); [intros [= <-]; reflexivity|]. apply Yb.
    - intros k j Hj. cbn [um_m um_state] in *. destruct (Yr k j Hj) as [A1 A2]. unfold with_rules. cbn [md_objs set_mats set_objs].
      rewrite set_nth_length. split; [exact A1|]. unfold put_state. destruct (Nat.eqb_spec j i) as [->|]; [congruence|exact A2].
  Qed.
  Lemma user_state (um : umodel S) k i s : user_policy um k = Some (i, s) -> mget k (md_pMap (um_m um)) = Some i /\ um_state um i = Some s.
  Proof.
    unfold user_policy. destruct (mget k (md_pMap (um_m um))) as [j|]; [|discriminate].
    destruct (um_state um j) as [s'|] eqn:Es; [|discriminate]. intros [= <- <-]. auto.
  Qed.
  Lemma rule_on_state (um : umodel S) k i s : rule_on um k = Some (i, s) -> p_key k /\ user_policy um k = Some (i, s).
  Proof.
    unfold rule_on, p_key. destruct (first_byte k) as [c|]; [|discriminate]. destruct (Ascii.eqb_spec c "p") as [->|]; [auto|discriminate].
  Qed.

  (** A call that reaches no user-written policy. *)
  Definition plain_target (um : umodel S) (c : mcall) : Prop :=
    match c with
    | CAdd (k :: _) | CRemove (k :: _) => rule_on um k = None
    | CClear k => user_policy um k = None
    | _ => True
    end.
  Lemma plain_sync o (um : umodel S) c m x : USync um -> plain_target um c -> mstep E o (um_m um) c = Val (m, x) -> USync (mkUM m (um_state um)).
  Proof.
    intros Y P H. assert (Q : forall j s, um_state um j = Some s -> target (um_m um) c <> Some j).
    { intros j s Hs Ht. destruct c as [ | |rl|rl|k| | | | | | ]; cbn [target] in Ht; try discriminate.
      1,2: destruct rl as [|k r]; [discriminate|]; cbn [plain_target] in P; unfold rule_on in P;
        destruct (first_byte k) as [c|]; [|discriminate]; destruct (Ascii.eqb c "p");
        [unfold user_policy in P; rewrite Ht, Hs in P; discriminate|];
        destruct (Ascii.eqb c "g"); [|discriminate]; destruct (y_rp _ Y _ _ Ht) as [_ X]; congruence.
      cbn [plain_target] in P. unfold GetPolicy in Ht. unfold user_policy in P. destruct (mget k (md_pMap (um_m um))) as [i|].
      - injection Ht as ->. rewrite Hs in P. discriminate.
      - destruct (y_rp _ Y _ _ Ht) as [_ X]; congruence. }
    constructor; cbn [um_m um_state].
    - intros j s Hs. eapply step_body; [exact H|exact (y_body _ Y _ _ Hs)|eauto].
    - intros k i Hi. destruct (step_rp _ _ _ _ _ _ H) as [L R]. destruct (R k i Hi) as [X|(-> & X & _)].
      + destruct (y_rp _ Y _ _ X) as [X1 X2]. split; [lia|exact X2].
      + split; [exact X|]. destruct (um_state um (List.length (md_objs (um_m um)))) as [s|] eqn:Es; [|reflexivity].
        pose proof (body_lt _ _ _ (y_body _ Y _ _ Es)). lia.
  Qed.
  Lemma set_sync (um : umodel S) k s : USync um ->
    USync (mkUM (on_top (um_m um) k (listing (u_Range U s))) (put_state (um_state um) (List.length (md_objs (um_m um))) s)).
  Proof.
    intros Y. constructor; cbn [um_m um_state]; unfold put_state.
    - intros j s'. destruct (Nat.eqb_spec j (List.length (md_objs (um_m um)))) as [->|Hne].
      + intros [= <-]. unfold body, on_top. cbn [md_objs set_pMap set_objs]. now rewrite nth_last.
      + intros Hs. exact (body_new (um_m um) _ _ _ (y_body _ Y _ _ Hs)).
    - intros k' i Hi. cbn [on_top md_rpMap set_pMap set_objs] in Hi. destruct (y_rp _ Y _ _ Hi) as [X1 X2]. unfold on_top.
      cbn [md_objs set_pMap set_objs]. rewrite app_length. split; [lia|]. destruct (Nat.eqb_spec i (List.length (md_objs (um_m um)))); [lia|exact X2].
  Qed.

  (** A step, case by case. *)
  Inductive ucase (o : orders) (um : umodel S) : ucall S A -> umodel S -> uresult -> Prop :=
  | case_plain c m x : plain_target um c -> mstep E o (um_m um) c = Val (m, x) ->
      ucase o um (UCall c) (mkUM m (um_state um)) (mkURes x None)
  | case_add k r i s s' b e es um' : p_key k -> user_policy um k = Some (i, s) -> u_AddRule U s r = Val (s', b, e, es) ->
      u_become U um i s' es = Val um' ->
      ucase o um (UCall (CAdd (k :: r))) um' (mkURes (mkRes b e (if b then [MAdded (k :: r)] else [])) (Some es))
  | case_remove k r i s s' b e es um' : p_key k -> user_policy um k = Some (i, s) -> u_RemoveRule U s r = Val (s', b, e, es) ->
      u_become U um i s' es = Val um' ->
      ucase o um (UCall (CRemove (k :: r))) um' (mkURes (mkRes b e (if b then [MRemoved (k :: r)] else [])) (Some es))
  | case_clear k i s s' e es um' : user_policy um k = Some (i, s) -> u_Clear U s = Val (s', e, es) ->
      u_become U um i s' es = Val um' ->
      ucase o um (UCall (CClear k)) um' (mkURes (mkRes true e []) (Some es))
  | case_set k s : ucase o um (USetPolicy k s)
      (mkUM (on_top (um_m um) k (listing (u_Range U s))) (put_state (um_state um) (List.length (md_objs (um_m um))) s))
      (mkURes (mkRes true None []) None)
  | case_own k a i s s' es um' : user_policy um k = Some (i, s) -> u_Own U s a = Val (s', es) -> u_become U um i s' es = Val um' ->
      ucase o um (UOwnCall k a) um' (mkURes (mkRes true None []) (Some es))
  | case_none k a : user_policy um k = None -> ucase o um (UOwnCall k a) um (mkURes (mkRes true None []) None).

  Lemma ustep_cases o (um : umodel S) c um' x : ustep U E o um c = Val (um', x) -> ucase o um c um' x.
  Proof.
    intros H. destruct c as [c|k s|k a].
    - assert (P : plain_target um c -> (let! (m, x) := mstep E o (um_m um) c in Val (mkUM m (um_state um), mkURes x None)) = Val (um', x) ->
                  ucase o um (UCall c) um' x).
      { intros P Hp. apply obind_val in Hp as [[m y] [Hm Hp]]. injection Hp as <- <-. now constructor. }
      destruct c as [ | |rl|rl|k| | | | | | ]; cbn [ustep] in H; try (apply P; [exact I|exact H]).
      + destruct rl as [|k r]; [apply P; [exact I|exact H]|]. destruct (rule_on um k) as [[i s]|] eqn:Er; [|apply P; [exact Er|exact H]].
        apply rule_on_state in Er as [K Eu]. apply obind_val in H as [[[[s' b] e] es] [Ha H]]. apply obind_val in H as [um1 [Hb H]].
        injection H as <- <-. econstructor; eauto.
      + destruct rl as [|k r]; [apply P; [exact I|exact H]|]. destruct (rule_on um k) as [[i s]|] eqn:Er; [|apply P; [exact Er|exact H]].
        apply rule_on_state in Er as [K Eu]. apply obind_val in H as [[[[s' b] e] es] [Ha H]]. apply obind_val in H as [um1 [Hb H]].
        injection H as <- <-. econstructor; eauto.
      + destruct (user_policy um k) as [[i s]|] eqn:Er; [|apply P; [exact Er|exact H]].
        apply obind_val in H as [[[s' e] es] [Ha H]]. apply obind_val in H as [um1 [Hb H]]. injection H as <- <-. econstructor; eauto.
    - cbn in H. injection H as <- <-. constructor.
    - cbn [ustep] in H. destruct (user_policy um k) as [[i s]|] eqn:Er; [|injection H as <- <-; now constructor].
      apply obind_val in H as [[s' es] [Ha H]]. apply obind_val in H as [um1 [Hb H]]. injection H as <- <-. econstructor; eauto.
  Qed.

  Lemma step_sync o (um : umodel S) c um' x : USync um -> ustep U E o um c = Val (um', x) -> USync um'.
  Proof.
    intros Y H. apply ustep_cases in H. inversion H; subst;
      try (match goal with Hu : user_policy um _ = Some _ |- _ => apply user_state in Hu as [_ Hu] end; eapply become_sync; eassumption).
    - eapply plain_sync; eassumption.
    - now apply set_sync.
    - exact Y.
  Qed.
  Lemma exec_sync h : forall um um' xs, USync um -> uexec U E um h = Val (um', xs) -> USync um'.
  Proof.
    induction h as [|[o c] h IH]; intros um um' xs Y H; cbn [uexec] in H; [now injection H as <- _|].
    apply obind_val in H as [[um1 x] [H1 H]]. apply obind_val in H as [[um2 xs'] [H2 H]]. injection H as <- _.
    eapply IH; [eapply step_sync; eassumption|exact H2].
  Qed.
  Lemma uexec_app h1 : forall um h2 um' xs, uexec U E um (h1 ++ h2) = Val (um', xs) ->
    exists um1 xs1 xs2, uexec U E um h1 = Val (um1, xs1) /\ uexec U E um1 h2 = Val (um', xs2) /\ xs = xs1 ++ xs2.
  Proof.
    induction h1 as [|[o c] h1 IH]; intros um h2 um' xs H; cbn [app uexec] in *.
    - exists um, [], xs. auto.
    - apply obind_val in H as [[um1 x] [H1 H]]. apply obind_val in H as [[um2 xs'] [H2 H]]. injection H as <- <-.
      destruct (IH _ _ _ _ H2) as [um3 [xs3 [xs4 [X [Y ->]]]]]. exists um3, (x :: xs3), xs4. rewrite H1. cbn [obind]. rewrite X. auto.
  Qed.
  Lemma uexec_len h : forall um um' xs, uexec U E um h = Val (um', xs) -> List.length xs = List.length h.
  Proof.
    induction h as [|[o c] h IH]; intros um um' xs H; cbn [uexec] in H; [now injection H as _ <-|].
    apply obind_val in H as [[um1 x] [H1 H]]. apply obind_val in H as [[um2 xs'] [H2 H]]. injection H as _ <-. cbn. f_equal. eauto.
  Qed.
End Reach.

(** ** The plain history *)
Section PlainP.
  Context {S A : Type} (U : upolicy S A) (E : env).

  Lemma combine_snoc {X Y} (l : list X) (l' : list Y) x y : List.length l = List.length l' -> combine (l ++ [x]) (l' ++ [y]) = combine l l' ++ [(x, y)].
  Proof. revert l'. induction l as [|a l IH]; intros [|b l'] H; cbn in *; try discriminate; [reflexivity|]. f_equal. apply IH. congruence. Qed.
  Lemma plain_snoc h xs (oc : orders * ucall S A) x : List.length xs = List.length h ->
    plain_history U (h ++ [oc]) (xs ++ [x]) = plain_history U h xs ++ plain_call U (plain_history U h xs) oc x.
  Proof. intros L. unfold plain_history. rewrite combine_snoc by congruence. now rewrite fold_left_app. Qed.

  Lemma def_pops s k (o : orders) key es : forall acc, fold_left (def_step s k) (map snd (map (fun e => (o, pop_call key (event_op e))) es)) acc = acc.
  Proof. induction es as [|e es IH]; intros acc; cbn [map fold_left]; [reflexivity|]. rewrite IH. now destruct e. Qed.
  Lemma calls_snoc h (oc : orders * ucall S A) : model_calls (h ++ [oc]) = model_calls h ++ match snd oc with UCall c => [(fst oc, c)] | _ => [] end.
  Proof. unfold model_calls. rewrite flat_map_app. cbn. now rewrite app_nil_r. Qed.

  Lemma defined_prefix h1 h2 : u_defined U (h1 ++ h2) -> u_defined U h1.
  Proof. intros D a o k s b ->. apply (D a o k s (b ++ h2)). now rewrite <- app_assoc. Qed.

  (** The state, and the texts of the definitions. *)
  Lemma plain_exec h : outspoken U -> forall um xs, ugood h -> u_defined U h -> uexec U E (NewUModel E) h = Val (um, xs) ->
    (exists ys, mexec E (NewModel E) (plain_history U h xs) = Val (um_m um, ys)) /\ good_m (plain_history U h xs) /\
    (forall s k, def_text s k (plain_history U h xs) = def_text s k (model_calls h)) /\
    (forall i s, um_state um i = Some s -> hash_apart (u_Range U s)).
  Proof.
    intros O. induction h as [|[o c] h IH] using rev_ind; intros um xs G D H.
    - cbn in H. injection H as <- <-. cbn. split; [eexists; reflexivity|]. split; [constructor|]. split; [reflexivity|discriminate].
    - apply Forall_app in G as [G Go]. apply Forall_inv in Go. cbn [fst] in Go.
      apply uexec_app in H as [um1 [xs1 [xs2 [H1 [H2 ->]]]]]. destruct (IH um1 xs1 G (defined_prefix _ _ D) H1) as [[ys Hp] [Gp [Dt Ap]]].
      cbn [uexec] in H2. apply obind_val in H2 as [[um2 x] [Hs H2]]. cbn in H2. injection H2 as <- <-.
      rewrite plain_snoc by exact (uexec_len U E _ _ _ _ H1). set (hp := plain_history U h xs1) in *.
      pose proof (exec_sync U E _ _ _ _ (sync_new U E) H1) as Y.
      assert (Told : forall k i s s' es um', user_policy um1 k = Some (i, s) -> tells (u_Range U s) es (u_Range U s') ->
                u_become U um1 i s' es = Val um' ->
                (exists ys, mexec E (NewModel E) (hp ++ map (fun e => (o, pop_call k (event_op e))) es) = Val (um_m um', ys)) /\
                good_m (hp ++ map (fun e => (o, pop_call k (event_op e))) es) /\
                (forall j s, um_state um' j = Some s -> hash_apart (u_Range U s)) /\
                forall sc k', def_text sc k' (hp ++ map (fun e => (o, pop_call k (event_op e))) es) = def_text sc k' hp).
      { intros k i s s' es um' Hu T Hb. destruct (user_state _ _ _ _ Hu) as [Hk Hst]. pose proof (y_body U _ Y _ _ Hst) as Hbody.
        apply become_spec in Hb as [b [ls [ms [Ho [Hn ->]]]]]. unfold body in Hbody. rewrite Ho in Hbody. cbn in Hbody. injection Hbody as ->.
        destruct (reachable_ok E hp _ _ Gp Hp) as [g [V _]]. destruct (v_p _ _ V _ _ Hk) as [K _].
        destruct (tells_run E o k i ls es _ _ T K (Ap _ _ Hst) _ _ Hk Ho Hn) as [zs Hz].
        split; [exists (ys ++ zs); apply mexec_app; eauto 8|].
        split; [apply Forall_app; split; [exact Gp|apply Forall_map, Forall_forall; intros; exact Go]|].
        split.
        - intros j s2. cbn [um_state]. unfold put_state. destruct (Nat.eqb j i); [intros [= <-]; exact (tells_apart _ _ _ T (Ap _ _ Hst))|apply Ap].
        - intros sc k'. unfold def_text. rewrite map_app, fold_left_app, def_pops. reflexivity. }
      apply ustep_cases in Hs. rewrite calls_snoc. cbn [fst snd].
      inversion Hs; subst; cbn [plain_call ur_told call_key].
      + assert (Sn : forall sc k, def_text sc k (hp ++ [(o, c0)]) = def_text sc k (model_calls h ++ [(o, c0)])).
        { intros sc k. rewrite !def_text_snoc, Dt. reflexivity. }
        cbn [um_m um_state]. split; [exists (ys ++ [x0]); exact (mexec_snoc _ _ _ _ _ _ _ _ _ Hp H0)|].
        split; [apply Forall_app; split; [exact Gp|repeat constructor; apply Go]|]. auto.
      + destruct (Told _ _ _ _ _ _ H0 (out_add _ O _ _ _ _ _ _ H2) H3) as (A1 & A2 & A3 & A4).
        split; [exact A1|]. split; [exact A2|]. split; [|exact A3]. intros sc k'. rewrite A4, Dt, def_text_snoc. reflexivity.
      + destruct (Told _ _ _ _ _ _ H0 (out_remove _ O _ _ _ _ _ _ H2) H3) as (A1 & A2 & A3 & A4).
        split; [exact A1|]. split; [exact A2|]. split; [|exact A3]. intros sc k'. rewrite A4, Dt, def_text_snoc. reflexivity.
      + destruct (Told _ _ _ _ _ _ H (out_clear _ O _ _ _ _ H0) H2) as (A1 & A2 & A3 & A4).
        split; [exact A1|]. split; [exact A2|]. split; [|exact A3]. intros sc k'. rewrite A4, Dt, def_text_snoc. reflexivity.
      + rewrite app_nil_r. destruct (D h o k s [] eq_refl) as [K [Kd Ha]]. rewrite <- Dt in Kd.
        destruct (def_text P_SEC k hp) as [v|] eqn:Ev; [|congruence].
        destruct (C82_same_as_redefining E hp _ ys o k v (map PAdd (u_Range U s)) Hp K Ev) as [zs Hz].
        rewrite hand_over_top in Hz. change NewPolicy with (listing []) in Hz. rewrite (adds_listing (u_Range U s) [] Ha) in Hz. cbn [app] in Hz.
        cbn [um_m um_state]. split; [exists (ys ++ zs); apply mexec_app; eauto 8|].
        split; [apply Forall_app; split; [exact Gp|]; constructor; [exact Go|]; apply Forall_map, Forall_forall; intros; exact Go|].
        split.
        * intros sc k'. unfold def_text at 1. rewrite map_app, fold_left_app, redefine_def; [apply Dt|]. intros -> <-. exact Ev.
        * intros j s2. unfold put_state. destruct (Nat.eqb j (List.length (md_objs (um_m um1)))); [intros [= <-]; exact Ha|apply Ap].
      + rewrite app_nil_r. destruct (Told _ _ _ _ _ _ H (out_own _ O _ _ _ _ H0) H2) as (A1 & A2 & A3 & A4).
        split; [exact A1|]. split; [exact A2|]. split; [|exact A3]. intros sc k'. now rewrite A4, Dt.
      + rewrite !app_nil_r. split; [eauto|]. auto.
  Qed.
End PlainP.
