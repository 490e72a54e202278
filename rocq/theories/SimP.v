(** Two models that differ only in matchers nobody refers to: one runs like the
    other. *)
From Verif Require Import GoBase GoBaseP DefsM PolicyM EffectorM MatcherDefM MatcherM RbacM DomainM ModelM ModelSpec ModelP ModelP4 ModelP5 EnforcerM EnforcerP.

(** In the second model [k] further matchers were made when there were [n]. *)
Definition shift (n k j : nat) : nat := if Nat.ltb j n then j else j + k.
Definition old (n k j : nat) : bool := Nat.ltb j n || Nat.leb (n + k) j.
Lemma shift_old n k j : old n k (shift n k j) = true.
Proof. unfold old, shift. destruct (Nat.ltb_spec j n); apply orb_true_iff; [left; now apply Nat.ltb_lt|right; apply Nat.leb_le; lia]. Qed.
Lemma shift_inj n k i j : shift n k i = shift n k j -> i = j.
Proof. unfold shift. destruct (Nat.ltb_spec i n), (Nat.ltb_spec j n); lia. Qed.

Definition mats_sim (n k : nat) (ms ms' : list matcher) : Prop :=
  n <= List.length ms /\ List.length ms' = List.length ms + k /\
  forall j, j < List.length ms -> nth_error ms' (shift n k j) = nth_error ms j.
Definition obj_sim (n k : nat) (a b : pobj) : Prop :=
  o_body b = o_body a /\ filter (old n k) (o_listeners b) = map (shift n k) (o_listeners a).
Record Sim (n k : nat) (m m' : model) : Prop := mkSim {
  s_r : md_r m' = md_r m; s_p : md_p m' = md_p m; s_g : md_g m' = md_g m; s_e : md_e m' = md_e m; s_m : md_m m' = md_m m;
  s_pMap : md_pMap m' = md_pMap m; s_rpMap : md_rpMap m' = md_rpMap m; s_eMap : md_eMap m' = md_eMap m;
  s_mMap : forall key, mget key (md_mMap m') = option_map (shift n k) (mget key (md_mMap m));
  s_fm : md_fm m' = md_fm m;
  s_objs : Forall2 (obj_sim n k) (md_objs m) (md_objs m');
  s_rms : md_rms m' = md_rms m;
  s_mats : mats_sim n k (md_mats m) (md_mats m')
}.

(** ** Maps and lists *)
Lemma Forall2_nth {A B} (R : A -> B -> Prop) l l' : Forall2 R l l' -> forall i,
  match nth_error l i, nth_error l' i with Some a, Some b => R a b | None, None => True | _, _ => False end.
Proof. induction 1 as [|a b l l' H F IH]; intros [|i]; cbn; auto. apply IH. Qed.
Lemma F2_length {A B} (R : A -> B -> Prop) l l' : Forall2 R l l' -> List.length l = List.length l'.
Proof. induction 1; cbn; congruence. Qed.
Lemma Forall2_set_nth {A B} (R : A -> B -> Prop) l l' i a b : Forall2 R l l' -> R a b -> Forall2 R (set_nth l i a) (set_nth l' i b).
Proof. intros F H. revert i. induction F as [|x y l l' Hx F IH]; intros [|i]; cbn; auto. Qed.

Lemma mats_set n k ms ms' j x : mats_sim n k ms ms' -> j < List.length ms -> mats_sim n k (set_nth ms j x) (set_nth ms' (shift n k j) x).
Proof.
  intros (A & B & C) Hj. unfold mats_sim. rewrite !set_nth_length. split; [exact A|]. split; [exact B|]. intros i Hi.
  assert (L : shift n k j < List.length ms') by (rewrite B; unfold shift; destruct (Nat.ltb_spec j n); lia).
  rewrite !nth_set_nth by assumption. destruct (Nat.eqb_spec i j) as [->|N]; [now rewrite Nat.eqb_refl|].
  destruct (Nat.eqb_spec (shift n k i) (shift n k j)) as [E|_]; [|now apply C]. apply shift_inj in E. contradiction.
Qed.
Lemma mats_extra n k ms ms' j x : mats_sim n k ms ms' -> old n k j = false -> mats_sim n k ms (set_nth ms' j x).
Proof.
  intros (A & B & C) Hj. unfold mats_sim. rewrite set_nth_length. split; [exact A|]. split; [exact B|]. intros i Hi.
  assert (N : shift n k i <> j) by (intros <-; rewrite shift_old in Hj; discriminate).
  destruct (Nat.lt_ge_cases j (List.length ms')) as [L|L].
  - rewrite nth_set_nth by exact L. destruct (Nat.eqb_spec (shift n k i) j); [contradiction|]. now apply C.
  - unfold old in Hj. apply orb_false_iff in Hj as [H1 H2]. apply Nat.leb_gt in H2. lia.
Qed.
Lemma mats_snoc n k ms ms' x : mats_sim n k ms ms' -> mats_sim n k (ms ++ [x]) (ms' ++ [x]).
Proof.
  intros (A & B & C). unfold mats_sim. rewrite !app_length. cbn [List.length]. split; [lia|]. split; [lia|]. intros j Hj.
  destruct (Nat.eq_dec j (List.length ms)) as [->|N].
  - replace (shift n k (List.length ms)) with (List.length ms') by (unfold shift; destruct (Nat.ltb_spec (List.length ms) n); lia).
    rewrite !nth_error_app2, !Nat.sub_diag by lia. reflexivity.
  - rewrite !nth_error_app1; [apply C; lia|lia|]. rewrite B. unfold shift. destruct (Nat.ltb_spec j n); lia.
Qed.
Lemma mats_new n k ms ms' : mats_sim n k ms ms' -> List.length ms' = shift n k (List.length ms).
Proof. intros (A & B & C). unfold shift. destruct (Nat.ltb_spec (List.length ms) n); lia. Qed.

(** ** Events *)
Lemma notify_sim n k e ls' : forall ls ms ms' ms1 ms1',
  mats_sim n k ms ms' -> filter (old n k) ls' = map (shift n k) ls ->
  notify ms ls e = Val ms1 -> notify ms' ls' e = Val ms1' -> mats_sim n k ms1 ms1'.
Proof.
  induction ls' as [|j ls' IH]; intros ls ms ms' ms1 ms1' M F H H'.
  - destruct ls; [|discriminate]. cbn in H, H'. injection H as <-. now injection H' as <-.
  - cbn [notify] in H'. destruct (nth_error ms' j) as [x|] eqn:Ex; [|discriminate]. apply obind_val in H' as [x' [Ee H']].
    cbn [filter] in F. destruct (old n k j) eqn:Eo.
    + destruct ls as [|i ls]; [discriminate|]. cbn [map] in F. injection F as Ei F. subst j.
      cbn [notify] in H. destruct (nth_error ms i) as [y|] eqn:Ey; [|discriminate]. apply obind_val in H as [y' [Ee' H]].
      assert (Li : i < List.length ms) by (apply nth_error_Some; congruence).
      destruct M as (A & B & C). rewrite (C i Li), Ey in Ex. injection Ex as <-. rewrite Ee in Ee'. injection Ee' as <-.
      eapply IH; [|exact F|exact H|exact H']. apply mats_set; [repeat split; assumption|exact Li].
    + eapply IH; [|exact F|exact H|exact H']. now apply mats_extra.
Qed.
Lemma notify_all_sim n k es : forall ls ls' ms ms' ms1 ms1',
  mats_sim n k ms ms' -> filter (old n k) ls' = map (shift n k) ls ->
  notify_all ms ls es = Val ms1 -> notify_all ms' ls' es = Val ms1' -> mats_sim n k ms1 ms1'.
Proof.
  induction es as [|e es IH]; intros ls ls' ms ms' ms1 ms1' M F H H'; cbn [notify_all] in H, H'.
  - injection H as <-. now injection H' as <-.
  - apply obind_val in H as [a [Ha H]]. apply obind_val in H' as [b [Hb H']]. eapply IH; [|exact F|exact H|exact H'].
    eapply notify_sim; eauto.
Qed.

Lemma act_sim n k o m m' i a m1 b m1' b' : Sim n k m m' ->
  act o m i a = Val (m1, b) -> act o m' i a = Val (m1', b') -> b' = b /\ Sim n k m1 m1'.
Proof.
  intros S H H'. unfold act in H, H'. pose proof (Forall2_nth _ _ _ (s_objs _ _ _ _ S) i) as Ho.
  destruct (nth_error (md_objs m) i) as [[bo ls]|]; [|discriminate]. destruct (nth_error (md_objs m') i) as [[bo' ls']|]; [|contradiction].
  destruct Ho as [Eb Hl]. cbn [o_body o_listeners] in *. subst bo'. destruct bo as [p|rm].
  - destruct (PolicyM.pstep p a) as [[p' b0] es]. apply obind_val in H as [ms [Hn H]]. apply obind_val in H' as [ms' [Hn' H']].
    injection H as <- <-. injection H' as <- <-. split; [reflexivity|].
    pose proof (notify_all_sim n k es _ _ _ _ _ _ (s_mats _ _ _ _ S) Hl Hn Hn') as Hm.
    destruct S. constructor; cbn; auto. apply Forall2_set_nth; [assumption|]. split; [reflexivity|exact Hl].
  - rewrite (s_rms _ _ _ _ S) in H'. destruct (nth_error (md_rms m) rm) as [x|]; [|discriminate].
    apply obind_val in H as [[[x' b0] es] [Ha H]]. rewrite Ha in H'. cbn [obind] in H'.
    apply obind_val in H as [ms [Hn H]]. apply obind_val in H' as [ms' [Hn' H']].
    injection H as <- <-. injection H' as <- <-. split; [reflexivity|].
    pose proof (notify_all_sim n k es _ _ _ _ _ _ (s_mats _ _ _ _ S) Hl Hn Hn') as Hm.
    destruct S. constructor; cbn; auto; congruence.
Qed.

(** ** Rules are the same *)
Lemma objRange_sim {S} n k o m m' i (fn : S -> rule -> S * bool) st : Sim n k m m' -> obj_Range o m' i fn st = obj_Range o m i fn st.
Proof.
  intros H. unfold obj_Range. pose proof (Forall2_nth _ _ _ (s_objs _ _ _ _ H) i) as Ho.
  destruct (nth_error (md_objs m) i) as [[bo ls]|], (nth_error (md_objs m') i) as [[bo' ls']|]; try contradiction; [|reflexivity].
  destruct Ho as [Eb _]. cbn in Eb. subst bo'. cbn [o_body]. now rewrite (s_rms _ _ _ _ H).
Qed.
Lemma section_sim {S} n k o m m' sm (fn : S -> rule -> S * bool) st : Sim n k m m' -> range_section o m' sm fn st = range_section o m sm fn st.
Proof.
  intros H. unfold range_section. generalize (o_names o (mkeys sm)) as l. intros l. revert st.
  induction l as [|x l IH]; intros st; [reflexivity|]. cbn [fold_left]. destruct (mget x sm); [|apply IH].
  rewrite (objRange_sim n k o m m' _ _ _ H). apply IH.
Qed.
Lemma rules_sim {S} n k o m m' (fn : S -> rule -> S * bool) st : Sim n k m m' -> RangeRules o m' fn st = RangeRules o m fn st.
Proof. intros H. unfold RangeRules. rewrite (s_pMap _ _ _ _ H), (s_rpMap _ _ _ _ H), !(section_sim n k o m m' _ _ _ H). reflexivity. Qed.
Lemma getdef_sim n k m m' s key : Sim n k m m' -> GetDef m' s key = GetDef m s key.
Proof. intros [? ? ? ? ? ? ? ? ? ? ? ? ?]. destruct s; cbn; congruence. Qed.
Lemma keys_sim n k m m' s : Sim n k m m' -> sec_keys m' s = sec_keys m s.
Proof. intros [? ? ? ? ? ? ? ? ? ? ? ? ?]. destruct s; cbn; congruence. Qed.
Lemma section_ext name keys f g : (forall x, f x = g x) -> section_String name keys f = section_String name keys g.
Proof.
  intros H. unfold section_String. destruct keys as [|x keys]; [reflexivity|].
  assert (L : forall l, fold_right (fun k s => (f k ++ newline ++ s)%string) ""%string l = fold_right (fun k s => (g k ++ newline ++ s)%string) ""%string l).
  { induction l as [|y l IH]; cbn [fold_right]; [reflexivity|]. now rewrite H, IH. }
  now rewrite L.
Qed.
Lemma string_sim n k m m' : Sim n k m m' -> model_String m' = model_String m.
Proof.
  intros H. unfold model_String. induction sections as [|[name s] l IH]; cbn [fold_right]; [reflexivity|]. rewrite IH, (keys_sim n k m m' s H).
  f_equal. apply section_ext. intros x. unfold def_line. now rewrite (getdef_sim n k m m' s x H).
Qed.

(** ** Matchers *)
Lemma build_sim n k E o m m' expr : Sim n k m m' ->
  match BuildMatcherFromDef E o m expr, BuildMatcherFromDef E o m' expr with
  | Val (m1, inl j), Val (m1', inl j') => j' = shift n k j /\ j < List.length (md_mats m1) /\ Sim n k m1 m1'
  | Val (m1, inr e), Val (m1', inr e') => e' = e /\ m1 = m /\ m1' = m'
  | Panic, Panic => True
  | _, _ => False
  end.
Proof.
  intros S. unfold BuildMatcherFromDef. rewrite (s_fm _ _ _ _ S). destruct (Build _ _ expr) as [root|e]; [|auto].
  destruct (first_byte (GetPolicyKey root)) as [c|]; [|exact I].
  unfold GetPolicy. rewrite (s_p _ _ _ _ S), (s_pMap _ _ _ _ S), (s_rpMap _ _ _ _ S).
  destruct (if Ascii.eqb c "p" then _ else _) as [d|]; [|auto].
  destruct (match mget (GetPolicyKey root) (md_pMap m) with Some i => Some i | None => mget (GetPolicyKey root) (md_rpMap m) end) as [i|]; [|auto].
  pose proof (Forall2_nth _ _ _ (s_objs _ _ _ _ S) i) as Ho.
  destruct (nth_error (md_objs m) i) as [ob|], (nth_error (md_objs m') i) as [ob'|]; try contradiction; [|exact I].
  unfold obj_rules. rewrite (objRange_sim n k o m m' _ _ _ S). destruct (NewMatcher d _ root) as [x|]; cbn [obind]; [|exact I].
  destruct Ho as [Eb Hl]. pose proof (mats_new _ _ _ _ (s_mats _ _ _ _ S)) as Hn. split; [exact Hn|]. split.
  - cbn. rewrite app_length. cbn. lia.
  - pose proof (mats_snoc n k _ _ x (s_mats _ _ _ _ S)) as Hm. destruct S. constructor; cbn; auto.
    apply Forall2_set_nth; [assumption|]. split; [exact Eb|]. cbn [o_listeners]. rewrite filter_app, map_app, Hl. cbn [filter map].
    now rewrite Hn, shift_old.
Qed.
Lemma buildkey_sim n k E o m m' key : Sim n k m m' ->
  match BuildMatcher E o m key, BuildMatcher E o m' key with
  | Val (m1, e), Val (m1', e') => e' = e /\ Sim n k m1 m1'
  | Panic, Panic => True
  | _, _ => False
  end.
Proof.
  intros S. unfold BuildMatcher. rewrite (s_m _ _ _ _ S). destruct (mget key (md_m m)) as [expr|]; [|auto].
  pose proof (build_sim n k E o m m' expr S) as B.
  destruct (BuildMatcherFromDef E o m expr) as [[m1 [j|e]]|], (BuildMatcherFromDef E o m' expr) as [[m1' [j'|e']]|]; try contradiction; cbn [obind]; auto.
  - destruct B as [-> [_ S1]]. split; [reflexivity|]. destruct S1. constructor; cbn; auto. intros key'. rewrite !mget_put. destruct (String.eqb _ _); [reflexivity|apply s_mMap0].
  - destruct B as [-> [-> ->]]. auto.
Qed.
Lemma loop_sim n k E o keys : forall m m', Sim n k m m' ->
  match build_loop E o m keys, build_loop E o m' keys with
  | Val (m1, e), Val (m1', e') => e' = e /\ Sim n k m1 m1'
  | Panic, Panic => True
  | _, _ => False
  end.
Proof.
  induction keys as [|key keys IH]; intros m m' S; cbn [build_loop]; [auto|].
  pose proof (buildkey_sim n k E o m m' key S) as B.
  destruct (BuildMatcher E o m key) as [[m1 e]|], (BuildMatcher E o m' key) as [[m1' e']|]; try contradiction; cbn [obind]; auto.
  destruct B as [-> S1]. destruct e; [auto|]. now apply IH.
Qed.

(** ** Every call *)
Lemma new_obj_sim n k m m' b : Sim n k m m' -> Sim n k (fst (new_obj m b)) (fst (new_obj m' b)) /\ snd (new_obj m' b) = snd (new_obj m b).
Proof.
  intros S. pose proof (F2_length _ _ _ (s_objs _ _ _ _ S)) as L. destruct S. split; [|symmetry; exact L].
  constructor; cbn; auto. apply Forall2_app; [assumption|]. constructor; [|constructor]. split; reflexivity.
Qed.
Lemma setrm_sim n k m m' key rm : Sim n k m m' -> Sim n k (SetRoleManager m key rm) (SetRoleManager m' key rm).
Proof.
  intros S. unfold SetRoleManager. destruct (new_obj_sim n k m m' (ORole rm) S) as [S1 E1].
  destruct (new_obj m (ORole rm)) as [m1 i], (new_obj m' (ORole rm)) as [m1' i']. cbn in *. subst i'. destruct S1. constructor; cbn; auto; congruence.
Qed.
Lemma step_sim n k E o c m m' m1 r m1' r' : Sim n k m m' ->
  mstep E o m c = Val (m1, r) -> mstep E o m' c = Val (m1', r') -> r' = r /\ Sim n k m1 m1'.
Proof.
  intros S H H'. destruct c; cbn [mstep] in H, H'.
  - unfold SetDef in H, H'. destruct (keyPrefix s) as [c|] eqn:Ek; [|cbn in H, H'; injection H as <- <-; injection H' as <- <-; auto].
    destruct (first_byte key) as [c'|]; [|discriminate]. destruct (Ascii.eqb c' c); cbn [obind] in H, H'; injection H as <- <-; injection H' as <- <-; (split; [reflexivity|]); [|exact S].
    destruct s; cbn in Ek; try discriminate.
    + destruct S. constructor; cbn; auto. congruence.
    + unfold addPolicyDef.
      assert (S0 : Sim n k (set_p m (mput key (NewPolicyDef key value) (md_p m))) (set_p m' (mput key (NewPolicyDef key value) (md_p m')))).
      { destruct S. constructor; cbn; auto. congruence. }
      destruct (new_obj_sim n k _ _ (OPolicy NewPolicy) S0) as [S1 E1].
      destruct (new_obj (set_p m _) (OPolicy NewPolicy)) as [m2 i], (new_obj (set_p m' _) (OPolicy NewPolicy)) as [m2' i'].
      cbn in S1, E1. subst i'. destruct S1. constructor; cbn; auto. congruence.
    + unfold addRoleDef. cbv zeta. cbn [set_g md_rms]. rewrite (s_rms _ _ _ _ S). apply setrm_sim.
      destruct S. constructor; cbn; auto; congruence.
    + destruct S. constructor; cbn; auto; congruence.
    + destruct S. constructor; cbn; auto; congruence.
  - destruct s; cbn [RemoveDef] in H, H'; injection H as <- <-; injection H' as <- <-; (split; [reflexivity|]);
      destruct S; constructor; cbn; auto; try congruence. intros key'. rewrite !mget_del. destruct (String.eqb _ _); [reflexivity|apply s_mMap0].
  - destruct r0 as [|key q]; cbn [model_AddRule] in H, H'; [discriminate|]. rewrite (s_pMap _ _ _ _ S), (s_rpMap _ _ _ _ S) in H'.
    destruct (first_byte key) as [c|]; [|discriminate].
    destruct (Ascii.eqb c "p"); [|destruct (Ascii.eqb c "g"); [|cbn in H, H'; injection H as <- <-; injection H' as <- <-; auto]].
    + destruct (mget key (md_pMap m)) as [i|]; [|cbn in H, H'; injection H as <- <-; injection H' as <- <-; auto].
      apply obind_val in H as [[[[a1 a2] a3] a4] [Ha H]]. apply obind_val in Ha as [[m2 b2] [Ha E1]]. injection E1 as <- <- <- <-.
      apply obind_val in H' as [[[[b1 b3] b4] b5] [Hb H']]. apply obind_val in Hb as [[m3 b6] [Hb E1]]. injection E1 as <- <- <- <-.
      injection H as <- <-. injection H' as <- <-. destruct (act_sim _ _ _ _ _ _ _ _ _ _ _ S Ha Hb) as [-> S1]. auto.
    + destruct (mget key (md_rpMap m)) as [i|]; [|cbn in H, H'; injection H as <- <-; injection H' as <- <-; auto].
      apply obind_val in H as [[[[a1 a2] a3] a4] [Ha H]]. apply obind_val in Ha as [[m2 b2] [Ha E1]]. injection E1 as <- <- <- <-.
      apply obind_val in H' as [[[[b1 b3] b4] b5] [Hb H']]. apply obind_val in Hb as [[m3 b6] [Hb E1]]. injection E1 as <- <- <- <-.
      injection H as <- <-. injection H' as <- <-. destruct (act_sim _ _ _ _ _ _ _ _ _ _ _ S Ha Hb) as [-> S1]. auto.
  - destruct r0 as [|key q]; cbn [model_RemoveRule] in H, H'; [discriminate|]. rewrite (s_pMap _ _ _ _ S), (s_rpMap _ _ _ _ S) in H'.
    destruct (first_byte key) as [c|]; [|discriminate].
    destruct (Ascii.eqb c "p"); [|destruct (Ascii.eqb c "g"); [|cbn in H, H'; injection H as <- <-; injection H' as <- <-; auto]].
    + destruct (mget key (md_pMap m)) as [i|]; [|cbn in H, H'; injection H as <- <-; injection H' as <- <-; auto].
      apply obind_val in H as [[[[a1 a2] a3] a4] [Ha H]]. apply obind_val in Ha as [[m2 b2] [Ha E1]]. injection E1 as <- <- <- <-.
      apply obind_val in H' as [[[[b1 b3] b4] b5] [Hb H']]. apply obind_val in Hb as [[m3 b6] [Hb E1]]. injection E1 as <- <- <- <-.
      injection H as <- <-. injection H' as <- <-. destruct (act_sim _ _ _ _ _ _ _ _ _ _ _ S Ha Hb) as [-> S1]. auto.
    + destruct (mget key (md_rpMap m)) as [i|]; [|cbn in H, H'; injection H as <- <-; injection H' as <- <-; auto].
      apply obind_val in H as [[[[a1 a2] a3] a4] [Ha H]]. apply obind_val in Ha as [[m2 b2] [Ha E1]]. injection E1 as <- <- <- <-.
      apply obind_val in H' as [[[[b1 b3] b4] b5] [Hb H']]. apply obind_val in Hb as [[m3 b6] [Hb E1]]. injection E1 as <- <- <- <-.
      injection H as <- <-. injection H' as <- <-. destruct (act_sim _ _ _ _ _ _ _ _ _ _ _ S Ha Hb) as [-> S1]. auto.
  - unfold ClearPolicy, GetPolicy in H, H'. rewrite (s_pMap _ _ _ _ S), (s_rpMap _ _ _ _ S) in H'.
    destruct (match mget key (md_pMap m) with Some i => Some i | None => mget key (md_rpMap m) end) as [i|];
      [|cbn in H, H'; injection H as <- <-; injection H' as <- <-; auto].
    apply obind_val in H as [[a1 a2] [Ha H]]. apply obind_val in Ha as [[m2 b2] [Ha E1]]. injection E1 as <- <-.
    apply obind_val in H' as [[b1 b3] [Hb H']]. apply obind_val in Hb as [[m3 b6] [Hb E1]]. injection E1 as <- <-.
    injection H as <- <-. injection H' as <- <-. destruct (act_sim _ _ _ _ _ _ _ _ _ _ _ S Ha Hb) as [-> S1]. auto.
  - unfold BuildMatchers in H, H'. rewrite (s_m _ _ _ _ S) in H'. pose proof (loop_sim n k E o (o_names o (mkeys (md_m m))) m m' S) as L.
    destruct (build_loop E o m _) as [[m2 e]|], (build_loop E o m' _) as [[m2' e']|]; try contradiction; cbn [obind] in H, H'; try discriminate.
    injection H as <- <-. injection H' as <- <-. destruct L as [-> S1]. auto.
  - pose proof (buildkey_sim n k E o m m' key S) as L.
    destruct (BuildMatcher E o m _) as [[m2 e]|], (BuildMatcher E o m' _) as [[m2' e']|]; try contradiction; cbn [obind] in H, H'; try discriminate.
    injection H as <- <-. injection H' as <- <-. destruct L as [-> S1]. auto.
  - pose proof (build_sim n k E o m m' expr S) as L.
    destruct (BuildMatcherFromDef E o m _) as [[m2 [j|e]]|], (BuildMatcherFromDef E o m' _) as [[m2' [j'|e']]|]; try contradiction; cbn [obind] in H, H'; try discriminate;
    injection H as <- <-; injection H' as <- <-.
    + destruct L as [_ [_ S1]]. auto.
    + destruct L as [-> [-> ->]]. auto.
  - injection H as <- <-. injection H' as <- <-. split; [reflexivity|]. rewrite (s_rms _ _ _ _ S). apply setrm_sim.
    destruct S. constructor; cbn; auto.
  - injection H as <- <-. injection H' as <- <-. split; [reflexivity|]. destruct S. constructor; cbn; auto. congruence.
  - injection H as <- <-. injection H' as <- <-. rewrite (s_fm _ _ _ _ S). split; [reflexivity|]. destruct S. constructor; cbn; auto.
Qed.
Lemma exec_sim n k E h : forall m m' m1 rs m1' rs', Sim n k m m' ->
  mexec E m h = Val (m1, rs) -> mexec E m' h = Val (m1', rs') -> rs' = rs /\ Sim n k m1 m1'.
Proof.
  induction h as [|[o c] h IH]; intros m m' m1 rs m1' rs' S H H'; cbn [mexec] in H, H'.
  - injection H as <- <-. injection H' as <- <-. auto.
  - apply obind_val in H as [[m2 r] [Es H]]. apply obind_val in H as [[m3 rs3] [Ee H]]. injection H as <- <-.
    apply obind_val in H' as [[m2' r'] [Es' H']]. apply obind_val in H' as [[m3' rs3'] [Ee' H']]. injection H' as <- <-.
    destruct (step_sim n k E o c m m' _ _ _ _ S Es Es') as [-> S1]. destruct (IH _ _ _ _ _ _ S1 Ee Ee') as [-> S2]. auto.
Qed.

(** ** Building further matchers *)

(** ** Building further matchers *)
Definition obj_ext (lo hi : nat) (a b : pobj) : Prop :=
  o_body b = o_body a /\ exists ex, o_listeners b = o_listeners a ++ ex /\ Forall (fun j => lo <= j < hi) ex.
Record Ext (m m' : model) : Prop := mkExt {
  x_maps : md_r m' = md_r m /\ md_p m' = md_p m /\ md_g m' = md_g m /\ md_e m' = md_e m /\ md_m m' = md_m m /\
           md_pMap m' = md_pMap m /\ md_rpMap m' = md_rpMap m /\ md_eMap m' = md_eMap m /\ md_mMap m' = md_mMap m /\
           md_fm m' = md_fm m /\ md_rms m' = md_rms m;
  x_objs : Forall2 (obj_ext (List.length (md_mats m)) (List.length (md_mats m'))) (md_objs m) (md_objs m');
  x_mats : exists xs, md_mats m' = md_mats m ++ xs
}.
Lemma ext_refl m : Ext m m.
Proof.
  constructor; [repeat split| |exists []; now rewrite app_nil_r]. induction (md_objs m) as [|ob l IH]; constructor; [|exact IH].
  split; [reflexivity|]. exists []. rewrite app_nil_r. split; [reflexivity|constructor].
Qed.
Lemma ext_build E o m m' expr m1 r : Ext m m' -> BuildMatcherFromDef E o m' expr = Val (m1, r) -> Ext m m1.
Proof.
  intros X H. unfold BuildMatcherFromDef in H. destruct (Build _ _ _) as [root|e]; [|injection H as <- <-; exact X].
  destruct (first_byte _); [|discriminate]. destruct (if Ascii.eqb _ "p" then _ else _) as [d|]; [|injection H as <- <-; exact X].
  destruct (GetPolicy _ _) as [i|]; [|injection H as <- <-; exact X]. destruct (nth_error (md_objs m') i) as [ob'|] eqn:Eo; [|discriminate].
  apply obind_val in H as [x [_ H]]. injection H as <- <-. destruct X as [M O [xs Hx]].
  constructor; [exact M| |exists (xs ++ [x]); cbn; now rewrite Hx, app_assoc].
  assert (L : List.length (md_mats m) <= List.length (md_mats m')) by (rewrite Hx, app_length; lia).
  cbn [md_mats md_objs set_mats set_objs]. rewrite app_length. cbn [List.length].
  pose proof (Forall2_nth _ _ _ O i) as Hi. rewrite Eo in Hi. destruct (nth_error (md_objs m) i) as [ob|] eqn:Eb; [|contradiction].
  assert (W : Forall2 (obj_ext (List.length (md_mats m)) (List.length (md_mats m') + 1)) (md_objs m) (md_objs m')).
  { clear - O. induction O as [|a b l l' [A [ex [B C]]] F IH]; constructor; [|exact IH]. split; [exact A|]. exists ex. split; [exact B|].
    eapply Forall_impl; [|exact C]. cbn. lia. }
  assert (Hs : set_nth (md_objs m) i ob = md_objs m).
  { clear - Eb. revert i Eb. induction (md_objs m) as [|a l IH]; intros [|i] Eb; cbn in *; try discriminate; [congruence|]. now rewrite IH. }
  rewrite <- Hs. apply Forall2_set_nth; [exact W|]. destruct Hi as [A [ex [B C]]]. split; [exact A|].
  exists (ex ++ [List.length (md_mats m')]). cbn [o_listeners]. rewrite B, app_assoc. split; [reflexivity|].
  apply Forall_app. split; [eapply Forall_impl; [|exact C]; cbn; lia|]. constructor; [lia|constructor].
Qed.
Lemma ext_adhoc E o ha : forall m m' m1 rs, Ext m m' -> Forall (adhoc o) ha -> mexec E m' ha = Val (m1, rs) -> Ext m m1.
Proof.
  induction ha as [|[o' c] ha IH]; intros m m' m1 rs X F H; cbn [mexec] in H.
  - injection H as <- <-. exact X.
  - inversion F as [|? ? [Eo [t Ec]] F']; subst. cbn in Ec. subst c. cbn [mstep] in H.
    apply obind_val in H as [[m2 r2] [Es H]]. apply obind_val in H as [[m3 rs3] [Ee H]]. injection H as <- <-.
    apply obind_val in Es as [[m4 r4] [Eb Es]]. injection Es as <- <-. eapply IH; [|exact F'|exact Ee]. eapply ext_build; eauto.
Qed.
Lemma ext_sim m g m' : Core m g -> Ext m m' -> Sim (List.length (md_mats m)) (List.length (md_mats m') - List.length (md_mats m)) m m'.
Proof.
  intros V [(A1 & A2 & A3 & A4 & A5 & A6 & A7 & A8 & A9 & A10 & A11) O [xs Hx]].
  assert (L : List.length (md_mats m') = List.length (md_mats m) + List.length xs) by (rewrite Hx; apply app_length).
  set (n := List.length (md_mats m)) in *. set (k := List.length (md_mats m') - n). assert (Ek : k = List.length xs) by (unfold k; lia).
  assert (Id : forall j, j < n -> shift n k j = j) by (intros j Hj; unfold shift; now apply Nat.ltb_lt in Hj; rewrite Hj).
  constructor; auto.
  - intros key. rewrite A9. destruct (mget key (md_mMap m)) as [j|] eqn:Ej; [|reflexivity]. cbn. rewrite Id; [reflexivity|]. exact (v_mm m g V key j Ej).
  - assert (B : forall i b ls, nth_error (md_objs m) i = Some (mkObj b ls) -> Forall (fun j => j < n) ls).
    { intros i b ls Hi. apply Forall_forall. intros j Hj. destruct (v_lis m g V i b ls Hi) as [_ Q]. apply Q, Hj. }
    clear - O B Id L. fold n in O. revert O B. generalize (md_objs m) as l, (md_objs m') as l'. intros l l' O.
    induction O as [|a b l l' [Eb [ex [El F]]] O IH]; intros B; constructor.
    + split; [exact Eb|]. rewrite El, filter_app. specialize (B 0 (o_body a) (o_listeners a)). cbn in B.
      assert (Ba : Forall (fun j => j < n) (o_listeners a)) by (apply B; now destruct a).
      assert (F1 : filter (old n k) (o_listeners a) = map (shift n k) (o_listeners a)).
      { clear - Ba Id. induction Ba as [|j ls Hj Hls IHl]; [reflexivity|]. cbn. rewrite (Id j Hj), <- IHl. unfold old. apply Nat.ltb_lt in Hj. now rewrite Hj. }
      assert (F2 : filter (old n k) ex = []).
      { clear - F L. subst k. induction F as [|j ls Hj Hls IHl]; [reflexivity|]. cbn. unfold old at 1.
        destruct (Nat.ltb_spec j n); [lia|]. destruct (Nat.leb_spec (n + (List.length (md_mats m') - n)) j); [lia|]. exact IHl. }
      now rewrite F1, F2, app_nil_r.
    + apply IH. intros i. exact (B (S i)).
  - split; [fold n; lia|]. split; [fold n; lia|]. fold n. intros j Hj. rewrite Id by exact Hj. rewrite Hx. apply nth_error_app1. exact Hj.
Qed.

(** ** Queries *)
Definition held (n : nat) (op : copt) : Prop := match op with OMatcherVal j => j < n | _ => True end.
Definition ctx_sim (n k : nat) (m : model) (x x' : ctx) : Prop :=
  c_r x' = c_r x /\ c_e x' = c_e x /\ c_m x' = option_map (shift n k) (c_m x) /\
  forall j, c_m x = Some j -> j < List.length (md_mats m).
Definition opt_rel (n k : nat) (a b : outcome (model * ctx * option goerr)) : Prop :=
  match a, b with
  | Val (m1, x1, e1), Val (m1', x1', e1') => e1' = e1 /\ Sim n k m1 m1' /\ ctx_sim n k m1 x1 x1'
  | Panic, Panic => True
  | _, _ => False
  end.
Definition mm_ok (m : model) : Prop := forall k j, mget k (md_mMap m) = Some j -> j < List.length (md_mats m).
Lemma build_mm E o m t m1 r : BuildMatcherFromDef E o m t = Val (m1, r) -> mm_ok m -> mm_ok m1 /\ List.length (md_mats m) <= List.length (md_mats m1).
Proof.
  intros H B. unfold BuildMatcherFromDef in H. destruct (Build _ _ _) as [root|e]; [|injection H as <- <-; auto].
  destruct (first_byte _); [|discriminate]. destruct (if Ascii.eqb _ "p" then _ else _) as [d|]; [|injection H as <- <-; auto].
  destruct (GetPolicy _ _) as [i|]; [|injection H as <- <-; auto]. destruct (nth_error (md_objs m) i) as [ob'|]; [|discriminate].
  apply obind_val in H as [x [_ H]]. injection H as <- <-. unfold mm_ok. cbn. rewrite app_length. split; [|lia]. intros k j Hj. specialize (B k j Hj). lia.
Qed.
Lemma text_sim n k E o m m' x x' t : Sim n k m m' -> ctx_sim n k m x x' -> mm_ok m ->
  opt_rel n k (setMatcherText E o m x t) (setMatcherText E o m' x' t) /\
  (forall m1 x1 e1, setMatcherText E o m x t = Val (m1, x1, e1) -> mm_ok m1).
Proof.
  intros S (A & B & C & D) Hm. unfold setMatcherText. pose proof (build_sim n k E o m m' t S) as L.
  pose proof (build_mm E o m t) as Bm.
  destruct (BuildMatcherFromDef E o m t) as [[m1 [j|e]]|], (BuildMatcherFromDef E o m' t) as [[m1' [j'|e']]|]; try contradiction; cbn [obind].
  - destruct L as [-> [Lj S1]]. split.
    + split; [reflexivity|]. split; [exact S1|]. repeat split; cbn; auto. intros i Hi. injection Hi as <-. exact Lj.
    + intros ? ? ? H. injection H as <- <- <-. apply (Bm _ _ eq_refl Hm).
  - destruct L as [-> [-> ->]]. split; [split; [reflexivity|]; split; [exact S|repeat split; auto]|]. intros ? ? ? H. injection H as <- <- <-. exact Hm.
  - split; [exact I|discriminate].
Qed.
Lemma option_sim n k E o m m' x x' op : Sim n k m m' -> ctx_sim n k m x x' -> mm_ok m -> held n op ->
  opt_rel n k (option_apply E o m x op) (option_apply E o m' x' op) /\
  (forall m1 x1 e1, option_apply E o m x op = Val (m1, x1, e1) -> mm_ok m1).
Proof.
  intros S X Hm Hh. pose proof X as (A & B & C & D).
  assert (Same : forall y y', ctx_sim n k m y y' -> forall e, opt_rel n k (Val (m, y, e)) (Val (m', y', e)) /\
                 (forall m1 x1 e1, Val (m, y, e) = Val (m1, x1, e1) -> mm_ok m1)).
  { intros y y' Hy e. split; [split; [reflexivity|auto]|]. intros ? ? ? H. injection H as <- <- <-. exact Hm. }
  destruct op; cbn [option_apply].
  - destruct (String.eqb s ""); [now apply Same|]. rewrite (s_mMap _ _ _ _ S). destruct (mget s (md_mMap m)) as [j|] eqn:Ej; cbn [option_map].
    + apply Same. repeat split; cbn; auto. intros i Hi. injection Hi as <-. exact (Hm s j Ej).
    + now apply text_sim.
  - now apply text_sim.
  - apply Same. cbn in Hh. pose proof (s_mats _ _ _ _ S) as (L & _ & _). repeat split; cbn; auto.
    + unfold shift. apply Nat.ltb_lt in Hh. now rewrite Hh.
    + intros i Hi. injection Hi as <-. lia.
  - destruct (String.eqb s ""); [now apply Same|]. unfold GetRequestDef. rewrite (s_r _ _ _ _ S). destruct (mget s (md_r m)); cbn [obind]; [|split; [exact I|discriminate]].
    apply Same. repeat split; cbn; auto.
  - apply Same. repeat split; cbn; auto.
  - destruct (String.eqb s ""); [now apply Same|]. rewrite (s_eMap _ _ _ _ S). apply Same. repeat split; cbn; auto.
  - apply Same. repeat split; cbn; auto.
  - now apply Same.
Qed.
Lemma options_sim n k E o ops : forall m m' x x', Sim n k m m' -> ctx_sim n k m x x' -> mm_ok m -> Forall (held n) ops ->
  opt_rel n k (apply_options E o m x ops) (apply_options E o m' x' ops) /\
  (forall m1 x1 e1, apply_options E o m x ops = Val (m1, x1, e1) -> mm_ok m1).
Proof.
  induction ops as [|op ops IH]; intros m m' x x' S X Hm F; cbn [apply_options].
  - split; [split; [reflexivity|auto]|]. intros ? ? ? H. injection H as <- <- <-. exact Hm.
  - inversion F as [|? ? F1 F2]; subst. destruct (option_sim n k E o m m' x x' op S X Hm F1) as [R M1].
    unfold opt_rel in R. destruct (option_apply E o m x op) as [[[m1 x1] e1]|], (option_apply E o m' x' op) as [[[m1' x1'] e1']|]; try contradiction; cbn [obind].
    + destruct R as [-> [S1 X1]]. specialize (M1 _ _ _ eq_refl). destruct e1.
      * split; [split; [reflexivity|auto]|]. intros ? ? ? H. injection H as <- <- <-. exact M1.
      * now apply IH.
    + split; [exact I|discriminate].
Qed.
Lemma context_sim n k E o m m' ops : Sim n k m m' -> mm_ok m -> Forall (held n) ops ->
  match NewContext E o m ops, NewContext E o m' ops with
  | Val (m1, inl x1), Val (m1', inl x1') => Sim n k m1 m1' /\ ctx_sim n k m1 x1 x1'
  | Val (m1, inr e1), Val (m1', inr e1') => Sim n k m1 m1' /\ e1' = e1
  | Panic, Panic => True
  | _, _ => False
  end.
Proof.
  intros S Hm F. unfold NewContext.
  assert (X0 : ctx_sim n k m ctx0 ctx0) by (repeat split; discriminate).
  destruct (options_sim n k E o ops m m' ctx0 ctx0 S X0 Hm F) as [R M1]. unfold opt_rel in R.
  destruct (apply_options E o m ctx0 ops) as [[[m1 x1] e1]|], (apply_options E o m' ctx0 ops) as [[[m1' x1'] e1']|]; try contradiction; cbn [obind]; [|exact I].
  destruct R as [-> [S1 X1]]. specialize (M1 _ _ _ eq_refl). destruct e1; [auto|].
  assert (N : forall m m' x x' (q : option copt), Sim n k m m' -> ctx_sim n k m x x' -> mm_ok m -> (forall op, q = Some op -> held n op) ->
     opt_rel n k (match q with Some op => option_apply E o m x op | None => Val (m, x, None) end)
                 (match q with Some op => option_apply E o m' x' op | None => Val (m', x', None) end) /\
     (forall m1 x1 e1, match q with Some op => option_apply E o m x op | None => Val (m, x, None) end = Val (m1, x1, e1) -> mm_ok m1)).
  { intros ma mb xa xb [op|] Sa Xa Ma Hq; [apply option_sim; auto|]. split; [split; [reflexivity|auto]|]. intros ? ? ? H. injection H as <- <- <-. exact Ma. }
  pose proof X1 as (A & B & C & D).
  destruct (N m1 m1' x1 x1' (match c_r x1 with None => Some (ORequest "r") | Some _ => None end) S1 X1 M1) as [R2 M2].
  { intros op Hop. destruct (c_r x1); [discriminate|]. injection Hop as <-. exact I. }
  assert (Ea : forall m x, match c_r x1 with None => option_apply E o m x (ORequest "r") | Some _ => Val (m, x, None) end =
            match match c_r x1 with None => Some (ORequest "r") | Some _ => None end with Some op => option_apply E o m x op | None => Val (m, x, None) end)
    by (intros; now destruct (c_r x1)).
  rewrite A, !Ea. clear Ea. unfold opt_rel in R2.
  destruct (match match c_r x1 with None => Some (ORequest "r") | Some _ => None end with Some op => option_apply E o m1 x1 op | None => Val (m1, x1, None) end) as [[[m2 x2] e2]|],
    (match match c_r x1 with None => Some (ORequest "r") | Some _ => None end with Some op => option_apply E o m1' x1' op | None => Val (m1', x1', None) end) as [[[m2' x2'] e2']|];
    try contradiction; cbn [obind]; [|exact I].
  destruct R2 as [_ [S2 X2]]. specialize (M2 _ _ _ eq_refl). clear dependent m1. clear dependent m1'.
  pose proof X2 as (A2 & B2 & C2 & D2).
  destruct (N m2 m2' x2 x2' (match c_m x2 with None => Some (OMatcher "m") | Some _ => None end) S2 X2 M2) as [R3 M3].
  { intros op Hop. destruct (c_m x2); [discriminate|]. injection Hop as <-. exact I. }
  assert (Ea : forall m x, match c_m x2 with None => option_apply E o m x (OMatcher "m") | Some _ => Val (m, x, None) end =
            match match c_m x2 with None => Some (OMatcher "m") | Some _ => None end with Some op => option_apply E o m x op | None => Val (m, x, None) end)
    by (intros; now destruct (c_m x2)).
  assert (Eb : match c_m x2' with None => option_apply E o m2' x2' (OMatcher "m") | Some _ => Val (m2', x2', None) end =
            match match c_m x2 with None => Some (OMatcher "m") | Some _ => None end with Some op => option_apply E o m2' x2' op | None => Val (m2', x2', None) end)
    by (rewrite C2; now destruct (c_m x2)).
  rewrite Ea, Eb. clear Ea Eb. unfold opt_rel in R3.
  destruct (match match c_m x2 with None => Some (OMatcher "m") | Some _ => None end with Some op => option_apply E o m2 x2 op | None => Val (m2, x2, None) end) as [[[m3 x3] e3]|],
    (match match c_m x2 with None => Some (OMatcher "m") | Some _ => None end with Some op => option_apply E o m2' x2' op | None => Val (m2', x2', None) end) as [[[m3' x3'] e3']|];
    try contradiction; cbn [obind]; [|exact I].
  destruct R3 as [_ [S3 X3]]. specialize (M3 _ _ _ eq_refl). pose proof X3 as (A3 & B3 & C3 & D3).
  rewrite B3. destruct (c_e x3) as [ex|]; cbn [obind]; [auto|].
  destruct (option_sim n k E o m3 m3' x3 x3' (OEffect "e") S3 X3 M3 I) as [R4 _]. unfold opt_rel in R4.
  destruct (option_apply E o m3 x3 (OEffect "e")) as [[[m4 x4] e4]|], (option_apply E o m3' x3' (OEffect "e")) as [[[m4' x4'] e4']|]; try contradiction; cbn [obind]; [|exact I].
  tauto.
Qed.

Lemma functions_sim n k o m m' : Sim n k m m' -> functions o m' = functions o m.
Proof. intros S. unfold functions. rewrite (s_fm _ _ _ _ S), (s_rms _ _ _ _ S). reflexivity. Qed.
Lemma range_sim {S} n k E o m m' x x' rvals (fn : S -> rule -> S * bool) st : Sim n k m m' -> ctx_sim n k m x x' ->
  RangeMatchesWithContext E o m' x' rvals fn st = RangeMatchesWithContext E o m x rvals fn st.
Proof.
  intros H (A & B & C & D). unfold RangeMatchesWithContext. rewrite A, C. destruct (c_m x) as [j|]; [|reflexivity]. cbn [option_map].
  destruct (c_r x); [|reflexivity]. unfold model_RangeMatches. destruct (s_mats _ _ _ _ H) as (_ & _ & M). rewrite (M j (D j eq_refl)).
  now rewrite (functions_sim n k o m m' H).
Qed.
Lemma enforce_sim n k E o m m' x x' rvals : Sim n k m m' -> ctx_sim n k m x x' -> enforce E o m' x' rvals = enforce E o m x rvals.
Proof.
  intros H X. pose proof X as (A & B & C & D). unfold enforce. rewrite C, B. destruct (c_m x) as [j|] eqn:Ej; [|reflexivity]. cbn [option_map].
  destruct (s_mats _ _ _ _ H) as (_ & _ & M). rewrite (M j (D j eq_refl)), (s_p _ _ _ _ H).
  destruct (nth_error (md_mats m) j) as [y|]; [|reflexivity]. destruct (mget _ (md_p m)); [|reflexivity]. destruct (c_e x); [|reflexivity].
  now rewrite (range_sim n k E o m m' x x' rvals _ _ H X).
Qed.

(** What a query answers. *)
Definition answer {A} (r : outcome (model * A)) : outcome A := let! (_, a) := r in Val a.
Lemma Enforce_sim n k E o m m' ps : Sim n k m m' -> mm_ok m -> Forall (held n) (opts_of ps) ->
  answer (Enforce E o m' ps) = answer (Enforce E o m ps).
Proof.
  intros S Hm F. unfold Enforce, splitParams. pose proof (context_sim n k E o m m' (opts_of ps) S Hm F) as C.
  destruct (NewContext E o m (opts_of ps)) as [[m1 [x1|e1]]|], (NewContext E o m' (opts_of ps)) as [[m1' [x1'|e1']]|]; try contradiction; cbn [obind].
  - destruct C as [S1 X1]. rewrite (enforce_sim n k E o m1 m1' x1 x1' _ S1 X1). destruct (enforce E o m1 x1 (vals_of ps)); reflexivity.
  - destruct C as [_ ->]. reflexivity.
  - reflexivity.
Qed.
Lemma Range_sim {S} n k E o m m' ps (fn : S -> rule -> S * bool) st : Sim n k m m' -> mm_ok m -> Forall (held n) (opts_of ps) ->
  answer (enforcer_RangeMatches E o m' ps fn st) = answer (enforcer_RangeMatches E o m ps fn st).
Proof.
  intros H Hm F. unfold enforcer_RangeMatches, splitParams. pose proof (context_sim n k E o m m' (opts_of ps) H Hm F) as C.
  destruct (NewContext E o m (opts_of ps)) as [[m1 [x1|e1]]|], (NewContext E o m' (opts_of ps)) as [[m1' [x1'|e1']]|]; try contradiction; cbn [obind].
  - destruct C as [S1 X1]. rewrite (range_sim n k E o m1 m1' x1 x1' _ _ _ S1 X1). destruct (RangeMatchesWithContext E o m1 x1 (vals_of ps) fn st); reflexivity.
  - destruct C as [_ ->]. reflexivity.
  - reflexivity.
Qed.
