(** Lemmas about the function map of a reachable model. *)
From Verif Require Import GoBase GoBaseP DefsM PolicyM PolicySpec PolicyP MatcherDefM MatcherM MatcherSpec
  RbacM RbacSpec RbacP RbacP2 RbacP3 RbacP4 Prop_Rbac DomainM DomainSpec DomainP DomainP2 DomainP5 Prop_Domain ModelM ModelSpec ModelP ModelP2 ModelP3 ModelP4 ModelP5 ModelP6 FunctionsSpec.
Local Notation pstep := PolicyM.pstep.

Lemma fn_source_snoc E k h o c : fn_source E k (h ++ [(o, c)]) = fn_step k (fn_source E k h) c.
Proof. unfold fn_source. now rewrite map_app, fold_left_app. Qed.

(** Role policies keep their manager. *)
Definition roles_kept (m m' : model) : Prop :=
  forall i rm ls, nth_error (md_objs m) i = Some (mkObj (ORole rm) ls) -> exists ls', nth_error (md_objs m') i = Some (mkObj (ORole rm) ls').
Lemma kept_refl m m' : md_objs m' = md_objs m -> roles_kept m m'.
Proof. intros E i rm ls H. rewrite E. eauto. Qed.
Lemma kept_trans m1 m2 m3 : roles_kept m1 m2 -> roles_kept m2 m3 -> roles_kept m1 m3.
Proof. intros A B i rm ls H. destruct (A _ _ _ H) as [ls' H']. eauto. Qed.
Lemma kept_snoc m m' b : md_objs m' = md_objs m ++ [b] -> roles_kept m m'.
Proof. intros E i rm ls H. rewrite E, nth_snoc. pose proof (nth_lt _ _ _ H). destruct (Nat.eqb_spec i (List.length (md_objs m))); [lia|eauto]. Qed.

Lemma act_kept o m i a m' b : act o m i a = Val (m', b) -> roles_kept m m'.
Proof.
  unfold act. intros H. destruct (nth_error (md_objs m) i) as [[bo ls]|] eqn:Ei; [|discriminate]. cbn [o_body o_listeners] in H.
  destruct bo as [p|rm].
  - destruct (pstep p a) as [[p' b'] es]. destruct (notify_all _ _ _) as [ms|]; cbn in H; [|discriminate]. injection H as <- <-.
    intros j rm ls' Hj. cbn. rewrite nth_set_nth by (eapply nth_lt; eauto). destruct (Nat.eqb_spec j i) as [->|]; [congruence|eauto].
  - destruct (nth_error (md_rms m) rm) as [x|]; [|discriminate].
    destruct (act_role (o_names o) x a) as [[[x' b'] es]|]; cbn [obind] in H; [|discriminate].
    destruct (notify_all _ _ _) as [ms|]; cbn in H; [|discriminate]. injection H as <- <-. now apply kept_refl.
Qed.
Lemma add_kept o m rl m' b e es : model_AddRule o m rl = Val (m', b, e, es) -> roles_kept m m'.
Proof.
  intros H. destruct rl as [|key r]; [discriminate|]. cbn [model_AddRule] in H. destruct (first_byte key) as [c|]; [|discriminate].
  destruct (Ascii.eqb c "p").
  - destruct (mget key (md_pMap m)) as [i|]; [|injection H as <- <- <- <-; now apply kept_refl].
    destruct (act o m i (PAdd r)) as [[m1 b1]|] eqn:E; cbn in H; [|discriminate]. injection H as <- <- <- <-. eapply act_kept; eauto.
  - destruct (Ascii.eqb c "g"); [|injection H as <- <- <- <-; now apply kept_refl].
    destruct (mget key (md_rpMap m)) as [i|]; [|injection H as <- <- <- <-; now apply kept_refl].
    destruct (act o m i (PAdd r)) as [[m1 b1]|] eqn:E; cbn in H; [|discriminate]. injection H as <- <- <- <-. eapply act_kept; eauto.
Qed.
Lemma remove_kept o m rl m' b e es : model_RemoveRule o m rl = Val (m', b, e, es) -> roles_kept m m'.
Proof.
  intros H. destruct rl as [|key r]; [discriminate|]. cbn [model_RemoveRule] in H. destruct (first_byte key) as [c|]; [|discriminate].
  destruct (Ascii.eqb c "p").
  - destruct (mget key (md_pMap m)) as [i|]; [|injection H as <- <- <- <-; now apply kept_refl].
    destruct (act o m i (PRemove r)) as [[m1 b1]|] eqn:E; cbn in H; [|discriminate]. injection H as <- <- <- <-. eapply act_kept; eauto.
  - destruct (Ascii.eqb c "g"); [|injection H as <- <- <- <-; now apply kept_refl].
    destruct (mget key (md_rpMap m)) as [i|]; [|injection H as <- <- <- <-; now apply kept_refl].
    destruct (act o m i (PRemove r)) as [[m1 b1]|] eqn:E; cbn in H; [|discriminate]. injection H as <- <- <- <-. eapply act_kept; eauto.
Qed.
Lemma clear_kept o m k m' e : ClearPolicy o m k = Val (m', e) -> roles_kept m m'.
Proof.
  unfold ClearPolicy. intros H. destruct (GetPolicy m k) as [i|]; [|injection H as <- <-; now apply kept_refl].
  destruct (act o m i PClear) as [[m1 b1]|] eqn:E; cbn in H; [|discriminate]. injection H as <- <-. eapply act_kept; eauto.
Qed.
Lemma buildfrom_kept E o m expr m' r : BuildMatcherFromDef E o m expr = Val (m', r) -> roles_kept m m'.
Proof.
  unfold BuildMatcherFromDef. intros H. destruct (Build _ _ _) as [root|e]; [|injection H as <- <-; now apply kept_refl].
  destruct (first_byte _); [|discriminate]. destruct (if Ascii.eqb _ "p" then _ else _) as [d|]; [|injection H as <- <-; now apply kept_refl].
  destruct (GetPolicy _ _) as [i|]; [|injection H as <- <-; now apply kept_refl].
  destruct (nth_error (md_objs m) i) as [ob|] eqn:Ei; [|discriminate].
  destruct (NewMatcher _ _ _) as [x|]; cbn in H; [|discriminate]. injection H as <- <-.
  intros j rm ls' Hj. cbn. rewrite nth_set_nth by (eapply nth_lt; eauto). destruct (Nat.eqb_spec j i) as [->|]; [|eauto].
  rewrite Hj in Ei. injection Ei as <-. cbn. eauto.
Qed.
Lemma buildkey_kept E o m k m' r : BuildMatcher E o m k = Val (m', r) -> roles_kept m m'.
Proof.
  unfold BuildMatcher. intros H. destruct (mget k (md_m m)) as [expr|]; [|injection H as <- <-; now apply kept_refl].
  destruct (BuildMatcherFromDef E o m expr) as [[m1 r1]|] eqn:Eb; cbn in H; [|discriminate]. apply buildfrom_kept in Eb.
  destruct r1; injection H as <- <-; exact Eb.
Qed.
Lemma loop_kept E o keys : forall m m' r, build_loop E o m keys = Val (m', r) -> roles_kept m m'.
Proof.
  induction keys as [|k keys IH]; intros m m' r H; cbn [build_loop] in H; [injection H as <- <-; now apply kept_refl|].
  destruct (BuildMatcher E o m k) as [[m1 e1]|] eqn:Eb; cbn [obind] in H; [|discriminate]. apply buildkey_kept in Eb.
  destruct e1; [injection H as <- <-; exact Eb|]. eapply kept_trans; eauto.
Qed.

(** The function map follows [fn_source]. *)
Definition Fns (E : env) (h : list (orders * mcall)) (m : model) : Prop := forall k,
  match fn_source E k h with
  | None => mget k (md_fm m) = None
  | Some (FUser f) => mget k (md_fm m) = Some (FFun f)
  | Some FRole => exists i rm ls, mget k (md_rpMap m) = Some i /\ nth_error (md_objs m) i = Some (mkObj (ORole rm) ls) /\
                                  mget k (md_fm m) = Some (FG rm)
  end.

Lemma fns_same E h o c m m' : (forall k, fn_step k (fn_source E k h) c = fn_source E k h) ->
  md_fm m' = md_fm m -> md_rpMap m' = md_rpMap m -> roles_kept m m' -> Fns E h m -> Fns E (h ++ [(o, c)]) m'.
Proof.
  intros Hc Ef Er K F k. specialize (F k). rewrite fn_source_snoc, Hc, Ef, Er. destruct (fn_source E k h) as [[f|]|]; auto.
  destruct F as [i [rm [ls [A [B C]]]]]. destruct (K _ _ _ B) as [ls' B']. eauto 8.
Qed.
Lemma fns_put E h o c key m m' rm : (forall k, fn_step k (fn_source E k h) c = if String.eqb key k then Some FRole else fn_source E k h) ->
  md_fm m' = mput key (FG rm) (md_fm m) -> md_rpMap m' = mput key (List.length (md_objs m)) (md_rpMap m) ->
  md_objs m' = md_objs m ++ [mkObj (ORole rm) []] -> Fns E h m -> Fns E (h ++ [(o, c)]) m'.
Proof.
  intros Hc Ef Er Eo F k. specialize (F k). rewrite fn_source_snoc, Hc, Ef, Er, !mget_put.
  destruct (String.eqb_spec key k) as [->|Hne].
  - rewrite String.eqb_refl. exists (List.length (md_objs m)), rm, []. split; [reflexivity|]. split; [|reflexivity].
    rewrite Eo, nth_snoc, Nat.eqb_refl. reflexivity.
  - assert (X : String.eqb k key = false) by (apply String.eqb_neq; congruence). rewrite X.
    destruct (fn_source E k h) as [[f|]|]; auto. destruct F as [i [rm' [ls [A [B C]]]]]. exists i, rm', ls. split; [exact A|]. split; [|exact C].
    rewrite Eo, nth_snoc. pose proof (nth_lt _ _ _ B). destruct (Nat.eqb_spec i (List.length (md_objs m))); [lia|exact B].
Qed.
Lemma fns_step E o m c m' r h : mstep E o m c = Val (m', r) -> Fns E h m -> Fns E (h ++ [(o, c)]) m'.
Proof.
  intros H F. destruct c; cbn [mstep] in H.
  - unfold SetDef in H. destruct (keyPrefix s) as [cc|] eqn:Es.
    2:{ cbn in H. injection H as <- <-. apply (fns_same E h o _ m); auto; [|now apply kept_refl]. intros k. destruct s; try discriminate. reflexivity. }
    destruct (first_byte key) as [c'|] eqn:Ek; [|discriminate].
    destruct (Ascii.eqb_spec c' cc) as [->|Hne]; cbn in H; injection H as <- <-.
    + destruct s; cbn in Es; try discriminate; injection Es as <-.
      * apply (fns_same E h o _ m); auto; now apply kept_refl.
      * apply (fns_same E h o _ m); auto. eapply kept_snoc. reflexivity.
      * eapply (fns_put E h o _ key m); try reflexivity; [|exact F]. intros k. cbn [fn_step]. rewrite Ek. reflexivity.
      * apply (fns_same E h o _ m); auto; now apply kept_refl.
      * apply (fns_same E h o _ m); auto; now apply kept_refl.
    + apply (fns_same E h o _ m); auto; [|now apply kept_refl]. intros k. destruct s; try reflexivity. cbn [fn_step]. rewrite Ek.
      cbn in Es. injection Es as <-. apply Ascii.eqb_neq in Hne. now rewrite Hne.
  - destruct s; cbn in H; injection H as <- <-; try (apply (fns_same E h o _ m); auto; now apply kept_refl).
    intros k. specialize (F k). rewrite fn_source_snoc. cbn [fn_step]. cbn. rewrite !mget_del. rewrite String.eqb_sym.
    destruct (String.eqb_spec k key) as [->|]; [now rewrite ?String.eqb_refl|].
    destruct (fn_source E k h) as [[f|]|]; auto.
  - apply obind_val in H as [[[[m1 b] e] es] [Es H]]. injection H as <- <-. pose proof (add_kept _ _ _ _ _ _ _ Es) as K.
    apply add_maps in Es as (_ & A & _ & _ & _ & _ & _ & _ & _ & B). apply (fns_same E h o _ m); auto.
  - apply obind_val in H as [[[[m1 b] e] es] [Es H]]. injection H as <- <-. pose proof (remove_kept _ _ _ _ _ _ _ Es) as K.
    apply remove_maps in Es as (_ & A & _ & _ & _ & _ & _ & _ & _ & B). apply (fns_same E h o _ m); auto.
  - apply obind_val in H as [[m1 e] [Es H]]. injection H as <- <-. pose proof (clear_kept _ _ _ _ _ Es) as K.
    apply clear_maps in Es as (_ & A & _ & _ & _ & _ & _ & _ & _ & B). apply (fns_same E h o _ m); auto.
  - apply obind_val in H as [[m1 e] [Es H]]. injection H as <- <-. pose proof (loop_kept _ _ _ _ _ _ Es) as K.
    apply loop_maps in Es as (_ & _ & A & B & _). apply (fns_same E h o _ m); auto.
  - apply obind_val in H as [[m1 e] [Es H]]. injection H as <- <-. pose proof (buildkey_kept _ _ _ _ _ _ Es) as K.
    apply buildkey_maps in Es as (_ & _ & A & B & _). apply (fns_same E h o _ m); auto.
  - apply obind_val in H as [[m1 e] [Es H]]. injection H as <- <-. pose proof (buildfrom_kept _ _ _ _ _ _ Es) as K.
    apply buildfrom_maps in Es as (_ & _ & A & B & _). apply (fns_same E h o _ m); auto.
  - injection H as <- <-. eapply (fns_put E h o _ key m); try reflexivity; exact F.
  - injection H as <- <-. intros k. specialize (F k). rewrite fn_source_snoc. cbn [fn_step]. cbn. rewrite mget_put, String.eqb_sym.
    destruct (String.eqb_spec k name) as [->|]; [now rewrite ?String.eqb_refl|]. destruct (fn_source E k h) as [[f'|]|]; auto.
  - cbn in H. injection H as <- <-. intros k. specialize (F k). rewrite fn_source_snoc. cbn [fn_step]. cbn. rewrite mget_del, String.eqb_sym.
    destruct (String.eqb_spec k name) as [->|]; [now rewrite ?String.eqb_refl|]. destruct (fn_source E k h) as [[f'|]|]; auto.
Qed.
Lemma fns_exec E h : forall m rs, mexec E (NewModel E) h = Val (m, rs) -> Fns E h m.
Proof.
  induction h as [|[o c] h IH] using rev_ind; intros m rs H.
  - injection H as <- <-. intros k. unfold fn_source. cbn [map fold_left]. cbn.
    induction (e_builtins E) as [|[k' f] l IHl]; [reflexivity|]. cbn. destruct (String.eqb k k'); [reflexivity|exact IHl].
  - apply mexec_snoc_inv in H as [m1 [rs1 [x [H1 [Hs _]]]]]. eapply fns_step; eauto.
Qed.

(** The manager behind a role function is in the state its section's history
    describes. *)
Lemma role_function E h m rs k : good_m h -> mexec E (NewModel E) h = Val (m, rs) -> g_key k -> fn_source E k h = Some FRole ->
  exists x0 calls x xs, g_history k h = Some (x0, calls) /\ dexec x0 calls = Val (x, xs) /\
    forall o, functions o m k = Some (GenerateGFunction (o_names o) x).
Proof.
  intros G H Kg Hf. pose proof (fns_exec _ _ _ _ H k) as F. rewrite Hf in F. destruct F as [i [rm [ls [A [B C]]]]].
  destruct (reachable_ok E h m rs G H) as [g [V W]]. pose proof (v_ghist h m g W k Kg) as X. rewrite A in X.
  destruct X as [rm' [ls' [B' X]]]. rewrite B in B'. injection B' as <- <-.
  pose proof (v_rmb _ _ V _ _ _ B) as Hl. destruct (nth_error (md_rms m) rm) as [x|] eqn:Ex; [|apply nth_error_None in Ex; lia].
  destruct (v_rm _ _ V _ _ Ex) as [xs Hx]. destruct (g_rh g rm) as [x0 calls]. cbn in Hx.
  exists x0, calls, x, xs. split; [exact X|]. split; [exact Hx|]. intros o. unfold functions. now rewrite C, Ex.
Qed.
