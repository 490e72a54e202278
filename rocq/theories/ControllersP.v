(** Any number of controllers on one model. *)
From Verif Require Import GoBase GoBaseP PolicyM PolicySpec MatcherM ModelM ModelSpec ModelP ModelP4 ModelP5 StorageM StorageSpec StorageP StorageP2 StorageP3 StorageP4 ControllersM ControllersSpec.
Import ListNotations.
Local Open Scope list_scope.

(** ** What does not change *)
Definition like (a b : option controller) : Prop :=
  match a, b with Some x, Some y => same_set_up x y | None, None => True | _, _ => False end.
Lemma like_refl a : like a a.
Proof. destruct a; [repeat split|exact Logic.I]. Qed.
Lemma like_trans a b c : like a b -> like b c -> like a c.
Proof. destruct a, b, c; cbn; try tauto. unfold same_set_up. intros (-> & -> & ->). auto. Qed.
(** The same controllers, enabled as before, on the same model. *)
Record frame (e e' : enforcer) : Prop := Frame {
  fr_mid : f_mid e' = f_mid e; fr_em : f_em e' = f_em e; fr_sc : f_sc e' = f_sc e; fr_ad : f_adapter e' = f_adapter e;
  fr_scs : forall j, like (nth_error (f_scs e) j) (nth_error (f_scs e') j) }.
Lemma frame_refl e : frame e e.
Proof. constructor; auto. intros j. apply like_refl. Qed.
Lemma frame_trans a b c : frame a b -> frame b c -> frame a c.
Proof. intros [A1 A2 A3 A4 A5] [B1 B2 B3 B4 B5]. constructor; try congruence. intros j. eapply like_trans; eauto. Qed.
Lemma frame_model e m : frame e (set_model e m).
Proof. constructor; auto. intros j. apply like_refl. Qed.
Lemma frame_log e l : frame e (set_log e l).
Proof. constructor; auto. intros j. apply like_refl. Qed.
Lemma frame_put e j sc sc' : nth_error (f_scs e) j = Some sc -> same_set_up sc sc' -> frame e (put_sc e j sc').
Proof.
  intros H S. rewrite (put_nth _ _ _ _ H). constructor; auto. intros k. cbn [f_scs set_scs]. rewrite (nth_upd _ _ _ _ H). destruct (Nat.eqb_spec k j) as [->|N]; [rewrite H; exact S|apply like_refl].
Qed.
Lemma frame_hearing e e' i : frame e e' -> hearing i e' = hearing i e.
Proof.
  intros [A1 _ _ _ A5]. specialize (A5 i). unfold hearing. rewrite A1. destruct (nth_error (f_scs e) i), (nth_error (f_scs e') i); try destruct A5; try reflexivity. destruct H0 as [H0 H1]. now rewrite H, H1.
Qed.
Lemma frame_sole e e' i id : frame e e' -> sole i id e -> sole i id e'.
Proof.
  intros [_ _ _ _ A5] [[sc [H1 H2]] H3]. split.
  - specialize (A5 i). rewrite H1 in A5. destruct (nth_error (f_scs e') i) as [sc'|]; [|destruct A5]. exists sc'. split; [reflexivity|]. destruct A5 as (_ & -> & _). exact H2.
  - intros j sc' Hj Ha. specialize (A5 j). rewrite Hj in A5. destruct (nth_error (f_scs e) j) as [scj|] eqn:Ej; [|destruct A5]. destruct A5 as (_ & Ea & _). apply (H3 j scj Ej). congruence.
Qed.

(** ** What adapter [id] gains through its only controller *)
Definition nosave (id : nat) (es : list entry) : Prop := Forall (fun en => en_id en = id -> forall rs, en_call en <> CSavePolicy rs) es.
Definition gain (id i : nat) (e e' : enforcer) (ops : list operation) : Prop :=
  exists es, f_log e' = f_log e ++ es /\ nosave id es /\ accepted id es ++ pending i e' = pending i e ++ ops.
Lemma gain_trans id i a b c x y : gain id i a b x -> gain id i b c y -> gain id i a c (x ++ y).
Proof.
  intros (e1 & A1 & A2 & A3) (e2 & B1 & B2 & B3). exists (e1 ++ e2). split; [rewrite B1, A1; apply app_assoc_reverse|]. split; [apply Forall_app; auto|].
  rewrite accepted_app, <- app_assoc, B3, app_assoc, A3. apply app_assoc_reverse.
Qed.
Lemma gain_same id i e e' : f_log e' = f_log e -> pending i e' = pending i e -> gain id i e e' [].
Proof. intros A B. exists []. rewrite !app_nil_r. split; [exact A|]. split; [constructor|]. cbn. exact B. Qed.
Lemma proper_nosave id es : Forall proper es -> nosave id es.
Proof. apply Forall_impl. intros en [_ H] _ rs C. rewrite C in H. now apply H. Qed.
Lemma only_other id a es : a <> AExt id -> only a es -> nosave id es /\ accepted id es = [].
Proof.
  destruct a as [| |k]; cbn [only]; [intros _ ->; split; [constructor|reflexivity]|intros _ ->; split; [constructor|reflexivity]|].
  intros N A. assert (K : k <> id) by congruence. split.
  - eapply Forall_impl; [|exact A]. cbn. intros en H1 H2. congruence.
  - unfold accepted. induction A as [|en es H1 H2 IH]; [reflexivity|]. cbn [flat_map]. rewrite IH, H1. destruct (Nat.eqb_spec k id); [contradiction|reflexivity].
Qed.

Lemma pending_put e i j sc sc' : nth_error (f_scs e) j = Some sc -> pending i (put_sc e j sc') = if Nat.eqb i j then sc_q sc' else pending i e.
Proof. intros H. rewrite (put_nth _ _ _ _ H). unfold pending. cbn [f_scs set_scs]. rewrite (nth_upd _ _ _ _ H). now destruct (Nat.eqb i j). Qed.

(** One change for one controller; a flush of one controller. *)
Lemma op_gain W id i e j sc sc' log' op : accepts W id -> sole i id e -> nth_error (f_scs e) j = Some sc -> addOp W sc (f_log e) op = Val (sc', log') ->
  gain id i e (set_log (put_sc e j sc') log') (if Nat.eqb i j then [op] else []).
Proof.
  intros A [[sci [S1 S2]] S3] Hj H. destruct (Nat.eqb_spec i j) as [<-|N].
  - rewrite S1 in Hj. injection Hj as ->. destruct (addOp_ok W id sc (f_log e) op A S2) as (sc2 & es & H2 & _ & _ & _ & Q & P). rewrite H in H2. injection H2 as -> ->.
    exists es. split; [reflexivity|]. split; [now apply proper_nosave|]. change (pending i (set_log (put_sc e i sc2) (f_log e ++ es))) with (pending i (put_sc e i sc2)).
    rewrite (pending_put _ _ _ _ _ S1), Nat.eqb_refl. unfold pending. rewrite S1. exact Q.
  - assert (F : feed W sc (f_log e) [op] = Val (sc', log')) by (cbn [feed]; rewrite H; reflexivity). apply feed_only in F as (es & -> & O).
    destruct (only_other id (sc_adapter sc) es) as [O1 O2]; [intros C; apply N; symmetry; exact (S3 j sc Hj C)|exact O|].
    exists es. split; [reflexivity|]. split; [exact O1|]. rewrite O2, app_nil_r. change (pending i (set_log (put_sc e j sc') (f_log e ++ es))) with (pending i (put_sc e j sc')).
    rewrite (pending_put _ _ _ _ _ Hj). destruct (Nat.eqb_spec i j); [contradiction|reflexivity].
Qed.
Lemma flush_gain W id i e j sc sc' log' err : accepts W id -> sole i id e -> nth_error (f_scs e) j = Some sc -> Flush W sc (f_log e) = (sc', log', err) ->
  gain id i e (set_log (put_sc e j sc') log') [] /\ (j = i -> pending i (set_log (put_sc e j sc') log') = [] /\ err = None).
Proof.
  intros A [[sci [S1 S2]] S3] Hj H. destruct (Nat.eq_dec i j) as [<-|N].
  - rewrite S1 in Hj. injection Hj as ->. destruct (Flush_ok W id sc (f_log e) A S2) as (es & H2 & _ & Q & P). rewrite H in H2. injection H2 as -> -> ->.
    assert (Pn : pending i (set_log (put_sc e i (with_q sc [] 0)) (f_log e ++ es)) = []).
    { change (pending i (set_log (put_sc e i (with_q sc [] 0)) (f_log e ++ es))) with (pending i (put_sc e i (with_q sc [] 0))). now rewrite (pending_put _ _ _ _ _ S1), Nat.eqb_refl. }
    split; [|auto]. exists es. split; [reflexivity|]. split; [now apply proper_nosave|]. rewrite Pn, !app_nil_r, Q. unfold pending. now rewrite S1.
  - split; [|intros ->; contradiction]. apply Flush_only in H as (es & -> & O).
    destruct (only_other id (sc_adapter sc) es) as [O1 O2]; [intros C; apply N; symmetry; exact (S3 j sc Hj C)|exact O|].
    exists es. split; [reflexivity|]. split; [exact O1|]. rewrite O2, app_nil_r. change (pending i (set_log (put_sc e j sc') (f_log e ++ es))) with (pending i (put_sc e j sc')).
    rewrite (pending_put _ _ _ _ _ Hj). destruct (Nat.eqb_spec i j); [contradiction|reflexivity].
Qed.

(** ** The emitter *)
Record KWf (e : enforcer) : Prop := mkKWf {
  k_cur : f_sc e < List.length (f_scs e);
  k_nodup : NoDup (f_em e);
  k_em : forall i, In i (f_em e) <-> hearing i e = true;
  k_mid : forall i sc, nth_error (f_scs e) i = Some sc -> sc_em sc <= f_mid e }.
Lemma frame_length e e' : frame e e' -> List.length (f_scs e') = List.length (f_scs e).
Proof.
  intros F. assert (X : forall n, n < List.length (f_scs e) <-> n < List.length (f_scs e')).
  { intros n. rewrite <- !nth_error_Some. pose proof (fr_scs _ _ F n) as L. destruct (nth_error (f_scs e) n), (nth_error (f_scs e') n); try destruct L; split; congruence. }
  pose proof (X (List.length (f_scs e))). pose proof (X (List.length (f_scs e'))). lia.
Qed.
Lemma frame_wf e e' : frame e e' -> KWf e -> KWf e'.
Proof.
  intros F [A B C D]. pose proof (frame_length _ _ F) as L. constructor.
  - rewrite (fr_sc _ _ F). lia.
  - now rewrite (fr_em _ _ F).
  - intros i. rewrite (fr_em _ _ F), (frame_hearing _ _ i F). apply C.
  - intros i sc H. rewrite (fr_mid _ _ F). pose proof (fr_scs _ _ F i) as Q. rewrite H in Q. destruct (nth_error (f_scs e) i) as [sc0|] eqn:E0; [|destruct Q]. destruct Q as (-> & _). eauto.
Qed.

Lemma deliver_to_gain W op : forall ls e e', NoDup ls -> deliver_to W e ls op = Val e' ->
  frame e e' /\ f_model e' = f_model e /\ forall id i, accepts W id -> sole i id e -> gain id i e e' (if existsb (Nat.eqb i) ls then [op] else []).
Proof.
  induction ls as [|j ls IH]; intros e e' Nd H; cbn [deliver_to] in H.
  - injection H as <-. split; [apply frame_refl|]. split; [reflexivity|]. intros id i _ _. now apply gain_same.
  - inversion Nd as [|? ? Nj Nd']; subst. destruct (nth_error (f_scs e) j) as [sc|] eqn:Ej.
    + apply obind_val in H as [[sc1 log1] [H1 H]]. pose proof (addOp_set_up _ _ _ _ _ _ H1) as [Su _].
      destruct (IH _ _ Nd' H) as (F & M & G). set (e1 := set_log (put_sc e j sc1) log1) in *.
      assert (F1 : frame e e1) by (eapply frame_trans; [eapply frame_put; eauto|apply frame_log]).
      split; [eapply frame_trans; eauto|]. split; [rewrite M; unfold e1; rewrite (put_nth _ _ _ _ Ej); reflexivity|].
      intros id i A S. pose proof (op_gain W id i e j sc sc1 log1 op A S Ej H1) as G1. pose proof (gain_trans _ _ _ _ _ _ _ G1 (G id i A (frame_sole _ _ _ _ F1 S))) as G2.
      cbn [existsb]. destruct (Nat.eqb_spec i j) as [->|N]; [|exact G2]. cbn [orb]. replace (existsb (Nat.eqb j) ls) with false in G2; [exact G2|].
      symmetry. apply not_true_is_false. intros C. apply existsb_exists in C as (x & X1 & X2). apply Nat.eqb_eq in X2. now subst x.
    + destruct (IH _ _ Nd' H) as (F & M & G). split; [exact F|]. split; [exact M|]. intros id i A S. cbn [existsb]. destruct (Nat.eqb_spec i j) as [->|N]; [|now apply G].
      destruct S as [(sc & S1 & _) _]. congruence.
Qed.
Lemma wf_heard e i : KWf e -> existsb (Nat.eqb i) (f_em e) = hearing i e.
Proof.
  intros K. apply Bool.eq_iff_eq_true. rewrite <- (k_em _ K), existsb_exists. split; [intros (x & X1 & X2); apply Nat.eqb_eq in X2; now subst|]. intros H. exists i. split; [exact H|apply Nat.eqb_refl].
Qed.
Lemma deliver_gain W evs : forall e e', KWf e -> deliver W e evs = Val e' ->
  frame e e' /\ f_model e' = f_model e /\ forall id i, accepts W id -> sole i id e -> gain id i e e' (if hearing i e then map op_of evs else []).
Proof.
  induction evs as [|ev evs IH]; intros e e' K H; cbn [deliver] in H.
  - injection H as <-. split; [apply frame_refl|]. split; [reflexivity|]. intros id i _ _. destruct (hearing i e); now apply gain_same.
  - apply obind_val in H as [e1 [H1 H]]. destruct (deliver_to_gain W (op_of ev) _ _ _ (k_nodup _ K) H1) as (F1 & M1 & G1).
    destruct (IH _ _ (frame_wf _ _ F1 K) H) as (F2 & M2 & G2). split; [eapply frame_trans; eauto|]. split; [congruence|].
    intros id i A S. pose proof (gain_trans _ _ _ _ _ _ _ (G1 id i A S) (G2 id i A (frame_sole _ _ _ _ F1 S))) as G. rewrite (frame_hearing _ _ i F1), (wf_heard e i K) in G.
    cbn [map]. now destruct (hearing i e).
Qed.
Lemma call_gain E W o e c e' x : KWf e -> model_call E W o e c = Val (e', x) ->
  frame e e' /\ mstep E o (f_model e) c = Val (f_model e', x) /\ forall id i, accepts W id -> sole i id e -> gain id i e e' (if hearing i e then announced [x] else []).
Proof.
  intros K H. unfold model_call in H. apply obind_val in H as [[m x0] [H1 H]]. apply obind_val in H as [e1 [H2 H]]. injection H as -> ->.
  pose proof (frame_model e m) as F0. destruct (deliver_gain W _ _ _ (frame_wf _ _ F0 K) H2) as (F & M & G).
  split; [eapply frame_trans; eauto|]. split; [rewrite H1, M; reflexivity|]. intros id i A S. pose proof (G id i A (frame_sole _ _ _ _ F0 S)) as G1. rewrite (frame_hearing _ _ i F0) in G1.
  rewrite announced_ops. cbn [flat_map]. rewrite app_nil_r. exact G1.
Qed.
Lemma loop_gain E W mk rs : forall os e e' err, KWf e -> rules_loop E W os e mk rs = Val (e', err) ->
  exists n xs, mexec E (f_model e) (firstn n (rule_calls os mk rs)) = Val (f_model e', xs) /\ frame e e' /\
    forall id i, accepts W id -> sole i id e -> gain id i e e' (if hearing i e then announced xs else []).
Proof.
  induction rs as [|r rs IH]; intros os e e' err K H; cbn [rules_loop] in H.
  - injection H as <- <-. exists 0, []. split; [reflexivity|]. split; [apply frame_refl|]. intros id i _ _. destruct (hearing i e); now apply gain_same.
  - apply obind_val in H as [[e1 x] [H1 H]]. destruct (call_gain E W _ e _ e1 x K H1) as (F1 & M1 & G1). destruct (x_err x) as [er|].
    + injection H as <- <-. exists 1, [x]. cbn [rule_calls firstn mexec]. rewrite M1. split; [reflexivity|]. auto.
    + destruct (IH _ _ _ _ (frame_wf _ _ F1 K) H) as (n & xs & M2 & F2 & G2). exists (S n), (x :: xs). cbn [rule_calls firstn mexec]. rewrite M1. cbn [obind]. rewrite M2. split; [reflexivity|].
      split; [eapply frame_trans; eauto|]. intros id i A S. pose proof (gain_trans _ _ _ _ _ _ _ (G1 id i A S) (G2 id i A (frame_sole _ _ _ _ F1 S))) as G. rewrite (frame_hearing _ _ i F1) in G.
      change (x :: xs) with ([x] ++ xs). rewrite announced_app. now destruct (hearing i e).
Qed.
Lemma put_model e i sc : f_model (put_sc e i sc) = f_model e /\ f_log (put_sc e i sc) = f_log e.
Proof. destruct (put_frame e i sc) as (_ & A & B). auto. Qed.
Lemma rules_gain E W os e mk rs e' err : KWf e -> rules_call E W os e mk rs = Val (e', err) ->
  exists n xs, mexec E (f_model e) (firstn n (rule_calls os mk rs)) = Val (f_model e', xs) /\ frame e e' /\
    forall id i, accepts W id -> sole i id e -> gain id i e e' (if hearing i e then announced xs else []).
Proof.
  intros K H. unfold rules_call in H. destruct (nth_error (f_scs e) (f_sc e)) as [sc|] eqn:Ec; [|discriminate]. destruct (sc_autosave sc) eqn:Ea; [|now apply (loop_gain E W mk rs os e e' err K)].
  apply obind_val in H as [[e1 err1] [H1 H]]. set (e0 := put_sc e (f_sc e) (set_autosave sc false)) in *.
  assert (F0 : frame e e0) by (eapply frame_put; [exact Ec|repeat split]).
  destruct (loop_gain E W mk rs os e0 e1 err1 (frame_wf _ _ F0 K) H1) as (n & xs & M1 & F1 & G1).
  replace (f_sc e) with (f_sc e1) in H by (rewrite (fr_sc _ _ F1), (fr_sc _ _ F0); reflexivity).
  destruct (nth_error (f_scs e1) (f_sc e1)) as [sc1|] eqn:E1; [|discriminate].
  destruct (Flush W (set_autosave sc1 true) (f_log e1)) as [[sc2 log2] [z|]] eqn:Ef; [discriminate|]. injection H as <- <-.
  set (e1' := put_sc e1 (f_sc e1) (set_autosave sc1 true)).
  assert (F1' : frame e1 e1') by (eapply frame_put; [exact E1|repeat split]).
  assert (E2 : nth_error (f_scs e1') (f_sc e1) = Some (set_autosave sc1 true)).
  { unfold e1'. rewrite (put_nth _ _ _ _ E1). cbn [f_scs set_scs]. rewrite (nth_upd _ _ _ _ E1), Nat.eqb_refl. reflexivity. }
  assert (Pu : put_sc e1 (f_sc e1) sc2 = put_sc e1' (f_sc e1) sc2).
  { rewrite (put_nth _ _ _ _ E1), (put_nth _ _ _ _ E2). unfold e1'. rewrite (put_nth _ _ _ _ E1). unfold set_scs. cbn. now rewrite (upd_upd _ _ _ _ _ E1). }
  rewrite Pu. replace (f_log e1) with (f_log e1') in Ef by apply put_model. pose proof (Flush_set_up _ _ _ _ _ _ Ef) as [Su _].
  assert (F2 : frame e1' (set_log (put_sc e1' (f_sc e1) sc2) log2)) by (eapply frame_trans; [eapply frame_put; eauto|apply frame_log]).
  exists n, xs. split; [|split].
  - replace (f_model e) with (f_model e0) by apply put_model. rewrite M1. cbn [f_model set_log]. rewrite (proj1 (put_model e1' _ _)). unfold e1'. now rewrite (proj1 (put_model e1 _ _)).
  - eapply frame_trans; [exact F0|]. eapply frame_trans; [exact F1|]. eapply frame_trans; eauto.
  - intros id i A S. pose proof (frame_sole _ _ _ _ F0 S) as S0. pose proof (frame_sole _ _ _ _ F1 S0) as S1. pose proof (frame_sole _ _ _ _ F1' S1) as S1'.
    assert (G0 : gain id i e e0 []).
    { apply gain_same; [apply put_model|]. unfold e0. rewrite (pending_put _ _ _ _ _ Ec). destruct (Nat.eqb_spec i (f_sc e)) as [->|N]; [|reflexivity]. unfold pending. now rewrite Ec. }
    assert (G1' : gain id i e1 e1' []).
    { apply gain_same; [apply put_model|]. unfold e1'. rewrite (pending_put _ _ _ _ _ E1). destruct (Nat.eqb_spec i (f_sc e1)) as [->|N]; [|reflexivity]. unfold pending. now rewrite E1. }
    destruct (flush_gain W id i e1' _ _ _ _ _ A S1' E2 Ef) as [G2 _].
    pose proof (gain_trans _ _ _ _ _ _ _ G0 (gain_trans _ _ _ _ _ _ _ (G1 id i A S0) (gain_trans _ _ _ _ _ _ _ G1' G2))) as G. cbn [app] in G. rewrite app_nil_r, (frame_hearing _ _ i F0) in G. exact G.
Qed.

(** ** Enabling, disabling, making controllers *)
Definition alike (a b : option controller) : Prop :=
  match a, b with Some x, Some y => sc_em y = sc_em x /\ sc_adapter y = sc_adapter x /\ sc_q y = sc_q x | None, None => True | _, _ => False end.
Lemma alike_refl a : alike a a.
Proof. destruct a; [repeat split|exact Logic.I]. Qed.
Record calm (e e' : enforcer) : Prop := Calm {
  cl_model : f_model e' = f_model e; cl_log : f_log e' = f_log e; cl_mid : f_mid e' = f_mid e; cl_sc : f_sc e' = f_sc e; cl_ad : f_adapter e' = f_adapter e;
  cl_scs : forall j, alike (nth_error (f_scs e) j) (nth_error (f_scs e') j) }.
Lemma calm_refl e : calm e e.
Proof. constructor; auto. intros j. apply alike_refl. Qed.
Lemma calm_gain id i e e' : calm e e' -> gain id i e e' [].
Proof.
  intros C. apply gain_same; [exact (cl_log _ _ C)|]. pose proof (cl_scs _ _ C i) as A. unfold pending. destruct (nth_error (f_scs e) i), (nth_error (f_scs e') i); try destruct A; [|reflexivity]. now destruct H0.
Qed.
Lemma calm_sole i id e e' : calm e e' -> sole i id e <-> sole i id e'.
Proof.
  intros C. split; intros [[sc [H1 H2]] H3]; split.
  - pose proof (cl_scs _ _ C i) as A. rewrite H1 in A. destruct (nth_error (f_scs e') i) as [sc'|]; [|destruct A]. exists sc'. split; [reflexivity|]. destruct A as (_ & -> & _). exact H2.
  - intros j sc' Hj Ha. pose proof (cl_scs _ _ C j) as A. rewrite Hj in A. destruct (nth_error (f_scs e) j) as [scj|] eqn:Ej; [|destruct A]. apply (H3 j scj Ej). destruct A as (_ & A & _). congruence.
  - pose proof (cl_scs _ _ C i) as A. rewrite H1 in A. destruct (nth_error (f_scs e) i) as [sc'|]; [|destruct A]. exists sc'. split; [reflexivity|]. destruct A as (_ & A & _). congruence.
  - intros j sc' Hj Ha. pose proof (cl_scs _ _ C j) as A. rewrite Hj in A. destruct (nth_error (f_scs e') j) as [scj|] eqn:Ej; [|destruct A]. apply (H3 j scj Ej). destruct A as (_ & A & _). congruence.
Qed.
Lemma calm_length e e' : calm e e' -> List.length (f_scs e') = List.length (f_scs e).
Proof.
  intros F. assert (X : forall n, n < List.length (f_scs e) <-> n < List.length (f_scs e')).
  { intros n. rewrite <- !nth_error_Some. pose proof (cl_scs _ _ F n) as L. destruct (nth_error (f_scs e) n), (nth_error (f_scs e') n); try destruct L; split; congruence. }
  pose proof (X (List.length (f_scs e))). pose proof (X (List.length (f_scs e'))). lia.
Qed.
Lemma put_listen e i sc b : nth_error (f_scs e) i = Some sc -> calm e (put_sc e i (listen sc b)) /\ forall j, hearing j (put_sc e i (listen sc b)) = if Nat.eqb j i then b && Nat.eqb (sc_em sc) (f_mid e) else hearing j e.
Proof.
  intros H. rewrite (put_nth _ _ _ _ H). split.
  - constructor; auto. intros j. cbn [f_scs set_scs]. rewrite (nth_upd _ _ _ _ H). destruct (Nat.eqb_spec j i) as [->|]; [rewrite H; repeat split|apply alike_refl].
  - intros j. unfold hearing. cbn [f_scs set_scs f_mid]. rewrite (nth_upd _ _ _ _ H). now destruct (Nat.eqb j i).
Qed.
Lemma calm_em e em : calm e (set_em e em) /\ forall j, hearing j (set_em e em) = hearing j e.
Proof. split; [constructor; auto; intros j; apply alike_refl|reflexivity]. Qed.
Lemma calm_trans a b c : calm a b -> calm b c -> calm a c.
Proof.
  intros [A1 A2 A3 A4 A5 A6] [B1 B2 B3 B4 B5 B6]. constructor; try congruence. intros j. specialize (A6 j). specialize (B6 j).
  destruct (nth_error (f_scs a) j), (nth_error (f_scs b) j), (nth_error (f_scs c) j); cbn in *; try tauto. destruct A6 as (-> & -> & ->) in B6. exact B6.
Qed.
Lemma calm_mid e e' : calm e e' -> (forall i sc, nth_error (f_scs e) i = Some sc -> sc_em sc <= f_mid e) -> forall i sc, nth_error (f_scs e') i = Some sc -> sc_em sc <= f_mid e'.
Proof.
  intros C H i sc Hi. pose proof (cl_scs _ _ C i) as A. rewrite Hi in A. destruct (nth_error (f_scs e) i) as [sc0|] eqn:E0; [|destruct A]. destruct A as (-> & _). rewrite (cl_mid _ _ C). eauto.
Qed.

(** Everything but that the current controller exists. *)
Record EWf (e : enforcer) : Prop := mkEWf {
  e_nodup : NoDup (f_em e);
  e_em : forall i, In i (f_em e) <-> hearing i e = true;
  e_mid : forall i sc, nth_error (f_scs e) i = Some sc -> sc_em sc <= f_mid e }.
Lemma wf_e e : KWf e <-> f_sc e < List.length (f_scs e) /\ EWf e.
Proof. split; [intros [A B C D]; split; [exact A|now constructor]|intros [A [B C D]]; now constructor]. Qed.

Lemma enable_spec e i : EWf e -> calm e (Enable e i) /\ EWf (Enable e i) /\
  forall j, hearing j (Enable e i) = if Nat.eqb j i then match nth_error (f_scs e) i with Some sc => Nat.eqb (sc_em sc) (f_mid e) | None => false end else hearing j e.
Proof.
  intros K. unfold Enable. destruct (nth_error (f_scs e) i) as [sc|] eqn:Ei.
  2: { split; [apply calm_refl|]. split; [exact K|]. intros j. destruct (Nat.eqb_spec j i) as [->|]; [|reflexivity]. unfold hearing. now rewrite Ei. }
  destruct (sc_listening sc) eqn:El.
  { split; [apply calm_refl|]. split; [exact K|]. intros j. destruct (Nat.eqb_spec j i) as [->|]; [|reflexivity]. unfold hearing. now rewrite Ei, El. }
  destruct (put_listen e i sc true Ei) as [C H]. set (e1 := put_sc e i (listen sc true)) in *. assert (Em1 : f_em e1 = f_em e /\ f_mid e1 = f_mid e) by (unfold e1; rewrite (put_nth _ _ _ _ Ei); auto). destruct Em1 as [Em1 Mi1].
  rewrite Mi1. destruct (Nat.eqb_spec (sc_em sc) (f_mid e)) as [Q|Q].
  - destruct (calm_em e1 (f_em e1 ++ [i])) as [C2 H2]. pose proof (calm_trans _ _ _ C C2) as C3. split; [exact C3|]. split.
    + constructor; [cbn [f_em set_em]; rewrite Em1|intros j; rewrite H2, H; cbn [f_em set_em]; rewrite Em1|exact (calm_mid _ _ C3 (e_mid _ K))].
      * apply NoDup_Add with (a := i) (l := f_em e); [rewrite <- (app_nil_r (f_em e)) at 1; apply Add_app|]. split; [apply K|]. rewrite (e_em _ K). unfold hearing. rewrite Ei, El. discriminate.
      * rewrite in_app_iff, (e_em _ K). cbn [In]. destruct (Nat.eqb_spec j i) as [->|N]; [|intuition congruence]. cbn. tauto.
    + intros j. rewrite H2, H. reflexivity.
  - split; [exact C|]. split.
    + constructor; [rewrite Em1; apply K|intros j; rewrite Em1, H, (e_em _ K)|exact (calm_mid _ _ C (e_mid _ K))]. destruct (Nat.eqb_spec j i) as [->|N]; [|reflexivity]. unfold hearing. rewrite Ei, El.
      destruct (Nat.eqb_spec (sc_em sc) (f_mid e)); [contradiction|]. cbn. split; discriminate.
    + intros j. rewrite H. reflexivity.
Qed.
Lemma disable_spec e i : EWf e -> calm e (Disable e i) /\ EWf (Disable e i) /\ forall j, hearing j (Disable e i) = if Nat.eqb j i then false else hearing j e.
Proof.
  intros K. unfold Disable. destruct (nth_error (f_scs e) i) as [sc|] eqn:Ei.
  2: { split; [apply calm_refl|]. split; [exact K|]. intros j. destruct (Nat.eqb_spec j i) as [->|]; [|reflexivity]. unfold hearing. now rewrite Ei. }
  destruct (put_listen e i sc false Ei) as [C H]. set (e1 := put_sc e i (listen sc false)) in *. assert (Em1 : f_em e1 = f_em e /\ f_mid e1 = f_mid e) by (unfold e1; rewrite (put_nth _ _ _ _ Ei); auto). destruct Em1 as [Em1 Mi1].
  rewrite Mi1. destruct (Nat.eqb_spec (sc_em sc) (f_mid e)) as [Q|Q].
  - destruct (calm_em e1 (filter (fun j => negb (Nat.eqb j i)) (f_em e1))) as [C2 H2]. pose proof (calm_trans _ _ _ C C2) as C3. split; [exact C3|]. split.
    + constructor; [cbn [f_em set_em]; rewrite Em1|intros j; rewrite H2, H; cbn [f_em set_em]; rewrite Em1|exact (calm_mid _ _ C3 (e_mid _ K))].
      * apply NoDup_filter, K.
      * rewrite filter_In, (e_em _ K). destruct (Nat.eqb_spec j i) as [->|N]; cbn; intuition congruence.
    + intros j. rewrite H2, H. reflexivity.
  - split; [exact C|]. split.
    + constructor; [rewrite Em1; apply K|intros j; rewrite Em1, H, (e_em _ K)|exact (calm_mid _ _ C (e_mid _ K))]. destruct (Nat.eqb_spec j i) as [->|N]; [|reflexivity]. unfold hearing. rewrite Ei.
      destruct (Nat.eqb_spec (sc_em sc) (f_mid e)); [contradiction|]. rewrite andb_false_r. split; discriminate.
    + intros j. rewrite H. reflexivity.
Qed.
Lemma calm_wf e e' : KWf e -> calm e e' -> EWf e' -> KWf e'.
Proof. intros K C E. apply wf_e. split; [|exact E]. rewrite (cl_sc _ _ C), (calm_length _ _ C). apply K. Qed.
Lemma k_e e : KWf e -> EWf e.
Proof. intros K. now apply wf_e in K. Qed.

(** A further controller. *)
Definition grown (e : enforcer) (sc : controller) : enforcer := set_scs e (f_scs e ++ [sc]).
Lemma grown_spec e sc : EWf e -> sc_listening sc = false -> sc_em sc = f_mid e ->
  EWf (grown e sc) /\ (forall j, hearing j (grown e sc) = hearing j e) /\ (forall j, j < List.length (f_scs e) -> pending j (grown e sc) = pending j e) /\
  forall i id, i < List.length (f_scs e) -> sole i id (grown e sc) -> sole i id e.
Proof.
  intros K L M. assert (H : forall j, hearing j (grown e sc) = hearing j e).
  { intros j. unfold hearing, grown. cbn [f_scs set_scs f_mid]. destruct (Nat.lt_ge_cases j (List.length (f_scs e))) as [J|J]; [now rewrite nth_error_app1|].
    rewrite nth_error_app2 by exact J. apply nth_error_None in J as J2. rewrite J2. destruct (j - List.length (f_scs e)) as [|k]; cbn; [now rewrite L|now destruct k]. }
  split; [constructor|]; [exact (e_nodup _ K)|intros j; rewrite H; apply K| |].
  - intros i s Hi. unfold grown in *. cbn [f_scs set_scs f_mid] in *. destruct (Nat.lt_ge_cases i (List.length (f_scs e))) as [J|J]; [rewrite nth_error_app1 in Hi by exact J; exact (e_mid _ K i s Hi)|].
    rewrite nth_error_app2 in Hi by exact J. destruct (i - List.length (f_scs e)) as [|k]; cbn in Hi; [injection Hi as <-; lia|destruct k; discriminate].
  - split; [exact H|]. split.
    + intros j J. unfold pending, grown. cbn [f_scs set_scs]. now rewrite nth_error_app1.
    + intros i id J [[s [H1 H2]] H3]. unfold grown in *. cbn [f_scs set_scs] in *. rewrite nth_error_app1 in H1 by exact J. split; [eauto|].
      intros j s2 Hj Ha. apply (H3 j s2); [|exact Ha]. rewrite nth_error_app1; [exact Hj|]. apply nth_error_Some. congruence.
Qed.

Lemma new_spec e a b : EWf e ->
  let e' := NewController e a b in
  EWf e' /\ f_model e' = f_model e /\ f_log e' = f_log e /\ f_sc e' = f_sc e /\ f_adapter e' = f_adapter e /\ List.length (f_scs e') = S (List.length (f_scs e)) /\
  (forall j, j < List.length (f_scs e) -> hearing j e' = hearing j e /\ pending j e' = pending j e) /\
  (forall i id, i < List.length (f_scs e) -> sole i id e' -> sole i id e).
Proof.
  intros K. cbv zeta. unfold NewController. set (sc := mkSc b (f_mid e) a [] 0 false). fold (grown e sc).
  destruct (grown_spec e sc K eq_refl eq_refl) as (K1 & H1 & P1 & S1). destruct (enable_spec (grown e sc) (List.length (f_scs e)) K1) as (C & K2 & H2).
  split; [exact K2|]. split; [exact (cl_model _ _ C)|]. split; [exact (cl_log _ _ C)|]. split; [exact (cl_sc _ _ C)|]. split; [exact (cl_ad _ _ C)|].
  split; [rewrite (calm_length _ _ C); unfold grown; cbn [f_scs set_scs]; rewrite app_length; cbn; lia|]. split.
  - intros j J. split; [rewrite H2; destruct (Nat.eqb_spec j (List.length (f_scs e))); [lia|apply H1]|]. rewrite <- (P1 j J).
    pose proof (cl_scs _ _ C j) as A. unfold pending. destruct (nth_error (f_scs (grown e sc)) j), (nth_error _ j); try destruct A; [|reflexivity]. now destruct H0.
  - intros i id J S. apply (S1 i id J). now apply (calm_sole i id _ _ C).
Qed.
Definition with_cur (e : enforcer) (i : nat) (a : aref) : enforcer := mkEnf (f_model e) (f_mid e) (f_em e) (f_scs e) i a (f_log e).
Lemma set_adapter_new e a : SetAdapter e a = with_cur (NewController (match nth_error (f_scs e) (f_sc e) with Some _ => Disable e (f_sc e) | None => e end) a
  (match nth_error (f_scs e) (f_sc e) with Some sc => sc_autosave sc | None => false end)) (List.length (f_scs e)) a.
Proof.
  unfold SetAdapter, NewController. set (e1 := match nth_error (f_scs e) (f_sc e) with Some _ => Disable e (f_sc e) | None => e end).
  assert (L : List.length (f_scs e1) = List.length (f_scs e)).
  { unfold e1. destruct (nth_error (f_scs e) (f_sc e)) as [sc|] eqn:Ec; [|reflexivity]. unfold Disable. rewrite Ec. rewrite (put_nth _ _ _ _ Ec).
    assert (X : List.length (upd (f_scs e) (f_sc e) (listen sc false)) = List.length (f_scs e)).
    { unfold upd. assert (f_sc e < List.length (f_scs e)) by (apply nth_error_Some; congruence). rewrite app_length, firstn_length. cbn [List.length]. rewrite skipn_length. lia. }
    destruct (Nat.eqb _ _); exact X. }
  rewrite L. reflexivity.
Qed.
Lemma set_adapter_ok e a : EWf e ->
  let e' := SetAdapter e a in
  KWf e' /\ f_model e' = f_model e /\ f_log e' = f_log e /\ f_sc e' = List.length (f_scs e) /\
  (forall j, j < List.length (f_scs e) -> (j <> f_sc e -> hearing j e' = hearing j e) /\ pending j e' = pending j e) /\
  (forall i id, i < List.length (f_scs e) -> sole i id e' -> sole i id e).
Proof.
  intros K. cbv zeta. rewrite set_adapter_new. set (b := match nth_error (f_scs e) (f_sc e) with Some sc => sc_autosave sc | None => false end). clearbody b.
  set (e1 := match nth_error (f_scs e) (f_sc e) with Some _ => Disable e (f_sc e) | None => e end).
  assert (X : calm e e1 /\ EWf e1 /\ forall j, j <> f_sc e -> hearing j e1 = hearing j e).
  { unfold e1. destruct (nth_error (f_scs e) (f_sc e)); [|split; [apply calm_refl|auto]]. destruct (disable_spec e (f_sc e) K) as (C & D & H). split; [exact C|]. split; [exact D|].
    intros j J. rewrite H. destruct (Nat.eqb_spec j (f_sc e)); [contradiction|reflexivity]. }
  destruct X as (C & K1 & H1). clearbody e1. pose proof (calm_length _ _ C) as L. destruct (new_spec e1 a b K1) as (K2 & M2 & L2 & _ & _ & N2 & J2 & S2). cbv zeta in *. set (e2 := NewController e1 a b) in *.
  split; [apply wf_e; split; [cbn [f_sc with_cur f_scs]; lia|constructor; [exact (e_nodup _ K2)|exact (e_em _ K2)|exact (e_mid _ K2)]]|].
  split; [cbn [f_model with_cur]; now rewrite M2, (cl_model _ _ C)|]. split; [cbn [f_log with_cur]; now rewrite L2, (cl_log _ _ C)|]. split; [reflexivity|]. split.
  - intros j J. rewrite <- L in J. destruct (J2 j J) as [Q1 Q2]. split; [intros N; change (hearing j (with_cur e2 (List.length (f_scs e)) a)) with (hearing j e2); rewrite Q1; now apply H1|].
    change (pending j (with_cur e2 (List.length (f_scs e)) a)) with (pending j e2). rewrite Q2. pose proof (cl_scs _ _ C j) as A. unfold pending. destruct (nth_error (f_scs e) j), (nth_error (f_scs e1) j); try destruct A; [|reflexivity]. now destruct H0.
  - intros i id J S. apply (calm_sole i id _ _ C). apply S2; [lia|exact S].
Qed.
Lemma frame_pending_hear e e' : frame e e' -> forall j, hearing j e' = hearing j e.
Proof. intros F j. now apply frame_hearing. Qed.

(** ** One call *)
Definition step_ok (E : env) (W : world) (os : nat -> orders) (e : enforcer) (c : kcall) (e' : enforcer) : Prop :=
  KWf e' /\ List.length (f_scs e) <= List.length (f_scs e') /\
  (forall i id, i < List.length (f_scs e) -> sole i id e' -> sole i id e) /\
  (forall i k, i < List.length (f_scs e) -> keeps_hearing i k c -> (k = f_sc e \/ (k <> i /\ f_sc e <> i)) -> hearing i e = true -> hearing i e' = true /\ (k = f_sc e' \/ (k <> i /\ f_sc e' <> i))) /\
  exists hm xs, k_part W os e c hm /\ mexec E (f_model e) hm = Val (f_model e', xs) /\
    forall i id, accepts W id -> i < List.length (f_scs e) -> sole i id e' ->
      (c <> KEnf ESave -> gain id i e e' (told i e c (announced xs))) /\
      (c = KEnf ESave -> xs = [] /\ pending i e' = pending i e /\ exists es, f_log e' = f_log e ++ es /\ accepted id es = [] /\
         (nosave id es \/ es = [mkEntry id (CSavePolicy (model_rules (os 0) (f_model e))) None])).
Lemma told_nil i e c : told i e c [] = [].
Proof. destruct c as [c| | | | | |]; try (cbn; now destruct (hearing i e)). destruct c; cbn; try (now destruct (hearing i e)). now destruct (_ && _). Qed.
Lemma frame_sole_iff e e' i id : frame e e' -> sole i id e' -> sole i id e.
Proof.
  intros [_ _ _ _ A5] [[sc [H1 H2]] H3]. split.
  - specialize (A5 i). rewrite H1 in A5. destruct (nth_error (f_scs e) i) as [sc'|]; [|destruct A5]. exists sc'. split; [reflexivity|]. destruct A5 as (_ & A & _). congruence.
  - intros j sc' Hj Ha. specialize (A5 j). rewrite Hj in A5. destruct (nth_error (f_scs e') j) as [scj|] eqn:Ej; [|destruct A5]. destruct A5 as (_ & Ea & _). apply (H3 j scj Ej). congruence.
Qed.
(** Calls that leave the controllers as they are. *)
Lemma framed_ok E W os e c e' hm xs : KWf e -> frame e e' -> c <> KEnf ESave -> (forall i ops, told i e c ops = if hearing i e then ops else []) ->
  k_part W os e c hm -> mexec E (f_model e) hm = Val (f_model e', xs) ->
  (forall id i, accepts W id -> sole i id e -> gain id i e e' (if hearing i e then announced xs else [])) -> step_ok E W os e c e'.
Proof.
  intros K F N T P M G. split; [exact (frame_wf _ _ F K)|]. split; [rewrite (frame_length _ _ F); apply le_n|]. split; [intros i id _; exact (frame_sole_iff _ _ i id F)|]. split.
  - intros i k _ _ Hk H. rewrite (frame_hearing _ _ i F), (fr_sc _ _ F). auto.
  - exists hm, xs. split; [exact P|]. split; [exact M|]. intros i id A J S. split; [|intros ->; now destruct N]. intros _. rewrite T. apply G; [exact A|]. exact (frame_sole_iff _ _ i id F S).
Qed.
(** Calls that change nothing but which controllers are enabled. *)
Lemma calm_ok E W os e c e' : KWf e -> calm e e' -> EWf e' -> c <> KEnf ESave -> k_part W os e c [] ->
  (forall i k, i < List.length (f_scs e) -> keeps_hearing i k c -> (k = f_sc e \/ (k <> i /\ f_sc e <> i)) -> hearing i e = true -> hearing i e' = true) -> step_ok E W os e c e'.
Proof.
  intros K C E' N P H. split; [exact (calm_wf _ _ K C E')|]. split; [rewrite (calm_length _ _ C); apply le_n|]. split; [intros i id _ S; now apply (calm_sole i id _ _ C)|]. split.
  - intros i k J Q Hk X. split; [exact (H i k J Q Hk X)|]. now rewrite (cl_sc _ _ C).
  - exists [], []. split; [exact P|]. split; [cbn [mexec]; now rewrite (cl_model _ _ C)|]. intros i id A J S. split; [|intros ->; now destruct N]. intros _. rewrite told_nil. now apply calm_gain.
Qed.
Lemma put_ok E W os e c j sc sc' : KWf e -> nth_error (f_scs e) j = Some sc -> same_set_up sc sc' -> sc_q sc' = sc_q sc -> c <> KEnf ESave -> k_part W os e c [] ->
  (forall i ops, told i e c ops = if hearing i e then ops else []) -> step_ok E W os e c (put_sc e j sc').
Proof.
  intros K Hj Su Q N P T. apply (framed_ok E W os e c _ [] []); auto; [eapply frame_put; eauto|cbn; now rewrite (proj1 (put_model e j sc'))|].
  intros id i A S. cut (gain id i e (put_sc e j sc') []); [now destruct (hearing i e)|]. apply gain_same; [apply put_model|]. rewrite (pending_put _ _ _ _ _ Hj). destruct (Nat.eqb_spec i j) as [->|]; [|reflexivity]. unfold pending. now rewrite Hj, Q.
Qed.
Lemma flush_step E W os e c j sc sc' log' err : KWf e -> nth_error (f_scs e) j = Some sc -> Flush W sc (f_log e) = (sc', log', err) -> c <> KEnf ESave -> k_part W os e c [] ->
  (forall i ops, told i e c ops = if hearing i e then ops else []) -> step_ok E W os e c (set_log (put_sc e j sc') log').
Proof.
  intros K Hj Ef N P T. pose proof (Flush_set_up _ _ _ _ _ _ Ef) as [Su _]. apply (framed_ok E W os e c _ [] []); auto; [eapply frame_trans; [eapply frame_put; eauto|apply frame_log]| |].
  - cbn. now rewrite (proj1 (put_model e j sc')).
  - intros id i A S. destruct (flush_gain W id i e j sc sc' log' err A S Hj Ef) as [G _]. now destruct (hearing i e).
Qed.

Lemma load_ok E W os e e' r : KWf e -> estep E W os e ELoad = Val (e', r) -> step_ok E W os e (KEnf ELoad) e'.
Proof.
  intros K H. cbn [estep] in H. apply obind_val in H as [[e1 err] [H Hr]]. injection Hr as -> <-. unfold LoadPolicy in H.
  destruct (nth_error (f_scs e) (f_sc e)) as [sc|] eqn:Ec; [|discriminate]. apply obind_val in H as [[e2 err2] [H Hr]]. injection Hr as Hr _.
  set (e0 := if sc_listening sc then Disable e (f_sc e) else e) in *.
  assert (X : calm e e0 /\ KWf e0 /\ hearing (f_sc e) e0 = false /\ forall j, j <> f_sc e -> hearing j e0 = hearing j e).
  { unfold e0. destruct (sc_listening sc) eqn:El.
    - destruct (disable_spec e (f_sc e) (k_e _ K)) as (C & D & Q). split; [exact C|]. split; [exact (calm_wf _ _ K C D)|]. split; [rewrite Q; now rewrite Nat.eqb_refl|]. intros j J. rewrite Q. destruct (Nat.eqb_spec j (f_sc e)); [contradiction|reflexivity].
    - split; [apply calm_refl|]. split; [exact K|]. split; [|reflexivity]. unfold hearing. now rewrite Ec, El. }
  destruct X as (C0 & K0 & Q0 & Q1).
  assert (Y : exists hm xs, k_part W os e (KEnf ELoad) hm /\ mexec E (f_model e0) hm = Val (f_model e2, xs) /\ frame e0 e2 /\
            forall id i, accepts W id -> sole i id e0 -> gain id i e0 e2 (if hearing i e0 then announced xs else [])).
  { cbn [k_part]. rewrite <- (cl_ad _ _ C0), <- (cl_log _ _ C0). destruct (f_adapter e0) as [| |ld] eqn:Ea; [discriminate| |].
    - injection H as <- <-. exists [], []. split; [reflexivity|]. split; [reflexivity|]. split; [apply frame_refl|]. intros id i _ _. destruct (hearing i e0); now apply gain_same.
    - unfold load_from in H. apply obind_val in H as [[e3 err3] [H Hr3]]. injection Hr3 as -> _. set (src := w_load W (f_log e0) ld) in *.
      set (e00 := set_log e0 (f_log e0 ++ [mkEntry ld CLoadPolicy (snd src)])) in *. pose proof (frame_log e0 (f_log e0 ++ [mkEntry ld CLoadPolicy (snd src)])) as F0. fold e00 in F0.
      destruct (loop_gain E W CAdd (fst src) os e00 e2 err3 (frame_wf _ _ F0 K0) H) as (n & xs & M & F & G). exists (firstn n (rule_calls os CAdd (fst src))), xs.
      split; [eauto|]. split; [exact M|]. split; [eapply frame_trans; eauto|]. intros id i A S.
      assert (G0 : gain id i e0 e00 []).
      { exists [mkEntry ld CLoadPolicy (snd src)]. split; [reflexivity|]. split; [constructor; [intros _ rs; discriminate|constructor]|]. rewrite app_nil_r. unfold accepted. cbn [flat_map en_id en_err en_call changes].
        destruct (Nat.eqb ld id); [|reflexivity]. destruct (snd src); reflexivity. }
      pose proof (gain_trans _ _ _ _ _ _ _ G0 (G id i A (frame_sole _ _ _ _ F0 S))) as G1. rewrite (frame_hearing _ _ i F0) in G1. exact G1. }
  destruct Y as (hm & xs & P & M & F & G). pose proof (frame_wf _ _ F K0) as K2.
  assert (Z : calm e2 e' /\ KWf e' /\ forall j, j <> f_sc e -> hearing j e' = hearing j e2).
  { subst e'. destruct (sc_listening sc); [|split; [apply calm_refl|auto]]. destruct (enable_spec e2 (f_sc e2) (k_e _ K2)) as (C & D & Q).
    assert (Es : f_sc e2 = f_sc e) by (rewrite (fr_sc _ _ F); exact (cl_sc _ _ C0)). rewrite Es in *. split; [exact C|]. split; [exact (calm_wf _ _ K2 C D)|]. intros j J. rewrite Q. destruct (Nat.eqb_spec j (f_sc e)); [contradiction|reflexivity]. }
  destruct Z as (C2 & K3 & Q3).
  assert (Es : f_sc e' = f_sc e) by (rewrite (cl_sc _ _ C2), (fr_sc _ _ F); exact (cl_sc _ _ C0)).
  assert (Ln : List.length (f_scs e') = List.length (f_scs e)) by (rewrite (calm_length _ _ C2), (frame_length _ _ F); exact (calm_length _ _ C0)).
  assert (So : forall i id, sole i id e' -> sole i id e0) by (intros i id S; apply (frame_sole_iff _ _ i id F); now apply (calm_sole i id _ _ C2)).
  split; [exact K3|]. split; [rewrite Ln; apply le_n|]. split; [intros i id _ S; apply (calm_sole i id _ _ C0); auto|]. split.
  - intros i k J Kh Hk Hh. cbn [keeps_hearing] in Kh. assert (N : i <> f_sc e) by (destruct Hk as [->|[_ N]]; congruence). split; [|now rewrite Es].
    rewrite (Q3 i N), (frame_hearing _ _ i F), (Q1 i N). exact Hh.
  - exists hm, xs. split; [exact P|]. split; [rewrite <- (cl_model _ _ C0), M; now rewrite (cl_model _ _ C2)|]. intros i id A J S. split; [|discriminate]. intros _.
    pose proof (gain_trans _ _ _ _ _ _ _ (calm_gain id i _ _ C0) (gain_trans _ _ _ _ _ _ _ (G id i A (So i id S)) (calm_gain id i _ _ C2))) as G1. cbn [app] in G1. rewrite app_nil_r in G1.
    cbn [told]. destruct (Nat.eqb_spec i (f_sc e)) as [->|N]; [rewrite Q0 in G1; now rewrite andb_false_r|]. rewrite (Q1 i N) in G1. cbn [negb]. now rewrite andb_true_r.
Qed.

Lemma set_adapter_step E W os e a : KWf e -> step_ok E W os e (KEnf (ESetAdapter a)) (SetAdapter e a).
Proof.
  intros K. destruct (set_adapter_ok e a (k_e _ K)) as (K1 & M1 & L1 & S1 & J1 & So). cbv zeta in *. set (e' := SetAdapter e a) in *.
  split; [exact K1|]. split; [|split; [exact So|split]].
  - apply Nat.lt_le_incl. rewrite <- S1. exact (k_cur _ K1).
  - intros i k J Kh Hk Hh. cbn [keeps_hearing] in Kh. assert (N : i <> f_sc e) by (destruct Hk as [->|[_ N]]; congruence). split; [now rewrite (proj1 (J1 i J) N)|]. right. split; [exact Kh|]. rewrite S1. lia.
  - exists [], []. split; [reflexivity|]. split; [cbn [mexec]; now rewrite M1|]. intros i id _ J S. split; [|discriminate]. intros _. rewrite told_nil. apply gain_same; [exact L1|]. apply (J1 i J).
Qed.
Lemma step_spec E W os e c e' r : KWf e -> one_model c -> kstep E W os e c = Val (e', r) -> step_ok E W os e c e'.
Proof.
  intros K O H. destruct c as [c|a b|j|j|j|j b|j n]; cbn [kstep] in H.
  - destruct c; cbn [one_model] in O; try contradiction; try (cbn [estep] in H).
    + apply obind_val in H as [[e1 x] [H Hr]]. injection Hr as -> <-. destruct (call_gain E W _ _ _ _ _ K H) as (F & M & G). eapply (framed_ok E W os e _ e' [(os 0, c)] [x]); auto; [discriminate|reflexivity|]. cbn [mexec]. now rewrite M.
    + apply obind_val in H as [[e1 err] [H Hr]]. injection Hr as -> <-. destruct (rules_gain E W _ _ _ _ _ _ K H) as (n & xs & M & F & G). eapply (framed_ok E W os e _ e' _ xs); eauto; [discriminate|cbn; eauto].
    + apply obind_val in H as [[e1 err] [H Hr]]. injection Hr as -> <-. destruct (rules_gain E W _ _ _ _ _ _ K H) as (n & xs & M & F & G). eapply (framed_ok E W os e _ e' _ xs); eauto; [discriminate|cbn; eauto].
    + destruct (nth_error (f_scs e) (f_sc e)) as [sc|] eqn:Ec; [|discriminate]. destruct (Flush W sc (f_log e)) as [[sc' log'] err] eqn:Ef. injection H as <- <-. eapply flush_step; eauto; [discriminate|reflexivity].
    + apply obind_val in H as [[e1 err] [H Hr]]. injection Hr as -> <-. unfold SavePolicy in H.
      assert (X : exists es, e' = set_log e (f_log e ++ es) /\ forall id, accepts W id -> accepted id es = [] /\ (nosave id es \/ es = [mkEntry id (CSavePolicy (model_rules (os 0) (f_model e))) None])).
      { destruct (f_adapter e) as [| |k]; [discriminate| |]; cbn [ask] in H; injection H as <- <-.
        - exists []. rewrite app_nil_r. split; [reflexivity|]. intros id _. split; [reflexivity|]. left. constructor.
        - eexists. split; [reflexivity|]. intros id A. split; [unfold accepted; cbn [flat_map en_id en_err en_call changes]; destruct (Nat.eqb k id); [|reflexivity]; match goal with |- context [w_answer W ?l ?a ?b] => destruct (w_answer W l a b) end; reflexivity|].
          destruct (Nat.eqb_spec k id) as [->|N]; [right; now rewrite (proj2 A)|]. left. constructor; [|constructor]. cbn [en_id]. intros Q. congruence. }
      destruct X as (es & -> & X). pose proof (frame_log e (f_log e ++ es)) as F. split; [exact (frame_wf _ _ F K)|]. split; [apply le_n|]. split; [intros i id _; exact (frame_sole_iff _ _ i id F)|]. split; [intros i k _ _ Hk Hh; split; auto|].
      exists [], []. split; [reflexivity|]. split; [reflexivity|]. intros i id A J S. split; [intros N; now destruct N|]. intros _. split; [reflexivity|]. split; [reflexivity|]. exists es. split; [reflexivity|]. now apply X.
    + now apply (load_ok E W os e e' r).
    + injection H as <- <-. now apply set_adapter_step.
    + injection H as <- <-. destruct op as [b|[|]]; cbn [SetOption].
      * destruct (nth_error (f_scs e) (f_sc e)) as [sc|] eqn:Ec; [|exfalso; apply nth_error_None in Ec; pose proof (k_cur _ K); lia]. eapply put_ok; eauto; [repeat split|discriminate|reflexivity].
      * destruct (enable_spec e (f_sc e) (k_e _ K)) as (C & D & Q). apply calm_ok; auto; [discriminate|reflexivity|]. intros i k J Kh Hk Hh. rewrite Q. destruct (Nat.eqb_spec i (f_sc e)) as [->|]; [|exact Hh].
        unfold hearing in Hh. destruct (nth_error (f_scs e) (f_sc e)); [|discriminate]. now apply andb_true_iff in Hh.
      * destruct (disable_spec e (f_sc e) (k_e _ K)) as (C & D & Q). apply calm_ok; auto; [discriminate|reflexivity|]. intros i k J Kh Hk Hh. cbn [keeps_hearing] in Kh. rewrite Q. destruct (Nat.eqb_spec i (f_sc e)) as [Qi|]; [|exact Hh]. destruct Hk as [->|[_ N]]; congruence.
    + destruct (nth_error (f_scs e) (f_sc e)) as [sc|] eqn:Ec; [|discriminate]. injection H as <- <-. eapply put_ok; eauto; [repeat split|discriminate|reflexivity].
  - injection H as <- <-. destruct (new_spec e a b (k_e _ K)) as (K1 & M1 & L1 & S1 & A1 & N1 & J1 & So). cbv zeta in *. set (e' := NewController e a b) in *.
    split; [apply wf_e; split; [rewrite N1, S1; pose proof (k_cur _ K); lia|exact K1]|]. split; [lia|]. split; [exact So|]. split.
    + intros i k J _ Hk Hh. rewrite (proj1 (J1 i J)), S1. auto.
    + exists [], []. split; [reflexivity|]. split; [cbn [mexec]; now rewrite M1|]. intros i id _ J S. split; [|discriminate]. intros _. rewrite told_nil. apply gain_same; [exact L1|]. apply (J1 i J).
  - destruct (nth_error (f_scs e) j) as [sc|] eqn:Ec; [|discriminate]. destruct (Flush W sc (f_log e)) as [[sc' log'] err] eqn:Ef. injection H as <- <-. eapply flush_step; eauto; [discriminate|reflexivity].
  - injection H as <- <-. destruct (enable_spec e j (k_e _ K)) as (C & D & Q). apply calm_ok; auto; [discriminate|reflexivity|]. intros i k J Kh Hk Hh. rewrite Q. destruct (Nat.eqb_spec i j) as [->|]; [|exact Hh].
    unfold hearing in Hh. destruct (nth_error (f_scs e) j); [|discriminate]. now apply andb_true_iff in Hh.
  - injection H as <- <-. destruct (disable_spec e j (k_e _ K)) as (C & D & Q). apply calm_ok; auto; [discriminate|reflexivity|]. intros i k J Kh Hk Hh. cbn [keeps_hearing] in Kh. rewrite Q. destruct (Nat.eqb_spec i j); [congruence|exact Hh].
  - destruct (nth_error (f_scs e) j) as [sc|] eqn:Ec; [|discriminate]. injection H as <- <-. eapply put_ok; eauto; [repeat split|discriminate|reflexivity].
  - destruct (nth_error (f_scs e) j) as [sc|] eqn:Ec; [|discriminate]. injection H as <- <-. eapply put_ok; eauto; [repeat split|discriminate|reflexivity].
Qed.

(** ** The states that can be reached *)
Lemma model_wf E W os e m e' r : KWf e -> kstep E W os e (KEnf (ESetModel m)) = Val (e', r) -> KWf e'.
Proof.
  intros K H. cbn [kstep estep] in H. injection H as <- <-. constructor; cbn [f_sc f_scs f_em f_mid].
  - exact (k_cur _ K).
  - constructor.
  - intros j. unfold hearing. cbn [f_scs f_mid]. split; [contradiction|]. intros Hh. exfalso. destruct (nth_error (f_scs e) j) as [sc|] eqn:Ej; [|discriminate]. apply andb_true_iff in Hh as [_ Hh]. apply Nat.eqb_eq in Hh.
    pose proof (k_mid _ K j sc Ej). lia.
  - intros j sc Hj. pose proof (k_mid _ K j sc Hj). lia.
Qed.
Lemma kexec_wf E W h : forall e e' rs, KWf e -> kexec E W e h = Val (e', rs) -> KWf e'.
Proof.
  induction h as [|[os c] h IH]; intros e e' rs K H; cbn [kexec] in H; [injection H as <- _; exact K|].
  apply obind_val in H as [[e1 r] [H1 H]]. apply obind_val in H as [[e2 rs2] [H2 H]]. injection H as <- _. apply (IH e1 e2 rs2); [|exact H2].
  assert (D : one_model c \/ exists m, c = KEnf (ESetModel m)) by (destruct c as [c| | | | | |]; try (left; exact I); destruct c; try (left; exact I); right; eauto).
  destruct D as [D|[m ->]]; [exact (proj1 (step_spec E W os e c e1 r K D H1))|exact (model_wf E W os e m e1 r K H1)].
Qed.
Lemma start_e m : EWf (mkEnf m 0 [] [] 0 ANil []).
Proof. constructor; cbn; [constructor|intros j; unfold hearing; cbn; destruct j; cbn; split; (contradiction || discriminate)|intros j sc; destruct j; discriminate]. Qed.
Lemma option_wf (E : env) (W : world) (os : nat -> orders) e op : KWf e -> KWf (SetOption e op).
Proof. intros K. exact (proj1 (step_spec E W os e (KEnf (EOption op)) _ _ K I eq_refl)). Qed.
Lemma options_wf (E : env) (W : world) (os : nat -> orders) opts : forall e, KWf e -> KWf (fold_left SetOption opts e).
Proof. induction opts as [|op opts IH]; intros e K; cbn [fold_left]; [exact K|]. apply IH. now apply (option_wf E W os). Qed.
Lemma new_wf E W os m arg opts e : NewEnforcer E W os m arg opts = Val (inl e) -> KWf e.
Proof.
  unfold NewEnforcer. set (e0 := mkEnf m 0 [] [] 0 ANil []). intros H. destruct arg as [path|a|].
  - apply obind_val in H as [[e1 err] [H1 H]]. destruct err; [discriminate|]. injection H as <-. apply (options_wf E W os). apply set_adapter_ok.
    unfold load_from in H1. apply obind_val in H1 as [[e2 err2] [H1 H2]]. injection H2 as -> _. destruct (fresh_loop E W _ os e0 e1 err2 eq_refl H1) as (xs & _ & Em & Sc & _).
    constructor; [rewrite Em; constructor|intros j; rewrite Em; unfold hearing; rewrite Sc; cbn; destruct j; cbn; split; (contradiction || discriminate)|intros j sc; rewrite Sc; destruct j; discriminate].
  - injection H as <-. apply (options_wf E W os). apply set_adapter_ok, start_e.
  - injection H as <-. apply (options_wf E W os (OptStorage false :: opts)). apply set_adapter_ok, start_e.
Qed.
Lemma reachable_wf E W e : reachable_controllers E W e -> KWf e.
Proof. intros (os & m & arg & opts & e0 & h & rs & H1 & H2). exact (kexec_wf E W h e0 e rs (new_wf _ _ _ _ _ _ _ H1) H2). Qed.

(** ** Histories *)
Lemma keeps_one i k c : keeps_hearing i k c -> one_model c.
Proof. destruct c as [c| | | | | |]; try exact (fun _ => I). destruct c; cbn; auto. Qed.
Lemma each_exec E W i id : accepts W id -> forall h e e' rs, KWf e -> i < List.length (f_scs e) -> Forall (fun c => one_model (snd c)) h ->
  kexec E W e h = Val (e', rs) -> sole i id e' ->
  sole i id e /\ KWf e' /\ exists hm ops es, khears E W i e h e' hm ops /\ f_log e' = f_log e ++ es /\ accepted id es ++ pending i e' = pending i e ++ ops.
Proof.
  intros A. induction h as [|[os c] h IH]; intros e e' rs K L O H S; cbn [kexec] in H.
  - injection H as <- _. split; [exact S|]. split; [exact K|]. exists [], [], []. split; [constructor|]. rewrite !app_nil_r. split; reflexivity.
  - apply obind_val in H as [[e1 r] [H1 H]]. apply obind_val in H as [[e2 rs2] [H2 H]]. injection H as <- _. inversion O as [|? ? O1 O2]; subst. cbn [snd] in O1.
    destruct (step_spec E W os e c e1 r K O1 H1) as (K1 & N1 & So & _ & hm & xs & P & M & G).
    destruct (IH e1 e2 rs2 K1 (Nat.lt_le_trans _ _ _ L N1) O2 H2 S) as (S1 & K2 & hm2 & ops & es2 & Hh & L2 & Q2).
    split; [exact (So i id L S1)|]. split; [exact K2|]. exists (hm ++ hm2), (told i e c (announced xs) ++ ops). destruct (G i id A L S1) as [G1 G2].
    assert (X : exists es, f_log e1 = f_log e ++ es /\ accepted id es ++ pending i e1 = pending i e ++ told i e c (announced xs)).
    { assert (D : c = KEnf ESave \/ c <> KEnf ESave) by (destruct c as [c| | | | | |]; try (right; discriminate); destruct c; try (right; discriminate); now left).
      destruct D as [D|D].
      - destruct (G2 D) as (-> & Pp & es & L1 & Ac & _). exists es. split; [exact L1|]. rewrite Ac, Pp, told_nil, app_nil_r. reflexivity.
      - destruct (G1 D) as (es & L1 & _ & Q1). eauto. }
    destruct X as (es & L1 & Q1). exists (es ++ es2). split; [econstructor; eauto|]. split; [rewrite L2, L1; apply app_assoc_reverse|].
    rewrite accepted_app, <- app_assoc, Q2, app_assoc, Q1. apply app_assoc_reverse.
Qed.

(** *** A controller that hears everything *)
Definition k_follows (i id : nat) (s0 : rset) (es : list entry) (e : enforcer) (h : list (orders * mcall)) : Prop :=
  forall rl, fold_left apply_op (pending i e) (stored id s0 es) rl = true <-> present h rl.
Lemma nosave_stored id es : nosave id es -> forall s, stored id s es = fold_left apply_op (accepted id es) s.
Proof.
  induction 1 as [|en es H1 H2 IH]; intros s; [reflexivity|]. unfold stored. cbn [fold_left]. fold (stored id (store_step id s en) es). rewrite IH.
  unfold accepted. cbn [flat_map]. rewrite fold_left_app. fold (accepted id es). f_equal. unfold store_step. destruct (Nat.eqb_spec (en_id en) id) as [Q|]; [|reflexivity].
  destruct (en_err en); [reflexivity|]. destruct (en_call en) eqn:Ec; try reflexivity. exfalso. exact (H1 Q _ eq_refl).
Qed.
Lemma k_part_plain W hs h os e c hm : (forall rl, as_listed h rl = as_listed hs rl) -> k_plain W hs c -> (forall n, good_orders (os n)) -> k_part W os e c hm ->
  Forall (fun c => plain_m h (snd c)) hm /\ good_m hm.
Proof.
  intros Same P Ho H.
  assert (R : forall mk rs n, (forall r, plain_m h (mk r) <-> plain_rule h r) -> Forall (plain_rule hs) rs -> Forall (fun c => plain_m h (snd c)) (firstn n (rule_calls os mk rs)) /\ good_m (firstn n (rule_calls os mk rs))).
  { intros mk rs n Hm Hr. split; [|now apply firstn_good]. apply firstn_plain; [exact Hm|]. eapply Forall_impl; [|exact Hr]. intros rl [B C]. split; [exact B|now rewrite Same]. }
  destruct c as [c| | | | | |]; try (cbn in H; subst hm; split; constructor). destruct c; cbn [k_part model_part k_plain] in H, P; try (subst hm; split; constructor; fail).
  - subst hm. split; (constructor; [|constructor]); [|apply Ho]. apply (plain_m_same hs); [exact Same|]. destruct c; exact P.
  - destruct H as [n ->]. apply R; [reflexivity|exact P].
  - destruct H as [n ->]. apply R; [reflexivity|exact P].
  - destruct (f_adapter e) as [| |id]; try (subst hm; split; constructor). destruct H as [n ->]. apply R; [reflexivity|apply P].
Qed.
Lemma replica_step E W i id hs h os e c e' r k s0 es0 m0rs :
  accepts W id -> KWf e -> i < List.length (f_scs e) -> sole i id e' -> hearing i e = true -> keeps_hearing i k c -> (k = f_sc e \/ (k <> i /\ f_sc e <> i)) ->
  k_plain W hs c -> (forall n, good_orders (os n)) -> good_m h -> tame h -> (forall rl, as_listed h rl = as_listed hs rl) ->
  mexec E (NewModel E) h = Val (f_model e, m0rs) -> k_follows i id s0 es0 e h -> kstep E W os e c = Val (e', r) ->
  exists hm xs es, Forall (fun c => plain_m h (snd c)) hm /\ good_m hm /\ mexec E (f_model e) hm = Val (f_model e', xs) /\ f_log e' = f_log e ++ es /\ k_follows i id s0 (es0 ++ es) e' (h ++ hm).
Proof.
  intros A K L S Hh Kh Hk P Ho Go T Same H0 J H. destruct (step_spec E W os e c e' r K (keeps_one _ _ _ Kh) H) as (_ & _ & _ & _ & hm & xs & Pt & M & G).
  destruct (k_part_plain W hs h os e c hm Same P Ho Pt) as [Pm Gm]. destruct (G i id A L S) as [G1 G2].
  assert (D : c = KEnf ESave \/ c <> KEnf ESave) by (destruct c as [c| | | | | |]; try (right; discriminate); destruct c; try (right; discriminate); now left).
  assert (Gh : good_m (h ++ hm)) by (apply Forall_app; auto).
  destruct D as [D|D].
  - destruct (G2 D) as (Ex & Pp & es & L1 & Ac & Sv). exists hm, xs, es. split; [exact Pm|]. split; [exact Gm|]. split; [exact M|]. split; [exact L1|]. subst c. cbn in Pt. subst hm xs. rewrite app_nil_r.
    intros rl. rewrite Pp, stored_app. destruct Sv as [Sv| ->]; [rewrite (nosave_stored id es Sv), Ac; apply J|]. cbn [stored fold_left]. unfold store_step. cbn [en_id en_err en_call]. rewrite Nat.eqb_refl.
    set (R := fun r : rule => if in_dec rule_eq_dec r (model_rules (os 0) (f_model e)) then true else false).
    assert (HR : forall r, R r = true <-> present h r).
    { intros x. rewrite <- (model_rules_present E h (os 0) (f_model e) m0rs Go (Ho 0) T H0 x). unfold R. destruct (in_dec _ _ _); split; try tauto; discriminate. }
    rewrite <- HR. apply reapply with (s := stored id s0 es0). intros x. rewrite HR. apply J.
  - destruct (G1 D) as (es & L1 & Ns & Q1). exists hm, xs, es. split; [exact Pm|]. split; [exact Gm|]. split; [exact M|]. split; [exact L1|].
    assert (Tl : told i e c (announced xs) = announced xs).
    { destruct c as [c| | | | | |]; try (cbn [told]; now rewrite Hh). destruct c; try (cbn [told]; now rewrite Hh). cbn [told keeps_hearing] in *. rewrite Hh. assert (N : i <> f_sc e) by (destruct Hk as [->|[_ N]]; congruence).
      apply Nat.eqb_neq in N. now rewrite N. }
    rewrite Tl in Q1. intros rl. rewrite stored_app, (nosave_stored id es Ns), <- fold_left_app, Q1, fold_left_app. exact (plain_replay E h hm (f_model e) m0rs (f_model e') xs _ Gh T Pm J H0 M rl).
Qed.
Lemma replica_exec E W i id hs s0 k : accepts W id -> forall h0 e e' rs h es0 m0rs,
  KWf e -> i < List.length (f_scs e) -> sole i id e' -> hearing i e = true -> (k = f_sc e \/ (k <> i /\ f_sc e <> i)) -> Forall (fun c => keeps_hearing i k (snd c)) h0 ->
  Forall (fun c => k_plain W hs (snd c)) h0 -> Forall (fun c => forall n, good_orders (fst c n)) h0 -> good_m h -> tame h -> (forall rl, as_listed h rl = as_listed hs rl) ->
  mexec E (NewModel E) h = Val (f_model e, m0rs) -> k_follows i id s0 es0 e h -> kexec E W e h0 = Val (e', rs) ->
  exists hm xs es, good_m (h ++ hm) /\ tame (h ++ hm) /\ mexec E (f_model e) hm = Val (f_model e', xs) /\ hearing i e' = true /\ f_log e' = f_log e ++ es /\ k_follows i id s0 (es0 ++ es) e' (h ++ hm).
Proof.
  intros A. induction h0 as [|[os c] h0 IH]; intros e e' rs h es0 m0rs K L S Hh Hk Kh P O Go T Same H0 J H; cbn [kexec] in H.
  - injection H as <- _. exists [], [], []. rewrite !app_nil_r. auto 8.
  - apply obind_val in H as [[e1 r] [H1 H]]. apply obind_val in H as [[e2 rs2] [H2 H]]. injection H as <- _.
    inversion Kh as [|? ? Kh1 Kh2]; subst. inversion P as [|? ? P1 P2]; subst. inversion O as [|? ? O1 O2]; subst. cbn [fst snd] in *.
    destruct (step_spec E W os e c e1 r K (keeps_one _ _ _ Kh1) H1) as (K1 & N1 & _ & Hr & _). destruct (Hr i k L Kh1 Hk Hh) as [Hh1 Hk1].
    assert (L1 : i < List.length (f_scs e1)) by lia.
    assert (O1' : Forall (fun c => one_model (snd c)) h0) by (eapply Forall_impl; [|exact Kh2]; intros x; apply keeps_one).
    destruct (each_exec E W i id A h0 e1 e2 rs2 K1 L1 O1' H2 S) as [S1 _].
    destruct (replica_step E W i id hs h os e c e1 r k s0 es0 m0rs A K L S1 Hh Kh1 Hk P1 O1 Go T Same H0 J H1) as (hm & xs & es & M2 & M3 & M4 & M5 & M6).
    assert (T1 : tame (h ++ hm)).
    { apply Forall_app. split; [exact T|]. eapply Forall_impl; [|exact M2]. intros [o0 c0] Q. eapply plain_m_tame; eauto. }
    assert (R1 : Forall (fun c => rule_call (snd c)) hm) by (eapply Forall_impl; [|exact M2]; intros [o0 c0] Q; eapply plain_m_rule; eauto).
    destruct (IH e1 e2 rs2 (h ++ hm) (es0 ++ es) (m0rs ++ xs)) as (hm2 & xs2 & es2 & X1 & X2 & X3 & X4 & X5 & X6); auto.
    + apply Forall_app. auto.
    + intros rl. rewrite <- Same. apply as_listed_same. now apply kinds_exec.
    + apply mexec_app. eauto 8.
    + exists (hm ++ hm2), (xs ++ xs2), (es ++ es2). rewrite (app_assoc h), (app_assoc es0), X5, M5, <- (app_assoc (f_log e)). split; [exact X1|]. split; [exact X2|]. split; [apply mexec_app; eauto 8|]. auto.
Qed.

(** *** A controller that has been replaced *)
Lemma deaf_step E W os e c e' r i : KWf e -> i < List.length (f_scs e) -> one_model c -> c <> KEnable i -> hearing i e = false -> f_sc e <> i -> kstep E W os e c = Val (e', r) ->
  hearing i e' = false /\ f_sc e' <> i.
Proof.
  intros K L O N Hh Ns H.
  assert (Fr : frame e e' -> hearing i e' = false /\ f_sc e' <> i) by (intros F; rewrite (frame_hearing _ _ i F), (fr_sc _ _ F); auto).
  destruct c as [c|a b|j|j|j|j b|j n]; cbn [kstep] in H.
  - destruct c; cbn [one_model] in O; try contradiction; try (cbn [estep] in H).
    + apply obind_val in H as [[e1 x] [H Hr]]. injection Hr as -> <-. apply Fr. now destruct (call_gain E W _ _ _ _ _ K H).
    + apply obind_val in H as [[e1 err] [H Hr]]. injection Hr as -> <-. apply Fr. destruct (rules_gain E W _ _ _ _ _ _ K H) as (n & xs & M & F & G). exact F.
    + apply obind_val in H as [[e1 err] [H Hr]]. injection Hr as -> <-. apply Fr. destruct (rules_gain E W _ _ _ _ _ _ K H) as (n & xs & M & F & G). exact F.
    + destruct (nth_error (f_scs e) (f_sc e)) as [sc|] eqn:Ec; [|discriminate]. destruct (Flush W sc (f_log e)) as [[sc' log'] err] eqn:Ef. injection H as <- <-. apply Fr.
      eapply frame_trans; [eapply frame_put; [exact Ec|exact (proj1 (Flush_set_up _ _ _ _ _ _ Ef))]|apply frame_log].
    + apply obind_val in H as [[e1 err] [H Hr]]. injection Hr as -> <-. unfold SavePolicy in H. apply Fr. destruct (f_adapter e); [discriminate| |]; cbn [ask] in H; injection H as <- _; apply frame_log.
    + apply obind_val in H as [[e1 err] [H Hr]]. injection Hr as -> <-. unfold LoadPolicy in H. destruct (nth_error (f_scs e) (f_sc e)) as [sc|] eqn:Ec; [|discriminate]. apply obind_val in H as [[e2 err2] [H Hr]]. injection Hr as Hr _.
      set (e0 := if sc_listening sc then Disable e (f_sc e) else e) in *.
      assert (X : KWf e0 /\ hearing i e0 = false /\ f_sc e0 = f_sc e).
      { unfold e0. destruct (sc_listening sc); [|auto]. destruct (disable_spec e (f_sc e) (k_e _ K)) as (C & D & Q). split; [exact (calm_wf _ _ K C D)|]. split; [rewrite Q; destruct (Nat.eqb i (f_sc e)); auto|exact (cl_sc _ _ C)]. }
      destruct X as (K0 & Hh0 & Sc0). clearbody e0.
      assert (F : frame e0 e2).
      { destruct (f_adapter e0) as [| |ld]; [discriminate|injection H as <- _; apply frame_refl|]. unfold load_from in H. apply obind_val in H as [[e3 err3] [H Hr3]]. injection Hr3 as -> _.
        set (e00 := set_log e0 _) in *. assert (F0 : frame e0 e00) by apply frame_log. destruct (loop_gain E W CAdd _ os e00 e2 err3 (frame_wf _ _ F0 K0) H) as (n & xs & _ & F & _). eapply frame_trans; eauto. }
      assert (Hh2 : hearing i e2 = false) by (rewrite (frame_hearing _ _ i F); exact Hh0). assert (Sc2 : f_sc e2 = f_sc e) by (rewrite (fr_sc _ _ F); exact Sc0). subst e'. destruct (sc_listening sc); [|rewrite Sc2; auto].
      destruct (enable_spec e2 (f_sc e2) (k_e _ (frame_wf _ _ F K0))) as (C & D & Q). rewrite Q, (cl_sc _ _ C), Sc2. destruct (Nat.eqb_spec i (f_sc e)); [congruence|auto].
    + injection H as <- <-. destruct (set_adapter_ok e a (k_e _ K)) as (_ & _ & _ & S1 & J1 & _). cbv zeta in *. split; [rewrite (proj1 (J1 i L)); [exact Hh|congruence]|]. rewrite S1. lia.
    + injection H as <- <-. destruct op as [b|[|]]; cbn [SetOption] in *.
      * destruct (nth_error (f_scs e) (f_sc e)) as [sc|] eqn:Ec; [|auto]. apply Fr. eapply frame_put; [exact Ec|repeat split].
      * destruct (enable_spec e (f_sc e) (k_e _ K)) as (C & D & Q). rewrite Q, (cl_sc _ _ C). destruct (Nat.eqb_spec i (f_sc e)); [congruence|auto].
      * destruct (disable_spec e (f_sc e) (k_e _ K)) as (C & D & Q). rewrite Q, (cl_sc _ _ C). destruct (Nat.eqb_spec i (f_sc e)); auto.
    + destruct (nth_error (f_scs e) (f_sc e)) as [sc|] eqn:Ec; [|discriminate]. injection H as <- <-. apply Fr. eapply frame_put; [exact Ec|repeat split].
  - injection H as <- <-. destruct (new_spec e a b (k_e _ K)) as (_ & _ & _ & S1 & _ & _ & J1 & _). cbv zeta in *. rewrite (proj1 (J1 i L)), S1. auto.
  - destruct (nth_error (f_scs e) j) as [sc|] eqn:Ec; [|discriminate]. destruct (Flush W sc (f_log e)) as [[sc' log'] err] eqn:Ef. injection H as <- <-. apply Fr.
    eapply frame_trans; [eapply frame_put; [exact Ec|exact (proj1 (Flush_set_up _ _ _ _ _ _ Ef))]|apply frame_log].
  - injection H as <- <-. destruct (enable_spec e j (k_e _ K)) as (C & D & Q). rewrite Q, (cl_sc _ _ C). destruct (Nat.eqb_spec i j); [congruence|auto].
  - injection H as <- <-. destruct (disable_spec e j (k_e _ K)) as (C & D & Q). rewrite Q, (cl_sc _ _ C). destruct (Nat.eqb_spec i j); auto.
  - destruct (nth_error (f_scs e) j) as [sc|] eqn:Ec; [|discriminate]. injection H as <- <-. apply Fr. eapply frame_put; [exact Ec|repeat split].
  - destruct (nth_error (f_scs e) j) as [sc|] eqn:Ec; [|discriminate]. injection H as <- <-. apply Fr. eapply frame_put; [exact Ec|repeat split].
Qed.
Lemma deaf_told i e c ops : hearing i e = false -> told i e c ops = [].
Proof. intros H. destruct c as [c| | | | | |]; try (cbn [told]; now rewrite H). destruct c; cbn [told]; now rewrite H. Qed.
Lemma deaf_exec E W i : forall h e e' hm ops, KWf e -> i < List.length (f_scs e) -> Forall (fun c => one_model (snd c) /\ snd c <> KEnable i) h -> hearing i e = false -> f_sc e <> i ->
  khears E W i e h e' hm ops -> ops = [].
Proof.
  induction h as [|[os c] h IH]; intros e e' hm ops K L O Hh Ns H; inversion H; subst; [reflexivity|]. inversion O as [|? ? [O1 O2] O3]; subst. cbn [snd] in *.
  match goal with X : kstep _ _ _ _ _ = Val (?a, ?b), Y : khears _ _ _ ?a _ _ _ _ |- _ => destruct (deaf_step E W os e c a b i K L O1 O2 Hh Ns X) as [D1 D2]; destruct (step_spec E W os e c a b K O1 X) as (K1 & N1 & _); rewrite (IH _ _ _ _ K1 (Nat.lt_le_trans _ _ _ L N1) O3 D1 D2 Y) end.
  rewrite (deaf_told i e c _ Hh). reflexivity.
Qed.

(** ** When a controller passes on what it was told *)

(** A controller with the settings of EnableAutosave or DisableAutosave ([b]) and of
    AddWait ([n]) that was told [ops] since its last flush. *)
Definition timed (b : bool) (n : Z) (id : nat) (ops : list operation) (sc : controller) : Prop :=
  sc_autosave sc = b /\ sc_adapter sc = AExt id /\
  if b then (0 < sc_wait sc)%Z /\ sc_q sc = ops /\ sc_wait sc = (n - Z.of_nat (List.length ops))%Z \/
            (sc_wait sc <= 0)%Z /\ sc_q sc = [] /\ (n <= Z.of_nat (List.length ops))%Z
  else sc_q sc = ops.
Lemma timed_op W id b n ops sc log op sc' log' : accepts W id -> timed b n id ops sc -> addOp W sc log op = Val (sc', log') -> timed b n id (ops ++ [op]) sc'.
Proof.
  intros A (H1 & H2 & H3) H. unfold addOp in H. cbn [sc_autosave with_q] in H. rewrite H1 in H. destruct b.
  - cbn [sc_wait with_q sc_q] in H. destruct (Z.leb_spec (sc_wait sc - 1) 0) as [L|L].
    + set (sc0 := with_q (with_q sc (sc_q sc ++ [op]) (sc_wait sc)) (sc_q sc ++ [op]) (sc_wait sc - 1)) in H.
      destruct (Flush_ok W id sc0 log A H2) as (es & F & _). rewrite F in H. injection H as <- <-. split; [exact H1|]. split; [exact H2|]. right.
      cbn [sc_wait sc_q with_q]. rewrite app_length. cbn [List.length]. destruct H3 as [(X1 & X2 & X3)|(X1 & X2 & X3)]; (split; [lia|split; [reflexivity|lia]]).
    + injection H as <- <-. split; [exact H1|]. split; [exact H2|]. left. cbn [sc_wait sc_q with_q]. rewrite app_length. cbn [List.length].
      destruct H3 as [(X1 & X2 & X3)|(X1 & X2 & X3)]; [|lia]. rewrite X2. split; [lia|]. split; [reflexivity|lia].
  - injection H as <- <-. split; [exact H1|]. split; [exact H2|]. cbn [sc_q with_q]. now rewrite H3.
Qed.
Definition timed_at (i : nat) (b : bool) (n : Z) (id : nat) (ops : list operation) (e : enforcer) : Prop :=
  exists sc, nth_error (f_scs e) i = Some sc /\ timed b n id ops sc.
Lemma timed_deliver_to W id i b n op : accepts W id -> forall ls e e' ops, NoDup ls -> timed_at i b n id ops e -> deliver_to W e ls op = Val e' ->
  timed_at i b n id (ops ++ if existsb (Nat.eqb i) ls then [op] else []) e'.
Proof.
  intros A. induction ls as [|j ls IH]; intros e e' ops Nd (sc & Hi & T) H; cbn [deliver_to] in H.
  - injection H as <-. exists sc. cbn [existsb]. rewrite app_nil_r. auto.
  - inversion Nd as [|? ? Nj Nd']; subst. cbn [existsb]. destruct (Nat.eqb_spec i j) as [<-|N].
    + rewrite Hi in H. apply obind_val in H as [[sc1 log1] [H1 H]]. cbn [orb].
      assert (Z : existsb (Nat.eqb i) ls = false).
      { apply Bool.not_true_iff_false. intros Z. apply existsb_exists in Z as (x & X1 & X2). apply Nat.eqb_eq in X2. now subst. }
      pose proof (IH (set_log (put_sc e i sc1) log1) e' (ops ++ [op]) Nd') as Y. rewrite Z, app_nil_r in Y. apply Y; [|exact H].
      exists sc1. split; [|eapply timed_op; eauto]. cbn [set_log f_scs]. rewrite (put_nth _ _ _ _ Hi). cbn [f_scs set_scs]. now rewrite (nth_upd _ _ _ _ Hi), Nat.eqb_refl.
    + cbn [orb]. destruct (nth_error (f_scs e) j) as [scj|] eqn:Ej; [|apply (IH e e' ops Nd'); [exists sc; auto|exact H]].
      apply obind_val in H as [[sc1 log1] [H1 H]]. apply (IH (set_log (put_sc e j sc1) log1) e' ops Nd'); [|exact H].
      exists sc. split; [|exact T]. cbn [set_log f_scs]. rewrite (put_nth _ _ _ _ Ej). cbn [f_scs set_scs]. rewrite (nth_upd _ _ _ _ Ej). destruct (Nat.eqb_spec i j); [contradiction|exact Hi].
Qed.
Lemma timed_deliver W id i b n : accepts W id -> forall evs e e' ops, KWf e -> hearing i e = true -> timed_at i b n id ops e -> deliver W e evs = Val e' ->
  timed_at i b n id (ops ++ map op_of evs) e'.
Proof.
  intros A. induction evs as [|ev evs IH]; intros e e' ops K Hh T H; cbn [deliver] in H.
  - injection H as <-. cbn [map]. now rewrite app_nil_r.
  - apply obind_val in H as [e1 [H1 H]]. pose proof (timed_deliver_to W id i b n (op_of ev) A _ _ _ _ (k_nodup _ K) T H1) as T1. rewrite (wf_heard e i K), Hh in T1.
    destruct (deliver_to_gain W (op_of ev) _ _ _ (k_nodup _ K) H1) as (F1 & _ & _).
    pose proof (IH e1 e' _ (frame_wf _ _ F1 K) ltac:(now rewrite (frame_hearing _ _ i F1)) T1 H) as T2. cbn [map]. now rewrite <- app_assoc in T2.
Qed.
Lemma timed_exec E W id i b n : accepts W id -> forall (h : list ((nat -> orders) * mcall)) e e' rs ops, KWf e -> hearing i e = true -> timed_at i b n id ops e ->
  kexec E W e (map (fun c => (fst c, KEnf (EModel (snd c)))) h) = Val (e', rs) ->
  exists xs, mexec E (f_model e) (map (fun c => (fst c 0, snd c)) h) = Val (f_model e', xs) /\ timed_at i b n id (ops ++ announced xs) e'.
Proof.
  intros A. induction h as [|[os c] h IH]; intros e e' rs ops K Hh T H; cbn [map kexec] in H.
  - injection H as <- _. exists []. split; [reflexivity|]. now rewrite app_nil_r.
  - apply obind_val in H as [[e1 r1] [H1 H]]. apply obind_val in H as [[e2 rs2] [H2 H]]. injection H as <- <-. cbn [fst snd kstep estep] in H1.
    apply obind_val in H1 as [[e3 x] [H3 H1]]. injection H1 as H1 _. subst e3.
    destruct (call_gain E W _ e _ e1 x K H3) as (F1 & M1 & _).
    assert (T1 : timed_at i b n id (ops ++ announced [x]) e1).
    { unfold model_call in H3. apply obind_val in H3 as [[m x0] [H4 H3]]. apply obind_val in H3 as [e4 [H5 H3]]. injection H3 as -> ->.
      pose proof (frame_model e m) as F0. rewrite announced_ops. cbn [flat_map]. rewrite app_nil_r.
      apply (timed_deliver W id i b n A (x_events x) (set_model e m) e1 ops (frame_wf _ _ F0 K)); [now rewrite (frame_hearing _ _ i F0)|exact T|exact H5]. }
    destruct (IH e1 e2 rs2 _ (frame_wf _ _ F1 K) ltac:(now rewrite (frame_hearing _ _ i F1)) T1 H2) as (xs & M2 & T2).
    exists (x :: xs). cbn [map mexec fst snd]. rewrite M1. cbn [obind]. rewrite M2. split; [reflexivity|]. change (x :: xs) with ([x] ++ xs). now rewrite announced_app, app_assoc.
Qed.
