(** Lemmas: how the controller behaves with an adapter that fails nowhere along
    the calls actually made, and what a file holds after those calls. *)
From Coq Require Import Permutation.
From Verif Require Import GoBase GoBaseP PolicyM PolicySpec PolicyP MatcherM RbacM DomainM ModelM ModelSpec ModelP ModelP4 ModelP5
  StorageM StorageSpec StorageP StorageP2 StorageP3 StorageP4 FileM FileSpec FileP FileWorldM PersistSpec Prop_File Prop_Model.
Import ListNotations.

(** *** Worlds that agree along a log *)
Fixpoint honest (W : world) (log es : list entry) : Prop :=
  match es with
  | [] => True
  | en :: es' => w_answer W log (en_id en) (en_call en) = None /\ honest W (log ++ [en]) es'
  end.
Lemma honest_app W es : forall log es', honest W log (es ++ es') <-> honest W log es /\ honest W (log ++ es) es'.
Proof.
  induction es as [|en es IH]; intros log es'; cbn [app honest]; [rewrite app_nil_r; tauto|]. rewrite IH, <- app_assoc. cbn [app]. tauto.
Qed.
(** A change call that was accepted. *)
Definition change (en : entry) : Prop := en_err en = None /\ match en_call en with CSavePolicy _ | CLoadPolicy => False | _ => True end.

Lemma yes_run W a op log log' err : run (yes W) a op log = (log', err) ->
  exists es, log' = log ++ es /\ Forall change es /\ (honest W log es -> run W a op log = (log', err)).
Proof.
  destruct op as [[|] r], a as [| |id]; cbn [run ask yes w_answer]; intros H; injection H as <- <-.
  all: try (exists []; rewrite app_nil_r; split; [reflexivity|]; split; [constructor|reflexivity]).
  all: eexists [_]; split; [reflexivity|]; split; [repeat constructor|]; cbn [honest en_id en_call]; intros [-> _]; reflexivity.
Qed.
Lemma yes_batch W a o rs log log' err : runBatch (yes W) a o rs log = (log', err) ->
  exists es, log' = log ++ es /\ Forall change es /\ (honest W log es -> runBatch W a o rs log = (log', err)).
Proof.
  destruct o, a as [| |id]; cbn [runBatch ask yes w_answer]; intros H; injection H as <- <-.
  all: try (exists []; rewrite app_nil_r; split; [reflexivity|]; split; [constructor|reflexivity]).
  all: eexists [_]; split; [reflexivity|]; split; [repeat constructor|]; cbn [honest en_id en_call]; intros [-> _]; reflexivity.
Qed.
Ltac done_log := exists []; rewrite app_nil_r; split; [reflexivity|]; split; [constructor|auto].

Lemma yes_flush W a q : forall log log' q' err, flush (yes W) a log q = (log', q', err) ->
  exists es, log' = log ++ es /\ Forall change es /\ (honest W log es -> flush W a log q = (log', q', err)).
Proof.
  induction q as [|op q IH]; intros log log' q' err H; cbn [flush] in *; [injection H as <- <- <-; done_log|].
  destruct (run (yes W) a op log) as [l1 e1] eqn:R. destruct (yes_run W a op log l1 e1 R) as [es [-> [C A]]]. destruct e1 as [x|].
  - injection H as <- <- <-. exists es. split; [reflexivity|]. split; [exact C|]. intros Ho. now rewrite (A Ho).
  - destruct (IH _ _ _ _ H) as [es2 [-> [C2 A2]]]. exists (es ++ es2). rewrite app_assoc. split; [reflexivity|]. split; [now apply Forall_app|].
    intros Ho. apply honest_app in Ho as [H1 H2]. rewrite (A H1). auto.
Qed.
Lemma yes_loop W a q : forall log c rs log' q' err, batch_loop (yes W) a log c rs q = (log', q', err) ->
  exists es, log' = log ++ es /\ Forall change es /\ (honest W log es -> batch_loop W a log c rs q = (log', q', err)).
Proof.
  induction q as [|[o r] q IH]; intros log c rs log' q' err H; cbn [batch_loop] in *.
  - destruct rs as [|r rs]; [injection H as <- <- <-; done_log|]. destruct (runBatch (yes W) a c (r :: rs) log) as [l1 e1] eqn:R.
    destruct (yes_batch W a c (r :: rs) log l1 e1 R) as [es [-> [C A]]]. injection H as <- <- <-. exists es. split; [reflexivity|]. split; [exact C|].
    intros Ho. now rewrite (A Ho).
  - destruct (opcode_eqb c o); [exact (IH _ _ _ _ _ _ H)|]. destruct (runBatch (yes W) a c rs log) as [l1 e1] eqn:R.
    destruct (yes_batch W a c rs log l1 e1 R) as [es [-> [C A]]]. destruct e1 as [x|].
    + injection H as <- <- <-. exists es. split; [reflexivity|]. split; [exact C|]. intros Ho. now rewrite (A Ho).
    + destruct (IH _ _ _ _ _ _ H) as [es2 [-> [C2 A2]]]. exists (es ++ es2). rewrite app_assoc. split; [reflexivity|]. split; [now apply Forall_app|].
      intros Ho. apply honest_app in Ho as [H1 H2]. rewrite (A H1). auto.
Qed.
Lemma yes_batchFlush W a q log log' q' err : batchFlush (yes W) a log q = (log', q', err) ->
  exists es, log' = log ++ es /\ Forall change es /\ (honest W log es -> batchFlush W a log q = (log', q', err)).
Proof. unfold batchFlush. destruct q as [|[o r] q]; apply yes_loop. Qed.
Lemma yes_Flush W sc log sc' log' err : Flush (yes W) sc log = (sc', log', err) ->
  exists es, log' = log ++ es /\ Forall change es /\ (honest W log es -> Flush W sc log = (sc', log', err)).
Proof.
  unfold Flush. change (kind_of (yes W) (sc_adapter sc)) with (kind_of W (sc_adapter sc)). destruct (kind_of W (sc_adapter sc)).
  - destruct (batchFlush (yes W) (sc_adapter sc) log (sc_q sc)) as [[l1 q1] e1] eqn:R. destruct (yes_batchFlush _ _ _ _ _ _ _ R) as [es [-> [C A]]].
    intros H. injection H as <- <- <-. exists es. split; [reflexivity|]. split; [exact C|]. intros Ho. now rewrite (A Ho).
  - destruct (flush (yes W) (sc_adapter sc) log (sc_q sc)) as [[l1 q1] e1] eqn:R. destruct (yes_flush _ _ _ _ _ _ _ R) as [es [-> [C A]]].
    intros H. injection H as <- <- <-. exists es. split; [reflexivity|]. split; [exact C|]. intros Ho. now rewrite (A Ho).
  - intros H. injection H as <- <- <-. done_log.
Qed.
Lemma yes_addOp W sc log op sc' log' : addOp (yes W) sc log op = Val (sc', log') ->
  exists es, log' = log ++ es /\ Forall change es /\ (honest W log es -> addOp W sc log op = Val (sc', log')).
Proof.
  unfold addOp. destruct (sc_autosave _); [|intros H; injection H as <- <-; done_log].
  destruct (_ <=? 0)%Z; [|intros H; injection H as <- <-; done_log].
  destruct (Flush (yes W) _ log) as [[s1 l1] e1] eqn:R. destruct (yes_Flush _ _ _ _ _ _ R) as [es [-> [C A]]]. destruct e1; [discriminate|].
  intros H. injection H as <- <-. exists es. split; [reflexivity|]. split; [exact C|]. intros Ho. now rewrite (A Ho).
Qed.
Lemma put_log e i sc : f_log (put_sc e i sc) = f_log e.
Proof. unfold put_sc. destruct (nth_error (f_scs e) i); reflexivity. Qed.
Lemma yes_deliver_to W op ls : forall e e', deliver_to (yes W) e ls op = Val e' ->
  exists es, f_log e' = f_log e ++ es /\ Forall change es /\ (honest W (f_log e) es -> deliver_to W e ls op = Val e').
Proof.
  induction ls as [|i ls IH]; intros e e' H; cbn [deliver_to] in *; [injection H as <-; done_log|].
  destruct (nth_error (f_scs e) i) as [sc|]; [|exact (IH _ _ H)]. apply obind_val in H as [[s1 l1] [H1 H]].
  destruct (yes_addOp _ _ _ _ _ _ H1) as [es [-> [C A]]]. destruct (IH _ _ H) as [es2 [L [C2 A2]]]. cbn [f_log set_log] in L, A2.
  exists (es ++ es2). rewrite L, app_assoc. split; [reflexivity|]. split; [now apply Forall_app|]. intros Ho. apply honest_app in Ho as [O1 O2].
  rewrite (A O1). cbn [obind]. auto.
Qed.
Lemma yes_deliver W evs : forall e e', deliver (yes W) e evs = Val e' ->
  exists es, f_log e' = f_log e ++ es /\ Forall change es /\ (honest W (f_log e) es -> deliver W e evs = Val e').
Proof.
  induction evs as [|ev evs IH]; intros e e' H; cbn [deliver] in *; [injection H as <-; done_log|].
  apply obind_val in H as [e1 [H1 H]]. destruct (yes_deliver_to _ _ _ _ _ H1) as [es [L1 [C A]]]. destruct (IH _ _ H) as [es2 [L2 [C2 A2]]].
  exists (es ++ es2). rewrite L2, L1, app_assoc. split; [reflexivity|]. split; [now apply Forall_app|]. intros Ho. apply honest_app in Ho as [O1 O2].
  rewrite (A O1). cbn [obind]. apply A2. now rewrite L1.
Qed.
Lemma yes_model_call E W o e c e' x : model_call E (yes W) o e c = Val (e', x) ->
  exists es, f_log e' = f_log e ++ es /\ Forall change es /\ (honest W (f_log e) es -> model_call E W o e c = Val (e', x)).
Proof.
  unfold model_call. intros H. apply obind_val in H as [[m y] [H1 H]]. apply obind_val in H as [e1 [H2 H]]. injection H as <- <-.
  destruct (yes_deliver _ _ _ _ H2) as [es [L [C A]]]. exists es. split; [exact L|]. split; [exact C|]. intros Ho. rewrite H1. cbn [obind]. now rewrite (A Ho).
Qed.
Lemma yes_rules E W mk rs : forall os e e' err, rules_loop E (yes W) os e mk rs = Val (e', err) ->
  exists es, f_log e' = f_log e ++ es /\ Forall change es /\ (honest W (f_log e) es -> rules_loop E W os e mk rs = Val (e', err)).
Proof.
  induction rs as [|r rs IH]; intros os e e' err H; cbn [rules_loop] in *; [injection H as <- <-; done_log|].
  apply obind_val in H as [[e1 x] [H1 H]]. destruct (yes_model_call _ _ _ _ _ _ _ H1) as [es [L1 [C A]]]. destruct (x_err x) eqn:X.
  - injection H as <- <-. exists es. split; [exact L1|]. split; [exact C|]. intros Ho. rewrite (A Ho). cbn [obind]. now rewrite X.
  - destruct (IH _ _ _ _ H) as [es2 [L2 [C2 A2]]]. exists (es ++ es2). rewrite L2, L1, app_assoc. split; [reflexivity|]. split; [now apply Forall_app|].
    intros Ho. apply honest_app in Ho as [O1 O2]. rewrite (A O1). cbn [obind]. rewrite X. apply A2. now rewrite L1.
Qed.
Lemma yes_rules_call E W os e mk rs e' err : rules_call E (yes W) os e mk rs = Val (e', err) ->
  exists es, f_log e' = f_log e ++ es /\ Forall change es /\ (honest W (f_log e) es -> rules_call E W os e mk rs = Val (e', err)).
Proof.
  unfold rules_call. destruct (nth_error (f_scs e) (f_sc e)) as [sc|]; [|discriminate]. destruct (sc_autosave sc); [|apply yes_rules].
  intros H. apply obind_val in H as [[e1 x] [H1 H]]. destruct (yes_rules _ _ _ _ _ _ _ _ H1) as [es [L1 [C A]]]. rewrite put_log in L1, A.
  destruct (nth_error (f_scs e1) (f_sc e1)) as [sc1|] eqn:N; [|discriminate]. destruct (Flush (yes W) _ (f_log e1)) as [[s2 l2] [err2|]] eqn:F; [discriminate|].
  injection H as <- <-. destruct (yes_Flush _ _ _ _ _ _ F) as [es2 [-> [C2 A2]]]. exists (es ++ es2). cbn [f_log set_log]. rewrite L1, app_assoc.
  split; [reflexivity|]. split; [now apply Forall_app|]. intros Ho. apply honest_app in Ho as [O1 O2]. rewrite (A O1). cbn [obind]. rewrite N.
  rewrite <- L1 in O2 |- *. now rewrite (A2 O2).
Qed.

(** One call that leaves the storage set-up alone.  Only SavePolicy makes a call
    that is not a change, with the rules of the model. *)
Lemma yes_step E W os e c e' r : keeps_storage c -> estep E (yes W) os e c = Val (e', r) ->
  exists es, f_log e' = f_log e ++ es /\ (honest W (f_log e) es -> estep E W os e c = Val (e', r)) /\
    (Forall change es \/ exists id, c = ESave /\ es = [mkEntry id (CSavePolicy (model_rules (os 0) (f_model e))) None]).
Proof.
  intros K H. destruct c as [c|rs|rs| | | |a|op|i|m]; cbn [estep keeps_storage] in H, K; try destruct K.
  - apply obind_val in H as [[e1 x] [H1 H]]. injection H as <- <-. destruct (yes_model_call _ _ _ _ _ _ _ H1) as [es [L [C A]]]. exists es.
    split; [exact L|]. split; [|now left]. intros Ho. cbn [estep]. now rewrite (A Ho).
  - apply obind_val in H as [[e1 x] [H1 H]]. injection H as <- <-. destruct (yes_rules_call _ _ _ _ _ _ _ _ H1) as [es [L [C A]]]. exists es.
    split; [exact L|]. split; [|now left]. intros Ho. cbn [estep]. now rewrite (A Ho).
  - apply obind_val in H as [[e1 x] [H1 H]]. injection H as <- <-. destruct (yes_rules_call _ _ _ _ _ _ _ _ H1) as [es [L [C A]]]. exists es.
    split; [exact L|]. split; [|now left]. intros Ho. cbn [estep]. now rewrite (A Ho).
  - destruct (nth_error (f_scs e) (f_sc e)) as [sc|] eqn:N; [|discriminate]. destruct (Flush (yes W) sc (f_log e)) as [[s1 l1] e1] eqn:F.
    injection H as <- <-. destruct (yes_Flush _ _ _ _ _ _ F) as [es [-> [C A]]]. exists es. split; [reflexivity|]. split; [|now left].
    intros Ho. cbn [estep]. rewrite N, (A Ho). reflexivity.
  - apply obind_val in H as [[e1 x] [H1 H]]. injection H as <- <-. unfold StorageM.SavePolicy in H1. cbn [estep]. unfold StorageM.SavePolicy.
    destruct (f_adapter e) as [| |id]; [discriminate| |]; cbn [ask] in *.
    + injection H1 as <- <-. exists []. rewrite app_nil_r. split; [reflexivity|]. split; [auto|left; constructor].
    + injection H1 as <- <-. cbn [yes w_answer]. exists [mkEntry id (CSavePolicy (model_rules (os 0) (f_model e))) None]. split; [reflexivity|].
      split; [|right; eauto]. cbn [honest en_id en_call]. intros [-> _]. reflexivity.
  - injection H as <- <-. exists []. rewrite app_nil_r. split; [|split; [auto|left; constructor]]. destruct op as [b|b]; [|destruct K].
    cbn [SetOption]. destruct (nth_error (f_scs e) (f_sc e)); [apply put_log|reflexivity].
  - destruct (nth_error (f_scs e) (f_sc e)) as [sc|] eqn:N; [|discriminate]. injection H as <- <-. exists []. rewrite app_nil_r. split; [apply put_log|].
    split; [|left; constructor]. intros _. cbn [estep]. now rewrite N.
Qed.

(** *** What the file holds *)
Lemma listed_in rs r : listed rs r = true <-> In r rs.
Proof. unfold listed. destruct (in_dec rule_eq_dec r rs); split; auto; discriminate. Qed.

Lemma edit_faultless P n d ch : working P -> edit (fl_fault P n) (fl_chunk P) (fl_ord P n) d ch = edit no_fault (fl_chunk P) (fl_ord P n) d ch.
Proof.
  intros (_ & _ & F). unfold edit. destruct (load_file d) as [rs [x|]]; [reflexivity|]. unfold FileM.SavePolicy.
  now rewrite !run_no_fault by (intros k; first [apply F|reflexivity]).
Qed.
Lemma save_faultless P n d rs : working P -> FileM.SavePolicy (fl_fault P n) (fl_chunk P) d rs = FileM.SavePolicy no_fault (fl_chunk P) d rs.
Proof. intros (_ & _ & F). unfold FileM.SavePolicy. now rewrite !run_no_fault by (intros k; first [apply F|reflexivity]). Qed.

(** The rules a call writes. *)
Definition call_rules (c : acall) : list rule :=
  match c with
  | CAddRule r | CRemoveRule r => [r]
  | CAddRules rs | CRemoveRules rs | CSavePolicy rs => rs
  | CLoadPolicy => []
  end.
Lemma plain_comma r : plain_line r -> comma_free r.
Proof. intros Hr. apply plain_line_iff in Hr as [[[H1 [_ [H2 _]]] _] _]. split; [exact H1|]. eapply Forall_impl; [|exact H2]. intros v [H _]. exact H. Qed.

Lemma apply_add rs : forall s r, fold_left apply_op (map (pair OpAdd) rs) s r = true <-> s r = true \/ In r rs.
Proof.
  induction rs as [|x rs IH]; intros s r; cbn [map fold_left apply_op In]; [tauto|]. rewrite IH. unfold set_add.
  destruct (rule_eqb_spec r x) as [->|N]; cbn [orb]; intuition congruence.
Qed.
Lemma apply_remove rs : forall s r, fold_left apply_op (map (pair OpRemove) rs) s r = true <-> s r = true /\ ~ In r rs.
Proof.
  induction rs as [|x rs IH]; intros s r; cbn [map fold_left apply_op In]; [tauto|]. rewrite IH. unfold set_remove.
  destruct (rule_eqb_spec r x) as [->|N]; cbn [negb andb]; intuition congruence.
Qed.

Lemma file_step P n d held c : working P -> load_file d = (held, None) -> Forall plain_line held -> Forall plain_line (call_rules c) -> c <> CLoadPolicy ->
  exists d' held', file_call P n d c = (d', None) /\ load_file d' = (held', None) /\ Forall plain_line held' /\
    forall r, In r held' <-> store_step 0 (listed held) (mkEntry 0 c None) r = true.
Proof.
  intros Wk L Ph Pc Nl. pose proof Wk as (Hc & Ho & Hf).
  assert (A : forall rs, Forall plain_line rs -> exists d' held', AddRules (fl_fault P n) (fl_chunk P) (fl_ord P n) d rs = (d', None) /\ load_file d' = (held', None) /\
     Forall plain_line held' /\ forall r, In r held' <-> fold_left apply_op (map (pair OpAdd) rs) (listed held) r = true).
  { intros rs Prs. unfold AddRules. rewrite (edit_faultless P n d _ Wk).
    destruct (C47_add_rules_partial (fl_chunk P) (fl_ord P n) d held rs Hc (Ho n) L Ph Prs) as (d' & now & E1 & E2 & _ & E3).
    exists d', now. split; [exact E1|]. split; [exact E2|]. rewrite Forall_forall in *. split; [intros r Hr; apply E3 in Hr as [Hr|Hr]; auto|].
    intros r. rewrite E3, apply_add, listed_in. reflexivity. }
  assert (R : forall rs, Forall plain_line rs -> exists d' held', RemoveRules (fl_fault P n) (fl_chunk P) (fl_ord P n) d rs = (d', None) /\ load_file d' = (held', None) /\
     Forall plain_line held' /\ forall r, In r held' <-> fold_left apply_op (map (pair OpRemove) rs) (listed held) r = true).
  { intros rs Prs. unfold RemoveRules. rewrite (edit_faultless P n d _ Wk).
    destruct (C47_remove_rules_partial (fl_chunk P) (fl_ord P n) d held rs Hc (Ho n) L Ph) as (d' & now & E1 & E2 & _ & E3).
    { eapply Forall_impl; [|exact Prs]. intros r. apply plain_comma. }
    exists d', now. split; [exact E1|]. split; [exact E2|]. rewrite Forall_forall in *. split; [intros r Hr; apply E3 in Hr as [Hr _]; auto|].
    intros r. rewrite E3, apply_remove, listed_in. reflexivity. }
  unfold store_step. cbn [en_id en_err en_call Nat.eqb].
  destruct c as [r|r|rs|rs|rs|]; cbn [file_call call_rules changes] in *; [exact (A [r] Pc)|exact (R [r] Pc)|exact (A rs Pc)|exact (R rs Pc)| |congruence].
  rewrite (save_faultless P n d rs Wk). destruct (C46_round_trip_partial (fl_chunk P) d rs Hc) as (d' & E1 & E2). exists d', rs.
  split; [exact E1|]. split; [now apply E2|]. split; [exact Pc|]. intros r. symmetry. apply listed_in.
Qed.

Lemma file_after_app P l : forall n d l', file_after P n d (l ++ l') = file_after P (n + List.length l) (file_after P n d l) l'.
Proof.
  induction l as [|en l IH]; intros n d l'; cbn [app file_after List.length]; [now rewrite Nat.add_0_r|]. rewrite IH. now replace (S n + List.length l) with (n + S (List.length l)) by lia.
Qed.
Lemma file_snoc P d0 log en : en_id en = 0 -> the_file P d0 (log ++ [en]) = fst (file_call P (List.length log) (the_file P d0 log) (en_call en)).
Proof. intros H. unfold the_file. rewrite file_after_app. cbn [file_after]. rewrite H. reflexivity. Qed.
Lemma store_step_ext id s s' en : (forall r, s r = true <-> s' r = true) -> forall r, store_step id s en r = true <-> store_step id s' en r = true.
Proof.
  intros H r. unfold store_step. destruct (Nat.eqb (en_id en) id); [|apply H]. destruct (en_err en); [apply H|].
  assert (F : forall q s s', (forall r, s r = true <-> s' r = true) -> fold_left apply_op q s r = true <-> fold_left apply_op q s' r = true).
  { clear. induction q as [|[o x] q IH]; intros s s' H; cbn [fold_left]; [apply H|]. apply IH. intros y. destruct o; cbn [apply_op]; unfold set_add, set_remove.
    - rewrite !orb_true_iff, H. reflexivity.
    - rewrite !andb_true_iff, H. reflexivity. }
  destruct (en_call en); try (apply F; exact H). reflexivity.
Qed.
Lemma stored_ext id es : forall s s', (forall r, s r = true <-> s' r = true) -> forall r, stored id s es r = true <-> stored id s' es r = true.
Proof.
  induction es as [|en es IH]; intros s s' H r; cbn; [apply H|]. apply IH. intros x. now apply store_step_ext.
Qed.

(** Along accepted calls with plain rules the file takes every call. *)
Definition plain_entry (en : entry) : Prop :=
  en_id en = 0 /\ en_err en = None /\ en_call en <> CLoadPolicy /\ Forall plain_line (call_rules (en_call en)).
Lemma file_entries P d0 files es : working P -> Forall plain_entry es -> forall log held, load_file (the_file P d0 log) = (held, None) -> Forall plain_line held ->
  honest (file_world P d0 files) log es /\
  exists held', load_file (the_file P d0 (log ++ es)) = (held', None) /\ Forall plain_line held' /\
    forall r, In r held' <-> stored 0 (listed held) es r = true.
Proof.
  intros Wk. induction 1 as [|en es (I & Er & Nl & Pc) H IH]; intros log held L Ph.
  - split; [exact Logic.I|]. exists held. rewrite app_nil_r. split; [exact L|]. split; [exact Ph|]. intros r. cbn. symmetry. apply listed_in.
  - destruct (file_step P (List.length log) (the_file P d0 log) held (en_call en) Wk L Ph Pc Nl) as (d' & h1 & E1 & E2 & E3 & E4).
    assert (Fs : the_file P d0 (log ++ [en]) = d') by (rewrite file_snoc by exact I; now rewrite E1).
    destruct (IH (log ++ [en]) h1) as (Ho & h2 & F1 & F2 & F3); [now rewrite Fs|exact E3|]. split.
    + cbn [honest]. split; [|exact Ho]. rewrite I. cbn [file_world w_answer Nat.eqb]. now rewrite E1.
    + exists h2. rewrite <- app_assoc in F1. cbn [app] in F1. split; [exact F1|]. split; [exact F2|]. intros r. rewrite F3.
      unfold stored at 2. cbn [fold_left]. fold (stored 0 (store_step 0 (listed held) en) es). apply stored_ext. intros x. rewrite listed_in, E4.
      unfold store_step. cbn [en_id en_err en_call]. rewrite I, Er. reflexivity.
Qed.

(** *** Announced changes have the rules of the calls *)
Definition plain_rules_m (c : mcall) : Prop := match c with CAdd rl | CRemove rl => plain_line rl | _ => True end.
Lemma announced_plain E hs hm : Forall (fun c => plain_m hs (snd c)) hm -> Forall (fun c => plain_rules_m (snd c)) hm ->
  forall m m' xs, mexec E m hm = Val (m', xs) -> Forall (fun op => plain_line (snd op)) (announced xs).
Proof.
  induction hm as [|[o c] hm IH]; intros F G m m' xs H; cbn [mexec] in H; [injection H as <- <-; constructor|].
  apply obind_val in H as [[m1 x] [H1 H]]. apply obind_val in H as [[m2 xs2] [H2 H]]. injection H as <- <-.
  inversion F as [|? ? F1 F2]; subst. inversion G as [|? ? G1 G2]; subst. cbn [snd] in F1, G1.
  change (x :: xs2) with ([x] ++ xs2). rewrite announced_app. apply Forall_app. split; [|eapply IH; eauto].
  rewrite announced_ops. cbn [flat_map]. rewrite app_nil_r. destruct (call_cases c) as [[r ->]|[[r ->]|Hn]].
  - cbn [mstep] in H1. apply obind_val in H1 as [[[[m3 b] e] es] [Ha H1]]. injection H1 as _ <-. cbn [x_events].
    destruct (add_events _ _ _ _ _ _ _ Ha) as [-> | ->]; [constructor|]. apply Forall_cons; [exact G1|constructor].
  - cbn [mstep] in H1. apply obind_val in H1 as [[[[m3 b] e] es] [Ha H1]]. injection H1 as _ <-. cbn [x_events].
    destruct (remove_events _ _ _ _ _ _ _ Ha) as [-> | ->]; [constructor|]. apply Forall_cons; [exact G1|constructor].
  - rewrite (quiet_events E o m c m1 x (plain_m_rule _ _ F1) Hn H1). constructor.
Qed.
Lemma part_plain os c hm : file_rules c -> model_part os c hm -> Forall (fun x => plain_rules_m (snd x)) hm.
Proof.
  assert (X : forall mk rs, (forall r, plain_line r -> plain_rules_m (mk r)) -> Forall plain_line rs -> forall os n, Forall (fun x => plain_rules_m (snd x)) (firstn n (rule_calls os mk rs))).
  { intros mk rs Hmk. induction 1 as [|r rs Hr H IH]; intros os0 n; cbn [rule_calls]; [destruct n; constructor|]. destruct n; cbn [firstn]; constructor; [now apply Hmk|apply IH]. }
  destruct c as [c|rs|rs| | | |a|op|i|m]; cbn [file_rules model_part]; intros F H; try (subst hm; solve [constructor]).
  - subst hm. constructor; [|constructor]. destruct c; cbn [plain_rules_m snd]; auto.
  - destruct H as [n ->]. apply X; auto.
  - destruct H as [n ->]. apply X; auto.
Qed.

Lemma apply_plain q : Forall (fun op => plain_line (snd op)) q -> forall s : rset, (forall r, s r = true -> plain_line r) ->
  forall r, fold_left apply_op q s r = true -> plain_line r.
Proof.
  induction 1 as [|[o x] q Hx H IH]; intros s Hs r; cbn [fold_left]; [apply Hs|]. apply IH. intros y. cbn [snd] in Hx.
  destruct o; cbn [apply_op]; unfold set_add, set_remove; [rewrite orb_true_iff, rule_eqb_eq|rewrite andb_true_iff]; [intros [->|Hy]|intros [_ Hy]]; auto.
Qed.
Lemma apply_ext q : forall s s' : rset, (forall r, s r = true <-> s' r = true) -> forall r, fold_left apply_op q s r = true <-> fold_left apply_op q s' r = true.
Proof.
  induction q as [|[o x] q IH]; intros s s' H r; cbn [fold_left]; [apply H|]. apply IH. intros y. destruct o; cbn [apply_op]; unfold set_add, set_remove.
  - rewrite !orb_true_iff, H. reflexivity.
  - rewrite !andb_true_iff, H. reflexivity.
Qed.
Lemma accepted_in es op : Forall change es -> all_of 0 es -> forall en, In en es -> In op (changes (en_call en)) -> In op (accepted 0 es).
Proof.
  intros C A en Hen Hop. unfold accepted. apply in_flat_map. exists en. split; [exact Hen|]. unfold all_of in A. rewrite Forall_forall in A, C.
  rewrite (A en Hen), Nat.eqb_refl. destruct (C en Hen) as [-> _]. exact Hop.
Qed.

(** *** One call on an enforcer with a file *)
Lemma file_follows_step E P d0 files hs h os e c held m0rs : let W := file_world P d0 files in
  working P -> storing 0 e -> keeps_storage c -> plain_call hs c -> file_rules c -> (forall n, good_orders (os n)) ->
  good_m h -> tame h -> (forall rl, as_listed h rl = as_listed hs rl) -> mexec E (NewModel E) h = Val (f_model e, m0rs) ->
  (forall hm, model_part os c hm -> mexec E (f_model e) hm <> Panic) ->
  load_file (the_file P d0 (f_log e)) = (held, None) -> Forall plain_line held -> Forall (fun op => plain_line (snd op)) (queue e) ->
  follows 0 (listed held) [] e h ->
  exists e' r hm xs held', estep E W os e c = Val (e', r) /\ estep E (yes W) os e c = Val (e', r) /\
    model_part os c hm /\ Forall (fun c => plain_m h (snd c)) hm /\ good_m hm /\ mexec E (f_model e) hm = Val (f_model e', xs) /\ storing 0 e' /\
    load_file (the_file P d0 (f_log e')) = (held', None) /\ Forall plain_line held' /\ Forall (fun op => plain_line (snd op)) (queue e') /\
    follows 0 (listed held') [] e' (h ++ hm).
Proof.
  intros W Wk St K Pc Fr Ho Go T Same H0 Np L Ph Pq J.
  assert (A : accepts (yes W) 0) by (split; [discriminate|reflexivity]).
  destruct (estep E (yes W) os e c) as [[e' r]|] eqn:S.
  2:{ destruct (total_step E (yes W) 0 os e c A St K S) as [hm [M1 M2]]. now destruct (Np hm M1). }
  destruct (conserve_step E (yes W) 0 os e c e' r A St K S) as (hm0 & es & xs0 & M1 & M2 & M3 & M4 & M5 & M6).
  destruct (follows_step E (yes W) 0 hs h os e c e' r (listed held) [] m0rs A St K Pc Ho Go T Same H0 J S) as (hm & es1 & xs & N1 & N2 & N3 & N4 & N5 & N6 & N7).
  destruct (yes_step E W os e c e' r K S) as (es2 & L2 & Ag & D).
  assert (es1 = es) by (rewrite M4 in N6; now apply app_inv_head in N6). subst es1.
  assert (es2 = es) by (rewrite M4 in L2; now apply app_inv_head in L2). subst es2.
  assert (X : Forall (fun op => plain_line (snd op)) (queue e ++ announced xs0)).
  { apply Forall_app. split; [exact Pq|].
    assert (Pm0 : Forall (fun x => plain_rules_m (snd x)) hm0) by (eapply part_plain; eauto).
    assert (PM : Forall (fun x => plain_m hs (snd x)) hm0).
    { clear - Pc M1. destruct c as [c|rs|rs| | | |a|op|i|m]; cbn [model_part plain_call] in *; try (subst hm0; solve [constructor]).
      - subst hm0. constructor; [destruct c; exact Pc|constructor].
      - destruct M1 as [n ->]. apply firstn_plain; [reflexivity|exact Pc].
      - destruct M1 as [n ->]. apply firstn_plain; [reflexivity|exact Pc]. }
    eapply announced_plain; eauto. }
  rewrite <- M6 in X. apply Forall_app in X as [Xa Xq].
  assert (Pe : Forall plain_entry es).
  { destruct D as [C|[id [-> ->]]].
    - apply Forall_forall. intros en Hen. pose proof M5 as M5'. unfold all_of in M5'. rewrite Forall_forall in M5', C. destruct (C en Hen) as [C1 C2].
      split; [auto|]. split; [exact C1|]. split; [intros Q; now rewrite Q in C2|]. rewrite Forall_forall in Xa |- *. intros x Hx.
      assert (Y : exists o, In (o, x) (changes (en_call en))).
      { destruct (en_call en) as [y|y|ys|ys|ys|]; cbn [call_rules changes] in *; try destruct C2; try (destruct Hx as [<-|[]]; eexists; now left).
        - exists OpAdd. now apply in_map.
        - exists OpRemove. now apply in_map. }
      destruct Y as [o Y]. apply (Xa (o, x)). eapply accepted_in; eauto. now apply Forall_forall.
    - inversion M5 as [|? ? I0 _]; subst. cbn [en_id] in I0. subst id. constructor; [|constructor]. split; [reflexivity|]. split; [reflexivity|]. split; [discriminate|].
      cbn [en_call call_rules]. apply Forall_forall. intros rl Hrl. apply (model_rules_present E h (os 0) (f_model e) m0rs Go (Ho 0) T H0) in Hrl.
      apply J in Hrl. eapply apply_plain; [exact Pq| |exact Hrl]. intros y Hy. cbn in Hy. apply listed_in in Hy. rewrite Forall_forall in Ph. auto. }
  destruct (file_entries P d0 files es Wk Pe (f_log e) held L Ph) as (Hon & held' & F1 & F2 & F3).
  exists e', r, hm, xs, held'. split; [apply Ag, Hon|]. split; [reflexivity|]. split; [exact N1|]. split; [exact N2|]. split; [exact N3|]. split; [exact N4|]. split; [exact N5|].
  split; [now rewrite M4|]. split; [exact F2|]. split; [exact Xq|]. intros rl. rewrite <- (N7 rl). cbn [app]. cbn [stored fold_left].
  apply apply_ext. intros y. rewrite listed_in. apply F3.
Qed.

(** A history. *)
Lemma file_follows_exec E P d0 files hs : let W := file_world P d0 files in working P -> forall h0 h e held m0rs,
  storing 0 e -> Forall (fun c => keeps_storage (snd c)) h0 -> Forall (fun c => plain_call hs (snd c)) h0 -> Forall (fun c => file_rules (snd c)) h0 -> eorders h0 ->
  good_m h -> tame h -> (forall rl, as_listed h rl = as_listed hs rl) -> mexec E (NewModel E) h = Val (f_model e, m0rs) ->
  never_panics E (f_model e) h0 ->
  load_file (the_file P d0 (f_log e)) = (held, None) -> Forall plain_line held -> Forall (fun op => plain_line (snd op)) (queue e) ->
  follows 0 (listed held) [] e h ->
  exists e' rs hm xs held', eexec E W e h0 = Val (e', rs) /\ eexec E (yes W) e h0 = Val (e', rs) /\
    model_parts h0 hm /\ good_m (h ++ hm) /\ tame (h ++ hm) /\ mexec E (f_model e) hm = Val (f_model e', xs) /\ storing 0 e' /\
    load_file (the_file P d0 (f_log e')) = (held', None) /\ Forall plain_line held' /\ Forall (fun op => plain_line (snd op)) (queue e') /\
    follows 0 (listed held') [] e' (h ++ hm).
Proof.
  intros W Wk. induction h0 as [|[os c] h0 IH]; intros h e held m0rs St K Pc Fr O Go T Same H0 Np L Ph Pq J.
  - exists e, [], [], [], held. rewrite !app_nil_r. split; [reflexivity|]. split; [reflexivity|]. split; [constructor|]. auto 12.
  - inversion K as [|? ? K1 K2]; subst. inversion Pc as [|? ? P1 P2]; subst. inversion Fr as [|? ? F1 F2]; subst. inversion O as [|? ? O1 O2]; subst. cbn [fst snd] in *.
    assert (EX : exists hm, model_parts h0 hm).
    { clear. induction h0 as [|[os c] h0 [hm IH]]; [exists []; constructor|]. assert (Y : exists hm, model_part os c hm).
      { destruct c; cbn [model_part]; try (eexists; reflexivity); eexists; exists 0; reflexivity. }
      destruct Y as [y Y]. exists (y ++ hm). now constructor. }
    destruct EX as [hm0 EX].
    destruct (file_follows_step E P d0 files hs h os e c held m0rs Wk St K1 P1 F1 O1 Go T Same H0) as (e1 & r1 & hm & xs & held1 & M1 & M2 & M3 & M4 & M5 & M6 & M7 & M8 & M9 & M10 & M11); auto.
    { intros hm Hm Hp. apply (Np (hm ++ hm0)); [now constructor|].
      clear - Hp. revert Hp. generalize (f_model e). induction hm as [|[o x] hm IH]; intros m Hp; cbn [mexec app] in *; [discriminate|].
      destruct (mstep E o m x) as [[m1 y]|]; cbn [obind] in *; [|reflexivity]. destruct (mexec E m1 hm) as [[? ?]|] eqn:Q; cbn [obind] in Hp; [discriminate|].
      now rewrite (IH m1 Q). }
    assert (T1 : tame (h ++ hm)).
    { apply Forall_app. split; [exact T|]. eapply Forall_impl; [|exact M4]. intros [o0 c0] Q. eapply plain_m_tame; eauto. }
    assert (R1 : Forall (fun c => rule_call (snd c)) hm) by (eapply Forall_impl; [|exact M4]; intros [o0 c0] Q; eapply plain_m_rule; eauto).
    destruct (IH (h ++ hm) e1 held1 (m0rs ++ xs)) as (e2 & rs2 & hm2 & xs2 & held2 & N1 & N2 & N3 & N4 & N5 & N6 & N7 & N8 & N9 & N10 & N11); auto.
    + apply Forall_app. auto.
    + intros rl. rewrite <- Same. apply as_listed_same. now apply kinds_exec.
    + apply mexec_app. eauto 8.
    + intros hm2 H2 Hp. apply (Np (hm ++ hm2)); [now constructor|].
      assert (Y : forall hm m, (exists xs, mexec E m hm = Val (f_model e1, xs)) -> mexec E m (hm ++ hm2) = Panic).
      { clear - Hp. induction hm as [|[o x] hm IH]; intros m [xs H]; cbn [mexec app] in *; [injection H as H _; first [rewrite H; exact Hp|rewrite <- H; exact Hp|congruence]|].
        apply obind_val in H as [[m1 y] [Q1 H]]. apply obind_val in H as [[m2 ys] [Q2 H]]. injection H as H _. subst m2. rewrite Q1. cbn [obind]. rewrite IH; eauto. }
      eauto.
    + exists e2, (r1 :: rs2), (hm ++ hm2), (xs ++ xs2), held2. cbn [eexec]. fold W in M1, M2. rewrite M1, M2. cbn [obind]. rewrite N1, N2. cbn [obind].
      split; [reflexivity|]. split; [reflexivity|]. split; [now constructor|]. rewrite (app_assoc h). split; [exact N4|]. split; [exact N5|].
      split; [apply mexec_app; eauto 8|]. auto 8.
Qed.

(** *** Loading *)
Lemma loop_quiet E W mk rs : forall os e, f_em e = [] -> rules_loop E W os e mk rs = Panic ->
  exists n, mexec E (f_model e) (firstn n (rule_calls os mk rs)) = Panic.
Proof.
  induction rs as [|r rs IH]; intros os e He H; cbn [rules_loop rule_calls] in *; [discriminate|].
  unfold model_call in H. destruct (mstep E (os 0) (f_model e) (mk r)) as [[m x]|] eqn:Sm; cbn [obind] in H.
  - rewrite deliver_none in H by exact He. cbn [obind] in H. destruct (x_err x); [discriminate|]. destruct (IH _ (set_model e m) He H) as [n Hn].
    exists (S n). cbn [firstn mexec]. rewrite Sm. cbn [obind]. cbn [f_model set_model] in Hn. now rewrite Hn.
  - exists 1. cbn [firstn mexec]. now rewrite Sm.
Qed.
Lemma load_total E W os e id : Wf e -> f_adapter e = AExt id ->
  (forall n, mexec E (f_model e) (firstn n (rule_calls os CAdd (fst (w_load W (f_log e) id)))) <> Panic) -> estep E W os e ELoad <> Panic.
Proof.
  intros Hw Ha Np H. pose proof (wf_cur e Hw) as [sc [Hc [Hsa [Hsm Hem]]]]. cbn [estep] in H. unfold LoadPolicy in H.
  change (nth_error (f_scs e) (f_sc e)) with (cur e) in H. rewrite Hc in H. cbv zeta in H.
  set (e0 := if sc_listening sc then Disable e (f_sc e) else e) in *.
  assert (I0 : f_em e0 = [] /\ f_adapter e0 = f_adapter e /\ f_model e0 = f_model e /\ f_log e0 = f_log e).
  { unfold e0. destruct (sc_listening sc) eqn:El.
    - rewrite (Disable_spec e sc Hc). cbn. repeat split. rewrite Hem. destruct (Nat.eqb (sc_em sc) (f_mid e)); cbn; rewrite ?Nat.eqb_refl; reflexivity.
    - repeat split. rewrite Hem. reflexivity. }
  destruct I0 as (I1 & I2 & I3 & I4). rewrite I2, Ha in H. unfold load_from in H. rewrite I4 in H. set (src := w_load W (f_log e) id) in *.
  destruct (rules_loop E W os (set_log e0 (f_log e ++ [mkEntry id CLoadPolicy (snd src)])) CAdd (fst src)) as [[e1 x1]|] eqn:R; [cbn [obind] in H; discriminate|].
  set (e2 := set_log e0 _) in R. destruct (loop_quiet E W CAdd (fst src) os e2 I1 R) as [n Hn]. unfold e2 in Hn. cbn [f_model set_log] in Hn. rewrite I3 in Hn. now apply (Np n).
Qed.

Lemma section_kept h o c rl : rule_call c -> in_section h rl <> None -> in_section (h ++ [(o, c)]) rl <> None.
Proof.
  intros Hc H. destruct rl as [|k r]; [exact H|]. destruct (first_cases k) as [Hp|[Hg|[Hp Hg]]].
  - rewrite in_section_p in * by exact Hp. rewrite p_history_snoc. destruct (p_history k h) as [l|]; [|now destruct H].
    destruct c; cbn [p_step rule_call] in *; try destruct s; try contradiction; try discriminate; destruct (of_section k r0); discriminate.
  - rewrite in_section_g in * by exact Hg. pose proof (kinds_step h o c Hc k Hg) as K. destruct (g_history k h) as [s|]; [|now destruct H].
    destruct (g_history k (h ++ [(o, c)])) as [s'|]; [|discriminate]. destruct r as [|a [|b ds]]; discriminate.
  - rewrite in_section_other in H by assumption. now destruct H.
Qed.

(** Adding listed rules of defined sections one by one. *)
Lemma adds_spec E rs : forall os h m rs0 m' xs, (forall n, good_orders (os n)) -> good_m h -> tame h -> mexec E (NewModel E) h = Val (m, rs0) ->
  Forall (fun rl => plain_rule h rl /\ in_section h rl <> None) rs -> mexec E m (rule_calls os CAdd rs) = Val (m', xs) ->
  all_ok xs /\ forall rl, present (h ++ rule_calls os CAdd rs) rl <-> present h rl \/ In rl rs.
Proof.
  induction rs as [|r rs IH]; intros os h m rs0 m' xs Ho Go T H0 F H; cbn [rule_calls mexec] in H.
  - injection H as <- <-. cbn [rule_calls In]. rewrite app_nil_r. split; [constructor|tauto].
  - apply obind_val in H as [[m1 x] [H1 H]]. apply obind_val in H as [[m2 xs2] [H2 H]]. injection H as <- <-. inversion F as [|? ? [[Tr Lr] Sr] F2]; subst.
    assert (Ok : x_err x = None) by (apply (C01_model_add E h (os 0) m rs0 r m1 x Go (Ho 0) T Tr H0 Sr H1 (os 0) (Ho 0))).
    pose proof (step_long E h (os 0) m rs0 _ r m1 x Go H0 (or_introl eq_refl) Sr H1) as Hl.
    destruct (IH (fun n => os (S n)) (h ++ [(os 0, CAdd r)]) m1 (rs0 ++ [x]) m2 xs2) as [A B]; auto.
    + now apply good_m_snoc.
    + now apply tame_snoc.
    + eapply mexec_snoc; eauto.
    + eapply Forall_impl; [|exact F2]. intros rl [[T1 L1] S1]. split; [split; [exact T1|]|now apply section_kept].
      rewrite <- L1 at 2. apply as_listed_same. intros k. apply (kinds_step h (os 0) (CAdd r) Logic.I).
    + split; [constructor; auto|]. intros rl. cbn [rule_calls In]. rewrite <- app_assoc in B. cbn [app] in B. rewrite B, (present_add h (os 0) r rl Hl), Lr.
      intuition congruence.
Qed.

Lemma load_file_rules E W os e id held h m0rs : Wf e -> f_adapter e = AExt id -> w_load W (f_log e) id = (held, None) ->
  (forall n, good_orders (os n)) -> good_m h -> tame h -> mexec E (NewModel E) h = Val (f_model e, m0rs) ->
  Forall (fun rl => plain_rule h rl /\ in_section h rl <> None) held ->
  (forall n, mexec E (f_model e) (firstn n (rule_calls os CAdd held)) <> Panic) ->
  exists e' xs, estep E W os e ELoad = Val (e', mkERes None None) /\ f_adapter e' = f_adapter e /\ queue e' = queue e /\
    mexec E (f_model e) (rule_calls os CAdd held) = Val (f_model e', xs) /\
    f_log e' = f_log e ++ [mkEntry id CLoadPolicy None] /\ forall rl, present (h ++ rule_calls os CAdd held) rl <-> present h rl \/ In rl held.
Proof.
  intros Hw Ha Hl Ho Go T H0 F Np. destruct (estep E W os e ELoad) as [[e' r]|] eqn:S.
  2:{ exfalso. revert S. apply (load_total E W os e id Hw Ha). now rewrite Hl. }
  destruct (load_spec E W os e e' r Hw S) as (L1 & L2 & L3 & L4 & L5 & L6). rewrite Ha, Hl in L6. cbn [fst snd] in L6. destruct L6 as (xs & err & [n [U1 U2]] & Lg & Er).
  assert (NE : err = None).
  { destruct err as [x|]; [|reflexivity]. exfalso. destruct U2 as (xs0 & xl & -> & _ & X).
    assert (Z : forall held os k, firstn k (rule_calls os CAdd held) = rule_calls os CAdd (firstn k held)).
    { clear. induction held as [|r held IH]; intros os [|k]; cbn [rule_calls firstn]; try reflexivity. now rewrite IH. }
    rewrite Z in U1. destruct (adds_spec E (firstn n held) os h (f_model e) m0rs (f_model e') (xs0 ++ [xl]) Ho Go T H0) as [A _]; [|exact U1|].
    - apply Forall_forall. intros y Hy. rewrite Forall_forall in F. apply F. rewrite <- (firstn_skipn n held). apply in_or_app. auto.
    - apply Forall_app in A as [_ A]. apply Forall_inv in A. congruence. }
  subst err. destruct U2 as [U2 U3]. rewrite U2 in U1. destruct (adds_spec E held os h (f_model e) m0rs (f_model e') xs Ho Go T H0 F U1) as [A B].
  exists e', xs. assert (Rr : r = mkERes None None).
  { cbn [estep] in S. apply obind_val in S as [[e1 x] [_ S]]. injection S as _ <-. cbn [y_err] in Er. now rewrite Er. }
  subst r. split; [reflexivity|]. split; [exact L4|]. split; [unfold queue, cur; now rewrite L1, L3|]. auto.
Qed.
