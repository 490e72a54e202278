(** Properties C39 - C45, C49 and C60 - C62: storage controllers, adapters and
    the storage side of the enforcer. *)
From Verif Require Import GoBase GoBaseP DefsM PolicyM PolicySpec MatcherM RbacM DomainM EvalM ModelM ModelSpec ModelP4 ModelP5
  StorageM StorageSpec StorageP StorageP2 StorageP3 StorageP4 Prop_Model.

(** ** Example worlds and states *)

(** Adapter 0 takes single changes, 1 batches, 2 neither; none of them fails.
    All of them load the same two rules. *)
Definition ex_kind (id : nat) : akind := match id with 0 => KSimple | 1 => KBatch | _ => KNone end.
Definition ex_load : list rule := [["p"; "admin"; "data1"; "read"]; ["g"; "alice"; "admin"]]%string.
Definition ex_w : world := mkWorld ex_kind (fun _ _ _ => None) (fun _ _ => (ex_load, None)) (fun _ => (ex_load, None)).
(** As before, but the second call on an adapter fails. *)
Definition ex_bad : world :=
  mkWorld ex_kind (fun log _ _ => if Nat.eqb (List.length log) 1 then Some ErrAdapter else None) (fun _ _ => (ex_load, None)) (fun _ => (ex_load, None)).
Definition ex_os : nat -> orders := fun n => if Nat.even n then ex_o else ex_rev.

Definition ex_m : model := match mexec ex_env (NewModel ex_env) ex_setup with Val (m, _) => m | Panic => NewModel ex_env end.
Definition ex_new (W : world) (arg : aarg) (opts : list eoption) : enforcer :=
  match NewEnforcer ex_env W ex_os ex_m arg opts with Val (inl e) => e | _ => mkEnf ex_m 0 [] [] 0 ANil [] end.
Definition ex_run (W : world) (arg : aarg) (opts : list eoption) (h : list ecall) : enforcer :=
  match eexec ex_env W (ex_new W arg opts) (map (pair ex_os) h) with Val (e, _) => e | Panic => mkEnf ex_m 0 [] [] 0 ANil [] end.
Definition ex_ok (W : world) (arg : aarg) (opts : list eoption) (h : list ecall) : bool :=
  match NewEnforcer ex_env W ex_os ex_m arg opts with
  | Val (inl e) => match eexec ex_env W e (map (pair ex_os) h) with Val _ => true | Panic => false end
  | _ => false
  end.
Lemma ex_run_reachable W arg opts h : ex_ok W arg opts h = true -> reachable_enforcer ex_env W (ex_run W arg opts h).
Proof.
  unfold ex_ok, ex_run, ex_new. destruct (NewEnforcer ex_env W ex_os ex_m arg opts) as [[e0|]|] eqn:N; try discriminate.
  destruct (eexec ex_env W e0 (map (pair ex_os) h)) as [[e rs]|] eqn:X; [|discriminate]. intros _.
  exists ex_os, ex_m, arg, opts, e0, (map (pair ex_os) h), rs. auto.
Qed.
Lemma ex_extend W arg opts h h2 : ex_ok W arg opts (h ++ h2) = true ->
  exists rs, eexec ex_env W (ex_run W arg opts h) (map (pair ex_os) h2) = Val (ex_run W arg opts (h ++ h2), rs).
Proof.
  unfold ex_ok, ex_run, ex_new. destruct (NewEnforcer ex_env W ex_os ex_m arg opts) as [[e0|]|]; try discriminate.
  rewrite map_app. set (l := map _ h). set (l2 := map _ h2). clearbody l l2. clear h h2.
  assert (X : forall l e0, eexec ex_env W e0 (l ++ l2) =
     (let! (e, rs) := eexec ex_env W e0 l in let! (e', rs') := eexec ex_env W e l2 in Val (e', rs ++ rs'))).
  { clear. induction l as [|[o c] l IH]; intros e0; cbn [app eexec obind]; [now destruct (eexec ex_env W e0 l2) as [[? ?]|]|].
    destruct (estep ex_env W o e0 c) as [[e1 r]|]; cbn [obind]; [|reflexivity]. rewrite IH. destruct (eexec ex_env W e1 l) as [[e2 rs]|]; cbn [obind]; [|reflexivity].
    now destruct (eexec ex_env W e2 l2) as [[? ?]|]. }
  rewrite X. destruct (eexec ex_env W e0 l) as [[e rs]|]; cbn [obind]; [|discriminate].
  destruct (eexec ex_env W e l2) as [[e' rs']|]; cbn [obind]; [|discriminate]. intros _. eauto.
Qed.
Lemma ex_extend1 W arg opts h c : ex_ok W arg opts (h ++ [c]) = true ->
  exists r, estep ex_env W ex_os (ex_run W arg opts h) c = Val (ex_run W arg opts (h ++ [c]), r).
Proof.
  intros H. destruct (ex_extend W arg opts h [c] H) as [rs X]. cbn [map eexec] in X. destruct (estep ex_env W ex_os (ex_run W arg opts h) c) as [[e r]|]; [|discriminate].
  cbn [obind] in X. injection X as X _. exists r. now rewrite X.
Qed.
Ltac reach := apply ex_run_reachable; vm_compute; reflexivity.
(** Evaluates a conjunction of closed equations about an example state. *)
Ltac run :=
  lazymatch goal with
  | |- _ /\ _ => split; [run|run]
  | |- reachable_enforcer _ _ _ => reach
  | |- accepts _ _ => split; [discriminate|reflexivity]
  | |- attached _ => eexists; split; vm_compute; reflexivity
  | |- _ => vm_compute; reflexivity
  end.

Definition ex_changes : list ecall :=
  [EModel (CAdd ["p"; "a"; "b"; "c"]); EModel (CAdd ["g"; "x"; "y"]); EModel (CRemove ["p"; "a"; "b"; "c"]);
   EModel (CAdd ["p2"; "a"; "b"])]%string.

(** ** C39: Flush delivers every change in order

    In every state an enforcer can reach, with an adapter that takes changes and
    does not fail, Flush returns no error; the calls it makes are exactly the
    queued changes, in order - one call per change for a simple adapter, one call
    per maximal run of equal operations for a batch adapter; afterwards the queue
    is empty, and model and settings are unchanged. *)
Theorem C39_flush :
  forall E W e id os, reachable_enforcer E W e -> accepts W id -> f_adapter e = AExt id ->
  exists e' es, estep E W os e EFlush = Val (e', mkERes None None) /\
    f_log e' = f_log e ++ es /\ flushed W (AExt id) (queue e) es /\ accepted id es = queue e /\
    queue e' = [] /\ f_model e' = f_model e /\ autosave e' = autosave e /\ enabled e' = enabled e /\ f_adapter e' = AExt id.
Proof.
  intros E W e id os R A Ha. pose proof (wf_reachable _ _ _ R) as Hw. pose proof (wf_cur e Hw) as [sc [Hc [Hsa _]]].
  cbn [estep]. change (nth_error (f_scs e) (f_sc e)) with (cur e). rewrite Hc.
  destruct (Flush_ok W id sc (f_log e) A) as [es [F1 [F2 [F3 F4]]]]; [congruence|]. rewrite F1.
  destruct (Flush_flushed _ _ _ _ _ F1) as [_ [es2 [L Fl]]]. apply app_inv_head in L. subst es2. rewrite Hsa, Ha in Fl.
  exists (set_log (put_sc e (f_sc e) (with_q sc [] 0)) (f_log e ++ es)), es. split; [reflexivity|]. rewrite (put_nth _ _ _ _ Hc).
  assert (C' : cur (set_log (set_scs e (upd (f_scs e) (f_sc e) (with_q sc [] 0))) (f_log e ++ es)) = Some (with_q sc [] 0)) by exact (cur_put e _ _ Hc).
  unfold queue, autosave, enabled. rewrite C', Hc. cbn. auto 10.
Qed.
Print Assumptions C39_flush.

(** Whatever the adapter, a Flush that returns no error has delivered the whole
    queue. *)
Theorem C39_no_error_means_delivered :
  forall E W e os e' r, reachable_enforcer E W e -> estep E W os e EFlush = Val (e', r) -> y_err r = None ->
  queue e' = [] /\ exists es, f_log e' = f_log e ++ es /\ flushed W (f_adapter e) (queue e) es.
Proof.
  intros E W e os e' r R H Hr. pose proof (wf_reachable _ _ _ R) as Hw. pose proof (wf_cur e Hw) as [sc [Hc [Hsa _]]].
  cbn [estep] in H. change (nth_error (f_scs e) (f_sc e)) with (cur e) in H. rewrite Hc in H.
  destruct (Flush W sc (f_log e)) as [[sc1 log1] err] eqn:F. injection H as <- <-. cbn in Hr. subst err.
  destruct (Flush_flushed _ _ _ _ _ F) as [-> [es [-> Fl]]]. rewrite (put_nth _ _ _ _ Hc).
  assert (C' : cur (set_log (set_scs e (upd (f_scs e) (f_sc e) (with_q sc [] 0))) (f_log e ++ es)) = Some (with_q sc [] 0)) by exact (cur_put e _ _ Hc).
  unfold queue. rewrite C', Hc, <- Hsa. split; [reflexivity|]. exists es. split; [reflexivity|exact Fl].
Qed.
Print Assumptions C39_no_error_means_delivered.

(** Over a whole history nothing is lost, invented or reordered: what the adapter
    has accepted, followed by what is still queued, is what was queued before
    followed by the changes the model has announced. *)
Theorem C39_every_change_once :
  forall E W id e h e' rs, reachable_enforcer E W e -> accepts W id -> f_adapter e = AExt id -> enabled e = true -> attached e ->
  Forall (fun c => keeps_storage (snd c)) h -> eexec E W e h = Val (e', rs) ->
  exists hm es xs, model_parts h hm /\ mexec E (f_model e) hm = Val (f_model e', xs) /\
    f_log e' = f_log e ++ es /\ accepted id es ++ queue e' = queue e ++ announced xs.
Proof.
  intros E W id e h e' rs R A Ha He Hm K H.
  destruct (conserve_exec E W id A h e e' rs (conj (wf_reachable _ _ _ R) (conj Ha (conj He Hm))) K H) as [hm [es [xs [M1 [M2 [M3 [M4 [M5 M6]]]]]]]].
  exists hm, es, xs. auto.
Qed.
Print Assumptions C39_every_change_once.

(** Four changes for a simple adapter, then the same ones for a batch adapter. *)
Example C39_ex_simple :
  let e := ex_run ex_w (ArgAdapter (AExt 0)) [] ex_changes in
  reachable_enforcer ex_env ex_w e /\ accepts ex_w 0 /\ f_adapter e = AExt 0 /\ List.length (queue e) = 4 /\
  (let! (e', _) := estep ex_env ex_w ex_os e EFlush in Val (map en_call (f_log e')))
  = Val [CAddRule ["p"; "a"; "b"; "c"]; CAddRule ["g"; "x"; "y"]; CRemoveRule ["p"; "a"; "b"; "c"]; CAddRule ["p2"; "a"; "b"]]%string.
Proof. cbv zeta. run. Qed.
Example C39_ex_batch :
  let e := ex_run ex_w (ArgAdapter (AExt 1)) [] ex_changes in
  reachable_enforcer ex_env ex_w e /\ accepts ex_w 1 /\ f_adapter e = AExt 1 /\ List.length (queue e) = 4 /\
  (let! (e', _) := estep ex_env ex_w ex_os e EFlush in Val (map en_call (f_log e')))
  = Val [CAddRules [["p"; "a"; "b"; "c"]; ["g"; "x"; "y"]]; CRemoveRules [["p"; "a"; "b"; "c"]]; CAddRules [["p2"; "a"; "b"]]]%string.
Proof. cbv zeta. run. Qed.

(** ** C40: Storage follows the model

    Let an enforcer with a model that was built by any calls [hs], storage enabled
    and an adapter that does not fail be given; let the adapter hold, up to the
    queued changes, the model's rules.  After any history of rule changes -
    single, in batches, transactions of definitions excluded -, flushes, saves,
    autosave switches and AddWait calls, the adapter holds, up to the queued
    changes, exactly the rules the model lists. *)
Theorem C40_storage_follows_partial :
  forall E W id e hs m0rs s0 o h e' rs,
  reachable_enforcer E W e -> accepts W id -> f_adapter e = AExt id -> enabled e = true -> attached e ->
  good_m hs -> tame hs -> mexec E (NewModel E) hs = Val (f_model e, m0rs) -> good_orders o ->
  (forall rl, fold_left apply_op (queue e) s0 rl = true <-> In rl (model_rules o (f_model e))) ->
  Forall (fun c => keeps_storage (snd c)) h -> Forall (fun c => plain_call hs (snd c)) h -> eorders h ->
  eexec E W e h = Val (e', rs) ->
  exists es, f_log e' = f_log e ++ es /\
    forall o' rl, good_orders o' ->
      (fold_left apply_op (queue e') (stored id s0 es) rl = true <-> In rl (model_rules o' (f_model e'))).
Proof.
  intros E W id e hs m0rs s0 o h e' rs R A Ha He Hm Go T H0 Ho S0 K P O H.
  assert (F0 : follows id s0 [] e hs).
  { intros rl. cbn [stored fold_left]. rewrite S0. eapply model_rules_present; eauto. }
  destruct (follows_exec E W id hs s0 A h e e' rs hs [] m0rs) as [hm [es [xs [M1 [M2 [M3 [M4 [M5 [M6 M7]]]]]]]]]; auto.
  { split; [eapply wf_reachable; eauto|auto]. }
  exists es. split; [exact M6|]. intros o' rl Ho'. rewrite (model_rules_present E (hs ++ hm) o' (f_model e') (m0rs ++ xs)); auto.
  apply mexec_app. eauto 8.
Qed.
Print Assumptions C40_storage_follows_partial.

(** In particular after Flush: whatever was queued, the adapter's content is the
    model's rule set. *)
Theorem C40_after_flush_partial :
  forall E W id e hs m0rs s0 o h os e' rs,
  reachable_enforcer E W e -> accepts W id -> f_adapter e = AExt id -> enabled e = true -> attached e ->
  good_m hs -> tame hs -> mexec E (NewModel E) hs = Val (f_model e, m0rs) -> good_orders o -> (forall n, good_orders (os n)) ->
  queue e = [] -> (forall rl, s0 rl = true <-> In rl (model_rules o (f_model e))) ->
  Forall (fun c => keeps_storage (snd c)) h -> Forall (fun c => plain_call hs (snd c)) h -> eorders h ->
  eexec E W e (h ++ [(os, EFlush)]) = Val (e', rs) ->
  exists es, f_log e' = f_log e ++ es /\ queue e' = [] /\
    forall o' rl, good_orders o' -> (stored id s0 es rl = true <-> In rl (model_rules o' (f_model e'))).
Proof.
  intros E W id e hs m0rs s0 o h os e' rs R A Ha He Hm Go T H0 Ho Hos Q0 S0 K P O H.
  assert (Q : queue e' = []).
  { assert (X : forall h e rs, reachable_enforcer E W e -> f_adapter e = AExt id -> Forall (fun c => keeps_storage (snd c)) h ->
       eexec E W e (h ++ [(os, EFlush)]) = Val (e', rs) -> queue e' = []).
    { clear - A. induction h as [|[o c] h IH]; intros e rs R Ha K H; cbn [app eexec] in H.
      - destruct (C39_flush E W e id os R A Ha) as [e1 [es [E1 [_ [_ [_ [Q _]]]]]]]. rewrite E1 in H. cbn [obind] in H. injection H as <- _. exact Q.
      - apply obind_val in H as [[e1 r1] [H1 H]]. apply obind_val in H as [[e2 rs2] [H2 H]]. injection H as <- <-. inversion K as [|? ? K1 K2]; subst. cbn [snd] in K1.
        assert (R1 : reachable_enforcer E W e1) by (eapply reachable_step; eauto).
        assert (N : forall a, c <> ESetAdapter a) by (intros a ->; destruct K1).
        destruct (only_step E W o e c e1 r1 (wf_reachable _ _ _ R) N H1) as [A1 _]. eapply (IH e1); eauto. congruence. }
    eapply X; eauto. }
  destruct (C40_storage_follows_partial E W id e hs m0rs s0 o (h ++ [(os, EFlush)]) e' rs) as [es [L F]]; auto.
  - intros rl. rewrite Q0. apply S0.
  - apply Forall_app. split; [exact K|repeat constructor].
  - apply Forall_app. split; [exact P|repeat constructor].
  - apply Forall_app. split; [exact O|repeat constructor; apply Hos].
  - exists es. split; [exact L|]. split; [exact Q|]. intros o' rl Ho'. rewrite <- (F o' rl Ho'), Q. reflexivity.
Qed.
Print Assumptions C40_after_flush_partial.

(** With autosave on and no wait, the adapter holds the model's rules after
    every single call. *)
Definition keeps_autosave (c : ecall) : Prop :=
  keeps_storage c /\ match c with EOption _ | EAddWait _ => False | _ => True end.
Lemma autosave_step E W id os e c e' r : accepts W id -> storing id e -> keeps_autosave c -> estep E W os e c = Val (e', r) ->
  autosave e = true -> queue e = [] -> (waiting e <= 0)%Z -> storing id e' /\ autosave e' = true /\ queue e' = [] /\ (waiting e' <= 0)%Z.
Proof.
  intros A St [K1 K2] H Hs Hq Hw'. destruct (conserve_step E W id os e c e' r A St K1 H) as [hm [es [xs [_ [_ [St' _]]]]]]. split; [exact St'|].
  pose proof St as [Hw [Ha [He Hm]]]. pose proof (wf_cur e Hw) as [sc [Hc [Hsa [Hsm Hem]]]].
  assert (O : sc_autosave sc = true /\ sc_q sc = [] /\ (sc_wait sc <= 0)%Z) by (unfold autosave, queue, waiting in *; rewrite Hc in *; auto).
  destruct O as [O1 [O2 O3]].
  assert (B : forall m em log ad mid sc', sc_autosave sc' = true -> sc_q sc' = [] -> (sc_wait sc' <= 0)%Z ->
     let e' := mkEnf m mid em (upd (f_scs e) (f_sc e) sc') (f_sc e) ad log in autosave e' = true /\ queue e' = [] /\ (waiting e' <= 0)%Z).
  { intros m em log ad mid sc' X1 X2 X3. cbv zeta. unfold autosave, queue, waiting, cur. cbn [f_scs f_sc]. unfold cur in Hc. rewrite (nth_upd _ _ _ _ Hc), Nat.eqb_refl. auto. }
  assert (R : forall mk rs err, rules_call E W os e mk rs = Val (e', err) -> autosave e' = true /\ queue e' = [] /\ (waiting e' <= 0)%Z).
  { intros mk rs err Hr. destruct (rules_call_spec _ _ _ _ _ _ _ _ Hw Hr) as [ys [sc0 [sc1 [log1 [_ [Hc0 [E1 [S1 [S2 D]]]]]]]]].
    rewrite Hc in Hc0. injection Hc0 as <-. cbv zeta in D. rewrite O1 in D. destruct D as [-> _]. rewrite E1. apply B; cbn; auto; lia. }
  destruct c as [c|rs|rs| | | |a|op|i|m]; cbn [estep keeps_storage] in H, K1, K2; try destruct K1; try destruct K2.
  - apply obind_val in H as [[e1 x] [H1 H]]. injection H as <- <-.
    destruct (model_call_spec _ _ _ _ _ _ _ Hw H1) as [sc0 [sc1 [log1 [Hc0 [_ [E1 D]]]]]]. rewrite Hc in Hc0. injection Hc0 as <-.
    rewrite E1. destruct D as [[_ D]|[_ [-> ->]]]; [|apply B; auto].
    destruct (feed_saves W id A _ _ _ _ _ (eq_trans Hsa Ha) O1 O2 O3 D) as [X1 [X2 X3]]. apply B; auto.
  - apply obind_val in H as [[e1 err] [H1 H]]. injection H as <- <-. eauto.
  - apply obind_val in H as [[e1 err] [H1 H]]. injection H as <- <-. eauto.
  - change (nth_error (f_scs e) (f_sc e)) with (cur e) in H. rewrite Hc in H.
    destruct (Flush_ok W id sc (f_log e) A) as [es2 [F1 _]]; [congruence|]. rewrite F1 in H. injection H as <- <-. rewrite (put_nth _ _ _ _ Hc).
    apply B; cbn; auto; lia.
  - apply obind_val in H as [[e1 err] [H1 H]]. injection H as <- <-. unfold SavePolicy in H1. rewrite Ha in H1. cbn [ask] in H1. injection H1 as <- <-.
    auto.
Qed.
Theorem C40_autosave_partial :
  forall E W id e hs m0rs s0 o h e' rs,
  reachable_enforcer E W e -> accepts W id -> f_adapter e = AExt id -> enabled e = true -> attached e ->
  good_m hs -> tame hs -> mexec E (NewModel E) hs = Val (f_model e, m0rs) -> good_orders o ->
  autosave e = true -> (waiting e <= 0)%Z -> queue e = [] -> (forall rl, s0 rl = true <-> In rl (model_rules o (f_model e))) ->
  Forall (fun c => keeps_autosave (snd c)) h -> Forall (fun c => plain_call hs (snd c)) h -> eorders h ->
  eexec E W e h = Val (e', rs) ->
  exists es, f_log e' = f_log e ++ es /\
    forall o' rl, good_orders o' -> (stored id s0 es rl = true <-> In rl (model_rules o' (f_model e'))).
Proof.
  intros E W id e hs m0rs s0 o h e' rs R A Ha He Hm Go T H0 Ho Hs Hw Q0 S0 K P O H.
  assert (Q : queue e' = []).
  { assert (St : storing id e) by (split; [eapply wf_reachable; eauto|auto]). clear - A St Hs Hw Q0 K H. revert e rs St Hs Hw Q0 K H.
    induction h as [|[os c] h IH]; intros e rs St Hs Hw Q0 K H; cbn [eexec] in H; [now injection H as <- _|].
    apply obind_val in H as [[e1 r1] [H1 H]]. apply obind_val in H as [[e2 rs2] [H2 H]]. injection H as <- <-. inversion K as [|? ? K1 K2]; subst. cbn [snd] in K1.
    destruct (autosave_step E W id os e c e1 r1 A St K1 H1 Hs Q0 Hw) as [S1 [S2 [S3 S4]]]. eauto. }
  destruct (C40_storage_follows_partial E W id e hs m0rs s0 o h e' rs) as [es [L F]]; auto.
  - intros rl. rewrite Q0. apply S0.
  - eapply Forall_impl; [|exact K]. intros [os c] [X _]. exact X.
  - exists es. split; [exact L|]. intros o' rl Ho'. rewrite <- (F o' rl Ho'), Q. reflexivity.
Qed.
Print Assumptions C40_autosave_partial.

Definition ex_plain : list ecall :=
  [EAddRules [["p"; "admin"; "data1"; "read"]; ["g"; "alice"; "admin"]]; EModel (CRemove ["g"; "alice"; "admin"]); EModel (CAdd ["p2"; "a"; "b"])]%string.
Example C40_ex :
  let e := ex_run ex_w (ArgAdapter (AExt 1)) [OptAutosave true] [] in
  reachable_enforcer ex_env ex_w e /\ accepts ex_w 1 /\ f_adapter e = AExt 1 /\ enabled e = true /\ attached e /\
  good_m ex_setup /\ tame ex_setup /\ (exists rs, mexec ex_env (NewModel ex_env) ex_setup = Val (f_model e, rs)) /\
  autosave e = true /\ queue e = [] /\ model_rules ex_o (f_model e) = [] /\
  Forall (fun c => keeps_autosave (snd c)) (map (pair ex_os) ex_plain) /\ Forall (fun c => plain_call ex_setup (snd c)) (map (pair ex_os) ex_plain) /\
  (let! (e', _) := eexec ex_env ex_w e (map (pair ex_os) ex_plain) in Val (map en_call (f_log e'), model_rules ex_o (f_model e')))
  = Val ([CAddRules [["p"; "admin"; "data1"; "read"]; ["g"; "alice"; "admin"]]; CRemoveRules [["g"; "alice"; "admin"]]; CAddRules [["p2"; "a"; "b"]]],
         [["p"; "admin"; "data1"; "read"]; ["p2"; "a"; "b"]])%string.
Proof.
  cbv zeta. split; [run|]. split; [run|]. split; [run|]. split; [run|]. split; [run|]. split; [repeat constructor; apply ex_o_good || apply ex_rev_good|].
  split; [unfold ex_setup; tame_tac|]. split.
  { exists (match mexec ex_env (NewModel ex_env) ex_setup with Val (_, rs) => rs | Panic => [] end).
    assert (X : f_model (ex_run ex_w (ArgAdapter (AExt 1)) [OptAutosave true] []) = ex_m) by reflexivity. rewrite X. unfold ex_m.
    destruct (mexec ex_env (NewModel ex_env) ex_setup) as [[m rs]|] eqn:M; [reflexivity|]. exfalso.
    assert (Y : match mexec ex_env (NewModel ex_env) ex_setup with Val _ => true | Panic => false end = true) by (vm_compute; reflexivity). rewrite M in Y. discriminate. }
  split; [run|]. split; [run|]. split; [run|].
  split; [repeat constructor|]. split; [|vm_compute; reflexivity].
  unfold ex_plain. cbn [map]. repeat (apply Forall_cons; [cbn [snd plain_call]|]); try apply Forall_nil;
    (split; [tame_rule_tac|vm_compute; reflexivity]).
Qed.

(** The full claim is false in two respects.  ClearPolicy empties the model
    without announcing anything: the adapter keeps the rules. *)
Theorem C40_clear_refuted :
  exists e e' rs, reachable_enforcer ex_env ex_w e /\ f_adapter e = AExt 0 /\ enabled e = true /\ attached e /\ autosave e = true /\ f_log e = [] /\
    eexec ex_env ex_w e (map (pair ex_os) [EModel (CAdd ["p"; "a"; "b"; "c"]); EModel (CClear "p"); EFlush]) = Val (e', rs) /\
    model_rules ex_o (f_model e') = [] /\ stored 0 (fun _ => false) (f_log e') ["p"; "a"; "b"; "c"] = true.
Proof.
  destruct (ex_extend ex_w (ArgAdapter (AExt 0)) [OptAutosave true] [] [EModel (CAdd ["p"; "a"; "b"; "c"]); EModel (CClear "p"); EFlush]) as [rs X]; [vm_compute; reflexivity|].
  eexists _, _, rs. split; [|split; [|split; [|split; [|split; [|split; [|split; [exact X|]]]]]]]; run.
Qed.
Print Assumptions C40_clear_refuted.
(** A grouping section without domains drops the third value of a rule; what is
    announced, and stored, still has it. *)
Theorem C40_extra_values_refuted :
  exists e e' rs, reachable_enforcer ex_env ex_w e /\ f_adapter e = AExt 0 /\ enabled e = true /\ attached e /\ autosave e = true /\ f_log e = [] /\
    eexec ex_env ex_w e (map (pair ex_os) [EModel (CAdd ["g"; "a"; "b"; "c"])]) = Val (e', rs) /\
    model_rules ex_o (f_model e') = [["g"; "a"; "b"]]%string /\ stored 0 (fun _ => false) (f_log e') ["g"; "a"; "b"; "c"] = true /\
    stored 0 (fun _ => false) (f_log e') ["g"; "a"; "b"] = false.
Proof.
  destruct (ex_extend ex_w (ArgAdapter (AExt 0)) [OptAutosave true] [] [EModel (CAdd ["g"; "a"; "b"; "c"])]) as [rs X]; [vm_compute; reflexivity|].
  eexists _, _, rs. split; [|split; [|split; [|split; [|split; [|split; [|split; [exact X|]]]]]]]; run.
Qed.
Print Assumptions C40_extra_values_refuted.

(** ** C41: A failed Flush

    The claim is false: the change (or batch) the adapter refuses is dropped. *)
Theorem C41_failed_flush_refuted :
  exists e e' x, reachable_enforcer ex_env ex_bad e /\ queue e = map (fun r => (OpAdd, r)) [["p"; "a"; "b"; "c"]; ["g"; "x"; "y"]; ["p2"; "a"; "b"]]%string /\
    estep ex_env ex_bad ex_os e EFlush = Val (e', mkERes (Some ErrAdapter) x) /\
    accepted 0 (f_log e') = [(OpAdd, ["p"; "a"; "b"; "c"])]%string /\ queue e' = [(OpAdd, ["p2"; "a"; "b"])]%string.
Proof.
  destruct (ex_extend1 ex_bad (ArgAdapter (AExt 0)) [] [EModel (CAdd ["p"; "a"; "b"; "c"]); EModel (CAdd ["g"; "x"; "y"]); EModel (CAdd ["p2"; "a"; "b"])]%string EFlush) as [[er x] X]; [vm_compute; reflexivity|].
  assert (Er : er = Some ErrAdapter).
  { match type of X with ?l = _ => assert (Y : (let! (_, r) := l in Val (y_err r)) = Val (Some ErrAdapter)) by (vm_compute; reflexivity); rewrite X in Y end.
    cbn in Y. congruence. }
  subst er. eexists _, _, x. split; [|split; [|split; [exact X|]]]; run.
Qed.
Print Assumptions C41_failed_flush_refuted.
(** A batch adapter loses the whole refused run and, with it, the first change of
    the next run, which was never offered. *)
Theorem C41_failed_batch_refuted :
  exists e e' x, reachable_enforcer ex_env ex_bad e /\
    queue e = [(OpAdd, ["p"; "a"; "b"; "c"]); (OpRemove, ["p"; "a"; "b"; "c"]); (OpAdd, ["g"; "x"; "y"]); (OpAdd, ["p2"; "a"; "b"])]%string /\
    estep ex_env ex_bad ex_os e EFlush = Val (e', mkERes (Some ErrAdapter) x) /\
    map en_call (f_log e') = [CAddRules [["p"; "a"; "b"; "c"]]; CRemoveRules [["p"; "a"; "b"; "c"]]]%string /\ queue e' = [(OpAdd, ["p2"; "a"; "b"])]%string.
Proof.
  destruct (ex_extend1 ex_bad (ArgAdapter (AExt 1)) [] [EModel (CAdd ["p"; "a"; "b"; "c"]); EModel (CRemove ["p"; "a"; "b"; "c"]); EModel (CAdd ["g"; "x"; "y"]); EModel (CAdd ["p2"; "a"; "b"])]%string EFlush) as [[er x] X]; [vm_compute; reflexivity|].
  assert (Er : er = Some ErrAdapter).
  { match type of X with ?l = _ => assert (Y : (let! (_, r) := l in Val (y_err r)) = Val (Some ErrAdapter)) by (vm_compute; reflexivity); rewrite X in Y end.
    cbn in Y. congruence. }
  subst er. eexists _, _, x. split; [|split; [|split; [exact X|]]]; run.
Qed.
Print Assumptions C41_failed_batch_refuted.
(** What does hold, exactly, for every state and every adapter: the changes before
    the refused call are accepted; the changes after it stay queued, for a batch
    adapter except the first of them; an adapter that takes no changes is not
    called and the queue is kept. *)
Theorem C41_failed_flush_partial :
  forall E W e id os e' r err, reachable_enforcer E W e -> f_adapter e = AExt id ->
  estep E W os e EFlush = Val (e', r) -> y_err r = Some err ->
  match w_kind W id with
  | KSimple => exists done x rest, queue e = done ++ x :: rest /\ queue e' = rest /\
      f_log e' = f_log e ++ map (fun op => mkEntry id (single op) None) done ++ [mkEntry id (single x) (Some err)]
  | KBatch => exists gs done x rest, runs (queue e) gs /\ gs = done ++ x :: rest /\ queue e' = tl (ungroup rest) /\
      f_log e' = f_log e ++ map (fun g => mkEntry id (batch g) None) done ++ [mkEntry id (batch x) (Some err)]
  | KNone => queue e' = queue e /\ f_log e' = f_log e /\ err = ErrInvalidAdapter
  end.
Proof.
  intros E W e id os e' r err R Ha H Hr. pose proof (wf_reachable _ _ _ R) as Hw. pose proof (wf_cur e Hw) as [sc [Hc [Hsa _]]].
  cbn [estep] in H. change (nth_error (f_scs e) (f_sc e)) with (cur e) in H. rewrite Hc in H.
  destruct (Flush W sc (f_log e)) as [[sc1 log1] err1] eqn:F. injection H as <- <-. cbn in Hr. subst err1.
  rewrite (put_nth _ _ _ _ Hc).
  assert (C' : cur (set_log (set_scs e (upd (f_scs e) (f_sc e) sc1)) log1) = Some sc1) by exact (cur_put e _ _ Hc).
  assert (Q1 : queue e = sc_q sc) by (unfold queue; now rewrite Hc).
  assert (Q2 : queue (set_log (set_scs e (upd (f_scs e) (f_sc e) sc1)) log1) = sc_q sc1) by (unfold queue; now rewrite C').
  cbn [f_log set_log]. rewrite Q2, Q1. unfold Flush in F. rewrite Hsa, Ha in F. cbn [kind_of] in F. destruct (w_kind W id).
  - destruct (batchFlush _ _ _ _) as [[l q] x] eqn:B. injection F as <- <- ->. apply batchFlush_spec in B as [gs [R1 [done [x [rest [B1 [B2 B3]]]]]]].
    exists gs, done, x, rest. auto.
  - destruct (flush _ _ _ _) as [[l q] x] eqn:B. injection F as <- <- ->. apply flush_spec in B as [done [_ [x [B1 B2]]]].
    exists done, x, q. auto.
  - injection F as <- <- <-. auto.
Qed.
Print Assumptions C41_failed_flush_partial.

(** ** C42: AddWait delays autosave by exactly n changes

    From any state with autosave on, storage enabled and no wait pending, after
    AddWait(n) any sequence of model calls that announces fewer than n changes
    only queues them; one that announces exactly n flushes everything with the
    last of them, so that all are delivered in one flush. *)
Theorem C42_add_wait :
  forall E W e n os hm e' rs, reachable_enforcer E W e -> autosave e = true -> enabled e = true -> attached e -> waiting e = 0%Z -> (1 <= n)%nat ->
  eexec E W e ((os, EAddWait (Z.of_nat n)) :: model_calls hm) = Val (e', rs) ->
  exists xs, mexec E (f_model e) hm = Val (f_model e', xs) /\
    (List.length (announced xs) < n -> f_log e' = f_log e /\ queue e' = queue e ++ announced xs) /\
    (List.length (announced xs) = n ->
       queue e' = [] /\ waiting e' = 0%Z /\ exists es, f_log e' = f_log e ++ es /\ flushed W (f_adapter e) (queue e ++ announced xs) es).
Proof.
  intros E W e n os hm e' rs R Hs He Hm Hwt Hn H. pose proof (wf_reachable _ _ _ R) as Hw. pose proof (wf_cur e Hw) as [sc [Hc [Hsa [Hsm Hem]]]].
  cbn [eexec estep] in H. change (nth_error (f_scs e) (f_sc e)) with (cur e) in H. rewrite Hc in H. cbn [obind] in H.
  apply obind_val in H as [[e2 rs2] [H H']]. injection H' as <- <-. set (e1 := put_sc _ _ _) in H.
  assert (W1 : Wf e1) by (eapply wf_put; eauto; repeat split).
  assert (E1 : e1 = set_scs e (upd (f_scs e) (f_sc e) (AddWait sc (Z.of_nat n)))) by (apply (put_nth _ _ _ _ Hc)).
  assert (C1 : cur e1 = Some (AddWait sc (Z.of_nat n))) by (rewrite E1; exact (cur_put e _ _ Hc)).
  destruct (models_exec E W hm e1 e2 rs2 W1 H) as [xs [sc1 [sc2 [log2 [M [C1' [E2 D]]]]]]]. rewrite C1 in C1'. injection C1' as <-.
  assert (I1 : f_model e1 = f_model e /\ f_log e1 = f_log e /\ f_adapter e1 = f_adapter e /\ f_em e1 = f_em e /\ f_sc e1 = f_sc e) by (rewrite E1; repeat split).
  destruct I1 as [I1 [I2 [I3 [I4 I5]]]]. rewrite I1 in M. exists xs. split; [exact M|].
  assert (Hl : f_em e = [f_sc e]).
  { destruct Hm as [sc0 [X1 X2]]. rewrite Hc in X1. injection X1 as <-. unfold enabled in He. rewrite Hc in He. rewrite Hem, He, X2, Nat.eqb_refl. reflexivity. }
  rewrite I4, I5, I2 in D. destruct D as [[_ D]|[D _]]; [|congruence].
  assert (A0 : sc_autosave sc = true /\ sc_wait sc = 0%Z) by (unfold autosave, waiting in *; rewrite Hc in *; auto). destruct A0 as [A0 A1].
  assert (C2 : cur e2 = Some sc2).
  { rewrite E2. unfold cur in C1 |- *. cbn [f_scs f_sc]. now rewrite (nth_upd _ _ _ _ C1), Nat.eqb_refl. }
  assert (Q1 : queue e = sc_q sc) by (unfold queue; now rewrite Hc). assert (Q2 : queue e2 = sc_q sc2) by (unfold queue; now rewrite C2).
  assert (L2 : f_log e2 = log2) by (rewrite E2; reflexivity).
  split; intros Hlen; rewrite Q1, Q2, L2.
  - rewrite feed_waits in D; [|exact A0|cbn; lia]. injection D as <- <-. split; reflexivity.
  - apply feed_last in D as [-> [es [-> Fl]]]; [|exact A0|cbn; lia|intros Z; rewrite Z in Hlen; cbn in Hlen; lia].
    split; [reflexivity|]. split; [unfold waiting; now rewrite C2|]. exists es. split; [reflexivity|]. cbn in Fl. now rewrite Hsa in Fl.
Qed.
Print Assumptions C42_add_wait.
Example C42_ex :
  let e := ex_run ex_w (ArgAdapter (AExt 1)) [OptAutosave true] [] in
  reachable_enforcer ex_env ex_w e /\ autosave e = true /\ enabled e = true /\ attached e /\ waiting e = 0%Z /\
  map (fun k => let! (e', _) := eexec ex_env ex_w e (map (pair ex_os) (EAddWait 3 :: firstn k ex_changes)) in Val (List.length (queue e'), map en_call (f_log e'))) [2; 3; 4]
  = [Val (2, []); Val (0, [CAddRules [["p"; "a"; "b"; "c"]; ["g"; "x"; "y"]]; CRemoveRules [["p"; "a"; "b"; "c"]]]);
     Val (0, [CAddRules [["p"; "a"; "b"; "c"]; ["g"; "x"; "y"]]; CRemoveRules [["p"; "a"; "b"; "c"]]; CAddRules [["p2"; "a"; "b"]]])]%string.
Proof. cbv zeta. run. Qed.

(** ** C43: Loading is not written back

    In every reachable state, whatever the adapter hands over and whether loading
    ends with an error of the model, of the adapter or with none: the queue, the
    autosave and storage switches, the pending wait and the adapter are as before;
    the only call made is the adapter's LoadPolicy; and the model is the one the
    adapter's rules lead to when they are added one by one up to the first error. *)
Theorem C43_load :
  forall E W e os e' r, reachable_enforcer E W e -> estep E W os e ELoad = Val (e', r) ->
  queue e' = queue e /\ autosave e' = autosave e /\ enabled e' = enabled e /\ waiting e' = waiting e /\ (attached e' <-> attached e) /\ f_adapter e' = f_adapter e /\
  match f_adapter e with
  | ANil => False
  | ANoop => f_model e' = f_model e /\ f_log e' = f_log e /\ y_err r = None
  | AExt id =>
      exists xs err, until_error E (f_model e) (rule_calls os CAdd (fst (w_load W (f_log e) id))) (f_model e') xs err /\
        f_log e' = f_log e ++ [mkEntry id CLoadPolicy (snd (w_load W (f_log e) id))] /\
        y_err r = match err with Some x => Some x | None => snd (w_load W (f_log e) id) end
  end.
Proof.
  intros E W e os e' r R H. pose proof (wf_reachable _ _ _ R) as Hw. destruct (load_spec E W os e e' r Hw H) as [L1 [L2 [L3 [L4 [L5 L6]]]]].
  unfold queue, autosave, enabled, waiting, attached, cur. rewrite L1, L3, L5. repeat (split; [reflexivity|]). split; [exact L4|exact L6].
Qed.
Print Assumptions C43_load.
(** Later changes go to the adapter again, as they would have without the load. *)
Theorem C43_delivery_after_load :
  forall E W e os e' r, reachable_enforcer E W e -> estep E W os e ELoad = Val (e', r) -> f_em e' = f_em e /\ f_scs e' = f_scs e.
Proof.
  intros E W e os e' r R H. destruct (load_spec E W os e e' r (wf_reachable _ _ _ R) H) as [L1 [L2 _]]. auto.
Qed.
Print Assumptions C43_delivery_after_load.
Example C43_ex :
  let e := ex_run ex_w (ArgAdapter (AExt 0)) [OptAutosave true] [] in
  reachable_enforcer ex_env ex_w e /\
  (let! (e', _) := eexec ex_env ex_w e (map (pair ex_os) [ELoad; EModel (CAdd ["p2"; "a"; "b"])]) in Val (map en_call (f_log e'), queue e', model_rules ex_o (f_model e')))
  = Val ([CLoadPolicy; CAddRule ["p2"; "a"; "b"]], [], [["p"; "admin"; "data1"; "read"]; ["p2"; "a"; "b"]; ["g"; "alice"; "admin"]])%string.
Proof. cbv zeta. run. Qed.

(** ** C44: Replacing the adapter *)
Theorem C44_set_adapter :
  forall E W e os a, reachable_enforcer E W e ->
  exists e', estep E W os e (ESetAdapter a) = Val (e', mkERes None None) /\
    autosave e' = autosave e /\ enabled e' = true /\ attached e' /\ f_adapter e' = a /\ queue e' = [] /\ waiting e' = 0%Z /\
    f_model e' = f_model e /\ f_log e' = f_log e.
Proof.
  intros E W e os a R. exists (SetAdapter e a). split; [reflexivity|].
  destruct (set_adapter_spec e a (or_introl (wf_reachable _ _ _ R))) as [scs [-> _]].
  assert (C : cur (mkEnf (f_model e) (f_mid e) [List.length scs] (scs ++ [mkSc (autosave e) (f_mid e) a [] 0 true]) (List.length scs) a (f_log e)) = Some (mkSc (autosave e) (f_mid e) a [] 0 true))
    by (unfold cur; cbn; apply nth_new).
  unfold autosave at 1, enabled, attached, queue, waiting. rewrite C. cbn. repeat (split; [reflexivity|]). split; [eexists; split; reflexivity|]. repeat split; reflexivity.
Qed.
Print Assumptions C44_set_adapter.
(** After any history that does not replace the adapter again, whatever adapters
    answer, every call that was made went to the new adapter. *)
Theorem C44_old_adapter_silent :
  forall E W e os a h e' rs, reachable_enforcer E W e -> Forall (fun c => forall a, snd c <> ESetAdapter a) h ->
  eexec E W e ((os, ESetAdapter a) :: h) = Val (e', rs) ->
  exists es, f_log e' = f_log e ++ es /\ forall en, In en es -> a = AExt (en_id en).
Proof.
  intros E W e os a h e' rs R N H. cbn [eexec estep obind] in H. apply obind_val in H as [[e2 rs2] [H H']]. injection H' as <- <-.
  pose proof (wf_set_adapter e a (or_introl (wf_reachable _ _ _ R))) as W1. destruct (only_exec E W h _ _ _ W1 N H) as [_ [es [L O]]].
  destruct (set_adapter_spec e a (or_introl (wf_reachable _ _ _ R))) as [scs [S1 _]]. rewrite S1 in L, O. cbn in L, O.
  exists es. split; [exact L|]. intros en Hin. destruct a as [| |id]; cbn in O; [subst; destruct Hin|subst; destruct Hin|]. unfold all_of in O. rewrite Forall_forall in O. now rewrite (O en Hin).
Qed.
Print Assumptions C44_old_adapter_silent.
(** And the new adapter is given every change from then on. *)
Theorem C44_new_adapter :
  forall E W e os id h e' rs, reachable_enforcer E W e -> accepts W id -> Forall (fun c => keeps_storage (snd c)) h ->
  eexec E W e ((os, ESetAdapter (AExt id)) :: h) = Val (e', rs) ->
  exists hm es xs, model_parts h hm /\ mexec E (f_model e) hm = Val (f_model e', xs) /\ f_log e' = f_log e ++ es /\
    accepted id es ++ queue e' = announced xs.
Proof.
  intros E W e os id h e' rs R A K H. cbn [eexec] in H. destruct (C44_set_adapter E W e os (AExt id) R) as [e1 [E1 [_ [He [Hm [Ha [Hq [_ [Hmod Hlog]]]]]]]]].
  rewrite E1 in H. cbn [obind] in H. apply obind_val in H as [[e2 rs2] [H H']]. injection H' as <- <-.
  assert (W1 : Wf e1) by (eapply wf_step; [eapply wf_reachable; exact R|exact E1]).
  destruct (conserve_exec E W id A h e1 e2 rs2 (conj W1 (conj Ha (conj He Hm))) K H) as [hm [es [xs [M1 [M2 [M3 [M4 [M5 M6]]]]]]]].
  exists hm, es, xs. rewrite Hmod in M2. rewrite Hlog in M4. rewrite Hq in M6. auto.
Qed.
Print Assumptions C44_new_adapter.
Example C44_ex :
  let e := ex_run ex_w (ArgAdapter (AExt 0)) [OptAutosave true] [EModel (CAdd ["p"; "a"; "b"; "c"])]%string in
  reachable_enforcer ex_env ex_w e /\
  (let! (e', _) := eexec ex_env ex_w e (map (pair ex_os) (ESetAdapter (AExt 1) :: ex_plain)) in Val (map (fun en => (en_id en, en_call en)) (f_log e')))
  = Val [(0, CAddRule ["p"; "a"; "b"; "c"]); (1, CAddRules [["p"; "admin"; "data1"; "read"]; ["g"; "alice"; "admin"]]);
         (1, CRemoveRules [["g"; "alice"; "admin"]]); (1, CAddRules [["p2"; "a"; "b"]])]%string.
Proof. cbv zeta. run. Qed.

(** ** C60: Replacing the adapter keeps pending changes

    The claim is false in every state with pending changes: they are dropped. *)
Theorem C60_pending_changes_refuted :
  exists e e' rs, reachable_enforcer ex_env ex_w e /\ List.length (queue e) = 4 /\ f_log e = [] /\
    eexec ex_env ex_w e (map (pair ex_os) [ESetAdapter (AExt 1); EFlush; ESetAdapter (AExt 0); EFlush]) = Val (e', rs) /\ f_log e' = [] /\ queue e' = [].
Proof.
  destruct (ex_extend ex_w (ArgAdapter (AExt 0)) [] ex_changes [ESetAdapter (AExt 1); EFlush; ESetAdapter (AExt 0); EFlush]) as [rs X]; [vm_compute; reflexivity|].
  eexists _, _, rs. split; [|split; [|split; [|split; [exact X|]]]]; run.
Qed.
Print Assumptions C60_pending_changes_refuted.
(** What does hold: flushing first keeps them. *)
Theorem C60_flush_first_partial :
  forall E W e id a os os', reachable_enforcer E W e -> accepts W id -> f_adapter e = AExt id ->
  exists e' rs es, eexec E W e [(os, EFlush); (os', ESetAdapter a)] = Val (e', rs) /\ f_log e' = f_log e ++ es /\ accepted id es = queue e /\ queue e' = [].
Proof.
  intros E W e id a os os' R A Ha. destruct (C39_flush E W e id os R A Ha) as [e1 [es [E1 [L [_ [Ac [Q _]]]]]]].
  assert (W1 : Wf e1) by (eapply wf_step; [eapply wf_reachable; exact R|exact E1]).
  exists (SetAdapter e1 a). eexists. exists es. cbn [eexec]. rewrite E1. cbn [obind estep]. split; [reflexivity|].
  destruct (set_adapter_spec e1 a (or_introl W1)) as [scs [-> _]]. cbn [f_log]. split; [exact L|]. split; [exact Ac|]. unfold queue, cur. cbn. now rewrite nth_new.
Qed.
Print Assumptions C60_flush_first_partial.

(** ** C61: Replacing the model

    "After SetModel the changes of the new model are stored" is false for every
    reachable state and every model: the controller stays with the emitter of the
    old model, so that until the adapter is set again no change of the new model
    is queued or delivered. *)
Theorem C61_set_model_refuted :
  forall E W e m os h e' rs, reachable_enforcer E W e -> Forall (fun c => forall a, snd c <> ESetAdapter a) h ->
  eexec E W e ((os, ESetModel m) :: h) = Val (e', rs) ->
  exists es, f_log e' = f_log e ++ es /\
    (forall en op, In en es -> In op (changes (en_call en)) -> In op (queue e)) /\ (forall op, In op (queue e') -> In op (queue e)).
Proof.
  intros E W e m os h e' rs R N H. cbn [eexec estep obind] in H. apply obind_val in H as [[e2 rs2] [H H']]. injection H' as <- <-.
  pose proof (wf_reachable _ _ _ R) as Hw. pose proof (wf_cur e Hw) as [sc [Hc [Hsa [Hsm Hem]]]].
  eapply (detached_exec E W (queue e) h) in H as [_ [es [L [C Q]]]]; [| |exact N].
  - exists es. auto.
  - split; [|split].
    + constructor. exists sc. split; [exact Hc|]. split; [exact Hsa|]. split; [cbn; lia|]. cbn. destruct (Nat.eqb_spec (sc_em sc) (S (f_mid e))); [lia|]. now rewrite andb_false_r.
    + intros [sc' [X1 X2]]. change (cur e = Some sc') in X1. rewrite Hc in X1. injection X1 as <-. cbn in X2. lia.
    + intros op. change (queue _) with (queue e) at 1. auto.
Qed.
Print Assumptions C61_set_model_refuted.
Example C61_ex :
  let e := ex_run ex_w (ArgAdapter (AExt 0)) [OptAutosave true] [] in
  reachable_enforcer ex_env ex_w e /\ autosave e = true /\ enabled e = true /\
  (let! (e', _) := eexec ex_env ex_w e (map (pair ex_os) [ESetModel ex_m; EModel (CAdd ["p"; "a"; "b"; "c"]); EFlush]) in Val (f_log e', enabled e', model_rules ex_o (f_model e')))
  = Val ([], true, [["p"; "a"; "b"; "c"]])%string.
Proof. cbv zeta. run. Qed.
(** Setting the adapter again after SetModel makes it work. *)
Theorem C61_set_model_and_adapter_partial :
  forall E W e m os os' id h e' rs, reachable_enforcer E W e -> accepts W id -> Forall (fun c => keeps_storage (snd c)) h ->
  eexec E W e ((os, ESetModel m) :: (os', ESetAdapter (AExt id)) :: h) = Val (e', rs) ->
  exists hm es xs, model_parts h hm /\ mexec E m hm = Val (f_model e', xs) /\ f_log e' = f_log e ++ es /\ accepted id es ++ queue e' = announced xs.
Proof.
  intros E W e m os os' id h e' rs R A K H. cbn [eexec] in H. apply obind_val in H as [[e1 r1] [H1 H]]. apply obind_val in H as [[e2 rs2] [H H']]. injection H' as <- <-.
  assert (R1 : reachable_enforcer E W e1) by (eapply reachable_step; eauto).
  destruct (C44_new_adapter E W e1 os' id h e2 rs2 R1 A K H) as [hm [es [xs [M1 [M2 [M3 M4]]]]]].
  cbn [estep] in H1. injection H1 as <- <-. exists hm, es, xs. auto.
Qed.
Print Assumptions C61_set_model_and_adapter_partial.

(** ** C62: A storage failure with autosave is reported by the call

    The claim is false: with autosave on, the call panics exactly when the
    adapter refuses the change (the case of a simple adapter and an empty
    queue). *)
Theorem C62_failure_is_panic_refuted :
  forall E W e os c m x ev id, reachable_enforcer E W e -> autosave e = true -> enabled e = true -> attached e -> (waiting e <= 1)%Z -> queue e = [] ->
  f_adapter e = AExt id -> w_kind W id = KSimple -> mstep E (os 0) (f_model e) c = Val (m, x) -> x_events x = [ev] ->
  (estep E W os e (EModel c) = Panic <-> w_answer W (f_log e) id (single (op_of ev)) <> None).
Proof.
  intros E W e os c m x ev id R Hs He Hm Hwt Hq Ha Hk Hst Hx. pose proof (wf_reachable _ _ _ R) as Hw. pose proof (wf_cur e Hw) as [sc [Hc [Hsa [Hsm Hem]]]].
  assert (St : storing id e) by (split; auto). pose proof (storing_em id e St) as Em.
  assert (O : sc_autosave sc = true /\ sc_q sc = [] /\ (sc_wait sc <= 1)%Z) by (unfold autosave, queue, waiting in *; rewrite Hc in *; auto). destruct O as [O1 [O2 O3]].
  cbn [estep]. unfold model_call. rewrite Hst. cbn [obind]. rewrite (deliver_one W (set_model e m) (f_sc e) Em sc Hc). rewrite Hx. cbn [map feed].
  unfold addOp. cbn [sc_autosave with_q sc_wait sc_q]. rewrite O1. destruct (Z.leb_spec (sc_wait sc - 1) 0); [|lia].
  unfold Flush. cbn [sc_adapter with_q sc_q]. rewrite Hsa, Ha. cbn [kind_of]. rewrite Hk, O2. cbn [app flush]. rewrite run_single. cbn [f_log set_model].
  destruct (w_answer W (f_log e) id (single (op_of ev))) as [err|]; cbn; split; intros X; try congruence; reflexivity.
Qed.
Print Assumptions C62_failure_is_panic_refuted.
Example C62_ex :
  let e := ex_run ex_bad (ArgAdapter (AExt 0)) [OptAutosave true] [EModel (CAdd ["p"; "a"; "b"; "c"])]%string in
  reachable_enforcer ex_env ex_bad e /\ autosave e = true /\ enabled e = true /\ attached e /\ waiting e = 0%Z /\ queue e = [] /\
  (let! (_, x) := mstep ex_env ex_o (f_model e) (CAdd ["g"; "x"; "y"]) in Val (x_events x, x_err x)) = Val ([MAdded ["g"; "x"; "y"]], None)%string /\
  estep ex_env ex_bad ex_os e (EModel (CAdd ["g"; "x"; "y"]))%string = Panic.
Proof. cbv zeta. run. Qed.
(** What does hold: with an adapter that does not fail a call panics only if a
    call on the model alone does. *)
Theorem C62_no_failure_no_panic :
  forall E W e os c id, reachable_enforcer E W e -> accepts W id -> f_adapter e = AExt id -> enabled e = true -> attached e -> keeps_storage c ->
  estep E W os e c = Panic -> exists hm, model_part os c hm /\ mexec E (f_model e) hm = Panic.
Proof.
  intros E W e os c id R A Ha He Hm K H. eapply total_step; eauto. split; [eapply wf_reachable; eauto|auto].
Qed.
Print Assumptions C62_no_failure_no_panic.

(** ** C45: A file path as adapter

    False for every model, file and options: an enforcer created with a path has
    no adapter at all.  SavePolicy and LoadPolicy panic and Flush reports an
    invalid adapter. *)
Theorem C45_path_refuted :
  forall E W os m path opts e, NewEnforcer E W os m (ArgPath path) opts = Val (inl e) ->
  f_adapter e = ANil /\
  forall os', estep E W os' e ESave = Panic /\ estep E W os' e ELoad = Panic /\
    exists e', estep E W os' e EFlush = Val (e', mkERes (Some ErrInvalidAdapter) None) /\ f_log e' = f_log e.
Proof.
  intros E W os m path opts e H. assert (R : reachable_enforcer E W e) by (exists os, m, (ArgPath path), opts, e, [], []; auto).
  pose proof (wf_reachable _ _ _ R) as Hw. pose proof (wf_cur e Hw) as [sc [Hc [Hsa _]]].
  assert (Ha : f_adapter e = ANil).
  { unfold NewEnforcer in H. apply obind_val in H as [[e0 err] [_ H]]. destruct err; [discriminate|]. injection H as <-. apply options_adapter. }
  split; [exact Ha|]. intros os'. cbn [estep]. unfold SavePolicy, LoadPolicy. change (nth_error (f_scs e) (f_sc e)) with (cur e). rewrite Hc, Ha.
  split; [reflexivity|]. split.
  - assert (X : f_adapter (if sc_listening sc then Disable e (f_sc e) else e) = ANil) by (destruct (sc_listening sc); [rewrite (Disable_spec e sc Hc)|]; exact Ha). now rewrite X.
  - unfold Flush. rewrite Hsa, Ha. cbn [kind_of]. eexists. split; [reflexivity|]. reflexivity.
Qed.
Print Assumptions C45_path_refuted.
(** What does hold: the rules of the file are loaded into the model, or the error
    is returned. *)
Theorem C45_path_loads_partial :
  forall E W os m path opts res, NewEnforcer E W os m (ArgPath path) opts = Val res ->
  exists m' xs err, until_error E m (rule_calls os CAdd (fst (w_file W path))) m' xs err /\
    match res with
    | inl e => f_model e = m' /\ err = None /\ snd (w_file W path) = None /\ f_log e = [] /\ queue e = []
    | inr x => Some x = match err with Some y => Some y | None => snd (w_file W path) end
    end.
Proof.
  intros E W os m path opts res H. unfold NewEnforcer in H. apply obind_val in H as [[e0 err] [H0 H]]. unfold load_from in H0.
  apply obind_val in H0 as [[e1 err1] [H0 H1]]. injection H1 as <- <-.
  destruct (fresh_loop E W (fst (w_file W path)) os (mkEnf m 0 [] [] 0 ANil []) e1 err1 eq_refl H0) as [xs [U [F1 [F2 [F3 F4]]]]].
  exists (f_model e1), xs, err1. split; [exact U|]. destruct err1 as [x|]; [injection H as <-; reflexivity|].
  destruct (snd (w_file W path)) as [x|]; injection H as <-; [reflexivity|].
  destruct (set_adapter_spec e1 ANil) as [scs [S1 _]]; [right; split; [rewrite F2; reflexivity|exact F1]|].
  assert (W1 : Wf (SetAdapter e1 ANil)) by (apply wf_set_adapter; right; split; [rewrite F2; reflexivity|exact F1]).
  destruct (options_frame opts (SetAdapter e1 ANil) W1) as [O1 [O2 O3]]. rewrite O1, O2, O3, S1. cbn [f_model f_log]. rewrite F4. unfold queue, cur. cbn [f_scs f_sc].
  rewrite nth_new. auto.
Qed.
Print Assumptions C45_path_loads_partial.
(** An adapter value is used. *)
Theorem C45_adapter_value :
  forall E W os m a opts, exists e, NewEnforcer E W os m (ArgAdapter a) opts = Val (inl e) /\ f_adapter e = a /\ f_model e = m /\ queue e = [] /\ f_log e = [].
Proof.
  intros E W os m a opts. eexists. split; [reflexivity|].
  destruct (set_adapter_spec (mkEnf m 0 [] [] 0 ANil []) a (or_intror (conj eq_refl eq_refl))) as [scs [S1 _]].
  assert (W1 : Wf (SetAdapter (mkEnf m 0 [] [] 0 ANil []) a)) by (apply wf_set_adapter; right; auto).
  destruct (options_frame opts _ W1) as [O1 [O2 O3]]. rewrite O1, O2, O3, options_adapter, S1. unfold queue, cur. cbn [f_scs f_sc f_model f_log f_adapter]. rewrite nth_new. auto.
Qed.
Print Assumptions C45_adapter_value.
Example C45_ex :
  let e := ex_new ex_w (ArgPath "policy.csv") [OptAutosave true] in
  NewEnforcer ex_env ex_w ex_os ex_m (ArgPath "policy.csv") [OptAutosave true] = Val (inl e) /\ model_rules ex_o (f_model e) = ex_load /\
  estep ex_env ex_w ex_os e (EModel (CAdd ["p"; "a"; "b"; "c"]))%string = Panic.
Proof. cbv zeta. run. Qed.

(** ** C49: Batch calls

    In every reachable state and for every list of rules: AddRules and RemoveRules
    make the rule calls on the model up to the first one that fails (and return
    its error), keep what those did, leave the autosave switch unchanged, and with
    autosave on hand everything - what was queued, then the announced changes - to
    the adapter in one flush; with autosave off they only queue. *)
Theorem C49_batch_calls :
  forall E W e os c mk rs e' r, reachable_enforcer E W e ->
  (c = EAddRules rs /\ mk = CAdd) \/ (c = ERemoveRules rs /\ mk = CRemove) ->
  estep E W os e c = Val (e', r) ->
  exists xs new, until_error E (f_model e) (rule_calls os mk rs) (f_model e') xs (y_err r) /\
    autosave e' = autosave e /\ enabled e' = enabled e /\
    ((enabled e = true /\ attached e /\ new = announced xs) \/ ((enabled e = false \/ ~ attached e) /\ new = [])) /\
    if autosave e then queue e' = [] /\ exists es, f_log e' = f_log e ++ es /\ flushed W (f_adapter e) (queue e ++ new) es
    else queue e' = queue e ++ new /\ f_log e' = f_log e.
Proof.
  intros E W e os c mk rs e' r R Hcase H. pose proof (wf_reachable _ _ _ R) as Hw. pose proof (wf_cur e Hw) as [sc [Hc [Hsa [Hsm Hem]]]].
  assert (Hr : rules_call E W os e mk rs = Val (e', y_err r)).
  { destruct Hcase as [[-> ->]|[-> ->]]; cbn [estep] in H; apply obind_val in H as [[e1 err] [H1 H]]; injection H as <- <-; exact H1. }
  destruct (rules_call_spec _ _ _ _ _ _ _ _ Hw Hr) as [xs [sc0 [sc1 [log1 [U [Hc0 [E1 [[S1 [S2 S3]] [S4 D]]]]]]]]].
  rewrite Hc in Hc0. injection Hc0 as <-. cbv zeta in D.
  set (new := if sc_listening sc && (sc_em sc =? f_mid e)%nat then announced xs else []) in *. exists xs, new. split; [exact U|].
  assert (C' : cur e' = Some sc1).
  { rewrite E1. unfold cur. cbn [f_scs f_sc]. unfold cur in Hc. now rewrite (nth_upd _ _ _ _ Hc), Nat.eqb_refl. }
  unfold autosave, enabled, queue. rewrite C', Hc. split; [exact S4|]. split; [exact S3|]. split.
  - unfold new. destruct (sc_listening sc) eqn:El; cbn [andb]; [|right; auto]. destruct (Nat.eqb_spec (sc_em sc) (f_mid e)) as [Eq|Ne].
    + left. split; [reflexivity|]. split; [exists sc; auto|reflexivity].
    + right. split; [right; intros [s [X1 X2]]; congruence|reflexivity].
  - assert (L : f_log e' = log1) by (rewrite E1; reflexivity). rewrite L. destruct (sc_autosave sc).
    + destruct D as [-> D]. split; [reflexivity|]. apply Flush_flushed in D as [_ [es [-> Fl]]]. exists es. split; [reflexivity|]. cbn in Fl. now rewrite Hsa in Fl.
    + destruct D as [-> ->]. split; reflexivity.
Qed.
Print Assumptions C49_batch_calls.
(** The third rule has an unknown key: two rules are added and delivered. *)
Example C49_ex :
  let e := ex_run ex_w (ArgAdapter (AExt 1)) [OptAutosave true] [] in
  reachable_enforcer ex_env ex_w e /\ autosave e = true /\
  (let! (e', r) := estep ex_env ex_w ex_os e (EAddRules [["p"; "a"; "b"; "c"]; ["g"; "x"; "y"]; ["p7"; "a"]; ["p2"; "a"; "b"]]) in
   Val (map en_call (f_log e'), autosave e', queue e', model_rules ex_o (f_model e'), match y_err r with Some _ => true | None => false end))
  = Val ([CAddRules [["p"; "a"; "b"; "c"]; ["g"; "x"; "y"]]], true, [], [["p"; "a"; "b"; "c"]; ["g"; "x"; "y"]], true)%string.
Proof. cbv zeta. run. Qed.
