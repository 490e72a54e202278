(** Properties C79 - C81: an enforcer whose adapter is a file, and starting again
    from that file. *)
From Coq Require Import Permutation.
From Verif Require Import GoBase GoBaseP PolicyM PolicySpec PolicyP MatcherM RbacM DomainM ModelM ModelSpec ModelP ModelP4 ModelP5
  StorageM StorageSpec StorageP StorageP2 StorageP3 StorageP4 FileM FileSpec FileP FileWorldM PersistSpec PersistP Prop_File Prop_Model Prop_Storage.
Import ListNotations.

(** ** C79: the file follows the model

    Let an enforcer have the file adapter, storage enabled, a model built by any
    calls [hs], and a file that can be read and holds, up to the queued changes,
    the rules of the model.  After any history of rule changes - single, in
    batches -, flushes, saves, autosave switches and AddWait calls whose rules a
    file can hold: no call fails or panics, every call answers as with a storage
    that never fails, and the file can be read and holds, up to the queued
    changes, exactly the rules of the model. *)
Theorem C79_file_follows_partial :
  forall E P d0 files e hs m0rs held h, let W := file_world P d0 files in
  working P -> reachable_enforcer E W e -> f_adapter e = AExt 0 -> enabled e = true -> attached e ->
  good_m hs -> tame hs -> mexec E (NewModel E) hs = Val (f_model e, m0rs) -> in_sync P d0 e held ->
  Forall (fun c => keeps_storage (snd c)) h -> Forall (fun c => plain_call hs (snd c)) h -> Forall (fun c => file_rules (snd c)) h -> eorders h ->
  never_panics E (f_model e) h ->
  exists e' rs held', eexec E W e h = Val (e', rs) /\ eexec E (yes W) e h = Val (e', rs) /\ in_sync P d0 e' held'.
Proof.
  intros E P d0 files e hs m0rs held h W Wk R Ha He Hm Go T H0 [Sf Sp Sq Sr] K Pc Fr O Np.
  destruct (file_follows_exec E P d0 files hs Wk h hs e held m0rs) as (e' & rs & hm & xs & held' & N1 & N2 & N3 & N4 & N5 & N6 & N7 & N8 & N9 & N10 & N11); auto.
  - split; [eapply wf_reachable; eauto|auto].
  - assert (Oe : good_orders ex_o) by exact ex_o_good. intros rl. cbn [stored fold_left]. rewrite (Sr ex_o rl Oe). eapply model_rules_present; eauto.
  - exists e', rs, held'. split; [exact N1|]. split; [exact N2|]. constructor; auto. intros o rl Ho.
    rewrite (N11 rl). symmetry. apply (model_rules_present E (hs ++ hm) o (f_model e') (m0rs ++ xs)); auto. apply mexec_app. eauto 8.
Qed.
Print Assumptions C79_file_follows_partial.

(** With autosave on and no wait the file holds exactly the rules of the model
    after every call. *)
Theorem C79_autosave_partial :
  forall E P d0 files e hs m0rs held h, let W := file_world P d0 files in
  working P -> reachable_enforcer E W e -> f_adapter e = AExt 0 -> enabled e = true -> attached e ->
  good_m hs -> tame hs -> mexec E (NewModel E) hs = Val (f_model e, m0rs) ->
  autosave e = true -> (waiting e <= 0)%Z -> queue e = [] ->
  load_file (the_file P d0 (f_log e)) = (held, None) -> Forall plain_line held -> (forall o rl, good_orders o -> In rl held <-> In rl (model_rules o (f_model e))) ->
  Forall (fun c => keeps_autosave (snd c)) h -> Forall (fun c => plain_call hs (snd c)) h -> Forall (fun c => file_rules (snd c)) h -> eorders h ->
  never_panics E (f_model e) h ->
  exists e' rs held', eexec E W e h = Val (e', rs) /\ eexec E (yes W) e h = Val (e', rs) /\ queue e' = [] /\
    load_file (the_file P d0 (f_log e')) = (held', None) /\ Forall plain_line held' /\
    forall o rl, good_orders o -> In rl held' <-> In rl (model_rules o (f_model e')).
Proof.
  intros E P d0 files e hs m0rs held h W Wk R Ha He Hm Go T H0 Hs Hw Q0 Hf Hp Hr K Pc Fr O Np.
  destruct (C79_file_follows_partial E P d0 files e hs m0rs held h Wk R Ha He Hm Go T H0) as (e' & rs & held' & N1 & N2 & [S1 S2 S3 S4]); auto.
  - constructor; [exact Hf|exact Hp|rewrite Q0; constructor|]. intros o rl Ho. rewrite Q0. cbn [fold_left]. rewrite listed_in. now apply Hr.
  - eapply Forall_impl; [|exact K]. intros [os c] [X _]. exact X.
  - assert (A : accepts (yes W) 0) by (split; [discriminate|reflexivity]).
    assert (Q : queue e' = []).
    { assert (St : storing 0 e) by (split; [eapply wf_reachable; eauto|auto]). clear - A St Hs Hw Q0 K N2. fold W in N2. revert e rs St Hs Hw Q0 K N2.
      induction h as [|[os c] h IH]; intros e rs St Hs Hw Q0 K H; cbn [eexec] in H; [now injection H as <- _|].
      apply obind_val in H as [[e1 r1] [H1 H]]. apply obind_val in H as [[e2 rs2] [H2 H]]. injection H as <- <-. inversion K as [|? ? K1 K2]; subst. cbn [snd] in K1.
      destruct (autosave_step E (yes W) 0 os e c e1 r1 A St K1 H1 Hs Q0 Hw) as [X1 [X2 [X3 X4]]]. eauto. }
    exists e', rs, held'. split; [exact N1|]. split; [exact N2|]. split; [exact Q|]. split; [exact S1|]. split; [exact S2|].
    intros o rl Ho. rewrite <- (S4 o rl Ho), Q. cbn [fold_left]. symmetry. apply listed_in.
Qed.
Print Assumptions C79_autosave_partial.

(** Without a file to begin with the claim is false: the first change panics,
    whatever the model and the rule.  The model has the rule, the file does not
    exist. *)
Theorem C79_no_file_refuted :
  forall E P files e os rl m x, let W := file_world P None files in
  reachable_enforcer E W e -> f_adapter e = AExt 0 -> enabled e = true -> attached e -> autosave e = true -> (waiting e <= 1)%Z -> queue e = [] -> f_log e = [] ->
  mstep E (os 0) (f_model e) (CAdd rl) = Val (m, x) -> x_bool x = true -> x_events x = [MAdded rl] ->
  estep E W os e (EModel (CAdd rl)) = Panic.
Proof.
  intros E P files e os rl m x W R Ha He Hm Hs Hwt Hq Hlg Hst _ Hx. pose proof (wf_reachable _ _ _ R) as Hw. pose proof (wf_cur e Hw) as [sc [Hc [Hsa [Hsm Hem]]]].
  assert (St : storing 0 e) by (split; auto). pose proof (storing_em 0 e St) as Em.
  assert (O : sc_autosave sc = true /\ sc_q sc = [] /\ (sc_wait sc <= 1)%Z) by (unfold autosave, queue, waiting in *; rewrite Hc in *; auto). destruct O as [O1 [O2 O3]].
  cbn [estep]. unfold model_call. rewrite Hst. cbn [obind]. rewrite (deliver_one W (set_model e m) (f_sc e) Em sc Hc). rewrite Hx. cbn [map feed op_of].
  unfold addOp. cbn [sc_autosave with_q sc_wait sc_q]. rewrite O1. destruct (Z.leb_spec (sc_wait sc - 1) 0); [|lia].
  unfold Flush. cbn [sc_adapter with_q sc_q]. rewrite Hsa, Ha, O2. cbn [kind_of W file_world w_kind Nat.eqb app batchFlush batch_loop opcode_eqb].
  cbn [f_log set_model]. rewrite Hlg. reflexivity.
Qed.
Print Assumptions C79_no_file_refuted.

(** ** C80: loading the file restores the rules

    Loading a file of plain rules whose sections the model has: LoadPolicy
    returns no error, the model then lists the rules it had and those of the
    file, and the file is unchanged. *)
Theorem C80_load_partial :
  forall E P d0 files e os h m0rs held, let W := file_world P d0 files in
  reachable_enforcer E W e -> f_adapter e = AExt 0 -> load_file (the_file P d0 (f_log e)) = (held, None) ->
  (forall n, good_orders (os n)) -> good_m h -> tame h -> mexec E (NewModel E) h = Val (f_model e, m0rs) ->
  Forall (fun rl => plain_rule h rl /\ in_section h rl <> None) held ->
  (forall n, mexec E (f_model e) (firstn n (rule_calls os CAdd held)) <> Panic) ->
  exists e', estep E W os e ELoad = Val (e', mkERes None None) /\ queue e' = queue e /\ f_adapter e' = AExt 0 /\
    the_file P d0 (f_log e') = the_file P d0 (f_log e) /\
    forall o rl, good_orders o -> In rl (model_rules o (f_model e')) <-> In rl (model_rules o (f_model e)) \/ In rl held.
Proof.
  intros E P d0 files e os h m0rs held W R Ha Hl Ho Go T H0 F Np.
  assert (L : w_load W (f_log e) 0 = (held, None)) by (cbn [W file_world w_load]; now rewrite Hl).
  destruct (load_file_rules E W os e 0 held h m0rs (wf_reachable _ _ _ R) Ha L Ho Go T H0 F Np) as (e' & xs & S & A & Q & M & Lg & Pr).
  exists e'. split; [exact S|]. split; [exact Q|]. split; [congruence|]. split; [rewrite Lg, file_snoc by reflexivity; reflexivity|].
  intros o rl Hor. rewrite (model_rules_present E h o (f_model e) m0rs Go Hor T H0).
  rewrite (model_rules_present E (h ++ rule_calls os CAdd held) o (f_model e') (m0rs ++ xs)).
  - apply Pr.
  - apply Forall_app. split; [exact Go|]. rewrite <- (firstn_all (rule_calls os CAdd held)). now apply firstn_good.
  - exact Hor.
  - apply Forall_app. split; [exact T|]. clear - F. revert os. induction F as [|r rs [[Tr _] _] F IH]; intros os; cbn [rule_calls]; constructor; [exact Tr|apply IH].
  - apply mexec_app. eauto 8.
Qed.
Print Assumptions C80_load_partial.

(** What NewEnforcer with an adapter yields. *)
Lemma new_options opts : forall e, Wf e ->
  let e' := fold_left SetOption opts e in f_model e' = f_model e /\ f_log e' = f_log e /\ f_adapter e' = f_adapter e /\ queue e' = queue e /\ f_mid e' = f_mid e.
Proof.
  induction opts as [|op opts IH]; intros e Hw; cbn [fold_left]; [auto 8|]. pose proof (wf_cur e Hw) as [sc [Hc _]].
  destruct (IH (SetOption e op) (wf_option e op Hw)) as (A1 & A2 & A3 & A4 & A5). cbv zeta. rewrite A1, A2, A3, A4, A5.
  destruct op as [b|[|]]; cbn [SetOption].
  - change (nth_error (f_scs e) (f_sc e)) with (cur e). rewrite Hc, (put_nth _ _ _ _ Hc). unfold queue. rewrite (cur_put e _ _ Hc), Hc. repeat split.
  - rewrite (Enable_spec e sc Hc). destruct (sc_listening sc); [auto 8|]. unfold queue.
    replace (cur (set_em _ _)) with (Some (listen sc true)) by (symmetry; exact (cur_put e _ _ Hc)). rewrite Hc. repeat split.
  - rewrite (Disable_spec e sc Hc). unfold queue. replace (cur (set_em _ _)) with (Some (listen sc false)) by (symmetry; exact (cur_put e _ _ Hc)). rewrite Hc. repeat split.
Qed.
Lemma new_enforcer E W os m a opts e : NewEnforcer E W os m (ArgAdapter a) opts = Val (inl e) ->
  Wf e /\ f_model e = m /\ f_log e = [] /\ f_adapter e = a /\ queue e = [].
Proof.
  unfold NewEnforcer. cbv zeta. intros H. injection H as <-. set (e0 := mkEnf m 0 [] [] 0 ANil []).
  assert (W0 : Wf (SetAdapter e0 a)) by (apply wf_set_adapter; right; auto). split; [now apply wf_options|].
  destruct (new_options opts (SetAdapter e0 a) W0) as (A1 & A2 & A3 & A4 & _). rewrite A1, A2, A3, A4. repeat split.
Qed.

(** Starting again: an enforcer whose file is in step with its model ends (at any
    point between two calls with an empty queue).  A new enforcer for the same
    file, with a model that has no rules but the same sections, loads the file.
    It reports no error, lists exactly the rules the first one listed, and is
    itself in step with the file - whatever options it is made with and however
    its calls reach the file. *)
Theorem C80_restart_partial :
  forall E P d0 e held, in_sync P d0 e held -> queue e = [] ->
  forall P2 files2 opts os os2 h m m0rs, let d := the_file P d0 (f_log e) in let W := file_world P2 d files2 in
  (forall n, good_orders (os2 n)) -> good_m h -> tame h -> mexec E (NewModel E) h = Val (m, m0rs) -> (forall rl, ~ present h rl) ->
  Forall (fun rl => plain_rule h rl /\ in_section h rl <> None) held ->
  (forall n, mexec E m (firstn n (rule_calls os2 CAdd held)) <> Panic) ->
  exists e1 e2, NewEnforcer E W os m (ArgAdapter (AExt 0)) opts = Val (inl e1) /\
    eexec E W e1 [(os2, ELoad)] = Val (e2, [mkERes None None]) /\ in_sync P2 d e2 held /\ queue e2 = [] /\
    forall o o' rl, good_orders o -> good_orders o' -> In rl (model_rules o (f_model e2)) <-> In rl (model_rules o' (f_model e)).
Proof.
  intros E P d0 e held [Sf Sp Sq Sr] Q P2 files2 opts os os2 h m m0rs d W Ho Go T H0 Ne F Np.
  destruct (NewEnforcer E W os m (ArgAdapter (AExt 0)) opts) as [[e1|]|] eqn:N; try discriminate N.
  destruct (new_enforcer E W os m (AExt 0) opts e1 N) as (Hw & Em & El & Ea & Eq).
  assert (R : reachable_enforcer E W e1) by (exists os, m, (ArgAdapter (AExt 0)), opts, e1, [], []; auto). rewrite <- Em in H0, Np.
  assert (Lf : load_file (the_file P2 d (f_log e1)) = (held, None)) by (rewrite El; exact Sf).
  destruct (C80_load_partial E P2 d files2 e1 os2 h m0rs held R Ea Lf Ho Go T H0 F Np) as (e2 & S & Q2 & A2 & D2 & L2). fold W in S.
  assert (Z : forall o rl, good_orders o -> In rl held <-> In rl (model_rules o (f_model e2))).
  { intros o rl Hor. rewrite (L2 o rl Hor), (model_rules_present E h o (f_model e1) m0rs Go Hor T H0). pose proof (Ne rl). tauto. }
  exists e1, e2. split; [reflexivity|]. split; [cbn [eexec]; now rewrite S|]. rewrite Eq in Q2. split; [|split; [exact Q2|]].
  - constructor; [now rewrite D2|exact Sp|rewrite Q2; constructor|]. intros o rl Hor. rewrite Q2. cbn [fold_left]. rewrite listed_in. now apply Z.
  - intros o o' rl Hor Hor'. rewrite <- (Z o rl Hor), <- (Sr o' rl Hor'), Q. cbn [fold_left]. symmetry. apply listed_in.
Qed.
Print Assumptions C80_restart_partial.

(** ** Examples *)
Definition ex_fp : fileadapter := mkFile (fun t => [t]) (fun n l => if Nat.even n then l else rev l) (fun _ _ => None).
Definition ex_fw (d : disk) : world := file_world ex_fp d (fun _ => None).
Lemma ex_working : working ex_fp.
Proof.
  split; [intros t; cbn; apply sapp_nil|]. split; [|reflexivity]. intros n l. cbn. destruct (Nat.even n); [reflexivity|]. symmetry. apply Permutation_rev.
Qed.
Definition ex_text : string := ("p, admin, data1, read" ++ String LF ("p2, a, b" ++ String LF ""))%string.
Example C79_ex :
  let e := ex_run (ex_fw (Some "")%string) (ArgAdapter (AExt 0)) [OptAutosave true] [] in
  working ex_fp /\ reachable_enforcer ex_env (ex_fw (Some "")%string) e /\ f_adapter e = AExt 0 /\ enabled e = true /\ attached e /\
  good_m ex_setup /\ tame ex_setup /\ (exists rs, mexec ex_env (NewModel ex_env) ex_setup = Val (f_model e, rs)) /\
  autosave e = true /\ waiting e = 0%Z /\ queue e = [] /\ load_file (the_file ex_fp (Some "")%string (f_log e)) = ([], None) /\
  Forall (fun c => keeps_autosave (snd c)) (map (pair ex_os) ex_plain) /\ Forall (fun c => plain_call ex_setup (snd c)) (map (pair ex_os) ex_plain) /\
  Forall (fun c => file_rules (snd c)) (map (pair ex_os) ex_plain) /\
  (let! (e', _) := eexec ex_env (ex_fw (Some "")%string) e (map (pair ex_os) ex_plain) in
     Val (the_file ex_fp (Some "")%string (f_log e'), model_rules ex_o (f_model e')))
  = Val (Some ex_text, [["p"; "admin"; "data1"; "read"]; ["p2"; "a"; "b"]])%string.
Proof.
  cbv zeta. split; [exact ex_working|]. split; [reach|]. split; [run|]. split; [run|]. split; [run|]. split; [apply C40_ex|]. split; [apply C40_ex|].
  split; [eexists; vm_compute; reflexivity|]. split; [run|]. split; [run|]. split; [run|]. split; [run|]. split; [apply C40_ex|]. split; [apply C40_ex|].
  split; [|run]. cbn [map ex_plain]. repeat (apply Forall_cons; [cbn; first [plains|plain]|]). apply Forall_nil.
Qed.

(** Without the condition on the rules the claim is false, and a rule may outlive
    its removal: with autosave the rule ("p", " alice", "data1", "read") is added
    and removed again, each call returns true and no error, the model has no
    rules; the file still grants "alice" access, and an enforcer started from
    it has the rule ("p", "alice", "data1", "read"), which no one ever added. *)
Theorem C79_revoked_rule_refuted :
  let W := ex_fw (Some "")%string in
  let e := ex_run W (ArgAdapter (AExt 0)) [OptAutosave true] [] in
  let rl := ["p"; " alice"; "data1"; "read"]%string in
  (let! (e', rs) := eexec ex_env W e (map (pair ex_os) [EModel (CAdd rl); EModel (CRemove rl)]) in
   let W2 := ex_fw (the_file ex_fp (Some "")%string (f_log e')) in
   let! (e2, rs2) := eexec ex_env W2 (ex_new W2 (ArgAdapter (AExt 0)) []) [(ex_os, ELoad)] in
   Val (map (fun r => (y_err r, option_map x_bool (y_model r))) rs, queue e', model_rules ex_o (f_model e'), map y_err rs2, model_rules ex_o (f_model e2)))
  = Val ([(None, Some true); (None, Some true)], [], [], [None], [["p"; "alice"; "data1"; "read"]]%string).
Proof. vm_compute. reflexivity. Qed.
Print Assumptions C79_revoked_rule_refuted.

(** The same for C80: with autosave and no error anywhere, an enforcer started
    from the file the first one kept has another rule than the first one. *)
Theorem C80_restart_refuted :
  let W := ex_fw (Some "")%string in
  let e := ex_run W (ArgAdapter (AExt 0)) [OptAutosave true] [] in
  (let! (e', rs) := eexec ex_env W e [(ex_os, EModel (CAdd ["p"; " alice"; "data1"; "read"]%string))] in
   let W2 := ex_fw (the_file ex_fp (Some "")%string (f_log e')) in
   let! (e2, rs2) := eexec ex_env W2 (ex_new W2 (ArgAdapter (AExt 0)) []) [(ex_os, ELoad)] in
   Val (map (fun r => (y_err r, option_map x_bool (y_model r))) rs, queue e', model_rules ex_o (f_model e'), map y_err rs2, model_rules ex_o (f_model e2)))
  = Val ([(None, Some true)], [], [["p"; " alice"; "data1"; "read"]]%string, [None], [["p"; "alice"; "data1"; "read"]]%string).
Proof. vm_compute. reflexivity. Qed.
Print Assumptions C80_restart_refuted.

Example C79_no_file_ex :
  let W := ex_fw None in let e := ex_run W (ArgAdapter (AExt 0)) [OptAutosave true] [] in let rl := ["p"; "alice"; "data1"; "read"]%string in
  reachable_enforcer ex_env W e /\ f_adapter e = AExt 0 /\ enabled e = true /\ attached e /\ autosave e = true /\ waiting e = 0%Z /\ queue e = [] /\ f_log e = [] /\
  (let! (_, x) := mstep ex_env (ex_os 0) (f_model e) (CAdd rl) in Val (x_bool x, x_events x)) = Val (true, [MAdded rl]) /\
  estep ex_env W ex_os e (EModel (CAdd rl)) = Panic.
Proof. cbv zeta. run. Qed.

Example C80_ex :
  let W := ex_fw (Some ex_text) in
  let e1 := ex_new W (ArgAdapter (AExt 0)) [OptAutosave true] in
  NewEnforcer ex_env W ex_os ex_m (ArgAdapter (AExt 0)) [OptAutosave true] = Val (inl e1) /\
  (exists rs, mexec ex_env (NewModel ex_env) ex_setup = Val (ex_m, rs)) /\ model_rules ex_o ex_m = [] /\
  Forall (fun rl => plain_rule ex_setup rl /\ in_section ex_setup rl <> None) [["p"; "admin"; "data1"; "read"]; ["p2"; "a"; "b"]]%string /\
  (let! (e2, rs) := eexec ex_env W e1 [(ex_os, ELoad)] in Val (rs, model_rules ex_o (f_model e2), the_file ex_fp (Some ex_text) (f_log e2)))
  = Val ([mkERes None None], [["p"; "admin"; "data1"; "read"]; ["p2"; "a"; "b"]], Some ex_text)%string.
Proof.
  cbv zeta. split; [vm_compute; reflexivity|]. split; [eexists; vm_compute; reflexivity|]. split; [vm_compute; reflexivity|]. split; [|vm_compute; reflexivity].
  repeat (apply Forall_cons; [split; [|vm_compute; discriminate]; split; [split; [intros _; split; [discriminate|]|intros X; discriminate X]|vm_compute; reflexivity];
    repeat (apply Forall_cons; [reflexivity|]); apply Forall_nil|]). apply Forall_nil.
Qed.
