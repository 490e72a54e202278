(** Property C106: an adapter is asked only for changes that change what it holds. *)
From Verif Require Import GoBase GoBaseP DefsM PolicyM PolicySpec PolicyP MatcherM RbacM DomainM EvalM ModelM ModelSpec ModelP ModelP4 ModelP5
  StorageM StorageSpec StorageP StorageP2 StorageP3 StorageP4 PersistSpec PersistP StoreSpec StoreP Prop_Model Prop_Storage Prop_File.
Import ListNotations.

(** ** C106

    Let an adapter hold a set of rules and take single or batched changes; it may
    refuse, with any error, a call that adds a rule it has or removes one it has
    not.  Let the enforcer be in sync with it.  Then along every history of rule
    changes - single or in batches -, flushes, autosave switches, AddWait calls, and
    of saves while no change is queued: no call panics, every call answers as with
    an adapter that never fails, each change that is asked adds a rule the adapter
    has not or removes one it has, none is refused, and the enforcer stays in sync
    with the adapter. *)
Theorem C106_needed_changes_partial :
  forall E W id s0 e hs m0rs h,
  takes_changes W id s0 -> reachable_enforcer E W e -> f_adapter e = AExt id -> enabled e = true -> attached e ->
  good_m hs -> tame hs -> mexec E (NewModel E) hs = Val (f_model e, m0rs) -> store_in_sync id s0 e ->
  Forall (fun c => keeps_storage (snd c)) h -> Forall (fun c => plain_call hs (snd c)) h -> eorders h ->
  never_panics E (f_model e) h -> saves_settled E (yes W) e h ->
  exists e' rs es, eexec E W e h = Val (e', rs) /\ eexec E (yes W) e h = Val (e', rs) /\
    f_log e' = f_log e ++ es /\ needed id (stored id s0 (f_log e)) es /\ store_in_sync id s0 e'.
Proof.
  intros E W id s0 e hs m0rs h Tk R Ha He Hm Go T H0 [S1 S2] K P O Np Sv.
  destruct (store_exec E W id s0 hs Tk h hs e m0rs) as (e' & rs & hm & es & xs & N1 & N2 & N3 & N4 & N5 & N6 & N7 & N8 & N9 & N10 & N11); auto.
  - split; [eapply wf_reachable; eauto|auto].
  - intros rl. rewrite (S2 ex_o rl ex_o_good). eapply model_rules_present; eauto. exact ex_o_good.
  - exists e', rs, es. split; [exact N1|]. split; [exact N2|]. split; [exact N8|]. split; [exact N9|]. constructor; [exact N11|].
    intros o rl Ho. rewrite (N10 rl). symmetry. apply (model_rules_present E (hs ++ hm) o (f_model e') (m0rs ++ xs)); auto. apply mexec_app. eauto 8.
Qed.
Print Assumptions C106_needed_changes_partial.

Lemma no_saves_settled E W h : Forall (fun c => snd c <> ESave) h -> forall e, saves_settled E W e h.
Proof. induction 1 as [|[os c] h H F IH]; intros e; cbn [saves_settled]; [exact Logic.I|]. split; [intros Q; now destruct H|auto]. Qed.
Lemma autosave_settled E W id h : accepts W id -> Forall (fun c => keeps_autosave (snd c)) h -> forall e, storing id e -> autosave e = true -> (waiting e <= 0)%Z -> queue e = [] ->
  saves_settled E W e h.
Proof.
  intros A. induction 1 as [|[os c] h H F IH]; intros e St Hs Hw Q; cbn [saves_settled]; [exact Logic.I|]. cbn [snd] in H. split; [auto|]. intros e1 r S.
  destruct (autosave_step E W id os e c e1 r A St H S Hs Q Hw) as (X1 & X2 & X3 & X4). auto.
Qed.
(** With autosave on and no wait the queue is empty between calls, and saves are
    fine at any time: the adapter holds exactly the rules of the model after every
    history. *)
Theorem C106_autosave_partial :
  forall E W id s0 e hs m0rs h,
  takes_changes W id s0 -> reachable_enforcer E W e -> f_adapter e = AExt id -> enabled e = true -> attached e ->
  good_m hs -> tame hs -> mexec E (NewModel E) hs = Val (f_model e, m0rs) ->
  autosave e = true -> (waiting e <= 0)%Z -> queue e = [] -> (forall o rl, good_orders o -> (stored id s0 (f_log e) rl = true <-> In rl (model_rules o (f_model e)))) ->
  Forall (fun c => keeps_autosave (snd c)) h -> Forall (fun c => plain_call hs (snd c)) h -> eorders h -> never_panics E (f_model e) h ->
  exists e' rs es, eexec E W e h = Val (e', rs) /\ eexec E (yes W) e h = Val (e', rs) /\ queue e' = [] /\
    f_log e' = f_log e ++ es /\ needed id (stored id s0 (f_log e)) es /\
    forall o rl, good_orders o -> (stored id s0 (f_log e') rl = true <-> In rl (model_rules o (f_model e'))).
Proof.
  intros E W id s0 e hs m0rs h Tk R Ha He Hm Go T H0 Hs Hw Q0 S0 K P O Np.
  assert (A : accepts (yes W) id) by (split; [exact (proj1 Tk)|reflexivity]).
  assert (St : storing id e) by (split; [eapply wf_reachable; eauto|auto]).
  destruct (C106_needed_changes_partial E W id s0 e hs m0rs h Tk R Ha He Hm Go T H0) as (e' & rs & es & N1 & N2 & N3 & N4 & [N5 N6]); auto.
  - constructor; rewrite Q0; [exact Logic.I|exact S0].
  - eapply Forall_impl; [|exact K]. intros [os c] [X _]. exact X.
  - now apply (autosave_settled E (yes W) id).
  - assert (Q : queue e' = []).
    { clear - A St Hs Hw Q0 K N2. revert e rs St Hs Hw Q0 K N2.
      induction h as [|[os c] h IH]; intros e rs St Hs Hw Q0 K H; cbn [eexec] in H; [now injection H as <- _|].
      apply obind_val in H as [[e1 r1] [H1 H]]. apply obind_val in H as [[e2 rs2] [H2 H]]. injection H as <- <-. inversion K as [|? ? K1 K2]; subst. cbn [snd] in K1.
      destruct (autosave_step E (yes W) id os e c e1 r1 A St K1 H1 Hs Q0 Hw) as [X1 [X2 [X3 X4]]]. eauto. }
    exists e', rs, es. split; [exact N1|]. split; [exact N2|]. split; [exact Q|]. split; [exact N3|]. split; [exact N4|].
    intros o rl Ho. rewrite <- (N6 o rl Ho), Q. reflexivity.
Qed.
Print Assumptions C106_autosave_partial.

(** ** A strict adapter *)

(** A table with a unique key: adapter 0 holds the rules [l] at first and refuses a
    call with a change that would change nothing; it takes single changes or
    batches, as [k] says. *)
Fixpoint effectiveb (s : rset) (ops : list operation) : bool :=
  match ops with
  | [] => true
  | (OpAdd, r) :: ops' => negb (s r) && effectiveb (set_add r s) ops'
  | (OpRemove, r) :: ops' => s r && effectiveb (set_remove r s) ops'
  end.
Lemma effectiveb_iff ops : forall s, effectiveb s ops = true <-> effective s ops.
Proof.
  induction ops as [|[[|] r] ops IH]; intros s; cbn [effectiveb effective]; [tauto| |]; rewrite andb_true_iff, IH; [rewrite negb_true_iff|]; reflexivity.
Qed.
Definition in_table (ops : list operation) (l : list rule) : list rule :=
  fold_left (fun l op => match op with (OpAdd, r) => r :: l | (OpRemove, r) => filter (fun x => negb (rule_eqb x r)) l end) ops l.
Definition table_after (l : list rule) (log : list entry) : list rule :=
  fold_left (fun l en => if Nat.eqb (en_id en) 0 then
                           match en_err en, en_call en with
                           | None, CSavePolicy rs => rs
                           | None, c => in_table (changes c) l
                           | Some _, _ => l
                           end
                         else l) log l.
Definition table_world (k : akind) (l : list rule) : world :=
  mkWorld (fun _ => k) (fun log id c => if effectiveb (listed (table_after l log)) (changes c) then None else Some ErrAdapter)
          (fun log id => (table_after l log, None)) (fun _ => ([], None)).
Lemma in_table_spec ops : forall l s, (forall r, In r l <-> s r = true) -> forall r, In r (in_table ops l) <-> fold_left apply_op ops s r = true.
Proof.
  induction ops as [|[[|] x] ops IH]; intros l s H r; [apply H| |]; cbn [in_table fold_left]; apply IH; intros y; cbn [apply_op In].
  - unfold set_add. rewrite orb_true_iff, rule_eqb_eq, H. intuition congruence.
  - unfold set_remove. rewrite andb_true_iff, filter_In, H. tauto.
Qed.
Lemma table_after_spec log : forall l s, (forall r, In r l <-> s r = true) -> forall r, In r (table_after l log) <-> stored 0 s log r = true.
Proof.
  induction log as [|en log IH]; intros l s H r; [apply H|]. cbn [table_after stored fold_left]. apply IH. intros y. unfold store_step.
  destruct (Nat.eqb (en_id en) 0); [|apply H]. destruct (en_err en); [apply H|].
  destruct (en_call en); try (now apply in_table_spec). symmetry. exact (listed_in rs y).
Qed.
Lemma table_takes k l : k <> KNone -> takes_changes (table_world k l) 0 (listed l) /\ loads_stored (table_world k l) 0 (listed l).
Proof.
  intros Hk. assert (X : forall log r, In r (table_after l log) <-> stored 0 (listed l) log r = true).
  { intros log. apply table_after_spec. intros r. symmetry. apply listed_in. }
  split; [split; [exact Hk|]|].
  - intros log c H. cbn [table_world w_answer]. replace (effectiveb _ _) with true; [reflexivity|]. symmetry. apply effectiveb_iff. eapply effective_ext; [|exact H].
    intros r. rewrite listed_in. symmetry. apply X.
  - intros log. exists (table_after l log). split; [reflexivity|apply X].
Qed.

(** SavePolicy does not empty the queue.  A change that is queued and saved is asked
    again by the next Flush: a table with a unique key refuses it, and Flush fails
    although nothing is wrong. *)
Theorem C106_save_refuted :
  exists e e' x, let W := table_world KBatch [] in takes_changes W 0 (listed []) /\ reachable_enforcer ex_env W e /\ f_adapter e = AExt 0 /\ enabled e = true /\ attached e /\
    (forall r, stored 0 (listed []) (f_log e) r = true <-> In r (model_rules ex_o (f_model e))) /\ queue e <> [] /\
    estep ex_env W ex_os e EFlush = Val (e', mkERes (Some ErrAdapter) x).
Proof.
  set (W := table_world KBatch []).
  destruct (ex_extend1 W (ArgAdapter (AExt 0)) [] [EModel (CAdd ["p"; "a"; "b"; "c"]); ESave]%string EFlush) as [[er x] X]; [vm_compute; reflexivity|].
  assert (Er : er = Some ErrAdapter).
  { match type of X with ?l = _ => assert (Y : (let! (_, r) := l in Val (y_err r)) = Val (Some ErrAdapter)) by (vm_compute; reflexivity); rewrite X in Y end. cbn in Y. congruence. }
  subst er.
  exists (ex_run W (ArgAdapter (AExt 0)) [] [EModel (CAdd ["p"; "a"; "b"; "c"]); ESave])%string, (ex_run W (ArgAdapter (AExt 0)) [] ([EModel (CAdd ["p"; "a"; "b"; "c"]); ESave] ++ [EFlush]))%string, x.
  split; [apply table_takes; discriminate|]. split; [reach|]. split; [run|]. split; [run|]. split; [run|]. split; [|split; [|exact X]].
  - intros r. rewrite <- (table_after_spec _ [] (listed [])); [|intros y; symmetry; apply listed_in].
    match goal with |- In r ?a <-> In r ?b => assert (Q : a = b) by (vm_compute; reflexivity); rewrite Q end. reflexivity.
  - vm_compute. discriminate.
Qed.
Print Assumptions C106_save_refuted.
(** With autosave on and a wait, AddRule itself panics. *)
Theorem C106_save_panics_refuted :
  exists e, let W := table_world KSimple [] in takes_changes W 0 (listed []) /\ reachable_enforcer ex_env W e /\ f_adapter e = AExt 0 /\ enabled e = true /\ attached e /\
    (forall r, stored 0 (listed []) (f_log e) r = true <-> In r (model_rules ex_o (f_model e))) /\
    estep ex_env W ex_os e (EModel (CAdd ["p"; "x"; "y"; "z"]%string)) = Panic.
Proof.
  set (W := table_world KSimple []).
  exists (ex_run W (ArgAdapter (AExt 0)) [OptAutosave true] [EAddWait 2; EModel (CAdd ["p"; "a"; "b"; "c"]); ESave]%string).
  split; [apply table_takes; discriminate|]. split; [reach|]. split; [run|]. split; [run|]. split; [run|]. split; [|vm_compute; reflexivity].
  intros r. rewrite <- (table_after_spec _ [] (listed [])); [|intros y; symmetry; apply listed_in].
  match goal with |- In r ?a <-> In r ?b => assert (Q : a = b) by (vm_compute; reflexivity); rewrite Q end. reflexivity.
Qed.
Print Assumptions C106_save_panics_refuted.
(** LoadPolicy with a removal queued brings the rule back into the model but leaves
    the removal queued: after Flush the rule is decided with but no longer stored. *)
Theorem C106_load_refuted :
  let W := table_world KBatch [["p"; "a"; "b"; "c"]%string] in
  exists e e' rs, takes_changes W 0 (listed [["p"; "a"; "b"; "c"]%string]) /\ reachable_enforcer ex_env W e /\ f_adapter e = AExt 0 /\ enabled e = true /\ attached e /\
    queue e = [] /\ (forall r, stored 0 (listed [["p"; "a"; "b"; "c"]%string]) (f_log e) r = true <-> In r (model_rules ex_o (f_model e))) /\
    eexec ex_env W e (map (pair ex_os) [EModel (CRemove ["p"; "a"; "b"; "c"]); ELoad; EFlush]%string) = Val (e', rs) /\ Forall (fun r => y_err r = None) rs /\ queue e' = [] /\
    model_rules ex_o (f_model e') = [["p"; "a"; "b"; "c"]]%string /\ table_after [["p"; "a"; "b"; "c"]%string] (f_log e') = [].
Proof.
  intros W.
  destruct (ex_extend W (ArgAdapter (AExt 0)) [] [ELoad] [EModel (CRemove ["p"; "a"; "b"; "c"]); ELoad; EFlush]%string) as [rs X]; [vm_compute; reflexivity|].
  exists (ex_run W (ArgAdapter (AExt 0)) [] [ELoad]), (ex_run W (ArgAdapter (AExt 0)) [] ([ELoad] ++ [EModel (CRemove ["p"; "a"; "b"; "c"]); ELoad; EFlush]))%string, rs.
  split; [apply table_takes; discriminate|]. split; [reach|]. split; [run|]. split; [run|]. split; [run|]. split; [run|]. split.
  { intros r. rewrite <- (table_after_spec _ [["p"; "a"; "b"; "c"]%string] (listed [["p"; "a"; "b"; "c"]%string])); [|intros y; symmetry; apply listed_in].
    match goal with |- In r ?a <-> In r ?b => assert (Q : a = b) by (vm_compute; reflexivity); rewrite Q end. reflexivity. }
  split; [exact X|]. split; [|run].
  match type of X with ?l = _ => assert (Y : match l with Val (_, rs) => forallb (fun r => match y_err r with None => true | Some _ => false end) rs | Panic => false end = true) by (vm_compute; reflexivity); rewrite X in Y end.
  apply Forall_forall. intros r Hr. rewrite forallb_forall in Y. specialize (Y r Hr). now destruct (y_err r).
Qed.
Print Assumptions C106_load_refuted.

(** Both kinds of strict adapter, with changes that cancel and repeat: the hypotheses
    are met and no call fails. *)
Definition table_calls : list ecall :=
  [EModel (CAdd ["p"; "a"; "b"; "c"]); EAddRules [["p"; "a"; "b"; "c"]; ["g"; "x"; "y"]; ["g"; "x"; "y"]]; EModel (CRemove ["p"; "a"; "b"; "c"]); EModel (CRemove ["p"; "a"; "b"; "c"]);
   EModel (CAdd ["p"; "a"; "b"; "c"]); ESave; ERemoveRules [["g"; "x"; "y"]; ["g"; "u"; "v"]]; EFlush]%string.
Example C106_ex : forall k, k = KSimple \/ k = KBatch ->
  let W := table_world k [] in let e := ex_run W (ArgAdapter (AExt 0)) [OptAutosave true] [] in let e' := ex_run W (ArgAdapter (AExt 0)) [OptAutosave true] table_calls in
  takes_changes W 0 (listed []) /\ reachable_enforcer ex_env W e /\ f_adapter e = AExt 0 /\ enabled e = true /\ attached e /\ autosave e = true /\ waiting e = 0%Z /\ queue e = [] /\
  (exists rs, mexec ex_env (NewModel ex_env) ex_setup = Val (f_model e, rs)) /\ good_m ex_setup /\ tame ex_setup /\
  (forall o rl, good_orders o -> (stored 0 (listed []) (f_log e) rl = true <-> In rl (model_rules o (f_model e)))) /\
  Forall keeps_autosave table_calls /\ Forall (plain_call ex_setup) table_calls /\
  forallb (fun en => match en_err en with None => true | Some _ => false end) (f_log e') = true /\ table_after [] (f_log e') = [["p"; "a"; "b"; "c"]]%string.
Proof.
  intros k Hk W e e'.
  assert (M : exists rs, mexec ex_env (NewModel ex_env) ex_setup = Val (f_model e, rs)).
  { exists (match mexec ex_env (NewModel ex_env) ex_setup with Val (_, rs) => rs | Panic => [] end).
    assert (X : f_model e = ex_m) by reflexivity. rewrite X. unfold ex_m.
    destruct (mexec ex_env (NewModel ex_env) ex_setup) as [[m rs]|] eqn:M; [reflexivity|]. exfalso.
    assert (Y : match mexec ex_env (NewModel ex_env) ex_setup with Val _ => true | Panic => false end = true) by (vm_compute; reflexivity). rewrite M in Y. discriminate. }
  split; [apply table_takes; destruct Hk as [-> | ->]; discriminate|].
  split; [destruct Hk as [-> | ->]; reach|]. split; [destruct Hk as [-> | ->]; run|]. split; [destruct Hk as [-> | ->]; run|]. split; [destruct Hk as [-> | ->]; run|]. split; [destruct Hk as [-> | ->]; run|].
  split; [destruct Hk as [-> | ->]; run|]. split; [destruct Hk as [-> | ->]; run|]. split; [exact M|].
  assert (G : good_m ex_setup) by (repeat constructor; apply ex_o_good || apply ex_rev_good).
  assert (T : tame ex_setup) by (unfold ex_setup; tame_tac).
  split; [exact G|]. split; [exact T|]. split.
  { intros o rl Ho. destruct M as [rs M]. rewrite (model_rules_present _ _ _ _ _ G Ho T M), <- (model_rules_present _ _ _ _ _ G ex_o_good T M).
    assert (X : f_model e = ex_m) by reflexivity. rewrite X.
    assert (Y : model_rules ex_o ex_m = [] /\ f_log e = []) by (split; vm_compute; reflexivity). destruct Y as [-> ->]. apply listed_in. }
  split; [repeat constructor|]. split; [|destruct Hk as [-> | ->]; run].
  unfold table_calls. repeat (apply Forall_cons; [cbn [plain_call]|]); try apply Forall_nil; try exact Logic.I;
    try (split; [tame_rule_tac|vm_compute; reflexivity]); repeat (apply Forall_cons; [split; [tame_rule_tac|vm_compute; reflexivity]|]); apply Forall_nil.
Qed.
