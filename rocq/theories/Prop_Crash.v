(** Property C111: a crash leaves the storage as it was meant to be at some moment. *)
From Verif Require Import BuiltinM GoBase GoBaseP DefsM PolicyM PolicySpec PolicyP EffectorM MatcherDefM MatcherDefSpec MatcherM RbacM RbacSpec DomainM DomainSpec EvalM ModelM ModelSpec ModelP ModelP4 ModelP5
  EnforcerM EnforcerSpec StorageM StorageSpec StorageP StorageP2 StorageP3 StorageP4 PersistSpec PersistP AppSpec AppsSpec RestartSpec MultiSpec LogicSpec RestartFileSpec RestartFileP StoreSpec StoreP StoreRestartSpec CrashSpec CrashP.
From Verif Require Import Prop_Effect Prop_Model Prop_Storage Prop_Persist Prop_App Prop_Apps Prop_Restart Prop_Multi Prop_Columns Prop_Logic Prop_Monotone Prop_LogicMono Prop_Store Prop_RestartFile Prop_StoreRestart.
Import ListNotations.
Local Open Scope list_scope.

(** ** C111

    An enforcer holds the rules of its storage and has no change queued.  After any
    rule changes - single or in batches, with autosave on or off, delayed by AddWait
    -, flushes, and saves while no change is queued, the process crashes: between any
    two calls on the adapter, in the middle of a flush too.  Then the storage holds
    exactly the rules the model had at some moment since: no change is stored without
    those made before it, none is stored twice or in a wrong order. *)
Theorem C111_crash_partial :
  forall E W id s0 e hs m0rs h,
  takes_changes W id s0 -> reachable_enforcer E W e -> f_adapter e = AExt id -> enabled e = true -> attached e ->
  good_m hs -> tame hs -> mexec E (NewModel E) hs = Val (f_model e, m0rs) ->
  queue e = [] -> (forall o rl, good_orders o -> (stored id s0 (f_log e) rl = true <-> In rl (model_rules o (f_model e)))) ->
  Forall (fun c => keeps_storage (snd c)) h -> Forall (fun c => plain_call hs (snd c)) h -> eorders h ->
  never_panics E (f_model e) h -> saves_settled E (yes W) e h ->
  exists e' rs hm xs, eexec E W e h = Val (e', rs) /\ model_parts h hm /\ mexec E (f_model e) hm = Val (f_model e', xs) /\ (exists es, f_log e' = f_log e ++ es) /\
    forall seen, crash_point e e' seen -> moment E (f_model e) hm (stored id s0 (f_log e ++ seen)).
Proof.
  intros E W id s0 e hs m0rs h Tk R Ha He Hm Go T H0 Q0 S0 K P O Np Sv.
  destruct (crash_exec E W id s0 hs Tk h hs [] e (f_model e) m0rs []) as (e' & rs & hm & es & xs & N1 & N2 & N3 & N4 & N5 & N6 & N7); auto.
  - split; [eapply wf_reachable; eauto|auto].
  - now rewrite app_nil_r.
  - intros rl. rewrite (S0 ex_o rl ex_o_good). eapply model_rules_present; eauto. exact ex_o_good.
  - exists e', rs, hm, xs. split; [exact N1|]. split; [exact N2|]. split; [exact N5|]. split; [eauto|]. intros seen [lost C]. rewrite N6, <- app_assoc in C. apply app_inv_head in C.
    destruct (N7 seen lost C) as (q1 & q2 & X1 & X2). cbn [app] in X1. rewrite X1 in N3, N4, N5. apply Forall_app in N3 as [G1 _]. apply Forall_app in N4 as [F1 _]. apply mexec_app in N5 as (m1 & x1 & x2 & M1 & M2 & _).
    exists q1, q2, m1, x1. split; [exact X1|]. split; [exact M1|]. intros o rl Ho. rewrite (X2 rl). symmetry.
    apply (model_rules_present E (hs ++ q1) o m1 (m0rs ++ x1)); auto.
    + apply Forall_app. now split.
    + now apply tame_plain.
    + apply mexec_app. eauto 8.
Qed.
Print Assumptions C111_crash_partial.

Lemma any_own d x : any_ecall d x -> (exists i, x = EAddWait i) \/ (exists b, x = EOption (OptAutosave b)) \/ own_ecall d x.
Proof. destruct x as [| | | | | | |[b|b]| |]; cbn; eauto. Qed.
Lemma any_parts d h hm : Forall (fun x => any_ecall d (snd x)) h -> model_parts h hm -> Forall (fun x => kept_call (Q := any) d (snd x)) hm.
Proof.
  intros F M. induction M as [|os x h hm hm' M1 M2 IH]; [constructor|]. apply Forall_cons_iff in F as [F1 F2]. apply Forall_app. split; [|now apply IH]. cbn [snd] in F1.
  destruct (any_own d x F1) as [[i ->]|[[b ->]|Y]]; [cbn in M1; subst hm; constructor..|].
  apply (parts_kept (Q := any) d [(os, x)] hm); [constructor; [exact Y|constructor]|]. rewrite <- (app_nil_r hm). constructor; [exact M1|constructor].
Qed.

(** With a model file and storage of any kind (C107): whenever a process crashes, the
    next one finds the rules that a process would have that had made only the first
    ones of the calls, and it answers every request as that one. *)
Theorem C111_restart_partial :
  forall E d R, well_formed d -> readings E d R ->
  forall S (T : storage S) s hs os os1 b held h, let W := st_world T s in let id := st_id T in
    keeps_rules T -> w_load W [] id = (held, None) -> Forall (own_rule d) held -> file_start d hs -> good_m hs -> (forall n, good_orders (os1 n)) ->
    Forall (fun x => any_ecall d (snd x)) h -> eorders h ->
  exists e, started_from E W id hs os [OptAutosave b] os1 e /\
  (saves_settled E (yes W) e h ->
  exists e' rs hm xs, eexec E W e h = Val (e', rs) /\ model_parts h hm /\ mexec E (f_model e) hm = Val (f_model e', xs) /\
  forall seen, crash_point e e' seen ->
  exists before after m1 r1, hm = before ++ after /\ mexec E (NewModel E) (hs ++ rule_calls os1 CAdd held ++ before) = Val (m1, r1) /\
  forall hs2 opts os' os2, file_start d hs2 -> good_m hs2 -> (forall n, good_orders (os2 n)) ->
  exists e2, started_from E (st_world T (st_after T s (f_log e ++ seen))) id hs2 os' opts os2 e2 /\
    (forall o o' rl, good_orders o -> good_orders o' -> In rl (model_rules o m1) <-> In rl (model_rules o' (f_model e2))) /\
    same_decisions E d R (hs ++ rule_calls os1 CAdd held ++ before) m1 (f_model e2)).
Proof.
  intros E d R W U S T s hs os os1 b held h Wd id Kr Lh Fh Hs G O1 F O. destruct (Kr s) as (Tk & Ld & Af). fold Wd id in Tk, Ld, Af.
  assert (Hh : forall r, In r held <-> st_holds T s r = true) by (destruct (Ld []) as (x & X1 & X2); rewrite Lh in X1; injection X1 as <-; exact X2).
  set (s0 := st_holds T s) in *.
  destruct (run_file (Q := any) E d R hs [] W U Hs G) as (m & rs0 & _ & _ & M & _); [constructor|constructor|].
  destruct (load_starts (Q := any) E d R Wd id os m rs0 hs [OptAutosave b] os1 held W U Hs G O1 M Lh Fh) as (e0 & e1 & ys & N & St & A1 & Q1 & M1 & Lg1 & En & At & _ & _ & Pr1).
  assert (Cf : enabled e0 = true /\ attached e0).
  { unfold NewEnforcer in N. injection N as <-. destruct b; vm_compute; (split; [reflexivity|]); eexists; split; reflexivity. }
  destruct Cf as (Ce & Ct).
  assert (Re : reachable_enforcer E Wd e1) by (exists os, m, (ArgAdapter (AExt id)), [OptAutosave b], e0, [(os1, ELoad)], [mkERes None None]; split; [exact N|]; cbn [eexec]; now rewrite St).
  exists e1. split; [exists m, rs0, e0; split; [exact M|]; split; [exact N|]; cbn [eexec]; now rewrite St|]. intros Sv.
  set (hl := hs ++ rule_calls os1 CAdd held).
  pose proof (kept_alladds (Q := any) d os1 held Fh) as Fl.
  assert (Gl : good_m hl) by (apply Forall_app; split; [exact G|now apply adds_good]).
  assert (Tl : tame hl).
  { apply Forall_app. split; [exact (fstart_tame d hs W Hs)|]. eapply Forall_impl; [|exact (kept_file d _ Fl)]. intros [o x] X. exact (file_tame_call d x (proj2 W) X). }
  assert (Ml : mexec E (NewModel E) hl = Val (f_model e1, rs0 ++ ys)) by (apply mexec_app; eauto 8).
  assert (Kp : forall r, own_rule d r -> plain_rule hl r).
  { intros r Hr. destruct (fstart_plain d hs r W Hs Hr) as [[Z1 Z2] _]. split; [exact Z1|]. unfold hl. now rewrite (kept_listed d hs _ r Fl). }
  assert (Np : never_panics E (f_model e1) h).
  { intros hm Hm. pose proof (any_parts d h hm F Hm) as Fm. destruct (run_file (Q := any) E d R hs (rule_calls os1 CAdd held ++ hm) W U Hs G) as (mx & rx & m' & rs' & X1 & X2).
    - apply Forall_app. now split.
    - apply Forall_app. split; [now apply adds_good|]. exact (parts_good h hm O Hm).
    - rewrite M in X1. injection X1 as <- <-. apply mexec_app in X2 as (my & ra & rb & X2 & X3 & _). rewrite M1 in X2. injection X2 as <- <-. rewrite X3. discriminate. }
  assert (Pl : Forall (fun x => keeps_storage (snd x)) h /\ Forall (fun x => plain_call hl (snd x)) h).
  { split; (eapply Forall_impl; [|exact F]); intros [o x]; cbn [snd]; intros X; destruct (any_own d x X) as [[i ->]|[[b' ->]|Y]]; try exact Logic.I;
      destruct x as [y|rs|rs| | | | | | |]; cbn in Y |- *; try tauto.
    - destruct y; cbn in Y |- *; try tauto; now apply Kp.
    - revert Y. apply Forall_impl. exact Kp.
    - revert Y. apply Forall_impl. exact Kp. }
  destruct Pl as [Ks Pl].
  assert (St1 : forall r, stored id s0 (f_log e1) r = true <-> s0 r = true).
  { intros r. rewrite Lg1. unfold stored. cbn [fold_left]. unfold store_step. cbn [en_id en_err en_call]. rewrite Nat.eqb_refl. reflexivity. }
  rewrite <- En in Ce. apply At in Ct.
  destruct (crash_exec E Wd id s0 hl Tk h hl [] e1 (f_model e1) (rs0 ++ ys) []) as (e' & rs & hm & es & xs & N1 & N2 & N3 & N4 & N5 & N6 & N7); auto.
  { split; [eapply wf_reachable; eauto|auto]. }
  { now rewrite app_nil_r. }
  { intros rl. rewrite St1, <- Hh. symmetry. apply Pr1. }
  exists e', rs, hm, xs. split; [exact N1|]. split; [exact N2|]. split; [exact N5|]. intros seen [lost C]. rewrite N6, <- app_assoc in C. apply app_inv_head in C.
  destruct (N7 seen lost C) as (q1 & q2 & X1 & X2). cbn [app] in X1. pose proof (any_parts d h hm F N2) as Fm. rewrite X1 in N3, N5, Fm. apply Forall_app in N3 as [G1 _]. apply Forall_app in Fm as [F1 _]. apply mexec_app in N5 as (m1 & x1 & x2 & P1 & P2 & _).
  set (h1 := hs ++ rule_calls os1 CAdd held ++ q1).
  assert (Eh : h1 = hl ++ q1) by (unfold h1, hl; apply app_assoc).
  assert (M' : mexec E (NewModel E) h1 = Val (m1, (rs0 ++ ys) ++ x1)) by (rewrite Eh; apply mexec_app; eauto 8).
  exists q1, q2, m1, ((rs0 ++ ys) ++ x1). split; [exact X1|]. split; [exact M'|]. intros hs2 opts os' os2 Hs2 G2 O2. fold h1.
  destruct (Kr (st_after T s (f_log e1 ++ seen))) as (_ & Ld' & _). destruct (Ld' []) as (held' & Lh' & Hh'). cbn [stored fold_left] in Hh'.
  assert (Pr' : forall rl, In rl held' <-> present h1 rl) by (intros rl; rewrite Hh', Af, Eh; apply X2).
  assert (Kh : Forall (fun x => kept_call (Q := any) d (snd x)) (rule_calls os1 CAdd held ++ q1)) by (apply Forall_app; now split).
  assert (Fo' : Forall (own_rule d) held').
  { apply Forall_forall. intros rl Hrl. apply Pr' in Hrl. apply (kept_present (Q := any) d hs _ W Hs Kh) in Hrl. apply Hrl. }
  apply (later_process E d R _ id hs2 opts os' os2 held' h1 _ hs m1 ((rs0 ++ ys) ++ x1) W U Hs2 G2 O2 Lh' Fo' Hs eq_refl Kh); auto.
  rewrite Eh. apply Forall_app. now split.
Qed.
Print Assumptions C111_restart_partial.

(** ** SavePolicy with changes queued

    The queue is not emptied, so Flush repeats old changes: a crash in the middle of
    it leaves rules together that the model never had together. *)
Definition torn_calls : list ecall :=
  [EModel (CAdd ["p"; "a"; "b"; "c"]); EModel (CRemove ["p"; "a"; "b"; "c"]); EModel (CAdd ["p"; "x"; "y"; "z"]); ESave; EFlush]%string.
Lemma no_moment E m hm s r1 r2 : s r1 = true -> s r2 = true ->
  forallb (fun n => match mexec E m (firstn n hm) with Val (m1, _) => negb (listed (model_rules ex_o m1) r1 && listed (model_rules ex_o m1) r2) | Panic => true end) (seq 0 (S (List.length hm))) = true ->
  ~ moment E m hm s.
Proof.
  intros H1 H2 F (q1 & q2 & m1 & xs & -> & M & Q). rewrite forallb_forall in F. specialize (F (List.length q1)).
  rewrite firstn_app, Nat.sub_diag, firstn_all in F. cbn [firstn] in F. rewrite app_nil_r, M in F.
  assert (I : In (List.length q1) (seq 0 (S (List.length (q1 ++ q2))))) by (apply in_seq; rewrite app_length; lia). apply F in I.
  apply (Q ex_o _ ex_o_good) in H1. apply (Q ex_o _ ex_o_good) in H2. apply (listed_in (model_rules ex_o m1)) in H1. apply (listed_in (model_rules ex_o m1)) in H2. now rewrite H1, H2 in I.
Qed.
Theorem C111_save_refuted :
  exists e e' rs seen, let W := table_world KBatch [] in let h := map (pair ex_os) torn_calls in
    takes_changes W 0 (listed []) /\ reachable_enforcer ex_env W e /\ f_adapter e = AExt 0 /\ enabled e = true /\ attached e /\
    queue e = [] /\ f_log e = [] /\ model_rules ex_o (f_model e) = [] /\ eexec ex_env W e h = Val (e', rs) /\ crash_point e e' seen /\
    table_after [] seen = [["p"; "a"; "b"; "c"]; ["p"; "x"; "y"; "z"]]%string /\
    forall hm, model_parts h hm -> ~ moment ex_env (f_model e) hm (stored 0 (listed []) (f_log e ++ seen)).
Proof.
  set (W := table_world KBatch []).
  destruct (ex_extend W (ArgAdapter (AExt 0)) [] [] torn_calls) as [rs X]; [vm_compute; reflexivity|]. cbn [app] in X.
  set (e := ex_run W (ArgAdapter (AExt 0)) [] []) in *. set (e' := ex_run W (ArgAdapter (AExt 0)) [] torn_calls) in *.
  assert (L0 : f_log e = []) by (vm_compute; reflexivity).
  exists e, e', rs, (firstn 2 (f_log e')). cbv zeta. fold W.
  split; [apply table_takes; discriminate|]. split; [unfold e; reach|]. split; [run|]. split; [run|]. split; [run|]. split; [run|]. split; [run|]. split; [run|]. split; [exact X|].
  split; [exists (skipn 2 (f_log e')); rewrite L0; cbn [app]; symmetry; apply firstn_skipn|].
  split; [run|]. intros hm H.
  assert (Eh : hm = map (pair ex_o) [CAdd ["p"; "a"; "b"; "c"]; CRemove ["p"; "a"; "b"; "c"]; CAdd ["p"; "x"; "y"; "z"]]%string).
  { unfold torn_calls in H. cbn [map] in H. repeat match goal with H : model_parts (_ :: _) _ |- _ => inversion H; clear H; subst end.
    repeat match goal with H : model_part _ _ _ |- _ => cbn [model_part] in H; subst end. match goal with H : model_parts [] _ |- _ => inversion H; subst end. reflexivity. }
  subst hm. apply (no_moment _ _ _ _ ["p"; "a"; "b"; "c"]%string ["p"; "x"; "y"; "z"]%string); [run|run|run].
Qed.
Print Assumptions C111_save_refuted.

(** ** Examples *)

(** The calls on the model that a call can consist of, and runs without a panic. *)
Definition parts_of (os : nat -> orders) (c : ecall) : list (list (orders * mcall)) :=
  match c with
  | EModel c => [[(os 0, c)]]
  | EAddRules rs => map (fun n => firstn n (rule_calls os CAdd rs)) (seq 0 (S (List.length rs)))
  | ERemoveRules rs => map (fun n => firstn n (rule_calls os CRemove rs)) (seq 0 (S (List.length rs)))
  | _ => [[]]
  end.
Lemma calls_length mk rs : forall os, List.length (rule_calls os mk rs) = List.length rs.
Proof. induction rs as [|r rs IH]; intros os; cbn; [reflexivity|now rewrite IH]. Qed.
Lemma in_firstns {A} (l : list A) n : In (firstn n l) (map (fun n => firstn n l) (seq 0 (S (List.length l)))).
Proof.
  destruct (Nat.le_gt_cases n (List.length l)) as [H|H]; [apply in_map_iff; exists n; split; [reflexivity|apply in_seq; lia]|].
  rewrite firstn_all2 by lia. apply in_map_iff. exists (List.length l). split; [apply firstn_all|apply in_seq; lia].
Qed.
Lemma part_of os c hm : model_part os c hm -> In hm (parts_of os c).
Proof.
  destruct c; cbn [model_part parts_of]; try (intros ->; now left).
  - intros [n ->]. rewrite <- (calls_length CAdd rs os). apply in_firstns.
  - intros [n ->]. rewrite <- (calls_length CRemove rs os). apply in_firstns.
Qed.
Fixpoint safeb (E : env) (m : model) (h : list ((nat -> orders) * ecall)) : bool :=
  match h with
  | [] => true
  | (os, c) :: h' => forallb (fun hm => match mexec E m hm with Val (m1, _) => safeb E m1 h' | Panic => false end) (parts_of os c)
  end.
Lemma safeb_never E h : forall m, safeb E m h = true -> never_panics E m h.
Proof.
  induction h as [|[os c] h IH]; intros m S hm M; inversion M as [|? ? ? hm1 hm2 M1 M2]; subst; [discriminate|]. cbn [safeb snd] in *.
  rewrite forallb_forall in S. assert (I : In hm1 (parts_of os c)) by now apply part_of. apply S in I.
  destruct (mexec E m hm1) as [[m1 x1]|] eqn:X; [|discriminate]. specialize (IH m1 I hm2 M2). intros P.
  destruct (mexec E m1 hm2) as [[m2 x2]|] eqn:X2; [|now apply IH]. assert (Y : mexec E m (hm1 ++ hm2) = Val (m2, x1 ++ x2)) by (apply mexec_app; eauto 8). congruence.
Qed.
Fixpoint settledb (E : env) (W : world) (e : enforcer) (h : list ((nat -> orders) * ecall)) : bool :=
  match h with
  | [] => true
  | (os, c) :: h' => match c, queue e with ESave, _ :: _ => false | _, _ => true end && match estep E W os e c with Val (e1, _) => settledb E W e1 h' | Panic => true end
  end.
Lemma settledb_saves E W h : forall e, settledb E W e h = true -> saves_settled E W e h.
Proof.
  induction h as [|[os c] h IH]; intros e S; cbn [saves_settled settledb] in *; [exact Logic.I|]. apply andb_true_iff in S as [S1 S2]. split.
  - intros ->. now destruct (queue e).
  - intros e1 r H. rewrite H in S2. auto.
Qed.

(** Autosave off, then on with a wait, batches and cancelling changes: what a table
    with a unique key holds at every crash point. *)
Definition crash_calls : list ecall :=
  [EModel (CAdd ["p"; "a"; "b"; "c"]); EAddRules [["g"; "x"; "y"]; ["g"; "u"; "v"]]; EModel (CRemove ["p"; "a"; "b"; "c"]); EFlush; ESave;
   EOption (OptAutosave true); EAddWait 2; EModel (CAdd ["p"; "a"; "b"; "c"]); EModel (CRemove ["g"; "x"; "y"])]%string.
Example C111_ex : forall k, k = KSimple \/ k = KBatch ->
  let W := table_world k [] in let e := ex_run W (ArgAdapter (AExt 0)) [] [] in let e' := ex_run W (ArgAdapter (AExt 0)) [] crash_calls in let h := map (pair ex_os) crash_calls in
  takes_changes W 0 (listed []) /\ reachable_enforcer ex_env W e /\ f_adapter e = AExt 0 /\ enabled e = true /\ attached e /\ queue e = [] /\
  (exists rs, mexec ex_env (NewModel ex_env) ex_setup = Val (f_model e, rs)) /\ good_m ex_setup /\ tame ex_setup /\
  (forall o rl, good_orders o -> (stored 0 (listed []) (f_log e) rl = true <-> In rl (model_rules o (f_model e)))) /\
  Forall (fun c => keeps_storage (snd c)) h /\ Forall (plain_call ex_setup) crash_calls /\ eorders h /\ never_panics ex_env (f_model e) h /\ saves_settled ex_env (yes W) e h /\
  map (fun n => table_after [] (firstn n (f_log e'))) (seq 0 (S (List.length (f_log e')))) =
  let a := ["p"; "a"; "b"; "c"]%string in let x := ["g"; "x"; "y"]%string in let u := ["g"; "u"; "v"]%string in
  match k with
  | KSimple => [[]; [a]; [x; a]; [u; x; a]; [u; x]; [x; u]; [a; x; u]; [a; u]]
  | _ => [[]; [u; x; a]; [u; x]; [x; u]; [a; x; u]; [a; u]]
  end.
Proof.
  intros k Hk W e e' h.
  assert (M : exists rs, mexec ex_env (NewModel ex_env) ex_setup = Val (f_model e, rs)).
  { exists (match mexec ex_env (NewModel ex_env) ex_setup with Val (_, rs) => rs | Panic => [] end).
    assert (X : f_model e = ex_m) by reflexivity. rewrite X. unfold ex_m.
    destruct (mexec ex_env (NewModel ex_env) ex_setup) as [[m rs]|] eqn:M; [reflexivity|]. exfalso.
    assert (Y : match mexec ex_env (NewModel ex_env) ex_setup with Val _ => true | Panic => false end = true) by (vm_compute; reflexivity). rewrite M in Y. discriminate. }
  split; [apply table_takes; destruct Hk as [-> | ->]; discriminate|].
  split; [destruct Hk as [-> | ->]; reach|]. split; [destruct Hk as [-> | ->]; run|]. split; [destruct Hk as [-> | ->]; run|]. split; [destruct Hk as [-> | ->]; run|].
  split; [destruct Hk as [-> | ->]; run|]. split; [exact M|].
  assert (G : good_m ex_setup) by (repeat constructor; apply ex_o_good || apply ex_rev_good).
  assert (T : tame ex_setup) by (unfold ex_setup; tame_tac).
  assert (Ks : Forall (fun c => keeps_storage (snd c)) h) by (unfold h, crash_calls; cbn [map]; repeat (apply Forall_cons; [exact Logic.I|]); apply Forall_nil).
  split; [exact G|]. split; [exact T|]. split.
  { intros o rl Ho. destruct M as [rs M]. rewrite (model_rules_present _ _ _ _ _ G Ho T M), <- (model_rules_present _ _ _ _ _ G ex_o_good T M).
    assert (X : f_model e = ex_m) by reflexivity. rewrite X.
    assert (Y : model_rules ex_o ex_m = [] /\ f_log e = []) by (split; vm_compute; reflexivity). destruct Y as [-> ->]. apply listed_in. }
  split; [exact Ks|]. split.
  { unfold crash_calls. repeat (apply Forall_cons; [cbn [plain_call]|]); try apply Forall_nil; try exact Logic.I;
    try (split; [tame_rule_tac|vm_compute; reflexivity]); repeat (apply Forall_cons; [split; [tame_rule_tac|vm_compute; reflexivity]|]); apply Forall_nil. }
  split; [apply Forall_map, Forall_forall; intros ? _; exact ex_oss_good|].
  split; [apply safeb_never; destruct Hk as [-> | ->]; vm_compute; reflexivity|].
  split; [apply settledb_saves; destruct Hk as [-> | ->]; vm_compute; reflexivity|]. destruct Hk as [-> | ->]; vm_compute; reflexivity.
Qed.

(** The application of C107 without autosave, cut off in the middle of Flush - before
    bob has lost the role, before the denial is stored, before alice has the role,
    after all of it -, and the answers of a process that loads the table then. *)
Definition cut_calls : list ecall :=
  [EModel (CRemove ["g"; "bob"; "clerk"; "berlin"]); EModel (CAdd ["p"; "alice"; "berlin"; "/orders/9"; "delete"; "deny"]); EAddRules [["g"; "alice"; "clerk"; "berlin"]]; EFlush]%string.
Example C111_ex_restart : forall L,
  Forall (any_ecall shop_defs) (EAddWait 2 :: EOption (OptAutosave true) :: cut_calls) /\
  (let asks := [["alice"; "berlin"; "/orders/9"; "delete"]; ["alice"; "berlin"; "/orders/9"; "read"]; ["bob"; "berlin"; "/orders/9"; "read"]]%string in
   let! (m, _) := mexec (shop_env L) (NewModel (shop_env L)) shop_start in
   let W := table_world KSimple table_rules in
   match NewEnforcer (shop_env L) W ex_os m (ArgAdapter (AExt 0)) [OptAutosave false] with
   | Val (inl e0) => let! (e, _) := eexec (shop_env L) W e0 ((ex_os, ELoad) :: map (pair ex_os) cut_calls) in
                     let ans n := table_answers (shop_env L) KSimple (table_after table_rules (firstn n (f_log e))) asks in
                     let! a1 := ans 1 in let! a2 := ans 2 in let! a3 := ans 3 in let! a4 := ans 4 in Val (List.length (f_log e), [a1; a2; a3; a4])
   | _ => Panic
   end) = Val (4, [[false; false; true]; [false; false; false]; [false; false; false]; [false; true; false]]).
Proof.
  intros L. split; [|vm_compute; reflexivity]. unfold cut_calls.
  repeat (apply Forall_cons; [cbn [any_ecall own_ecall file_ecall_by]; first [exact Logic.I|own_tac|repeat (apply Forall_cons; [own_tac|]); apply Forall_nil]|]); apply Forall_nil.
Qed.
