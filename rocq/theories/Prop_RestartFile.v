(** Property C102: a restart from the policy file changes no decision, for any model
    file and any matcher of comparisons and function calls. *)
From Coq Require Import Permutation.
From Verif Require Import BuiltinM GoBase GoBaseP DefsM PolicyM PolicySpec PolicyP EffectorM MatcherDefM MatcherDefSpec MatcherM RbacM RbacSpec DomainM DomainSpec ModelM ModelSpec ModelP ModelP4 ModelP5
  EnforcerM EnforcerSpec StorageM StorageSpec StorageP StorageP2 StorageP3 StorageP4 FileM FileSpec FileP FileWorldM PersistSpec PersistP AppSpec AppsSpec RestartSpec MultiSpec LogicSpec RestartFileSpec RestartFileP.
From Verif Require Import Prop_Effect Prop_File Prop_Model Prop_Storage Prop_Persist Prop_App Prop_Apps Prop_Restart Prop_Multi Prop_Columns Prop_Logic Prop_Monotone Prop_LogicMono.
Import ListNotations.
Local Open Scope list_scope.

Lemma file_loads P x files held : load_file x = (held, None) -> w_load (file_world P x files) [] 0 = (held, None).
Proof. intros L. cbn [file_world w_load]. change (the_file P x []) with x. now rewrite L. Qed.
Lemma process_runs E d R : well_formed d -> readings E d R ->
  forall P d0 files hs os os1 h held, file_start d hs -> good_m hs -> (forall n, good_orders (os1 n)) -> working P -> file_holds d d0 held ->
    Forall (fun x => file_ecall d (snd x)) h -> eorders h ->
  exists e held' r, process E P d0 files hs os os1 h e /\
    let h1 := hs ++ rule_calls os1 CAdd held ++ calls_made h in good_m h1 /\ tame h1 /\ mexec E (NewModel E) h1 = Val (f_model e, r) /\
    file_holds d (the_file P d0 (f_log e)) held' /\ forall rl, In rl held' <-> present h1 rl.
Proof.
  intros W U P d0 files hs os os1 h held Hs G O1 Wk [Ld Fh] F O.
  destruct (run_file (Q := plain_line) E d R hs [] W U Hs G) as (m & rs0 & _ & _ & M & _); [constructor|constructor|].
  set (Wd := file_world P d0 files).
  destruct (load_starts (Q := plain_line) E d R Wd 0 os m rs0 hs [OptAutosave true] os1 held W U Hs G O1 M) as (e0 & e1 & ys & N & S & A1 & Q1 & M1 & Lg1 & En & At & As & Wt & Pr1); [cbn [Wd file_world w_load]; change (the_file P d0 []) with d0; rewrite Ld; reflexivity|exact Fh|].
  assert (Cf : enabled e0 = true /\ attached e0 /\ autosave e0 = true /\ (waiting e0 <= 0)%Z).
  { unfold NewEnforcer in N. injection N as <-. vm_compute. repeat split; try discriminate. eexists. split; reflexivity. }
  destruct Cf as (Ce & Ct & Ca & Cw).
  assert (Re : reachable_enforcer E Wd e1) by (exists os, m, (ArgAdapter (AExt 0)), [OptAutosave true], e0, [(os1, ELoad)], [mkERes None None]; split; [exact N|]; cbn [eexec]; now rewrite S).
  set (hl := hs ++ rule_calls os1 CAdd held).
  pose proof (kept_alladds (Q := plain_line) d os1 held Fh) as Fl.
  assert (Gl : good_m hl) by (apply Forall_app; split; [exact G|now apply adds_good]).
  assert (Tl : tame hl).
  { apply Forall_app. split; [exact (fstart_tame d hs W Hs)|]. eapply Forall_impl; [|exact (kept_file d _ Fl)]. intros [o x] X. exact (file_tame_call d x (proj2 W) X). }
  assert (Ml : mexec E (NewModel E) hl = Val (f_model e1, rs0 ++ ys)) by (apply mexec_app; eauto 8).
  assert (Kp : forall r, kept_rule d r -> plain_rule hl r).
  { intros r Hr. destruct (fstart_plain d hs r W Hs Hr) as [[Z1 Z2] _]. split; [exact Z1|]. unfold hl. now rewrite (kept_listed d hs _ r Fl). }
  assert (Np : never_panics E (f_model e1) h).
  { intros hm Hm. pose proof (parts_kept d h hm F Hm) as Fm. destruct (run_file (Q := plain_line) E d R hs (rule_calls os1 CAdd held ++ hm) W U Hs G) as (mx & rx & m' & rs' & X1 & X2).
    - apply Forall_app. now split.
    - apply Forall_app. split; [now apply adds_good|]. exact (parts_good h hm O Hm).
    - rewrite M in X1. injection X1 as <- <-. apply mexec_app in X2 as (my & ra & rb & X2 & X3 & _). rewrite M1 in X2. injection X2 as <- <-. rewrite X3. discriminate. }
  assert (Ka : Forall (fun x => keeps_autosave (snd x)) h).
  { eapply Forall_impl; [|exact F]. intros [o x]. cbn [snd]. unfold keeps_autosave. destruct x; cbn [file_ecall]; intros X; first [contradiction X|split; exact Logic.I]. }
  assert (Pl : Forall (fun x => plain_call hl (snd x)) h).
  { eapply Forall_impl; [|exact F]. intros [o x]. cbn [snd]. destruct x as [y|rs|rs| | | | | | |]; cbn; try tauto.
    - destruct y; cbn; try tauto; apply Kp.
    - apply Forall_impl. exact Kp.
    - apply Forall_impl. exact Kp. }
  assert (Fr : Forall (fun x => file_rules (snd x)) h).
  { eapply Forall_impl; [|exact F]. intros [o x]. cbn [snd]. destruct x as [y|rs|rs| | | | | | |]; cbn; try tauto.
    - destruct y; cbn; try tauto; intros X; apply X.
    - apply Forall_impl. intros r X. apply X.
    - apply Forall_impl. intros r X. apply X. }
  assert (Ld1 : load_file (the_file P d0 (f_log e1)) = (held, None)) by (rewrite Lg1; exact Ld).
  assert (Ph0 : Forall plain_line held) by (eapply Forall_impl; [|exact Fh]; intros r X; apply X).
  rewrite <- En in Ce. apply At in Ct. rewrite <- As in Ca. rewrite <- Wt in Cw.
  destruct (C79_autosave_partial E P d0 files e1 hl (rs0 ++ ys) held h Wk Re A1 Ce Ct Gl Tl Ml Ca Cw Q1 Ld1 Ph0) as (e & rs & held' & X1 & Xy & Q & L & Ph & Lr); auto.
  { intros o rl Ho. rewrite (model_rules_present E hl o (f_model e1) _ Gl Ho Tl Ml). pose proof (Pr1 rl) as Z; fold hl in Z; tauto. }
  fold Wd in X1.
  assert (Ay : accepts (yes Wd) 0) by (split; [discriminate|reflexivity]).
  destruct (exact_exec (Q := plain_line) E d (yes Wd) 0 hs m rs0 W Hs G M Ay h (rule_calls os1 CAdd held) ys e1 e rs) as [[xs Hx] Er]; auto.
  { split; [eapply wf_reachable; eauto|auto]. }
  { now apply adds_good. }
  set (h1 := hs ++ rule_calls os1 CAdd held ++ calls_made h).
  assert (Fm : Forall (fun x => kept_call (Q := plain_line) d (snd x)) (rule_calls os1 CAdd held ++ calls_made h)) by (apply Forall_app; split; [exact Fl|now apply made_kept]).
  assert (G1 : good_m h1) by (apply Forall_app; split; [exact G|]; apply Forall_app; split; [now apply adds_good|now apply made_good]).
  assert (T1 : tame h1).
  { apply Forall_app. split; [exact (fstart_tame d hs W Hs)|]. eapply Forall_impl; [|exact (kept_file d _ Fm)]. intros [? z] Z. exact (file_tame_call d z (proj2 W) Z). }
  assert (H1 : mexec E (NewModel E) h1 = Val (f_model e, rs0 ++ xs)) by (apply mexec_app; eauto 8).
  assert (Pr : forall rl, In rl held' <-> present h1 rl).
  { intros rl. rewrite (Lr ex_o rl ex_o_good). apply (model_rules_present E _ ex_o (f_model e) _ G1 ex_o_good T1 H1). }
  exists e, held', (rs0 ++ xs). split.
  - exists m, rs0, e0, (mkERes None None :: rs). split; [exact M|]. split; [exact N|]. split; [|constructor; [reflexivity|exact Er]]. fold Wd. cbn [eexec]. rewrite S. cbn [obind]. now rewrite X1.
  - cbv zeta. fold h1. split; [exact G1|]. split; [exact T1|]. split; [exact H1|]. split; [|exact Pr]. split; [exact L|]. apply Forall_forall. intros rl Hin. apply Pr in Hin.
    apply (kept_present d hs (rule_calls os1 CAdd held ++ calls_made h) W Hs Fm) in Hin. apply Hin.
Qed.

(** ** C102

    A process with any model file and any policy file of rules of that model file
    loads the policy file, changes its rules by any calls and ends.  No call panics
    or returns an error, the file holds exactly the rules the process ended with - so the theorem applies
    again, to the next process and so on.  A later process with the same model file
    loads the policy file without an error, lists the same rules, and answers every
    request with every matcher of comparisons and function calls as the first did at
    its end - for every order in which rules came, maps are visited and texts are
    written. *)
Theorem C102_restart_partial :
  forall E d R, well_formed d -> readings E d R ->
  forall P d0 files hs os os1 h held, file_start d hs -> good_m hs -> (forall n, good_orders (os1 n)) -> working P -> file_holds d d0 held ->
    Forall (fun x => file_ecall d (snd x)) h -> eorders h ->
  exists e held', process E P d0 files hs os os1 h e /\
    let d1 := the_file P d0 (f_log e) in let h1 := hs ++ rule_calls os1 CAdd held ++ calls_made h in
    file_holds d d1 held' /\ (forall o rl, good_orders o -> In rl held' <-> In rl (model_rules o (f_model e))) /\ (forall rl, In rl held' <-> present h1 rl) /\
    forall P2 files2 hs2 opts os' os2, file_start d hs2 -> good_m hs2 -> (forall n, good_orders (os2 n)) ->
    exists e2, second_run E P2 d1 files2 hs2 os' opts os2 e2 /\
      (forall o o' rl, good_orders o -> good_orders o' -> In rl (model_rules o (f_model e)) <-> In rl (model_rules o' (f_model e2))) /\
      same_decisions E d R h1 (f_model e) (f_model e2).
Proof.
  intros E d R W U P d0 files hs os os1 h held Hs G O1 Wk Fh F O.
  destruct (process_runs E d R W U P d0 files hs os os1 h held Hs G O1 Wk Fh F O) as (e & held' & r & Pc & H). cbv zeta in H. destruct H as (G1 & T1 & M1 & Fh' & Pr).
  exists e, held'. split; [exact Pc|]. cbv zeta. set (h1 := hs ++ rule_calls os1 CAdd held ++ calls_made h) in *. set (d1 := the_file P d0 (f_log e)) in *.
  assert (Lst : forall o rl, good_orders o -> In rl (model_rules o (f_model e)) <-> present h1 rl) by (intros o rl Ho; exact (model_rules_present E h1 o (f_model e) _ G1 Ho T1 M1 rl)).
  assert (Kh : Forall (fun x => kept_call (Q := plain_line) d (snd x)) (rule_calls os1 CAdd held ++ calls_made h)) by (apply Forall_app; split; [apply kept_alladds, Fh|now apply made_kept]).
  assert (F1 : file_history d h1) by (apply fstart_file; [exact Hs|now apply (kept_file (Q := plain_line))]).
  split; [exact Fh'|]. split; [intros o rl Ho; rewrite (Lst o rl Ho); apply Pr|]. split; [exact Pr|].
  intros P2 files2 hs2 opts os' os2 Hs2 G2 O2.
  destruct (later_process E d R (file_world P2 d1 files2) 0 hs2 opts os' os2 held' h1 _ hs (f_model e) r W U Hs2 G2 O2 (file_loads P2 d1 files2 held' (proj1 Fh')) (proj2 Fh') Hs eq_refl Kh G1 M1 Pr) as (e2 & S2 & L2 & D2). eauto.
Qed.
Print Assumptions C102_restart_partial.

(** ** Any number of restarts *)
Lemma lives_run E d R : well_formed d -> readings E d R -> forall P files hs, working P -> file_start d hs -> forall rs d0 held acc, Forall (lifetime_ok d) rs -> file_holds d d0 held ->
  Forall (fun x => kept_call (Q := plain_line) d (snd x)) acc -> (forall rl, In rl held <-> present (hs ++ acc) rl) ->
  exists d2 held2, lifetimes E P files d0 rs d2 /\ file_holds d d2 held2 /\ forall rl, In rl held2 <-> present (hs ++ acc ++ flat_map (fun r => calls_made (r_calls r)) rs) rl.
Proof.
  intros W U P files hs Wk Hs. induction rs as [|r rs IH]; intros d0 held acc F Fh Fa Eq.
  - exists d0, held. split; [constructor|]. split; [exact Fh|]. intros rl. cbn [flat_map]. now rewrite app_nil_r.
  - apply Forall_cons_iff in F as [(S1 & S2 & S3 & S4 & S5) F].
    destruct (process_runs E d R W U P d0 files (r_setup r) (r_os r) (r_os1 r) (r_calls r) held S1 S2 S3 Wk Fh S4 S5) as (e & held' & x & Pc & H). cbv zeta in H. destruct H as (_ & _ & _ & Fh' & Pr).
    pose proof (made_kept d _ S4) as Fm.
    destruct (IH (the_file P d0 (f_log e)) held' (acc ++ calls_made (r_calls r)) F Fh') as (d2 & held2 & L & H2 & Q).
    + apply Forall_app. now split.
    + intros rl. rewrite Pr. apply (kept_ext d (r_setup r) hs _ W S1 Hs Fm); [apply kept_alladds, Fh|exact Fa|]. intros y. rewrite (adds_present d _ _ held W S1 (proj2 Fh)). apply Eq.
    + exists d2, held2. split; [econstructor; eauto|]. split; [exact H2|]. intros rl. cbn [flat_map]. rewrite Q. now rewrite <- app_assoc.
Qed.

(** Any number of processes one after the other, each loading the file and changing
    its rules: no call of any of them panics or returns an error, and a process that
    loads the file in the end lists the same rules and decides as one process would
    that loaded the file at first and made all their calls - as if there had been no
    restart. *)
Theorem C102_any_number_of_restarts_partial :
  forall E d R, well_formed d -> readings E d R ->
  forall P d0 files rs held hs os1, working P -> file_holds d d0 held -> Forall (lifetime_ok d) rs -> file_start d hs -> good_m hs -> (forall n, good_orders (os1 n)) ->
    let h1 := hs ++ rule_calls os1 CAdd held ++ flat_map (fun r => calls_made (r_calls r)) rs in
  exists d2 held2 m xs, lifetimes E P files d0 rs d2 /\ file_holds d d2 held2 /\ mexec E (NewModel E) h1 = Val (m, xs) /\
    forall P2 files2 hs2 opts os' os2, file_start d hs2 -> good_m hs2 -> (forall n, good_orders (os2 n)) ->
    exists e2, second_run E P2 d2 files2 hs2 os' opts os2 e2 /\
      (forall o o' rl, good_orders o -> good_orders o' -> In rl (model_rules o m) <-> In rl (model_rules o' (f_model e2))) /\
      same_decisions E d R h1 m (f_model e2).
Proof.
  intros E d R W U P d0 files rs held hs os1 Wk Fh F Hs G O1 h1.
  destruct (lives_run E d R W U P files hs Wk Hs rs d0 held (rule_calls os1 CAdd held) F Fh) as (d2 & held2 & L & Fh2 & Pr).
  { apply kept_alladds, Fh. }
  { intros rl. symmetry. apply (adds_present d hs os1 held W Hs (proj2 Fh)). }
  assert (Kh : Forall (fun x => kept_call (Q := plain_line) d (snd x)) (rule_calls os1 CAdd held ++ flat_map (fun r => calls_made (r_calls r)) rs) /\ good_m (rule_calls os1 CAdd held ++ flat_map (fun r => calls_made (r_calls r)) rs)).
  { split; (apply Forall_app; split; [first [apply kept_alladds, Fh|now apply adds_good]|]); clear - F; induction F as [|r rs (S1 & S2 & S3 & S4 & S5) F IH]; cbn [flat_map]; try constructor; apply Forall_app; (split; [|exact IH]);
      [now apply made_kept|now apply made_good]. }
  destruct Kh as [Kh Gh].
  assert (G1 : good_m h1) by (apply Forall_app; now split).
  destruct (run_file (Q := plain_line) E d R hs _ W U Hs G Kh Gh) as (m0 & x0 & m & x1 & M0 & M1).
  assert (M : mexec E (NewModel E) h1 = Val (m, x0 ++ x1)) by (apply mexec_app; eauto 8).
  exists d2, held2, m, (x0 ++ x1). split; [exact L|]. split; [exact Fh2|]. split; [exact M|]. intros P2 files2 hs2 opts os' os2 Hs2 G2 O2.
  exact (later_process E d R (file_world P2 d2 files2) 0 hs2 opts os' os2 held2 h1 _ hs m _ W U Hs2 G2 O2 (file_loads P2 d2 files2 held2 (proj1 Fh2)) (proj2 Fh2) Hs eq_refl Kh G1 M Pr).
Qed.
Print Assumptions C102_any_number_of_restarts_partial.

(** A model file with a matcher of roles in domains, paths and a literal (C92): three
    processes on one file. *)
Definition shop_start : list (orders * mcall) := map (pair ex_o) (set_all shop_defs ++ [CBuild]).
Definition shop_life (l : list ecall) : lifetime := Life shop_start ex_os ex_os (map (pair ex_os) l).
Definition shop_disk : disk := Some (lines ["p, clerk, berlin, /orders/:id, *, allow"; "g, bob, clerk, berlin"])%string.
Definition shop_lives : list lifetime :=
  [shop_life [EModel (CAdd ["p"; "alice"; "berlin"; "/orders/9"; "delete"; "deny"]); EAddRules [["g"; "alice"; "boss"; "berlin"]; ["g"; "boss"; "clerk"; "berlin"]]];
   shop_life [EModel (CRemove ["g"; "bob"; "clerk"; "berlin"]); ESave];
   shop_life [ERemoveRules [["p"; "alice"; "berlin"; "/orders/9"; "delete"; "deny"]; ["g"; "bob"; "clerk"; "berlin"]]; EFlush]]%string.
(** The file after a process, and the answers of a process that loads the file. *)
Definition shop_run (E : env) (x : disk) (r : lifetime) : outcome disk :=
  let! (m, _) := mexec E (NewModel E) (r_setup r) in
  let W := ex_fw x in
  match NewEnforcer E W (r_os r) m (ArgAdapter (AExt 0)) [OptAutosave true] with
  | Val (inl e0) => let! (e, _) := eexec E W e0 ((r_os1 r, ELoad) :: r_calls r) in Val (the_file ex_fp x (f_log e))
  | _ => Panic
  end.
Definition shop_answers_of (E : env) (x : disk) (asks : list (list string)) : outcome (list bool) :=
  let! (m, _) := mexec E (NewModel E) shop_start in
  let W := ex_fw x in
  match NewEnforcer E W ex_os m (ArgAdapter (AExt 0)) [] with
  | Val (inl e0) => let! (e, _) := eexec E W e0 [(ex_os, ELoad)] in
      Val (map (fun vs => match Enforce E ex_rev (f_model e) (map (fun v => PVal (VStr v)) vs) with Val (_, (b, None)) => b | _ => false end) asks)
  | _ => Panic
  end.
Ltac kept_tac := split; [call_file|split; [first [plain|plains]|intros ? ? ? ? ? Hg Hr Hn;
    repeat (destruct Hg as [Hg|Hg]; [first [discriminate Hg|injection Hg as <- <-; vm_compute in Hn; discriminate Hn]|]); destruct Hg]]
with call_file := first
  [left; eexists _, _, _; split; [reflexivity|]; split; [cbn; tauto|]; split; [split; [discriminate|repeat (apply Forall_cons; [reflexivity|]); apply Forall_nil]|reflexivity]
  |right; eexists _, _, _, _, _; split; [reflexivity|]; split; [cbn; tauto|]; repeat (apply Forall_cons; [intros [X|X]; discriminate X|]); apply Forall_nil].
Lemma shop_starts : file_start shop_defs shop_start /\ good_m shop_start.
Proof. split; [unfold file_start, shop_start; rewrite map_map; apply map_id|]. apply Forall_map, Forall_forall. intros x _. apply ex_o_good. Qed.
Example C102_ex : forall L,
  well_formed shop_defs /\ readings (shop_env L) shop_defs shop_forms /\ working ex_fp /\
  file_holds shop_defs shop_disk [["p"; "clerk"; "berlin"; "/orders/:id"; "*"; "allow"]; ["g"; "bob"; "clerk"; "berlin"]]%string /\
  Forall (lifetime_ok shop_defs) shop_lives /\
  (let asks := [["alice"; "berlin"; "/orders/9"; "delete"]; ["alice"; "berlin"; "/orders/9"; "read"]; ["bob"; "berlin"; "/orders/9"; "read"]; ["alice"; "paris"; "/orders/9"; "read"]]%string in
   let! x1 := shop_run (shop_env L) shop_disk (nth 0 shop_lives (shop_life [])) in
   let! x2 := shop_run (shop_env L) x1 (nth 1 shop_lives (shop_life [])) in
   let! x3 := shop_run (shop_env L) x2 (nth 2 shop_lives (shop_life [])) in
   let! a0 := shop_answers_of (shop_env L) shop_disk asks in let! a1 := shop_answers_of (shop_env L) x1 asks in
   let! a2 := shop_answers_of (shop_env L) x2 asks in let! a3 := shop_answers_of (shop_env L) x3 asks in
   Val (a0, a1, a2, a3)) =
  Val ([false; false; true; false], [false; true; true; false], [false; true; false; false], [true; true; false; false]).
Proof.
  intros L. split; [exact shop_wf|]. split; [apply shop_reads|]. split; [exact ex_working|]. split; [split; [vm_compute; reflexivity|repeat (apply Forall_cons; [kept_tac|]); apply Forall_nil]|]. split.
  - repeat (apply Forall_cons; [split; [apply shop_starts|split; [apply shop_starts|split; [exact ex_oss_good|split; [|apply Forall_map, Forall_forall; intros ? _; exact ex_oss_good]]]];
      unfold shop_life; cbn [r_calls map]; repeat (apply Forall_cons; [cbn [snd file_ecall]; first [exact Logic.I|kept_tac|repeat (apply Forall_cons; [kept_tac|]); apply Forall_nil]|]); apply Forall_nil|]); apply Forall_nil.
  - vm_compute. reflexivity.
Qed.

(** Without the condition on the rules the claim is false: the denial of " alice", in
    force before the restart, denies somebody else after it. *)
Definition shop_asked (E : env) (x : disk) (l : list ecall) (asks : list (list string)) : outcome (disk * list bool) :=
  let! (m, _) := mexec E (NewModel E) shop_start in
  let W := ex_fw x in
  match NewEnforcer E W ex_os m (ArgAdapter (AExt 0)) [OptAutosave true] with
  | Val (inl e0) => let! (e, _) := eexec E W e0 (map (pair ex_os) (ELoad :: l)) in
      Val (the_file ex_fp x (f_log e), map (fun vs => match Enforce E ex_rev (f_model e) (map (fun v => PVal (VStr v)) vs) with Val (_, (b, None)) => b | _ => false end) asks)
  | _ => Panic
  end.
Theorem C102_other_rules_refuted : forall L,
  well_formed shop_defs /\ readings (shop_env L) shop_defs shop_forms /\
  let asks := [[" alice"; "berlin"; "/orders/9"; "read"]; ["alice"; "berlin"; "/orders/9"; "read"]]%string in
  exists x, shop_asked (shop_env L) shop_disk [EAddRules [["g"; " alice"; "clerk"; "berlin"]; ["g"; "alice"; "clerk"; "berlin"]; ["p"; " alice"; "berlin"; "/orders/9"; "read"; "deny"]]%string] asks = Val (x, [false; true]) /\
    shop_asked (shop_env L) x [] asks = Val (x, [false; false]).
Proof. intros L. split; [exact shop_wf|]. split; [apply shop_reads|]. cbv zeta. eexists. split; [vm_compute; reflexivity|]. vm_compute. reflexivity. Qed.
Print Assumptions C102_other_rules_refuted.
