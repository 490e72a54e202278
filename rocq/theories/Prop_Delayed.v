(** Property C107, second part: restarts of processes that delay their saves. *)
From Coq Require Import Permutation.
From Verif Require Import BuiltinM GoBase GoBaseP DefsM PolicyM PolicySpec PolicyP EffectorM MatcherDefM MatcherDefSpec MatcherM RbacM RbacSpec DomainM DomainSpec ModelM ModelSpec ModelP ModelP4 ModelP5
  EnforcerM EnforcerSpec StorageM StorageSpec StorageP StorageP2 StorageP3 StorageP4 PersistSpec PersistP AppSpec AppsSpec RestartSpec MultiSpec LogicSpec RestartFileSpec RestartFileP StoreSpec StoreP StoreRestartSpec CrashSpec DelayedSpec DelayedP.
From Verif Require Import Prop_Effect Prop_Model Prop_Storage Prop_Persist Prop_App Prop_Apps Prop_Restart Prop_Multi Prop_Columns Prop_Logic Prop_Monotone Prop_LogicMono Prop_Store Prop_RestartFile Prop_StoreRestart Prop_Crash.
Import ListNotations.
Local Open Scope list_scope.

Lemma calls_cons x h : calls_made (x :: h) = calls_made [x] ++ calls_made h.
Proof. unfold calls_made. cbn [flat_map]. now rewrite app_nil_r. Qed.
Lemma any_made d h : Forall (fun x => any_ecall d (snd x)) h -> Forall (fun x => kept_call (Q := any) d (snd x)) (calls_made h).
Proof.
  induction 1 as [|[os x] h F1 F IH]; [constructor|]. rewrite calls_cons. apply Forall_app. split; [|exact IH]. cbn [snd] in F1.
  destruct (any_own d x F1) as [[i ->]|[[b ->]|Y]]; [constructor..|]. apply (made_kept (Q := any)). constructor; [exact Y|constructor].
Qed.
Lemma any_exact E d W0 id hs m rs0 : well_formed d -> file_start d hs -> good_m hs -> mexec E (NewModel E) hs = Val (m, rs0) -> accepts W0 id -> forall h hx xs e e' rs,
  storing id e -> Forall (fun x => kept_call (Q := any) d (snd x)) hx -> good_m hx -> mexec E m hx = Val (f_model e, xs) ->
  Forall (fun x => any_ecall d (snd x)) h -> eorders h -> eexec E W0 e h = Val (e', rs) ->
  (exists ys, mexec E m (hx ++ calls_made h) = Val (f_model e', ys)) /\ Forall (fun r => y_err r = None) rs.
Proof.
  intros W Hs G M A. induction h as [|[os c] h IH]; intros hx xs e e' rs St F Gx X Fh O H.
  - cbn in H. injection H as <- <-. cbn [calls_made flat_map]. rewrite app_nil_r. eauto.
  - cbn [eexec] in H. apply obind_val in H as [[e1 r] [S H]]. apply obind_val in H as [[e2 rs2] [S2 H]]. injection H as <- <-.
    apply Forall_cons_iff in Fh as [F1 Fh]. apply Forall_cons_iff in O as [O1 O]. cbn [fst snd] in F1, O1.
    assert (K : keeps_storage c) by (destruct c as [| | | | | | |[|]| |]; cbn in F1; first [contradiction F1|exact Logic.I]).
    destruct (conserve_step E W0 id os e c e1 r A St K S) as (hm & _ & ys & C1 & C2 & St1 & _).
    assert (Z : (exists ys, mexec E m (hx ++ calls_made [(os, c)]) = Val (f_model e1, ys)) /\ y_err r = None).
    { destruct (any_own d c F1) as [[i ->]|[[b ->]|Y]].
      - cbn [model_part] in C1. subst hm. cbn [mexec] in C2. injection C2 as C2 _. cbn [calls_made flat_map snd]. rewrite app_nil_r, <- C2. split; [eauto|].
        cbn [estep] in S. destruct (nth_error (f_scs e) (f_sc e)); [|discriminate]. now injection S as _ <-.
      - cbn [model_part] in C1. subst hm. cbn [mexec] in C2. injection C2 as C2 _. cbn [calls_made flat_map snd]. rewrite app_nil_r, <- C2. split; [eauto|].
        cbn [estep] in S. now injection S as _ <-.
      - destruct (exact_exec (Q := any) E d W0 id hs m rs0 W Hs G M A [(os, c)] hx xs e e1 [r]) as [X1 X2]; auto.
        + constructor; [exact O1|constructor].
        + cbn [eexec]. now rewrite S.
        + split; [exact X1|]. exact (Forall_inv X2). }
    destruct Z as [[zs Z] Er]. destruct (IH (hx ++ calls_made [(os, c)]) zs e1 e2 rs2) as [[ws Hw] Fr]; auto.
    + apply Forall_app. split; [exact F|]. apply any_made. constructor; [exact F1|constructor].
    + apply Forall_app. split; [exact Gx|]. apply made_good. constructor; [exact O1|constructor].
    + rewrite calls_cons. split; [rewrite app_assoc; eauto|constructor; auto].
Qed.

Lemma delayed_runs E d R : well_formed d -> readings E d R ->
  forall W id s0 b hs os os1 h held, file_start d hs -> good_m hs -> (forall n, good_orders (os1 n)) -> takes_changes W id s0 -> w_load W [] id = (held, None) ->
    (forall r, In r held <-> s0 r = true) -> Forall (own_rule d) held -> Forall (fun x => any_ecall d (snd x)) h -> eorders h -> tidy b false true h ->
  exists e r, delayed_process E W id b hs os os1 h e /\
    let h1 := hs ++ rule_calls os1 CAdd held ++ calls_made h in good_m h1 /\ tame h1 /\ mexec E (NewModel E) h1 = Val (f_model e, r) /\
    forall rl, stored id s0 (f_log e) rl = true <-> present h1 rl.
Proof.
  intros W U Wd id s0 b hs os os1 h held Hs G O1 Tk Ld Hh Fh F O Td.
  destruct (run_file (Q := any) E d R hs [] W U Hs G) as (m & rs0 & _ & _ & M & _); [constructor|constructor|].
  destruct (load_starts (Q := any) E d R Wd id os m rs0 hs [OptAutosave b] os1 held W U Hs G O1 M Ld Fh) as (e0 & e1 & ys & N & S & A1 & Q1 & M1 & Lg1 & En & At & As & Wt & Pr1).
  assert (Cf : enabled e0 = true /\ attached e0 /\ autosave e0 = b /\ (waiting e0 <= 0)%Z).
  { unfold NewEnforcer in N. injection N as <-. destruct b; vm_compute; repeat split; try discriminate; eexists; split; reflexivity. }
  destruct Cf as (Ce & Ct & Ca & Cw).
  assert (Re : reachable_enforcer E Wd e1) by (exists os, m, (ArgAdapter (AExt id)), [OptAutosave b], e0, [(os1, ELoad)], [mkERes None None]; split; [exact N|]; cbn [eexec]; now rewrite S).
  set (hl := hs ++ rule_calls os1 CAdd held).
  pose proof (kept_alladds (Q := any) d os1 held Fh) as Fl.
  assert (Gl : good_m hl) by (apply Forall_app; split; [exact G|now apply adds_good]).
  assert (Tl : tame hl).
  { apply Forall_app. split; [exact (fstart_tame d hs W Hs)|]. eapply Forall_impl; [|exact (kept_file d _ Fl)]. intros [o x] X. exact (file_tame_call d x (proj2 W) X). }
  assert (Ml : mexec E (NewModel E) hl = Val (f_model e1, rs0 ++ ys)) by (apply mexec_app; eauto 8).
  assert (Kp : forall r, own_rule d r -> plain_rule hl r).
  { intros r Hr. destruct (fstart_plain d hs r W Hs Hr) as [[Z1 Z2] _]. split; [exact Z1|]. unfold hl. now rewrite (kept_listed d hs _ r Fl). }
  assert (Np : never_panics E (f_model e1) h).
  { intros hm Hm. pose proof (any_parts d h hm F Hm) as Fm. destruct (run_file (Q := any) E d R hs (rule_calls os1 CAdd held ++ hm) W U Hs G) as (mx & rx & m' & rs' & X1 & X2).
    - apply Forall_app. now split.
    - apply Forall_app. split; [now apply adds_good|]. exact (parts_good h hm O Hm).
    - rewrite M in X1. injection X1 as <- <-. apply mexec_app in X2 as (my & ra & rb & X2 & X3 & _). rewrite M1 in X2. injection X2 as <- <-. rewrite X3. discriminate. }
  assert (Pl : Forall (fun x => keeps_storage (snd x)) h /\ Forall (fun x => plain_call hl (snd x)) h).
  { split; (eapply Forall_impl; [|exact F]); intros [o x]; cbn [snd]; intros X; destruct (any_own d x X) as [[i ->]|[[b' ->]|Y]]; try exact Logic.I;
      destruct x as [y|rs|rs| | | | | | |]; cbn in Y |- *; try tauto.
    - destruct y; cbn in Y |- *; try tauto; now apply Kp.
    - revert Y. apply Forall_impl. exact Kp.
    - revert Y. apply Forall_impl. exact Kp. }
  destruct Pl as [Ks Pl].
  assert (St1 : forall r, stored id s0 (f_log e1) r = true <-> s0 r = true).
  { intros r. rewrite Lg1. unfold stored. cbn [fold_left]. unfold store_step. cbn [en_id en_err en_call]. rewrite Nat.eqb_refl. reflexivity. }
  rewrite <- En in Ce. apply At in Ct. rewrite <- As in Ca. rewrite <- Wt in Cw.
  assert (Ay : accepts (yes Wd) id) by (split; [exact (proj1 Tk)|reflexivity]).
  assert (St : storing id e1) by (split; [eapply wf_reachable; eauto|auto]).
  destruct (tidy_runs E (yes Wd) id d Ay h e1 b false true St F) as [Sv Qe]; [split; [exact Ca|auto]|exact Td|].
  destruct (C106_needed_changes_partial E Wd id s0 e1 hl (rs0 ++ ys) h Tk Re A1 Ce Ct Gl Tl Ml) as (e & rs & es & X1 & Xy & L & _ & [_ Lr]); auto.
  { constructor; rewrite Q1; [exact Logic.I|]. intros o rl Ho. cbn [fold_left]. rewrite St1, <- Hh, (model_rules_present E hl o (f_model e1) _ Gl Ho Tl Ml). symmetry. apply Pr1. }
  specialize (Qe e rs Xy).
  destruct (any_exact E d (yes Wd) id hs m rs0 W Hs G M Ay h (rule_calls os1 CAdd held) ys e1 e rs) as [[xs Hx] Er]; auto.
  { now apply adds_good. }
  set (h1 := hs ++ rule_calls os1 CAdd held ++ calls_made h).
  assert (Fm : Forall (fun x => kept_call (Q := any) d (snd x)) (rule_calls os1 CAdd held ++ calls_made h)) by (apply Forall_app; split; [exact Fl|now apply any_made]).
  assert (G1 : good_m h1) by (apply Forall_app; split; [exact G|]; apply Forall_app; split; [now apply adds_good|now apply made_good]).
  assert (T1 : tame h1).
  { apply Forall_app. split; [exact (fstart_tame d hs W Hs)|]. eapply Forall_impl; [|exact (kept_file d _ Fm)]. intros [? z] Z. exact (file_tame_call d z (proj2 W) Z). }
  assert (H1 : mexec E (NewModel E) h1 = Val (f_model e, rs0 ++ xs)) by (apply mexec_app; eauto 8).
  exists e, (rs0 ++ xs). split.
  - exists m, rs0, e0, (mkERes None None :: rs). split; [exact M|]. split; [exact N|]. split; [|constructor; [reflexivity|exact Er]]. cbn [eexec]. rewrite S. cbn [obind]. now rewrite X1.
  - cbv zeta. fold h1. split; [exact G1|]. split; [exact T1|]. split; [exact H1|]. intros rl. pose proof (Lr ex_o rl ex_o_good) as Y. rewrite Qe in Y. cbn [fold_left] in Y. rewrite Y.
    apply (model_rules_present E _ ex_o (f_model e) _ G1 ex_o_good T1 H1).
Qed.

Definition all_calls (rs : list (bool * lifetime)) : list (orders * mcall) := flat_map (fun r => calls_made (r_calls (snd r))) rs.

Lemma delayed_store {S} E d R (T : storage S) : well_formed d -> readings E d R -> keeps_rules T -> forall hs, file_start d hs -> forall rs s acc, Forall (tidy_lifetime d) rs ->
  (forall r, st_holds T s r = true -> own_rule d r) -> Forall (fun x => kept_call (Q := any) d (snd x)) acc -> (forall rl, st_holds T s rl = true <-> present (hs ++ acc) rl) ->
  exists s2, delayed_lives E T s rs s2 /\ forall rl, st_holds T s2 rl = true <-> present (hs ++ acc ++ all_calls rs) rl.
Proof.
  intros W U Kr hs Hs. induction rs as [|[b r] rs IH]; intros s acc F Fh Fa Eq.
  - exists s. split; [constructor|]. intros rl. unfold all_calls. cbn [flat_map]. now rewrite app_nil_r.
  - apply Forall_cons_iff in F as [(S1 & S2 & S3 & S4 & S5 & S6) F]. destruct (Kr s) as (Tk & Ld & Af). destruct (Ld []) as (held & Lh & Hh). cbn [stored fold_left] in Hh.
    assert (Fo : Forall (own_rule d) held) by (apply Forall_forall; intros x Hx; apply Fh; now apply Hh).
    destruct (delayed_runs E d R W U (st_world T s) (st_id T) (st_holds T s) b (r_setup r) (r_os r) (r_os1 r) (r_calls r) held S1 S2 S3 Tk Lh Hh Fo S4 S5 S6) as (e & x & Pc & H). cbv zeta in H. destruct H as (_ & _ & _ & Pr).
    pose proof (any_made d _ S4) as Fm.
    assert (Eq2 : forall rl, st_holds T (st_after T s (f_log e)) rl = true <-> present (hs ++ acc ++ calls_made (r_calls r)) rl).
    { intros rl. rewrite Af, Pr. apply (kept_ext (Q := any) d (r_setup r) hs _ W S1 Hs Fm); [now apply kept_alladds|exact Fa|]. intros y. rewrite (adds_present d _ _ held W S1 Fo), Hh. apply Eq. }
    destruct (IH (st_after T s (f_log e)) (acc ++ calls_made (r_calls r)) F) as (s2 & L & Q).
    + intros y Hy. apply Eq2 in Hy. apply (kept_present (Q := any) d hs (acc ++ calls_made (r_calls r)) W Hs) in Hy; [apply Hy|]. apply Forall_app. now split.
    + apply Forall_app. now split.
    + exact Eq2.
    + exists s2. split; [econstructor; eauto|]. intros rl. unfold all_calls. cbn [flat_map snd]. fold (all_calls rs). rewrite Q. now rewrite <- app_assoc.
Qed.

(** C107 for processes that switch autosave on and off and delay it, if they call
    SavePolicy, and end, only while no change can be queued (DelayedSpec.tidy): as
    if there had been no restart. *)
Theorem C107_delayed_partial :
  forall E d R, well_formed d -> readings E d R ->
  forall S (T : storage S) s rs hs os1 held, keeps_rules T -> w_load (st_world T s) [] (st_id T) = (held, None) -> Forall (own_rule d) held ->
    Forall (tidy_lifetime d) rs -> file_start d hs -> good_m hs -> (forall n, good_orders (os1 n)) ->
    let h1 := hs ++ rule_calls os1 CAdd held ++ flat_map (fun r => calls_made (r_calls (snd r))) rs in
  exists s2 m xs, delayed_lives E T s rs s2 /\ mexec E (NewModel E) h1 = Val (m, xs) /\ (forall o rl, good_orders o -> st_holds T s2 rl = true <-> In rl (model_rules o m)) /\
    forall W2 id2 s', loads_stored W2 id2 s' -> (forall rl, s' rl = true <-> st_holds T s2 rl = true) ->
    forall hs2 opts os' os2, file_start d hs2 -> good_m hs2 -> (forall n, good_orders (os2 n)) ->
    exists e2, started_from E W2 id2 hs2 os' opts os2 e2 /\
      (forall o o' rl, good_orders o -> good_orders o' -> In rl (model_rules o m) <-> In rl (model_rules o' (f_model e2))) /\
      same_decisions E d R h1 m (f_model e2).
Proof.
  intros E d R W U S T s rs hs os1 held Kr Lh Fo F Hs G O1 h1.
  assert (Hh : forall r, In r held <-> st_holds T s r = true).
  { destruct (Kr s) as (_ & Ld & _). destruct (Ld []) as (x & X1 & X2). rewrite Lh in X1. injection X1 as <-. exact X2. }
  destruct (delayed_store E d R T W U Kr hs Hs rs s (rule_calls os1 CAdd held) F) as (s2 & L & Pr).
  { intros r Hr. apply Hh in Hr. rewrite Forall_forall in Fo. auto. }
  { now apply kept_alladds. }
  { intros rl. rewrite <- Hh. symmetry. apply (adds_present (Q := any) d hs os1 held W Hs Fo). }
  assert (Kh : Forall (fun x => kept_call (Q := any) d (snd x)) (rule_calls os1 CAdd held ++ all_calls rs) /\ good_m (rule_calls os1 CAdd held ++ all_calls rs)).
  { split; (apply Forall_app; split; [first [now apply kept_alladds|now apply adds_good]|]); clear - F; unfold all_calls; induction F as [|[b r] rs (S1 & S2 & S3 & S4 & S5 & S6) F IH]; cbn [flat_map snd]; try constructor; apply Forall_app; (split; [|exact IH]);
      [now apply any_made|now apply made_good]. }
  destruct Kh as [Kh Gh].
  assert (G1 : good_m h1) by (apply Forall_app; now split).
  assert (T1 : tame h1).
  { apply Forall_app. split; [exact (fstart_tame d hs W Hs)|]. eapply Forall_impl; [|exact (kept_file d _ Kh)]. intros [? z] Z. exact (file_tame_call d z (proj2 W) Z). }
  destruct (run_file E d R hs _ W U Hs G Kh Gh) as (m0 & x0 & m & x1 & M0 & M1).
  assert (M : mexec E (NewModel E) h1 = Val (m, x0 ++ x1)) by (apply mexec_app; eauto 8).
  exists s2, m, (x0 ++ x1). split; [exact L|]. split; [exact M|]. split; [intros o rl Ho; rewrite (model_rules_present E h1 o m _ G1 Ho T1 M); apply Pr|].
  intros W2 id2 s' Ld' Es hs2 opts os' os2 Hs2 G2 O2. destruct (Ld' []) as (held' & Lh' & Hh'). cbn [stored fold_left] in Hh'.
  assert (Pr' : forall rl, In rl held' <-> present h1 rl) by (intros rl; rewrite Hh', Es; apply Pr).
  assert (Fo' : Forall (own_rule d) held').
  { apply Forall_forall. intros rl Hrl. apply Pr' in Hrl. apply (kept_present (Q := any) d hs _ W Hs Kh) in Hrl. apply Hrl. }
  exact (later_process E d R W2 id2 hs2 opts os' os2 held' h1 _ hs m _ W U Hs2 G2 O2 Lh' Fo' Hs eq_refl Kh G1 M Pr').
Qed.
Print Assumptions C107_delayed_partial.

(** The processes of C107_ex, the first without autosave, the second with a delay:
    the same answers after each of them. *)
Definition delayed_table_lives : list (bool * lifetime) :=
  [(false, shop_life [EModel (CAdd ["p"; "alice"; "berlin"; "/orders/9"; "delete"; "deny"]); EAddRules [["g"; "alice"; " boss, ""acting"""; "berlin"]; ["g"; " boss, ""acting"""; "clerk"; "berlin"]]; EFlush; ESave]);
   (true, shop_life [EAddWait 5; EModel (CRemove ["g"; "bob"; "clerk"; "berlin"]); EOption (OptAutosave false); EFlush; ESave]);
   (true, shop_life [ERemoveRules [["p"; "alice"; "berlin"; "/orders/9"; "delete"; "deny"]; ["g"; "bob"; "clerk"; "berlin"]]; ESave])]%string.
Definition delayed_run (E : env) (k : akind) (l : list rule) (x : bool * lifetime) : outcome (list rule) :=
  let r := snd x in
  let! (m, _) := mexec E (NewModel E) (r_setup r) in
  let W := table_world k l in
  match NewEnforcer E W (r_os r) m (ArgAdapter (AExt 0)) [OptAutosave (fst x)] with
  | Val (inl e0) => let! (e, _) := eexec E W e0 ((r_os1 r, ELoad) :: r_calls r) in Val (table_after l (f_log e))
  | _ => Panic
  end.
Example C107_delayed_ex : forall L k, k = KSimple \/ k = KBatch ->
  well_formed shop_defs /\ readings (shop_env L) shop_defs shop_forms /\ keeps_rules (table k) /\
  w_load (st_world (table k) table_rules) [] (st_id (table k)) = (table_rules, None) /\ Forall (own_rule shop_defs) table_rules /\
  Forall (tidy_lifetime shop_defs) delayed_table_lives /\
  (let asks := [["alice"; "berlin"; "/orders/9"; "delete"]; ["alice"; "berlin"; "/orders/9"; "read"]; ["bob"; "berlin"; "/orders/9"; "read"]; ["alice"; "paris"; "/orders/9"; "read"]]%string in
   let! x1 := delayed_run (shop_env L) k table_rules (nth 0 delayed_table_lives (true, shop_life [])) in
   let! x2 := delayed_run (shop_env L) k x1 (nth 1 delayed_table_lives (true, shop_life [])) in
   let! x3 := delayed_run (shop_env L) k x2 (nth 2 delayed_table_lives (true, shop_life [])) in
   let! a0 := table_answers (shop_env L) k table_rules asks in let! a1 := table_answers (shop_env L) k x1 asks in
   let! a2 := table_answers (shop_env L) k x2 asks in let! a3 := table_answers (shop_env L) k x3 asks in
   Val (a0, a1, a2, a3)) =
  Val ([false; false; true; false], [false; true; true; false], [false; true; false; false], [true; true; false; false]).
Proof.
  intros L k Hk. split; [exact shop_wf|]. split; [apply shop_reads|]. split; [apply table_keeps; destruct Hk as [-> | ->]; discriminate|]. split; [reflexivity|].
  split; [repeat (apply Forall_cons; [own_tac|]); apply Forall_nil|]. split.
  - repeat (apply Forall_cons; [split; [apply shop_starts|split; [apply shop_starts|split; [exact ex_oss_good|split; [|split; [apply Forall_map, Forall_forall; intros ? _; exact ex_oss_good|]]]]];
      [unfold shop_life; cbn [r_calls map]; repeat (apply Forall_cons; [cbn [snd any_ecall own_ecall file_ecall_by]; first [exact Logic.I|own_tac|repeat (apply Forall_cons; [own_tac|]); apply Forall_nil]|]); apply Forall_nil
      |cbn; auto]|]); apply Forall_nil.
  - destruct Hk as [-> | ->]; vm_compute; reflexivity.
Qed.
