(** Property C113: a program that recovers from storage failures. *)
From Verif Require Import GoBase GoBaseP DefsM PolicyM PolicySpec MatcherM RbacM DomainM EvalM ModelM ModelSpec ModelP4 ModelP5 PersistSpec PersistP
  StorageM StorageSpec StorageP StorageP2 StorageP3 StorageP4 FailM FailSpec FailP FailP2 Prop_Model Prop_Storage.
Import ListNotations.
Local Open Scope list_scope.

Lemma reached_storing E W id e : reached E W id e -> storing id e.
Proof.
  intros (e0 & h & xs & R & Ha & He & Hm & K & F).
  assert (St : storing id e0) by (split; [eapply wf_reachable; eauto|auto]).
  pose proof (f_exec_spec E W id h e0 St K) as X. destruct (on_model E (f_model e0) h) as [[m ys]|]; [|congruence].
  destruct X as (e1 & xs1 & F1 & _ & _ & _ & _ & S & _). rewrite F in F1. now injection F1 as <- _.
Qed.
(** A state reached without failures is one of them. *)
Lemma reached_start E W id e : reachable_enforcer E W e -> f_adapter e = AExt id -> enabled e = true -> attached e -> reached E W id e.
Proof. intros R Ha He Hm. exists e, [], []. cbn. auto 10. Qed.

(** ** The model does not depend on the storage

    From any state reached with any failures, whatever the adapter answers, the
    calls leave the model exactly as they would leave a model without storage
    (also those that panic); the calls that return give the answers of that
    model; and the calls panic for no other reason than a failing adapter. *)
Theorem C113_model :
  forall E W id e h, reached E W id e -> Forall (fun c => keeps_storage (snd c)) h ->
  match on_model E (f_model e) h with
  | Panic => f_exec E W e h = Panic
  | Val (m, ys) => exists e' xs, f_exec E W e h = Val (e', xs) /\ f_model e' = m /\
      List.length xs = List.length h /\ List.length ys = List.length h /\ Forall2 (fun c xy => answer_of (snd c) (fst xy) (snd xy)) h (combine xs ys)
  end.
Proof.
  intros E W id e h R K. pose proof (f_exec_spec E W id h e (reached_storing _ _ _ _ R) K) as X. destruct (on_model E (f_model e) h) as [[m ys]|]; [|exact X].
  destruct X as (e1 & xs1 & F1 & X1 & X2 & X3 & X4 & _). eauto 10.
Qed.
Print Assumptions C113_model.

(** ** When a call panics

    A rule change panics only with autosave on, and then with the error of the
    last call it made to the adapter, the only one refused (or because the
    adapter takes no changes at all); a rule change that returns had all its
    calls accepted.  A call that does not panic is the call of the other
    chapters. *)
Theorem C113_panics :
  forall E W id os e c e' x, reached E W id e -> keeps_storage c -> changes_rules c -> f_step E W os e c = Val (e', x) ->
  exists es, f_log e' = f_log e ++ es /\
    match x with
    | inl _ => Forall (fun en => en_err en = None) es
    | inr err => autosave e = true /\
        ((w_kind W id = KNone /\ es = [] /\ err = ErrInvalidAdapter) \/
         (exists es0 c, es = es0 ++ [mkEntry id c (Some err)] /\ Forall (fun en => en_err en = None) es0))
    end.
Proof.
  intros E W id os e c e' x R K Ch F. pose proof (f_step_spec E W id os e c (reached_storing _ _ _ _ R) K) as X.
  destruct (on_step E os (f_model e) c) as [[m y]|]; [|congruence]. destruct X as (e1 & x1 & F1 & hm & ys & es & l & _ & _ & _ & _ & _ & Lg & _ & _ & _ & D).
  rewrite F in F1. injection F1 as <- <-. exists es. split; [exact Lg|]. specialize (D Ch). destruct x; [apply D|exact D].
Qed.
Print Assumptions C113_panics.

Lemma deliver_same W : forall evs e, match deliver W e evs with Val e' => f_deliver W e evs = (e', None) | Panic => exists e' err, f_deliver W e evs = (e', Some err) end.
Proof.
  assert (A : forall sc log op, match addOp W sc log op with Val (sc', log') => f_addOp W sc log op = (sc', log', None) | Panic => exists sc' log' err, f_addOp W sc log op = (sc', log', Some err) end).
  { intros sc log op. unfold addOp, f_addOp. cbn [sc_autosave with_q sc_wait sc_q]. destruct (sc_autosave sc); [|reflexivity]. destruct (_ <=? _)%Z; [|reflexivity].
    destruct (Flush W _ log) as [[sc1 log1] [err|]]; eauto. }
  assert (D : forall op ls e, match deliver_to W e ls op with Val e' => f_deliver_to W e ls op = (e', None) | Panic => exists e' err, f_deliver_to W e ls op = (e', Some err) end).
  { intros op. induction ls as [|i ls IH]; intros e; cbn [deliver_to f_deliver_to]; [reflexivity|]. destruct (nth_error (f_scs e) i) as [sc|]; [|apply IH].
    specialize (A sc (f_log e) op). destruct (addOp W sc (f_log e) op) as [[sc1 log1]|]; cbn [obind].
    - rewrite A. apply IH.
    - destruct A as (sc1 & log1 & err & ->). eauto. }
  induction evs as [|ev evs IH]; intros e; cbn [deliver f_deliver]; [reflexivity|]. specialize (D (op_of ev) (f_em e) e).
  destruct (deliver_to W e (f_em e) (op_of ev)) as [e1|]; cbn [obind]; [rewrite D; apply IH|]. destruct D as (e1 & err & ->). eauto.
Qed.
Lemma model_same E W o e c e' x : f_model_call E W o e c = Val (e', inl x) <-> model_call E W o e c = Val (e', x).
Proof.
  unfold f_model_call, model_call. destruct (mstep E o (f_model e) c) as [[m y]|]; cbn [obind]; [|split; discriminate].
  pose proof (deliver_same W (x_events y) (set_model e m)) as D. destruct (deliver W (set_model e m) (x_events y)) as [e1|]; cbn [obind].
  - rewrite D. split; intros H; injection H as <- <-; reflexivity.
  - destruct D as (e1 & err & ->). split; discriminate.
Qed.
Lemma loop_same E W mk : forall rs os e e' err, f_rules_loop E W os e mk rs = Val (e', inl err) <-> rules_loop E W os e mk rs = Val (e', err).
Proof.
  induction rs as [|r rs IH]; intros os e e' err; cbn [f_rules_loop rules_loop].
  - split; intros H; injection H as <- <-; reflexivity.
  - destruct (f_model_call E W (os 0) e (mk r)) as [[e1 [x|z]]|] eqn:F.
    + pose proof (proj1 (model_same _ _ _ _ _ _ _) F) as ->. cbn [obind]. destruct (x_err x); [|apply IH]. split; intros H; injection H as <- <-; reflexivity.
    + cbn [obind]. destruct (model_call E W (os 0) e (mk r)) as [[e2 y]|] eqn:M; [|split; discriminate]. apply model_same in M. congruence.
    + cbn [obind]. destruct (model_call E W (os 0) e (mk r)) as [[e2 y]|] eqn:M; [|split; discriminate]. apply model_same in M. congruence.
Qed.
(** With autosave switched off the loop of a batch cannot panic for the storage. *)
Theorem C113_same_calls :
  forall E W id os e c e' r, reached E W id e -> keeps_storage c -> (f_step E W os e c = Val (e', inl r) <-> estep E W os e c = Val (e', r)).
Proof.
  intros E W id os e c e' r R K. pose proof (reached_storing _ _ _ _ R) as St.
  assert (X : forall mk rs e' err, f_rules_call E W os e mk rs = Val (e', inl err) <-> rules_call E W os e mk rs = Val (e', err)).
  { clear e' r. intros mk rs e' err. unfold f_rules_call, rules_call. destruct (nth_error (f_scs e) (f_sc e)) as [sc|]; [|split; discriminate]. destruct (sc_autosave sc); [|apply loop_same].
    destruct (f_rules_loop E W os (put_sc e (f_sc e) (set_autosave sc false)) mk rs) as [[e1 [er|z]]|] eqn:L.
    - apply loop_same in L. rewrite L. cbn [obind]. destruct (nth_error (f_scs e1) (f_sc e1)); [|split; discriminate].
      destruct (Flush W _ _) as [[sc1 log1] [q|]]; [split; discriminate|]. split; intros H; injection H as <- <-; reflexivity.
    - cbn [obind]. destruct (rules_loop E W os (put_sc e (f_sc e) (set_autosave sc false)) mk rs) as [[e2 er]|] eqn:L2; [apply loop_same in L2; congruence|]. cbn [obind].
      destruct (nth_error (f_scs e1) (f_sc e1)); [|split; discriminate]. destruct (Flush W _ _) as [[sc1 log1] [q|]]; split; discriminate.
    - cbn [obind]. destruct (rules_loop E W os (put_sc e (f_sc e) (set_autosave sc false)) mk rs) as [[e2 er]|] eqn:L2; [apply loop_same in L2; congruence|]. split; discriminate. }
  destruct c as [c|rs|rs| | | |a|op|i|m]; cbn [f_step]; cbn [keeps_storage] in K; try destruct K.
  - cbn [estep]. destruct (f_model_call E W (os 0) e c) as [[e1 [x|z]]|] eqn:F; cbn [obind].
    + apply model_same in F. rewrite F. cbn [obind]. split; intros H; injection H as <- <-; reflexivity.
    + destruct (model_call E W (os 0) e c) as [[e2 y]|] eqn:M; cbn [obind]; [apply model_same in M; congruence|]. split; discriminate.
    + destruct (model_call E W (os 0) e c) as [[e2 y]|] eqn:M; cbn [obind]; [apply model_same in M; congruence|]. split; discriminate.
  - cbn [estep]. destruct (f_rules_call E W os e CAdd rs) as [[e1 [x|z]]|] eqn:F; cbn [obind].
    + apply X in F. rewrite F. cbn [obind]. split; intros H; injection H as <- <-; reflexivity.
    + destruct (rules_call E W os e CAdd rs) as [[e2 y]|] eqn:M; cbn [obind]; [apply X in M; congruence|]. split; discriminate.
    + destruct (rules_call E W os e CAdd rs) as [[e2 y]|] eqn:M; cbn [obind]; [apply X in M; congruence|]. split; discriminate.
  - cbn [estep]. destruct (f_rules_call E W os e CRemove rs) as [[e1 [x|z]]|] eqn:F; cbn [obind].
    + apply X in F. rewrite F. cbn [obind]. split; intros H; injection H as <- <-; reflexivity.
    + destruct (rules_call E W os e CRemove rs) as [[e2 y]|] eqn:M; cbn [obind]; [apply X in M; congruence|]. split; discriminate.
    + destruct (rules_call E W os e CRemove rs) as [[e2 y]|] eqn:M; cbn [obind]; [apply X in M; congruence|]. split; discriminate.
  - destruct (estep E W os e EFlush) as [[e1 y]|]; cbn [obind]; split; intros H; first [discriminate|injection H as <- <-; reflexivity].
  - destruct (estep E W os e ESave) as [[e1 y]|]; cbn [obind]; split; intros H; first [discriminate|injection H as <- <-; reflexivity].
  - destruct (estep E W os e (EOption op)) as [[e1 y]|]; cbn [obind]; split; intros H; first [discriminate|injection H as <- <-; reflexivity].
  - destruct (estep E W os e (EAddWait i)) as [[e1 y]|]; cbn [obind]; split; intros H; first [discriminate|injection H as <- <-; reflexivity].
Qed.
Print Assumptions C113_same_calls.

(** ** Where every change is

    Every change announced by the model, also by calls that panicked, is, in
    order: accepted by the adapter, refused by it once (and not offered again),
    dropped next to a refused batch, or still queued. *)
Theorem C113_every_change :
  forall E W id e h e' xs, reached E W id e -> Forall (fun c => keeps_storage (snd c)) h -> f_exec E W e h = Val (e', xs) ->
  exists hm rs es lost, model_parts h hm /\ mexec E (f_model e) hm = Val (f_model e', rs) /\ f_log e' = f_log e ++ es /\
    moved (w_kind W id) id (queue e ++ announced rs) es lost (queue e').
Proof.
  intros E W id e h e' xs R K F. pose proof (f_exec_spec E W id h e (reached_storing _ _ _ _ R) K) as X. destruct (on_model E (f_model e) h) as [[m ys]|]; [|congruence].
  destruct X as (e1 & xs1 & F1 & <- & _ & _ & _ & _ & hm & rs & es & l & X1 & X2 & X3 & X4). rewrite F in F1. injection F1 as <- <-. exists hm, rs, es, l. auto.
Qed.
Print Assumptions C113_every_change.

(** For an adapter that takes single changes this is an equation: what it was
    asked, followed by the queue, is the old queue followed by what was
    announced. *)
Theorem C113_single_changes :
  forall E W id e h e' xs, reached E W id e -> w_kind W id = KSimple -> Forall (fun c => keeps_storage (snd c)) h -> f_exec E W e h = Val (e', xs) ->
  exists hm rs es, model_parts h hm /\ mexec E (f_model e) hm = Val (f_model e', rs) /\ f_log e' = f_log e ++ es /\
    flat_map (fun en => changes (en_call en)) es ++ queue e' = queue e ++ announced rs.
Proof.
  intros E W id e h e' xs R Kd K F. destruct (C113_every_change E W id e h e' xs R K F) as (hm & rs & es & l & X1 & X2 & X3 & X4). exists hm, rs, es.
  split; [exact X1|]. split; [exact X2|]. split; [exact X3|]. rewrite Kd in X4. remember (queue e ++ announced rs) as q eqn:Eq. remember (queue e') as q' eqn:Eq'. clear -X4.
  remember KSimple as k eqn:Ek in X4.
  induction X4 as [q|c q es l q' H1 H IH|c err d q es l q' H1 H2 H3 H IH|rs err q es l q' H IH]; cbn [flat_map en_call]; rewrite <- ?app_assoc.
  - reflexivity.
  - now rewrite IH.
  - rewrite IH. destruct H3 as [->|[H3 _]]; [reflexivity|congruence].
  - exact IH.
Qed.
Print Assumptions C113_single_changes.

(** ** Rules that lost no change are stored

    Start with adapter content and queue in line with the model.  After any
    calls, with any failures, every rule without a lost change is stored (or
    queued to be) exactly when the model has it. *)
Theorem C113_other_rules :
  forall E W id e hs m0rs s0 o h e' xs, reached E W id e ->
  good_m hs -> tame hs -> mexec E (NewModel E) hs = Val (f_model e, m0rs) -> good_orders o ->
  (forall rl, fold_left apply_op (queue e) s0 rl = true <-> In rl (model_rules o (f_model e))) ->
  Forall (fun c => keeps_storage (snd c)) h -> Forall (fun c => plain_call hs (snd c)) h -> eorders h -> f_exec E W e h = Val (e', xs) ->
  exists hm rs es lost, model_parts h hm /\ mexec E (f_model e) hm = Val (f_model e', rs) /\ f_log e' = f_log e ++ es /\
    moved (w_kind W id) id (queue e ++ announced rs) es lost (queue e') /\
    forall o' rl, good_orders o' -> ~ In rl (map snd lost) ->
      (fold_left apply_op (queue e') (stored id s0 es) rl = true <-> In rl (model_rules o' (f_model e'))).
Proof.
  intros E W id e hs m0rs s0 o h e' xs R Go T H0 Ho S0 K P O F.
  assert (J : tracks hs e s0 []). { apply tracks_start. intros rl. rewrite S0. eapply model_rules_present; eauto. }
  destruct (tracks_exec E W id hs h e e' xs hs m0rs s0 [] (reached_storing _ _ _ _ R) K P O Go T (fun _ => eq_refl) H0 J F) as (hm & es & l & ys & M1 & M2 & M3 & M4 & M5 & M6 & M7 & M8 & M9).
  exists hm, ys, es, l. do 4 (split; [assumption|]). intros o' rl Ho' Hn.
  rewrite (model_rules_present E (hs ++ hm) o' (f_model e') (m0rs ++ ys)); auto; [|apply mexec_app; eauto 8]. apply (tr_kept _ _ _ _ M9). exact Hn.
Qed.
Print Assumptions C113_other_rules.

(** A SavePolicy that the adapter accepts repairs all that was lost: storage and
    queue are in line with the model again. *)
Theorem C113_save_repairs :
  forall E W id e hs m0rs s0 o h e1 xs os e', reached E W id e ->
  good_m hs -> tame hs -> mexec E (NewModel E) hs = Val (f_model e, m0rs) -> good_orders o ->
  (forall rl, fold_left apply_op (queue e) s0 rl = true <-> In rl (model_rules o (f_model e))) ->
  Forall (fun c => keeps_storage (snd c)) h -> Forall (fun c => plain_call hs (snd c)) h -> eorders h -> f_exec E W e h = Val (e1, xs) ->
  (forall n, good_orders (os n)) -> f_step E W os e1 ESave = Val (e', inl (mkERes None None)) ->
  exists es, f_log e' = f_log e ++ es /\ f_model e' = f_model e1 /\
    forall o' rl, good_orders o' -> (fold_left apply_op (queue e') (stored id s0 es) rl = true <-> In rl (model_rules o' (f_model e'))).
Proof.
  intros E W id e hs m0rs s0 o h e1 xs os e' R Go T H0 Ho S0 K P O F Hos S.
  assert (J : tracks hs e s0 []). { apply tracks_start. intros rl. rewrite S0. eapply model_rules_present; eauto. }
  destruct (tracks_exec E W id hs h e e1 xs hs m0rs s0 [] (reached_storing _ _ _ _ R) K P O Go T (fun _ => eq_refl) H0 J F) as (hm & es & l & ys & M1 & M2 & M3 & M4 & M5 & M6 & M7 & M8 & M9).
  pose proof (f_step_spec E W id os e1 ESave M3 Logic.I) as X. cbn [on_step] in X. destruct X as (e2 & x2 & S2 & X). rewrite S in S2. injection S2 as <- <-.
  assert (H1 : mexec E (NewModel E) (hs ++ hm) = Val (f_model e1, m0rs ++ ys)) by (apply mexec_app; eauto 8).
  destruct (tracks_step E W id hs (hs ++ hm) os e1 ESave _ _ e' _ _ _ _ M3 Logic.I Logic.I Hos M4 M5 M6 H1 M9 X) as (hm2 & es2 & l2 & ys2 & N1 & N2 & N3 & N4 & N5 & N6 & N7 & N8 & N9 & N10).
  cbn [model_part] in N1. subst hm2. cbn [mexec] in N7. injection N7 as N7 _. rewrite app_nil_r in *. exists (es ++ es2). split; [rewrite N2, M2, <- app_assoc; reflexivity|]. split; [congruence|].
  intros o' rl Ho'. rewrite (model_rules_present E (hs ++ hm) o' (f_model e') (m0rs ++ ys)); auto; [|congruence]. rewrite stored_app. apply (tr_kept _ _ _ _ (N10 eq_refl eq_refl)). exact (@in_nil _ rl).
Qed.
Print Assumptions C113_save_repairs.

(** ** Trying again does not help

    The claim that a panicking AddRule has changed nothing is false; worse, when
    the program tries the same AddRule again, the call answers that the rule is
    already there and neither asks the adapter nor queues anything. *)
Theorem C113_try_again :
  forall E W id e hs m0rs os rl e1 err os2 e2 x, reached E W id e ->
  good_m hs -> tame hs -> tame_rule rl -> mexec E (NewModel E) hs = Val (f_model e, m0rs) -> (forall n, good_orders (os n)) -> (forall n, good_orders (os2 n)) ->
  f_step E W os e (EModel (CAdd rl)) = Val (e1, inr err) -> f_step E W os2 e1 (EModel (CAdd rl)) = Val (e2, x) ->
  (forall o, good_orders o -> ~ In (as_listed hs rl) (model_rules o (f_model e)) /\ In (as_listed hs rl) (model_rules o (f_model e1))) /\
  (exists y, x = inl (mkERes None (Some y)) /\ x_bool y = false) /\ f_log e2 = f_log e1 /\ queue e2 = queue e1.
Proof.
  intros E W id e hs m0rs os rl e1 err os2 e2 x R Go T Tr H0 Ho Ho2 F1 F2. pose proof (reached_storing _ _ _ _ R) as St. pose proof St as [Hw _]. pose proof (wf_cur e Hw) as [sc [Hc _]].
  cbn [f_step] in F1, F2. apply obind_val in F1 as [[e3 x3] [G1 F1]]. injection F1 as -> F1. destruct x3 as [x3|z]; [discriminate|]. injection F1 as ->.
  assert (Hs : exists m x1, mstep E (os 0) (f_model e) (CAdd rl) = Val (m, x1)).
  { unfold f_model_call in G1. destruct (mstep E (os 0) (f_model e) (CAdd rl)) as [[m x1]|]; [eauto|discriminate]. }
  destruct Hs as (m & x1 & Hs).
  assert (Ev : x_events x1 <> []).
  { intros Ev. unfold f_model_call in G1. rewrite Hs in G1. cbn [obind] in G1. rewrite Ev in G1. discriminate. }
  destruct (f_model_spec E W id (os 0) e _ sc m x1 St Hc Hs) as (sc1 & es & l & p & G & _ & S1 & _).
  rewrite G1 in G. injection G as -> G. clear G G1 p. set (e1 := put e m sc1 (f_log e ++ es)) in *.
  assert (St1 : storing id e1) by (eapply put_storing; eauto). assert (C1 : cur e1 = Some sc1) by exact (put_cur _ _ _ _ _ Hc).
  change (f_model e1) with m in *.
  assert (Sec : in_section hs rl <> None).
  { intros N. apply Ev. destruct rl as [|k r]; [discriminate Hs|]. destruct (string_dec k "") as [->|Nk]; [discriminate Hs|].
    destruct (C06_rejected_partial E hs (os 0) (f_model e) m0rs k r Go H0 Nk N) as (er & A & _). rewrite A in Hs. injection Hs as _ <-. reflexivity. }
  pose proof (mexec_snoc _ _ _ _ _ _ _ _ _ H0 Hs) as H1.
  assert (B1 : x_bool x1 = true).
  { destruct (C01_model_add E hs (os 0) (f_model e) m0rs rl m x1 Go (Ho 0) T Tr H0 Sec Hs (os 0) (Ho 0)) as (_ & _ & A3 & _). rewrite A3 in Ev. destruct (x_bool x1); congruence. }
  assert (L : forall o, good_orders o -> ~ In (as_listed hs rl) (model_rules o (f_model e)) /\ In (as_listed hs rl) (model_rules o m)).
  { intros o G. destruct (C01_model_add E hs (os 0) (f_model e) m0rs rl m x1 Go (Ho 0) T Tr H0 Sec Hs o G) as (_ & A2 & _ & A4). split; [now apply A2|apply A4; auto]. }
  split; [exact L|].
  apply obind_val in F2 as [[e3 x3] [G2 F2]]. injection F2 as <- <-.
  assert (Hs2 : exists m2 x2, mstep E (os2 0) m (CAdd rl) = Val (m2, x2)).
  { unfold f_model_call in G2. change (f_model e1) with m in G2. destruct (mstep E (os2 0) m (CAdd rl)) as [[m2 x2]|]; [eauto|discriminate]. }
  destruct Hs2 as (m2 & x2 & Hs2).
  assert (Sec2 : in_section (hs ++ [(os 0, CAdd rl)]) rl <> None) by (apply section_kept; [exact Logic.I|exact Sec]).
  assert (Al : as_listed (hs ++ [(os 0, CAdd rl)]) rl = as_listed hs rl).
  { apply as_listed_same. apply kinds_exec. constructor; [exact Logic.I|constructor]. }
  destruct (C01_model_add E _ (os2 0) m _ rl m2 x2 (good_m_snoc _ _ _ Go (Ho 0)) (Ho2 0) (tame_snoc hs (os 0) (CAdd rl) T Tr) Tr H1 Sec2 Hs2 (os 0) (Ho 0)) as (A1 & A2 & A3 & _).
  rewrite Al in A2.
  assert (B2 : x_bool x2 = false).
  { destruct (x_bool x2); [|reflexivity]. exfalso. apply (proj1 A2 eq_refl). apply (L (os 0) (Ho 0)). }
  rewrite B2 in A3. unfold f_model_call in G2. change (f_model e1) with m in G2. rewrite Hs2 in G2. cbn [obind] in G2. rewrite A3 in G2. cbn [f_deliver] in G2. injection G2 as <- <-.
  rewrite A1. split; [eauto|]. split; reflexivity.
Qed.
Print Assumptions C113_try_again.

(** ** Concrete runs

    The second call on the adapter fails.  Adding two rules with autosave: the
    second AddRule panics, a third rule is added and stored, the second attempt to
    add the second rule returns false, and the rule is never stored although the
    model has it.  SavePolicy then writes all three rules. *)
Definition fx_e0 (id : nat) : enforcer := ex_run ex_bad (ArgAdapter (AExt id)) [OptAutosave true] [].
Definition fx_calls : list ecall :=
  [EModel (CAdd ["p"; "a"; "b"; "c"]); EModel (CAdd ["g"; "x"; "y"]); EModel (CAdd ["p2"; "a"; "b"]); EModel (CAdd ["g"; "x"; "y"])]%string.
Definition fx_run (id : nat) (h : list ecall) : outcome (enforcer * list (eresult + goerr)) := f_exec ex_env ex_bad (fx_e0 id) (map (pair ex_os) h).
Definition fx_end (id : nat) (h : list ecall) : enforcer := match fx_run id h with Val (e, _) => e | Panic => fx_e0 id end.
Definition brief (x : eresult + goerr) : option bool + goerr :=
  match x with inl r => inl (option_map x_bool (y_model r)) | inr z => inr z end.
Example C113_ex :
  reached ex_env ex_bad 0 (fx_e0 0) /\ Forall (fun c => keeps_storage (snd c)) (map (pair ex_os) fx_calls) /\
  (let! (_, xs) := fx_run 0 fx_calls in Val (map brief xs)) = Val [inl (Some true); inr ErrAdapter; inl (Some true); inl (Some false)] /\
  accepted 0 (f_log (fx_end 0 fx_calls)) = [(OpAdd, ["p"; "a"; "b"; "c"]); (OpAdd, ["p2"; "a"; "b"])]%string /\
  queue (fx_end 0 fx_calls) = [] /\
  model_rules ex_o (f_model (fx_end 0 fx_calls)) = [["p"; "a"; "b"; "c"]; ["p2"; "a"; "b"]; ["g"; "x"; "y"]]%string /\
  en_call (last (f_log (fx_end 0 (fx_calls ++ [ESave]))) (mkEntry 9 CLoadPolicy None)) = CSavePolicy [["p"; "a"; "b"; "c"]; ["p2"; "a"; "b"]; ["g"; "x"; "y"]]%string.
Proof.
  split; [apply reached_start; [reach|vm_compute; reflexivity..|eexists; split; vm_compute; reflexivity]|].
  split; [repeat constructor|]. vm_compute. auto 10.
Qed.
(** The same for a batch of rules: all of them are in the model when the call
    panics. *)
Example C113_batch_ex :
  (let! (_, xs) := fx_run 1 [EModel (CAdd ["p"; "a"; "b"; "c"]); EAddRules [["g"; "x"; "y"]; ["p2"; "a"; "b"]]]%string in Val (map brief xs)) = Val [inl (Some true); inr ErrAdapter] /\
  let e := fx_end 1 [EModel (CAdd ["p"; "a"; "b"; "c"]); EAddRules [["g"; "x"; "y"]; ["p2"; "a"; "b"]]]%string in
  accepted 1 (f_log e) = [(OpAdd, ["p"; "a"; "b"; "c"])]%string /\ queue e = [] /\ autosave e = true /\
  model_rules ex_o (f_model e) = [["p"; "a"; "b"; "c"]; ["p2"; "a"; "b"]; ["g"; "x"; "y"]]%string.
Proof. vm_compute. auto 10. Qed.

(** The claim that a call that panics has changed nothing is false. *)
Theorem C113_changes_nothing_refuted :
  exists e e' err, reached ex_env ex_bad 0 e /\ f_step ex_env ex_bad ex_os e (EModel (CAdd ["g"; "x"; "y"]))%string = Val (e', inr err) /\
    ~ In ["g"; "x"; "y"]%string (model_rules ex_o (f_model e)) /\ In ["g"; "x"; "y"]%string (model_rules ex_o (f_model e')) /\
    queue e' = [] /\ accepted 0 (f_log e') = accepted 0 (f_log e).
Proof.
  set (e := ex_run ex_bad (ArgAdapter (AExt 0)) [OptAutosave true] [EModel (CAdd ["p"; "a"; "b"; "c"])]%string).
  assert (R : reached ex_env ex_bad 0 e) by (apply reached_start; [unfold e; reach|vm_compute; reflexivity..|eexists; split; vm_compute; reflexivity]).
  pose proof (f_step_spec ex_env ex_bad 0 ex_os e (EModel (CAdd ["g"; "x"; "y"]))%string (reached_storing _ _ _ _ R) Logic.I) as X.
  destruct (f_step ex_env ex_bad ex_os e (EModel (CAdd ["g"; "x"; "y"]))%string) as [[e' x]|] eqn:F.
  2:{ exfalso. assert (Y : match f_step ex_env ex_bad ex_os e (EModel (CAdd ["g"; "x"; "y"]))%string with Val _ => true | Panic => false end = true) by (vm_compute; reflexivity). rewrite F in Y. discriminate. }
  assert (Y : match f_step ex_env ex_bad ex_os e (EModel (CAdd ["g"; "x"; "y"]))%string with
     | Val (e', inr _) => (existsb (rule_eqb ["g"; "x"; "y"]) (model_rules ex_o (f_model e')) && Nat.eqb (List.length (queue e')) 0 && Nat.eqb (List.length (accepted 0 (f_log e'))) 1)%bool
     | _ => false end%string = true) by (vm_compute; reflexivity).
  rewrite F in Y. clear X. destruct x as [r|err]; [discriminate|]. exists e, e', err. split; [exact R|]. split; [exact F|].
  apply andb_prop in Y as [Y Y3]. apply andb_prop in Y as [Y1 Y2].
  split; [intros Z; vm_compute in Z; repeat (destruct Z as [Z|Z]; [discriminate|]); exact Z|]. split.
  { apply existsb_exists in Y1 as [r [Hr He]]. destruct (rule_eqb_spec ["g"; "x"; "y"]%string r) as [->|]; [exact Hr|discriminate]. }
  split; [apply Nat.eqb_eq in Y2; now destruct (queue e')|].
  destruct (C113_panics ex_env ex_bad 0 ex_os e (EModel (CAdd ["g"; "x"; "y"]))%string e' (inr err) R Logic.I Logic.I F) as (es & Lg & _ & [[D _]|(es0 & c & -> & _)]); [discriminate|].
  apply Nat.eqb_eq in Y3. rewrite Lg, accepted_app in *. rewrite app_length in Y3. change (List.length (accepted 0 (f_log e))) with 1 in Y3.
  destruct (accepted 0 (es0 ++ [mkEntry 0 c (Some err)])) as [|a l]; [now rewrite app_nil_r|cbn in Y3; lia].
Qed.
Print Assumptions C113_changes_nothing_refuted.
