(** Storage follows the model: the invariant and its preservation; waiting,
    loading and replacing adapters. *)
From Verif Require Import GoBase GoBaseP PolicyM PolicySpec MatcherM RbacM DomainM ModelM ModelSpec ModelP4 ModelP5 StorageM StorageSpec StorageP StorageP2.

(** *** Events carry the rules of the calls *)
Lemma add_events o m rl m' b e es : model_AddRule o m rl = Val (m', b, e, es) -> es = [] \/ es = [MAdded rl].
Proof.
  unfold model_AddRule. destruct rl as [|k r]; [discriminate|]. destruct (first_byte k) as [c|]; [|discriminate].
  destruct (Ascii.eqb c "p"); [|destruct (Ascii.eqb c "g")].
  - destruct (mget k (md_pMap m)) as [i|]; [|intros H; injection H as _ _ _ <-; auto].
    intros H. apply obind_val in H as [[m1 b1] [_ H]]. injection H as _ _ _ <-. destruct b1; auto.
  - destruct (mget k (md_rpMap m)) as [i|]; [|intros H; injection H as _ _ _ <-; auto].
    intros H. apply obind_val in H as [[m1 b1] [_ H]]. injection H as _ _ _ <-. destruct b1; auto.
  - intros H; injection H as _ _ _ <-; auto.
Qed.
Lemma remove_events o m rl m' b e es : model_RemoveRule o m rl = Val (m', b, e, es) -> es = [] \/ es = [MRemoved rl].
Proof.
  unfold model_RemoveRule. destruct rl as [|k r]; [discriminate|]. destruct (first_byte k) as [c|]; [|discriminate].
  destruct (Ascii.eqb c "p"); [|destruct (Ascii.eqb c "g")].
  - destruct (mget k (md_pMap m)) as [i|]; [|intros H; injection H as _ _ _ <-; auto].
    intros H. apply obind_val in H as [[m1 b1] [_ H]]. injection H as _ _ _ <-. destruct b1; auto.
  - destruct (mget k (md_rpMap m)) as [i|]; [|intros H; injection H as _ _ _ <-; auto].
    intros H. apply obind_val in H as [[m1 b1] [_ H]]. injection H as _ _ _ <-. destruct b1; auto.
  - intros H; injection H as _ _ _ <-; auto.
Qed.

(** A model call with rules in listed form. *)
Definition plain_m (hs : list (orders * mcall)) (c : mcall) : Prop :=
  match c with CAdd rl | CRemove rl => plain_rule hs rl | c => rule_call c end.
Lemma plain_m_rule hs c : plain_m hs c -> rule_call c.
Proof. destruct c; cbn; auto. Qed.
Lemma plain_m_tame hs c : plain_m hs c -> tame_call c.
Proof. destruct c; cbn; try tauto; intros [H _]; exact H. Qed.

Lemma step_events E hs o m c m' x : plain_m hs c -> mstep E o m c = Val (m', x) -> map (event_rule (as_listed hs)) (x_events x) = x_events x.
Proof.
  intros P H. destruct (call_cases c) as [[r ->]|[[r ->]|Hn]].
  - cbn [mstep] in H. apply obind_val in H as [[[[m1 b] e] es] [Ha H]]. injection H as _ <-. cbn [x_events]. destruct P as [_ P].
    destruct (add_events _ _ _ _ _ _ _ Ha) as [-> | ->]; cbn; congruence.
  - cbn [mstep] in H. apply obind_val in H as [[[[m1 b] e] es] [Ha H]]. injection H as _ <-. cbn [x_events]. destruct P as [_ P].
    destruct (remove_events _ _ _ _ _ _ _ Ha) as [-> | ->]; cbn; congruence.
  - now rewrite (quiet_events E o m c m' x (plain_m_rule _ _ P) Hn H).
Qed.
Lemma exec_events E hs hm : Forall (fun c => plain_m hs (snd c)) hm -> forall m m' xs, mexec E m hm = Val (m', xs) ->
  map (event_rule (as_listed hs)) (flat_map x_events xs) = flat_map x_events xs.
Proof.
  induction 1 as [|[o c] hm Hc Hm IH]; intros m m' xs H; cbn [mexec] in H; [injection H as <- <-; reflexivity|].
  apply obind_val in H as [[m1 x] [H1 H]]. apply obind_val in H as [[m2 xs2] [H2 H]]. injection H as <- <-. cbn [flat_map]. rewrite map_app.
  rewrite (step_events E hs o m c m1 x Hc H1), (IH _ _ _ H2). reflexivity.
Qed.

Lemma plain_replay E h hm m0 rs0 m xs S : good_m (h ++ hm) -> tame h -> Forall (fun c => plain_m h (snd c)) hm ->
  (forall rl, S rl = true <-> present h rl) -> mexec E (NewModel E) h = Val (m0, rs0) -> mexec E m0 hm = Val (m, xs) ->
  forall rl, fold_left apply_op (announced xs) S rl = true <-> present (h ++ hm) rl.
Proof.
  intros Go T F HS H0 H rl. rewrite announced_ops, <- apply_events, <- (exec_events E h hm F m0 m xs H).
  refine (replay_model E h hm m0 rs0 S Go _ _ HS H0 m xs H rl).
  - apply Forall_app. split; [exact T|]. eapply Forall_impl; [|exact F]. intros [o c] P. eapply plain_m_tame; eauto.
  - eapply Forall_impl; [|exact F]. intros [o c] P. eapply plain_m_rule; eauto.
Qed.

(** *** The invariant *)
Definition storing (id : nat) (e : enforcer) : Prop :=
  Wf e /\ f_adapter e = AExt id /\ enabled e = true /\ attached e.
(** Adapter content, then the queue: the model's rules. *)
Definition follows (id : nat) (s0 : rset) (es : list entry) (e : enforcer) (h : list (orders * mcall)) : Prop :=
  forall rl, fold_left apply_op (queue e) (stored id s0 es) rl = true <-> present h rl.

Lemma storing_em id e : storing id e -> f_em e = [f_sc e].
Proof.
  intros [[[sc [Hc [_ [_ Hem]]]]] [_ [He [sc2 [Hc2 Hm]]]]]. rewrite Hc in Hc2. injection Hc2 as <-. unfold enabled in He. rewrite Hc in He.
  rewrite He, Hm, Nat.eqb_refl in Hem. exact Hem.
Qed.

(** The storage set-up after a call: same controller in the heap cell. *)
Lemma storing_frame id e m scs log sc sc' : storing id e -> cur e = Some sc -> nth_error scs (f_sc e) = Some sc' -> same_set_up sc sc' ->
  storing id (mkEnf m (f_mid e) (f_em e) scs (f_sc e) (f_adapter e) log).
Proof.
  intros [Hw [Ha [He Hm]]] Hc Hn S. split; [eapply wf_frame; eauto|]. split; [exact Ha|]. destruct S as [S1 [S2 S3]]. split.
  - unfold enabled, cur in *. cbn. rewrite Hn. rewrite Hc in He. congruence.
  - destruct Hm as [sc0 [H0 H1]]. rewrite Hc in H0. injection H0 as <-. exists sc'. unfold cur. cbn. split; [exact Hn|congruence].
Qed.

Lemma plain_m_same hs h c : (forall rl, as_listed h rl = as_listed hs rl) -> plain_m hs c -> plain_m h c.
Proof. intros S. destruct c; cbn; try tauto; intros [A B]; (split; [exact A|now rewrite S]). Qed.

(** Everything announced is accepted or queued: the invariant moves along. *)
Lemma follows_move id s0 es0 e e' es h hm xs E m0 rs0 :
  all_of id es -> Forall proper es -> accepted id es ++ queue e' = queue e ++ announced xs ->
  good_m (h ++ hm) -> tame h -> Forall (fun c => plain_m h (snd c)) hm -> mexec E (NewModel E) h = Val (m0, rs0) -> mexec E m0 hm = Val (f_model e', xs) ->
  follows id s0 es0 e h -> follows id s0 (es0 ++ es) e' (h ++ hm).
Proof.
  intros A F Q Go T P H0 H1 J rl. rewrite stored_app, (stored_accepted id es A F), <- fold_left_app, Q, fold_left_app.
  apply (plain_replay E h hm m0 rs0 (f_model e') xs); auto.
Qed.

Lemma Flush_log_proper W sc log sc' log' id : Flush W sc log = (sc', log', None) -> sc_adapter sc = AExt id ->
  exists es, log' = log ++ es /\ all_of id es /\ Forall proper es /\ accepted id es = sc_q sc.
Proof.
  intros H Ha. apply Flush_flushed in H as [_ [es [-> H]]]. exists es. split; [reflexivity|]. rewrite Ha in H. unfold flushed in H. destruct (w_kind W id).
  - destruct H as [gs [[R1 [R2 R3]] ->]]. split; [apply Forall_map, Forall_forall; reflexivity|]. split; [|now rewrite accepted_batches].
    apply Forall_map. eapply Forall_impl; [|exact R2]. intros [o rs] Hg. cbn [snd] in Hg. split; cbn [en_err en_call]; [reflexivity|].
    rewrite changes_batch. destruct rs; [congruence|discriminate].
  - subst es. split; [apply Forall_map, Forall_forall; reflexivity|]. split; [|apply accepted_singles].
    apply Forall_map, Forall_forall. intros op _. split; cbn [en_err en_call]; [reflexivity|]. rewrite changes_single. discriminate.
  - destruct H.
Qed.

Lemma firstn_plain hs (f : rule -> mcall) (Hf : forall r, plain_m hs (f r) <-> plain_rule hs r) rs : Forall (plain_rule hs) rs ->
  forall os n, Forall (fun c => plain_m hs (snd c)) (firstn n (rule_calls os f rs)).
Proof.
  induction 1 as [|r rs Hr H IH]; intros os n; cbn [rule_calls]; [destruct n; constructor|]. destruct n as [|n]; cbn [firstn]; [constructor|].
  constructor; [now apply Hf|apply IH].
Qed.
Lemma firstn_good rs f : forall os n, (forall i, good_orders (os i)) -> good_m (firstn n (rule_calls os f rs)).
Proof.
  induction rs as [|r rs IH]; intros os n H; cbn [rule_calls]; [destruct n; constructor|]. destruct n as [|n]; cbn [firstn]; [constructor|].
  constructor; [apply H|]. apply IH. intros i. apply H.
Qed.
Lemma model_rules_present E h o m rs : good_m h -> good_orders o -> tame h -> mexec E (NewModel E) h = Val (m, rs) ->
  forall rl, In rl (model_rules o m) <-> present h rl.
Proof. intros Go Ho T H rl. destruct (model_listing E h o m rs Go Ho T H) as [_ L]. apply L. Qed.

(** One call. *)
Lemma follows_step E W id hs h os e c e' r s0 es0 m0rs :
  accepts W id -> storing id e -> keeps_storage c -> plain_call hs c -> (forall n, good_orders (os n)) ->
  good_m h -> tame h -> (forall rl, as_listed h rl = as_listed hs rl) ->
  mexec E (NewModel E) h = Val (f_model e, m0rs) -> follows id s0 es0 e h ->
  estep E W os e c = Val (e', r) ->
  exists hm es xs, model_part os c hm /\ Forall (fun c => plain_m h (snd c)) hm /\ good_m hm /\ mexec E (f_model e) hm = Val (f_model e', xs) /\
    storing id e' /\ f_log e' = f_log e ++ es /\ follows id s0 (es0 ++ es) e' (h ++ hm).
Proof.
  intros A St K P Ho Go T Same H0 J H. pose proof St as [Hw [Ha [He Hm]]]. pose proof (wf_cur e Hw) as [sc [Hc [Hsa [Hsm Hem]]]].
  pose proof (storing_em id e St) as Em.
  assert (Hl : sc_listening sc && Nat.eqb (sc_em sc) (f_mid e) = true) by (rewrite Em in Hem; destruct (_ && _); [reflexivity|discriminate]).
  assert (Qe : queue e = sc_q sc) by (unfold queue; now rewrite Hc).
  assert (Back : forall m sc' log, cur (mkEnf m (f_mid e) (f_em e) (upd (f_scs e) (f_sc e) sc') (f_sc e) (f_adapter e) log) = Some sc').
  { intros m sc' log. unfold cur. cbn. unfold cur in Hc. now rewrite (nth_upd _ _ _ _ Hc), Nat.eqb_refl. }
  assert (Stay : forall m sc' log, same_set_up sc sc' -> storing id (mkEnf m (f_mid e) (f_em e) (upd (f_scs e) (f_sc e) sc') (f_sc e) (f_adapter e) log)).
  { intros m sc' log S. eapply storing_frame; eauto. unfold cur in Hc. now rewrite (nth_upd _ _ _ _ Hc), Nat.eqb_refl. }
  assert (Nothing : mexec E (f_model e) [] = Val (f_model e, [])) by reflexivity.
  assert (R : forall mk rs err, (forall r, plain_m h (mk r) <-> plain_rule h r) -> Forall (plain_rule hs) rs -> rules_call E W os e mk rs = Val (e', err) ->
    exists n es xs, Forall (fun c => plain_m h (snd c)) (firstn n (rule_calls os mk rs)) /\ good_m (firstn n (rule_calls os mk rs)) /\
      mexec E (f_model e) (firstn n (rule_calls os mk rs)) = Val (f_model e', xs) /\
      storing id e' /\ f_log e' = f_log e ++ es /\ follows id s0 (es0 ++ es) e' (h ++ firstn n (rule_calls os mk rs))).
  { intros mk rs err Hmk Hrs Hr. destruct (rules_call_spec _ _ _ _ _ _ _ _ Hw Hr) as [xs [sc0 [sc1 [log1 [[n [U _]] [Hc0 [E1 [S1 [S2 D]]]]]]]]].
    rewrite Hc in Hc0. injection Hc0 as <-. rewrite Hl in D. cbv zeta in D.
    assert (Pn : Forall (fun c => plain_m h (snd c)) (firstn n (rule_calls os mk rs))).
    { apply firstn_plain; [exact Hmk|]. eapply Forall_impl; [|exact Hrs]. intros rl [B C]. split; [exact B|now rewrite Same]. }
    assert (Gn : good_m (firstn n (rule_calls os mk rs))) by now apply firstn_good.
    assert (L : exists es, log1 = f_log e ++ es /\ all_of id es /\ Forall proper es /\ accepted id es ++ sc_q sc1 = sc_q sc ++ announced xs).
    { destruct (sc_autosave sc).
      - destruct D as [-> D]. destruct (Flush_log_proper _ _ _ _ _ id D) as [es [-> [B1 [B2 B3]]]]; [cbn; congruence|].
        exists es. cbn in B3 |- *. rewrite app_nil_r. auto.
      - destruct D as [-> ->]. exists []. rewrite app_nil_r. repeat split; constructor. }
    destruct L as [es [-> [B1 [B2 B3]]]]. exists n, es, xs. split; [exact Pn|]. split; [exact Gn|]. split; [exact U|].
    split; [rewrite E1; apply Stay; exact S1|]. split; [rewrite E1; reflexivity|].
    assert (Q' : queue e' = sc_q sc1) by (unfold queue; rewrite E1, Back; reflexivity).
    eapply follows_move; eauto; [rewrite Q', Qe; exact B3|apply Forall_app; auto]. }
  destruct c as [c|rs|rs| | | |a|op|i|m]; cbn [estep keeps_storage] in H, K; try destruct K.
  - apply obind_val in H as [[e1 x] [H1 H]]. injection H as <- <-.
    destruct (model_call_spec _ _ _ _ _ _ _ Hw H1) as [sc0 [sc1 [log1 [Hc0 [Hs [E1 D]]]]]]. rewrite Hc in Hc0. injection Hc0 as <-.
    destruct D as [[_ D]|[D _]]; [|rewrite Em in D; discriminate].
    destruct (feed_ok W id A (map op_of (x_events x)) sc (f_log e)) as [sc2 [es [F1 [F2 [F3 [F4 [F5 F6]]]]]]]; [congruence|].
    rewrite F1 in D. injection D as <- <-.
    assert (Pc : plain_m h c) by (apply (plain_m_same hs); [exact Same|]; destruct c; exact P).
    exists [(os 0, c)], es, [x]. split; [reflexivity|]. split; [repeat constructor; exact Pc|]. split; [repeat constructor; apply Ho|].
    assert (M1 : mexec E (f_model e) [(os 0, c)] = Val (f_model e1, [x])) by (cbn [mexec]; rewrite Hs; reflexivity).
    split; [exact M1|]. split; [rewrite E1; apply Stay; exact F2|]. split; [rewrite E1; reflexivity|].
    assert (Q' : queue e1 = sc_q sc2) by (unfold queue; rewrite E1, Back; reflexivity).
    eapply follows_move with (xs := [x]); eauto.
    + rewrite Q', Qe. rewrite announced_ops. cbn [flat_map]. rewrite app_nil_r. exact F5.
    + apply Forall_app. split; [exact Go|repeat constructor; apply Ho].
  - apply obind_val in H as [[e1 err] [H1 H]]. injection H as <- <-. destruct (R CAdd rs err) as [n [es [xs H2]]]; [reflexivity|exact P|exact H1|].
    exists (firstn n (rule_calls os CAdd rs)), es, xs. split; [now exists n|exact H2].
  - apply obind_val in H as [[e1 err] [H1 H]]. injection H as <- <-. destruct (R CRemove rs err) as [n [es [xs H2]]]; [reflexivity|exact P|exact H1|].
    exists (firstn n (rule_calls os CRemove rs)), es, xs. split; [now exists n|exact H2].
  - change (nth_error (f_scs e) (f_sc e)) with (cur e) in H. rewrite Hc in H.
    destruct (Flush_ok W id sc (f_log e) A) as [es [F1 [F2 [F3 F4]]]]; [congruence|]. rewrite F1 in H. injection H as <- <-.
    exists [], es, []. split; [reflexivity|]. split; [constructor|]. split; [constructor|].
    rewrite (put_nth _ _ _ _ Hc). split; [reflexivity|]. split; [apply Stay; repeat split|]. split; [reflexivity|].
    eapply (follows_move id s0 es0 e _ es h [] []); eauto; [|rewrite app_nil_r; exact Go].
    unfold queue. rewrite Hc. unfold set_log, set_scs. cbn [f_model f_mid f_em f_scs f_sc f_adapter]. rewrite Back. cbn [sc_q with_q]. rewrite F3. reflexivity.
  - apply obind_val in H as [[e1 err] [H1 H]]. injection H as <- <-. unfold SavePolicy in H1. rewrite Ha in H1. cbn [ask] in H1. rewrite (proj2 A) in H1.
    injection H1 as <- <-. exists [], [mkEntry id (CSavePolicy (model_rules (os 0) (f_model e))) None], [].
    split; [reflexivity|]. split; [constructor|]. split; [constructor|]. split; [reflexivity|].
    split; [unfold set_log; destruct St as [[Wc] St2]; split; [constructor; exact Wc|exact St2]|]. split; [reflexivity|].
    rewrite app_nil_r. intros rl. change (queue (set_log e _)) with (queue e). rewrite stored_app. cbn [stored fold_left store_step en_id en_err en_call].
    unfold store_step. cbn [en_id en_err en_call]. rewrite Nat.eqb_refl.
    set (M := fun r : rule => if in_dec rule_eq_dec r (model_rules (os 0) (f_model e)) then true else false).
    assert (HM : forall r, M r = true <-> present h r).
    { intros r. rewrite <- (model_rules_present E h (os 0) (f_model e) m0rs Go (Ho 0) T H0 r). unfold M. destruct (in_dec _ _ _); split; try tauto; discriminate. }
    rewrite <- HM. apply reapply with (s := stored id s0 es0). intros r. rewrite HM. apply J.
  - destruct op as [b|b]; [|destruct K]. injection H as <- <-. cbn [SetOption]. change (nth_error (f_scs e) (f_sc e)) with (cur e). rewrite Hc. rewrite (put_nth _ _ _ _ Hc).
    exists [], [], []. split; [reflexivity|]. split; [constructor|]. split; [constructor|]. split; [reflexivity|].
    split; [apply Stay; repeat split|]. split; [cbn; now rewrite app_nil_r|]. rewrite !app_nil_r. intros rl.
    unfold queue, set_scs. rewrite Back. cbn [sc_q set_autosave]. rewrite <- Qe. apply J.
  - change (nth_error (f_scs e) (f_sc e)) with (cur e) in H. rewrite Hc in H. rewrite (put_nth _ _ _ _ Hc) in H. injection H as <- <-.
    exists [], [], []. split; [reflexivity|]. split; [constructor|]. split; [constructor|]. split; [reflexivity|].
    split; [apply Stay; repeat split|]. split; [cbn; now rewrite app_nil_r|]. rewrite !app_nil_r. intros rl.
    unfold queue, set_scs. rewrite Back. cbn [sc_q AddWait with_q]. rewrite <- Qe. apply J.
Qed.

(** A whole history. *)
Lemma follows_exec E W id hs s0 : accepts W id -> forall h0 e e' rs h es0 m0rs,
  storing id e -> Forall (fun c => keeps_storage (snd c)) h0 -> Forall (fun c => plain_call hs (snd c)) h0 -> eorders h0 ->
  good_m h -> tame h -> (forall rl, as_listed h rl = as_listed hs rl) ->
  mexec E (NewModel E) h = Val (f_model e, m0rs) -> follows id s0 es0 e h -> eexec E W e h0 = Val (e', rs) ->
  exists hm es xs, model_parts h0 hm /\ mexec E (f_model e) hm = Val (f_model e', xs) /\ good_m (h ++ hm) /\ tame (h ++ hm) /\
    storing id e' /\ f_log e' = f_log e ++ es /\ follows id s0 (es0 ++ es) e' (h ++ hm).
Proof.
  intros A. induction h0 as [|[os c] h0 IH]; intros e e' rs h es0 m0rs St K P O Go T Same H0 J H; cbn [eexec] in H.
  - injection H as <- <-. exists [], [], []. rewrite !app_nil_r. split; [constructor|]. split; [reflexivity|]. split; [exact Go|]. split; [exact T|]. split; [exact St|]. split; [reflexivity|exact J].
  - apply obind_val in H as [[e1 r1] [H1 H]]. apply obind_val in H as [[e2 rs2] [H2 H]]. injection H as <- <-.
    inversion K as [|? ? K1 K2]; subst. inversion P as [|? ? P1 P2]; subst. inversion O as [|? ? O1 O2]; subst. cbn [fst snd] in *.
    destruct (follows_step E W id hs h os e c e1 r1 s0 es0 m0rs A St K1 P1 O1 Go T Same H0 J H1) as [hm [es [xs [M1 [M2 [M3 [M4 [M5 [M6 M7]]]]]]]]].
    assert (T1 : tame (h ++ hm)).
    { apply Forall_app. split; [exact T|]. eapply Forall_impl; [|exact M2]. intros [o0 c0] Q. eapply plain_m_tame; eauto. }
    assert (R1 : Forall (fun c => rule_call (snd c)) hm) by (eapply Forall_impl; [|exact M2]; intros [o0 c0] Q; eapply plain_m_rule; eauto).
    destruct (IH e1 e2 rs2 (h ++ hm) (es0 ++ es) (m0rs ++ xs)) as [hm2 [es2 [xs2 [N1 [N2 [N3 [N4 [N5 [N6 N7]]]]]]]]]; auto.
    + apply Forall_app. auto.
    + intros rl. rewrite <- Same. apply as_listed_same. now apply kinds_exec.
    + apply mexec_app. eauto 8.
    + exists (hm ++ hm2), (es ++ es2), (xs ++ xs2). split; [constructor; auto|]. split; [apply mexec_app; eauto 8|].
      rewrite (app_assoc h), (app_assoc es0), N6, M6, <- (app_assoc (f_log e)).
      split; [exact N3|]. split; [exact N4|]. split; [exact N5|]. split; [reflexivity|exact N7].
Qed.
