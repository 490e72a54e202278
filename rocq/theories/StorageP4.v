(** Conservation of changes, waiting, loading, replacing the adapter. *)
From Verif Require Import GoBase GoBaseP PolicyM PolicySpec MatcherM RbacM DomainM ModelM ModelSpec ModelP4 ModelP5 StorageM StorageSpec StorageP StorageP2 StorageP3.

(** *** Conservation *)
Lemma conserve_step E W id os e c e' r : accepts W id -> storing id e -> keeps_storage c -> estep E W os e c = Val (e', r) ->
  exists hm es xs, model_part os c hm /\ mexec E (f_model e) hm = Val (f_model e', xs) /\ storing id e' /\
    f_log e' = f_log e ++ es /\ all_of id es /\ accepted id es ++ queue e' = queue e ++ announced xs.
Proof.
  intros A St K H. pose proof St as [Hw [Ha [He Hm]]]. pose proof (wf_cur e Hw) as [sc [Hc [Hsa [Hsm Hem]]]].
  pose proof (storing_em id e St) as Em.
  assert (Hl : sc_listening sc && Nat.eqb (sc_em sc) (f_mid e) = true) by (rewrite Em in Hem; destruct (_ && _); [reflexivity|discriminate]).
  assert (Qe : queue e = sc_q sc) by (unfold queue; now rewrite Hc).
  assert (Back : forall m sc' log, cur (mkEnf m (f_mid e) (f_em e) (upd (f_scs e) (f_sc e) sc') (f_sc e) (f_adapter e) log) = Some sc').
  { intros m sc' log. unfold cur. cbn. unfold cur in Hc. now rewrite (nth_upd _ _ _ _ Hc), Nat.eqb_refl. }
  assert (Stay : forall m sc' log, same_set_up sc sc' -> storing id (mkEnf m (f_mid e) (f_em e) (upd (f_scs e) (f_sc e) sc') (f_sc e) (f_adapter e) log)).
  { intros m sc' log S. eapply storing_frame; eauto. unfold cur in Hc. now rewrite (nth_upd _ _ _ _ Hc), Nat.eqb_refl. }
  assert (R : forall mk rs err, rules_call E W os e mk rs = Val (e', err) ->
    exists n es xs, mexec E (f_model e) (firstn n (rule_calls os mk rs)) = Val (f_model e', xs) /\ storing id e' /\
      f_log e' = f_log e ++ es /\ all_of id es /\ accepted id es ++ queue e' = queue e ++ announced xs).
  { intros mk rs err Hr. destruct (rules_call_spec _ _ _ _ _ _ _ _ Hw Hr) as [xs [sc0 [sc1 [log1 [[n [U _]] [Hc0 [E1 [S1 [S2 D]]]]]]]]].
    rewrite Hc in Hc0. injection Hc0 as <-. rewrite Hl in D. cbv zeta in D.
    assert (L : exists es, log1 = f_log e ++ es /\ all_of id es /\ accepted id es ++ sc_q sc1 = sc_q sc ++ announced xs).
    { destruct (sc_autosave sc).
      - destruct D as [-> D]. destruct (Flush_log_proper _ _ _ _ _ id D) as [es [-> [B1 [B2 B3]]]]; [cbn; congruence|].
        exists es. cbn in B3 |- *. rewrite app_nil_r. auto.
      - destruct D as [-> ->]. exists []. rewrite app_nil_r. repeat split; constructor. }
    destruct L as [es [-> [B1 B3]]]. exists n, es, xs. split; [exact U|].
    split; [rewrite E1; apply Stay; exact S1|]. split; [rewrite E1; reflexivity|]. split; [exact B1|].
    assert (Q' : queue e' = sc_q sc1) by (unfold queue; rewrite E1, Back; reflexivity). rewrite Q', Qe. exact B3. }
  destruct c as [c|rs|rs| | | |a|op|i|m]; cbn [estep keeps_storage] in H, K; try destruct K.
  - apply obind_val in H as [[e1 x] [H1 H]]. injection H as <- <-.
    destruct (model_call_spec _ _ _ _ _ _ _ Hw H1) as [sc0 [sc1 [log1 [Hc0 [Hs [E1 D]]]]]]. rewrite Hc in Hc0. injection Hc0 as <-.
    destruct D as [[_ D]|[D _]]; [|rewrite Em in D; discriminate].
    destruct (feed_ok W id A (map op_of (x_events x)) sc (f_log e)) as [sc2 [es [F1 [F2 [F3 [F4 [F5 F6]]]]]]]; [congruence|].
    rewrite F1 in D. injection D as <- <-. exists [(os 0, c)], es, [x]. split; [reflexivity|].
    split; [cbn [mexec]; rewrite Hs; reflexivity|]. split; [rewrite E1; apply Stay; exact F2|]. split; [rewrite E1; reflexivity|].
    split; [exact F4|]. assert (Q' : queue e1 = sc_q sc2) by (unfold queue; rewrite E1, Back; reflexivity).
    rewrite Q', Qe. rewrite announced_ops. cbn [flat_map]. rewrite app_nil_r. exact F5.
  - apply obind_val in H as [[e1 err] [H1 H]]. injection H as <- <-. destruct (R CAdd rs err H1) as [n [es [xs H2]]].
    exists (firstn n (rule_calls os CAdd rs)), es, xs. split; [now exists n|exact H2].
  - apply obind_val in H as [[e1 err] [H1 H]]. injection H as <- <-. destruct (R CRemove rs err H1) as [n [es [xs H2]]].
    exists (firstn n (rule_calls os CRemove rs)), es, xs. split; [now exists n|exact H2].
  - change (nth_error (f_scs e) (f_sc e)) with (cur e) in H. rewrite Hc in H.
    destruct (Flush_ok W id sc (f_log e) A) as [es [F1 [F2 [F3 F4]]]]; [congruence|]. rewrite F1 in H. injection H as <- <-.
    exists [], es, []. split; [reflexivity|]. rewrite (put_nth _ _ _ _ Hc). split; [reflexivity|]. split; [apply Stay; repeat split|].
    split; [reflexivity|]. split; [exact F2|].
    unfold queue at 2. rewrite Hc. unfold queue, set_log, set_scs. cbn [f_model f_mid f_em f_scs f_sc f_adapter]. rewrite Back. cbn [sc_q with_q]. now rewrite F3.
  - apply obind_val in H as [[e1 err] [H1 H]]. injection H as <- <-. unfold SavePolicy in H1. rewrite Ha in H1. cbn [ask] in H1. rewrite (proj2 A) in H1.
    injection H1 as <- <-. exists [], [mkEntry id (CSavePolicy (model_rules (os 0) (f_model e))) None], [].
    split; [reflexivity|]. split; [reflexivity|].
    split; [unfold set_log; destruct St as [[Wc] St2]; split; [constructor; exact Wc|exact St2]|]. split; [reflexivity|].
    split; [repeat constructor|]. cbn. rewrite Nat.eqb_refl, !app_nil_r. reflexivity.
  - destruct op as [b|b]; [|destruct K]. injection H as <- <-. cbn [SetOption]. change (nth_error (f_scs e) (f_sc e)) with (cur e). rewrite Hc. rewrite (put_nth _ _ _ _ Hc).
    exists [], [], []. split; [reflexivity|]. split; [reflexivity|].
    split; [apply Stay; repeat split|]. split; [cbn; now rewrite app_nil_r|]. split; [constructor|].
    unfold queue, set_scs. rewrite Back, Hc. cbn. now rewrite app_nil_r.
  - change (nth_error (f_scs e) (f_sc e)) with (cur e) in H. rewrite Hc in H. rewrite (put_nth _ _ _ _ Hc) in H. injection H as <- <-.
    exists [], [], []. split; [reflexivity|]. split; [reflexivity|].
    split; [apply Stay; repeat split|]. split; [cbn; now rewrite app_nil_r|]. split; [constructor|].
    unfold queue, set_scs. rewrite Back, Hc. cbn. now rewrite app_nil_r.
Qed.

Lemma conserve_exec E W id : accepts W id -> forall h e e' rs, storing id e -> Forall (fun c => keeps_storage (snd c)) h -> eexec E W e h = Val (e', rs) ->
  exists hm es xs, model_parts h hm /\ mexec E (f_model e) hm = Val (f_model e', xs) /\ storing id e' /\
    f_log e' = f_log e ++ es /\ all_of id es /\ accepted id es ++ queue e' = queue e ++ announced xs.
Proof.
  intros A. induction h as [|[os c] h IH]; intros e e' rs St K H; cbn [eexec] in H.
  - injection H as <- <-. exists [], [], []. rewrite !app_nil_r. split; [constructor|]. split; [reflexivity|]. split; [exact St|]. split; [reflexivity|]. split; [constructor|reflexivity].
  - apply obind_val in H as [[e1 r1] [H1 H]]. apply obind_val in H as [[e2 rs2] [H2 H]]. injection H as <- <-. inversion K as [|? ? K1 K2]; subst. cbn [snd] in K1.
    destruct (conserve_step E W id os e c e1 r1 A St K1 H1) as [hm [es [xs [M1 [M2 [M3 [M4 [M5 M6]]]]]]]].
    destruct (IH e1 e2 rs2 M3 K2 H2) as [hm2 [es2 [xs2 [N1 [N2 [N3 [N4 [N5 N6]]]]]]]].
    exists (hm ++ hm2), (es ++ es2), (xs ++ xs2). split; [constructor; auto|]. split; [apply mexec_app; eauto 8|]. split; [exact N3|].
    split; [rewrite N4, M4, <- app_assoc; reflexivity|]. split; [apply Forall_app; auto|].
    rewrite accepted_app, announced_app, <- app_assoc, N6, app_assoc, M6, <- app_assoc. reflexivity.
Qed.

(** *** Calls on the model alone *)
Lemma feed_app W a b : forall sc log, feed W sc log (a ++ b) = let! (sc, log) := feed W sc log a in feed W sc log b.
Proof.
  induction a as [|op a IH]; intros sc log; cbn [app feed obind]; [reflexivity|].
  destruct (addOp W sc log op) as [[sc1 log1]|]; cbn [obind]; [apply IH|reflexivity].
Qed.
Lemma models_exec E W : forall hm e e' rs, Wf e -> eexec E W e (model_calls hm) = Val (e', rs) ->
  exists xs sc sc' log', mexec E (f_model e) hm = Val (f_model e', xs) /\ cur e = Some sc /\
    e' = mkEnf (f_model e') (f_mid e) (f_em e) (upd (f_scs e) (f_sc e) sc') (f_sc e) (f_adapter e) log' /\
    ((f_em e = [f_sc e] /\ feed W sc (f_log e) (announced xs) = Val (sc', log')) \/ (f_em e = [] /\ sc' = sc /\ log' = f_log e)).
Proof.
  induction hm as [|[o c] hm IH]; intros e e' rs Hw H; cbn [model_calls map eexec] in H.
  - injection H as <- <-. pose proof (wf_cur e Hw) as [sc [Hc [_ [_ Hem]]]]. exists [], sc, sc, (f_log e). split; [reflexivity|]. split; [exact Hc|].
    split; [unfold cur in Hc; rewrite (upd_same _ _ _ Hc); destruct e; reflexivity|]. destruct (_ && _) in Hem; [left|right]; auto.
  - apply obind_val in H as [[e1 r1] [H1 H]]. apply obind_val in H as [[e2 rs2] [H2 H]]. injection H as <- <-.
    cbn [estep fst snd] in H1. apply obind_val in H1 as [[e3 x] [H1 H3]]. injection H3 as -> _.
    pose proof (wf_model_call _ _ _ _ _ _ _ Hw H1) as W1. destruct (model_call_spec _ _ _ _ _ _ _ Hw H1) as [sc [sc1 [log1 [Hc [Hs [E1 D]]]]]].
    assert (Hc1 : cur e1 = Some sc1).
    { rewrite E1. unfold cur. cbn. unfold cur in Hc. now rewrite (nth_upd _ _ _ _ Hc), Nat.eqb_refl. }
    destruct (IH e1 e2 rs2 W1 H2) as [xs [sc2 [sc3 [log3 [U [Hc2 [E2 D2]]]]]]]. rewrite Hc1 in Hc2. injection Hc2 as <-.
    exists (x :: xs), sc, sc3, log3. cbn [mexec]. rewrite Hs. cbn [obind]. rewrite U. cbn [obind]. split; [reflexivity|]. split; [exact Hc|]. split.
    + etransitivity; [exact E2|]. rewrite E1. cbn. unfold cur in Hc. rewrite (upd_upd _ _ _ _ _ Hc). reflexivity.
    + rewrite E1 in D2. cbn [f_em f_sc f_log] in D2. change (announced (x :: xs)) with (announced ([x] ++ xs)). rewrite announced_app, feed_app.
      destruct D as [[D1 D]|[D1 [-> ->]]]; destruct D2 as [[D3 D4]|[D3 [-> ->]]]; try (exfalso; congruence).
      * left. split; [exact D1|]. rewrite announced_ops. cbn [flat_map]. rewrite app_nil_r, D. exact D4.
      * right. auto.
Qed.

(** *** Waiting *)
Lemma feed_waits W : forall ops sc log, sc_autosave sc = true -> (Z.of_nat (List.length ops) < sc_wait sc)%Z ->
  feed W sc log ops = Val (with_q sc (sc_q sc ++ ops) (sc_wait sc - Z.of_nat (List.length ops)), log).
Proof.
  induction ops as [|op ops IH]; intros sc log Ha Hn; cbn [feed].
  - rewrite app_nil_r, Z.sub_0_r. destruct sc; reflexivity.
  - cbn [List.length] in *. unfold addOp. cbn [sc_autosave with_q sc_wait sc_q]. rewrite Ha.
    destruct (Z.leb_spec (sc_wait sc - 1) 0); [lia|]. cbn [obind]. rewrite IH; [|exact Ha|cbn; lia]. cbn [sc_q with_q sc_wait]. rewrite <- app_assoc.
    unfold with_q. cbn. do 3 f_equal. lia.
Qed.
Lemma feed_last W : forall ops sc log sc' log', sc_autosave sc = true -> Z.of_nat (List.length ops) = sc_wait sc -> ops <> [] ->
  feed W sc log ops = Val (sc', log') ->
  sc' = with_q sc [] 0 /\ exists es, log' = log ++ es /\ flushed W (sc_adapter sc) (sc_q sc ++ ops) es.
Proof.
  intros ops sc log sc' log' Ha Hn Ho H. destruct (exists_last Ho) as [ops0 [op ->]]. rewrite app_length in Hn. cbn [List.length] in Hn.
  rewrite feed_app, feed_waits in H; [|exact Ha|lia]. cbn [obind feed] in H. apply obind_val in H as [[sc1 log1] [H H1]]. injection H1 as -> ->.
  unfold addOp in H. cbn [sc_autosave with_q sc_wait sc_q] in H. rewrite Ha in H. destruct (Z.leb_spec (sc_wait sc - Z.of_nat (List.length ops0) - 1) 0); [|lia].
  destruct (Flush W _ _) as [[sc2 log2] [z|]] eqn:Ef; [discriminate|]. injection H as <- <-. apply Flush_flushed in Ef as [-> [es [-> F]]].
  split; [reflexivity|]. exists es. split; [reflexivity|]. cbn [sc_adapter sc_q with_q] in F. now rewrite <- app_assoc in F.
Qed.

(** *** Loading *)
Lemma load_spec E W os e e' r : Wf e -> estep E W os e ELoad = Val (e', r) ->
  f_scs e' = f_scs e /\ f_em e' = f_em e /\ f_sc e' = f_sc e /\ f_adapter e' = f_adapter e /\ f_mid e' = f_mid e /\
  match f_adapter e with
  | ANil => False
  | ANoop => f_model e' = f_model e /\ f_log e' = f_log e /\ y_err r = None
  | AExt id =>
      exists xs err, until_error E (f_model e) (rule_calls os CAdd (fst (w_load W (f_log e) id))) (f_model e') xs err /\
        f_log e' = f_log e ++ [mkEntry id CLoadPolicy (snd (w_load W (f_log e) id))] /\
        y_err r = match err with Some x => Some x | None => snd (w_load W (f_log e) id) end
  end.
Proof.
  intros Hw H. pose proof (wf_cur e Hw) as [sc [Hc [Hsa [Hsm Hem]]]]. cbn [estep] in H. apply obind_val in H as [[e1 err1] [H1 H]]. injection H as <- <-.
  unfold LoadPolicy in H1. change (nth_error (f_scs e) (f_sc e)) with (cur e) in H1. rewrite Hc in H1. cbv zeta in H1.
  set (e0 := if sc_listening sc then Disable e (f_sc e) else e) in *.
  apply obind_val in H1 as [[e2 err2] [H1 H2]]. injection H2 as <- <-.
  assert (W0 : Wf e0) by (unfold e0; destruct (sc_listening sc); [now apply wf_disable|exact Hw]).
  assert (I0 : f_em e0 = [] /\ f_sc e0 = f_sc e /\ f_adapter e0 = f_adapter e /\ f_mid e0 = f_mid e /\ f_model e0 = f_model e /\ f_log e0 = f_log e /\
    f_scs e0 = upd (f_scs e) (f_sc e) (listen sc false)).
  { unfold e0. destruct (sc_listening sc) eqn:El.
    - rewrite (Disable_spec e sc Hc). cbn. repeat split. rewrite Hem. destruct (Nat.eqb (sc_em sc) (f_mid e)); cbn; rewrite ?Nat.eqb_refl; reflexivity.
    - repeat split; [exact Hem|]. unfold cur in Hc. symmetry. apply upd_same. rewrite Hc. f_equal. destruct sc. cbn in *. now subst. }
  destruct I0 as [I1 [I2 [I3 [I4 [I5 [I6 I7]]]]]].
  assert (Post : forall e2, f_em e2 = [] -> f_sc e2 = f_sc e -> f_mid e2 = f_mid e -> f_scs e2 = upd (f_scs e) (f_sc e) (listen sc false) ->
     let e3 := if sc_listening sc then Enable e2 (f_sc e2) else e2 in
     f_scs e3 = f_scs e /\ f_em e3 = f_em e /\ f_sc e3 = f_sc e2 /\ f_adapter e3 = f_adapter e2 /\ f_mid e3 = f_mid e2 /\ f_model e3 = f_model e2 /\ f_log e3 = f_log e2).
  { intros e3 J1 J2 J3 J4. cbv zeta. assert (C3 : cur e3 = Some (listen sc false)).
    { unfold cur in *. rewrite J4, J2, (nth_upd _ _ _ _ Hc), Nat.eqb_refl. reflexivity. }
    destruct (sc_listening sc) eqn:El.
    - rewrite (Enable_spec e3 _ C3). cbn [sc_listening listen set_em set_scs f_scs f_em f_sc f_adapter f_mid f_model f_log sc_em].
      rewrite J1, J2, J3, J4. unfold cur in Hc. rewrite (upd_upd _ _ _ _ _ Hc). split; [|split; [|repeat split]].
      + apply upd_same. rewrite Hc. f_equal. destruct sc. cbn in *. now subst.
      + rewrite Hem. cbn. destruct (Nat.eqb (sc_em sc) (f_mid e)); reflexivity.
    - split; [|split; [now rewrite J1, Hem|repeat split]]. rewrite J4. apply upd_same. unfold cur in Hc. rewrite Hc. f_equal. destruct sc. cbn in *. now subst. }
  rewrite I3 in H1. destruct (f_adapter e) as [| |id] eqn:Ead.
  - discriminate.
  - injection H1 as <- <-. destruct (Post e0 I1 I2 I4 I7) as [P1 [P2 [P3 [P4 [P5 [P6 P7]]]]]]. rewrite P1, P2, P3, P4, P5, P6, P7, I2, I3, I4, I5, I6. auto 8.
  - unfold load_from in H1. apply obind_val in H1 as [[e3 err3] [H3 H1]]. injection H1 as <- <-. rewrite I6 in H3.
    set (src := w_load W (f_log e) id) in *. set (e4 := set_log e0 _) in H3.
    destruct (loop_spec _ _ _ _ _ _ _ _ (wf_log _ _ W0 : Wf e4) H3) as [xs [sc4 [sc5 [log5 [U [C4 [E3 D]]]]]]].
    change (f_em e4) with (f_em e0) in D. rewrite I1 in D. destruct D as [[D _]|[_ [-> ->]]]; [discriminate|].
    assert (Q : f_em e3 = [] /\ f_sc e3 = f_sc e /\ f_mid e3 = f_mid e /\ f_scs e3 = upd (f_scs e) (f_sc e) (listen sc false) /\ f_adapter e3 = AExt id /\
      f_log e3 = f_log e ++ [mkEntry id CLoadPolicy (snd src)]).
    { rewrite E3. unfold e4 in *. cbn in *. rewrite I1, I2, I3, I4. unfold cur in C4. cbn in C4. rewrite I2 in C4. rewrite (upd_same _ _ _ C4), I7. auto 8. }
    destruct Q as [Q1 [Q2 [Q3 [Q4 [Q5 Q6]]]]]. destruct (Post e3 Q1 Q2 Q3 Q4) as [P1 [P2 [P3 [P4 [P5 [P6 P7]]]]]].
    rewrite P1, P2, P3, P4, P5, P6, P7, Q2, Q3, Q5, Q6. split; [reflexivity|]. split; [reflexivity|]. split; [reflexivity|]. split; [reflexivity|]. split; [reflexivity|].
    exists xs, err3. change (f_model e4) with (f_model e0) in U. rewrite I5 in U. split; [exact U|]. split; [reflexivity|]. cbn [y_err]. rewrite I6. reflexivity.
Qed.

(** *** Only the adapter in use is called *)
Definition only (a : aref) (es : list entry) : Prop :=
  match a with AExt id => all_of id es | _ => es = [] end.
Lemma only_app a x y : only a x -> only a y -> only a (x ++ y).
Proof. destruct a; cbn; [intros -> ->; reflexivity|intros -> ->; reflexivity|]. intros A B. apply Forall_app; auto. Qed.
Lemma only_nil a : only a [].
Proof. destruct a; cbn; [reflexivity|reflexivity|constructor]. Qed.
Lemma ask_only W a c log : exists es, fst (ask W a c log) = log ++ es /\ only a es.
Proof.
  destruct a; cbn [ask fst]; [exists []; rewrite app_nil_r; split; reflexivity|exists []; rewrite app_nil_r; split; reflexivity|].
  eexists. split; [reflexivity|repeat constructor].
Qed.
Lemma flush_only W a : forall q log, exists es, fst (fst (flush W a log q)) = log ++ es /\ only a es.
Proof.
  induction q as [|op q IH]; intros log; cbn [flush]; [exists []; rewrite app_nil_r; split; [reflexivity|apply only_nil]|].
  assert (R : exists es, fst (run W a op log) = log ++ es /\ only a es) by (destruct op as [[|] r]; apply ask_only).
  destruct R as [es [R1 R2]]. destruct (run W a op log) as [l [e|]]; cbn [fst] in *; subst l; [eauto|].
  destruct (IH (log ++ es)) as [es2 [I1 I2]]. rewrite I1, <- app_assoc. exists (es ++ es2). split; [reflexivity|now apply only_app].
Qed.
Lemma batch_only W a : forall q log o rs, exists es, fst (fst (batch_loop W a log o rs q)) = log ++ es /\ only a es.
Proof.
  assert (R : forall o rs log, exists es, fst (runBatch W a o rs log) = log ++ es /\ only a es) by (intros [|] rs log; apply ask_only).
  induction q as [|[o' r] q IH]; intros log o rs; cbn [batch_loop].
  - destruct rs; [exists []; rewrite app_nil_r; split; [reflexivity|apply only_nil]|].
    destruct (R o (r :: rs) log) as [es [R1 R2]]. destruct (runBatch W a o (r :: rs) log) as [l e]; cbn [fst] in *. eauto.
  - destruct (opcode_eqb o o'); [apply IH|]. destruct (R o rs log) as [es [R1 R2]]. destruct (runBatch W a o rs log) as [l [e|]]; cbn [fst] in *; subst l; [eauto|].
    destruct (IH (log ++ es) o' [r]) as [es2 [I1 I2]]. rewrite I1, <- app_assoc. exists (es ++ es2). split; [reflexivity|now apply only_app].
Qed.
Lemma Flush_only W sc log sc' log' err : Flush W sc log = (sc', log', err) -> exists es, log' = log ++ es /\ only (sc_adapter sc) es.
Proof.
  unfold Flush. destruct (kind_of W (sc_adapter sc)).
  - assert (B : exists es, fst (fst (batchFlush W (sc_adapter sc) log (sc_q sc))) = log ++ es /\ only (sc_adapter sc) es).
    { unfold batchFlush. destruct (sc_q sc) as [|[o r] q]; apply batch_only. }
    destruct B as [es [B1 B2]]. destruct (batchFlush _ _ _ _) as [[l q] e]. intros H. injection H as <- <- <-. eauto.
  - destruct (flush_only W (sc_adapter sc) (sc_q sc) log) as [es [B1 B2]]. destruct (flush _ _ _ _) as [[l q] e]. intros H. injection H as <- <- <-. eauto.
  - intros H. injection H as <- <- <-. exists []. rewrite app_nil_r. split; [reflexivity|apply only_nil].
Qed.
Lemma feed_only W : forall ops sc log sc' log', feed W sc log ops = Val (sc', log') -> exists es, log' = log ++ es /\ only (sc_adapter sc) es.
Proof.
  induction ops as [|op ops IH]; intros sc log sc' log' H; cbn [feed] in H.
  - injection H as <- <-. exists []. rewrite app_nil_r. split; [reflexivity|apply only_nil].
  - apply obind_val in H as [[sc1 log1] [H1 H]]. pose proof (addOp_set_up _ _ _ _ _ _ H1) as [[_ [Sa _]] _]. apply IH in H as [es2 [-> H2]]. rewrite Sa in H2.
    assert (R : exists es, log1 = log ++ es /\ only (sc_adapter sc) es).
    { unfold addOp in H1. cbn [sc_autosave with_q] in H1. destruct (sc_autosave sc); [|injection H1 as <- <-; exists []; rewrite app_nil_r; split; [reflexivity|apply only_nil]].
      cbn [sc_wait with_q] in H1. destruct (_ <=? 0)%Z; [|injection H1 as <- <-; exists []; rewrite app_nil_r; split; [reflexivity|apply only_nil]].
      destruct (Flush W _ log) as [[sc2 log2] [z|]] eqn:Ef; [discriminate|]. injection H1 as <- <-. apply Flush_only in Ef. exact Ef. }
    destruct R as [es [-> R]]. exists (es ++ es2). rewrite app_assoc. split; [reflexivity|now apply only_app].
Qed.

Lemma only_step E W os e c e' r : Wf e -> (forall a, c <> ESetAdapter a) -> estep E W os e c = Val (e', r) ->
  f_adapter e' = f_adapter e /\ exists es, f_log e' = f_log e ++ es /\ only (f_adapter e) es.
Proof.
  intros Hw N H. pose proof (wf_cur e Hw) as [sc [Hc [Hsa [Hsm Hem]]]].
  assert (Z : f_adapter e = f_adapter e /\ exists es, f_log e = f_log e ++ es /\ only (f_adapter e) es).
  { split; [reflexivity|]. exists []. rewrite app_nil_r. split; [reflexivity|apply only_nil]. }
  assert (R : forall mk rs err, rules_call E W os e mk rs = Val (e', err) -> f_adapter e' = f_adapter e /\ exists es, f_log e' = f_log e ++ es /\ only (f_adapter e) es).
  { intros mk rs err Hr. destruct (rules_call_spec _ _ _ _ _ _ _ _ Hw Hr) as [xs [sc0 [sc1 [log1 [_ [Hc0 [E1 [S1 [S2 D]]]]]]]]].
    rewrite Hc in Hc0. injection Hc0 as <-. rewrite E1. cbn [f_adapter f_log]. split; [reflexivity|]. cbv zeta in D. destruct (sc_autosave sc).
    - destruct D as [_ D]. apply Flush_only in D. cbn in D. rewrite Hsa in D. exact D.
    - destruct D as [_ ->]. exists []. rewrite app_nil_r. split; [reflexivity|apply only_nil]. }
  destruct c as [c|rs|rs| | | |a|op|i|m]; cbn [estep] in H.
  - apply obind_val in H as [[e1 x] [H1 H]]. injection H as <- <-.
    destruct (model_call_spec _ _ _ _ _ _ _ Hw H1) as [sc0 [sc1 [log1 [Hc0 [Hs [E1 D]]]]]]. rewrite Hc in Hc0. injection Hc0 as <-. rewrite E1. cbn [f_adapter f_log].
    split; [reflexivity|]. destruct D as [[_ D]|[_ [_ ->]]]; [|apply Z]. apply feed_only in D. rewrite Hsa in D. exact D.
  - apply obind_val in H as [[e1 err] [H1 H]]. injection H as <- <-. eauto.
  - apply obind_val in H as [[e1 err] [H1 H]]. injection H as <- <-. eauto.
  - change (nth_error (f_scs e) (f_sc e)) with (cur e) in H. rewrite Hc in H. destruct (Flush W sc (f_log e)) as [[sc1 log1] err] eqn:Ef.
    injection H as <- <-. apply Flush_only in Ef. rewrite (put_nth _ _ _ _ Hc). cbn. rewrite <- Hsa. split; [reflexivity|exact Ef].
  - apply obind_val in H as [[e1 err] [H1 H]]. injection H as <- <-. unfold SavePolicy in H1.
    destruct (ask_only W (f_adapter e) (CSavePolicy (model_rules (os 0) (f_model e))) (f_log e)) as [es [B1 B2]].
    destruct (f_adapter e) eqn:Ea; [discriminate| |]; destruct (ask _ _ _ _) as [l x]; injection H1 as <- <-; cbn in *; subst l; rewrite Ea; split; eauto.
  - destruct (load_spec E W os e e' r Hw) as [_ [_ [_ [L1 [_ L2]]]]]; [exact H|]. split; [exact L1|]. destruct (f_adapter e) as [| |id]; [destruct L2| |].
    + destruct L2 as [_ [-> _]]. exists []. rewrite app_nil_r. split; reflexivity.
    + destruct L2 as [xs [err [_ [-> _]]]]. eexists. split; [reflexivity|repeat constructor].
  - now destruct (N a).
  - injection H as <- <-. destruct op as [b|[|]]; cbn [SetOption].
    + change (nth_error (f_scs e) (f_sc e)) with (cur e). rewrite Hc. rewrite (put_nth _ _ _ _ Hc). exact Z.
    + rewrite (Enable_spec e sc Hc). destruct (sc_listening sc); exact Z.
    + rewrite (Disable_spec e sc Hc). exact Z.
  - change (nth_error (f_scs e) (f_sc e)) with (cur e) in H. rewrite Hc in H. injection H as <- <-. rewrite (put_nth _ _ _ _ Hc). exact Z.
  - injection H as <- <-. exact Z.
Qed.
Lemma only_exec E W : forall h e e' rs, Wf e -> Forall (fun c => forall a, snd c <> ESetAdapter a) h -> eexec E W e h = Val (e', rs) ->
  f_adapter e' = f_adapter e /\ exists es, f_log e' = f_log e ++ es /\ only (f_adapter e) es.
Proof.
  induction h as [|[os c] h IH]; intros e e' rs Hw F H; cbn [eexec] in H.
  - injection H as <- <-. split; [reflexivity|]. exists []. rewrite app_nil_r. split; [reflexivity|apply only_nil].
  - apply obind_val in H as [[e1 r1] [H1 H]]. apply obind_val in H as [[e2 rs2] [H2 H]]. injection H as <- <-. inversion F as [|? ? F1 F2]; subst. cbn [snd] in F1.
    pose proof (wf_step _ _ _ _ _ _ _ Hw H1) as W1. destruct (only_step E W os e c e1 r1 Hw F1 H1) as [A1 [es [A2 A3]]].
    destruct (IH e1 e2 rs2 W1 F2 H2) as [B1 [es2 [B2 B3]]]. rewrite A1 in B1, B3. split; [exact B1|]. exists (es ++ es2). rewrite B2, A2, <- app_assoc. split; [reflexivity|now apply only_app].
Qed.

(** *** With an adapter that does not fail the storage side never panics *)
Lemma model_call_total E W id o e c : accepts W id -> storing id e -> model_call E W o e c = Panic -> mstep E o (f_model e) c = Panic.
Proof.
  intros A St H. pose proof St as [Hw [Ha [He Hm]]]. pose proof (wf_cur e Hw) as [sc [Hc [Hsa [Hsm Hem]]]]. pose proof (storing_em id e St) as Em.
  unfold model_call in H. destruct (mstep E o (f_model e) c) as [[m x]|]; [|reflexivity]. cbn [obind] in H.
  rewrite (deliver_one W (set_model e m) (f_sc e) Em sc Hc) in H.
  destruct (feed_ok W id A (map op_of (x_events x)) sc (f_log e)) as [sc2 [es [F1 _]]]; [congruence|].
  change (f_log (set_model e m)) with (f_log e) in H. rewrite F1 in H. discriminate.
Qed.
Lemma storing_model_call E W id o e c e' x : storing id e -> model_call E W o e c = Val (e', x) ->
  storing id e' /\ mstep E o (f_model e) c = Val (f_model e', x).
Proof.
  intros St H. pose proof St as [Hw [Ha [He Hm]]]. destruct (model_call_spec _ _ _ _ _ _ _ Hw H) as [sc [sc1 [log1 [Hc [Hs [E1 D]]]]]].
  split; [|exact Hs]. rewrite E1. eapply storing_frame; [exact St|exact Hc| |].
  - unfold cur in Hc. now rewrite (nth_upd _ _ _ _ Hc), Nat.eqb_refl.
  - destruct D as [[_ D]|[_ [-> _]]]; [apply (feed_set_up _ _ _ _ _ _ D)|repeat split].
Qed.
Lemma loop_total E W id mk rs : accepts W id -> forall os e, storing id e -> rules_loop E W os e mk rs = Panic ->
  exists n, mexec E (f_model e) (firstn n (rule_calls os mk rs)) = Panic.
Proof.
  intros A. induction rs as [|r rs IH]; intros os e St H; cbn [rules_loop] in H; [discriminate|].
  destruct (model_call E W (os 0) e (mk r)) as [[e1 x]|] eqn:Em; cbn [obind] in H.
  - destruct (storing_model_call _ _ _ _ _ _ _ _ St Em) as [St1 Hs]. destruct (x_err x); [discriminate|].
    destruct (IH _ _ St1 H) as [n Hn]. exists (S n). cbn [rule_calls firstn mexec]. rewrite Hs. cbn [obind]. rewrite Hn. reflexivity.
  - exists 1. cbn. rewrite (model_call_total _ _ _ _ _ _ A St Em). reflexivity.
Qed.
Lemma put_storing id e sc sc' : storing id e -> cur e = Some sc -> same_set_up sc sc' -> storing id (put_sc e (f_sc e) sc').
Proof.
  intros St Hc S. rewrite (put_nth _ _ _ _ Hc). unfold set_scs. eapply storing_frame; [exact St|exact Hc| |exact S].
  unfold cur in Hc. now rewrite (nth_upd _ _ _ _ Hc), Nat.eqb_refl.
Qed.
Lemma total_step E W id os e c : accepts W id -> storing id e -> keeps_storage c -> estep E W os e c = Panic ->
  exists hm, model_part os c hm /\ mexec E (f_model e) hm = Panic.
Proof.
  intros A St K H. pose proof St as [Hw [Ha [He Hm]]]. pose proof (wf_cur e Hw) as [sc [Hc [Hsa [Hsm Hem]]]].
  assert (R : forall mk rs, rules_call E W os e mk rs = Panic -> exists n, mexec E (f_model e) (firstn n (rule_calls os mk rs)) = Panic).
  { intros mk rs Hr. unfold rules_call in Hr. change (nth_error (f_scs e) (f_sc e)) with (cur e) in Hr. rewrite Hc in Hr.
    destruct (sc_autosave sc); [|eapply loop_total; eauto].
    assert (St0 : storing id (put_sc e (f_sc e) (set_autosave sc false))) by (eapply put_storing; eauto; repeat split).
    assert (M0 : f_model (put_sc e (f_sc e) (set_autosave sc false)) = f_model e) by (rewrite (put_nth _ _ _ _ Hc); reflexivity).
    destruct (rules_loop _ _ _ _ _ _) as [[e1 err]|] eqn:El; cbn [obind] in Hr; [|rewrite <- M0; eapply loop_total; eauto].
    destruct (loop_spec _ _ _ _ _ _ _ _ (proj1 St0) El) as [xs [sc0 [sc1 [log1 [U [Hc0 [E1 D]]]]]]].
    pose proof (wf_rules_loop _ _ _ _ _ _ _ _ (proj1 St0) El) as W1. pose proof (wf_cur e1 W1) as [sc2 [Hc2 [Hsa2 _]]].
    change (nth_error (f_scs e1) (f_sc e1)) with (cur e1) in Hr. rewrite Hc2 in Hr.
    destruct (Flush_ok W id (set_autosave sc2 true) (f_log e1) A) as [es [F1 _]].
    { cbn. rewrite Hsa2, E1. cbn. rewrite (put_nth _ _ _ _ Hc). exact Ha. }
    rewrite F1 in Hr. discriminate. }
  destruct c as [c|rs|rs| | | |a|op|i|m]; cbn [estep keeps_storage] in H, K; try destruct K.
  - destruct (model_call E W (os 0) e c) as [[e1 x]|] eqn:Em; [discriminate|]. exists [(os 0, c)]. split; [reflexivity|].
    cbn. rewrite (model_call_total _ _ _ _ _ _ A St Em). reflexivity.
  - destruct (rules_call E W os e CAdd rs) as [[e1 x]|] eqn:Em; [discriminate|]. destruct (R _ _ Em) as [n Hn]. eexists. split; [now exists n|exact Hn].
  - destruct (rules_call E W os e CRemove rs) as [[e1 x]|] eqn:Em; [discriminate|]. destruct (R _ _ Em) as [n Hn]. eexists. split; [now exists n|exact Hn].
  - change (nth_error (f_scs e) (f_sc e)) with (cur e) in H. rewrite Hc in H. destruct (Flush W sc (f_log e)) as [[s l] x]. discriminate.
  - unfold SavePolicy in H. rewrite Ha in H. discriminate.
  - discriminate.
  - change (nth_error (f_scs e) (f_sc e)) with (cur e) in H. rewrite Hc in H. discriminate.
Qed.

(** *** Autosave keeps the queue empty *)
Lemma feed_saves W id : accepts W id -> forall ops sc log sc' log', sc_adapter sc = AExt id -> sc_autosave sc = true -> sc_q sc = [] -> (sc_wait sc <= 0)%Z ->
  feed W sc log ops = Val (sc', log') -> sc_q sc' = [] /\ (sc_wait sc' <= 0)%Z /\ sc_autosave sc' = true.
Proof.
  intros A. induction ops as [|op ops IH]; intros sc log sc' log' Ha Hs Hq Hw H; cbn [feed] in H.
  - injection H as <- <-. auto.
  - unfold addOp in H. cbn [sc_autosave with_q sc_wait sc_q] in H. rewrite Hs in H. destruct (Z.leb_spec (sc_wait sc - 1) 0); [|lia].
    match type of H with context [Flush W ?s log] => destruct (Flush_ok W id s log A) as [es [F _]]; [exact Ha|]; rewrite F in H end.
    cbn [obind] in H. eapply IH; [| | | |exact H]; cbn; auto; lia.
Qed.

Lemma eexec_snoc E W o c e1 e2 r : estep E W o e1 c = Val (e2, r) -> forall h e rs, eexec E W e h = Val (e1, rs) -> eexec E W e (h ++ [(o, c)]) = Val (e2, rs ++ [r]).
Proof.
  intros H1. induction h as [|[o0 c0] h0 IH]; intros e0 rs0 X; cbn [eexec app] in *.
  - injection X as <- <-. rewrite H1. reflexivity.
  - apply obind_val in X as [[e3 r3] [X1 X]]. apply obind_val in X as [[e4 r4] [X2 X]]. injection X as <- <-. rewrite X1. cbn [obind]. rewrite (IH _ _ X2). reflexivity.
Qed.
Lemma reachable_step E W os e c e' r : reachable_enforcer E W e -> estep E W os e c = Val (e', r) -> reachable_enforcer E W e'.
Proof.
  intros [os0 [m0 [arg [opts [e0 [h0 [rs0 [N X]]]]]]]] H1. exists os0, m0, arg, opts, e0, (h0 ++ [(os, c)]), (rs0 ++ [r]). split; [exact N|].
  eapply eexec_snoc; eauto.
Qed.

(** *** A controller that listens to another model *)
Definition within (q : list operation) (es : list entry) : Prop := forall en op, In en es -> In op (changes (en_call en)) -> In op q.
Lemma ungroup_in gs : forall g r, In g gs -> In r (snd g) -> In (fst g, r) (ungroup gs).
Proof. intros g r Hg Hr. apply in_flat_map. exists g. split; [exact Hg|]. now apply in_map. Qed.
Lemma tl_in {A} (l : list A) x : In x (tl l) -> In x l.
Proof. destruct l; cbn; auto. Qed.
Lemma singles_within id l q : incl l q -> within q (map (fun op => mkEntry id (single op) None) l).
Proof. intros H en op Hin. apply in_map_iff in Hin as [x [<- Hx]]. cbn [en_call]. rewrite changes_single. intros [<-|[]]. auto. Qed.
Lemma batches_within id l gs q : incl l gs -> ungroup gs = q -> within q (map (fun g => mkEntry id (batch g) None) l).
Proof.
  intros H <- en op Hin. apply in_map_iff in Hin as [[o rs] [<- Hx]]. cbn [en_call]. rewrite changes_batch. intros Hop. apply in_map_iff in Hop as [r [<- Hr]].
  apply (ungroup_in gs (o, rs) r (H _ Hx) Hr).
Qed.
Lemma within_app q a b : within q a -> within q b -> within q (a ++ b).
Proof. intros H1 H2 en op Hin. apply in_app_iff in Hin as [Hin|Hin]; eauto. Qed.
Lemma Flush_within W sc log sc' log' err : Flush W sc log = (sc', log', err) ->
  exists es, log' = log ++ es /\ within (sc_q sc) es /\ incl (sc_q sc') (sc_q sc).
Proof.
  unfold Flush. destruct (sc_adapter sc) as [| |id]; cbn [kind_of].
  - intros H. injection H as <- <- <-. exists []. rewrite app_nil_r. split; [reflexivity|]. split; [intros en op []|intros op; auto].
  - rewrite flush_noop. intros H. injection H as <- <- <-. exists []. rewrite app_nil_r. split; [reflexivity|]. split; [intros en op []|intros op []].
  - destruct (w_kind W id).
    + destruct (batchFlush W (AExt id) log (sc_q sc)) as [[l q] er] eqn:Eb. intros H. injection H as <- <- <-. apply batchFlush_spec in Eb as [gs [[R1 _] Eb]].
      destruct er as [e|].
      * destruct Eb as [done [x [rest [-> [-> ->]]]]]. eexists. split; [reflexivity|]. split.
        -- apply within_app; [eapply batches_within; [|exact R1]; intros g Hg; apply in_app_iff; auto|].
           intros en op [<-|[]]. cbn [en_call]. destruct x as [o rs]. rewrite changes_batch. intros Hop. apply in_map_iff in Hop as [r [<- Hr]].
           rewrite <- R1. apply (ungroup_in _ (o, rs) r); [apply in_app_iff; right; left; reflexivity|exact Hr].
        -- cbn [sc_q with_q]. intros op Hop. apply tl_in in Hop. rewrite <- R1, ungroup_app. apply in_app_iff. right. unfold ungroup. cbn [flat_map]. apply in_app_iff. auto.
      * destruct Eb as [-> ->]. eexists. split; [reflexivity|]. split; [eapply batches_within; [|exact R1]; intros g; auto|intros op []].
    + destruct (flush W (AExt id) log (sc_q sc)) as [[l q] er] eqn:Eb. intros H. injection H as <- <- <-. apply flush_spec in Eb as [done [_ Eb]].
      destruct er as [e|].
      * destruct Eb as [x [-> ->]]. eexists. split; [reflexivity|]. split.
        -- apply within_app; [apply singles_within; intros op Hop; apply in_app_iff; auto|]. intros en op [<-|[]]. cbn [en_call]. rewrite changes_single. intros [<-|[]].
           apply in_app_iff. right. left. reflexivity.
        -- intros op Hop. apply in_app_iff. right. right. exact Hop.
      * destruct Eb as [-> [-> ->]]. eexists. split; [reflexivity|]. split; [apply singles_within; intros op; auto|intros op []].
    + intros H. injection H as <- <- <-. exists []. rewrite app_nil_r. split; [reflexivity|]. split; [intros en op []|intros op; auto].
Qed.

Definition detached (q : list operation) (e : enforcer) : Prop := Wf e /\ ~ attached e /\ incl (queue e) q.
Lemma detached_step E W q os e c e' r : detached q e -> (forall a, c <> ESetAdapter a) -> estep E W os e c = Val (e', r) ->
  detached q e' /\ exists es, f_log e' = f_log e ++ es /\ within q es.
Proof.
  intros [Hw [Na Hq]] N H. pose proof (wf_step _ _ _ _ _ _ _ Hw H) as W1. pose proof (wf_cur e Hw) as [sc [Hc [Hsa [Hsm Hem]]]].
  assert (Hn : sc_em sc <> f_mid e) by (intros X; apply Na; exists sc; auto).
  assert (Nb : (sc_em sc =? f_mid e)%nat = false) by (now apply Nat.eqb_neq).
  assert (Em : f_em e = []) by (rewrite Hem, Nb; now rewrite andb_false_r).
  assert (Qe : queue e = sc_q sc) by (unfold queue; now rewrite Hc). rewrite Qe in Hq.
  assert (B : forall e2 sc' es, Wf e2 -> cur e2 = Some sc' -> sc_em sc' = sc_em sc -> f_mid e2 = f_mid e -> incl (sc_q sc') (sc_q sc) -> f_log e2 = f_log e ++ es -> within (sc_q sc) es ->
     detached q e2 /\ exists es, f_log e2 = f_log e ++ es /\ within q es).
  { intros e2 sc' es V C1 C2 C3 C4 L Wn. split; [split; [exact V|split]|].
    - intros [s [X1 X2]]. rewrite C1 in X1. injection X1 as <-. congruence.
    - unfold queue. rewrite C1. intros op Hop. apply Hq, C4, Hop.
    - exists es. split; [exact L|]. intros en op A1 A2. apply Hq. eauto. }
  assert (Nil : within (sc_q sc) []) by (intros en op []).
  assert (Refl : incl (sc_q sc) (sc_q sc)) by (intros op; auto).
  assert (U : forall sc', nth_error (upd (f_scs e) (f_sc e) sc') (f_sc e) = Some sc') by (intros sc'; unfold cur in Hc; now rewrite (nth_upd _ _ _ _ Hc), Nat.eqb_refl).
  assert (R : forall mk rs err, rules_call E W os e mk rs = Val (e', err) -> detached q e' /\ exists es, f_log e' = f_log e ++ es /\ within q es).
  { intros mk rs err Hr. destruct (rules_call_spec _ _ _ _ _ _ _ _ Hw Hr) as [xs [sc0 [sc1 [log1 [_ [Hc0 [E1 [[S1 [S2 S3]] [_ D]]]]]]]]].
    rewrite Hc in Hc0. injection Hc0 as <-. rewrite Nb, andb_false_r, app_nil_r in D. cbv zeta in D.
    assert (C' : cur e' = Some sc1) by (rewrite E1; unfold cur; cbn; apply U). assert (M' : f_mid e' = f_mid e) by (rewrite E1; reflexivity).
    assert (L' : f_log e' = log1) by (rewrite E1; reflexivity). destruct (sc_autosave sc).
    - destruct D as [-> D]. apply Flush_within in D as [es [-> [D1 D2]]]. apply (B e' _ es W1 C' eq_refl M' D2 L' D1).
    - destruct D as [-> ->]. apply (B e' _ [] W1 C' eq_refl M'); [exact Refl|now rewrite app_nil_r|exact Nil]. }
  destruct c as [c|rs|rs| | | |a|op|i|m]; cbn [estep] in H.
  - apply obind_val in H as [[e1 x] [H1 H]]. injection H as <- <-.
    destruct (model_call_spec _ _ _ _ _ _ _ Hw H1) as [sc0 [sc1 [log1 [Hc0 [Hs [E1 D]]]]]]. rewrite Hc in Hc0. injection Hc0 as <-.
    destruct D as [[D _]|[_ [-> ->]]]; [congruence|]. apply (B e1 sc [] W1); auto; [rewrite E1; unfold cur; cbn; apply U|rewrite E1; reflexivity|rewrite E1; cbn; now rewrite app_nil_r].
  - apply obind_val in H as [[e1 err] [H1 H]]. injection H as <- <-. eauto.
  - apply obind_val in H as [[e1 err] [H1 H]]. injection H as <- <-. eauto.
  - change (nth_error (f_scs e) (f_sc e)) with (cur e) in H. rewrite Hc in H. destruct (Flush W sc (f_log e)) as [[sc1 log1] err] eqn:Ef.
    injection H as <- <-. destruct (Flush_set_up _ _ _ _ _ _ Ef) as [[S1 _] _]. apply Flush_within in Ef as [es [-> [D1 D2]]]. rewrite (put_nth _ _ _ _ Hc) in *.
    apply (B _ sc1 es W1); auto. unfold cur; cbn; apply U.
  - apply obind_val in H as [[e1 err] [H1 H]]. injection H as <- <-. unfold SavePolicy in H1. destruct (f_adapter e) as [| |id]; [discriminate| |]; cbn [ask] in H1; injection H1 as <- <-.
    + apply (B _ sc []); auto. cbn. now rewrite app_nil_r.
    + eapply (B _ sc); auto; [reflexivity|]. intros en op [<-|[]] [].
  - destruct (load_spec E W os e e' r Hw H) as [L1 [L2 [L3 [L4 [L5 L6]]]]]. assert (C' : cur e' = Some sc) by (unfold cur; rewrite L1, L3; exact Hc).
    destruct (f_adapter e) as [| |id]; [destruct L6| |].
    + destruct L6 as [_ [L6 _]]. apply (B e' sc []); auto. now rewrite app_nil_r.
    + destruct L6 as [xs [err [_ [L6 _]]]]. eapply (B e' sc); eauto. intros en op [<-|[]] [].
  - now destruct (N a).
  - injection H as <- <-. destruct op as [b|[|]]; cbn [SetOption] in *.
    + change (nth_error (f_scs e) (f_sc e)) with (cur e) in *. rewrite Hc in *. rewrite (put_nth _ _ _ _ Hc) in *.
      apply (B _ (set_autosave sc b) []); auto; [unfold cur; cbn; apply U|cbn; now rewrite app_nil_r].
    + rewrite (Enable_spec e sc Hc) in *. destruct (sc_listening sc); [apply (B _ sc []); auto; now rewrite app_nil_r|].
      apply (B _ (listen sc true) []); auto; [unfold cur; cbn; apply U|cbn; now rewrite app_nil_r].
    + rewrite (Disable_spec e sc Hc) in *. apply (B _ (listen sc false) []); auto; [unfold cur; cbn; apply U|cbn; now rewrite app_nil_r].
  - change (nth_error (f_scs e) (f_sc e)) with (cur e) in H. rewrite Hc in H. injection H as <- <-. rewrite (put_nth _ _ _ _ Hc) in *.
    apply (B _ (AddWait sc i) []); auto; [unfold cur; cbn; apply U|cbn; now rewrite app_nil_r].
  - injection H as <- <-. split; [split; [exact W1|split]|].
    + intros [s [X1 X2]]. change (cur e = Some s) in X1. rewrite Hc in X1. injection X1 as <-. cbn in X2. lia.
    + change (incl (queue e) q). rewrite Qe. exact Hq.
    + exists []. rewrite app_nil_r. split; [reflexivity|intros en op []].
Qed.
Lemma detached_exec E W q : forall h e e' rs, detached q e -> Forall (fun c => forall a, snd c <> ESetAdapter a) h -> eexec E W e h = Val (e', rs) ->
  detached q e' /\ exists es, f_log e' = f_log e ++ es /\ within q es /\ incl (queue e') q.
Proof.
  induction h as [|[os c] h IH]; intros e e' rs D F H; cbn [eexec] in H.
  - injection H as <- <-. split; [exact D|]. exists []. rewrite app_nil_r. split; [reflexivity|]. split; [intros en op []|apply D].
  - apply obind_val in H as [[e1 r1] [H1 H]]. apply obind_val in H as [[e2 rs2] [H2 H]]. injection H as <- <-. inversion F as [|? ? F1 F2]; subst. cbn [snd] in F1.
    destruct (detached_step E W q os e c e1 r1 D F1 H1) as [D1 [es [L Wn]]]. destruct (IH e1 e2 rs2 D1 F2 H2) as [D2 [es2 [L2 [W2 Q2]]]].
    split; [exact D2|]. exists (es ++ es2). rewrite L2, L, <- app_assoc. split; [reflexivity|]. split; [now apply within_app|exact Q2].
Qed.

(** *** NewEnforcer *)
Lemma put_frame e i sc : f_adapter (put_sc e i sc) = f_adapter e /\ f_model (put_sc e i sc) = f_model e /\ f_log (put_sc e i sc) = f_log e.
Proof. unfold put_sc. destruct (nth_error (f_scs e) i); auto. Qed.
Lemma option_frame e op : f_adapter (SetOption e op) = f_adapter e /\ f_model (SetOption e op) = f_model e /\ f_log (SetOption e op) = f_log e.
Proof.
  destruct op as [b|[|]]; cbn [SetOption].
  - destruct (nth_error (f_scs e) (f_sc e)); [apply put_frame|auto].
  - unfold Enable. destruct (nth_error (f_scs e) (f_sc e)) as [sc|]; [|auto]. destruct (sc_listening sc); [auto|]. cbv zeta. destruct (Nat.eqb _ _); apply put_frame.
  - unfold Disable. destruct (nth_error (f_scs e) (f_sc e)) as [sc|]; [|auto]. cbv zeta. destruct (Nat.eqb _ _); apply put_frame.
Qed.
Lemma option_queue e op : Wf e -> queue (SetOption e op) = queue e.
Proof.
  intros Hw. pose proof (wf_cur e Hw) as [sc [Hc _]]. unfold queue. rewrite Hc. destruct op as [b|[|]]; cbn [SetOption].
  - change (nth_error (f_scs e) (f_sc e)) with (cur e). rewrite Hc, (put_nth _ _ _ _ Hc), (cur_put e _ _ Hc). reflexivity.
  - rewrite (Enable_spec e sc Hc). destruct (sc_listening sc); [now rewrite Hc|]. unfold cur. cbn. unfold cur in Hc. rewrite (nth_upd _ _ _ _ Hc), Nat.eqb_refl. reflexivity.
  - rewrite (Disable_spec e sc Hc). unfold cur. cbn. unfold cur in Hc. rewrite (nth_upd _ _ _ _ Hc), Nat.eqb_refl. reflexivity.
Qed.
Lemma options_adapter opts : forall e a, f_adapter (fold_left SetOption opts (SetAdapter e a)) = a.
Proof.
  intros e a. assert (X : forall opts e, f_adapter (fold_left SetOption opts e) = f_adapter e).
  { clear. induction opts as [|op opts IH]; intros e; cbn; [reflexivity|]. rewrite IH. apply option_frame. }
  rewrite X. reflexivity.
Qed.
Lemma options_frame opts : forall e, Wf e -> f_model (fold_left SetOption opts e) = f_model e /\ f_log (fold_left SetOption opts e) = f_log e /\
  queue (fold_left SetOption opts e) = queue e.
Proof.
  induction opts as [|op opts IH]; intros e Hw; cbn [fold_left]; [auto|]. destruct (IH (SetOption e op) (wf_option e op Hw)) as [I1 [I2 I3]].
  rewrite I1, I2, I3. destruct (option_frame e op) as [_ [O1 O2]]. rewrite O1, O2, option_queue by exact Hw. auto.
Qed.
Lemma fresh_loop E W rs : forall os e e' err, f_em e = [] -> rules_loop E W os e CAdd rs = Val (e', err) ->
  exists xs, until_error E (f_model e) (rule_calls os CAdd rs) (f_model e') xs err /\ f_em e' = [] /\ f_scs e' = f_scs e /\ f_adapter e' = f_adapter e /\ f_log e' = f_log e.
Proof.
  induction rs as [|r rs IH]; intros os e e' err Em H; cbn [rules_loop] in H.
  - injection H as <- <-. exists []. split; [|auto]. exists 0. split; [reflexivity|]. split; [reflexivity|constructor].
  - unfold model_call in H. destruct (mstep E (os 0) (f_model e) (CAdd r)) as [[m x]|] eqn:Es; [|discriminate]. cbn [obind] in H.
    rewrite deliver_none in H by exact Em. cbn [obind] in H. destruct (x_err x) as [er|] eqn:Ex.
    + injection H as <- <-. exists [x]. split; [|auto]. exists 1. cbn [rule_calls firstn mexec]. rewrite Es. cbn [obind]. split; [reflexivity|]. exists [], x. split; [reflexivity|]. split; [constructor|exact Ex].
    + destruct (IH _ (set_model e m) e' err Em H) as [xs [[n [U1 U2]] F]]. exists (x :: xs). split; [|exact F]. exists (S n). cbn [rule_calls firstn mexec]. rewrite Es. cbn [obind].
      cbn [f_model set_model] in U1. rewrite U1. cbn [obind]. split; [reflexivity|]. destruct err as [er|].
      * destruct U2 as [xs0 [xl [-> [U2 U3]]]]. exists (x :: xs0), xl. split; [reflexivity|]. split; [constructor; auto|exact U3].
      * destruct U2 as [U2 U3]. split; [now rewrite U2|constructor; auto].
Qed.
