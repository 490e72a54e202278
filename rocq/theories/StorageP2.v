(** Histories of an enforcer: conservation of changes, and the invariant behind
    "storage follows the model". *)
From Verif Require Import GoBase GoBaseP PolicyM PolicySpec MatcherM RbacM DomainM ModelM ModelSpec ModelP4 ModelP5 StorageM StorageSpec StorageP.

Lemma announced_ops xs : announced xs = map op_of (flat_map x_events xs).
Proof. reflexivity. Qed.
Lemma announced_app a b : announced (a ++ b) = announced a ++ announced b.
Proof. unfold announced. now rewrite flat_map_app, map_app. Qed.

(** *** Flush *)
Lemma flush_noop W : forall q log, flush W ANoop log q = (log, [], None).
Proof. induction q as [|[[|] r] q IH]; intros log; cbn; auto. Qed.
Lemma Flush_flushed W sc log sc' log' : Flush W sc log = (sc', log', None) ->
  sc' = with_q sc [] 0 /\ exists es, log' = log ++ es /\ flushed W (sc_adapter sc) (sc_q sc) es.
Proof.
  unfold Flush. destruct (sc_adapter sc) as [| |id] eqn:Ea; cbn [kind_of].
  - discriminate.
  - rewrite flush_noop. intros H. injection H as <- <-. split; [reflexivity|]. exists []. rewrite app_nil_r. split; reflexivity.
  - unfold flushed. destruct (w_kind W id).
    + destruct (batchFlush W (AExt id) log (sc_q sc)) as [[l q] err] eqn:Eb. intros H. injection H as <- <- ->.
      apply batchFlush_spec in Eb as [gs [R [-> ->]]]. split; [reflexivity|]. eexists. split; [reflexivity|]. eauto.
    + destruct (flush W (AExt id) log (sc_q sc)) as [[l q] err] eqn:Eb. intros H. injection H as <- <- ->.
      apply flush_spec in Eb as [done [_ [-> [-> ->]]]]. split; [reflexivity|]. eexists. split; reflexivity.
    + discriminate.
Qed.

(** *** A controller without autosave only queues *)
Lemma feed_quiet W ops : forall sc log, sc_autosave sc = false -> feed W sc log ops = Val (with_q sc (sc_q sc ++ ops) (sc_wait sc), log).
Proof.
  induction ops as [|op ops IH]; intros sc log H; cbn [feed].
  - rewrite app_nil_r. destruct sc; reflexivity.
  - unfold addOp. cbn [sc_autosave with_q]. rewrite H. cbn [obind]. rewrite IH by exact H. cbn [sc_q with_q sc_wait]. now rewrite <- app_assoc.
Qed.

(** *** Loops of rule calls, whatever they do to the controller *)
Lemma loop_spec E W mk rs : forall os e e' err, Wf e -> rules_loop E W os e mk rs = Val (e', err) ->
  exists xs sc sc' log', until_error E (f_model e) (rule_calls os mk rs) (f_model e') xs err /\
    cur e = Some sc /\
    e' = mkEnf (f_model e') (f_mid e) (f_em e) (upd (f_scs e) (f_sc e) sc') (f_sc e) (f_adapter e) log' /\
    ((f_em e = [f_sc e] /\ feed W sc (f_log e) (announced xs) = Val (sc', log')) \/ (f_em e = [] /\ sc' = sc /\ log' = f_log e)).
Proof.
  induction rs as [|r rs IH]; intros os e e' err Hw H; cbn [rules_loop] in H.
  - injection H as <- <-. pose proof (wf_cur e Hw) as [sc [Hc [_ [_ Hem]]]]. exists [], sc, sc, (f_log e).
    split; [exists 0; cbn; repeat split; constructor|]. split; [exact Hc|].
    split; [unfold cur in Hc; rewrite (upd_same _ _ _ Hc); destruct e; reflexivity|].
    destruct (_ && _) in Hem; [left|right]; auto.
  - apply obind_val in H as [[e1 x] [H1 H]]. pose proof (wf_model_call _ _ _ _ _ _ _ Hw H1) as W1.
    destruct (model_call_spec _ _ _ _ _ _ _ Hw H1) as [sc [sc1 [log1 [Hc [Hs [E1 D]]]]]].
    assert (Hc1 : cur e1 = Some sc1).
    { rewrite E1. unfold cur. cbn. unfold cur in Hc. now rewrite (nth_upd _ _ _ _ Hc), Nat.eqb_refl. }
    destruct (x_err x) as [err0|] eqn:Ex.
    + injection H as <- <-. exists [x], sc, sc1, log1. split; [|split; [exact Hc|split; [exact E1|]]].
      * exists 1. cbn [rule_calls firstn mexec]. rewrite Hs. cbn [obind]. split; [reflexivity|]. exists [], x. repeat split; [constructor|exact Ex].
      * destruct D as [[D1 D2]|D]; [left|right; exact D]. split; [exact D1|]. unfold announced. cbn [flat_map]. rewrite app_nil_r. exact D2.
    + apply IH in H as [xs [sc2 [sc3 [log3 [U [Hc2 [E2 D2]]]]]]]; [|exact W1]. rewrite Hc1 in Hc2. injection Hc2 as <-.
      exists (x :: xs), sc, sc3, log3. split; [|split; [exact Hc|split]].
      * destruct U as [n [U1 U2]]. exists (S n). cbn [rule_calls firstn mexec]. rewrite Hs. cbn [obind]. rewrite U1. cbn [obind]. split; [reflexivity|].
        destruct err as [y|].
        -- destruct U2 as [xs0 [xl [-> [U2 U3]]]]. exists (x :: xs0), xl. repeat split; [constructor; auto|exact U3].
        -- destruct U2 as [-> U2]. split; [reflexivity|constructor; auto].
      * etransitivity; [exact E2|]. rewrite E1. cbn. unfold cur in Hc. rewrite (upd_upd _ _ _ _ _ Hc). reflexivity.
      * rewrite E1 in D2. cbn [f_em f_sc f_log] in D2. change (announced (x :: xs)) with (announced ([x] ++ xs)). rewrite announced_app.
        destruct D as [[D1 D]|[D1 [-> ->]]]; destruct D2 as [[D3 D4]|[D3 [-> ->]]]; try (exfalso; congruence).
        -- left. split; [exact D1|]. unfold announced at 1. cbn [flat_map]. rewrite app_nil_r.
           revert D D4. generalize (f_log e) (announced xs). clear. intros l ops. change (map _ (x_events x)) with (map op_of (x_events x)).
           revert sc l. induction (map op_of (x_events x)) as [|op ops' IH]; intros sc l D D4; cbn [feed app] in *; [injection D as <- <-; exact D4|].
           apply obind_val in D as [[sc0 l0] [D5 D]]. rewrite D5. cbn [obind]. auto.
        -- right. auto.
Qed.

(** *** Rule calls of an enforcer *)
Lemma rules_call_spec E W os e mk rs e' err : Wf e -> rules_call E W os e mk rs = Val (e', err) ->
  exists xs sc sc' log', until_error E (f_model e) (rule_calls os mk rs) (f_model e') xs err /\ cur e = Some sc /\
    e' = mkEnf (f_model e') (f_mid e) (f_em e) (upd (f_scs e) (f_sc e) sc') (f_sc e) (f_adapter e) log' /\
    same_set_up sc sc' /\ sc_autosave sc' = sc_autosave sc /\
    let q := sc_q sc ++ (if sc_listening sc && Nat.eqb (sc_em sc) (f_mid e) then announced xs else []) in
    if sc_autosave sc then sc' = with_q sc [] 0 /\ Flush W (with_q sc q (sc_wait sc)) (f_log e) = (with_q sc [] 0, log', None)
    else sc' = with_q sc q (sc_wait sc) /\ log' = f_log e.
Proof.
  intros Hw Hr. pose proof (wf_cur e Hw) as [sc [Hc [_ [_ Hem]]]]. unfold rules_call in Hr. change (nth_error (f_scs e) (f_sc e)) with (cur e) in Hr. rewrite Hc in Hr.
  destruct (sc_autosave sc) eqn:Eauto.
  - apply obind_val in Hr as [[e1 err1] [H1 Hr]]. set (e0 := put_sc e (f_sc e) (set_autosave sc false)) in *.
    assert (W0 : Wf e0) by (eapply wf_put; eauto; repeat split).
    assert (E0 : e0 = set_scs e (upd (f_scs e) (f_sc e) (set_autosave sc false))) by (apply (put_nth _ _ _ _ Hc)).
    assert (C0 : cur e0 = Some (set_autosave sc false)) by (rewrite E0; exact (cur_put e _ _ Hc)).
    destruct (loop_spec _ _ _ _ _ _ _ _ W0 H1) as [xs [sc0 [sc1 [log1 [U [Hc0 [E1 D]]]]]]]. rewrite C0 in Hc0. injection Hc0 as <-.
    assert (M0 : f_model e0 = f_model e /\ f_em e0 = f_em e /\ f_sc e0 = f_sc e /\ f_log e0 = f_log e /\ f_mid e0 = f_mid e /\ f_adapter e0 = f_adapter e)
      by (rewrite E0; repeat split). destruct M0 as [M1 [M2 [M3 [M4 [M5 M6]]]]]. rewrite M1 in U. rewrite M2, M3, M4 in D.
    set (q := sc_q sc ++ (if sc_listening sc && Nat.eqb (sc_em sc) (f_mid e) then announced xs else [])).
    assert (S1 : sc1 = with_q (set_autosave sc false) q (sc_wait sc) /\ log1 = f_log e).
    { destruct D as [[D1 D]|[D1 [-> ->]]].
      - rewrite feed_quiet in D by reflexivity. injection D as <- <-. unfold q. rewrite D1 in Hem. destruct (_ && _); [split; reflexivity|discriminate].
      - unfold q. rewrite D1 in Hem. destruct (_ && _); [discriminate|]. rewrite app_nil_r. split; reflexivity. }
    destruct S1 as [-> ->]. rewrite M2, M3, M5, M6 in E1.
    assert (C1 : cur e1 = Some (with_q (set_autosave sc false) q (sc_wait sc))).
    { rewrite E1, E0. unfold cur. cbn. unfold cur in Hc. rewrite (upd_upd _ _ _ _ _ Hc), (nth_upd _ _ _ _ Hc), Nat.eqb_refl. reflexivity. }
    change (nth_error (f_scs e1) (f_sc e1)) with (cur e1) in Hr. rewrite C1 in Hr.
    assert (L1 : f_log e1 = f_log e) by (rewrite E1; reflexivity). rewrite L1 in Hr.
    assert (SA : set_autosave (with_q (set_autosave sc false) q (sc_wait sc)) true = with_q sc q (sc_wait sc)) by (unfold set_autosave, with_q; cbn; now rewrite Eauto).
    rewrite SA in Hr. destruct (Flush W (with_q sc q (sc_wait sc)) (f_log e)) as [[sc2 log2] [z|]] eqn:Ef; [discriminate|]. injection Hr as <- <-.
    destruct (Flush_flushed _ _ _ _ _ Ef) as [E2 _]. cbn in E2. change (with_q (with_q sc q (sc_wait sc)) [] 0) with (with_q sc [] 0) in E2. subst sc2.
    exists xs, sc, (with_q sc [] 0), log2.
    assert (ME : f_model (set_log (put_sc e1 (f_sc e1) (with_q sc [] 0)) log2) = f_model e1).
    { rewrite (put_nth _ _ _ _ C1). reflexivity. }
    split; [rewrite ME; exact U|]. split; [exact Hc|]. split.
    + rewrite ME. rewrite (put_nth _ _ _ _ C1). rewrite E1, E0. unfold set_log, set_scs. cbn. unfold cur in Hc. rewrite !(upd_upd _ _ _ _ _ Hc). reflexivity.
    + split; [repeat split|]. split; [reflexivity|]. rewrite Eauto. split; [reflexivity|exact Ef].
  - destruct (loop_spec _ _ _ _ _ _ _ _ Hw Hr) as [xs [sc0 [sc1 [log1 [U [Hc0 [E1 D]]]]]]]. rewrite Hc in Hc0. injection Hc0 as <-.
    exists xs, sc, sc1, log1. split; [exact U|]. split; [exact Hc|]. split; [exact E1|].
    assert (S1 : sc1 = with_q sc (sc_q sc ++ (if sc_listening sc && Nat.eqb (sc_em sc) (f_mid e) then announced xs else [])) (sc_wait sc) /\ log1 = f_log e).
    { destruct D as [[D1 D]|[D1 [-> ->]]].
      - rewrite feed_quiet in D by exact Eauto. injection D as <- <-. rewrite D1 in Hem. destruct (_ && _); [split; reflexivity|discriminate].
      - rewrite D1 in Hem. destruct (_ && _); [discriminate|]. rewrite app_nil_r. split; [destruct sc; reflexivity|reflexivity]. }
    destruct S1 as [-> ->]. split; [repeat split|]. split; [reflexivity|]. rewrite Eauto. split; reflexivity.
Qed.

(** *** Sets *)
Lemma apply_events evs : forall s, fold_left event_step evs s = fold_left apply_op (map op_of evs) s.
Proof. induction evs as [|[r|r] evs IH]; intros s; cbn; auto. Qed.

Definition touches (q : list operation) (rl : rule) : Prop := In rl (map snd q).
Lemma untouched q : forall s rl, ~ touches q rl -> fold_left apply_op q s rl = s rl.
Proof.
  induction q as [|[o r] q IH]; intros s rl H; cbn [fold_left]; [reflexivity|]. rewrite IH by (intros C; apply H; now right).
  destruct o; cbn; unfold set_add, set_remove; destruct (rule_eqb_spec rl r) as [->|N]; try reflexivity; exfalso; apply H; now left.
Qed.
Lemma touched q : forall s s' rl, touches q rl -> fold_left apply_op q s rl = fold_left apply_op q s' rl.
Proof.
  induction q as [|[o r] q IH]; intros s s' rl H; cbn [fold_left]; [destruct H|].
  destruct (in_dec rule_eq_dec rl (map snd q)) as [T|T]; [now apply IH|]. rewrite !untouched by exact T.
  destruct H as [H|H]; [|contradiction]. cbn in H. subst r. destruct o; cbn; unfold set_add, set_remove; destruct (rule_eqb_spec rl rl) as [_|N]; [reflexivity|congruence|reflexivity|congruence].
Qed.
(** Applying a queue twice: what the queue says wins. *)
Lemma reapply q s m rl : (forall r, fold_left apply_op q s r = true <-> m r = true) -> (fold_left apply_op q m rl = true <-> m rl = true).
Proof.
  intros H. destruct (in_dec rule_eq_dec rl (map snd q)) as [T|T].
  - rewrite (touched q m s rl T). apply H.
  - now rewrite untouched.
Qed.

Definition proper (en : entry) : Prop := en_err en = None /\ changes (en_call en) <> [].
Lemma stored_accepted id es : all_of id es -> Forall proper es -> forall s, stored id s es = fold_left apply_op (accepted id es) s.
Proof.
  induction es as [|en es IH]; intros A F s; [reflexivity|]. inversion A as [|? ? A1 A2]; subst. inversion F as [|? ? [F1 F2] F3]; subst.
  unfold stored. cbn [fold_left]. fold (stored (en_id en) (store_step (en_id en) s en) es). rewrite IH by assumption.
  unfold accepted. cbn [flat_map]. rewrite fold_left_app. fold (accepted (en_id en) es). f_equal.
  unfold store_step. rewrite Nat.eqb_refl, F1. destruct (en_call en); try reflexivity. cbn in F2. congruence.
Qed.
Lemma stored_app id s a b : stored id s (a ++ b) = stored id (stored id s a) b.
Proof. apply fold_left_app. Qed.
