(** Lemmas: tidy processes save with an empty queue and end with an empty queue. *)
From Verif Require Import GoBase GoBaseP DefsM PolicyM PolicySpec PolicyP MatcherM RbacM DomainM ModelM ModelSpec ModelP ModelP4 ModelP5
  StorageM StorageSpec StorageP StorageP2 StorageP3 StorageP4 PersistSpec PersistP StoreSpec StoreP EnforcerM RestartSpec MultiSpec RestartFileSpec StoreRestartSpec CrashSpec DelayedSpec Prop_Model Prop_Storage.
Import ListNotations.
Local Open Scope list_scope.

Lemma feed_keeps W id : accepts W id -> forall ops sc log sc' log', sc_adapter sc = AExt id -> feed W sc log ops = Val (sc', log') ->
  sc_autosave sc' = sc_autosave sc /\ ((sc_wait sc <= 0)%Z -> (sc_wait sc' <= 0)%Z).
Proof.
  intros A. induction ops as [|op ops IH]; intros sc log sc' log' Ha H; cbn [feed] in H; [injection H as <- _; auto|].
  apply obind_val in H as [[sc1 log1] [H1 H]]. unfold addOp in H1. cbn [sc_autosave with_q sc_wait sc_q] in H1.
  assert (X : sc_adapter sc1 = AExt id /\ sc_autosave sc1 = sc_autosave sc /\ ((sc_wait sc <= 0)%Z -> (sc_wait sc1 <= 0)%Z)).
  { destruct (sc_autosave sc) eqn:Es; [|injection H1 as <- _; cbn; auto].
    destruct (sc_wait sc - 1 <=? 0)%Z; [|injection H1 as <- _; cbn; split; [exact Ha|]; split; [exact Es|lia]].
    set (sc2 := with_q (with_q sc (sc_q sc ++ [op]) (sc_wait sc)) (sc_q sc ++ [op]) (sc_wait sc - 1)) in *.
    destruct (Flush_ok W id sc2 log A Ha) as [es [F _]]. rewrite F in H1. injection H1 as <- _. cbn. split; [exact Ha|]. split; [exact Es|lia]. }
  destruct X as (X1 & X2 & X3). destruct (IH _ _ _ _ X1 H) as [Y1 Y2]. split; [congruence|auto].
Qed.

Definition changes_rules (c : ecall) : Prop := match c with EModel _ | EAddRules _ | ERemoveRules _ => True | _ => False end.
Lemma change_step E W id os e c e' r : accepts W id -> storing id e -> changes_rules c -> estep E W os e c = Val (e', r) ->
  autosave e' = autosave e /\ ((waiting e <= 0)%Z -> (waiting e' <= 0)%Z).
Proof.
  intros A St K H. pose proof St as [Hw [Ha [He Hm]]]. pose proof (wf_cur e Hw) as [sc [Hc [Hsa [Hsm Hem]]]].
  assert (B : forall m em log ad mid sc', sc_autosave sc' = sc_autosave sc -> ((sc_wait sc <= 0)%Z -> (sc_wait sc' <= 0)%Z) ->
     let e' := mkEnf m mid em (upd (f_scs e) (f_sc e) sc') (f_sc e) ad log in autosave e' = autosave e /\ ((waiting e <= 0)%Z -> (waiting e' <= 0)%Z)).
  { intros m em log ad mid sc' X1 X2. cbv zeta. unfold autosave, waiting, cur. cbn [f_scs f_sc]. unfold cur in Hc. rewrite (nth_upd _ _ _ _ Hc), Nat.eqb_refl, Hc. auto. }
  assert (R : forall mk rs err, rules_call E W os e mk rs = Val (e', err) -> autosave e' = autosave e /\ ((waiting e <= 0)%Z -> (waiting e' <= 0)%Z)).
  { intros mk rs err Hr. destruct (rules_call_spec _ _ _ _ _ _ _ _ Hw Hr) as [ys [sc0 [sc1 [log1 [_ [Hc0 [E1 [S1 [S2 D]]]]]]]]].
    rewrite Hc in Hc0. injection Hc0 as <-. cbv zeta in D. rewrite E1. apply B; [exact S2|]. destruct (sc_autosave sc); destruct D as [-> _]; cbn; auto; lia. }
  destruct c as [c|rs|rs| | | |a|op|i|m]; cbn [estep changes_rules] in H, K; try destruct K.
  - apply obind_val in H as [[e1 x] [H1 H]]. injection H as <- <-.
    destruct (model_call_spec _ _ _ _ _ _ _ Hw H1) as [sc0 [sc1 [log1 [Hc0 [_ [E1 D]]]]]]. rewrite Hc in Hc0. injection Hc0 as <-.
    rewrite E1. destruct D as [[_ D]|[_ [-> ->]]]; [|apply B; auto].
    destruct (feed_keeps W id A _ _ _ _ _ (eq_trans Hsa Ha) D) as [X1 X2]. apply B; auto.
  - apply obind_val in H as [[e1 err] [H1 H]]. injection H as <- <-. eauto.
  - apply obind_val in H as [[e1 err] [H1 H]]. injection H as <- <-. eauto.
Qed.

Lemma flush_step E W id os e e' r : accepts W id -> storing id e -> estep E W os e EFlush = Val (e', r) ->
  autosave e' = autosave e /\ queue e' = [] /\ (waiting e' <= 0)%Z.
Proof.
  intros A St H. pose proof St as [Hw [Ha [He Hm]]]. pose proof (wf_cur e Hw) as [sc [Hc [Hsa _]]]. cbn [estep] in H.
  change (nth_error (f_scs e) (f_sc e)) with (cur e) in H. rewrite Hc in H.
  destruct (Flush_ok W id sc (f_log e) A) as [es2 [F1 _]]; [congruence|]. rewrite F1 in H. injection H as <- <-. rewrite (put_nth _ _ _ _ Hc).
  unfold autosave, queue, waiting, cur. cbn [f_scs f_sc set_scs set_log]. unfold cur in Hc. rewrite (nth_upd _ _ _ _ Hc), Nat.eqb_refl, Hc. cbn. split; [reflexivity|]. split; [reflexivity|lia].
Qed.
Lemma option_step E W os e b e' r : Wf e -> estep E W os e (EOption (OptAutosave b)) = Val (e', r) ->
  autosave e' = b /\ queue e' = queue e /\ waiting e' = waiting e.
Proof.
  intros Hw H. pose proof (wf_cur e Hw) as [sc [Hc _]]. cbn [estep SetOption] in H. change (nth_error (f_scs e) (f_sc e)) with (cur e) in H. rewrite Hc in H. injection H as <- _.
  rewrite (put_nth _ _ _ _ Hc). unfold autosave, queue, waiting, cur. cbn [f_scs f_sc set_scs]. unfold cur in Hc. rewrite (nth_upd _ _ _ _ Hc), Nat.eqb_refl, Hc. auto.
Qed.
Lemma wait_step E W os e i e' r : Wf e -> estep E W os e (EAddWait i) = Val (e', r) -> autosave e' = autosave e /\ queue e' = queue e.
Proof.
  intros Hw H. pose proof (wf_cur e Hw) as [sc [Hc _]]. cbn [estep] in H. change (nth_error (f_scs e) (f_sc e)) with (cur e) in H. rewrite Hc in H. injection H as <- _.
  rewrite (put_nth _ _ _ _ Hc). unfold autosave, queue, cur. cbn [f_scs f_sc set_scs]. unfold cur in Hc. rewrite (nth_upd _ _ _ _ Hc), Nat.eqb_refl, Hc. auto.
Qed.
Lemma save_step E W id os e e' r : accepts W id -> storing id e -> estep E W os e ESave = Val (e', r) ->
  autosave e' = autosave e /\ queue e' = queue e /\ waiting e' = waiting e.
Proof.
  intros A [_ [Ha _]] H. cbn [estep] in H. apply obind_val in H as [[e1 err] [H1 H]]. injection H as <- <-. unfold SavePolicy in H1. rewrite Ha in H1. cbn [ask] in H1. injection H1 as <- <-. auto.
Qed.

(** What the flags of [tidy] mean. *)
Definition flags (auto waits clean : bool) (e : enforcer) : Prop :=
  autosave e = auto /\ (waits = false -> (waiting e <= 0)%Z) /\ (clean = true -> queue e = []).
Lemma tidy_runs E W id d : accepts W id -> forall h e auto waits clean, storing id e -> Forall (fun x => any_ecall d (snd x)) h -> flags auto waits clean e -> tidy auto waits clean h ->
  saves_settled E W e h /\ forall e' rs, eexec E W e h = Val (e', rs) -> queue e' = [].
Proof.
  intros A. induction h as [|[os c] h IH]; intros e auto waits clean St F (F1 & F2 & F3) T.
  - split; [exact Logic.I|]. intros e' rs H. injection H as <- _. exact (F3 T).
  - apply Forall_cons_iff in F as [Fc F]. cbn [snd] in Fc.
    assert (K : keeps_storage c) by (destruct c as [| | | | | | |[|]| |]; cbn in Fc; first [contradiction Fc|exact Logic.I]).
    assert (Z : (c = ESave -> queue e = []) /\ forall e1 r, estep E W os e c = Val (e1, r) -> storing id e1 /\ exists a' w' c', flags a' w' c' e1 /\ tidy a' w' c' h).
    { split.
      - intros ->. cbn [tidy] in T. apply F3, T.
      - intros e1 r S. destruct (conserve_step E W id os e c e1 r A St K S) as [hm [es [xs [_ [_ [St1 _]]]]]]. split; [exact St1|].
        assert (Ch : changes_rules c -> flags auto waits (clean && auto && negb waits) e1).
        { intros Hc. destruct (change_step E W id os e c e1 r A St Hc S) as [X1 X2]. split; [congruence|]. split; [auto|].
          intros X. apply andb_true_iff in X as [X Xw]. apply andb_true_iff in X as [Xc Xa]. apply negb_true_iff in Xw. subst auto.
          assert (Ka : keeps_autosave c) by (split; [exact K|]; destruct c; try destruct Hc; exact Logic.I).
          apply (autosave_step E W id os e c e1 r A St Ka S); auto. }
        destruct c as [c|rs|rs| | | |a|[b|b]|i|m]; cbn [tidy any_ecall own_ecall file_ecall_by] in T, Fc; try contradiction.
        + eauto 8 using (Ch Logic.I). 
        + eauto 8 using (Ch Logic.I).
        + eauto 8 using (Ch Logic.I).
        + destruct (flush_step E W id os e e1 r A St S) as (X1 & X2 & X3). exists auto, false, true. split; [|exact T]. split; [congruence|auto].
        + destruct T as [T1 T2]. destruct (save_step E W id os e e1 r A St S) as (X1 & X2 & X3). exists auto, waits, clean. split; [|exact T2]. split; [congruence|]. rewrite X2, X3. auto.
        + destruct (option_step E W os e b e1 r (proj1 St) S) as (X1 & X2 & X3). exists b, waits, clean. split; [|exact T]. split; [exact X1|]. rewrite X2, X3. auto.
        + destruct (wait_step E W os e i e1 r (proj1 St) S) as (X1 & X2). exists auto, true, clean. split; [|exact T]. split; [congruence|]. rewrite X2. split; [discriminate|auto]. }
    destruct Z as [Z1 Z2]. split.
    + cbn [saves_settled]. split; [exact Z1|]. intros e1 r S. destruct (Z2 e1 r S) as (St1 & a' & w' & c' & Fl & T1). exact (proj1 (IH e1 a' w' c' St1 F Fl T1)).
    + intros e' rs H. cbn [eexec] in H. apply obind_val in H as [[e1 r1] [S H]]. apply obind_val in H as [[e2 rs2] [H2 H]]. injection H as <- <-.
      destruct (Z2 e1 r1 S) as (St1 & a' & w' & c' & Fl & T1). exact (proj2 (IH e1 a' w' c' St1 F Fl T1) e2 rs2 H2).
Qed.
