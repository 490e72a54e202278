(** Lemmas: the changes a model announces are effective, and an adapter that takes
    effective changes takes all that the controller asks. *)
From Verif Require Import GoBase GoBaseP PolicyM PolicySpec PolicyP MatcherM RbacM DomainM ModelM ModelSpec ModelP ModelP4 ModelP5
  StorageM StorageSpec StorageP StorageP2 StorageP3 StorageP4 PersistSpec PersistP StoreSpec Prop_Model Prop_Storage.
Import ListNotations.

Lemma effective_ext q : forall s s' : rset, (forall r, s r = true <-> s' r = true) -> effective s q -> effective s' q.
Proof.
  induction q as [|[[|] x] q IH]; intros s s' H; cbn [effective]; [auto| |]; intros [A B]; (split; [|revert B; apply IH]).
  - apply not_true_iff_false. rewrite <- H. now rewrite A.
  - intros r. unfold set_add. rewrite !orb_true_iff, H. reflexivity.
  - now apply H.
  - intros r. unfold set_remove. rewrite !andb_true_iff, H. reflexivity.
Qed.
Lemma effective_app a : forall b s, effective s (a ++ b) <-> effective s a /\ effective (fold_left apply_op a s) b.
Proof.
  induction a as [|[[|] x] a IH]; intros b s; cbn [app effective fold_left apply_op]; [tauto| |]; rewrite IH; tauto.
Qed.

(** One call on a model: at most one event, and it is a change. *)
Lemma announced_step E h o m rs c m' x s : good_m h -> good_orders o -> tame h -> plain_m h c -> mexec E (NewModel E) h = Val (m, rs) -> mstep E o m c = Val (m', x) ->
  (forall rl, s rl = true <-> present h rl) -> effective s (announced [x]).
Proof.
  intros G Ho T Pc H S Hs. rewrite announced_ops. cbn [flat_map]. rewrite app_nil_r.
  destruct (call_cases c) as [[r ->]|[[r ->]|Hn]].
  - destruct Pc as [Tr Hl]. destruct (in_section h r) as [b|] eqn:Eb.
    + destruct (C01_model_add E h o m rs r m' x G Ho T Tr H ltac:(congruence) S o Ho) as (_ & A & -> & _). destruct (x_bool x); [|exact Logic.I].
      cbn. split; [|exact Logic.I]. apply not_true_iff_false. rewrite Hs, <- (model_rules_present E h o m rs G Ho T H), <- Hl. now apply A.
    + cbn [mstep] in S. apply obind_val in S as [[[[m1 b1] e] es] [Ea S]]. injection S as <- <-. cbn [x_events].
      destruct r as [|k r]; [discriminate Ea|]. destruct (String.eqb_spec k "") as [->|Hk]; [discriminate Ea|].
      destruct (unknown_section E h o m rs k r G H Hk Eb) as [A _]. rewrite A in Ea. injection Ea as _ _ _ <-. exact Logic.I.
  - destruct Pc as [Tr Hl]. destruct (in_section h r) as [b|] eqn:Eb.
    + destruct (C01_model_remove E h o m rs r m' x G Ho T Tr H ltac:(congruence) S o Ho) as (_ & A & -> & _). destruct (x_bool x); [|exact Logic.I].
      cbn. split; [|exact Logic.I]. rewrite Hs, <- (model_rules_present E h o m rs G Ho T H), <- Hl. now apply A.
    + cbn [mstep] in S. apply obind_val in S as [[[[m1 b1] e] es] [Ea S]]. injection S as <- <-. cbn [x_events].
      destruct r as [|k r]; [discriminate Ea|]. destruct (String.eqb_spec k "") as [->|Hk]; [discriminate Ea|].
      destruct (unknown_section E h o m rs k r G H Hk Eb) as [_ A]. rewrite A in Ea. injection Ea as _ _ _ <-. exact Logic.I.
  - rewrite (quiet_events E o m c m' x (plain_m_rule _ _ Pc) Hn S). exact Logic.I.
Qed.
Lemma announced_effective E hm : forall h m rs m' xs s, good_m h -> good_m hm -> tame h -> Forall (fun c => plain_m h (snd c)) hm -> mexec E (NewModel E) h = Val (m, rs) ->
  mexec E m hm = Val (m', xs) -> (forall rl, s rl = true <-> present h rl) -> effective s (announced xs).
Proof.
  induction hm as [|[o c] hm IH]; intros h m rs m' xs s G Gm T P H X Hs; cbn [mexec] in X; [injection X as _ <-; exact Logic.I|].
  apply obind_val in X as [[m1 x] [X1 X]]. apply obind_val in X as [[m2 ys] [X2 X]]. injection X as <- <-.
  inversion Gm as [|? ? Go Gm']; subst. inversion P as [|? ? Pc P']; subst. cbn [fst snd] in *.
  change (x :: ys) with ([x] ++ ys). rewrite announced_app, effective_app. split; [exact (announced_step E h o m rs c m1 x s G Go T Pc H X1 Hs)|].
  assert (M1 : mexec E m [(o, c)] = Val (m1, [x])) by (cbn [mexec]; now rewrite X1).
  apply (IH (h ++ [(o, c)]) m1 (rs ++ [x]) m2 ys (fold_left apply_op (announced [x]) s)); [| | | | | |].
  2: exact Gm'. 5: exact X2.
  - apply Forall_app. split; [exact G|]. constructor; [exact Go|constructor].
  - apply Forall_app. split; [exact T|]. constructor; [eapply plain_m_tame; exact Pc|constructor].
  - eapply Forall_impl; [|exact P']. intros [o' c'] Q. cbn [snd] in *. apply (plain_m_same h); [|exact Q]. intros rl. apply as_listed_same. apply kinds_exec.
    constructor; [eapply plain_m_rule; exact Pc|constructor].
  - apply mexec_app. eauto 8.
  - apply (plain_replay E h [(o, c)] m rs m1 [x] s); auto. apply Forall_app. split; [exact G|]. constructor; [exact Go|constructor].
Qed.

(** Accepted entries whose changes are effective in sequence are needed, and taken. *)
Lemma stored_changes id es : all_of id es -> Forall change es -> forall s, stored id s es = fold_left apply_op (accepted id es) s.
Proof.
  induction es as [|en es IH]; intros A F s; [reflexivity|]. inversion A as [|? ? A1 A2]; subst. inversion F as [|? ? [F1 F2] F3]; subst.
  unfold stored. cbn [fold_left]. fold (stored (en_id en) (store_step (en_id en) s en) es). rewrite IH by assumption.
  unfold accepted. cbn [flat_map]. rewrite fold_left_app. fold (accepted (en_id en) es). f_equal.
  unfold store_step. rewrite Nat.eqb_refl, F1. now destruct (en_call en).
Qed.
Lemma needed_changes id es : all_of id es -> Forall change es -> forall s, effective s (accepted id es) -> needed id s es.
Proof.
  induction es as [|en es IH]; intros A F s H; [exact Logic.I|]. inversion A as [|? ? A1 A2]; subst. inversion F as [|? ? [F1 F2] F3]; subst.
  unfold accepted in H. cbn [flat_map] in H. rewrite Nat.eqb_refl, F1 in H. fold (accepted (en_id en) es) in H. apply effective_app in H as [H1 H2].
  cbn [needed]. split; [reflexivity|]. split; [exact F1|]. split; [exact H1|]. apply IH; auto.
  unfold store_step. rewrite Nat.eqb_refl, F1. destruct (en_call en); try exact H2. destruct F2.
Qed.
Lemma needed_app id a : forall b s, needed id s (a ++ b) <-> needed id s a /\ needed id (stored id s a) b.
Proof. induction a as [|en a IH]; intros b s; cbn [app needed]; [tauto|]. rewrite IH. unfold stored. cbn [fold_left]. tauto. Qed.
Lemma needed_honest W id s0 es : takes_changes W id s0 -> forall log, needed id (stored id s0 log) es -> honest W log es.
Proof.
  intros [_ T]. induction es as [|en es IH]; intros log H; [exact Logic.I|]. destruct H as (H1 & H2 & H3 & H4). cbn [honest]. split.
  - rewrite H1. now apply T.
  - apply IH. rewrite stored_app. exact H4.
Qed.

(** *** One call *)
Lemma store_call E W id s0 hs h os e c m0rs : takes_changes W id s0 -> storing id e -> keeps_storage c -> plain_call hs c -> (forall n, good_orders (os n)) ->
  good_m h -> tame h -> (forall rl, as_listed h rl = as_listed hs rl) -> mexec E (NewModel E) h = Val (f_model e, m0rs) ->
  (forall hm, model_part os c hm -> mexec E (f_model e) hm <> Panic) -> (c = ESave -> queue e = []) ->
  follows id s0 (f_log e) e h -> effective (stored id s0 (f_log e)) (queue e) ->
  exists e' r hm es xs, estep E W os e c = Val (e', r) /\ estep E (yes W) os e c = Val (e', r) /\
    model_part os c hm /\ Forall (fun c => plain_m h (snd c)) hm /\ good_m hm /\ mexec E (f_model e) hm = Val (f_model e', xs) /\ storing id e' /\
    f_log e' = f_log e ++ es /\ needed id (stored id s0 (f_log e)) es /\
    follows id s0 (f_log e') e' (h ++ hm) /\ effective (stored id s0 (f_log e')) (queue e').
Proof.
  intros Tk St K Pc Ho Go T Same H0 Np Sv J Ef.
  assert (A : accepts (yes W) id) by (split; [exact (proj1 Tk)|reflexivity]).
  destruct (estep E (yes W) os e c) as [[e' r]|] eqn:S.
  2:{ destruct (total_step E (yes W) id os e c A St K S) as [hm [M1 M2]]. now destruct (Np hm M1). }
  destruct (conserve_step E (yes W) id os e c e' r A St K S) as (hm0 & es & xs0 & M1 & M2 & M3 & M4 & M5 & M6).
  destruct (follows_step E (yes W) id hs h os e c e' r s0 (f_log e) m0rs A St K Pc Ho Go T Same H0 J S) as (hm & es1 & xs & N1 & N2 & N3 & N4 & N5 & N6 & N7).
  destruct (yes_step E W os e c e' r K S) as (es2 & L2 & Ag & D).
  assert (es1 = es) by (rewrite M4 in N6; now apply app_inv_head in N6). subst es1.
  assert (es2 = es) by (rewrite M4 in L2; now apply app_inv_head in L2). subst es2.
  assert (Z : needed id (stored id s0 (f_log e)) es /\ effective (stored id s0 (f_log e')) (queue e')).
  { destruct D as [C|[id' [-> ->]]].
    - assert (X : effective (stored id s0 (f_log e)) (queue e ++ announced xs0)).
      { apply effective_app. split; [exact Ef|]. 
        assert (PM : Forall (fun x => plain_m h (snd x)) hm0 /\ good_m hm0).
        { clear - Pc M1 Same Ho. assert (Y : forall rs, Forall (plain_rule hs) rs -> Forall (plain_rule h) rs).
          { intros rs. apply Forall_impl. intros rl [B C]. split; [exact B|now rewrite Same]. }
          destruct c as [c|rs|rs| | | |a|op|i|m]; cbn [model_part plain_call] in *; try (subst hm0; solve [split; constructor]).
          - subst hm0. split; (constructor; [|constructor]); [|exact (Ho 0)]. apply (plain_m_same hs); [exact Same|]. destruct c; exact Pc.
          - destruct M1 as [n ->]. split; [apply firstn_plain; [reflexivity|auto]|now apply firstn_good].
          - destruct M1 as [n ->]. split; [apply firstn_plain; [reflexivity|auto]|now apply firstn_good]. }
        destruct PM as [PM PG]. eapply (announced_effective E hm0 h); eauto. }
      rewrite <- M6 in X. apply effective_app in X as [X1 X2]. split; [now apply needed_changes|].
      rewrite M4, stored_app, (stored_changes id es M5 C). exact X2.
    - pose proof (Forall_inv M5) as I0. cbn [en_id] in I0. subst id'. cbn [model_part] in M1. subst hm0. cbn in M2. injection M2 as _ <-.
      rewrite (Sv eq_refl) in M6. cbn in M6. rewrite Nat.eqb_refl in M6. cbn in M6. split; [cbn; auto|]. rewrite M6. exact Logic.I. }
  destruct Z as [Z1 Z2].
  exists e', r, hm, es, xs. split; [apply Ag; eapply needed_honest; eauto|]. split; [reflexivity|]. split; [exact N1|]. split; [exact N2|]. split; [exact N3|]. split; [exact N4|]. split; [exact N5|].
  split; [exact M4|]. split; [exact Z1|]. split; [now rewrite M4|exact Z2].
Qed.

(** A history. *)
Lemma store_exec E W id s0 hs : takes_changes W id s0 -> forall h0 h e m0rs,
  storing id e -> Forall (fun c => keeps_storage (snd c)) h0 -> Forall (fun c => plain_call hs (snd c)) h0 -> eorders h0 ->
  good_m h -> tame h -> (forall rl, as_listed h rl = as_listed hs rl) -> mexec E (NewModel E) h = Val (f_model e, m0rs) ->
  never_panics E (f_model e) h0 -> saves_settled E (yes W) e h0 ->
  follows id s0 (f_log e) e h -> effective (stored id s0 (f_log e)) (queue e) ->
  exists e' rs hm es xs, eexec E W e h0 = Val (e', rs) /\ eexec E (yes W) e h0 = Val (e', rs) /\
    model_parts h0 hm /\ good_m (h ++ hm) /\ tame (h ++ hm) /\ mexec E (f_model e) hm = Val (f_model e', xs) /\ storing id e' /\
    f_log e' = f_log e ++ es /\ needed id (stored id s0 (f_log e)) es /\
    follows id s0 (f_log e') e' (h ++ hm) /\ effective (stored id s0 (f_log e')) (queue e').
Proof.
  intros Tk. induction h0 as [|[os c] h0 IH]; intros h e m0rs St K Pc O Go T Same H0 Np Sv J Ef.
  - exists e, [], [], [], []. rewrite !app_nil_r. split; [reflexivity|]. split; [reflexivity|]. split; [constructor|]. cbn [needed]. auto 12.
  - inversion K as [|? ? K1 K2]; subst. inversion Pc as [|? ? P1 P2]; subst. inversion O as [|? ? O1 O2]; subst. cbn [fst snd] in *. destruct Sv as [Sv1 Sv2].
    assert (EX : exists hm, model_parts h0 hm).
    { clear. induction h0 as [|[os c] h0 [hm IH]]; [exists []; constructor|]. assert (Y : exists hm, model_part os c hm).
      { destruct c; cbn [model_part]; try (eexists; reflexivity); eexists; exists 0; reflexivity. }
      destruct Y as [y Y]. exists (y ++ hm). now constructor. }
    destruct EX as [hm0 EX].
    destruct (store_call E W id s0 hs h os e c m0rs Tk St K1 P1 O1 Go T Same H0) as (e1 & r1 & hm & es & xs & M1 & M2 & M3 & M4 & M5 & M6 & M7 & M8 & M9 & M10 & M11); auto.
    { intros hm Hm Hp. apply (Np (hm ++ hm0)); [now constructor|].
      clear - Hp. revert Hp. generalize (f_model e). induction hm as [|[o x] hm IH]; intros m Hp; cbn [mexec app] in *; [discriminate|].
      destruct (mstep E o m x) as [[m1 y]|]; cbn [obind] in *; [|reflexivity]. destruct (mexec E m1 hm) as [[? ?]|] eqn:Q; cbn [obind] in Hp; [discriminate|].
      now rewrite (IH m1 Q). }
    assert (T1 : tame (h ++ hm)).
    { apply Forall_app. split; [exact T|]. eapply Forall_impl; [|exact M4]. intros [o0 c0] Q. eapply plain_m_tame; eauto. }
    assert (R1 : Forall (fun c => rule_call (snd c)) hm) by (eapply Forall_impl; [|exact M4]; intros [o0 c0] Q; eapply plain_m_rule; eauto).
    destruct (IH (h ++ hm) e1 (m0rs ++ xs)) as (e2 & rs2 & hm2 & es2 & xs2 & N1 & N2 & N3 & N4 & N5 & N6 & N7 & N8 & N9 & N10 & N11); auto.
    + apply Forall_app. auto.
    + intros rl. rewrite <- Same. apply as_listed_same. now apply kinds_exec.
    + apply mexec_app. eauto 8.
    + intros hm2 H2 Hp. apply (Np (hm ++ hm2)); [now constructor|].
      assert (Y : forall hm m, (exists xs, mexec E m hm = Val (f_model e1, xs)) -> mexec E m (hm ++ hm2) = Panic).
      { clear - Hp. induction hm as [|[o x] hm IH]; intros m [xs H]; cbn [mexec app] in *; [injection H as H _; first [rewrite H; exact Hp|rewrite <- H; exact Hp|congruence]|].
        apply obind_val in H as [[m1 y] [Q1 H]]. apply obind_val in H as [[m2 ys] [Q2 H]]. injection H as H _. subst m2. rewrite Q1. cbn [obind]. rewrite IH; eauto. }
      eauto.
    + exact (Sv2 e1 r1 M2).
    + exists e2, (r1 :: rs2), (hm ++ hm2), (es ++ es2), (xs ++ xs2). cbn [eexec]. rewrite M1, M2. cbn [obind]. rewrite N1, N2. cbn [obind].
      split; [reflexivity|]. split; [reflexivity|]. split; [now constructor|]. rewrite (app_assoc h). split; [exact N4|]. split; [exact N5|].
      split; [apply mexec_app; eauto 8|]. split; [exact N7|]. split; [rewrite N8, M8; apply app_assoc_reverse|].
      split; [apply needed_app; split; [exact M9|]; now rewrite <- stored_app, <- M8|]. auto.
Qed.
