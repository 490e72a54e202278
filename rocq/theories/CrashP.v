(** Lemmas: at every moment the adapter holds what the model held at some earlier moment. *)
From Verif Require Import GoBase GoBaseP PolicyM PolicySpec PolicyP MatcherM RbacM DomainM ModelM ModelSpec ModelP ModelP4 ModelP5
  StorageM StorageSpec StorageP StorageP2 StorageP3 StorageP4 PersistSpec PersistP StoreSpec StoreP Prop_Model Prop_Storage.
Import ListNotations.
Local Open Scope list_scope.

Lemma one_event E o m c m' x : mstep E o m c = Val (m', x) -> x_events x = [] \/ exists ev, x_events x = [ev].
Proof.
  intros H. destruct c; cbn [mstep] in H.
  3:{ apply obind_val in H as [[[[m1 b] e] es] [H1 H]]. injection H as _ <-. cbn [x_events]. unfold model_AddRule in H1.
      destruct r as [|k r]; [discriminate|]. destruct (first_byte k) as [c|]; [|discriminate].
      destruct (Ascii.eqb c "p"); [|destruct (Ascii.eqb c "g")]; try (injection H1 as _ _ _ <-; now left).
      - destruct (mget k (md_pMap m)); [|injection H1 as _ _ _ <-; now left]. apply obind_val in H1 as [[? b'] [_ H1]]. injection H1 as _ _ _ <-. destruct b'; [right; eauto|now left].
      - destruct (mget k (md_rpMap m)); [|injection H1 as _ _ _ <-; now left]. apply obind_val in H1 as [[? b'] [_ H1]]. injection H1 as _ _ _ <-. destruct b'; [right; eauto|now left]. }
  3:{ apply obind_val in H as [[[[m1 b] e] es] [H1 H]]. injection H as _ <-. cbn [x_events]. unfold model_RemoveRule in H1.
      destruct r as [|k r]; [discriminate|]. destruct (first_byte k) as [c|]; [|discriminate].
      destruct (Ascii.eqb c "p"); [|destruct (Ascii.eqb c "g")]; try (injection H1 as _ _ _ <-; now left).
      - destruct (mget k (md_pMap m)); [|injection H1 as _ _ _ <-; now left]. apply obind_val in H1 as [[? b'] [_ H1]]. injection H1 as _ _ _ <-. destruct b'; [right; eauto|now left].
      - destruct (mget k (md_rpMap m)); [|injection H1 as _ _ _ <-; now left]. apply obind_val in H1 as [[? b'] [_ H1]]. injection H1 as _ _ _ <-. destruct b'; [right; eauto|now left]. }
  all: left; try (apply obind_val in H as [[? ?] [_ H]]); try (injection H as _ <-; reflexivity).
  - destruct (RemoveDef m s key). injection H as _ <-. reflexivity.
Qed.

(** Every first part of the announced changes was announced by a first part of the
    calls. *)
Lemma announced_split E : forall q m m' xs a b, mexec E m q = Val (m', xs) -> announced xs = a ++ b ->
  exists q1 q2 m1 x1 x2, q = q1 ++ q2 /\ mexec E m q1 = Val (m1, x1) /\ mexec E m1 q2 = Val (m', x2) /\ announced x1 = a /\ announced x2 = b.
Proof.
  induction q as [|[o c] q IH]; intros m m' xs a b H Ha.
  - cbn in H. injection H as <- <-. cbn in Ha. symmetry in Ha. apply app_eq_nil in Ha as [-> ->]. exists [], [], m, [], []. auto.
  - cbn [mexec] in H. apply obind_val in H as [[m1 x] [H1 H]]. apply obind_val in H as [[m2 ys] [H2 H]]. injection H as <- <-.
    change (x :: ys) with ([x] ++ ys) in Ha. rewrite announced_app in Ha.
    destruct a as [|op a].
    + exists [], ((o, c) :: q), m, [], (x :: ys). split; [reflexivity|]. split; [reflexivity|]. split; [cbn [mexec]; rewrite H1; cbn [obind]; now rewrite H2|].
      split; [reflexivity|]. change (x :: ys) with ([x] ++ ys). now rewrite announced_app.
    + destruct (one_event E o m c m1 x H1) as [Ev|[ev Ev]].
      * assert (Hn : announced [x] = []) by (unfold announced; cbn; now rewrite Ev). rewrite Hn in Ha. cbn [app] in Ha.
        destruct (IH m1 m2 ys (op :: a) b H2 Ha) as (q1 & q2 & m3 & x1 & x2 & E1 & E2 & E3 & E4 & E5).
        exists ((o, c) :: q1), q2, m3, (x :: x1), x2. split; [now rewrite E1|]. split; [cbn [mexec]; rewrite H1; cbn [obind]; now rewrite E2|].
        split; [exact E3|]. split; [|exact E5]. change (x :: x1) with ([x] ++ x1). now rewrite announced_app, Hn.
      * assert (Hn : exists o1, announced [x] = [o1]) by (unfold announced; cbn; rewrite Ev; cbn; eauto). destruct Hn as [o1 Hn]. rewrite Hn in Ha.
        cbn [app] in Ha. injection Ha as -> Ha.
        destruct (IH m1 m2 ys a b H2 Ha) as (q1 & q2 & m3 & x1 & x2 & E1 & E2 & E3 & E4 & E5).
        exists ((o, c) :: q1), q2, m3, (x :: x1), x2. split; [now rewrite E1|]. split; [cbn [mexec]; rewrite H1; cbn [obind]; now rewrite E2|].
        split; [exact E3|]. split; [|exact E5]. change (x :: x1) with ([x] ++ x1). now rewrite announced_app, Hn, E4.
Qed.

Lemma accepted_app id a b : accepted id (a ++ b) = accepted id a ++ accepted id b.
Proof. unfold accepted. apply flat_map_app. Qed.

Lemma part_plain hs h os c hm : plain_call hs c -> (forall n, good_orders (os n)) -> (forall rl, as_listed h rl = as_listed hs rl) -> model_part os c hm ->
  Forall (fun x => plain_m h (snd x)) hm /\ good_m hm.
Proof.
  intros Pc Ho Same M1. assert (Y : forall rs, Forall (plain_rule hs) rs -> Forall (plain_rule h) rs).
  { intros rs. apply Forall_impl. intros rl [B C]. split; [exact B|now rewrite Same]. }
  destruct c as [c|rs|rs| | | |a|op|i|m]; cbn [model_part plain_call] in *; try (subst hm; solve [split; constructor]).
  - subst hm. split; (constructor; [|constructor]); [|exact (Ho 0)]. apply (plain_m_same hs); [exact Same|]. destruct c; exact Pc.
  - destruct M1 as [n ->]. split; [apply firstn_plain; [reflexivity|auto]|now apply firstn_good].
  - destruct M1 as [n ->]. split; [apply firstn_plain; [reflexivity|auto]|now apply firstn_good].
Qed.
Lemma some_parts h0 : exists hm, model_parts h0 hm.
Proof.
  induction h0 as [|[os c] h0 [hm IH]]; [exists []; constructor|]. assert (Y : exists hm, model_part os c hm).
  { destruct c; cbn [model_part]; try (eexists; reflexivity); eexists; exists 0; reflexivity. }
  destruct Y as [y Y]. exists (y ++ hm). now constructor.
Qed.
Lemma panic_prefix E hm hm2 : forall m, mexec E m hm = Panic -> mexec E m (hm ++ hm2) = Panic.
Proof.
  induction hm as [|[o x] hm IH]; intros m Hp; cbn [mexec app] in *; [discriminate|].
  destruct (mstep E o m x) as [[m1 y]|]; cbn [obind] in *; [|reflexivity]. destruct (mexec E m1 hm) as [[? ?]|] eqn:Q; cbn [obind] in Hp; [discriminate|].
  now rewrite (IH m1 Q).
Qed.
Lemma panic_later E hm hm2 m1 : forall m xs, mexec E m hm = Val (m1, xs) -> mexec E m1 hm2 = Panic -> mexec E m (hm ++ hm2) = Panic.
Proof.
  induction hm as [|[o x] hm IH]; intros m xs H Hp; cbn [mexec app] in *; [injection H as -> _; exact Hp|].
  apply obind_val in H as [[m2 y] [Q1 H]]. apply obind_val in H as [[m3 ys] [Q2 H]]. injection H as H _. subst m3. rewrite Q1. cbn [obind]. now rewrite (IH _ _ Q2 Hp).
Qed.

Lemma listed_plain h q : Forall (fun x => plain_m h (snd x)) q -> forall rl, as_listed (h ++ q) rl = as_listed h rl.
Proof.
  intros F rl. apply as_listed_same. apply kinds_exec. eapply Forall_impl; [|exact F]. intros [o c] Q. eapply plain_m_rule; eauto.
Qed.
Lemma tame_plain h q : tame h -> Forall (fun x => plain_m h (snd x)) q -> tame (h ++ q).
Proof. intros T F. apply Forall_app. split; [exact T|]. eapply Forall_impl; [|exact F]. intros [o0 c0] Q. eapply plain_m_tame; eauto. Qed.
Lemma plain_shift h h' q : (forall rl, as_listed h' rl = as_listed h rl) -> Forall (fun x => plain_m h (snd x)) q -> Forall (fun x : orders * mcall => plain_m h' (snd x)) q.
Proof. intros S. apply Forall_impl. intros [o c] Q. cbn [snd] in *. apply (plain_m_same h); auto. Qed.

(** [ha]: what the storage has seen of the calls on the model; [hb]: the calls whose
    changes are queued. *)
Lemma crash_exec E W id s0 hs : takes_changes W id s0 -> forall h0 ha hb e ma ra xb,
  storing id e -> Forall (fun c => keeps_storage (snd c)) h0 -> Forall (fun c => plain_call hs (snd c)) h0 -> eorders h0 ->
  good_m (ha ++ hb) -> tame ha -> Forall (fun x => plain_m ha (snd x)) hb -> (forall rl, as_listed ha rl = as_listed hs rl) ->
  mexec E (NewModel E) ha = Val (ma, ra) -> mexec E ma hb = Val (f_model e, xb) -> announced xb = queue e ->
  (forall rl, stored id s0 (f_log e) rl = true <-> present ha rl) ->
  never_panics E (f_model e) h0 -> saves_settled E (yes W) e h0 ->
  exists e' rs hm es xs, eexec E W e h0 = Val (e', rs) /\ model_parts h0 hm /\ good_m hm /\ Forall (fun x => plain_m ha (snd x)) hm /\ mexec E (f_model e) hm = Val (f_model e', xs) /\
    f_log e' = f_log e ++ es /\
    forall l1 l2, es = l1 ++ l2 -> exists q1 q2, hb ++ hm = q1 ++ q2 /\ forall rl, stored id s0 (f_log e ++ l1) rl = true <-> present (ha ++ q1) rl.
Proof.
  intros Tk. induction h0 as [|[os c] h0 IH]; intros ha hb e ma ra xb St K Pc O Go T Pb Same Ha Hb Aq Hs Np Sv.
  - exists e, [], [], [], []. split; [reflexivity|]. split; [constructor|]. split; [constructor|]. split; [constructor|]. split; [reflexivity|]. split; [now rewrite app_nil_r|].
    intros l1 l2 X. symmetry in X. apply app_eq_nil in X as [-> _]. exists [], hb. split; [rewrite app_nil_r; reflexivity|]. intros rl. rewrite !app_nil_r. apply Hs.
  - inversion K as [|? ? K1 K2]; subst. inversion Pc as [|? ? P1 P2]; subst. inversion O as [|? ? O1 O2]; subst. cbn [fst snd] in *. destruct Sv as [Sv1 Sv2].
    destruct (some_parts h0) as [hm0 EX].
    assert (Gab := Go). apply Forall_app in Go as [Ga Gb].
    pose proof (tame_plain ha hb T Pb) as Tab. pose proof (listed_plain ha hb Pb) as Lab.
    assert (Sab : forall rl, as_listed (ha ++ hb) rl = as_listed hs rl) by (intros rl; now rewrite Lab).
    assert (Hab : mexec E (NewModel E) (ha ++ hb) = Val (f_model e, ra ++ xb)) by (apply mexec_app; eauto 8).
    assert (Fo : follows id s0 (f_log e) e (ha ++ hb)).
    { unfold follows. rewrite <- Aq. exact (plain_replay E ha hb ma ra (f_model e) xb _ Gab T Pb Hs Ha Hb). }
    assert (Ef : effective (stored id s0 (f_log e)) (queue e)) by (rewrite <- Aq; eapply (announced_effective E hb ha); eauto).
    assert (A : accepts (yes W) id) by (split; [exact (proj1 Tk)|reflexivity]).
    destruct (store_call E W id s0 hs (ha ++ hb) os e c (ra ++ xb) Tk St K1 P1 O1 Gab Tab Sab Hab) as (e1 & r1 & hm' & es & xs' & M1 & M2 & _ & _ & _ & _ & M7 & M8 & M9 & M10 & M11); auto.
    { intros hm Hm Hp. apply (Np (hm ++ hm0)); [now constructor|]. now apply panic_prefix. }
    destruct (conserve_step E (yes W) id os e c e1 r1 A St K1 M2) as (hm & es1 & xs & N1 & N2 & _ & N4 & N5 & N6).
    destruct (yes_step E W os e c e1 r1 K1 M2) as (es2 & L2 & _ & D).
    assert (es1 = es) by (rewrite M8 in N4; now apply app_inv_head in N4). subst es1.
    assert (es2 = es) by (rewrite M8 in L2; now apply app_inv_head in L2). subst es2.
    destruct (part_plain hs (ha ++ hb) os c hm P1 O1 Sab N1) as [Pm Gm].
    assert (Pm' : Forall (fun x => plain_m ha (snd x)) hm) by (apply (plain_shift (ha ++ hb)); [intros rl; now rewrite Lab|exact Pm]).
    assert (Hbm : mexec E ma (hb ++ hm) = Val (f_model e1, xb ++ xs)) by (apply mexec_app; eauto 8).
    assert (Pbm : Forall (fun x => plain_m ha (snd x)) (hb ++ hm)) by (apply Forall_app; now split).
    assert (Gbm : good_m (hb ++ hm)) by (apply Forall_app; now split).
    assert (Key : (forall l1 l2, es = l1 ++ l2 -> exists q1 q2, hb ++ hm = q1 ++ q2 /\ forall rl, stored id s0 (f_log e ++ l1) rl = true <-> present (ha ++ q1) rl) /\
      exists q1 q2 m1 x1 x2, hb ++ hm = q1 ++ q2 /\ mexec E ma q1 = Val (m1, x1) /\ mexec E m1 q2 = Val (f_model e1, x2) /\ announced x2 = queue e1 /\
        forall rl, stored id s0 (f_log e1) rl = true <-> present (ha ++ q1) rl).
    { destruct D as [C|[id' [-> Es]]].
      - assert (An : announced (xb ++ xs) = accepted id es ++ queue e1) by (rewrite announced_app, Aq; now symmetry).
        assert (Gen : forall l1 l2, es = l1 ++ l2 -> exists q1 q2 m1 x1 x2, hb ++ hm = q1 ++ q2 /\ mexec E ma q1 = Val (m1, x1) /\ mexec E m1 q2 = Val (f_model e1, x2) /\
          announced x2 = accepted id l2 ++ queue e1 /\ forall rl, stored id s0 (f_log e ++ l1) rl = true <-> present (ha ++ q1) rl).
        { intros l1 l2 ->. rewrite accepted_app, <- app_assoc in An.
          destruct (announced_split E _ _ _ _ _ _ Hbm An) as (q1 & q2 & m1 & x1 & x2 & E1 & E2 & E3 & E4 & E5).
          exists q1, q2, m1, x1, x2. split; [exact E1|]. split; [exact E2|]. split; [exact E3|]. split; [exact E5|].
          apply Forall_app in N5 as [N5 _]. apply Forall_app in C as [C _]. rewrite stored_app, (stored_changes id l1 N5 C), <- E4.
          rewrite E1 in Pbm, Gbm. apply Forall_app in Pbm as [Pq _]. apply Forall_app in Gbm as [Gq _].
          apply (plain_replay E ha q1 ma ra m1 x1); auto. apply Forall_app. now split. }
        split.
        + intros l1 l2 X. destruct (Gen l1 l2 X) as (q1 & q2 & _ & _ & _ & E1 & _ & _ & _ & E5). eauto.
        + destruct (Gen es [] (eq_sym (app_nil_r es))) as (q1 & q2 & m1 & x1 & x2 & E1 & E2 & E3 & E4 & E5). exists q1, q2, m1, x1, x2. rewrite <- M8 in E5. auto 8.
      - cbn [model_part] in N1. subst hm. cbn in N2. injection N2 as N2 <-. pose proof (Sv1 eq_refl) as Q0. unfold follows in Fo. rewrite Q0 in Fo. cbn [fold_left] in Fo.
        cbn [announced flat_map map] in N6. rewrite Q0, app_nil_r in N6. cbn in N6. apply app_eq_nil in N6 as [_ Q1].
        assert (F1 : forall rl, stored id s0 (f_log e1) rl = true <-> present (ha ++ hb) rl).
        { intros rl. unfold follows in M10. rewrite Q1 in M10. cbn [fold_left] in M10.
          assert (Y : hm' = [] \/ hm' <> []) by (destruct hm'; [now left|right; discriminate]).
          pose proof (Forall_inv N5) as I0 || idtac.
          rewrite M8, Es, stored_app. unfold stored at 1. cbn [fold_left]. unfold store_step. rewrite Es in N5. pose proof (Forall_inv N5) as I1. cbn [en_id] in I1. subst id'.
          cbn [en_id en_err en_call]. rewrite Nat.eqb_refl. destruct (in_dec rule_eq_dec rl (model_rules (os 0) (f_model e))) as [I|I].
          - split; [intros _|reflexivity]. now apply (model_rules_present E (ha ++ hb) (os 0) (f_model e) _ Gab (O1 0) Tab Hab).
          - split; [discriminate|]. intros X. destruct I. now apply (model_rules_present E (ha ++ hb) (os 0) (f_model e) _ Gab (O1 0) Tab Hab). }
        rewrite app_nil_r in *. split.
        + intros l1 l2 X. rewrite Es in X. destruct l1 as [|en l1].
          * exists hb, []. rewrite !app_nil_r. auto.
          * destruct l1; [|destruct l1; discriminate]. injection X as <- _. exists hb, []. rewrite !app_nil_r. split; [reflexivity|]. rewrite <- Es, <- M8. exact F1.
        + exists hb, [], (f_model e), xb, []. rewrite app_nil_r. split; [reflexivity|]. split; [exact Hb|]. split; [cbn; now rewrite N2|]. split; [now symmetry|exact F1]. }
    destruct Key as [Key (q1 & q2 & m1 & x1 & x2 & B1 & B2 & B3 & B4 & B5)].
    rewrite B1 in Pbm, Gbm. apply Forall_app in Pbm as [Pq1 Pq2]. apply Forall_app in Gbm as [Gq1 Gq2].
    destruct (IH (ha ++ q1) q2 e1 m1 (ra ++ x1) x2) as (e2 & rs2 & hm2 & es2 & xs2 & R1 & R2 & R3 & R4 & R5 & R6 & R7); auto.
    + rewrite <- app_assoc. apply Forall_app. split; [exact Ga|]. apply Forall_app. now split.
    + now apply tame_plain.
    + apply (plain_shift ha); [now apply listed_plain|exact Pq2].
    + intros rl. rewrite listed_plain by exact Pq1. apply Same.
    + apply mexec_app. eauto 8.
    + intros hm2 H2 Hp. apply (Np (hm ++ hm2)); [now constructor|]. eapply panic_later; eauto.
    + exact (Sv2 e1 r1 M2).
    + exists e2, (r1 :: rs2), (hm ++ hm2), (es ++ es2), (xs ++ xs2). cbn [eexec]. rewrite M1. cbn [obind]. rewrite R1. cbn [obind]. split; [reflexivity|].
      split; [now constructor|]. split; [apply Forall_app; now split|]. split; [apply Forall_app; split; [exact Pm'|apply (plain_shift (ha ++ q1)); [intros rl; now rewrite listed_plain|exact R4]]|].
      split; [apply mexec_app; eauto 8|]. split; [rewrite R6, M8; apply app_assoc_reverse|].
      intros l1 l2 X. destruct (Nat.le_gt_cases (List.length l1) (List.length es)) as [Hl|Hl].
      * assert (Y : exists l3, es = l1 ++ l3).
        { exists (skipn (List.length l1) es). assert (Z : firstn (List.length l1) (es ++ es2) = l1) by (rewrite X, firstn_app, Nat.sub_diag, firstn_all; apply app_nil_r).
          rewrite firstn_app in Z. replace (List.length l1 - List.length es) with 0 in Z by lia. cbn in Z. rewrite app_nil_r in Z. rewrite <- Z at 1. symmetry. apply firstn_skipn. }
        destruct Y as [l3 ->]. destruct (Key l1 l3 eq_refl) as (p1 & p2 & Y1 & Y2). exists p1, (p2 ++ hm2). split; [|exact Y2]. now rewrite app_assoc, Y1, app_assoc.
      * assert (Y : exists l3, l1 = es ++ l3 /\ es2 = l3 ++ l2).
        { exists (skipn (List.length es) l1). assert (Z : firstn (List.length es) l1 = es).
          { assert (Z : firstn (List.length es) (es ++ es2) = es) by (rewrite firstn_app, Nat.sub_diag, firstn_all; apply app_nil_r).
            rewrite X, firstn_app in Z. replace (List.length es - List.length l1) with 0 in Z by lia. cbn in Z. now rewrite app_nil_r in Z. }
          split; [rewrite <- Z at 1; symmetry; apply firstn_skipn|]. rewrite <- (firstn_skipn (List.length es) l1), Z, <- app_assoc in X. now apply app_inv_head in X. }
        destruct Y as [l3 [-> Y]]. destruct (R7 l3 l2 Y) as (p1 & p2 & Y1 & Y2). exists (q1 ++ p1), p2.
        split; [rewrite app_assoc, B1, <- !app_assoc; now f_equal|]. rewrite !app_assoc, <- M8. exact Y2.
Qed.
