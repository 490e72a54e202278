(** Rules that are not among the lost changes are stored or queued as the model
    has them. *)
From Verif Require Import GoBase GoBaseP PolicyM PolicySpec MatcherM RbacM DomainM ModelM ModelSpec ModelP4 ModelP5 StorageM StorageSpec StorageP StorageP2 StorageP3 StorageP4 FailM FailSpec FailP.
Import ListNotations.
Local Open Scope list_scope.

(** ** Changes, rule by rule *)
Lemma apply_point s s' op (rl : rule) : s rl = s' rl -> apply_op s op rl = apply_op s' op rl.
Proof. intros H. destruct op as [[|] r]; cbn; unfold set_add, set_remove; now rewrite H. Qed.
Lemma apply_same s s' op : apply_op s op (snd op) = apply_op s' op (snd op).
Proof. destruct op as [[|] r]; cbn; unfold set_add, set_remove; destruct (rule_eqb_spec r r); cbn; congruence. Qed.
Lemma apply_other s op (rl : rule) : snd op <> rl -> apply_op s op rl = s rl.
Proof. intros H. destruct op as [[|] r]; cbn in *; unfold set_add, set_remove; destruct (rule_eqb_spec rl r); cbn; congruence. Qed.
Lemma fold_point ops : forall s s' (rl : rule), s rl = s' rl -> fold_left apply_op ops s rl = fold_left apply_op ops s' rl.
Proof. induction ops as [|op ops IH]; intros s s' rl H; cbn [fold_left]; [exact H|]. apply IH, apply_point, H. Qed.
Lemma fold_touched ops : forall s s' (rl : rule), In rl (map snd ops) -> fold_left apply_op ops s rl = fold_left apply_op ops s' rl.
Proof.
  induction ops as [|op ops IH]; intros s s' rl H; cbn [fold_left map] in *; [destruct H|].
  destruct (in_dec rule_eq_dec rl (map snd ops)) as [Hi|Hi]; [apply IH, Hi|]. destruct H as [<-|H]; [|contradiction].
  apply fold_point, apply_same.
Qed.
Lemma fold_untouched ops : forall s (rl : rule), ~ In rl (map snd ops) -> fold_left apply_op ops s rl = s rl.
Proof.
  induction ops as [|op ops IH]; intros s rl H; cbn [fold_left map] in *; [reflexivity|]. cbn [In] in H.
  rewrite IH; [|tauto]. apply apply_other. tauto.
Qed.

Lemma store_taken id c s : changes c <> [] -> store_step id s (mkEntry id c None) = fold_left apply_op (changes c) s.
Proof. intros H. unfold store_step. cbn [en_id en_err en_call]. rewrite Nat.eqb_refl. destruct c; try reflexivity. cbn in H. congruence. Qed.
Lemma store_refused id c err s : store_step id s (mkEntry id c (Some err)) = s.
Proof. unfold store_step. cbn. now rewrite Nat.eqb_refl. Qed.

Lemma moved_stored k id q es l q' (rl : rule) : moved k id q es l q' -> no_save es -> ~ In rl (map snd l) ->
  forall s, fold_left apply_op q' (stored id s es) rl = fold_left apply_op q s rl.
Proof.
  induction 1 as [q|c q es l q' H1 H IH|c err d q es l q' H1 H2 H3 H IH|rs err q es l q' H IH]; intros N L s.
  - reflexivity.
  - apply Forall_cons_iff in N as [_ N]. cbn [stored fold_left]. change (fold_left (store_step id) es ?x) with (stored id x es).
    rewrite (store_taken id c s H1), (IH N L), fold_left_app. reflexivity.
  - apply Forall_cons_iff in N as [_ N]. rewrite !map_app, !in_app_iff in L. cbn [stored fold_left]. change (fold_left (store_step id) es ?x) with (stored id x es).
    rewrite store_refused, (IH N) by tauto. rewrite app_assoc, (fold_left_app apply_op (changes c ++ d)). apply fold_point. symmetry. apply fold_untouched.
    rewrite map_app, in_app_iff. tauto.
  - apply Forall_cons_iff in N as [N _]. cbn in N. congruence.
Qed.

(** ** The invariant *)
Record tracks (h : list (orders * mcall)) (e : enforcer) (s : rset) (L : list operation) : Prop := mkTracks {
  tr_kept : forall rl, ~ In rl (map snd L) -> (fold_left apply_op (queue e) s rl = true <-> present h rl);
  tr_queued : forall rl s1, In rl (map snd (queue e)) -> (fold_left apply_op (queue e) s1 rl = true <-> present h rl)
}.
Lemma tracks_start h e s : (forall rl, fold_left apply_op (queue e) s rl = true <-> present h rl) -> tracks h e s [].
Proof. intros H. constructor; [intros rl _; apply H|]. intros rl s1 Hi. rewrite (fold_touched _ s1 s rl Hi). apply H. Qed.

Definition keeps_listed (hs h : list (orders * mcall)) : Prop := forall rl, as_listed h rl = as_listed hs rl.
Lemma part_plain hs h os c hm : keeps_listed hs h -> keeps_storage c -> plain_call hs c -> (forall n, good_orders (os n)) -> model_part os c hm ->
  Forall (fun c => plain_m h (snd c)) hm /\ good_m hm.
Proof.
  intros Same K P Ho Mp.
  assert (R : forall mk rs n, (forall r, plain_m h (mk r) <-> plain_rule h r) -> Forall (plain_rule hs) rs ->
     Forall (fun c => plain_m h (snd c)) (firstn n (rule_calls os mk rs)) /\ good_m (firstn n (rule_calls os mk rs))).
  { intros mk rs n Hmk Hrs. split; [|now apply firstn_good]. apply firstn_plain; [exact Hmk|]. eapply Forall_impl; [|exact Hrs]. intros rl [B C]. split; [exact B|now rewrite Same]. }
  destruct c as [c|rs|rs| | | |a|op|i|m]; cbn [model_part] in Mp; try (subst hm; split; constructor; fail).
  - subst hm. assert (Pc : plain_m h c) by (apply (plain_m_same hs); [exact Same|]; destruct c; exact P). split; repeat constructor; [exact Pc|apply Ho..].
  - destruct Mp as [n ->]. apply R; [reflexivity|exact P].
  - destruct Mp as [n ->]. apply R; [reflexivity|exact P].
Qed.

Lemma tracks_step E W id hs h os e c m y e' x m0rs s L :
  storing id e -> keeps_storage c -> plain_call hs c -> (forall n, good_orders (os n)) -> good_m h -> tame h -> keeps_listed hs h ->
  mexec E (NewModel E) h = Val (f_model e, m0rs) -> tracks h e s L -> step_ok E W id os e c m y e' x ->
  exists hm es l ys, model_part os c hm /\ f_log e' = f_log e ++ es /\ storing id e' /\ good_m (h ++ hm) /\ tame (h ++ hm) /\ keeps_listed hs (h ++ hm) /\
    mexec E (f_model e) hm = Val (f_model e', ys) /\ moved (w_kind W id) id (queue e ++ announced ys) es l (queue e') /\
    tracks (h ++ hm) e' (stored id s es) (L ++ l) /\
    (c = ESave -> x = inl (mkERes None None) -> tracks (h ++ hm) e' (stored id s es) []).
Proof.
  intros St K P Ho Go T Same H0 [J1 J2] (hm & ys & es & l & <- & _ & Mp & M & St1 & Lg & Mv & Nn & Ns & _).
  destruct (part_plain hs h os c hm Same K P Ho Mp) as [Pm Gm].
  assert (Tm : tame (h ++ hm)) by (apply Forall_app; split; [exact T|eapply Forall_impl; [|exact Pm]; intros [o0 c0] Q; eapply plain_m_tame; eauto]).
  assert (Gh : good_m (h ++ hm)) by (apply Forall_app; auto).
  assert (Sm : keeps_listed hs (h ++ hm)).
  { intros rl. rewrite <- Same. apply as_listed_same. apply kinds_exec. eapply Forall_impl; [|exact Pm]. intros [o0 c0] Q. eapply plain_m_rule; eauto. }
  exists hm, es, l, ys. do 8 (split; [assumption|]).
  set (S0 := fun rl => if in_dec rule_eq_dec rl (model_rules (os 0) (f_model e)) then true else false).
  assert (Hp : forall rl, S0 rl = true <-> present h rl).
  { intros rl. rewrite <- (model_rules_present E h (os 0) (f_model e) m0rs Go (Ho 0) T H0 rl). unfold S0. match goal with |- context [in_dec ?a ?b ?c] => destruct (in_dec a b c) end; split; try congruence; auto. }
  assert (A : forall rl, fold_left apply_op (announced ys) S0 rl = true <-> present (h ++ hm) rl) by (apply (plain_replay E h hm (f_model e) m0rs (f_model e') ys); auto).
  assert (Pt : forall s1 rl, (s1 rl = true <-> present h rl) -> (fold_left apply_op (announced ys) s1 rl = true <-> present (h ++ hm) rl)).
  { intros s1 rl X. rewrite <- A. assert (Y : s1 rl = S0 rl) by (specialize (Hp rl); destruct (s1 rl), (S0 rl); intuition congruence). now rewrite (fold_point _ s1 S0 rl Y). }
  assert (Q1 : forall rl, ~ In rl (map snd L) -> (fold_left apply_op (queue e ++ announced ys) s rl = true <-> present (h ++ hm) rl)).
  { intros rl Hn. rewrite fold_left_app. apply Pt, J1, Hn. }
  assert (Q2 : forall rl s1, In rl (map snd (queue e ++ announced ys)) -> (fold_left apply_op (queue e ++ announced ys) s1 rl = true <-> present (h ++ hm) rl)).
  { intros rl s1 Hi. rewrite map_app, in_app_iff in Hi. rewrite fold_left_app. destruct (in_dec rule_eq_dec rl (map snd (announced ys))) as [Ha|Ha].
    - rewrite (fold_touched _ _ S0 rl Ha). apply A.
    - apply Pt, J2. tauto. }
  assert (Q3 : forall rl s1, In rl (map snd (queue e')) -> (fold_left apply_op (queue e') s1 rl = true <-> present (h ++ hm) rl)).
  { intros rl s1 Hi. destruct (moved_suffix _ _ _ _ _ _ Mv) as [p Ep]. rewrite <- (Q2 rl s1); [|rewrite Ep, map_app, in_app_iff; auto].
    rewrite Ep, fold_left_app. now rewrite (fold_touched _ s1 (fold_left apply_op p s1) rl Hi). }
  assert (Dc : {c = ESave} + {c <> ESave}) by (destruct c; auto; right; discriminate).
  destruct Dc as [->|Ne].
  - destruct (Ns eq_refl) as [Eq [err [-> ->]]]. cbn [model_part] in Mp. subst hm. cbn [mexec] in M. injection M as _ <-. rewrite app_nil_r in *.
    assert (Heal : err = None -> forall rl, fold_left apply_op (queue e') (stored id s [mkEntry id (CSavePolicy (model_rules (os 0) (f_model e))) err]) rl = true <-> present h rl).
    { intros -> rl. destruct (in_dec rule_eq_dec rl (map snd (queue e'))) as [Hi|Hi]; [apply Q3, Hi|]. rewrite (fold_untouched _ _ _ Hi).
      unfold stored. cbn [fold_left]. unfold store_step. cbn [en_id en_err en_call]. rewrite Nat.eqb_refl. exact (Hp rl). }
    split; [constructor; [|exact Q3]|].
    + intros rl Hn. rewrite map_app, in_app_iff in Hn. destruct err as [er|]; [|apply Heal; reflexivity].
      cbn [stored fold_left]. rewrite store_refused. rewrite Eq. apply J1. tauto.
    + intros _ X. injection X as ->. constructor; [|exact Q3]. intros rl _. apply Heal. reflexivity.
  - split; [constructor; [|exact Q3]|congruence]. intros rl Hn. rewrite map_app, in_app_iff in Hn.
    rewrite (moved_stored _ _ _ _ _ _ rl Mv (Nn Ne)) by tauto. apply Q1. tauto.
Qed.

Lemma tracks_exec E W id hs : forall h0 e e' xs h m0rs s L,
  storing id e -> Forall (fun c => keeps_storage (snd c)) h0 -> Forall (fun c => plain_call hs (snd c)) h0 -> eorders h0 ->
  good_m h -> tame h -> keeps_listed hs h -> mexec E (NewModel E) h = Val (f_model e, m0rs) -> tracks h e s L -> f_exec E W e h0 = Val (e', xs) ->
  exists hm es l ys, model_parts h0 hm /\ f_log e' = f_log e ++ es /\ storing id e' /\ good_m (h ++ hm) /\ tame (h ++ hm) /\ keeps_listed hs (h ++ hm) /\
    mexec E (f_model e) hm = Val (f_model e', ys) /\ moved (w_kind W id) id (queue e ++ announced ys) es l (queue e') /\
    tracks (h ++ hm) e' (stored id s es) (L ++ l).
Proof.
  induction h0 as [|[os c] h0 IH]; intros e e' xs h m0rs s L St K P O Go T Same H0 J H; cbn [f_exec] in H.
  - injection H as <- <-. exists [], [], [], []. rewrite !app_nil_r. split; [constructor|]. split; [reflexivity|]. do 4 (split; [assumption|]). split; [reflexivity|]. split; [constructor|exact J].
  - apply obind_val in H as [[e1 x1] [H1 H]]. apply obind_val in H as [[e2 xs2] [H2 H]]. injection H as <- <-.
    inversion K as [|? ? K1 K2]; subst. inversion P as [|? ? P1 P2]; subst. inversion O as [|? ? O1 O2]; subst. cbn [fst snd] in *.
    pose proof (f_step_spec E W id os e c St K1) as S. destruct (on_step E os (f_model e) c) as [[m y]|]; [|congruence].
    destruct S as (e3 & x3 & F & S). rewrite H1 in F. injection F as <- <-.
    destruct (tracks_step E W id hs h os e c m y e1 x1 m0rs s L St K1 P1 O1 Go T Same H0 J S) as (hm & es & l & ys & M1 & M2 & M3 & M4 & M5 & M6 & M7 & M8 & M9 & _).
    destruct (IH e1 e2 xs2 (h ++ hm) (m0rs ++ ys) (stored id s es) (L ++ l)) as (hm2 & es2 & l2 & ys2 & N1 & N2 & N3 & N4 & N5 & N6 & N7 & N8 & N9); auto.
    { apply mexec_app. eauto 8. }
    exists (hm ++ hm2), (es ++ es2), (l ++ l2), (ys ++ ys2). rewrite (app_assoc h), (app_assoc L). split; [constructor; auto|]. split; [rewrite N2, M2, <- app_assoc; reflexivity|].
    do 4 (split; [assumption|]). split; [apply mexec_app; eauto 8|]. split.
    + rewrite announced_app, app_assoc. eapply moved_trans; [|exact N8]. now apply moved_app.
    + rewrite stored_app. exact N9.
Qed.
