(** Property C51: Enforce calls that run at the same time. *)
From Verif Require Import GoBase GoBaseP DefsM PolicyM EffectorM MatcherDefM MatcherM MatcherSpec MatcherP RbacM DomainM EvalM ModelM ModelSpec EnforcerM SafeSpec Prop_Model Prop_QueryErr SyncEnforceM.

(** The value of a condition does not depend on what eval reads. *)
Definition no_eval (CE : cevaluator) (e : string) : Prop :=
  forall own b i b' i', cev CE e own b i = cev CE e own b' i'.

Lemma nth_put l i r j : nth_error (put_rule l i r) j = if Nat.eqb i j then (if Nat.ltb i (List.length l) then Some r else None) else nth_error l j.
Proof.
  revert i j. induction l as [|x l IH]; intros [|i] [|j]; cbn; try reflexivity.
  - now destruct (Nat.eqb i j).
  - rewrite IH. reflexivity.
Qed.
Lemma put_len l i r : List.length (put_rule l i r) = List.length l.
Proof. revert i. induction l as [|x l IH]; intros [|i]; cbn; auto. Qed.
Lemma nth_put_other l i r j : j <> i -> nth_error (put_rule l i r) j = nth_error l j.
Proof. intros N. rewrite nth_put. destruct (Nat.eqb_spec i j); [congruence|reflexivity]. Qed.
Lemma nth_put_me l i r x : nth_error l i = Some x -> nth_error (put_rule l i r) i = Some r.
Proof. intros H. rewrite nth_put, Nat.eqb_refl. destruct (Nat.ltb_spec i (List.length l)) as [L|L]; [reflexivity|]. apply nth_error_None in L. congruence. Qed.
Lemma gor_set_cases ts i t j x : nth_error (set_gor ts i t) j = Some x -> (j = i /\ x = t) \/ (j <> i /\ nth_error ts j = Some x).
Proof.
  revert i j. induction ts as [|y ts IH]; intros [|i] [|j]; cbn; intros H; try discriminate.
  - injection H as <-. auto.
  - auto.
  - auto.
  - destruct (IH i j H) as [[-> ->]|[N H']]; [auto|]. right. split; [congruence|exact H'].
Qed.
Lemma gor_set_at ts i t x : nth_error ts i = Some x -> nth_error (set_gor ts i t) i = Some t.
Proof. revert i. induction ts as [|y ts IH]; intros [|i]; cbn; intros H; try discriminate; auto. Qed.
Lemma gor_set_other ts i t j : j <> i -> nth_error (set_gor ts i t) j = nth_error ts j.
Proof. revert i j. induction ts as [|y ts IH]; intros [|i] [|j]; cbn; intros H; try reflexivity; try congruence. apply IH. congruence. Qed.

Local Arguments params_of : simpl never.
Section Yields.
  Variables (CE : cevaluator) (calls : list ccall) (me : nat) (q : ccall).
  Hypothesis Hq : nth_error calls me = Some q.
  (** [X]: while the call runs, its own eval stays installed. *)
  Variable X : Prop.
  Definition fine (own : rule) (sh : shared) : Prop := nth_error (sh_pvals sh) me = Some own /\ (X -> sh_eval sh = Some me).
  Definition keeps (sh sh' : shared) : Prop := sh_eval sh' = sh_eval sh /\ List.length (sh_pvals sh') = List.length (sh_pvals sh) /\
    forall j, j <> me -> nth_error (sh_pvals sh') j = nth_error (sh_pvals sh) j.
  Variable res : outcome (estate * option goerr).
  Inductive yields : rule -> search -> Prop :=
  | Y_found own st err : res = Val (st, err) -> yields own (Found st err)
  | Y_then own f :
      (forall sh, fine own sh -> f sh = Panic -> res = Panic) ->
      (forall sh sh' p, fine own sh -> f sh = Val (sh', p) -> keeps sh sh' /\ exists own', nth_error (sh_pvals sh') me = Some own' /\ yields own' p) ->
      yields own (Then f).

  Notation E := (alone_ev CE).
  Notation d := (m_def (cq_mat q)).
  Lemma entries_yields c bound call scall :
    (X -> bound = Some me) -> no_eval CE (stage_expr c) \/ X ->
    (forall st key n own k, (call st key n = Panic -> res = Panic) ->
       (forall st' b own', call st key n = Val (st', b) -> yields own' (k st' b)) -> yields own (scall st key n k)) ->
    forall entries st own k,
      (range_entries E d (cq_rdef q) (cq_vals q) c call entries st = Panic -> res = Panic) ->
      (forall st' r own', range_entries E d (cq_rdef q) (cq_vals q) c call entries st = Val (st', r) -> yields own' (k st' r)) ->
      yields own (s_entries CE calls me c bound scall entries st k).
  Proof.
    intros Hb Hx Hc entries. induction entries as [|[key n] rest IH]; intros st own k H1 H2; cbn [s_entries range_entries] in *; [now apply H2|].
    apply Y_then; [discriminate|]. intros sh sh' p [F1 F2] H. injection H as <- <-.
    split; [split; [reflexivity|split; [apply put_len|intros j Nj; cbn; now apply nth_put_other]]|]. exists (node_rule n). split; [cbn; eapply nth_put_me; eauto|].
    assert (Ev : forall sh, fine (node_rule n) sh ->
      cev CE (stage_expr c) (params_of calls sh (Some me)) (params_of calls sh bound) (params_of calls sh (sh_eval sh)) = eval_stage E d (cq_rdef q) (cq_vals q) c (node_rule n)).
    { intros s1 [G1 G2]. unfold eval_stage, alone_ev, ev.
      assert (P : params_of calls s1 (Some me) = ParamGet d (node_rule n) (cq_rdef q) (cq_vals q)) by (unfold params_of; now rewrite Hq, G1).
      rewrite P. destruct Hx as [Hx|Hx]; [apply Hx|]. now rewrite (Hb Hx), (G2 Hx), P. }
    apply Y_then; intros s1; [intros F|intros s2 p F]; cbv beta; rewrite (Ev s1 F); destruct (eval_stage E d (cq_rdef q) (cq_vals q) c (node_rule n)) as [[v|er]|] eqn:Ee.
    - destruct v as [|[|]|]; discriminate.
    - discriminate.
    - intros _. now apply H1.
    - assert (K : keeps s1 s1) by (repeat split; auto). destruct F as [F _].
      destruct v as [vs|[|]|vo]; intros H; injection H as <- <-; (split; [exact K|]); exists (node_rule n); (split; [exact F|]); try (apply IH; assumption).
      apply Hc.
      + intros Hp. apply H1. now rewrite Hp.
      + intros st' [|] own' Hv; rewrite Hv in *; [now apply IH|now apply H2].
    - intros H. injection H as <- <-. split; [repeat split; auto|]. exists (node_rule n). split; [apply F|]. now apply H2.
    - discriminate.
  Qed.
  Lemma range_yields c entries call scall :
    no_eval CE (stage_expr c) \/ X ->
    (forall st key n own k, (call st key n = Panic -> res = Panic) ->
       (forall st' b own', call st key n = Val (st', b) -> yields own' (k st' b)) -> yields own (scall st key n k)) ->
    forall st own k,
      (rangeMatches E d (cq_rdef q) (cq_vals q) c entries call st = Panic -> res = Panic) ->
      (forall st' r own', rangeMatches E d (cq_rdef q) (cq_vals q) c entries call st = Val (st', r) -> yields own' (k st' r)) ->
      yields own (s_range CE calls me q c entries scall st k).
  Proof.
    intros Hx Hc st own k H1 H2. unfold s_range. apply Y_then; [discriminate|]. intros sh sh' p [F1 F2] H. injection H as <- <-.
    split; [repeat split; auto|]. exists own. split; [exact F1|]. unfold rangeMatches in *. cbn [parses alone_ev] in *.
    destruct (cparses CE (stage_expr c)); [|now apply H2]. eapply entries_yields; eauto.
  Qed.
  Lemma helper_yields s : (forall e, In e (conditions s) -> no_eval CE e \/ X) ->
    forall at_ n st own k,
      (rangeMatchesHelper E (cq_ord q) d (cq_rdef q) (cq_vals q) (callback q) s at_ n st = Panic -> res = Panic) ->
      (forall st' r own', rangeMatchesHelper E (cq_ord q) d (cq_rdef q) (cq_vals q) (callback q) s at_ n st = Val (st', r) -> yields own' (k st' r)) ->
      yields own (s_helper CE calls me q s at_ n st k).
  Proof.
    induction s as [e cs IH] using stage_ind2. intros Hx at_ n st own k. cbn [conditions] in Hx. cbn [rangeMatchesHelper s_helper].
    generalize 0 as i. revert st own. induction IH as [|c cs Hc _ IHcs]; intros st own i H1 H2; [now apply H2|].
    cbn [flat_map] in Hx. destruct (child n i) as [m|]; [|apply Y_then; [intros; now apply H1|discriminate]]. cbn [obind] in *.
    eapply range_yields with (call := fun st k nextNode => _); [apply Hx; now left| | |].
    3: { intros st' r own' Hr. rewrite Hr in H1, H2. cbn [obind] in *. destruct r as [[|] [er|]]; try (apply H2; reflexivity).
         apply IHcs; [|exact H1|exact H2]. intros e0 He. apply Hx. right. apply in_or_app. now right. }
    2: { intros Hp. apply H1. rewrite Hp. reflexivity. }
    intros st1 key nn own1 k1 K1 K2. cbv zeta in *.
    assert (R : forall st2 own2, (obind (rangeMatchesHelper E (cq_ord q) d (cq_rdef q) (cq_vals q) (callback q) c ((i, key) :: at_) nn st2)
         (fun r => match r with (st', (cont, err)) => Val (st', match err with Some _ => false | None => cont end) end) = Panic -> res = Panic) ->
       (forall st' b own', obind (rangeMatchesHelper E (cq_ord q) d (cq_rdef q) (cq_vals q) (callback q) c ((i, key) :: at_) nn st2)
         (fun r => match r with (st', (cont, err)) => Val (st', match err with Some _ => false | None => cont end) end) = Val (st', b) -> yields own' (k1 st' b)) ->
       yields own2 (s_helper CE calls me q c ((i, key) :: at_) nn st2 (fun st' r => k1 st' (match snd r with Some _ => false | None => fst r end)))).
    { intros st2 own2 L1 L2. apply Hc.
      - intros e0 He. apply Hx. right. apply in_or_app. now left.
      - intros Hp. apply L1. rewrite Hp. reflexivity.
      - intros st' [cont er] own' Hv. apply L2. rewrite Hv. reflexivity. }
    destruct (IsLeafNode c); [|apply R; [exact K1|exact K2]].
    destruct (callback q st1 (node_rule nn)) as [st2 [|]]; [apply R; [exact K1|exact K2]|now apply K2].
  Qed.
End Yields.

(** ** All goroutines *)
Definition running (s : econfig) (i : nat) : Prop := exists p, nth_error (ec_gors s) i = Some (GRun p).
Definition alone (CE : cevaluator) (q : ccall) : outcome (estate * option goerr) :=
  RangeMatches (alone_ev CE) (cq_ord q) (cq_mat q) (cq_rdef q) (cq_vals q) (callback q) estate0.

Section All.
  Variables (CE : cevaluator) (calls : list ccall) (X : nat -> Prop).
  Hypothesis Hx : forall i q e, nth_error calls i = Some q -> In e (conditions (m_tree (cq_mat q))) -> no_eval CE e \/ X i.
  Definition gor_ok (sh : shared) (i : nat) (q : ccall) (t : gor) : Prop :=
    match t with
    | GWait => True
    | GRun p => exists own, fine i (X i) own sh /\ yields i (X i) (alone CE q) own p
    | GDone st err => alone CE q = Val (st, err)
    end.
  Record Going (s : econfig) : Prop := {
    w_len : List.length (ec_gors s) = List.length calls /\ List.length (sh_pvals (ec_sh s)) = List.length calls;
    w_gors : forall i t q, nth_error (ec_gors s) i = Some t -> nth_error calls i = Some q -> gor_ok (ec_sh s) i q t
  }.
  Lemma going_start : Going (estart calls).
  Proof.
    constructor; [cbn; now rewrite !map_length|]. intros i t q H _. cbn in H. rewrite nth_error_map in H.
    destruct (nth_error calls i); [|discriminate]. injection H as <-. exact Logic.I.
  Qed.
  Lemma set_len ts i t : List.length (set_gor ts i t) = List.length ts.
  Proof. revert i. induction ts as [|x ts IH]; intros [|i]; cbn; auto. Qed.
  Lemma search_yields i q own : nth_error calls i = Some q -> yields i (X i) (alone CE q) own (s_search CE calls i q).
  Proof.
    intros Hq. unfold s_search. apply helper_yields; [exact Hq|intros e He; eauto| |].
    - intros Hp. unfold alone, RangeMatches. now rewrite Hp.
    - intros st' r own' Hv. apply Y_found. unfold alone, RangeMatches. rewrite Hv. destruct r. reflexivity.
  Qed.
  (** A step: other goroutines are untouched if eval stays or nobody needs it. *)
  Lemma step_going s i : Going s ->
    (forall s', estep CE calls s i = Val s' -> forall a b, X a -> running s' a -> running s' b -> a = b) ->
    (exists s', estep CE calls s i = Val s' /\ Going s') \/ (estep CE calls s i = Panic /\ exists q, nth_error calls i = Some q /\ alone CE q = Panic).
  Proof.
    intros [[L1 L2] W] Ex. unfold estep in *. destruct (nth_error (ec_gors s) i) as [t|] eqn:Ei; [|left; eexists; split; [reflexivity|constructor; auto]].
    assert (Eq : exists q, nth_error calls i = Some q).
    { destruct (nth_error calls i) eqn:E; [eauto|]. apply nth_error_None in E. assert (i < List.length (ec_gors s)) by (apply nth_error_Some; congruence). lia. }
    destruct Eq as [q Hq]. rewrite Hq in *.
    destruct t as [|[st err|f]|st err]; try (left; eexists; split; [reflexivity|constructor; auto]; fail).
    - left. eexists. split; [reflexivity|]. specialize (Ex _ eq_refl).
      set (sh' := mkShared (Some i) (put_rule (sh_pvals (ec_sh s)) i [])) in *.
      assert (Po : exists x, nth_error (sh_pvals (ec_sh s)) i = Some x).
      { destruct (nth_error (sh_pvals (ec_sh s)) i) eqn:E; [eauto|]. apply nth_error_None in E. assert (i < List.length calls) by (apply nth_error_Some; congruence). lia. }
      destruct Po as [x Po]. pose proof (search_yields i q [] Hq) as Y.
      assert (G : gor_ok sh' i q (GRun (s_search CE calls i q))) by (exists []; split; [split; [cbn; eapply nth_put_me; eauto|reflexivity]|exact Y]).
      constructor; [cbn; now rewrite set_len, put_len|]. intros j t q' Hj Hq'. cbn [ec_gors ec_sh] in *.
      apply gor_set_cases in Hj as [[-> ->]|[Nj Hj]]; [rewrite Hq in Hq'; injection Hq' as <-; exact G|].
      pose proof (W _ _ _ Hj Hq') as Wj. destruct t as [|p|st err]; auto. destruct Wj as [own [[F1 F2] Yj]]. exists own. split; [|exact Yj].
      split; [cbn; now rewrite nth_put_other|]. intros HX. exfalso. apply Nj. apply (Ex j i HX).
      + exists p. cbn. now rewrite gor_set_other.
      + eexists. cbn. eapply gor_set_at; eauto.
    - left. eexists. split; [reflexivity|]. destruct (W _ _ _ Ei Hq) as [own [_ Y]]. inversion Y; subst.
      constructor; [cbn; now rewrite set_len|]. intros j t q' Hj Hq'. cbn [ec_gors ec_sh] in *.
      apply gor_set_cases in Hj as [[-> ->]|[Nj Hj]]; [rewrite Hq in Hq'; injection Hq' as <-; assumption|]. eauto.
    - destruct (W _ _ _ Ei Hq) as [own [F Y]]. inversion Y as [|? ? Yp Yv]; subst. destruct (f (ec_sh s)) as [[sh p]|] eqn:Ef.
      + left. cbn [obind]. eexists. split; [reflexivity|]. destruct (Yv _ _ _ F Ef) as [[K1 [K3 K2]] [own' [H1 H2]]].
        constructor.
        * cbn. rewrite set_len. split; [exact L1|congruence].
        * intros j t q' Hj Hq'. cbn [ec_gors ec_sh] in *. apply gor_set_cases in Hj as [[-> ->]|[Nj Hj]].
          -- rewrite Hq in Hq'. injection Hq' as <-. exists own'. split; [|exact H2]. split; [exact H1|]. intros HX. rewrite K1. now apply F.
          -- pose proof (W _ _ _ Hj Hq') as Wj. destruct t as [|pj|st err]; auto. destruct Wj as [ownj [[F1 F2] Yj]]. exists ownj.
             split; [|exact Yj]. split; [now rewrite K2|]. intros HX. rewrite K1. auto.
      + right. split; [reflexivity|]. exists q. split; [reflexivity|]. eauto.
  Qed.

  (** No call that uses eval overlaps with another call. *)
  Fixpoint eval_exclusive (s : econfig) (sched : list nat) : Prop :=
    (forall a b, X a -> running s a -> running s b -> a = b) /\
    match sched with
    | [] => True
    | i :: sched' => forall s', estep CE calls s i = Val s' -> eval_exclusive s' sched'
    end.
  Lemma excl_first s sched : eval_exclusive s sched -> forall a b, X a -> running s a -> running s b -> a = b.
  Proof. destruct sched; intros H; apply H. Qed.
  Lemma run_going sched : forall s, Going s -> eval_exclusive s sched ->
    (exists s', erun CE calls s sched = Val s' /\ Going s') \/
    (erun CE calls s sched = Panic /\ exists i q, nth_error calls i = Some q /\ alone CE q = Panic).
  Proof.
    induction sched as [|i sched IH]; intros s G Ex; cbn [erun]; [left; eauto|]. destruct Ex as [_ Ex].
    destruct (step_going s i G) as [[s' [E G']]|[E [q [Hq Hp]]]].
    - intros s' Hs. eapply excl_first. now apply Ex.
    - rewrite E. cbn [obind]. apply IH; auto.
    - right. rewrite E. split; [reflexivity|eauto].
  Qed.
End All.

(** ** Enforce *)

(** The call of Enforce with the parameters [ps] and map orders [o] searches
    what [q] says, with functions that come to [CE]. *)
Definition prepared (E : env) (CE : cevaluator) (m : model) (c : orders * list param) (q : ccall) : Prop :=
  exists m1 x j y rd ex pd,
    NewContext E (fst c) m (opts_of (snd c)) = Val (m1, inl x) /\
    c_m x = Some j /\ c_r x = Some rd /\ c_e x = Some ex /\ nth_error (md_mats m1) j = Some y /\
    mget (ad_key (m_def y)) (md_p m1) = Some pd /\
    e_eval E (functions (fst c) m1) = alone_ev CE /\
    q = mkCall y rd (vals_of (snd c)) (o_match (fst c)) pd ex.

Lemma enforce_prepared E CE m c q : prepared E CE m c q ->
  exists m1, Enforce E (fst c) m (snd c) = (let! r := enforce_alone CE q in Val (m1, r)).
Proof.
  intros (m1 & x & j & y & rd & ex & pd & Hc & Ej & Er & Ee & Ey & Ep & Ef & ->). exists m1. unfold Enforce, splitParams. rewrite Hc. cbn [obind].
  unfold enforce. rewrite Ej, Ey, Ep, Ee. unfold RangeMatchesWithContext, model_RangeMatches. rewrite Ej, Er, Ey, Ef.
  unfold enforce_alone, callback. cbn. reflexivity.
Qed.

(** What the call with the index [i] has returned when the schedule is over. *)
Definition returned (calls : list ccall) (s : econfig) (i : nat) : option (outcome (bool * option goerr)) :=
  match nth_error (ec_gors s) i, nth_error calls i with
  | Some (GDone st err), Some q => Some (decision q st err)
  | _, _ => None
  end.

(** Any calls of Enforce at the same time, under any schedule in which a call
    whose conditions use eval does not overlap with another call: each call that
    has returned returned what the same call returns on its own, and there is no
    panic unless one of the calls panics on its own.
    ([uses i]: the conditions of call [i] may use eval.) *)
Theorem C51_independent_partial : forall E CE m cs calls (uses : nat -> Prop) sched,
  Forall2 (prepared E CE m) cs calls ->
  (forall i q e, nth_error calls i = Some q -> In e (conditions (m_tree (cq_mat q))) -> no_eval CE e \/ uses i) ->
  eval_exclusive CE calls uses (estart calls) sched ->
  (exists s, erun CE calls (estart calls) sched = Val s /\
     forall i c r, nth_error cs i = Some c -> returned calls s i = Some r ->
       exists m1, Enforce E (fst c) m (snd c) = (let! r := r in Val (m1, r))) \/
  (erun CE calls (estart calls) sched = Panic /\
     exists i c, nth_error cs i = Some c /\ Enforce E (fst c) m (snd c) = Panic).
Proof.
  intros E CE m cs calls uses sched F Hx Ex.
  assert (P : forall i c q, nth_error cs i = Some c -> nth_error calls i = Some q -> prepared E CE m c q).
  { clear -F. induction F as [|c q cs calls H _ IH]; intros [|i] c0 q0 H1 H2; cbn in *; try discriminate; [congruence|eauto]. }
  assert (P' : forall i q, nth_error calls i = Some q -> exists c, nth_error cs i = Some c).
  { clear -F. induction F as [|c q cs calls H _ IH]; intros [|i] q0 H1; cbn in *; try discriminate; [eauto|eauto]. }
  destruct (run_going CE calls uses Hx sched _ (going_start CE calls uses) Ex) as [[s [Hs G]]|[Hp [i [q [Hq Hn]]]]].
  - left. exists s. split; [exact Hs|]. intros i c r Hc Hr. unfold returned in Hr.
    destruct (nth_error (ec_gors s) i) as [[|p|st err]|] eqn:Eg; try discriminate. destruct (nth_error calls i) as [q|] eqn:Eq; [|discriminate]. injection Hr as <-.
    pose proof (w_gors _ _ _ _ G _ _ _ Eg Eq) as W. cbn in W. destruct (enforce_prepared _ _ _ _ _ (P _ _ _ Hc Eq)) as [m1 ->]. exists m1.
    unfold enforce_alone. unfold alone in W. rewrite W. reflexivity.
  - right. split; [exact Hp|]. destruct (P' _ _ Hq) as [c Hc]. exists i, c. split; [exact Hc|]. destruct (enforce_prepared _ _ _ _ _ (P _ _ _ Hc Hq)) as [m1 ->].
    unfold enforce_alone. unfold alone in Hn. now rewrite Hn.
Qed.
Print Assumptions C51_independent_partial.

(** In particular when no condition uses eval: under every schedule. *)
Corollary no_eval_exclusive CE calls s sched : eval_exclusive CE calls (fun _ => False) s sched.
Proof. revert s. induction sched as [|i sched IH]; intros s; cbn; (split; [intros a b []|]); auto. Qed.
Theorem C51_no_eval_partial : forall E CE m cs calls sched,
  Forall2 (prepared E CE m) cs calls ->
  (forall q e, In q calls -> In e (conditions (m_tree (cq_mat q))) -> no_eval CE e) ->
  (exists s, erun CE calls (estart calls) sched = Val s /\
     forall i c r, nth_error cs i = Some c -> returned calls s i = Some r ->
       exists m1, Enforce E (fst c) m (snd c) = (let! r := r in Val (m1, r))) \/
  (erun CE calls (estart calls) sched = Panic /\
     exists i c, nth_error cs i = Some c /\ Enforce E (fst c) m (snd c) = Panic).
Proof.
  intros E CE m cs calls sched F Hx. eapply C51_independent_partial with (uses := fun _ => False); [exact F| |apply no_eval_exclusive].
  intros i q e Hq He. left. eapply Hx; eauto using nth_error_In.
Qed.
Print Assumptions C51_no_eval_partial.

(** ** Every call comes to an end *)
Section SearchInd.
  Variable P : search -> Prop.
  Hypothesis HF : forall st err, P (Found st err).
  Hypothesis HT : forall f, (forall sh sh' p, f sh = Val (sh', p) -> P p) -> P (Then f).
  Fixpoint search_ind2 (p : search) : P p :=
    match p with
    | Found st err => HF st err
    | Then f => HT f (fun sh =>
        match f sh as o return forall sh' p', o = Val (sh', p') -> P p' with
        | Panic => fun sh' p' H => match (eq_ind Panic (fun o => match o with Panic => True | Val _ => False end) Logic.I _ H) with end
        | Val (s1, p1) => fun sh' p' H =>
            eq_ind p1 P (search_ind2 p1) p' (f_equal (fun o => match o with Val (_, x) => x | Panic => p1 end) H)
        end)
    end.
End SearchInd.

Lemma set_set ts i a b : set_gor (set_gor ts i a) i b = set_gor ts i b.
Proof. revert i. induction ts as [|x ts IH]; intros [|i]; cbn; auto. now rewrite IH. Qed.
Lemma running_ends CE calls i : forall p s, nth_error (ec_gors s) i = Some (GRun p) ->
  exists n, erun CE calls s (repeat i n) = Panic \/ exists s' st err, erun CE calls s (repeat i n) = Val s' /\ nth_error (ec_gors s') i = Some (GDone st err).
Proof.
  induction p as [st err|f IH] using search_ind2; intros s H.
  - exists 1. right. cbn [repeat erun]. unfold estep. rewrite H. cbn [obind]. eexists. exists st, err. split; [reflexivity|]. cbn. eapply gor_set_at; eauto.
  - destruct (f (ec_sh s)) as [[sh p]|] eqn:Ef.
    + destruct (IH _ _ _ Ef (mkEconfig sh (set_gor (ec_gors s) i (GRun p)))) as [n Hn]; [cbn; eapply gor_set_at; eauto|].
      exists (S n). cbn [repeat erun]. unfold estep. rewrite H, Ef. cbn [obind]. exact Hn.
    + exists 1. left. cbn [repeat erun]. unfold estep. rewrite H, Ef. reflexivity.
Qed.
(** From any state a call that is given enough steps returns (or panics). *)
Theorem C51_ends : forall CE calls sched s i,
  erun CE calls (estart calls) sched = Val s -> i < List.length calls ->
  exists n, erun CE calls s (repeat i n) = Panic \/
    exists s' r, erun CE calls s (repeat i n) = Val s' /\ returned calls s' i = Some r.
Proof.
  intros CE calls sched s i Hs Li.
  assert (L : forall sched s s', erun CE calls s sched = Val s' -> List.length (ec_gors s') = List.length (ec_gors s)).
  { clear. induction sched as [|j sched IH]; intros s s' H; cbn in H; [congruence|].
    destruct (estep CE calls s j) as [s1|] eqn:E1; [|discriminate]. rewrite (IH _ _ H). clear -E1. unfold estep in E1.
    destruct (nth_error (ec_gors s) j) as [[|[st err|f]|st err]|]; destruct (nth_error calls j); try (injection E1 as <-; cbn; now rewrite ?set_len);
      (destruct (f (ec_sh s)) as [[sh p]|]; [|discriminate]; injection E1 as <-; cbn; now rewrite set_len). }
  apply L in Hs. cbn in Hs. rewrite map_length in Hs.
  destruct (nth_error calls i) as [q|] eqn:Eq; [|apply nth_error_None in Eq; lia].
  destruct (nth_error (ec_gors s) i) as [t|] eqn:Et; [|apply nth_error_None in Et; lia].
  assert (R : forall s', (exists st err, nth_error (ec_gors s') i = Some (GDone st err)) -> exists r, returned calls s' i = Some r).
  { intros s' [st [err H]]. unfold returned. rewrite H, Eq. eauto. }
  destruct t as [|p|st err].
  - destruct (running_ends CE calls i (s_search CE calls i q) (mkEconfig (mkShared (Some i) (put_rule (sh_pvals (ec_sh s)) i [])) (set_gor (ec_gors s) i (GRun (s_search CE calls i q))))) as [n Hn];
      [cbn; eapply gor_set_at; eauto|].
    exists (S n). cbn [repeat erun]. unfold estep. rewrite Et, Eq. cbn [obind]. destruct Hn as [Hn|[s' [st [err [Hn Hd]]]]]; [auto|]. right.
    destruct (R s') as [r Hr]; eauto.
  - destruct (running_ends CE calls i p s Et) as [n Hn]. exists n. destruct Hn as [Hn|[s' [st [err [Hn Hd]]]]]; [auto|]. right. destruct (R s') as [r Hr]; eauto.
  - exists 0. right. cbn. destruct (R s) as [r Hr]; eauto.
Qed.
Print Assumptions C51_ends.

(** ** The property is false with eval

    Nothing else running the concrete evaluator is the one of the examples. *)
Lemma cmini_alone F depth : forall e g, cmini_ev F depth e g g g = mini_ev F depth e g.
Proof.
  induction depth as [|d IH]; intros e g; cbn [cmini_ev mini_ev]; destruct (shape_of e); auto;
    destruct (operands g args) as [[vs|]|]; auto; destruct (String.eqb f "eval"); auto; destruct vs as [|[t|b|o] [|]]; auto.
Qed.

(** One rule, "r.sub == 'alice'", and the matcher eval(p.rule). *)
Definition sync_env : env :=
  mkEnv (fun n => n) (fun _ s => if String.eqb s "eval(p_rule)" then Some [mkTok KOther "eval(p_rule)"] else None)%string
    (fun _ => alone_ev (cmini [])) [].
Definition sync_h : list (orders * mcall) :=
  [(ex_o, CSetDef R_SEC "r" "sub"); (ex_o, CSetDef P_SEC "p" "rule"); (ex_o, CSetDef E_SEC "e" "some(where (p.eft == allow))");
   (ex_o, CSetDef M_SEC "m" "eval(p.rule)"); (ex_o, CBuild); (ex_o, CAdd ["p"; "r.sub == 'alice'"])]%string.
Definition sync_m : model := match mexec sync_env (NewModel sync_env) sync_h with Val (m, _) => m | Panic => NewModel sync_env end.
Definition def0 : argdef := mkArgDef "" [] [].
Definition sync_call (who : string) : ccall :=
  let d k m := match mget k m with Some d => d | None => def0 end in
  mkCall (nth 0 (md_mats sync_m) (mkMatcher def0 (Stage "" []) empty_root)) (d "r"%string (md_r sync_m)) [VStr who] (o_match ex_o)
    (d "p"%string (md_p sync_m)) SOME_ALLOW.
Definition sync_ask (who : string) : orders * list param := (ex_o, [PVal (VStr who)]).

(** bob's call and alice's: bob's installs its eval, then alice's installs its
    own; bob's parses the condition, alice's sets the rule under test, and then
    bob's evaluates with the request of alice: bob is allowed, although on its
    own the same call denies. *)
Theorem C51_independent_refuted :
  good_m sync_h /\ calm sync_env sync_h /\
  (exists rs, mexec sync_env (NewModel sync_env) sync_h = Val (sync_m, rs) /\ Forall (fun r => x_err r = None) rs) /\
  Forall2 (prepared sync_env (cmini []) sync_m) [sync_ask "bob"; sync_ask "alice"] [sync_call "bob"; sync_call "alice"] /\
  exists sched s,
    erun (cmini []) [sync_call "bob"; sync_call "alice"] (estart [sync_call "bob"; sync_call "alice"]) sched = Val s /\
    returned [sync_call "bob"; sync_call "alice"] s 0 = Some (Val (true, None)) /\
    Enforce sync_env ex_o sync_m [PVal (VStr "bob")] = Val (sync_m, (false, None)) /\
    Enforce sync_env ex_o sync_m [PVal (VStr "alice")] = Val (sync_m, (true, None)).
Proof.
  split; [repeat (apply Forall_cons; [apply ex_o_good|]); apply Forall_nil|]. split.
  { repeat (apply Forall_cons; [cbn; repeat split; try discriminate; auto with arith|]); try apply Forall_nil.
    intros _ fns root H. vm_compute in H. injection H as <-. repeat constructor. }
  split; [eexists; split; [vm_compute; reflexivity|repeat constructor]|]. split.
  { assert (P : forall who, prepared sync_env (cmini []) sync_m (sync_ask who) (sync_call who)); [|now repeat constructor].
    intros who. do 7 eexists. split; [vm_compute; reflexivity|]. split; [vm_compute; reflexivity|]. split; [vm_compute; reflexivity|].
    split; [vm_compute; reflexivity|]. split; [vm_compute; reflexivity|]. split; [vm_compute; reflexivity|]. split; [reflexivity|]. vm_compute. reflexivity. }
  exists ([0; 1; 0; 1; 1; 1] ++ repeat 0 10). eexists. split; [vm_compute; reflexivity|]. repeat split; vm_compute; reflexivity.
Qed.
Print Assumptions C51_independent_refuted.

(** ** The hypotheses are met

    Three calls: bob's with eval alone, then two that overlap.  The matcher of
    [sync_m] uses eval; the second one, on r.sub == p.rule, does not. *)
Definition mix_env : env :=
  mkEnv (fun n => n)
    (fun _ s => if String.eqb s "eval(p_rule)" then Some [mkTok KOther "eval(p_rule)"]
                else if String.eqb s "r_sub == p_rule" then Some [mkTok KOther "r_sub == p_rule"] else None)%string
    (fun _ => alone_ev (cmini [])) [].
Definition mix_m : model := match mexec mix_env (NewModel mix_env) (sync_h ++ [(ex_o, CAdd ["p"; "alice"]%string)]) with Val (m, _) => m | Panic => NewModel mix_env end.
Definition plain_ask (who : string) : orders * list param := (ex_o, [POpt (OMatcher "r.sub == p.rule"); PVal (VStr who)]).
Definition plain_call (who : string) : ccall :=
  let d k m := match mget k m with Some d => d | None => def0 end in
  mkCall (match NewContext mix_env ex_o mix_m [OMatcher "r.sub == p.rule"] with
          | Val (m1, _) => nth 1 (md_mats m1) (mkMatcher def0 (Stage "" []) empty_root)
          | Panic => mkMatcher def0 (Stage "" []) empty_root
          end) (d "r"%string (md_r mix_m)) [VStr who] (o_match ex_o) (d "p"%string (md_p mix_m)) SOME_ALLOW.
Definition is_running (t : gor) : bool := match t with GRun _ => true | _ => false end.
Fixpoint exclusiveb (CE : cevaluator) (calls : list ccall) (s : econfig) (sched : list nat) : bool :=
  (negb (existsb is_running (firstn 1 (ec_gors s))) || negb (existsb is_running (skipn 1 (ec_gors s)))) &&
  match sched with
  | [] => true
  | i :: sched' => match estep CE calls s i with Val s' => exclusiveb CE calls s' sched' | Panic => true end
  end.
Lemma running_in s i p : nth_error (ec_gors s) i = Some (GRun p) -> i = 0 \/ existsb is_running (skipn 1 (ec_gors s)) = true.
Proof.
  destruct (ec_gors s) as [|t ts]; intros H; [destruct i; discriminate|]. destruct i as [|i]; [auto|]. right. cbn in *.
  apply existsb_exists. exists (GRun p). split; [eapply nth_error_In; eauto|reflexivity].
Qed.
Lemma exclusiveb_ok CE calls sched : forall s, exclusiveb CE calls s sched = true -> eval_exclusive CE calls (fun i => i = 0) s sched.
Proof.
  assert (Now : forall s, negb (existsb is_running (firstn 1 (ec_gors s))) || negb (existsb is_running (skipn 1 (ec_gors s))) = true ->
    forall a b, a = 0 -> running s a -> running s b -> a = b).
  { intros s H a b -> [p Ha] [p' Hb]. destruct (running_in _ _ _ Hb) as [->|R]; [reflexivity|]. rewrite R in H.
    destruct (ec_gors s) as [|t ts]; [discriminate|]. cbn in Ha. injection Ha as ->. cbn in H. discriminate. }
  induction sched as [|i sched IH]; intros s H; cbn [exclusiveb eval_exclusive] in *; apply andb_true_iff in H as [H1 H2].
  - split; [now apply Now|exact Logic.I].
  - split; [now apply Now|]. intros s' Hs. rewrite Hs in H2. auto.
Qed.
Example C51_ex :
  let cs := [sync_ask "bob"; plain_ask "alice"; plain_ask "bob"] in
  let calls := [mkCall (nth 0 (md_mats mix_m) (mkMatcher def0 (Stage "" []) empty_root)) (cq_rdef (plain_call "bob")) [VStr "bob"] (o_match ex_o) (cq_pdef (plain_call "bob")) SOME_ALLOW;
                plain_call "alice"; plain_call "bob"] in
  let sched := repeat 0 20 ++ [1; 2; 1; 2; 2; 1] ++ repeat 1 20 ++ repeat 2 20 in
  Forall2 (prepared mix_env (cmini []) mix_m) cs calls /\
  (forall i q e, nth_error calls i = Some q -> In e (conditions (m_tree (cq_mat q))) -> no_eval (cmini []) e \/ i = 0) /\
  eval_exclusive (cmini []) calls (fun i => i = 0) (estart calls) sched /\
  exists s, erun (cmini []) calls (estart calls) sched = Val s /\
    returned calls s 0 = Some (Val (false, Some ErrEval)) /\ returned calls s 1 = Some (Val (true, None)) /\ returned calls s 2 = Some (Val (false, None)).
Proof.
  cbv zeta. split.
  { assert (P : forall who, prepared mix_env (cmini []) mix_m (plain_ask who) (plain_call who)).
    { intros who. do 7 eexists. split; [vm_compute; reflexivity|]. split; [vm_compute; reflexivity|]. split; [vm_compute; reflexivity|].
      split; [vm_compute; reflexivity|]. split; [vm_compute; reflexivity|]. split; [vm_compute; reflexivity|]. split; [reflexivity|]. vm_compute. reflexivity. }
    apply Forall2_cons; [|now repeat constructor].
    do 7 eexists. split; [vm_compute; reflexivity|]. split; [vm_compute; reflexivity|]. split; [vm_compute; reflexivity|].
    split; [vm_compute; reflexivity|]. split; [vm_compute; reflexivity|]. split; [vm_compute; reflexivity|]. split; [reflexivity|]. vm_compute. reflexivity. }
  split.
  { assert (N : no_eval (cmini []) "r_sub == p_rule"%string) by (intros own b i b' i'; reflexivity).
    intros [|[|[|i]]] q e Hq He; [auto| | |destruct i; discriminate]; left; cbn in Hq; injection Hq as <-; vm_compute in He; destruct He as [<-|[]]; exact N. }
  split; [apply exclusiveb_ok; vm_compute; reflexivity|]. eexists. split; [vm_compute; reflexivity|]. repeat split; vm_compute; reflexivity.
Qed.
