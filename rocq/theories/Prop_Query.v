(** Properties C10 to C13 and C17 for whole Filter and Enforce calls that use a
    matcher of the model: which stored rules are reported and what is decided.

    [set_of (h1 ++ h2)] are the rules present in the policy section of the
    matcher; [satisfies] says that the conditions of some way through the matcher
    hold for a rule (MatcherSpec.v). *)
From Verif Require Import GoBase GoBaseP DefsM DefsP PolicyM PolicySpec PolicyP EffectorM EffectorP MatcherDefM MatcherM MatcherSpec MatcherP MatcherP2
  RbacM RbacSpec DomainM DomainSpec EvalM ModelM ModelSpec ModelP ModelP2 ModelP3 ModelP4 ModelP5 ModelP6 EnforcerM EnforcerSpec EnforcerP.
From Verif Require Import Prop_Effect Prop_Matcher Prop_Model Prop_ModelDefs Prop_Enforce.

(** The call [ps] on the state [m] after [h] uses matcher [mk], in service with
    the tree [root] on a section defined by [ptext], and request definition
    [rtext]; at most two alternatives at each point; the rules of the section are
    told apart by their comma-joined texts. *)
Record query (E : env) (h : list (orders * mcall)) (m : model) (o : orders) (ps : list param)
    (root : stage) (pd rd : argdef) (h1 h2 : list pop) : Prop := {
  q_good : good_m h;
  q_order : good_orders o;
  q_run : exists rs, mexec E (NewModel E) h = Val (m, rs);
  q_service : exists mk ptext rk rtext,
    in_service E h mk root ptext h1 h2 /\ uses_matcher mk ps /\ pd = NewPolicyDef (GetPolicyKey root) ptext /\
    uses_request rk ps /\ key_of R_SEC rk /\ def_text R_SEC rk h = Some rtext /\ rd = NewRequestDef rk rtext;
  q_narrow : narrow root = true;
  q_full : told_apart pd root (rules_in (h1 ++ h2))
}.
(** The conditions of the matcher can be evaluated in this call. *)
Definition sound (E : env) (o : orders) (m : model) (ps : list param) (pd rd : argdef) (root : stage) (h1 h2 : list pop) : Prop :=
  sound_conditions (e_eval E (functions o m)) pd rd (vals_of ps) root (recorded h1 h2).
(** A stored rule satisfies the matcher for the request of this call. *)
Definition matches (E : env) (o : orders) (m : model) (ps : list param) (pd rd : argdef) (root : stage) (r : rule) : bool :=
  satisfies (e_eval E (functions o m)) pd rd (vals_of ps) root r.
(** The last condition of every way fails for the blank rule; for instance it
    compares a non-empty request value with a policy value. *)
Definition blank_fails (E : env) (o : orders) (m : model) (ps : list param) (pd rd : argdef) (root : stage) : Prop :=
  forall w e, In (w ++ [e]) (ways_of root) -> holds (e_eval E (functions o m)) pd rd (vals_of ps) e (blank pd) = false.

(** What the section holds is what the history says. *)
Lemma query_present E h m o ps root pd rd h1 h2 : query E h m o ps root pd rd h1 h2 ->
  forall r, set_of (h1 ++ h2) r = true <-> present h (GetPolicyKey root :: r).
Proof.
  intros [G Go [rs H] (mk & pt & rk & rt & S & _) _ _] r.
  destruct (in_service_lives _ _ _ _ _ _ _ _ _ G H S) as [j [y [_ [_ [_ [_ Hh]]]]]].
  destruct S as [_ [Kp _]]. unfold present. split.
  - intros Hr. left. split; [exact Kp|]. eauto.
  - intros [[_ [ops [Ho Hr]]]|[Kg _]].
    + rewrite Hh in Ho. injection Ho as <-. exact Hr.
    + unfold p_key, g_key in *. congruence.
Qed.

Lemma query_key E h m o ps root pd rd h1 h2 : query E h m o ps root pd rd h1 h2 ->
  exists t, def_text P_SEC (GetPolicyKey root) h = Some t /\ NewPolicyDef (GetPolicyKey root) t = pd.
Proof.
  intros [G Go [rs H] (mk & pt & rk & rt & S & _ & -> & _) _ _].
  destruct (in_service_lives _ _ _ _ _ _ _ _ _ G H S) as [j [y [_ [_ [_ [A4 _]]]]]].
  pose proof (defs_exec _ _ _ _ H) as D. destruct S as [_ [Kp _]].
  rewrite (f_p _ _ D) in A4 by (exists "p"%char; auto).
  destruct (def_text P_SEC (GetPolicyKey root) h) as [t|]; [|discriminate]. exists t. split; [reflexivity|]. cbn in A4. congruence.
Qed.

Lemma keyed_In k (l : list rule) r : In (k :: r) (map (cons k) l) <-> In r l.
Proof.
  rewrite in_map_iff. split.
  - intros [x [E H]]. now injection E as ->.
  - intros H. eauto.
Qed.
Lemma keyed_occ k (l : list rule) r : count_occ (list_eq_dec string_dec) (map (cons k) l) (k :: r) = occ l r.
Proof.
  unfold occ. induction l as [|x l IH]; [reflexivity|]. cbn [map count_occ].
  destruct (list_eq_dec string_dec (k :: x) (k :: r)), (list_eq_dec string_dec x r); cbn; rewrite IH; congruence.
Qed.

(** ** The general description *)
Theorem C10_filter_exactly :
  forall E h m o ps root pd rd h1 h2,
    query E h m o ps root pd rd h1 h2 -> sound E o m ps pd rd root h1 h2 ->
    exists ms k,
      Filter E o m ps = Val (m, (ms, None)) /\
      (forall x, In x ms -> exists r, x = GetPolicyKey root :: r) /\
      (forall r, occ ms (GetPolicyKey root :: r) =
                 (if set_of (h1 ++ h2) r then times (e_eval E (functions o m)) pd rd (vals_of ps) root r else 0) +
                 (if rule_eqb r (blank pd) then k else 0)) /\
      (0 < k <-> exists w, In w (ways_of root) /\
         phantom (e_eval E (functions o m)) pd rd (vals_of ps) (recorded h1 h2) (fun r => set_of (h1 ++ h2) r = true) w).
Proof.
  intros E h m o ps root pd rd h1 h2 [G Go [rs H] (mk & pt & rk & rt & S & Um & -> & Ur & Kr & Hr & ->) Hn Ap] SC.
  destruct (query_in_service E h m rs mk root pt h1 h2 rk rt o ps G H S Um Ur Kr Hr) as [y [L [HF _]]].
  destruct (C10_reported_exactly (e_eval E (functions o m)) (o_match o) _ (NewRequestDef rk rt) (vals_of ps) root h1 h2 y
              (proj2 (proj2 Go)) Hn Ap L SC) as [l [k [A [B C]]]].
  exists (map (cons (GetPolicyKey root)) l), k. split; [now rewrite HF, A|]. split; [|split; [|exact C]].
  - intros x Hx. apply in_map_iff in Hx as [r [<- _]]. eauto.
  - intros r. unfold occ at 1. rewrite keyed_occ. apply B.
Qed.
Print Assumptions C10_filter_exactly.

(** Every rule reported is present and satisfies the matcher, or is the blank
    rule; this needs no assumption on evaluation. *)
Theorem C10_filter_only_satisfying :
  forall E h m o ps root pd rd h1 h2 m' ms err,
    query E h m o ps root pd rd h1 h2 ->
    (forall e, In e (texts root) -> (forall r, recorded h1 h2 r -> has_values pd e r) /\ own_values (e_eval E (functions o m)) pd rd (vals_of ps) e (recorded h1 h2)) ->
    Filter E o m ps = Val (m', (ms, err)) ->
    forall x, In x ms -> exists r, x = GetPolicyKey root :: r /\
      ((present h x /\ matches E o m ps pd rd root r = true) \/ r = blank pd).
Proof.
  intros E h m o ps root pd rd h1 h2 m' ms err Q HT HF x Hx. pose proof (query_present _ _ _ _ _ _ _ _ _ _ Q) as HP.
  destruct Q as [G Go [rs H] (mk & pt & rk & rt & S & Um & -> & Ur & Kr & Hr & ->) Hn Ap].
  destruct (query_in_service E h m rs mk root pt h1 h2 rk rt o ps G H S Um Ur Kr Hr) as [y [L [HF' _]]].
  rewrite HF' in HF. apply obind_val in HF as [[l e] [HR HF]]. injection HF as <- <- <-. cbn in Hx.
  apply in_map_iff in Hx as [r [<- Hr']]. exists r. split; [reflexivity|]. rewrite <- HP.
  exact (C10_only_satisfying _ _ _ _ _ _ _ _ _ _ _ (proj2 (proj2 Go)) Hn Ap L HT HR r Hr').
Qed.
Print Assumptions C10_filter_only_satisfying.

(** ** C10, C11, C12

    Partial, see [query], [sound] and [blank_fails] for what is assumed: Filter
    reports exactly the present rules that satisfy the matcher, whatever was added,
    removed and cleared before, under every map order. *)
Theorem C12_filter_partial :
  forall E h m o ps root pd rd h1 h2,
    query E h m o ps root pd rd h1 h2 -> sound E o m ps pd rd root h1 h2 -> blank_fails E o m ps pd rd root ->
    exists ms, Filter E o m ps = Val (m, (ms, None)) /\
      forall x, In x ms <-> exists r, x = GetPolicyKey root :: r /\ present h x /\ matches E o m ps pd rd root r = true.
Proof.
  intros E h m o ps root pd rd h1 h2 Q SC Hb. pose proof (query_present _ _ _ _ _ _ _ _ _ _ Q) as HP.
  destruct (C10_filter_exactly _ _ _ _ _ _ _ _ _ _ Q SC) as [ms [k [A [B [C D]]]]].
  exists ms. split; [exact A|].
  assert (Hk : k = 0).
  { destruct k as [|k]; [reflexivity|]. exfalso. destruct D as [D _]. destruct D as [w [Hw [pre [e [-> [X _]]]]]]; [lia|].
    rewrite (Hb pre e Hw) in X. discriminate. }
  subst k. intros x. split.
  - intros Hx. destruct (B x Hx) as [r ->]. exists r. split; [reflexivity|]. apply occ_In in Hx. rewrite C in Hx.
    rewrite <- HP. unfold matches. rewrite <- times_satisfies. destruct (rule_eqb r (blank pd)), (set_of (h1 ++ h2) r); intuition lia.
  - intros [r [-> [Hp Hm]]]. apply occ_In. rewrite C. apply HP in Hp. rewrite Hp. apply times_satisfies in Hm. lia.
Qed.
Print Assumptions C12_filter_partial.

(** When rules were only added, also for requests that the blank rule would
    match. *)
Theorem C10_filter_partial :
  forall E h m o ps root pd rd h1 h2,
    query E h m o ps root pd rd h1 h2 -> sound E o m ps pd rd root h1 h2 ->
    only_adds h1 -> only_adds h2 -> (exists r, present h (GetPolicyKey root :: r)) ->
    exists ms, Filter E o m ps = Val (m, (ms, None)) /\
      forall x, In x ms <-> exists r, x = GetPolicyKey root :: r /\ present h x /\ matches E o m ps pd rd root r = true.
Proof.
  intros E h m o ps root pd rd h1 h2 Q SC O1 O2 [r0 Hr0]. pose proof (query_present _ _ _ _ _ _ _ _ _ _ Q) as HP.
  pose proof (adds_recorded h1 h2 O1 O2) as HR.
  destruct (C10_filter_exactly _ _ _ _ _ _ _ _ _ _ Q SC) as [ms [k [A [B [C D]]]]].
  exists ms. split; [exact A|].
  assert (Hk : k = 0).
  { destruct k as [|k]; [reflexivity|]. exfalso. destruct D as [D _]. destruct D as [w [_ [pre [e [-> [_ X]]]]]]; [lia|].
    destruct X as [[X _]|[x [Hx [_ X]]]].
    - apply (X r0). apply HR, HP, Hr0.
    - apply (X x); [now apply HR|]. apply Forall_forall. intros e0 _. unfold same_values. now destruct (p_args e0). }
  subst k. intros x. split.
  - intros Hx. destruct (B x Hx) as [r ->]. exists r. split; [reflexivity|]. apply occ_In in Hx. rewrite C in Hx.
    rewrite <- HP. unfold matches. rewrite <- times_satisfies. destruct (rule_eqb r (blank pd)), (set_of (h1 ++ h2) r); intuition lia.
  - intros [r [-> [Hp Hm]]]. apply occ_In. rewrite C. apply HP in Hp. rewrite Hp. apply times_satisfies in Hm. lia.
Qed.
Print Assumptions C10_filter_partial.

(** A rule with a non-empty value that is not present is never reported. *)
Theorem C11_filter_partial :
  forall E h m o ps root pd rd h1 h2 m' ms err r,
    query E h m o ps root pd rd h1 h2 ->
    (forall e, In e (texts root) -> (forall r, recorded h1 h2 r -> has_values pd e r) /\ own_values (e_eval E (functions o m)) pd rd (vals_of ps) e (recorded h1 h2)) ->
    (exists v, In v r /\ v <> ""%string) -> ~ present h (GetPolicyKey root :: r) ->
    Filter E o m ps = Val (m', (ms, err)) -> ~ In (GetPolicyKey root :: r) ms.
Proof.
  intros E h m o ps root pd rd h1 h2 m' ms err r Q HT [v [Hv Hne]] Hp HF Hin.
  destruct (C10_filter_only_satisfying _ _ _ _ _ _ _ _ _ _ _ _ _ Q HT HF _ Hin) as [r' [E' [[X _]|X]]]; injection E' as <-; [contradiction|].
  subst r. apply repeat_spec in Hv. contradiction.
Qed.
Print Assumptions C11_filter_partial.

(** ** C12 for decisions

    With allow-override: the request is allowed exactly when a present rule with
    effect allow satisfies the matcher; so revoking every such rule denies. *)
Theorem C12_enforce_partial :
  forall E h m o ps root pd rd h1 h2,
    query E h m o ps root pd rd h1 h2 -> sound E o m ps pd rd root h1 h2 -> blank_fails E o m ps pd rd root ->
    spells (effect_in_force h ps) "some(where (p.eft == allow))" ->
    exists b, Enforce E o m ps = Val (m, (b, None)) /\
      (b = true <-> exists r, present h (GetPolicyKey root :: r) /\ matches E o m ps pd rd root r = true /\
                              rule_effect h (GetPolicyKey root :: r) = Allow).
Proof.
  intros E h m o ps root pd rd h1 h2 Q SC Hb Hs.
  destruct (C12_filter_partial _ _ _ _ _ _ _ _ _ _ Q SC Hb) as [ms [HF Hms]].
  destruct (query_key _ _ _ _ _ _ _ _ _ _ Q) as [t [Ht Epd]].
  destruct Q as [G Go [rs H] (mk & pt & rk & rt & S & Um & Hpd & Ur & Kr & Hr & Hrd) Hn Ap].
  destruct (query_in_service E h m rs mk root pt h1 h2 rk rt o ps G H S Um Ur Kr Hr) as [y [L [HF' HE]]].
  rewrite HF' in HF. apply obind_val in HF as [[l e] [HR HF]]. injection HF as HF1 HF2. cbn in HF1, HF2. subst e.
  specialize (HE l None HR). rewrite <- Hpd in HE. 
  destruct (C18_allow_override _ pd (map (cons (GetPolicyKey root)) l) Hs) as [b [Hd Hiff]].
  unfold decision in Hd. cbn [NewEffectDef ed_expr] in Hd. rewrite Hd in HE. exists b. split; [exact HE|].
  rewrite Hiff, HF1. unfold some_effect. split.
  - intros [x [Hx He]]. apply Hms in Hx as [r [-> [Hp Hm]]]. exists r. cbn [rule_effect]. rewrite Ht. split; [exact Hp|]. split; [exact Hm|]. now rewrite Epd.
  - intros [r [Hp [Hm He]]]. exists (GetPolicyKey root :: r). split; [apply Hms; eauto|]. cbn [rule_effect] in He. now rewrite Ht, Epd in He.
Qed.
Print Assumptions C12_enforce_partial.

(** ** C13: no rule twice

    Partial: when no rule can satisfy the matcher in two ways, as in every
    matcher without || ([C13_once_without_or]). *)
Theorem C13_filter_partial :
  forall E h m o ps root pd rd h1 h2,
    query E h m o ps root pd rd h1 h2 -> sound E o m ps pd rd root h1 h2 -> blank_fails E o m ps pd rd root ->
    (forall r, times (e_eval E (functions o m)) pd rd (vals_of ps) root r <= 1) ->
    exists ms, Filter E o m ps = Val (m, (ms, None)) /\ NoDup ms.
Proof.
  intros E h m o ps root pd rd h1 h2 Q SC Hb Ht.
  destruct (C10_filter_exactly _ _ _ _ _ _ _ _ _ _ Q SC) as [ms [k [A [B [C D]]]]].
  exists ms. split; [exact A|].
  assert (Hk : k = 0).
  { destruct k as [|k]; [reflexivity|]. exfalso. destruct D as [D _]. destruct D as [w [Hw [pre [e [-> [X _]]]]]]; [lia|].
    rewrite (Hb pre e Hw) in X. discriminate. }
  subst k. apply (NoDup_count_occ (list_eq_dec string_dec)). intros x. change (occ ms x <= 1).
  destruct (in_dec (list_eq_dec string_dec) x ms) as [Hx|Hx].
  - destruct (B x Hx) as [r ->]. rewrite C. specialize (Ht r). destruct (set_of (h1 ++ h2) r), (rule_eqb r (blank pd)); lia.
  - apply (count_occ_not_In (list_eq_dec string_dec)) in Hx. unfold occ. rewrite Hx. lia.
Qed.
Print Assumptions C13_filter_partial.

Lemma ways_texts_sub : forall s w e, In w (ways s) -> In e w -> e = stage_expr s \/ In e (texts s).
Proof.
  fix IH 1. intros [x cs] w e. destruct cs as [|c cs].
  - cbn. intros [<-|[]] [<-|[]]. now left.
  - intros Hw He. cbn [ways] in Hw. apply in_map_iff in Hw as [w' [<- Hw]]. destruct He as [<-|He]; [now left|]. right.
    cbn [texts stage_expr]. revert Hw. generalize (c :: cs) as l. fix IHl 1. intros [|c' l]; [intros []|].
    cbn [flat_map]. intros Hw. apply in_app_or in Hw as [Hw|Hw].
    + apply in_or_app. left. destruct (IH c' w' e Hw He) as [X|X]; [now left|now right].
    + apply in_or_app. right. exact (IHl l Hw).
Qed.
Lemma ways_texts root w e : In w (ways_of root) -> In e w -> In e (texts root).
Proof.
  destruct root as [x cs]. unfold ways_of. cbn [stage_children texts]. intros Hw He. apply in_flat_map in Hw as [c [Hc Hw]].
  apply in_flat_map. exists c. split; [exact Hc|]. destruct (ways_texts_sub c w e Hw He); [now left|now right].
Qed.
Lemma decide_total ex d ms : exists res, decide ex d ms None = Val res.
Proof.
  assert (Dec : supported ex \/ ~ supported ex).
  { unfold supported. destruct (string_dec ex SOME_ALLOW); [tauto|]. destruct (string_dec ex NO_DENY); [tauto|].
    destruct (string_dec ex SOME_ALLOW_NO_DENY); tauto. }
  destruct Dec as [D|D].
  - rewrite decide_supported by exact D. destruct (forallb _ _); eauto.
  - rewrite decide_unsupported by exact D. destruct ms; eauto.
Qed.

(** ** C17: decisions and map orders

    Partial: the same call on the same state under two orders of the maps, when
    the conditions have the same truth values under both (they may call role
    functions, which visit maps), can be evaluated, no rule is matched without
    being present, and no matching rule has an effect other than allow and deny:
    the reported rules are the same up to order and the decision is the same. *)
Theorem C17_enforce_partial :
  forall E h m o o' ps root pd rd h1 h2,
    query E h m o ps root pd rd h1 h2 -> query E h m o' ps root pd rd h1 h2 ->
    sound E o m ps pd rd root h1 h2 -> sound E o' m ps pd rd root h1 h2 ->
    blank_fails E o m ps pd rd root ->
    (forall e r, In e (texts root) -> holds (e_eval E (functions o m)) pd rd (vals_of ps) e r =
                                     holds (e_eval E (functions o' m)) pd rd (vals_of ps) e r) ->
    (forall r, present h (GetPolicyKey root :: r) -> matches E o m ps pd rd root r = true ->
               rule_effect h (GetPolicyKey root :: r) <> Indeterminate) ->
    exists ms ms' res,
      Filter E o m ps = Val (m, (ms, None)) /\ Filter E o' m ps = Val (m, (ms', None)) /\ Permutation ms ms' /\
      Enforce E o m ps = Val (m, res) /\ Enforce E o' m ps = Val (m, res).
Proof.
  intros E h m o o' ps root pd rd h1 h2 Q Q' SC SC' Hb Hsame Hi.
  assert (Hall : forall w r, In w (ways_of root) -> all_hold (e_eval E (functions o m)) pd rd (vals_of ps) w r =
                                                   all_hold (e_eval E (functions o' m)) pd rd (vals_of ps) w r).
  { intros w r Hw. unfold all_hold. assert (Hin : forall e, In e w -> In e (texts root)) by (intros e; now apply ways_texts).
    clear Hw. induction w as [|e w IH]; [reflexivity|]. cbn [forallb]. rewrite (Hsame e r (Hin e (or_introl eq_refl))), IH; [reflexivity|].
    intros x Hx. apply Hin. now right. }
  assert (Hb' : blank_fails E o' m ps pd rd root).
  { intros w e Hw. rewrite <- (Hsame e); [exact (Hb w e Hw)|]. apply (ways_texts root (w ++ [e]) e Hw). apply in_or_app. right. now left. }
  assert (Ht : forall r, times (e_eval E (functions o m)) pd rd (vals_of ps) root r = times (e_eval E (functions o' m)) pd rd (vals_of ps) root r).
  { intros r. unfold times. f_equal. apply filter_ext_in. intros w Hw. now apply Hall. }
  destruct (C10_filter_exactly _ _ _ _ _ _ _ _ _ _ Q SC) as [ms [k [A [B [C D]]]]].
  destruct (C10_filter_exactly _ _ _ _ _ _ _ _ _ _ Q' SC') as [ms' [k' [A' [B' [C' D']]]]].
  assert (Hk : k = 0).
  { destruct k as [|k]; [reflexivity|]. exfalso. destruct D as [D _]. destruct D as [w [Hw [pre [e [-> [X _]]]]]]; [lia|].
    rewrite (Hb pre e Hw) in X. discriminate. }
  assert (Hk' : k' = 0).
  { destruct k' as [|k']; [reflexivity|]. exfalso. destruct D' as [D' _]. destruct D' as [w [Hw [pre [e [-> [X _]]]]]]; [lia|].
    rewrite (Hb' pre e Hw) in X. discriminate. }
  subst k k'.
  assert (P : Permutation ms ms').
  { apply (Permutation_count_occ (list_eq_dec string_dec)). intros x. change (occ ms x = occ ms' x).
    destruct (in_dec (list_eq_dec string_dec) x ms) as [Hx|Hx].
    - destruct (B x Hx) as [r ->]. now rewrite C, C', Ht.
    - destruct (in_dec (list_eq_dec string_dec) x ms') as [Hx'|Hx'].
      + destruct (B' x Hx') as [r ->]. now rewrite C, C', Ht.
      + apply (count_occ_not_In (list_eq_dec string_dec)) in Hx, Hx'. unfold occ. congruence. }
  exists ms, ms'. 
  assert (Hind : ~ has_effect h ms Indeterminate).
  { intros [x [Hx He]]. destruct (C12_filter_partial _ _ _ _ _ _ _ _ _ _ Q SC Hb) as [ms2 [A2 I2]]. rewrite A in A2. injection A2 as <-.
    apply I2 in Hx as [r [-> [Hp Hm]]]. exact (Hi r Hp Hm He). }
  destruct (query_key _ _ _ _ _ _ _ _ _ _ Q) as [t [Htt Epd]].
  destruct Q as [G Go [rs H] (mk & pt & rk & rt & S & Um & Hpd & Ur & Kr & Hr & Hrd) Hn Ap].
  destruct (query_in_service E h m rs mk root pt h1 h2 rk rt o ps G H S Um Ur Kr Hr) as [y [L [HF HE]]].
  destruct (query_in_service E h m rs mk root pt h1 h2 rk rt o' ps G H S Um Ur Kr Hr) as [y' [L' [HF' HE']]].
  rewrite A in HF. symmetry in HF. apply obind_val in HF as [[l e] [HR HF]]. injection HF as HF1 HF2. cbn in HF1, HF2. subst e.
  rewrite A' in HF'. symmetry in HF'. apply obind_val in HF' as [[l' e] [HR' HF']]. injection HF' as HF1' HF2'. cbn in HF1', HF2'. subst e.
  specialize (HE l None HR). specialize (HE' l' None HR'). rewrite <- Hpd, HF1 in HE. rewrite <- Hpd, HF1' in HE'.
  assert (Hd : decision (effect_in_force h ps) pd ms None = decision (effect_in_force h ps) pd ms' None).
  { apply C17_order_independent_partial; [exact P|]. intros _. rewrite <- Epd, effects_same by
      (eauto; apply Forall_forall; intros x Hx; exact (B x Hx)). exact Hind. }
  unfold decision in Hd. cbn [NewEffectDef ed_expr] in Hd. rewrite <- Hd in HE'.
  destruct (decide_total (no_spaces (effect_in_force h ps)) pd ms) as [res Hres]. rewrite Hres in HE, HE'. exists res.
  repeat split; auto.
Qed.
Print Assumptions C17_enforce_partial.

(** ** Example: two rules for alice, one of them removed again *)
Definition qh : list (orders * mcall) := eft_setup ++ [(ex_rev, CRemove ["p"; "alice"; "data1"; "allow"])].
Definition qm : model := match mexec ex_env (NewModel ex_env) qh with Val (m, _) => m | Panic => NewModel ex_env end.
Definition qroot : stage := Stage "" [Stage "r_sub == p_sub" [Stage "r_obj == p_obj" []]].
Definition qp : argdef := NewPolicyDef "p" "sub, obj, eft".
Definition qr : argdef := NewRequestDef "r" "sub, obj".
Definition q2 : list pop :=
  [PAdd ["alice"; "data1"; "allow"]; PAdd ["alice"; "data1"; "deny"]; PAdd ["bob"; "data1"; "log"]; PAdd ["bob"; "data1"; "allow"];
   PRemove ["alice"; "data1"; "allow"]].
Definition qps (who : string) : list param := [PVal (VStr who); PVal (VStr "data1")].

Lemma query_ex o who : good_orders o -> query ex_env qh qm o (qps who) qroot qp qr [] q2.
Proof.
  intros Go. constructor.
  - repeat (apply Forall_cons; [first [apply ex_o_good|apply ex_rev_good]|]); apply Forall_nil.
  - exact Go.
  - eexists. vm_compute. reflexivity.
  - exists "m", "sub, obj, eft", "r", "sub, obj". split; [|split; [|split; [reflexivity|split; [|split; [|split; reflexivity]]]]].
    + split; [exists "m"%char; auto|]. split; [reflexivity|].
      exists (firstn 5 qh), ex_o, CBuild, (skipn 6 qh). eexists _, _, _, _, _.
      split; [reflexivity|]. split; [now left|]. split; [vm_compute; reflexivity|]. split; [vm_compute; reflexivity|].
      split; [reflexivity|]. split; [reflexivity|]. split; [vm_compute; reflexivity|].
      split; [cbn; repeat (apply Forall_cons; [exact I|]); apply Forall_nil|]. repeat split; reflexivity.
    + split; [apply Forall_nil|now left].
    + split; [apply Forall_nil|now left].
    + exists "r"%char. auto.
  - reflexivity.
  - apply told_apart_ops; [apply Forall_nil|]. repeat (apply Forall_cons; [cbn; split; [discriminate|repeat constructor]|]); apply Forall_nil.
Qed.

Lemma sound_ex o who : sound ex_env o qm (qps who) qp qr qroot [] q2.
Proof.
  unfold sound. apply sound_named. intros e He.
  assert (Hev : forall r, recorded [] q2 r \/ r = blank qp -> exists x y z, r = [x; y; z]).
  { intros r [Hr| ->]; [|now exists "", "", ""].
    assert (L : List.length r = 3).
    { apply (recorded_in [] q2 (fun r => List.length r = 3)); [discriminate|repeat constructor|exact Hr]. }
    destruct r as [|x [|y [|z [|]]]]; try discriminate. eauto. }
  cbn in He. destruct He as [<-|[<-|[]]]; (split; [|split]).
  - intros r Hr x [<-|[]]. destruct (Hev r (or_introl Hr)) as [x0 [y0 [z0 ->]]]. discriminate.
  - intros get get' H1 H2. cbn. rewrite (H1 "p_sub"), (H2 "r_sub") by (try discriminate; now left). reflexivity.
  - intros r Hr. destruct (Hev r Hr) as [x [y [z ->]]]. split; [reflexivity|]. cbn. eauto.
  - intros r Hr x [<-|[]]. destruct (Hev r (or_introl Hr)) as [x0 [y0 [z0 ->]]]. discriminate.
  - intros get get' H1 H2. cbn. rewrite (H1 "p_obj"), (H2 "r_obj") by (try discriminate; now left). reflexivity.
  - intros r Hr. destruct (Hev r Hr) as [x [y [z ->]]]. split; [reflexivity|]. cbn. eauto.
Qed.

Example query_example :
  query ex_env qh qm ex_rev (qps "alice") qroot qp qr [] q2 /\ sound ex_env ex_rev qm (qps "alice") qp qr qroot [] q2 /\
  blank_fails ex_env ex_rev qm (qps "alice") qp qr qroot /\ spells (effect_in_force qh (qps "alice")) "some(where (p.eft == allow))" /\
  Enforce ex_env ex_rev qm (qps "alice") = Val (qm, (false, None)) /\
  Filter ex_env ex_rev qm (qps "alice") = Val (qm, ([["p"; "alice"; "data1"; "deny"]], None)) /\
  Enforce ex_env ex_rev qm (qps "bob") = Val (qm, (true, None)).
Proof.
  split; [apply query_ex, ex_rev_good|]. split; [apply sound_ex|]. split.
  - intros w e [H|[]]. destruct w as [|a [|b [|c w]]]; try discriminate; cbn in H; injection H as <- <-; vm_compute; reflexivity.
  - split; [reflexivity|]. repeat split; vm_compute; reflexivity.
Qed.
