(** Property C64: what a query leaves behind. *)
From Verif Require Import GoBase GoBaseP DefsM PolicyM PolicySpec MatcherDefM MatcherDefSpec MatcherM MatcherSpec
  RbacM RbacSpec DomainM DomainSpec EvalM ModelM ModelSpec ModelP ModelP2 ModelP3 ModelP4 ModelP5 ModelP6 EnforcerM EnforcerSpec EnforcerP SafeSpec SafeP SimP Prop_Model Prop_Safe.

(** The call Enforce or RangeMatches (of which Filter is a special case) with the
    parameters [ps] on the model [m] returned and left the model [m']. *)
Definition asked (E : env) (o : orders) (m : model) (ps : list param) (m' : model) : Prop :=
  (exists r, Enforce E o m ps = Val (m', r)) \/
  (exists (S : Type) (fn : S -> rule -> S * bool) st r, enforcer_RangeMatches E o m ps fn st = Val (m', r)).
(** Matcher values in the options are ones the program already has. *)
Definition own_matchers (m : model) (ps : list param) : Prop := Forall (held (List.length (md_mats m))) (opts_of ps).

Lemma asked_adhoc E o m ps m' : asked E o m ps m' -> exists ha rs, Forall (adhoc o) ha /\ mexec E m ha = Val (m', rs).
Proof.
  intros [[r H]|[S [fn [st [r H]]]]].
  - unfold Enforce, splitParams in H. apply obind_val in H as [[[m1 c] rv] [Hc H]]. apply obind_val in Hc as [[m2 c2] [Hc E1]].
    injection E1 as <- <- <-. apply context_adhoc in Hc. destruct c2 as [x|e].
    + apply obind_val in H as [r' [_ H]]. injection H as <- <-. exact Hc.
    + injection H as <- <-. exact Hc.
  - unfold enforcer_RangeMatches, splitParams in H. apply obind_val in H as [[[m1 c] rv] [Hc H]]. apply obind_val in Hc as [[m2 c2] [Hc E1]].
    injection E1 as <- <- <-. apply context_adhoc in Hc. destruct c2 as [x|e].
    + apply obind_val in H as [r' [_ H]]. injection H as <- <-. exact Hc.
    + injection H as <- <-. exact Hc.
Qed.
Lemma asked_sim E h m rs o ps m' : good_m h -> mexec E (NewModel E) h = Val (m, rs) -> asked E o m ps m' ->
  Sim (List.length (md_mats m)) (List.length (md_mats m') - List.length (md_mats m)) m m' /\ mm_ok m.
Proof.
  intros G H A. destruct (reachable_ok E h m rs G H) as [g [V W]]. destruct (asked_adhoc _ _ _ _ _ A) as [ha [ra [F Ha]]].
  split; [|exact (v_mm m g V)]. eapply ext_sim; [exact V|]. eapply ext_adhoc; [apply ext_refl|exact F|exact Ha].
Qed.

(** ** What can be observed right after the query

    Every query with every combination of options, also ad-hoc matchers: the rules,
    the definitions and the answers of all further queries are as before. *)
Theorem C64_state_unchanged :
  forall E h m rs o ps m',
    good_m h -> mexec E (NewModel E) h = Val (m, rs) -> asked E o m ps m' ->
    (forall o', model_rules o' m' = model_rules o' m) /\
    (forall s k, GetDef m' s k = GetDef m s k) /\ model_String m' = model_String m /\
    (forall o' ps', own_matchers m ps' ->
       answer (Enforce E o' m' ps') = answer (Enforce E o' m ps') /\
       answer (Filter E o' m' ps') = answer (Filter E o' m ps')).
Proof.
  intros E h m rs o ps m' G H A. destruct (asked_sim _ _ _ _ _ _ _ G H A) as [S Hm].
  split; [intros o'; exact (rules_sim _ _ o' m m' _ _ S)|]. split; [intros s k; exact (getdef_sim _ _ m m' s k S)|].
  split; [exact (string_sim _ _ m m' S)|]. intros o' ps' Hh. split; [exact (Enforce_sim _ _ E o' m m' ps' S Hm Hh)|].
  exact (Range_sim _ _ E o' m m' ps' _ _ S Hm Hh).
Qed.
Print Assumptions C64_state_unchanged.

(** ** Later calls

    Whatever calls follow: if they do not panic with or without the query, every
    one returns the same, and at the end rules, definitions and queries agree. *)
Theorem C64_later_same :
  forall E h m rs o ps m' h2 m2 rs2 m2' rs2',
    good_m (h ++ h2) -> mexec E (NewModel E) h = Val (m, rs) -> asked E o m ps m' ->
    mexec E m h2 = Val (m2, rs2) -> mexec E m' h2 = Val (m2', rs2') ->
    rs2' = rs2 /\
    (forall o', model_rules o' m2' = model_rules o' m2) /\
    (forall s k, GetDef m2' s k = GetDef m2 s k) /\
    (forall o' ps', own_matchers m ps' ->
       answer (Enforce E o' m2' ps') = answer (Enforce E o' m2 ps') /\
       answer (Filter E o' m2' ps') = answer (Filter E o' m2 ps')).
Proof.
  intros E h m rs o ps m' h2 m2 rs2 m2' rs2' G H A H2 H2'.
  assert (Gh : good_m h) by (apply Forall_app in G; apply G).
  destruct (asked_sim _ _ _ _ _ _ _ Gh H A) as [S Hm].
  assert (R : mexec E (NewModel E) (h ++ h2) = Val (m2, rs ++ rs2)) by (apply mexec_app; eauto 6).
  destruct (reachable_ok E _ _ _ G R) as [g [V W]].
  destruct (exec_sim _ _ E h2 m m' _ _ _ _ S H2 H2') as [-> S2]. split; [reflexivity|].
  split; [intros o'; exact (rules_sim _ _ o' m2 m2' _ _ S2)|]. split; [intros s k; exact (getdef_sim _ _ m2 m2' s k S2)|].
  intros o' ps' Hh. split; [exact (Enforce_sim _ _ E o' m2 m2' ps' S2 (v_mm _ _ V) Hh)|].
  exact (Range_sim _ _ E o' m2 m2' ps' _ _ S2 (v_mm _ _ V) Hh).
Qed.
Print Assumptions C64_later_same.

(** The texts that the options of the query may build as ad-hoc matchers ("m" is
    built when the query selects no matcher and there is none of that name) give at
    most two alternatives at every point. *)
Definition narrow_texts (E : env) (ps : list param) : Prop :=
  at_most_two E "m" /\
  Forall (fun op => match op with OMatcher s | OMatcherDef s => at_most_two E s | _ => True end) (opts_of ps).

Definition adhoc_ok (E : env) (o : orders) (oc : orders * mcall) : Prop := fst oc = o /\ exists t, snd oc = CAdhoc t /\ at_most_two E t.
Definition by_adhocs (E : env) (o : orders) (m m' : model) : Prop := exists ha rs, Forall (adhoc_ok E o) ha /\ mexec E m ha = Val (m', rs).
Lemma by_refl E o m : by_adhocs E o m m.
Proof. exists [], []. split; [constructor|reflexivity]. Qed.
Lemma by_trans E o m m1 m2 : by_adhocs E o m m1 -> by_adhocs E o m1 m2 -> by_adhocs E o m m2.
Proof.
  intros [ha [ra [Fa Ha]]] [hb [rb [Fb Hb]]]. exists (ha ++ hb), (ra ++ rb). split; [now apply Forall_app|]. apply mexec_app. eauto 6.
Qed.
Lemma by_option E o m x op m' x' err : match op with OMatcher s | OMatcherDef s => at_most_two E s | _ => True end ->
  option_apply E o m x op = Val (m', x', err) -> by_adhocs E o m m'.
Proof.
  intros N H.
  assert (T : forall t m' x' err, at_most_two E t -> setMatcherText E o m x t = Val (m', x', err) -> by_adhocs E o m m').
  { intros t m1 x1 e1 Nt Ht. destruct (text_adhoc _ _ _ _ _ _ _ _ Ht) as [rs Hx]. exists [(o, CAdhoc t)], rs. split; [|exact Hx].
    constructor; [|constructor]. split; [reflexivity|]. exists t. auto. }
  destruct op; cbn [option_apply] in H.
  - destruct (String.eqb s ""); [injection H as <- <- <-; apply by_refl|].
    destruct (mget s (md_mMap m)); [injection H as <- <- <-; apply by_refl|]. eapply T; eauto.
  - eapply T; eauto.
  - injection H as <- <- <-. apply by_refl.
  - destruct (String.eqb s ""); [injection H as <- <- <-; apply by_refl|].
    apply obind_val in H as [d [_ H]]. injection H as <- <- <-. apply by_refl.
  - injection H as <- <- <-. apply by_refl.
  - destruct (String.eqb s ""); injection H as <- <- <-; apply by_refl.
  - injection H as <- <- <-. apply by_refl.
  - injection H as <- <- <-. apply by_refl.
Qed.
Lemma by_options E o ops : forall m x m' x' err,
  Forall (fun op => match op with OMatcher s | OMatcherDef s => at_most_two E s | _ => True end) ops ->
  apply_options E o m x ops = Val (m', x', err) -> by_adhocs E o m m'.
Proof.
  induction ops as [|op ops IH]; intros m x m' x' err F H; cbn [apply_options] in H.
  - injection H as <- <- <-. apply by_refl.
  - inversion F as [|? ? F1 F2]; subst. apply obind_val in H as [[[m1 x1] e1] [Eo H]]. pose proof (by_option _ _ _ _ _ _ _ _ F1 Eo) as B1.
    destruct e1; [injection H as <- <- <-; exact B1|]. eapply by_trans; eauto.
Qed.
Lemma by_context E o m ps m' c : narrow_texts E ps -> NewContext E o m (opts_of ps) = Val (m', c) -> by_adhocs E o m m'.
Proof.
  intros [Nm F] H. unfold NewContext in H. apply obind_val in H as [[[m1 x1] e1] [Eo H]]. pose proof (by_options _ _ _ _ _ _ _ _ F Eo) as B1.
  destruct e1; [injection H as <- <-; exact B1|].
  apply obind_val in H as [[[m2 x2] e2] [E2 H]]. apply obind_val in H as [[[m3 x3] e3] [E3 H]]. apply obind_val in H as [[[m4 x4] e4] [E4 H]].
  injection H as <- <-. eapply by_trans; [exact B1|]. eapply by_trans; [|eapply by_trans].
  - destruct (c_r x1); [injection E2 as <- <- <-; apply by_refl|]. eapply by_option; [|exact E2]. exact I.
  - destruct (c_m x2); [injection E3 as <- <- <-; apply by_refl|]. eapply by_option; [|exact E3]. exact Nm.
  - destruct (c_e x3); [injection E4 as <- <- <-; apply by_refl|]. eapply by_option; [|exact E4]. exact I.
Qed.
Lemma by_asked E o m ps m' : narrow_texts E ps -> asked E o m ps m' -> by_adhocs E o m m'.
Proof.
  intros N [[r H]|[S [fn [st [r H]]]]].
  - unfold Enforce, splitParams in H. apply obind_val in H as [[[m1 c] rv] [Hc H]]. apply obind_val in Hc as [[m2 c2] [Hc E1]].
    injection E1 as <- <- <-. apply (by_context _ _ _ _ _ _ N) in Hc. destruct c2 as [x|e].
    + apply obind_val in H as [r' [_ H]]. injection H as <- <-. exact Hc.
    + injection H as <- <-. exact Hc.
  - unfold enforcer_RangeMatches, splitParams in H. apply obind_val in H as [[[m1 c] rv] [Hc H]]. apply obind_val in Hc as [[m2 c2] [Hc E1]].
    injection E1 as <- <- <-. apply (by_context _ _ _ _ _ _ N) in Hc. destruct c2 as [x|e].
    + apply obind_val in H as [r' [_ H]]. injection H as <- <-. exact Hc.
    + injection H as <- <-. exact Hc.
Qed.

(** Partial: programs as in C67 and queries whose ad-hoc matchers have at most two
    alternatives at each point.  The query has no effect on any later call. *)
Theorem C64_no_side_effects_partial :
  forall E h m rs o ps m' h2,
    good_m (h ++ h2) -> good_orders o -> calm E (h ++ h2) -> mexec E (NewModel E) h = Val (m, rs) ->
    asked E o m ps m' -> narrow_texts E ps ->
    exists m2 m2' rs2,
      mexec E m h2 = Val (m2, rs2) /\ mexec E m' h2 = Val (m2', rs2) /\
      (forall o', model_rules o' m2' = model_rules o' m2) /\
      (forall s k, GetDef m2' s k = GetDef m2 s k) /\
      (forall o' ps', own_matchers m ps' ->
         answer (Enforce E o' m2' ps') = answer (Enforce E o' m2 ps') /\
         answer (Filter E o' m2' ps') = answer (Filter E o' m2 ps')).
Proof.
  intros E h m rs o ps m' h2 G Go C H A N. destruct (by_asked _ _ _ _ _ N A) as [ha [ra [F Ha]]].
  destruct (run_total E (h ++ h2) G C) as [m2 [rx [R _]]]. apply mexec_app in R as [m0 [rs0 [rs2 [R0 [R2 _]]]]].
  rewrite H in R0. injection R0 as <- <-.
  apply Forall_app in C as [Ch C2]. pose proof G as G'. apply Forall_app in G' as [Gh G2].
  assert (Ga : good_m (h ++ ha ++ h2)).
  { apply Forall_app. split; [exact Gh|]. apply Forall_app. split; [|exact G2]. eapply Forall_impl; [|exact F]. intros oc [-> _]. exact Go. }
  assert (Ca : calm E (h ++ ha ++ h2)).
  { apply Forall_app. split; [exact Ch|]. apply Forall_app. split; [|exact C2]. eapply Forall_impl; [|exact F].
    intros oc [_ [t [Ht Hn]]]. rewrite Ht. exact Hn. }
  destruct (run_total E _ Ga Ca) as [m2' [rx' [R' _]]]. apply mexec_app in R' as [m0 [rs0 [rs1 [R0 [R1 _]]]]].
  rewrite H in R0. injection R0 as <- <-. apply mexec_app in R1 as [m1 [ra' [rs2' [Ra [Rb _]]]]]. rewrite Ha in Ra. injection Ra as <- <-.
  exists m2, m2', rs2. split; [exact R2|].
  destruct (C64_later_same E h m rs o ps m' h2 m2 rs2 m2' rs2' G H A R2 Rb) as [-> L]. split; [exact Rb|exact L].
Qed.
Print Assumptions C64_no_side_effects_partial.

(** ** The full statement is false

    A Filter call with an ad-hoc matcher of three alternatives on an empty section
    returns without an error.  From then on adding a rule to the section panics;
    without the query it works. *)
Definition poison_text : string := "r.sub == p.sub && (r.obj == p.obj || r.act == p.act || r.obj == p.act)".
Definition poison_env : env :=
  mkEnv (fun n => n)
    (fun _ s => if String.eqb s "r_sub == p_sub && (r_obj == p_obj || r_act == p_act || r_obj == p_act)" then
         Some [mkTok KOther "r_sub == p_sub"; mkTok KLogicalOp "&&"; mkTok KClause "("; mkTok KOther "r_obj == p_obj"; mkTok KLogicalOp "||";
               mkTok KOther "r_act == p_act"; mkTok KLogicalOp "||"; mkTok KOther "r_obj == p_act"; mkTok KClauseClose ")"] else None)%string
    (fun fs => mini []) [].
Definition poison_h : list (orders * mcall) :=
  [(ex_o, CSetDef R_SEC "r" "sub, obj, act"); (ex_o, CSetDef P_SEC "p" "sub, obj, act")].
Definition poison_q : list param := [POpt (OMatcher poison_text); PVal (VStr "a"); PVal (VStr "b"); PVal (VStr "c")].
Theorem C64_no_side_effects_refuted :
  exists E h m rs o ps m' c m2 r,
    good_m h /\ good_orders o /\ mexec E (NewModel E) h = Val (m, rs) /\ calm E (h ++ [(o, c)]) /\
    Filter E o m ps = Val (m', ([], None)) /\
    mstep E o m c = Val (m2, r) /\ x_bool r = true /\ x_err r = None /\
    mstep E o m' c = Panic.
Proof.
  exists poison_env, poison_h. eexists _, _. exists ex_o, poison_q. eexists _. exists (CAdd ["p"; "alice"; "data1"; "read"]). eexists _, _.
  split; [repeat (apply Forall_cons; [apply ex_o_good|]); apply Forall_nil|]. split; [apply ex_o_good|].
  split; [vm_compute; reflexivity|]. split.
  - repeat (apply Forall_cons; [cbn; repeat split; try discriminate|]); apply Forall_nil.
  - split; [vm_compute; reflexivity|]. split; [vm_compute; reflexivity|]. repeat split; vm_compute; reflexivity.
Qed.
Print Assumptions C64_no_side_effects_refuted.

(** Example: a query with an ad-hoc matcher on the model of Prop_Enforce, and more
    rules after it. *)
Example C64_ex :
  let h := [(ex_o, CSetDef R_SEC "r" "sub, obj"); (ex_o, CSetDef P_SEC "p" "sub, obj"); (ex_o, CAdd ["p"; "alice"; "data1"])] in
  let q := [POpt (OMatcher basic_text); PVal (VStr "alice"); PVal (VStr "data1")] in
  let h2 := [(ex_rev, CAdd ["p"; "bob"; "data1"]); (ex_o, CRemove ["p"; "alice"; "data1"])] in
  good_m (h ++ h2) /\ calm ex_env (h ++ h2) /\ narrow_texts ex_env q /\
  exists m rs m', mexec ex_env (NewModel ex_env) h = Val (m, rs) /\ Filter ex_env ex_o m q = Val (m', ([["p"; "alice"; "data1"]], None)) /\ m <> m' /\
    exists m2 rs2, mexec ex_env m' h2 = Val (m2, rs2) /\ map x_bool rs2 = [true; true].
Proof.
  cbv zeta. split; [repeat (apply Forall_cons; [first [apply ex_o_good|apply ex_rev_good]|]); apply Forall_nil|]. split.
  - repeat (apply Forall_cons; [cbn; repeat split; try discriminate|]); apply Forall_nil.
  - split; [split; [apply ex_texts|]; repeat constructor; apply ex_texts|].
    eexists _, _, _. split; [vm_compute; reflexivity|]. split; [vm_compute; reflexivity|]. split; [discriminate|].
    eexists _, _. split; vm_compute; reflexivity.
Qed.
