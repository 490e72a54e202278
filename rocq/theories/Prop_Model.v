(** Properties C01, C02, C03, C04, C05, C06 and C07 at the API of a model: any
    number of policy and grouping sections, matchers attached or not. *)
From Verif Require Import GoBase GoBaseP DefsM PolicyM PolicySpec PolicyP MatcherDefM MatcherM MatcherSpec
  RbacM RbacSpec DomainM DomainSpec Prop_Rbac EvalM ModelM ModelSpec ModelP ModelP2 ModelP3 ModelP4 ModelP5.

(** An environment for the examples: the evaluator of EvalM with the function
    "g", and a tokenizer that knows two matchers. *)
Definition basic_text : string := "r.sub == p.sub && r.obj == p.obj".
Definition rbac_text : string := "g(r.sub, p.sub) && r.obj == p.obj && r.act == p.act".
Definition ex_env : env :=
  mkEnv (fun n => n)
    (fun _ s =>
       if String.eqb s "r_sub == p_sub && r_obj == p_obj" then
         Some [mkTok KOther "r_sub == p_sub"; mkTok KLogicalOp "&&"; mkTok KOther "r_obj == p_obj"]
       else if String.eqb s "g(r_sub, p_sub) && r_obj == p_obj && r_act == p_act" then
         Some [mkTok KOther "g(r_sub, p_sub)"; mkTok KLogicalOp "&&"; mkTok KOther "r_obj == p_obj"; mkTok KLogicalOp "&&";
               mkTok KOther "r_act == p_act"]
       else None)%string
    (fun fs => mini (match fs "g"%string with Some f => [("g"%string, f)] | None => [] end)) [].
Definition ex_o : orders := mkOrders (fun l => l) (fun l => l) (fun _ _ m => m).
Definition ex_rev : orders := mkOrders (@rev string) (@rev rule) (fun _ _ m => rev m).
Lemma ex_o_good : good_orders ex_o.
Proof. repeat split; intro; intros; apply Permutation_refl. Qed.
Lemma ex_rev_good : good_orders ex_rev.
Proof. repeat split; intro; intros; cbn; apply Permutation_sym, Permutation_rev. Qed.

(** Two policy sections and two grouping sections, the second with domains; the
    matcher is built after the first rule. *)
Definition ex_setup : list (orders * mcall) :=
  [(ex_o, CSetDef R_SEC "r" "sub, obj, act"); (ex_o, CSetDef P_SEC "p" "sub, obj, act"); (ex_o, CSetDef P_SEC "p2" "sub, obj");
   (ex_o, CSetDef G_SEC "g" "_, _"); (ex_rev, CSetDef G_SEC "g2" "_, _, _"); (ex_o, CSetDef M_SEC "m" rbac_text)]%string.
Definition ex_rules : list (orders * mcall) :=
  [(ex_o, CAdd ["p"; "admin"; "data1"; "read"]); (ex_rev, CBuild); (ex_o, CAdd ["g"; "alice"; "admin"]);
   (ex_rev, CAdd ["p2"; "bob"; "data2"]); (ex_o, CAdd ["p"; "bob"; "data2"; "write"]); (ex_o, CRemove ["p2"; "bob"; "data2"]);
   (ex_o, CAdd ["g2"; "carol"; "admin"; "d1"]); (ex_o, CAdd ["g2"; "dave"; "admin"; "d1"]); (ex_o, CRemove ["g2"; "carol"; "admin"; "d1"])]%string.
Definition ex_h := ex_setup ++ ex_rules.

Lemma ex_good : good_m ex_h.
Proof. repeat constructor; try apply ex_o_good; apply ex_rev_good. Qed.
(** Concrete rules and histories are tame. *)
Ltac tame_rule_tac :=
  match goal with
  | |- tame_rule _ =>
      split; unfold p_key, g_key; cbn; intros K;
      [first [discriminate K | split; [discriminate|repeat constructor]] |
       first [discriminate K | exact I | repeat constructor; unfold reserved; intros [K'|K']; discriminate K']]
  end.
Ltac tame_tac :=
  repeat (apply Forall_cons; [cbn [snd tame_call]; first [exact I|tame_rule_tac]|]); apply Forall_nil.
Lemma ex_tame : tame ex_h.
Proof. unfold ex_h, ex_setup, ex_rules. cbn [app]. tame_tac. Qed.

Definition run_rules (o : orders) (h : list (orders * mcall)) : outcome (list rule) :=
  let! (m, _) := mexec ex_env (NewModel ex_env) h in Val (model_rules o m).

(** ** C04: RangeRules enumerates the whole rule set

    After any history of calls on a model - definitions set, changed and removed,
    rules added and removed, sections cleared, matchers built, functions set -
    the callback of RangeRules is given exactly the rules that are present, each
    once and with its section key in front. *)
Theorem C04_whole_rule_set :
  forall E h o m rs,
    good_m h -> good_orders o -> tame h -> mexec E (NewModel E) h = Val (m, rs) ->
    NoDup (model_rules o m) /\ forall rl, In rl (model_rules o m) <-> present h rl.
Proof. exact model_listing. Qed.
Print Assumptions C04_whole_rule_set.

Example C04_ex :
  good_m ex_h /\ good_orders ex_rev /\ tame ex_h /\
  run_rules ex_rev ex_h =
    Val [["p"; "bob"; "data2"; "write"]; ["p"; "admin"; "data1"; "read"]; ["g2"; "dave"; "admin"; "d1"]; ["g"; "alice"; "admin"]]%string.
Proof. split; [exact ex_good|]. split; [exact ex_rev_good|]. split; [exact ex_tame|]. vm_compute. reflexivity. Qed.

(** ** C01, C02, C03: a call changes the rule it names and nothing else

    AddRule on a defined section (of either kind) returns true exactly when the
    rule was not listed, never an error, and emits one event exactly in that
    case.  Afterwards RangeRules lists the rules it listed before and the new
    one: no rule of this or another section appears or disappears. *)
Theorem C01_model_add :
  forall E h o m rs rl m' x,
    good_m h -> good_orders o -> tame h -> tame_rule rl -> mexec E (NewModel E) h = Val (m, rs) ->
    in_section h rl <> None -> mstep E o m (CAdd rl) = Val (m', x) ->
    forall o1, good_orders o1 ->
      x_err x = None /\
      (x_bool x = true <-> ~ In (as_listed h rl) (model_rules o1 m)) /\
      x_events x = (if x_bool x then [MAdded rl] else []) /\
      (forall rl', In rl' (model_rules o1 m') <-> In rl' (model_rules o1 m) \/ rl' = as_listed h rl).
Proof.
  intros E h o m rs rl m' x Go Ho T Tr H Hs Hm o1 Ho1.
  pose proof (step_long E h o m rs _ rl m' x Go H (or_introl eq_refl) Hs Hm) as Hl.
  destruct (in_section h rl) as [b|] eqn:Eb; [|congruence].
  destruct (model_listing E h o1 m rs Go Ho1 T H) as [_ L].
  pose proof (mexec_snoc _ _ _ _ _ _ _ _ _ H Hm) as H'.
  destruct (model_listing E _ o1 m' _ (good_m_snoc _ _ _ Go Ho) Ho1 (tame_snoc h o (CAdd rl) T Tr) H') as [_ L'].
  pose proof (in_section_listed h rl b Hl Eb) as Hb. rewrite <- L in Hb.
  cbn [mstep] in Hm. apply obind_val in Hm as [[[[m1 b1] e] es] [Ea Hm]]. injection Hm as <- <-. cbn [x_err x_bool x_events].
  destruct (proj1 (rule_result E h o m rs rl b Go Ho T Tr H Eb) _ _ _ _ Ea) as [-> [-> ->]].
  split; [reflexivity|]. split; [rewrite Hb; destruct b; cbn; intuition congruence|]. split; [now destruct b|].
  intros rl'. rewrite L', L, (present_add h o rl rl' Hl), Eb. intuition congruence.
Qed.
Print Assumptions C01_model_add.

(** RemoveRule returns true exactly when the rule was listed, and afterwards
    everything else is listed as before. *)
Theorem C01_model_remove :
  forall E h o m rs rl m' x,
    good_m h -> good_orders o -> tame h -> tame_rule rl -> mexec E (NewModel E) h = Val (m, rs) ->
    in_section h rl <> None -> mstep E o m (CRemove rl) = Val (m', x) ->
    forall o1, good_orders o1 ->
      x_err x = None /\
      (x_bool x = true <-> In (as_listed h rl) (model_rules o1 m)) /\
      x_events x = (if x_bool x then [MRemoved rl] else []) /\
      (forall rl', In rl' (model_rules o1 m') <-> In rl' (model_rules o1 m) /\ rl' <> as_listed h rl).
Proof.
  intros E h o m rs rl m' x Go Ho T Tr H Hs Hm o1 Ho1.
  pose proof (step_long E h o m rs _ rl m' x Go H (or_intror eq_refl) Hs Hm) as Hl.
  destruct (in_section h rl) as [b|] eqn:Eb; [|congruence].
  destruct (model_listing E h o1 m rs Go Ho1 T H) as [_ L].
  pose proof (mexec_snoc _ _ _ _ _ _ _ _ _ H Hm) as H'.
  destruct (model_listing E _ o1 m' _ (good_m_snoc _ _ _ Go Ho) Ho1 (tame_snoc h o (CRemove rl) T Tr) H') as [_ L'].
  pose proof (in_section_listed h rl b Hl Eb) as Hb. rewrite <- L in Hb.
  cbn [mstep] in Hm. apply obind_val in Hm as [[[[m1 b1] e] es] [Ea Hm]]. injection Hm as <- <-. cbn [x_err x_bool x_events].
  destruct (proj2 (rule_result E h o m rs rl b Go Ho T Tr H Eb) _ _ _ _ Ea) as [-> [-> ->]].
  split; [reflexivity|]. split; [rewrite Hb; tauto|]. split; [now destruct b|].
  intros rl'. rewrite L', L. apply (present_remove h o rl rl' Hl).
Qed.
Print Assumptions C01_model_remove.

(** The hypotheses are met, and the calls do not panic, on the example. *)
Example C01_model_ex :
  let rl := ["p"; "carol"; "data1"; "read"]%string in
  let r2 := ["g2"; "dave"; "admin"; "d1"]%string in
  tame_rule rl /\ tame_rule r2 /\ in_section ex_h rl = Some false /\ in_section ex_h r2 = Some true /\
  (let! (m, _) := mexec ex_env (NewModel ex_env) ex_h in
   let! (_, x) := mstep ex_env ex_o m (CAdd rl) in Val (x_bool x, x_events x)) = Val (true, [MAdded rl]) /\
  (let! (m, _) := mexec ex_env (NewModel ex_env) ex_h in
   let! (_, x) := mstep ex_env ex_o m (CAdd r2) in Val (x_bool x, x_events x)) = Val (false, []) /\
  (let! (m, _) := mexec ex_env (NewModel ex_env) ex_h in
   let! (_, x) := mstep ex_env ex_o m (CRemove r2) in Val (x_bool x, x_events x)) = Val (true, [MRemoved r2]).
Proof.
  cbv zeta. split; [tame_rule_tac|]. split; [tame_rule_tac|]. repeat split; vm_compute; reflexivity.
Qed.

(** A grouping section without domains ignores what follows the two names: the
    rule that was added is not the rule that is listed, and adding a different
    rule is refused. *)
Theorem C03_extra_values_refuted :
  exists h r r', good_m h /\ tame h /\ tame_rule r' /\ r <> r' /\
    run_rules ex_o (h ++ [(ex_o, CAdd r)]) = Val [r'] /\
    match mexec ex_env (NewModel ex_env) (h ++ [(ex_o, CAdd r); (ex_o, CAdd r')]) with
    | Val (_, rs) => map x_bool rs = [true; true; false]
    | Panic => False
    end.
Proof.
  exists [(ex_o, CSetDef G_SEC "g" "_, _")]%string, ["g"; "alice"; "admin"; "d1"]%string, ["g"; "alice"; "admin"]%string.
  split; [repeat constructor; apply ex_o_good|]. split; [tame_tac|]. split; [tame_rule_tac|].
  split; [discriminate|]. split; vm_compute; reflexivity.
Qed.
Print Assumptions C03_extra_values_refuted.

(** ** C06: rules of unknown sections *)

(** False: the empty rule and the empty key are index panics. *)
Theorem C06_rejected_refuted :
  forall o m, model_AddRule o m [] = Panic /\ model_RemoveRule o m [] = Panic /\
    (forall r, model_AddRule o m (""%string :: r) = Panic /\ model_RemoveRule o m (""%string :: r) = Panic).
Proof. intros o m. repeat split; reflexivity. Qed.
Print Assumptions C06_rejected_refuted.

(** Every rule with a non-empty key that names no defined section is answered
    with false and an error; the model (rules, matchers, managers, definitions,
    functions) is the same, and no event is emitted, so that nothing is queued for
    storage.  No assumption on the values. *)
Theorem C06_rejected_partial :
  forall E h o m rs k r,
    good_m h -> mexec E (NewModel E) h = Val (m, rs) -> k <> ""%string -> in_section h (k :: r) = None ->
    exists e,
      mstep E o m (CAdd (k :: r)) = Val (m, mkRes false (Some e) []) /\
      mstep E o m (CRemove (k :: r)) = Val (m, mkRes false (Some e) []).
Proof.
  intros E h o m rs k r Go H Hk Hs. exists (section_error k).
  destruct (unknown_section E h o m rs k r Go H Hk Hs) as [A B]. cbn [mstep]. rewrite A, B. split; reflexivity.
Qed.
Print Assumptions C06_rejected_partial.

Example C06_ex :
  in_section ex_h ["p3"; "alice"]%string = None /\ in_section ex_h ["x"; "alice"]%string = None /\
  in_section (ex_h ++ [(ex_o, CRemoveDef P_SEC "p")]) ["p"; "admin"; "data1"; "read"]%string = None.
Proof. vm_compute. auto. Qed.

(** ** C05: RangeRules stops when the callback says so *)

(** The user's callback, watched: [late] becomes true when the callback is called
    after it returned false. *)
Record watched {S} : Type := mkW { w_state : S; w_stopped : bool; w_late : bool }.
Arguments watched : clear implicits.
Arguments mkW {S}.
Definition watch {S} (fn : S -> rule -> S * bool) (w : watched S) (r : rule) : watched S * bool :=
  let (st', b) := fn (w_state w) r in
  (mkW st' (w_stopped w || negb b) (w_late w || w_stopped w), b).

(** False as soon as there are two sections with a rule, or one grouping section
    with two users. *)
Theorem C05_stops_refuted :
  (exists h m rs, good_m h /\ tame h /\ mexec ex_env (NewModel ex_env) h = Val (m, rs) /\
     List.length (md_pMap m) = 2 /\ md_rpMap m = [] /\
     w_late (RangeRules ex_o m (watch (fun n _ => (Datatypes.S n, false))) (mkW 0 false false)) = true) /\
  (exists h m rs, good_m h /\ tame h /\ mexec ex_env (NewModel ex_env) h = Val (m, rs) /\
     md_pMap m = [] /\ List.length (md_rpMap m) = 1 /\
     w_late (RangeRules ex_o m (watch (fun n _ => (Datatypes.S n, false))) (mkW 0 false false)) = true).
Proof.
  split.
  - exists [(ex_o, CSetDef P_SEC "p" "sub"); (ex_o, CSetDef P_SEC "p2" "sub"); (ex_o, CAdd ["p"; "a"]); (ex_o, CAdd ["p2"; "b"])]%string.
    eexists _, _. split; [repeat constructor; apply ex_o_good|].
    split; [tame_tac|]. split; [vm_compute; reflexivity|]. vm_compute. auto.
  - exists [(ex_o, CSetDef G_SEC "g" "_, _"); (ex_o, CAdd ["g"; "a"; "r"]); (ex_o, CAdd ["g"; "b"; "r"])]%string.
    eexists _, _. split; [repeat constructor; apply ex_o_good|].
    split; [tame_tac|]. split; [vm_compute; reflexivity|]. vm_compute. auto.
Qed.
Print Assumptions C05_stops_refuted.

Lemma range_vals_watch {S} (fn : S -> rule -> S * bool) l : forall w, w_stopped w = false -> w_late w = false ->
  w_late (fst (range_vals (watch fn) w l)) = false.
Proof.
  induction l as [|r l IH]; intros [st sp lt] Hs Hl; cbn in *; [exact Hl|]. unfold watch at 1. cbn.
  destruct (fn st r) as [st' b] eqn:Ef. destruct b; cbn.
  - apply IH; cbn; subst; reflexivity.
  - subst. reflexivity.
Qed.

(** It holds for a model with one policy section and no grouping section, for
    every callback. *)
Theorem C05_stops_partial :
  forall E h m rs k, good_m h -> mexec E (NewModel E) h = Val (m, rs) ->
    (forall k', p_key k' -> p_history k' h <> None -> k' = k) ->
    (forall k', g_key k' -> g_history k' h = None) -> Forall (fun c => no_rm (snd c)) h ->
    forall o S (fn : S -> rule -> S * bool) st, good_orders o ->
      w_late (RangeRules o m (watch fn) (mkW st false false)) = false.
Proof.
  intros E h m rs k Go H Hp Hg Hn o S fn st [Ho _]. destruct (reachable_ok E h m rs Go H) as [g [V W]].
  assert (G : gkeys m) by (eapply gkeys_exec; [exact Hn| |exact H]; intros k' i; discriminate).
  assert (Er : o_names o (mkeys (md_rpMap m)) = []).
  { assert (md_rpMap m = []) as ->. { destruct (md_rpMap m) as [|[k1 i] l] eqn:E1; [reflexivity|]. exfalso.
      assert (Hk : mget k1 (md_rpMap m) = Some i) by (rewrite E1; cbn; now rewrite String.eqb_refl).
      pose proof (v_ghist h m g W k1 (G k1 i Hk)) as Q. rewrite Hk in Q. destruct Q as [? [? [_ Q]]].
      rewrite (Hg k1 (G k1 i Hk)) in Q. discriminate. }
    pose proof (Ho []) as P. now apply Permutation_sym, Permutation_nil in P. }
  unfold RangeRules. unfold range_section at 1. rewrite Er. cbn [fold_left].
  assert (Ep : forall k' i, mget k' (md_pMap m) = Some i -> k' = k).
  { intros k' i Hk. destruct (v_p m g V k' i Hk) as [Pk _]. apply (Hp k' Pk). rewrite <- (v_phist h m g W k' Pk), Hk. discriminate. }
  assert (El : o_names o (mkeys (md_pMap m)) = [] \/ exists i, mget k (md_pMap m) = Some i /\ o_names o (mkeys (md_pMap m)) = [k]).
  { assert (N : NoDup (mkeys (md_pMap m))) by apply (v_nd m g V).
    destruct (md_pMap m) as [|[k1 i] [|[k2 j] l]] eqn:E1.
    - left. pose proof (Ho []) as P. now apply Permutation_sym, Permutation_nil in P.
    - right. assert (k1 = k) as ->. { apply (Ep k1 i). cbn. now rewrite String.eqb_refl. }
      exists i. split; [cbn; now rewrite String.eqb_refl|]. pose proof (Ho [k]) as P. now apply Permutation_sym, Permutation_length_1_inv in P.
    - exfalso. assert (k1 = k). { apply (Ep k1 i). cbn. now rewrite String.eqb_refl. }
      cbn in N. apply NoDup_cons_iff in N as [N _]. apply N. left.
      assert (k2 = k); [|congruence]. apply (Ep k2 j). cbn. destruct (String.eqb_spec k2 k1) as [->|]; [now contradiction N; left|].
      now rewrite String.eqb_refl. }
  unfold range_section. destruct El as [-> | [i [Ei ->]]]; cbn [fold_left]; [reflexivity|]. rewrite Ei.
  destruct (v_p m g V k i Ei) as [_ [p [ls Eo]]]. unfold obj_Range. rewrite Eo. cbn [o_body]. unfold Range.
  apply (range_vals_watch (fun st r => fn st (k :: r))); reflexivity.
Qed.
Print Assumptions C05_stops_partial.

(** ** C07: an observer of the model's events has the model's rules

    An observer that knows the rules of the model at some point, and from then on
    follows the events alone, has the rules that RangeRules lists: after any
    sequence of AddRule, RemoveRule, builds, ad-hoc matchers and function
    changes. *)
Theorem C07_model_events_partial :
  forall E hs hr m0 rs0 m rs o s0,
    good_m (hs ++ hr) -> tame (hs ++ hr) -> good_orders o ->
    Forall (fun c => rule_call (snd c)) hr ->
    mexec E (NewModel E) hs = Val (m0, rs0) -> mexec E m0 hr = Val (m, rs) ->
    (forall rl, s0 rl = true <-> In rl (model_rules o m0)) ->
    forall rl,
      fold_left event_step (map (event_rule (as_listed hs)) (flat_map x_events rs)) s0 rl = true <->
      In rl (model_rules o m).
Proof.
  intros E hs hr m0 rs0 m rs o s0 Go T Ho F H0 H N rl.
  rewrite (replay_model E hs hr m0 rs0 s0 Go T F) with (m := m); [|clear rl; intros rl|exact H0|exact H].
  - assert (H2 : mexec E (NewModel E) (hs ++ hr) = Val (m, rs0 ++ rs)) by (apply mexec_app; eauto 8).
    destruct (model_listing E (hs ++ hr) o m _ Go Ho T H2) as [_ L]. symmetry. apply L.
  - apply Forall_app in Go as [Go _]. apply Forall_app in T as [T _].
    destruct (model_listing E hs o m0 _ Go Ho T H0) as [_ L]. rewrite N. apply L.
Qed.
Print Assumptions C07_model_events_partial.

Example C07_model_ex :
  good_m (ex_setup ++ ex_rules) /\ tame (ex_setup ++ ex_rules) /\ Forall (fun c => rule_call (snd c)) ex_rules /\
  match mexec ex_env (NewModel ex_env) ex_setup with
  | Val (m0, _) => match mexec ex_env m0 ex_rules with
                   | Val (_, rs) => List.length (flat_map x_events rs)
                   | Panic => 0
                   end
  | Panic => 0
  end = 8.
Proof. split; [exact ex_good|]. split; [exact ex_tame|]. split; [repeat constructor|]. vm_compute. reflexivity. Qed.

(** Clearing a section changes the rules without any event of the model. *)
Theorem C07_clear_refuted :
  exists h k m rs, good_m h /\ tame h /\ mexec ex_env (NewModel ex_env) h = Val (m, rs) /\ model_rules ex_o m <> [] /\
    exists m' x, mstep ex_env ex_o m (CClear k) = Val (m', x) /\ x_err x = None /\ x_events x = [] /\ model_rules ex_o m' = [].
Proof.
  exists [(ex_o, CSetDef P_SEC "p" "sub"); (ex_o, CAdd ["p"; "alice"])]%string, "p"%string. eexists _, _.
  split; [repeat constructor; apply ex_o_good|]. split; [tame_tac|]. split; [vm_compute; reflexivity|].
  split; [vm_compute; discriminate|]. eexists _, _. split; [vm_compute; reflexivity|]. vm_compute. auto.
Qed.
Print Assumptions C07_clear_refuted.
