(** Properties C15 and C17 to C22 for whole Enforce and Filter calls on a
    reachable model, with any context options.

    [Enforce E o m ps] and [Filter E o m ps] run the call on the model [m] with
    the map orders [o]; the result holds the model afterwards and what is
    returned.  [effect_in_force h ps] is the text of the effect that the options
    select after the history [h]; [rule_effect h r] the effect of a reported rule
    (EnforcerSpec.v). *)
From Verif Require Import GoBase GoBaseP DefsM DefsP PolicyM PolicySpec PolicyP EffectorM EffectorP MatcherDefM MatcherM MatcherSpec MatcherP MatcherP2
  RbacM RbacSpec DomainM DomainSpec EvalM ModelM ModelSpec ModelP ModelP2 ModelP3 ModelP4 ModelP5 ModelP6 EnforcerM EnforcerSpec EnforcerP.
From Verif Require Import Prop_Effect Prop_Matcher Prop_Model Prop_ModelDefs.

Lemma effects_same h k t ms e : def_text P_SEC k h = Some t -> Forall (fun r => exists v, r = k :: v) ms ->
  some_effect (NewPolicyDef k t) ms e <-> has_effect h ms e.
Proof.
  intros Ht F. rewrite Forall_forall in F. unfold some_effect, has_effect.
  split; intros [r [Hr He]]; exists r; (split; [exact Hr|]); destruct (F r Hr) as [v ->]; cbn [rule_effect] in *; rewrite Ht in *; exact He.
Qed.

Lemma some_allow_text : no_spaces "some(where (p.eft == allow))" = SOME_ALLOW. Proof. reflexivity. Qed.
Lemma no_deny_text : no_spaces "!some(where (p.eft == deny))" = NO_DENY. Proof. reflexivity. Qed.
Lemma and_text : no_spaces "some(where (p.eft == allow)) && !some(where (p.eft == deny))" = SOME_ALLOW_NO_DENY. Proof. reflexivity. Qed.

(** What the effector is asked to decide. *)
Lemma enforce_decision E h m rs o ps m1 b e m2 ms err :
  mexec E (NewModel E) h = Val (m, rs) -> Enforce E o m ps = Val (m1, (b, e)) -> Filter E o m ps = Val (m2, (ms, err)) ->
  (exists e0, err = Some e0 /\ e = Some e0 /\ b = false /\ ms = []) \/
  (exists k t, def_text P_SEC k h = Some t /\ Forall (fun r => exists v, r = k :: v) ms /\
     decision (effect_in_force h ps) (NewPolicyDef k t) ms err = Val (b, e)).
Proof.
  intros H HE HF. assert (R : reach E h m) by now exists rs.
  destruct (enforce_filter _ _ _ _ _ _ _ _ _ _ _ R HE HF) as [_ [[e0 [_ X]]|X]]; [left|right]; eauto.
Qed.

(** ** C18: allow-override

    Whatever the history, options, request and map orders: when the same call of
    Filter would report the rules [ms], Enforce allows exactly when one of them
    has effect allow. *)
Theorem C18_enforce :
  forall E h m rs o ps m1 b e m2 ms,
    mexec E (NewModel E) h = Val (m, rs) ->
    Enforce E o m ps = Val (m1, (b, e)) -> Filter E o m ps = Val (m2, (ms, None)) ->
    spells (effect_in_force h ps) "some(where (p.eft == allow))" ->
    e = None /\ (b = true <-> has_effect h ms Allow).
Proof.
  intros E h m rs o ps m1 b e m2 ms H HE HF Hs.
  destruct (enforce_decision _ _ _ _ _ _ _ _ _ _ _ _ H HE HF) as [[e0 [X _]]|[k [t [Ht [F Hd]]]]]; [discriminate|].
  destruct (C18_allow_override _ (NewPolicyDef k t) ms Hs) as [b' [Hb Hiff]]. rewrite Hd in Hb. injection Hb as -> ->.
  split; [reflexivity|]. rewrite Hiff. now apply effects_same.
Qed.
Print Assumptions C18_enforce.

(** ** C19: deny-override *)
Theorem C19_enforce :
  forall E h m rs o ps m1 b e m2 ms,
    mexec E (NewModel E) h = Val (m, rs) ->
    Enforce E o m ps = Val (m1, (b, e)) -> Filter E o m ps = Val (m2, (ms, None)) ->
    spells (effect_in_force h ps) "!some(where (p.eft == deny))" ->
    e = None /\ (b = true <-> ~ has_effect h ms Deny).
Proof.
  intros E h m rs o ps m1 b e m2 ms H HE HF Hs.
  destruct (enforce_decision _ _ _ _ _ _ _ _ _ _ _ _ H HE HF) as [[e0 [X _]]|[k [t [Ht [F Hd]]]]]; [discriminate|].
  destruct (C19_deny_override _ (NewPolicyDef k t) ms Hs) as [b' [Hb Hiff]]. rewrite Hd in Hb. injection Hb as -> ->.
  split; [reflexivity|]. rewrite Hiff, effects_same by eauto. reflexivity.
Qed.
Print Assumptions C19_enforce.

(** ** C20: allow-and-no-deny *)

(** Exactly: the first reported rule must allow, and none may deny. *)
Theorem C20_enforce_exact :
  forall E h m rs o ps m1 b e m2 ms,
    mexec E (NewModel E) h = Val (m, rs) ->
    Enforce E o m ps = Val (m1, (b, e)) -> Filter E o m ps = Val (m2, (ms, None)) ->
    spells (effect_in_force h ps) "some(where (p.eft == allow)) && !some(where (p.eft == deny))" ->
    e = None /\
    (b = true <-> (exists r ms', ms = r :: ms' /\ rule_effect h r = Allow) /\ ~ has_effect h ms Deny).
Proof.
  intros E h m rs o ps m1 b e m2 ms H HE HF Hs.
  destruct (enforce_decision _ _ _ _ _ _ _ _ _ _ _ _ H HE HF) as [[e0 [X _]]|[k [t [Ht [F Hd]]]]]; [discriminate|].
  destruct (C20_and_exact _ (NewPolicyDef k t) ms Hs) as [b' [Hb Hiff]]. rewrite Hd in Hb. injection Hb as -> ->.
  split; [reflexivity|]. rewrite Hiff, effects_same by eauto.
  assert (X : (exists r ms', ms = r :: ms' /\ GetEft (NewPolicyDef k t) r = Allow) <-> (exists r ms', ms = r :: ms' /\ rule_effect h r = Allow)).
  { rewrite Forall_forall in F. split; intros [r [ms' [-> Hr]]]; exists r, ms'; (split; [reflexivity|]);
      destruct (F r (or_introl eq_refl)) as [v ->]; cbn [rule_effect] in *; rewrite Ht in *; exact Hr. }
  now rewrite X.
Qed.
Print Assumptions C20_enforce_exact.

(** Partial: the documented meaning when no reported rule has an effect other
    than allow and deny. *)
Theorem C20_enforce_partial :
  forall E h m rs o ps m1 b e m2 ms,
    mexec E (NewModel E) h = Val (m, rs) ->
    Enforce E o m ps = Val (m1, (b, e)) -> Filter E o m ps = Val (m2, (ms, None)) ->
    spells (effect_in_force h ps) "some(where (p.eft == allow)) && !some(where (p.eft == deny))" ->
    ~ has_effect h ms Indeterminate ->
    e = None /\ (b = true <-> has_effect h ms Allow /\ ~ has_effect h ms Deny).
Proof.
  intros E h m rs o ps m1 b e m2 ms H HE HF Hs Hi.
  destruct (enforce_decision _ _ _ _ _ _ _ _ _ _ _ _ H HE HF) as [[e0 [X _]]|[k [t [Ht [F Hd]]]]]; [discriminate|].
  destruct (C20_allow_and_no_deny_partial _ (NewPolicyDef k t) ms Hs) as [b' [Hb Hiff]].
  - rewrite effects_same by eauto. exact Hi.
  - rewrite Hd in Hb. injection Hb as -> ->. split; [reflexivity|]. now rewrite Hiff, !effects_same by eauto.
Qed.
Print Assumptions C20_enforce_partial.

(** ** C21, C22: unsupported effects are denied, silently

    Also when the search for matches fails.  The only error that can be returned
    is one of the context or of the search, never one about the effect. *)
Theorem C21_enforce :
  forall E h m rs o ps m1 b e m2 ms err,
    mexec E (NewModel E) h = Val (m, rs) ->
    Enforce E o m ps = Val (m1, (b, e)) -> Filter E o m ps = Val (m2, (ms, err)) ->
    ~ supported_text (effect_in_force h ps) -> b = false.
Proof.
  intros E h m rs o ps m1 b e m2 ms err H HE HF Hs.
  destruct (enforce_decision _ _ _ _ _ _ _ _ _ _ _ _ H HE HF) as [[e0 [_ [_ [X _]]]]|[k [t [Ht [F Hd]]]]]; [exact X|].
  destruct (C21_unsupported_denies _ (NewPolicyDef k t) ms err Hs) as [e' He]. rewrite Hd in He. now injection He as -> _.
Qed.
Print Assumptions C21_enforce.

Theorem C22_enforce_refuted :
  forall E h m rs o ps m1 b e m2 ms,
    mexec E (NewModel E) h = Val (m, rs) ->
    Enforce E o m ps = Val (m1, (b, e)) -> Filter E o m ps = Val (m2, (ms, None)) ->
    ~ supported_text (effect_in_force h ps) -> e = None.
Proof.
  intros E h m rs o ps m1 b e m2 ms H HE HF Hs.
  destruct (enforce_decision _ _ _ _ _ _ _ _ _ _ _ _ H HE HF) as [[e0 [X _]]|[k [t [Ht [F Hd]]]]]; [discriminate|].
  rewrite (C22_unsupported_reported_refuted _ (NewPolicyDef k t) ms Hs) in Hd. now injection Hd as _ <-.
Qed.
Print Assumptions C22_enforce_refuted.

(** ** C15: errors of the search

    When Filter fails with [err] after the rules [ms], Enforce fails with the
    same error, unless a rule among [ms] decides the request before: with
    allow-override an allow rule (the request is allowed), with the other two
    effects a deny rule (it is denied). *)
Theorem C15_enforce_error :
  forall E h m rs o ps m1 b e m2 ms err,
    mexec E (NewModel E) h = Val (m, rs) ->
    Enforce E o m ps = Val (m1, (b, e)) -> Filter E o m ps = Val (m2, (ms, Some err)) ->
    supported_text (effect_in_force h ps) ->
    let decides := if String.eqb (no_spaces (effect_in_force h ps)) (no_spaces "some(where (p.eft == allow))") then Allow else Deny in
    (~ has_effect h ms decides -> b = false /\ e = Some err) /\
    (has_effect h ms decides -> b = effect_eqb decides Allow /\ e = None).
Proof.
  intros E h m rs o ps m1 b e m2 ms err H HE HF Hs decides. subst decides. rewrite some_allow_text.
  destruct (enforce_decision _ _ _ _ _ _ _ _ _ _ _ _ H HE HF) as [[e0 [X1 [X2 [X3 X4]]]]|[k [t [Ht [F Hd]]]]].
  { injection X1 as <-. subst. split; [auto|]. intros [r [[] _]]. }
  unfold decision, NewEffectDef in Hd. cbn [ed_expr] in Hd. set (ex := no_spaces (effect_in_force h ps)) in *.
  assert (Sup : supported ex) by (unfold supported_text, spells in Hs; rewrite some_allow_text, no_deny_text, and_text in Hs; exact Hs).
  rewrite decide_supported in Hd by exact Sup.
  assert (St : forall x, stops ex x = effect_eqb x (if String.eqb ex SOME_ALLOW then Allow else Deny)).
  { intros x. unfold stops. destruct (String.eqb ex SOME_ALLOW); [reflexivity|]. now destruct (String.eqb ex NO_DENY). }
  assert (Ef : forallb (fun x => negb (stops ex x)) (efts (NewPolicyDef k t) ms) =
               forallb (fun x => negb (effect_eqb x (if String.eqb ex SOME_ALLOW then Allow else Deny))) (efts (NewPolicyDef k t) ms)).
  { generalize (efts (NewPolicyDef k t) ms) as l. induction l as [|x l IH]; [reflexivity|]. cbn. now rewrite St, IH. }
  rewrite Ef in Hd.
  pose proof (effects_same h k t ms (if String.eqb ex SOME_ALLOW then Allow else Deny) Ht F) as Eq.
  split; intros Hh; rewrite <- Eq in Hh.
  - rewrite (proj2 (some_effect_forallb _ _ _) Hh) in Hd. injection Hd as <- <-. auto.
  - rewrite (proj2 (some_effect_forallb_false _ _ _) Hh) in Hd. injection Hd as <- <-. destruct (String.eqb ex SOME_ALLOW); auto.
Qed.
Print Assumptions C15_enforce_error.

(** A request is never allowed when the search fails, except by allow-override
    through a rule that was found before. *)
Theorem C15_enforce_fails_closed :
  forall E h m rs o ps m1 b e m2 ms err,
    mexec E (NewModel E) h = Val (m, rs) ->
    Enforce E o m ps = Val (m1, (b, e)) -> Filter E o m ps = Val (m2, (ms, Some err)) ->
    b = true -> spells (effect_in_force h ps) "some(where (p.eft == allow))" /\ has_effect h ms Allow.
Proof.
  intros E h m rs o ps m1 b e m2 ms err H HE HF ->.
  destruct (string_dec (no_spaces (effect_in_force h ps)) SOME_ALLOW) as [E1|N1].
  - split; [exact E1|].
    pose proof (C15_enforce_error _ _ _ _ _ _ _ _ _ _ _ _ H HE HF (or_introl E1)) as X. cbv zeta in X.
    rewrite E1 in X. change (String.eqb SOME_ALLOW (no_spaces "some(where (p.eft == allow))")) with true in X. cbn iota in X.
    destruct (enforce_decision _ _ _ _ _ _ _ _ _ _ _ _ H HE HF) as [[e0 [_ [_ [Y _]]]]|[k [t [Ht [F Hd]]]]]; [discriminate|].
    destruct (forallb (fun x => negb (effect_eqb x Allow)) (efts (NewPolicyDef k t) ms)) eqn:Ef.
    + apply some_effect_forallb in Ef. rewrite effects_same in Ef by eauto. destruct X as [X _]. destruct (X Ef). discriminate.
    + apply some_effect_forallb_false in Ef. rewrite effects_same in Ef by eauto. exact Ef.
  - exfalso. assert (Dec : supported_text (effect_in_force h ps) \/ ~ supported_text (effect_in_force h ps)).
    { unfold supported_text, spells. rewrite no_deny_text, and_text.
      destruct (string_dec (no_spaces (effect_in_force h ps)) NO_DENY); [tauto|].
      destruct (string_dec (no_spaces (effect_in_force h ps)) SOME_ALLOW_NO_DENY); tauto. }
    destruct Dec as [Hs|Hs].
    + pose proof (C15_enforce_error _ _ _ _ _ _ _ _ _ _ _ _ H HE HF Hs) as [X1 X2]. rewrite some_allow_text in X1, X2.
      apply String.eqb_neq in N1. rewrite N1 in X1, X2.
      destruct (enforce_decision _ _ _ _ _ _ _ _ _ _ _ _ H HE HF) as [[e0 [_ [_ [Y _]]]]|[k [t [Ht [F Hd]]]]]; [discriminate|].
      destruct (forallb (fun x => negb (effect_eqb x Deny)) (efts (NewPolicyDef k t) ms)) eqn:Ef.
      * apply some_effect_forallb in Ef. rewrite effects_same in Ef by eauto. destruct (X1 Ef). discriminate.
      * apply some_effect_forallb_false in Ef. rewrite effects_same in Ef by eauto. destruct (X2 Ef). discriminate.
    + assert (X : true = false) by (eapply C21_enforce; eauto). discriminate.
Qed.
Print Assumptions C15_enforce_fails_closed.

(** ** Examples *)
Definition eft_setup : list (orders * mcall) :=
  [(ex_o, CSetDef R_SEC "r" "sub, obj"); (ex_o, CSetDef P_SEC "p" "sub, obj, eft");
   (ex_o, CSetDef E_SEC "e" "some(where (p.eft == allow))"); (ex_o, CSetDef E_SEC "e2" "! some(where (p.eft == deny))");
   (ex_o, CSetDef M_SEC "m" basic_text); (ex_o, CBuild);
   (ex_o, CAdd ["p"; "alice"; "data1"; "allow"]); (ex_o, CAdd ["p"; "alice"; "data1"; "deny"]); (ex_o, CAdd ["p"; "bob"; "data1"; "log"]);
   (ex_o, CAdd ["p"; "bob"; "data1"; "allow"])]%string.
Definition ask (f : model -> list param -> outcome (model * (bool * option goerr))) (ps : list param) : outcome (bool * option goerr) :=
  let! (m, _) := mexec ex_env (NewModel ex_env) eft_setup in
  let! (_, r) := f m ps in Val r.
Definition and_effect : string := "some(where (p.eft == allow)) && !some(where (p.eft == deny))".

Example enforce_ex :
  let alice := [PVal (VStr "alice"); PVal (VStr "data1")] in
  let bob := [PVal (VStr "bob"); PVal (VStr "data1")] in
  effect_in_force eft_setup alice = "some(where (p.eft == allow))"%string /\
  effect_in_force eft_setup (POpt (OEffect "e2") :: alice) = "! some(where (p.eft == deny))"%string /\
  effect_in_force eft_setup (POpt (OEffect "e2") :: alice ++ [POpt (OEffectDef and_effect)]) = and_effect /\
  ask (Enforce ex_env ex_o) alice = Val (true, None) /\
  ask (Enforce ex_env ex_o) (POpt (OEffect "e2") :: alice) = Val (false, None) /\
  ask (Enforce ex_env ex_rev) (POpt (OEffect "e2") :: bob) = Val (true, None) /\
  ask (Enforce ex_env ex_o) (bob ++ [POpt (OEffect "nonsense")]) = Val (false, None) /\
  ask (Enforce ex_env ex_o) (bob ++ [POpt (OMatcher "nonsense")]) = Val (false, Some ErrBuild).
Proof. cbv zeta. repeat split. Qed.

(** C20 and C17 are false of Enforce: the same call on the same state is allowed
    under one map order and denied under another. *)
Definition bob_and : list param := [PVal (VStr "bob"); PVal (VStr "data1"); POpt (OEffect and_effect)].
Theorem C20_enforce_refuted :
  exists m rs,
    mexec ex_env (NewModel ex_env) eft_setup = Val (m, rs) /\ good_orders ex_o /\
    Filter ex_env ex_o m bob_and = Val (m, ([["p"; "bob"; "data1"; "log"]; ["p"; "bob"; "data1"; "allow"]], None)) /\
    Enforce ex_env ex_o m bob_and = Val (m, (false, None)).
Proof.
  eexists _, _. split; [vm_compute; reflexivity|]. split; [apply ex_o_good|]. split; vm_compute; reflexivity.
Qed.
Print Assumptions C20_enforce_refuted.

Theorem C17_enforce_refuted :
  exists m rs,
    mexec ex_env (NewModel ex_env) eft_setup = Val (m, rs) /\ good_orders ex_o /\ good_orders ex_rev /\
    Enforce ex_env ex_o m bob_and = Val (m, (false, None)) /\ Enforce ex_env ex_rev m bob_and = Val (m, (true, None)).
Proof.
  eexists _, _. split; [vm_compute; reflexivity|]. split; [apply ex_o_good|]. split; [apply ex_rev_good|].
  split; vm_compute; reflexivity.
Qed.
Print Assumptions C17_enforce_refuted.
