(** Properties C17 to C22: how the effects of the matching rules are combined.

    [ms] is the sequence of matching rules in the order in which they are
    visited; [err] is the error with which the search for matches ends, if
    any.  Prop_Enforce.v connects this to the whole Enforce call. *)
From Verif Require Import GoBase GoBaseP DefsM PolicyM EffectorM EffectorP.

(** The effect of every matching rule. *)
Definition some_effect (d : argdef) (ms : list rule) (e : effect) : Prop :=
  exists r, In r ms /\ GetEft d r = e.

(** The decision for the policy effect written [text] in the model. *)
Definition decision (text : string) (d : argdef) (ms : list rule) (err : option goerr) :=
  decide (ed_expr (NewEffectDef "e" text)) d ms err.

(** A text spells an effect when they agree up to spaces. *)
Definition spells (text effect_text : string) : Prop := no_spaces text = no_spaces effect_text.

Lemma some_effect_forallb d ms e :
  forallb (fun x => negb (effect_eqb x e)) (efts d ms) = true <-> ~ some_effect d ms e.
Proof.
  rewrite forallb_forall. unfold efts. split.
  - intros H [r [Hin He]]. specialize (H (GetEft d r) (in_map _ _ _ Hin)).
    rewrite He in H. now destruct e.
  - intros H x Hx. apply in_map_iff in Hx as [r [<- Hin]].
    destruct (effect_eqb (GetEft d r) e) eqn:E; [|reflexivity].
    apply effect_eqb_eq in E. exfalso. apply H. now exists r.
Qed.

Lemma some_effect_forallb_false d ms e :
  forallb (fun x => negb (effect_eqb x e)) (efts d ms) = false <-> some_effect d ms e.
Proof.
  destruct (forallb _ _) eqn:E.
  - apply some_effect_forallb in E. split; [discriminate|]. intros H; contradiction.
  - split; [|reflexivity]. intros _.
    assert (Hex : existsb (fun x => effect_eqb x e) (efts d ms) = true).
    { clear -E. induction (efts d ms) as [|x l IH]; cbn in *; [discriminate|].
      destruct (effect_eqb x e); [reflexivity|]. now apply IH. }
    apply existsb_exists in Hex as [x [Hin Hx]]. apply effect_eqb_eq in Hx. subst x.
    unfold efts in Hin. apply in_map_iff in Hin as [r [He Hr]]. now exists r.
Qed.

(** ** C18: allow-override. *)
Theorem C18_allow_override :
  forall text d ms,
    spells text "some(where (p.eft == allow))" ->
    exists b, decision text d ms None = Val (b, None) /\
              (b = true <-> some_effect d ms Allow).
Proof.
  intros text d ms Ht. unfold decision, NewEffectDef. cbn [ed_expr]. rewrite Ht.
  change (no_spaces "some(where (p.eft == allow))") with SOME_ALLOW.
  rewrite decide_supported by (now left). unfold stops. cbn [String.eqb Ascii.eqb Bool.eqb SOME_ALLOW].
  destruct (forallb _ _) eqn:E.
  - apply some_effect_forallb in E. exists false. split; [reflexivity|]. split; [discriminate|contradiction].
  - apply some_effect_forallb_false in E. exists true. split; [reflexivity|]. tauto.
Qed.
Print Assumptions C18_allow_override.

(** ** C19: deny-override. *)
Theorem C19_deny_override :
  forall text d ms,
    spells text "!some(where (p.eft == deny))" ->
    exists b, decision text d ms None = Val (b, None) /\
              (b = true <-> ~ some_effect d ms Deny).
Proof.
  intros text d ms Ht. unfold decision, NewEffectDef. cbn [ed_expr]. rewrite Ht.
  change (no_spaces "!some(where (p.eft == deny))") with NO_DENY.
  rewrite decide_supported by (right; now left). unfold stops.
  change (String.eqb NO_DENY SOME_ALLOW) with false. change (String.eqb NO_DENY NO_DENY) with true.
  cbn iota. destruct (forallb _ _) eqn:E.
  - apply some_effect_forallb in E. exists true. split; [reflexivity|]. tauto.
  - apply some_effect_forallb_false in E. exists false. split; [reflexivity|]. split; [discriminate|contradiction].
Qed.
Print Assumptions C19_deny_override.

(** ** C20: allow-and-no-deny. *)
Lemma decide_and text d ms :
  spells text "some(where (p.eft == allow)) && !some(where (p.eft == deny))" ->
  exists b, decision text d ms None = Val (b, None) /\
            (b = true <-> (exists r ms', ms = r :: ms' /\ GetEft d r = Allow) /\ ~ some_effect d ms Deny).
Proof.
  intros Ht. unfold decision, NewEffectDef. cbn [ed_expr]. rewrite Ht.
  change (no_spaces "some(where (p.eft == allow)) && !some(where (p.eft == deny))") with SOME_ALLOW_NO_DENY.
  rewrite decide_supported by (right; now right). unfold stops.
  change (String.eqb SOME_ALLOW_NO_DENY SOME_ALLOW) with false.
  change (String.eqb SOME_ALLOW_NO_DENY NO_DENY) with false.
  cbn iota. destruct (forallb _ _) eqn:E.
  - apply some_effect_forallb in E. eexists. split; [reflexivity|].
    destruct ms as [|r ms]; cbn.
    + split; [discriminate|]. intros [[r [ms' [H _]]] _]. discriminate.
    + rewrite effect_eqb_eq. split.
      * intros H. split; [eauto|exact E].
      * intros [[r' [ms' [H Ha]]] _]. injection H as -> ->. exact Ha.
  - apply some_effect_forallb_false in E. exists false. split; [reflexivity|]. split; [discriminate|tauto].
Qed.

(** What the code decides, for every sequence of matches: the *first* match
    must allow and no match may deny. *)
Theorem C20_and_exact :
  forall text d ms,
    spells text "some(where (p.eft == allow)) && !some(where (p.eft == deny))" ->
    exists b, decision text d ms None = Val (b, None) /\
      (b = true <-> (exists r ms', ms = r :: ms' /\ GetEft d r = Allow) /\ ~ some_effect d ms Deny).
Proof. exact decide_and. Qed.
Print Assumptions C20_and_exact.

(** Partial: the documented meaning, when no matching rule has an effect other
    than allow or deny. *)
Theorem C20_allow_and_no_deny_partial :
  forall text d ms,
    spells text "some(where (p.eft == allow)) && !some(where (p.eft == deny))" ->
    ~ some_effect d ms Indeterminate ->
    exists b, decision text d ms None = Val (b, None) /\
              (b = true <-> some_effect d ms Allow /\ ~ some_effect d ms Deny).
Proof.
  intros text d ms Ht Hi. destruct (decide_and text d ms Ht) as [b [Hb Hiff]].
  exists b. split; [exact Hb|]. rewrite Hiff. split.
  - intros [[r [ms' [-> Ha]]] Hd]. split; [|exact Hd]. exists r. split; [now left|exact Ha].
  - intros [[r [Hin Ha]] Hd]. split; [|exact Hd]. destruct ms as [|r0 ms]; [easy|].
    exists r0, ms. split; [reflexivity|]. destruct (GetEft d r0) eqn:E; [reflexivity| |].
    + exfalso. apply Hi. exists r0. split; [now left|exact E].
    + exfalso. apply Hd. exists r0. split; [now left|exact E].
Qed.
Print Assumptions C20_allow_and_no_deny_partial.

(** One direction holds without restriction: a granted request has a matching
    allow rule and no matching deny rule. *)
Theorem C20_granted_sound :
  forall text d ms,
    spells text "some(where (p.eft == allow)) && !some(where (p.eft == deny))" ->
    decision text d ms None = Val (true, None) ->
    some_effect d ms Allow /\ ~ some_effect d ms Deny.
Proof.
  intros text d ms Ht H. destruct (decide_and text d ms Ht) as [b [Hb Hiff]].
  rewrite Hb in H. injection H as ->.
  destruct (proj1 Hiff eq_refl) as [[r [ms' [-> Ha]]] Hd]. split; [|exact Hd].
  exists r. split; [now left|exact Ha].
Qed.
Print Assumptions C20_granted_sound.

Definition ex_def : argdef := NewPolicyDef "p" "sub, obj, act, eft".
Definition ex_allow : rule := ["p"; "alice"; "data1"; "read"; "allow"].
Definition ex_deny : rule := ["p"; "alice"; "data1"; "read"; "deny"].
Definition ex_other : rule := ["p"; "alice"; "data1"; "read"; "log"].

(** The full statement is false: a matching allow rule, no deny rule, and the
    request is refused because an indeterminate rule is visited first. *)
Theorem C20_allow_and_no_deny_refuted :
  exists text d ms,
    spells text "some(where (p.eft == allow)) && !some(where (p.eft == deny))" /\
    some_effect d ms Allow /\ ~ some_effect d ms Deny /\
    decision text d ms None = Val (false, None).
Proof.
  exists "some(where (p.eft == allow)) && !some(where (p.eft == deny))", ex_def, [ex_other; ex_allow].
  split; [reflexivity|]. split; [exists ex_allow; split; [right; now left|reflexivity]|]. split.
  - intros [r [[<-|[<-|[]]] He]]; vm_compute in He; discriminate.
  - reflexivity.
Qed.
Print Assumptions C20_allow_and_no_deny_refuted.

(** ** C17: the decision does not depend on the order of the matches. *)
Theorem C17_order_refuted :
  exists text d ms ms',
    spells text "some(where (p.eft == allow)) && !some(where (p.eft == deny))" /\
    Permutation ms ms' /\
    decision text d ms None = Val (true, None) /\ decision text d ms' None = Val (false, None).
Proof.
  exists "some(where (p.eft == allow)) && !some(where (p.eft == deny))", ex_def,
    [ex_allow; ex_other], [ex_other; ex_allow].
  split; [reflexivity|]. split; [apply perm_swap|]. split; reflexivity.
Qed.
Print Assumptions C17_order_refuted.

Lemma some_effect_perm d ms ms' e : Permutation ms ms' -> some_effect d ms e -> some_effect d ms' e.
Proof. intros Hp [r [Hin He]]. exists r. split; [eapply Permutation_in; eauto|exact He]. Qed.

(** Independent of the order for every effect expression, except
    allow-and-no-deny in the presence of indeterminate rules. *)
Theorem C17_order_independent_partial :
  forall text d ms ms',
    Permutation ms ms' ->
    (spells text "some(where (p.eft == allow)) && !some(where (p.eft == deny))" ->
     ~ some_effect d ms Indeterminate) ->
    decision text d ms None = decision text d ms' None.
Proof.
  intros text d ms ms' Hp Hi. pose proof (Permutation_sym Hp) as Hp'.
  destruct (string_dec (no_spaces text) SOME_ALLOW) as [E1|E1].
  { destruct (C18_allow_override text d ms E1) as [b [H1 I1]].
    destruct (C18_allow_override text d ms' E1) as [b' [H2 I2]]. rewrite H1, H2.
    assert (b = true <-> b' = true) by (rewrite I1, I2; split; now apply some_effect_perm).
    destruct b, b'; intuition congruence. }
  destruct (string_dec (no_spaces text) NO_DENY) as [E2|E2].
  { destruct (C19_deny_override text d ms E2) as [b [H1 I1]].
    destruct (C19_deny_override text d ms' E2) as [b' [H2 I2]]. rewrite H1, H2.
    assert (b = true <-> b' = true).
    { rewrite I1, I2. split; intros Hn Hs; apply Hn; eapply some_effect_perm; eauto. }
    destruct b, b'; intuition congruence. }
  destruct (string_dec (no_spaces text) SOME_ALLOW_NO_DENY) as [E3|E3].
  { assert (Hi' : ~ some_effect d ms' Indeterminate).
    { intros H. apply (Hi E3). eapply some_effect_perm; eauto. }
    destruct (C20_allow_and_no_deny_partial text d ms E3 (Hi E3)) as [b [H1 I1]].
    destruct (C20_allow_and_no_deny_partial text d ms' E3 Hi') as [b' [H2 I2]]. rewrite H1, H2.
    assert (b = true <-> b' = true).
    { rewrite I1, I2. split; intros [Ha Hn]; (split; [eapply some_effect_perm; eauto|]);
        intros Hs; apply Hn; eapply some_effect_perm; eauto. }
    destruct b, b'; intuition congruence. }
  unfold decision, NewEffectDef. cbn [ed_expr].
  rewrite !decide_unsupported by (unfold supported; tauto).
  destruct ms as [|r ms]; destruct ms' as [|r' ms']; reflexivity.
Qed.
Print Assumptions C17_order_independent_partial.

(** ** C21: an unsupported effect expression never grants. *)
Definition supported_text (text : string) : Prop :=
  spells text "some(where (p.eft == allow))" \/ spells text "!some(where (p.eft == deny))" \/
  spells text "some(where (p.eft == allow)) && !some(where (p.eft == deny))".

Theorem C21_unsupported_denies :
  forall text d ms err,
    ~ supported_text text ->
    exists e, decision text d ms err = Val (false, e).
Proof.
  intros text d ms err Hn. unfold decision, NewEffectDef. cbn [ed_expr].
  rewrite decide_unsupported by exact Hn. destruct ms, err; eauto.
Qed.
Print Assumptions C21_unsupported_denies.

Example C21_ex : ~ supported_text "priority(p.eft) || deny".
Proof. intros [H|[H|H]]; vm_compute in H; discriminate. Qed.

(** ** C22: an unsupported effect expression is reported.  It never is. *)
Theorem C22_unsupported_reported_refuted :
  forall text d ms,
    ~ supported_text text -> decision text d ms None = Val (false, None).
Proof.
  intros text d ms Hn. unfold decision, NewEffectDef. cbn [ed_expr].
  rewrite decide_unsupported by exact Hn. now destruct ms.
Qed.
Print Assumptions C22_unsupported_reported_refuted.

Example C22_ex : decision "priority(p.eft) || deny" ex_def [ex_allow] None = Val (false, None).
Proof. reflexivity. Qed.

(** The effector itself does report it (default_effector.go:51,78); the error
    is lost in the decision loop. *)
Theorem C22_effector_reports_partial :
  forall text effects matches complete,
    ~ supported_text text ->
    exists e m, MergeEffects (ed_expr (NewEffectDef "e" text)) effects matches complete
                = Val (e, m, Some ErrUnsupportedEffect) /\ e = Deny.
Proof.
  intros text effects matches complete Hn. cbn [ed_expr NewEffectDef]. unfold MergeEffects.
  destruct (String.eqb_spec (no_spaces text) SOME_ALLOW) as [?|_]; [exfalso; apply Hn; left; assumption|].
  destruct (String.eqb_spec (no_spaces text) NO_DENY) as [?|_]; [exfalso; apply Hn; right; left; assumption|].
  destruct (String.eqb_spec (no_spaces text) SOME_ALLOW_NO_DENY) as [?|_];
    [exfalso; apply Hn; right; right; assumption|].
  destruct complete; eauto.
Qed.
Print Assumptions C22_effector_reports_partial.

Example C18_ex :
  decision "some(where (p.eft == allow))" ex_def [ex_deny; ex_allow] None = Val (true, None) /\
  decision "some(where (p.eft == allow))" ex_def [ex_deny; ex_other] None = Val (false, None) /\
  decision "!some(where (p.eft == deny))" ex_def [ex_allow; ex_deny] None = Val (false, None) /\
  decision "!some(where (p.eft == deny))" ex_def [] None = Val (true, None) /\
  decision "some(where (p.eft == allow)) && !some(where (p.eft == deny))" ex_def [ex_allow; ex_deny] None
    = Val (false, None) /\
  decision "some(where (p.eft == allow)) && !some(where (p.eft == deny))" ex_def [ex_allow; ex_allow] None
    = Val (true, None).
Proof. repeat split. Qed.
