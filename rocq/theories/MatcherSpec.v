(** What a matcher means, independently of the index. *)
From Verif Require Import GoBase DefsM PolicyM PolicySpec MatcherDefM MatcherDefSpec MatcherM.

(** The ways to satisfy a stage tree: the root-to-leaf paths, as lists of
    atomic conditions.  A rule satisfies the matcher when all conditions of some
    way hold for it. *)
Fixpoint ways (s : stage) : list (list string) :=
  match s with
  | Stage e [] => [[e]]
  | Stage e cs => map (cons e) (flat_map ways cs)
  end.
Definition ways_of (root : stage) : list (list string) := flat_map ways (stage_children root).

(** Every stage has at most two children. *)
Fixpoint narrow (s : stage) : bool :=
  match s with Stage _ cs => Nat.leb (List.length cs) 2 && forallb narrow cs end.

(** The texts of all stages below the root. *)
Fixpoint texts (s : stage) : list string :=
  match s with Stage _ cs => flat_map (fun c => stage_expr c :: texts c) cs end.

Section Meaning.
  Variable E : evaluator.
  Variable pDef rDef : argdef.
  Variable rvals : list value.

  (** The condition [e] holds for the rule [r] (and the request). *)
  Definition holds (e : string) (r : rule) : bool :=
    match ev E e (ParamGet pDef r rDef rvals) with Val (inl (VBool true)) => true | _ => false end.

  (** The condition [e] can be evaluated for [r]. *)
  Definition evaluates (e : string) (r : rule) : Prop :=
    parses E e = true /\ exists v, ev E e (ParamGet pDef r rDef rvals) = Val (inl v).

  Definition all_hold (w : list string) (r : rule) : bool := forallb (fun e => holds e r) w.

  (** Full scan: for every way, the rules that satisfy it. *)
  Definition scan (s : stage) (rules : list rule) : list rule :=
    flat_map (fun w => filter (all_hold w) rules) (ways_of s).

  (** The rule satisfies the matcher. *)
  Definition satisfies (s : stage) (r : rule) : bool := existsb (fun w => all_hold w r) (ways_of s).
End Meaning.

(** A condition reads only the policy values that it names: [p_args e] are the
    policy arguments occurring in the text of [e]; everything else it reads is
    not a policy value.  This fails for eval(...), which reads the arguments
    named in a policy value. *)
Definition reads_only_named (E : evaluator) (e : string) : Prop :=
  forall get get' : params,
    (forall x, In x (p_args e) -> get x = get' x) ->
    (forall x, first_byte x <> Some "p"%char -> first_byte x <> Some "g"%char -> get x = get' x) ->
    ev E e get = ev E e get'.

(** The rule has a value for every policy argument in the text [e]. *)
Definition has_values (d : argdef) (e : string) (r : rule) : Prop :=
  forall x, In x (p_args e) -> GetParameter d r x <> None.

(** Two rules have the same values for all policy arguments named in [e]; a
    condition that names none tells every two rules apart. *)
Definition same_values (d : argdef) (e : string) (r r' : rule) : Prop :=
  match p_args e with
  | [] => r = r'
  | args => GetParameters d r args = GetParameters d r' args
  end.

(** All rules ever added since the last Clear, from an event stream. *)
Definition ever_step (H : rule -> Prop) (e : event) : rule -> Prop :=
  match e with
  | EvtAdded r => fun x => x = r \/ H x
  | EvtRemoved _ => H
  | EvtCleared => fun _ => False
  end.
Definition ever (es : list event) : rule -> Prop := fold_left ever_step es (fun _ => False).

(** A way [pre ++ [l]] gives a match without a present rule: the last
    condition holds for the blank rule and
    - no rule was ever added and the earlier conditions hold for the blank rule, or
    - some rule [h] was once added, the earlier conditions hold for it, and no
      present rule has the same values as [h] for the earlier conditions. *)
Section Phantom.
  Variable E : evaluator.
  Variable pDef rDef : argdef.
  Variable rvals : list value.
  Variable H : rule -> Prop.
  Variable R : rule -> Prop.

  Definition phantom (w : list string) : Prop :=
    exists pre l, w = pre ++ [l] /\ holds E pDef rDef rvals l (blank pDef) = true /\
      (((forall h, ~ H h) /\ all_hold E pDef rDef rvals pre (blank pDef) = true) \/
       (exists h, H h /\ all_hold E pDef rDef rvals pre h = true /\
          forall r, R r -> ~ Forall (fun e => same_values pDef e h r) pre)).
End Phantom.

(** ** Lifetime of a matcher

    [h1] are the calls on the policy before the matcher is created, [h2] the
    calls after it.  [recorded h1 h2] are the rules that were present when the
    matcher was created or were added later, since the last Clear; removals do
    not count. *)
Definition recorded_step (H : rule -> Prop) (o : pop) : rule -> Prop :=
  match o with
  | PAdd r => fun x => x = r \/ H x
  | PRemove _ => H
  | PClear => fun _ => False
  end.
Definition recorded (h1 h2 : list pop) : rule -> Prop :=
  fold_left recorded_step h2 (fun r => set_of h1 r = true).

(** [m] is the matcher for tree [s] created after [h1] and kept through [h2]:
    NewMatcher visits the rules in any order, then follows the events. *)
Definition lives (d : argdef) (s : stage) (h1 h2 : list pop) (m : matcher) : Prop :=
  exists p1 es1 p2 es2 l m0,
    pexec [] h1 = (p1, es1) /\ pexec p1 h2 = (p2, es2) /\ Permutation l (mvals p1) /\
    NewMatcher d l s = Val m0 /\ m_events m0 es2 = Val m.

(** What a caller that never stops is given: all reported rules, and the error. *)
Definition reported (E : evaluator) (ord : order) (m : matcher) (rDef : argdef) (rvals : list value)
    : outcome (list rule * option goerr) :=
  RangeMatches E ord m rDef rvals (fun l r => (l ++ [r], true)) [].

Definition any_order (ord : order) : Prop := forall at_ i m, Permutation (ord at_ i m) m.

(** In how many ways the rule satisfies the matcher. *)
Definition times E pDef rDef rvals (s : stage) (r : rule) : nat :=
  List.length (filter (fun w => all_hold E pDef rDef rvals w r) (ways_of s)).

(** For the rules in question, the condition [e] has the same result for rules
    with the same values for what it names.  Every condition that
    [reads_only_named] is of this kind; eval(p.rule) is, when the rules only name
    request values. *)
Definition own_values E pDef rDef rvals (e : string) (rules : rule -> Prop) : Prop :=
  forall r r', rules r -> rules r' -> same_values pDef e r r' ->
    ev E e (ParamGet pDef r rDef rvals) = ev E e (ParamGet pDef r' rDef rvals).

(** The conditions that come last on some way. *)
Fixpoint lasts_of (s : stage) : list string :=
  match s with
  | Stage _ cs => flat_map (fun c => match stage_children c with [] => [stage_expr c] | _ => lasts_of c end) cs
  end.

(** All conditions of the matcher are readable for the rules in question: these
    have the values that the conditions name, no other values of theirs matter,
    and the conditions evaluate without error for those rules.  Those that come
    last, and all of them if there are no rules, also evaluate for the blank
    rule. *)
Definition sound_conditions E pDef rDef rvals (s : stage) (rules : rule -> Prop) : Prop :=
  forall e, In e (texts s) ->
    (forall r, rules r -> has_values pDef e r) /\ own_values E pDef rDef rvals e rules /\
    (forall r, rules r -> evaluates E pDef rDef rvals e r) /\
    (In e (lasts_of s) \/ (forall r, ~ rules r) -> evaluates E pDef rDef rvals e (blank pDef)).

(** The rules that the calls of a history add or remove. *)
Definition rules_in (h : list pop) (r : rule) : Prop := In (PAdd r) h \/ In (PRemove r) h.

(** Joined with commas, two different rules have different texts, and so have
    the values of two rules that a condition of the matcher names, unless these
    are the same.  So it is when no value has a comma. *)
Definition told_apart (d : argdef) (s : stage) (rules : rule -> Prop) : Prop :=
  (forall r r', rules r -> rules r' -> join "," r = join "," r' -> r = r') /\
  (forall e r r' vs vs', In e (texts s) -> rules r -> rules r' ->
     GetParameters d r (p_args e) = Some vs -> GetParameters d r' (p_args e) = Some vs' ->
     join "," vs = join "," vs' -> vs = vs').

(** Alternatives at the start of a formula, and formulas that never offer more
    than two alternatives at one point. *)
Fixpoint alternatives (f : form) : nat :=
  match f with
  | FAtom _ => 1 | FPar f => alternatives f | FAnd f _ => alternatives f
  | FOr f g => alternatives f + alternatives g
  end.
Fixpoint and_narrow (f : form) : bool :=
  match f with
  | FAtom _ => true
  | FPar f => and_narrow f
  | FOr f g => and_narrow f && and_narrow g
  | FAnd f g => and_narrow f && and_narrow g && Nat.leb (alternatives g) 2
  end.
Definition two_way (f : form) : bool := Nat.leb (alternatives f) 2 && and_narrow f.
