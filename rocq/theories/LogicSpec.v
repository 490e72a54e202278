(** What a matcher means that is built with and, or and parentheses from
    comparisons and function calls over the values of the request and of a rule:
    every model file of examples/ that does not use eval. *)
From Verif Require Import GoBase DefsM PolicyM PolicySpec MatcherDefM MatcherDefSpec MatcherM MatcherSpec RbacM RbacSpec DomainM DomainSpec ModelM ModelSpec AppSpec MultiSpec Prop_Defs.

(** r.x, p.x or a literal *)
Inductive term : Type := TReq (x : string) | TPol (x : string) | TLit (s : string).
(** [Among a s1 s2 ss] is a in (s1, s2, ...): at least two literals, since govaluate
    reads ('s') as the string s and refuses the operator. *)
Inductive test : Type := Equal (a b : term) | Unequal (a b : term) | Call (f : string) (args : list term)
  | Among (a : term) (s1 s2 : string) (ss : list string).
Inductive mform : Type := MTest (t : test) | MPar (f : mform) | MAnd (f g : mform) | MOr (f g : mform).

(** How it is written, with the keys [rk] and [pk] for r and p. *)
Definition term_token (rk pk : string) (a : term) : token :=
  match a with
  | TReq x => mkTok KOther (rk ++ "_" ++ x)
  | TPol x => mkTok KOther (pk ++ "_" ++ x)
  | TLit s => mkTok KString s
  end%string.
Fixpoint separated (ts : list token) : list token :=
  match ts with
  | t :: (_ :: _) as ts' => t :: mkTok KSeparator ","%string :: separated ts'
  | _ => ts
  end.
Definition test_tokens (rk pk : string) (t : test) : list token :=
  match t with
  | Equal a b => [term_token rk pk a; mkTok KOther "=="%string; term_token rk pk b]
  | Unequal a b => [term_token rk pk a; mkTok KOther "!="%string; term_token rk pk b]
  | Call f args => ([mkTok KFunction f; mkTok KClause "("%string] ++ separated (map (term_token rk pk) args) ++ [mkTok KClauseClose ")"%string])%list
  | Among a s1 s2 ss => ([term_token rk pk a; mkTok KOther "in"%string; mkTok KClause "("%string] ++ separated (map (mkTok KString) (s1 :: s2 :: ss)) ++ [mkTok KClauseClose ")"%string])%list
  end.
Definition test_text (rk pk : string) (t : test) : string := tokensToExpr (test_tokens rk pk t).
Fixpoint as_form (rk pk : string) (f : mform) : form :=
  match f with
  | MTest t => FAtom (test_tokens rk pk t)
  | MPar f => FPar (as_form rk pk f)
  | MAnd f g => FAnd (as_form rk pk f) (as_form rk pk g)
  | MOr f g => FOr (as_form rk pk f) (as_form rk pk g)
  end.
Fixpoint tests (f : mform) : list test :=
  match f with MTest t => [t] | MPar f => tests f | MAnd f g | MOr f g => tests f ++ tests g end.
(** The tests that come last in an alternative. *)
Fixpoint last_tests (f : mform) : list test :=
  match f with MTest t => [t] | MPar f => last_tests f | MAnd _ g => last_tests g | MOr f g => last_tests f ++ last_tests g end.
Definition test_terms (t : test) : list term := match t with Equal a b | Unequal a b => [a; b] | Call _ args => args | Among a _ _ _ => [a] end.

(** What is assumed of govaluate: comparisons compare the values of their sides, and a
    call calls the function with the values of its arguments; in looks for the value among
    the literals. *)
Definition term_gets (rk pk : string) (get : params) (a : term) (u : string) : Prop :=
  match a with
  | TReq x => get (rk ++ "_" ++ x)%string = Val (Some (VStr u))
  | TPol x => get (pk ++ "_" ++ x)%string = Val (Some (VStr u))
  | TLit s => u = s
  end.
Definition test_evaluates (E : env) (rk pk : string) (t : test) : Prop :=
  let e := test_text rk pk t in
  forall F, (forall f args, t = Call f args -> F f <> None) ->
    parses (e_eval E F) e = true /\ reads_only_named (e_eval E F) e /\
    forall get : params,
      match t with
      | Equal a b => forall u v, term_gets rk pk get a u -> term_gets rk pk get b v -> ev (e_eval E F) e get = Val (inl (VBool (String.eqb u v)))
      | Unequal a b => forall u v, term_gets rk pk get a u -> term_gets rk pk get b v -> ev (e_eval E F) e get = Val (inl (VBool (negb (String.eqb u v))))
      | Call f args => forall g us, F f = Some g -> Forall2 (term_gets rk pk get) args us -> ev (e_eval E F) e get = g (map VStr us)
      | Among a s1 s2 ss => forall u, term_gets rk pk get a u -> ev (e_eval E F) e get = Val (inl (VBool (existsb (String.eqb u) (s1 :: s2 :: ss))))
      end.

(** ** Meaning

    [rt] and [pt] are the texts that define the columns of the request and of the
    section; [vals] are the values of the request, [r] those of the rule. *)
Definition term_value (rt pt : string) (vals : list string) (r : rule) (a : term) (u : string) : Prop :=
  match a with
  | TReq x => exists n, nth_error (named_columns rt) n = Some x /\ nth_error vals n = Some u
  | TPol x => exists n, nth_error (named_columns pt) n = Some x /\ nth_error r n = Some u
  | TLit s => u = s
  end.
(** A function whose name is a grouping section of the file asks for a chain of
    present rules of that section, in the domain given by further arguments if the
    section has more than two places; any other is a function every new model has. *)
Definition linked_by (h : list (orders * mcall)) (gk gt a b : string) (ds : list string) : Prop :=
  a = b \/ exists n, 1 <= n /\
    if Nat.eqb (rd_nargs (NewRoleDef gk gt)) 2 then n <= 9 /\ chain (fun x y => present h [gk; x; y]) n a b
    else n + List.length ds <= 8 /\ chain (fun x y => present h (gk :: x :: y :: ds)) n a b.
Definition is_group (d : deflist) (f : string) : Prop := exists gt, In (G_SEC, f, gt) d.
Definition call_true (E : env) (d : deflist) (h : list (orders * mcall)) (f : string) (us : list string) : Prop :=
  (exists gt a b ds, In (G_SEC, f, gt) d /\ us = a :: b :: ds /\ linked_by h f gt a b ds) \/
  (~ is_group d f /\ exists g, mget f (e_builtins E) = Some g /\ g (map VStr us) = Val (inl (VBool true))).
(** The call has an answer. *)
Definition call_answers (E : env) (d : deflist) (f : string) (us : list string) : Prop :=
  (exists gt a b ds, In (G_SEC, f, gt) d /\ us = a :: b :: ds /\ unreserved ds) \/
  (~ is_group d f /\ exists g v, mget f (e_builtins E) = Some g /\ g (map VStr us) = Val (inl (VBool v))).
Definition test_true (E : env) (d : deflist) (h : list (orders * mcall)) (rt pt : string) (vals : list string) (r : rule) (t : test) : Prop :=
  let v := term_value rt pt vals r in
  match t with
  | Equal a b => exists x, v a x /\ v b x
  | Unequal a b => exists x y, v a x /\ v b y /\ x <> y
  | Call f args => exists us, Forall2 v args us /\ call_true E d h f us
  | Among a s1 s2 ss => exists x, v a x /\ In x (s1 :: s2 :: ss)
  end.
Fixpoint form_true (T : test -> Prop) (f : mform) : Prop :=
  match f with
  | MTest t => T t
  | MPar f => form_true T f
  | MAnd f g => form_true T f /\ form_true T g
  | MOr f g => form_true T f \/ form_true T g
  end.
(** The matcher is true for a rule and a request. *)
Definition satisfies (E : env) (d : deflist) (h : list (orders * mcall)) (rt pt : string) (f : mform) (vals : list string) (r : rule) : Prop :=
  form_true (test_true E d h rt pt vals r) f.
(** The effect of a rule: what its column eft says, else allow. *)
Definition rule_effect (pt : string) (r : rule) (e : effect) : Prop :=
  (~ In "eft"%string (named_columns pt) /\ e = Allow) \/
  (exists n s, nth_error (named_columns pt) n = Some "eft"%string /\ nth_error r n = Some s /\ e = effect_of_text s).
(** Some present rule for which the matcher is true has effect [e]. *)
Definition says (E : env) (d : deflist) (h : list (orders * mcall)) (rt pk pt : string) (f : mform) (vals : list string) (e : effect) : Prop :=
  exists r, present h (pk :: r) /\ satisfies E d h rt pt f vals r /\ rule_effect pt r e.

(** The matcher [mk] of the file is the formula [f] over the request [rk] and the
    section [pk]. *)
Record logical (E : env) (d : deflist) (R : string -> form * string) (mk rk pk rt pt : string) (f : mform) : Prop := {
  lg_matcher : exists mt, In (M_SEC, mk, mt) d;
  lg_reading : R mk = (as_form rk pk f, pk);
  lg_request : In (R_SEC, rk, rt) d;
  lg_policy : In (P_SEC, pk, pt) d;
  lg_rcols : NoDup (named_columns rt);
  lg_pcols : NoDup (named_columns pt);
  lg_terms : forall t a, In t (tests f) -> In a (test_terms t) ->
               match a with TReq x => In x (named_columns rt) | TPol x => In x (named_columns pt) | TLit _ => True end;
  lg_plain : forall t x, In t (tests f) -> In x (p_args (test_text rk pk t)) -> exists y, In y (named_columns pt) /\ x = (pk ++ "_" ++ y)%string;
  lg_eval : Forall (test_evaluates E rk pk) (tests f)
}.
(** Every call has an answer for the rules that were added, and for the rule of
    empty values if it comes last in an alternative or there is no rule. *)
Definition calls_answer (E : env) (d : deflist) (h : list (orders * mcall)) (rt pk pt : string) (f : mform) (vals : list string) : Prop :=
  forall r g args us, In (Call g args) (tests f) ->
    added_to pk h r \/
    (r = repeat ""%string (List.length (named_columns pt)) /\ (In (Call g args) (last_tests f) \/ forall r', ~ present h (pk :: r'))) ->
    Forall2 (term_value rt pt vals r) args us -> call_answers E d g us.
