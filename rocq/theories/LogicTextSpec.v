(** Queries that bring their own matcher, a formula of comparisons and function
    calls (README.md:77-93, Advanced Policy Filtering; LogicSpec.v for the formulas
    and their meaning). *)
From Verif Require Import GoBase DefsM PolicyM PolicySpec MatcherDefM MatcherDefSpec MatcherM MatcherSpec RbacM RbacSpec DomainM DomainSpec ModelM ModelSpec AppSpec MultiSpec LogicSpec Prop_Defs.

(** The text [text] is read as the formula [f] over the request [rk] and the policy
    section [pk] of the file. *)
Record logical_text (E : env) (d : deflist) (text rk pk rt pt : string) (f : mform) : Prop := {
  lt_reads : forall fns, (forall k g, In (G_SEC, k, g) d -> In k fns) -> (forall k, In k (mkeys (e_builtins E)) -> In k fns) ->
               e_parse E fns (arg_replace text) = Some (written (as_form rk pk f));
  lt_atoms : atoms_ok (as_form rk pk f);
  lt_parsed : parsed (as_form rk pk f);
  lt_faithful : faithful (as_form rk pk f) = true;
  lt_two : two_way (as_form rk pk f) = true;
  lt_request : In (R_SEC, rk, rt) d;
  lt_policy : In (P_SEC, pk, pt) d;
  lt_key : has_char "_" pk = false;
  lt_some : pk = "p"%string \/ exists t x, In t (tests f) /\ In x (p_args (test_text rk pk t));
  lt_rcols : NoDup (named_columns rt);
  lt_pcols : NoDup (named_columns pt);
  lt_terms : forall t a, In t (tests f) -> In a (test_terms t) ->
               match a with TReq x => In x (named_columns rt) | TPol x => In x (named_columns pt) | TLit _ => True end;
  lt_plain : forall t x, In t (tests f) -> In x (p_args (test_text rk pk t)) -> exists y, In y (named_columns pt) /\ x = (pk ++ "_" ++ y)%string;
  lt_eval : Forall (test_evaluates E rk pk) (tests f)
}.
(** The rule of empty values. *)
Definition empty_rule (pt : string) : rule := repeat ""%string (List.length (named_columns pt)).
(** Every call has an answer for the present rules, and for the rule of empty values
    if it comes last in an alternative or there is no rule. *)
Definition queries_answer (E : env) (d : deflist) (h : list (orders * mcall)) (rt pk pt : string) (f : mform) (vals : list string) : Prop :=
  forall r g args us, In (Call g args) (tests f) ->
    present h (pk :: r) \/
    (r = empty_rule pt /\ (In (Call g args) (last_tests f) \/ forall r', ~ present h (pk :: r'))) ->
    Forall2 (term_value rt pt vals r) args us -> call_answers E d g us.
