(** Matchers about the request alone, as in abac_model.conf and
    abac_not_using_policy_model.conf of examples/: no condition names a column of a
    rule. *)
From Verif Require Import GoBase DefsM PolicyM PolicySpec MatcherDefM MatcherDefSpec MatcherM MatcherSpec RbacM RbacSpec DomainM ModelM ModelSpec AppSpec.

(** Every condition of [f] has the truth value [q] gives it, for the request [vs]
    and whatever rule. *)
Definition about_request (E : env) (c : config) (f : form) (F : string -> option gofn) (vs : list value) (q : string -> bool) : Prop :=
  forall e, In e (conds f) ->
    p_args e = [] /\ parses (e_eval E F) e = true /\
    forall r, ev (e_eval E F) e (ParamGet (cf_pd c) r (cf_rd c) vs) = Val (inl (VBool (q e))).

(** Some policy rule present has the effect [e]. *)
Definition some_rule (c : config) (h : list (orders * mcall)) (e : effect) : Prop :=
  exists r, present h ("p"%string :: r) /\ GetEft (cf_pd c) ("p"%string :: r) = e.
Definition no_rule (h : list (orders * mcall)) : Prop := forall r, ~ present h ("p"%string :: r).
