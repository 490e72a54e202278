(** Two more kinds of model files of examples/ and what they are meant to decide:
    rules that carry a condition on the request (abac_rule_model.conf), and access
    control lists with a super user (basic_with_root_model.conf). *)
From Verif Require Import GoBase DefsM PolicyM PolicySpec MatcherDefM MatcherDefSpec MatcherM MatcherSpec RbacM RbacSpec DomainM ModelM ModelSpec AppSpec AppsSpec.

(** ** Rules with a condition *)
Definition abac_config : config :=
  mkCfg "sub, obj, act" "sub_rule, obj, act" None "some(where (p.eft == allow))" "eval(p.sub_rule) && r.obj == p.obj && r.act == p.act".
Definition eval_tokens : list token := [mkTok KFunction "eval"; mkTok KClause "("; mkTok KOther "p_sub_rule"; mkTok KClauseClose ")"]%string.
Definition eval_text : string := "eval(p_sub_rule)".
Definition abac_form : form := all_of eval_tokens [eq_tokens "obj"; eq_tokens "act"].
(** eval(p.sub_rule) has the value of the text in that column, read with the same
    names (matcher.go:235-255). *)
Definition evals (E : env) : Prop :=
  forall F, parses (e_eval E F) eval_text = true /\
    forall (get : params) t, get "p_sub_rule"%string = Val (Some (VStr t)) -> parses (e_eval E F) (arg_replace t) = true ->
      ev (e_eval E F) eval_text get = ev (e_eval E F) (arg_replace t) get.
(** The condition [t] is a statement about the request [vs] alone, and has the
    truth value [b]. *)
Definition says (E : env) (F : string -> option gofn) (vs : list value) (t : string) (b : bool) : Prop :=
  parses (e_eval E F) (arg_replace t) = true /\
  forall obj act, ev (e_eval E F) (arg_replace t) (ParamGet (cf_pd abac_config) [t; obj; act] (cf_rd abac_config) vs) = Val (inl (VBool b)).

(** ** A super user: the request alone can satisfy the second alternative [ts],
    which has the truth value [su vals] for the request [vals]. *)
Record superuser (E : env) (c : config) (x : string) (xs : list string) (ts : list token) (su : list string -> bool) : Prop := {
  su_r : columns (cf_r c) = x :: xs;
  su_p : columns (cf_p c) = x :: xs;
  su_distinct : NoDup (x :: xs);
  su_eft : ~ In "eft"%string (x :: xs);
  su_plain : Forall plain_column (x :: xs);
  su_e : no_spaces (cf_e c) = no_spaces "some(where (p.eft == allow))";
  su_m : reads_tokens E c (FOr (all_of (eq_tokens x) (map eq_tokens xs)) (FAtom ts));
  su_ev : Forall (compares E) (x :: xs);
  su_atom : atom_ok ts;
  su_names : p_args (tokensToExpr ts) = [];
  su_cond : forall F, parses (e_eval E F) (tokensToExpr ts) = true /\
    forall (get : params) vals, Forall2 (fun y a => get ("r_" ++ y)%string = Val (Some (VStr a))) (x :: xs) vals ->
      ev (e_eval E F) (tokensToExpr ts) get = Val (inl (VBool (su vals)))
}.
