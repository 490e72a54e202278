(** Three kinds of model files of examples/ and what they are meant to decide:
    access control lists (basic_model.conf, basic_without_users_model.conf,
    basic_without_resources_model.conf, with any number of columns), RBAC with
    domains (rbac_with_domains_model.conf) and RBAC with denials
    (rbac_with_deny_model.conf). *)
From Verif Require Import GoBase DefsM PolicyM PolicySpec MatcherDefM MatcherDefSpec MatcherM MatcherSpec RbacM RbacSpec DomainM ModelM ModelSpec AppSpec.

(** A conjunction of conditions, given by their tokens. *)
Definition all_of (t : list token) (ts : list (list token)) : form := fold_left (fun f a => FAnd f (FAtom a)) ts (FAtom t).
(** The condition r.x == p.x *)
Definition eq_tokens (x : string) : list token := [mkTok KOther ("r_" ++ x); mkTok KOther "=="; mkTok KOther ("p_" ++ x)]%string.
Definition eq_text (x : string) : string := ("r_" ++ x ++ " == p_" ++ x)%string.
(** The condition g(r.a, p.b, r.c) with one to three arguments *)
Fixpoint arg_tokens (args : list string) : list token :=
  match args with
  | [] => []
  | [a] => [mkTok KOther a]
  | a :: args' => mkTok KOther a :: mkTok KSeparator "," :: arg_tokens args'
  end%string.
Definition call_tokens (args : list string) : list token :=
  (mkTok KFunction "g" :: mkTok KClause "(" :: arg_tokens args ++ [mkTok KClauseClose ")"])%string%list.

(** What is assumed of govaluate.  The matcher is read as written when the
    functions are registered, and otherwise read so or rejected. *)
Definition reads_tokens (E : env) (c : config) (f : form) : Prop :=
  (forall fns, (cf_g c <> None -> In "g"%string fns) -> (forall k, In k (mkeys (e_builtins E)) -> In k fns) ->
     e_parse E fns (arg_replace (cf_m c)) = Some (written f)) /\
  (forall fns, e_parse E fns (arg_replace (cf_m c)) = Some (written f) \/ e_parse E fns (arg_replace (cf_m c)) = None).
(** r.x == p.x compares two strings and reads nothing else. *)
Definition compares (E : env) (x : string) : Prop :=
  forall F, parses (e_eval E F) (eq_text x) = true /\ reads_only_named (e_eval E F) (eq_text x) /\
    forall (get : params) a b, get ("r_" ++ x)%string = Val (Some (VStr a)) -> get ("p_" ++ x)%string = Val (Some (VStr b)) ->
      ev (e_eval E F) (eq_text x) get = Val (inl (VBool (String.eqb a b))).
(** g(...) calls the registered function with the values of its arguments. *)
Definition calls (E : env) (args : list string) : Prop :=
  forall F f, F "g"%string = Some f ->
    parses (e_eval E F) (tokensToExpr (call_tokens args)) = true /\
    reads_only_named (e_eval E F) (tokensToExpr (call_tokens args)) /\
    forall (get : params) vs, Forall2 (fun a v => get a = Val (Some v)) args vs ->
      ev (e_eval E F) (tokensToExpr (call_tokens args)) get = f vs.

(** ** Access control lists: the same columns in requests and rules, compared one
    by one.  A column name is plain when the text of its condition names that
    column and no other (C24, C25 say when it does). *)
Definition columns (t : string) : list string := split_char "," (no_spaces t).
Definition plain_column (x : string) : Prop := p_args (eq_text x) = [("p_" ++ x)%string].
Record acl (E : env) (c : config) (x : string) (xs : list string) : Prop := {
  acl_r : columns (cf_r c) = x :: xs;
  acl_p : columns (cf_p c) = x :: xs;
  acl_distinct : NoDup (x :: xs);
  acl_eft : ~ In "eft"%string (x :: xs);
  acl_plain : Forall plain_column (x :: xs);
  acl_e : no_spaces (cf_e c) = no_spaces "some(where (p.eft == allow))";
  acl_m : reads_tokens E c (all_of (eq_tokens x) (map eq_tokens xs));
  acl_ev : Forall (compares E) (x :: xs)
}.

(** ** RBAC with domains *)
Definition dom_config : config :=
  mkCfg "sub, dom, obj, act" "sub, dom, obj, act" (Some "_, _, _")%string "some(where (p.eft == allow))"
        "g(r.sub, p.sub, r.dom) && r.dom == p.dom && r.obj == p.obj && r.act == p.act".
Definition dom_args : list string := ["r_sub"; "p_sub"; "r_dom"]%string.
Definition dom_form : form := all_of (call_tokens dom_args) [eq_tokens "dom"; eq_tokens "obj"; eq_tokens "act"].
(** Some rule (role, dom, obj, act) is present and the subject is that role or
    reaches it over at most seven grouping rules of that domain. *)
Definition permitted_in (h : list (orders * mcall)) (sub dom obj act : string) : Prop :=
  exists role, present h ["p"; role; dom; obj; act]%string /\
    (sub = role \/ exists n, 1 <= n <= 7 /\ chain (fun x y => present h ["g"; x; y; dom]%string) n sub role).

(** ** RBAC with denials *)
Definition deny_config : config :=
  mkCfg "sub, obj, act" "sub, obj, act, eft" (Some "_, _")%string "some(where (p.eft == allow)) && !some(where (p.eft == deny))"
        "g(r.sub, p.sub) && r.obj == p.obj && r.act == p.act".
Definition deny_args : list string := ["r_sub"; "p_sub"]%string.
Definition deny_form : form := all_of (call_tokens deny_args) [eq_tokens "obj"; eq_tokens "act"].
(** The subject has, itself or over at most nine grouping rules, a role with a
    rule of the given effect for obj and act. *)
Definition ruled (h : list (orders * mcall)) (sub obj act eft : string) : Prop :=
  exists role, present h ["p"; role; obj; act; eft]%string /\
    (sub = role \/ exists n, 1 <= n <= 9 /\ chain (fun x y => present h ["g"; x; y]%string) n sub role).
