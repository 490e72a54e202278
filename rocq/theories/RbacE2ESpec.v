(** The role based access control model of the documentation
    (examples/rbac_model.conf) and the histories an application makes with it. *)
From Verif Require Import GoBase DefsM PolicyM PolicySpec MatcherDefM MatcherM MatcherSpec RbacM RbacSpec DomainM ModelM ModelSpec.

(** examples/rbac_model.conf, section by section. *)
Definition rbac_matcher : string := "g(r.sub, p.sub) && r.obj == p.obj && r.act == p.act".
Definition rbac_defs : list mcall :=
  [CSetDef R_SEC "r" "sub, obj, act"; CSetDef P_SEC "p" "sub, obj, act"; CSetDef G_SEC "g" "_, _";
   CSetDef E_SEC "e" "some(where (p.eft == allow))"; CSetDef M_SEC "m" rbac_matcher]%string.

(** Rules are added and removed one by one or by clearing a section; policy
    rules have three values without a comma. *)
Definition rbac_rule (rl : rule) : Prop :=
  (exists sub obj act, rl = ["p"; sub; obj; act] /\ Forall (fun v => has_char "," v = false) [sub; obj; act])%string \/
  (exists user role, rl = ["g"; user; role])%string.
Definition rbac_call (c : mcall) : Prop :=
  match c with
  | CAdd rl | CRemove rl => rbac_rule rl
  | CClear k => k = "p"%string \/ k = "g"%string
  | _ => False
  end.
(** The model is loaded, its matcher built (before, between or after rules), and
    rules come and go. *)
Definition rbac_history (h : list (orders * mcall)) : Prop :=
  exists hd hr1 o hr2, h = hd ++ hr1 ++ (o, CBuild) :: hr2 /\ map snd hd = rbac_defs /\
    Forall (fun c => rbac_call (snd c)) hr1 /\ Forall (fun c => rbac_call (snd c)) hr2.

(** What is assumed of govaluate: it tokenizes the matcher as written if g is a
    registered function and rejects it otherwise; it parses the three conditions,
    calls the function g with the two values, compares strings, and reads no
    parameters but those named. *)
Definition c_g : string := "g(r_sub, p_sub)".
Definition c_obj : string := "r_obj == p_obj".
Definition c_act : string := "r_act == p_act".
Definition rbac_tokens : list token :=
  [mkTok KFunction "g"; mkTok KClause "("; mkTok KOther "r_sub"; mkTok KSeparator ","; mkTok KOther "p_sub"; mkTok KClauseClose ")";
   mkTok KLogicalOp "&&"; mkTok KOther "r_obj"; mkTok KOther "=="; mkTok KOther "p_obj";
   mkTok KLogicalOp "&&"; mkTok KOther "r_act"; mkTok KOther "=="; mkTok KOther "p_act"]%string.
Record understands (E : env) : Prop := {
  u_tokens : forall fns, e_parse E fns "g(r_sub, p_sub) && r_obj == p_obj && r_act == p_act" =
                         if in_dec string_dec "g"%string fns then Some rbac_tokens else None;
  u_parses : forall F f e, F "g"%string = Some f -> In e [c_g; c_obj; c_act] -> parses (e_eval E F) e = true;
  u_call : forall F f (get : params) x y, F "g"%string = Some f -> get "r_sub"%string = Val (Some x) -> get "p_sub"%string = Val (Some y) ->
             ev (e_eval E F) c_g get = f [x; y];
  u_obj : forall F (get : params) x y, get "r_obj"%string = Val (Some (VStr x)) -> get "p_obj"%string = Val (Some (VStr y)) ->
             ev (e_eval E F) c_obj get = Val (inl (VBool (String.eqb x y)));
  u_act : forall F (get : params) x y, get "r_act"%string = Val (Some (VStr x)) -> get "p_act"%string = Val (Some (VStr y)) ->
             ev (e_eval E F) c_act get = Val (inl (VBool (String.eqb x y)));
  u_named : forall F e, In e [c_g; c_obj; c_act] -> reads_only_named (e_eval E F) e
}.

(** The decision: some rule (role, obj, act) is present and the subject is that
    role or reaches it over at most nine grouping rules. *)
Definition permitted (h : list (orders * mcall)) (sub obj act : string) : Prop :=
  exists role, present h ["p"; role; obj; act]%string /\
    (sub = role \/ exists n, 1 <= n <= 9 /\ chain (fun x y => present h ["g"; x; y]%string) n sub role).
