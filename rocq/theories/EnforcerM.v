(** Model of context.go and of the decision part of enforcer.go: context
    options, Enforce, Filter and RangeMatches. *)
From Verif Require Import GoBase DefsM PolicyM EffectorM MatcherDefM MatcherM RbacM DomainM ModelM.

(** ** Context options

    context.go:13-84.  [SetMatcher], [SetRequestDef] and [SetEffector] take an
    [interface{}] and switch on its type.  A [*MatcherDef] is its text, a
    [*EffectDef] is its text before spaces are dropped; a [DefaultEffector] value
    is the text of the definition it was made from, so it is covered by
    [OEffectDef].  A matcher value is one that the model has built (a pointer into
    its heap of matchers).  User-written implementations of IMatcher are in
    UserMatcherM, of IEffector in UserEffectorM.  A value of any other type is ignored. *)
Inductive copt : Type :=
| OMatcher (s : string)
| OMatcherDef (expr : string)
| OMatcherVal (j : nat)
| ORequest (s : string)
| ORequestDef (d : argdef)
| OEffect (s : string)
| OEffectDef (text : string)
| OOther.

(** context.go:87-93 [Context]; [None] is nil. *)
Record ctx : Type := mkCtx { c_r : option argdef; c_m : option nat; c_e : option string }.
Definition ctx0 : ctx := mkCtx None None None.

(** Options may build matchers, which changes the model; the error is what the
    option returns. *)
Definition setMatcherText (E : env) (o : orders) (m : model) (x : ctx) (expr : string)
    : outcome (model * ctx * option goerr) :=
  let! (m, r) := BuildMatcherFromDef E o m expr in
  match r with
  | inr e => Val (m, x, Some e)
  | inl j => Val (m, mkCtx (c_r x) (Some j) (c_e x), None)
  end.

Definition option_apply (E : env) (o : orders) (m : model) (x : ctx) (op : copt)
    : outcome (model * ctx * option goerr) :=
  match op with
  | OMatcher s =>                                   (* context.go:19-31 *)
      if String.eqb s "" then Val (m, x, None)
      else match mget s (md_mMap m) with
           | Some j => Val (m, mkCtx (c_r x) (Some j) (c_e x), None)
           | None => setMatcherText E o m x s
           end
  | OMatcherDef expr => setMatcherText E o m x expr  (* 32-37 *)
  | OMatcherVal j => Val (m, mkCtx (c_r x) (Some j) (c_e x), None)
  | ORequest s =>                                   (* 48-56; GetRequestDef panics before the error *)
      if String.eqb s "" then Val (m, x, None)
      else let! d := GetRequestDef m s in Val (m, mkCtx (Some d) (c_m x) (c_e x), None)
  | ORequestDef d => Val (m, mkCtx (Some d) (c_m x) (c_e x), None)
  | OEffect s =>                                    (* 67-76 *)
      if String.eqb s "" then Val (m, x, None)
      else let eff := match mget s (md_eMap m) with
                      | Some expr => expr
                      | None => ed_expr (NewEffectDef "" s)
                      end in
           Val (m, mkCtx (c_r x) (c_m x) (Some eff), None)
  | OEffectDef text =>                              (* 77-81 *)
      Val (m, mkCtx (c_r x) (c_m x) (Some (ed_expr (NewEffectDef "" text))), None)
  | OOther => Val (m, x, None)
  end.

(** context.go:99-103. *)
Fixpoint apply_options (E : env) (o : orders) (m : model) (x : ctx) (ops : list copt)
    : outcome (model * ctx * option goerr) :=
  match ops with
  | [] => Val (m, x, None)
  | op :: ops' =>
      let! (m, x, err) := option_apply E o m x op in
      match err with
      | Some e => Val (m, x, Some e)
      | None => apply_options E o m x ops'
      end
  end.

(** context.go:95-116 [NewContext]; errors of the defaults are dropped. *)
Definition NewContext (E : env) (o : orders) (m : model) (ops : list copt) : outcome (model * (ctx + goerr)) :=
  let! (m, x, err) := apply_options E o m ctx0 ops in
  match err with
  | Some e => Val (m, inr e)
  | None =>
      let! (m, x, _) := match c_r x with
                        | None => option_apply E o m x (ORequest "r")
                        | Some _ => Val (m, x, None)
                        end in
      let! (m, x, _) := match c_m x with
                        | None => option_apply E o m x (OMatcher "m")
                        | Some _ => Val (m, x, None)
                        end in
      let! (m, x, _) := match c_e x with
                        | None => option_apply E o m x (OEffect "e")
                        | Some _ => Val (m, x, None)
                        end in
      Val (m, inl x)
  end.

(** ** Calls

    enforcer.go:231-246 [splitParams]: options and request values may be mixed. *)
Inductive param : Type := PVal (v : value) | POpt (op : copt).
Definition opts_of (ps : list param) : list copt :=
  flat_map (fun p => match p with POpt op => [op] | PVal _ => [] end) ps.
Definition vals_of (ps : list param) : list value :=
  flat_map (fun p => match p with PVal v => [v] | POpt _ => [] end) ps.
Definition splitParams (E : env) (o : orders) (m : model) (ps : list param) : outcome (model * (ctx + goerr) * list value) :=
  let! (m, c) := NewContext E o m (opts_of ps) in
  Val (m, c, vals_of ps).

(** enforcer.go:307-309 [RangeMatchesWithContext]: a nil request definition or
    matcher is dereferenced. *)
Definition RangeMatchesWithContext {S} (E : env) (o : orders) (m : model) (x : ctx) (rvals : list value)
    (fn : S -> rule -> S * bool) (st : S) : outcome (S * option goerr) :=
  match c_m x, c_r x with
  | Some j, Some rDef => model_RangeMatches E o m j rDef rvals fn st
  | _, _ => Panic
  end.

(** enforcer.go:311-344 [enforce].  [def.(PolicyDef)] panics when the matcher's
    policy section has no definition in the P section. *)
Definition enforce (E : env) (o : orders) (m : model) (x : ctx) (rvals : list value) : outcome (bool * option goerr) :=
  match c_m x with
  | None => Panic
  | Some j =>
      match nth_error (md_mats m) j with
      | None => Panic                       (* unreachable for a built matcher *)
      | Some y =>
          match mget (ad_key (m_def y)) (md_p m) with
          | None => Panic
          | Some pDef =>
              match c_e x with
              | None => Panic               (* unreachable after NewContext *)
              | Some expr =>
                  let! (st, err) := RangeMatchesWithContext E o m x rvals (enforce_fn expr pDef) estate0 in
                  enforce_finish expr st err
              end
          end
      end
  end.

(** enforcer.go:250-256 [Enforce], with 258-273 [EnforceWithContext] (only logs
    on top of [enforce]). *)
Definition Enforce (E : env) (o : orders) (m : model) (ps : list param) : outcome (model * (bool * option goerr)) :=
  let! (m, c, rvals) := splitParams E o m ps in
  match c with
  | inr e => Val (m, (false, Some e))
  | inl x => let! r := enforce E o m x rvals in Val (m, r)
  end.

(** enforcer.go:299-305 [RangeMatches]. *)
Definition enforcer_RangeMatches {S} (E : env) (o : orders) (m : model) (ps : list param)
    (fn : S -> rule -> S * bool) (st : S) : outcome (model * (S * option goerr)) :=
  let! (m, c, rvals) := splitParams E o m ps in
  match c with
  | inr e => Val (m, (st, Some e))
  | inl x => let! r := RangeMatchesWithContext E o m x rvals fn st in Val (m, r)
  end.

(** enforcer.go:282-297 [Filter], [FilterWithContext]. *)
Definition Filter (E : env) (o : orders) (m : model) (ps : list param) : outcome (model * (list rule * option goerr)) :=
  enforcer_RangeMatches E o m ps (fun l r => (l ++ [r], true)) [].
