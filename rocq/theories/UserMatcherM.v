(** Model of Enforce and Filter with a matcher written by the user of the library:
    any implementation of model/matcher/matcher_api.go:8-11 [IMatcher], passed with
    the context option SetMatcher (context.go:38-39) or stored with model/model.go:344-346
    [SetMatcher]. *)
From Verif Require Import GoBase DefsM PolicyM EffectorM MatcherDefM MatcherM RbacM DomainM ModelM EnforcerM.

(** matcher_api.go:10 [RangeMatches]: what the matcher does in one call.  It ends,
    perhaps with an error; it panics; or it hands a rule to the callback and goes on
    in a way that may depend on what the callback answers. *)
Inductive search : Type :=
| SEnd (err : option goerr)
| SPanic
| SReport (r : rule) (next : bool -> search).

(** matcher_api.go:8-11 [IMatcher]: its policy key, and its search for a request
    definition, request values and functions.  Simplified: the matcher has no state
    of its own that one call leaves for the next. *)
Record imatch : Type := mkImatch {
  im_key : string;
  im_search : argdef -> list value -> (string -> option gofn) -> search
}.

(** The search with the callback [fn], which may panic. *)
Fixpoint run_search {S} (v : search) (fn : S -> rule -> outcome (S * bool)) (st : S) : outcome (S * option goerr) :=
  match v with
  | SEnd err => Val (st, err)
  | SPanic => Panic
  | SReport r next => let! (st, b) := fn st r in run_search (next b) fn st
  end.

Section User.
  Variable X : imatch.

  (** context.go:95-116 [NewContext] when an option sets the user's matcher, or when
      no option sets one and the model has the user's under "m": options before it
      may set others, and the default for the matcher (108-110) is not used or finds
      the user's. *)
  Definition user_context (E : env) (o : orders) (m : model) (ops : list copt) : outcome (model * (ctx + goerr)) :=
    let! (m, x, err) := apply_options E o m ctx0 ops in
    match err with
    | Some e => Val (m, inr e)
    | None =>
        let! (m, x, _) := match c_r x with
                          | None => option_apply E o m x (ORequest "r")
                          | Some _ => Val (m, x, None)
                          end in
        let! (m, x, _) := match c_e x with
                          | None => option_apply E o m x (OEffect "e")
                          | Some _ => Val (m, x, None)
                          end in
        Val (m, inl x)
    end.

  (** enforcer.go:307-309 [RangeMatchesWithContext], model.go:366-371 [RangeMatches]:
      rules get the policy key of the matcher in front. *)
  Definition user_range {S} (o : orders) (m : model) (x : ctx) (rvals : list value) (fn : S -> rule -> outcome (S * bool)) (st : S)
      : outcome (S * option goerr) :=
    match c_r x with
    | None => Panic
    | Some rDef => run_search (im_search X rDef rvals (functions o m)) (fun st r => fn st (im_key X :: r)) st
    end.

  (** enforcer.go:282-297 [Filter], [FilterWithContext]. *)
  Definition FilterWith (E : env) (o : orders) (m : model) (ps : list param) : outcome (model * (list rule * option goerr)) :=
    let! (m, c) := user_context E o m (opts_of ps) in
    match c with
    | inr e => Val (m, ([], Some e))
    | inl x => let! r := user_range o m x (vals_of ps) (fun l r => Val ((l ++ [r])%list, true)) [] in Val (m, r)
    end.

  (** enforcer.go:311-344 [enforce] and 250-256 [Enforce]: as in EnforcerM; a panic of
      the effector inside the callback goes through the matcher. *)
  Definition enforce_call (expr : string) (pDef : argdef) (st : estate) (r : rule) : outcome (estate * bool) :=
    let (st, b) := enforce_fn expr pDef st r in if es_panic st then Panic else Val (st, b).
  Definition enforce_with (o : orders) (m : model) (x : ctx) (rvals : list value) : outcome (bool * option goerr) :=
    match mget (im_key X) (md_p m) with
    | None => Panic
    | Some pDef =>
        match c_e x with
        | None => Panic                     (* unreachable after NewContext *)
        | Some expr =>
            let! (st, err) := user_range o m x rvals (enforce_call expr pDef) estate0 in
            enforce_finish expr st err
        end
    end.
  Definition EnforceWith (E : env) (o : orders) (m : model) (ps : list param) : outcome (model * (bool * option goerr)) :=
    let! (m, c) := user_context E o m (opts_of ps) in
    match c with
    | inr e => Val (m, (false, Some e))
    | inl x => let! r := enforce_with o m x (vals_of ps) in Val (m, r)
    end.
End User.
