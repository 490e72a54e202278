(** Model of a model that uses role managers written by the user of the library:
    model/model.go:334-337 [SetRoleManager] with any implementation of
    rbac/role_manager_api.go:22-42 [IRoleManager], or with nil. *)
From Verif Require Import GoBase DefsM PolicyM MatcherDefM MatcherM RbacM DomainM ModelM.

(** role_manager_api.go:22-42 [IRoleManager]: any implementation, with a state of
    its own; every method may panic.  Simplified: HasLink leaves the state as it
    is, and Range is given by the links it visits before the callback stops it.
    GetRoles and GetUsers are not called by the library. *)
Record manager (S : Type) : Type := mkManager {
  u_AddLink : S -> string -> string -> list string -> outcome (S * (bool * option goerr));
  u_DeleteLink : S -> string -> string -> list string -> outcome (S * (bool * option goerr));
  u_HasLink : S -> string -> string -> list string -> outcome (bool * option goerr);
  u_Clear : S -> outcome (S * option goerr);
  u_Range : S -> list (string * string * list string)
}.
Arguments mkManager {S}.
Arguments u_AddLink {S}. Arguments u_DeleteLink {S}. Arguments u_HasLink {S}. Arguments u_Clear {S}. Arguments u_Range {S}.

Section UserRole.
  Context {S : Type}.
  Variable U : manager S.

  (** role_manager_api.go:52-71 [GenerateGFunction]; [None] is a nil manager, for
      which further arguments are not looked at. *)
  Definition user_function (s : option S) : gofn := fun args =>
    match args with
    | VStr a :: VStr b :: rest =>
        match s with
        | None => Val (inl (VBool (String.eqb a b)))
        | Some s =>
            match as_strings rest with
            | None => Panic
            | Some ds => let! (r, err) := u_HasLink U s a b ds in
                         Val (match err with None => inl (VBool r) | Some e => inr e end)
            end
        end
    | _ => Panic
    end.

  (** model.go:72-85 [Model]: [u_m] as in ModelM; [u_rms] are the keys of the map of
      role policies that hold a manager of the user ([None]: nil), with whether the
      function map still has the function of this manager (SetRoleManager stores
      both, SetFunction and RemoveFunction change the second).  The function map of
      [u_m] has the function for the present state of the manager.  Simplified: the
      role policy of the user's manager is not among the objects of [u_m], so
      matchers over the rules of such a section itself are left out. *)
  Record umodel : Type := mkU { u_m : model; u_rms : smap (option S * bool) }.
  Definition unew (E : env) : umodel := mkU (NewModel E) [].

  Definition u_store (x : umodel) (key : string) (s : option S) (live : bool) : umodel :=
    mkU (if live then SetFunction (u_m x) key (user_function s) else u_m x) (mput key (s, live) (u_rms x)).

  Inductive ucall : Type :=
  | UM (c : mcall)
  | USetRM (key : string) (s : option S).     (* SetRoleManager with a manager in state s, or nil *)

  (** The rule belongs to a section with a manager of the user (model.go:248-307: a
      key that starts with g, looked up in the map of role policies). *)
  Definition u_own (x : umodel) (key : string) : option (option S * bool) :=
    match first_byte key with
    | Some c => if Ascii.eqb c "g" then mget key (u_rms x) else None
    | None => None
    end.

  (** Any other call. *)
  Definition u_pass (E : env) (o : orders) (x : umodel) (c : mcall) : outcome (umodel * mresult) :=
    let! (m, r) := mstep E o (u_m x) c in Val (mkU m (u_rms x), r).
  (** The function map gets another entry for [n], or loses it. *)
  Definition u_unlink (n : string) (l : smap (option S * bool)) : smap (option S * bool) :=
    match mget n l with Some (s, _) => mput n (s, false) l | None => l end.

  (** model.go:248-284 [AddRule], [RemoveRule] with rbac/role_policy.go:18-34: the model
      announces the rule whenever the manager says so, even with an error;
      model.go:421-427 [ClearPolicy] with role_policy.go:47-49; model.go:334-337
      [SetRoleManager]; a definition of the section brings a manager of the library
      back (handlers.go:35-54). *)
  Definition ustep (E : env) (o : orders) (x : umodel) (c : ucall) : outcome (umodel * mresult) :=
    match c with
    | USetRM key s => Val (u_store x key s true, mkRes true None [])
    | UM (CAdd (key :: r)) =>
        match u_own x key with
        | None => u_pass E o x (CAdd (key :: r))
        | Some (Some s, live) =>
            match r with
            | a :: b :: ds =>
                let! (s, res) := u_AddLink U s a b ds in
                let (added, err) := res : bool * option goerr in
                Val (u_store x key (Some s) live, mkRes added err (if added then [MAdded (key :: r)] else []))
            | _ => Panic
            end
        | Some (None, _) => Panic
        end
    | UM (CRemove (key :: r)) =>
        match u_own x key with
        | None => u_pass E o x (CRemove (key :: r))
        | Some (Some s, live) =>
            match r with
            | a :: b :: ds =>
                let! (s, res) := u_DeleteLink U s a b ds in
                let (removed, err) := res : bool * option goerr in
                Val (u_store x key (Some s) live, mkRes removed err (if removed then [MRemoved (key :: r)] else []))
            | _ => Panic
            end
        | Some (None, _) => Panic
        end
    | UM (CClear key) =>
        match mget key (md_pMap (u_m x)), mget key (u_rms x) with
        | None, Some (Some s, live) =>
            let! (s, err) := u_Clear U s in
            Val (u_store x key (Some s) live, mkRes true err [])
        | None, Some (None, _) => Panic
        | _, _ => u_pass E o x (CClear key)
        end
    | UM (CSetFn n f) =>
        let! (m, r) := mstep E o (u_m x) (CSetFn n f) in Val (mkU m (u_unlink n (u_rms x)), r)
    | UM (CRemFn n) =>
        let! (m, r) := mstep E o (u_m x) (CRemFn n) in Val (mkU m (u_unlink n (u_rms x)), r)
    | UM (CSetDef G_SEC key v) =>
        let! (m, r) := mstep E o (u_m x) (CSetDef G_SEC key v) in
        Val (mkU m (match x_err r with None => mdel key (u_rms x) | Some _ => u_rms x end), r)
    | UM (CRemoveDef G_SEC key) =>
        let! (m, r) := mstep E o (u_m x) (CRemoveDef G_SEC key) in Val (mkU m (mdel key (u_rms x)), r)
    | UM (CSetRM key y) =>
        let! (m, r) := mstep E o (u_m x) (CSetRM key y) in Val (mkU m (mdel key (u_rms x)), r)
    | UM c => u_pass E o x c
    end.

  Fixpoint uexec (E : env) (x : umodel) (h : list (orders * ucall)) : outcome (umodel * list mresult) :=
    match h with
    | [] => Val (x, [])
    | (o, c) :: h' =>
        let! (x, r) := ustep E o x c in
        let! (x, rs) := uexec E x h' in
        Val (x, r :: rs)
    end.

  (** model.go:406-419 [RangeRules] with role_policy.go:36-41: the sections of the
      user's managers come last (Go visits the map in any order); Range of a nil
      manager panics. *)
  Definition u_plain (x : umodel) : model := set_rpMap (u_m x) (fold_right mdel (md_rpMap (u_m x)) (mkeys (u_rms x))).
  Fixpoint u_sections (x : umodel) (keys : list string) : outcome (list rule) :=
    match keys with
    | [] => Val []
    | key :: keys' =>
        match mget key (u_rms x) with
        | Some (Some s, _) => let! l := u_sections x keys' in
                              Val ((map (fun '(a, b, ds) => key :: a :: b :: ds) (u_Range U s) ++ l)%list)
        | Some (None, _) => Panic
        | None => u_sections x keys'
        end
    end.
  Definition u_rules (o : orders) (x : umodel) : outcome (list rule) :=
    let! l := u_sections x (o_names o (mkeys (u_rms x))) in Val ((model_rules o (u_plain x) ++ l)%list).
End UserRole.
Arguments ucall : clear implicits.
Arguments umodel : clear implicits.
