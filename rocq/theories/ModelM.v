(** Model of model/model.go, model/handlers.go, model/fm/function.go and
    rbac/role_policy.go: sections, rules, matchers.

    - Policies, role managers and matchers are Go pointers that are shared
      between maps, listeners and functions.  They live in three heaps; a pointer
      is the position in its heap.  Nothing is ever taken out of a heap.
    - A policy emits events to the matchers that were built on it
      (matcher.go:97-109).  The emitter is synchronous (em.NewEmitter(false)).
    - Go maps are visited in an order given by the argument [o]. *)
From Verif Require Import GoBase DefsM PolicyM MatcherDefM MatcherM RbacM DomainM EffectorM.

(** Functions of the function map: arguments to a value, an error or a panic. *)
Definition gofn := list value -> outcome (value + goerr).

(** What is outside of /repo: slice growth, the govaluate tokenizer (which
    knows the names of the registered functions), the govaluate evaluator with a
    function map, and the built-in functions (util/). *)
Record env : Type := mkEnv {
  e_grow : nat -> nat;
  e_parse : list string -> string -> option (list token);
  e_eval : (string -> option gofn) -> evaluator;
  e_builtins : smap gofn
}.

(** The iteration orders of one call. *)
Record orders : Type := mkOrders {
  o_names : RbacM.order;                  (* maps with string keys *)
  o_rules : list rule -> list rule;       (* the rule map of a policy *)
  o_match : MatcherM.order                (* the maps of a matcher *)
}.

(** model/policy/policy_api.go:15-22 [IPolicy]: a [Policy] or a [RolePolicy]
    (role_policy.go:8-11, with a pointer to its role manager). *)
Inductive pbody : Type := OPolicy (p : policy) | ORole (rm : nat).
Record pobj : Type := mkObj { o_body : pbody; o_listeners : list nat (* matchers *) }.

(** Entries of the function map: a Go function, or the function made by
    GenerateGFunction for a role manager. *)
Inductive fent : Type := FFun (f : gofn) | FG (rm : nat).

(** model.go:72-85 [Model].  [defs] is split into one map per section; a
    MatcherDef is its key and text (its tree is a function of the text and the
    function map, recomputed by every Build). *)
Record model : Type := mkModel {
  md_r : smap argdef;
  md_p : smap argdef;
  md_g : smap roledef;
  md_e : smap effdef;
  md_m : smap string;
  md_pMap : smap nat;
  md_rpMap : smap nat;
  md_eMap : smap string;            (* an effector is its expression *)
  md_mMap : smap nat;
  md_fm : smap fent;
  md_objs : list pobj;
  md_rms : list irm;
  md_mats : list matcher
}.

Definition set_r m x := mkModel x (md_p m) (md_g m) (md_e m) (md_m m) (md_pMap m) (md_rpMap m) (md_eMap m) (md_mMap m) (md_fm m) (md_objs m) (md_rms m) (md_mats m).
Definition set_p m x := mkModel (md_r m) x (md_g m) (md_e m) (md_m m) (md_pMap m) (md_rpMap m) (md_eMap m) (md_mMap m) (md_fm m) (md_objs m) (md_rms m) (md_mats m).
Definition set_g m x := mkModel (md_r m) (md_p m) x (md_e m) (md_m m) (md_pMap m) (md_rpMap m) (md_eMap m) (md_mMap m) (md_fm m) (md_objs m) (md_rms m) (md_mats m).
Definition set_e m x := mkModel (md_r m) (md_p m) (md_g m) x (md_m m) (md_pMap m) (md_rpMap m) (md_eMap m) (md_mMap m) (md_fm m) (md_objs m) (md_rms m) (md_mats m).
Definition set_m m x := mkModel (md_r m) (md_p m) (md_g m) (md_e m) x (md_pMap m) (md_rpMap m) (md_eMap m) (md_mMap m) (md_fm m) (md_objs m) (md_rms m) (md_mats m).
Definition set_pMap m x := mkModel (md_r m) (md_p m) (md_g m) (md_e m) (md_m m) x (md_rpMap m) (md_eMap m) (md_mMap m) (md_fm m) (md_objs m) (md_rms m) (md_mats m).
Definition set_rpMap m x := mkModel (md_r m) (md_p m) (md_g m) (md_e m) (md_m m) (md_pMap m) x (md_eMap m) (md_mMap m) (md_fm m) (md_objs m) (md_rms m) (md_mats m).
Definition set_eMap m x := mkModel (md_r m) (md_p m) (md_g m) (md_e m) (md_m m) (md_pMap m) (md_rpMap m) x (md_mMap m) (md_fm m) (md_objs m) (md_rms m) (md_mats m).
Definition set_mMap m x := mkModel (md_r m) (md_p m) (md_g m) (md_e m) (md_m m) (md_pMap m) (md_rpMap m) (md_eMap m) x (md_fm m) (md_objs m) (md_rms m) (md_mats m).
Definition set_fm m x := mkModel (md_r m) (md_p m) (md_g m) (md_e m) (md_m m) (md_pMap m) (md_rpMap m) (md_eMap m) (md_mMap m) x (md_objs m) (md_rms m) (md_mats m).
Definition set_objs m x := mkModel (md_r m) (md_p m) (md_g m) (md_e m) (md_m m) (md_pMap m) (md_rpMap m) (md_eMap m) (md_mMap m) (md_fm m) x (md_rms m) (md_mats m).
Definition set_rms m x := mkModel (md_r m) (md_p m) (md_g m) (md_e m) (md_m m) (md_pMap m) (md_rpMap m) (md_eMap m) (md_mMap m) (md_fm m) (md_objs m) x (md_mats m).
Definition set_mats m x := mkModel (md_r m) (md_p m) (md_g m) (md_e m) (md_m m) (md_pMap m) (md_rpMap m) (md_eMap m) (md_mMap m) (md_fm m) (md_objs m) (md_rms m) x.

(** model.go:87-108 [NewModel]; model/fm/function.go:34-51
    [DefaultFunctionMap]. *)
Definition NewModel (E : env) : model :=
  mkModel [] [] [] [] [] [] [] [] [] (map (fun '(k, f) => (k, FFun f)) (e_builtins E)) [] [] [].

(** Allocate a policy object. *)
Definition new_obj (m : model) (b : pbody) : model * nat :=
  (set_objs m (md_objs m ++ [mkObj b []]), List.length (md_objs m)).

(** ** Sections: handlers.go *)

(** model.go:39-45; any other byte is an unknown section. *)
Inductive sec : Type := R_SEC | P_SEC | G_SEC | E_SEC | M_SEC | OtherSec.
Definition keyPrefix (s : sec) : option ascii :=
  match s with
  | R_SEC => Some "r" | P_SEC => Some "p" | G_SEC => Some "g"
  | E_SEC => Some "e" | M_SEC => Some "m" | OtherSec => None
  end%char.

(** handlers.go:10-15 [addPolicyDef]. *)
Definition addPolicyDef (m : model) (key arguments : string) : model :=
  let m := set_p m (mput key (NewPolicyDef key arguments) (md_p m)) in
  let (m, i) := new_obj m (OPolicy NewPolicy) in
  set_pMap m (mput key i (md_pMap m)).
(** handlers.go:17-21 [removePolicyDef]. *)
Definition removePolicyDef (m : model) (key : string) : model :=
  let m := set_p m (mdel key (md_p m)) in
  set_pMap m (mdel key (md_pMap m)).

(** handlers.go:23-27 [addMatcherDef]. *)
Definition addMatcherDef (m : model) (key expr : string) : model :=
  set_m m (mput key expr (md_m m)).
(** handlers.go:29-33 [removeMatcherDef]. *)
Definition removeMatcherDef (m : model) (key : string) : model :=
  let m := set_m m (mdel key (md_m m)) in
  set_mMap m (mdel key (md_mMap m)).

(** model.go:334-337 [SetRoleManager]: a new RolePolicy and a new function. *)
Definition SetRoleManager (m : model) (key : string) (rm : nat) : model :=
  let (m, i) := new_obj m (ORole rm) in
  let m := set_rpMap m (mput key i (md_rpMap m)) in
  set_fm m (mput key (FG rm) (md_fm m)).

(** handlers.go:35-47 [addRoleDef]. *)
Definition addRoleDef (m : model) (key arguments : string) : model :=
  let def := NewRoleDef key arguments in
  let m := set_g m (mput key def (md_g m)) in
  let rm := if Nat.eqb (rd_nargs def) 2 then IRole (NewRoleManager 10) else IDom (NewDomainManager 10) in
  let i := List.length (md_rms m) in
  let m := set_rms m (md_rms m ++ [rm]) in
  SetRoleManager m key i.
(** handlers.go:49-54 [removeRoleDef]. *)
Definition removeRoleDef (m : model) (key : string) : model :=
  let m := set_g m (mdel key (md_g m)) in
  let m := set_rpMap m (mdel key (md_rpMap m)) in
  set_fm m (mdel key (md_fm m)).

(** handlers.go:56-64 [addRequestDef], [removeRequestDef]. *)
Definition addRequestDef (m : model) (key arguments : string) : model :=
  set_r m (mput key (NewRequestDef key arguments) (md_r m)).
Definition removeRequestDef (m : model) (key : string) : model := set_r m (mdel key (md_r m)).

(** handlers.go:66-77 [addEffectDef], [removeEffectDef]. *)
Definition addEffectDef (m : model) (key expr : string) : model :=
  let def := NewEffectDef key expr in
  let m := set_e m (mput key def (md_e m)) in
  set_eMap m (mput key (ed_expr def) (md_eMap m)).
Definition removeEffectDef (m : model) (key : string) : model :=
  let m := set_e m (mdel key (md_e m)) in
  set_eMap m (mdel key (md_eMap m)).

(** model.go:166-178 [SetDef]: [key[0]] panics on the empty key. *)
Definition SetDef (m : model) (s : sec) (key value : string) : outcome (model * option goerr) :=
  match keyPrefix s with
  | None => Val (m, Some ErrInvalidSec)
  | Some c =>
      match first_byte key with
      | None => Panic
      | Some c' =>
          if Ascii.eqb c' c then
            Val (match s with
                 | R_SEC => addRequestDef m key value
                 | P_SEC => addPolicyDef m key value
                 | G_SEC => addRoleDef m key value
                 | E_SEC => addEffectDef m key value
                 | M_SEC => addMatcherDef m key value
                 | OtherSec => m
                 end, None)
          else Val (m, Some ErrInvalidKeyPrefix)
      end
  end.

(** model.go:185-194 [RemoveDef]. *)
Definition RemoveDef (m : model) (s : sec) (key : string) : model * option goerr :=
  match s with
  | R_SEC => (removeRequestDef m key, None)
  | P_SEC => (removePolicyDef m key, None)
  | G_SEC => (removeRoleDef m key, None)
  | E_SEC => (removeEffectDef m key, None)
  | M_SEC => (removeMatcherDef m key, None)
  | OtherSec => (m, Some ErrInvalidSec)
  end.

(** model.go:180-183 [GetDef]: the definition as text ([IDef.String]), which is
    what all definitions have in common. *)
Definition matcherdef_String (key expr : string) : string := (key ++ " = " ++ expr)%string.
Definition GetDef (m : model) (s : sec) (key : string) : option string :=
  match s with
  | R_SEC => option_map argdef_String (mget key (md_r m))
  | P_SEC => option_map argdef_String (mget key (md_p m))
  | G_SEC => option_map roledef_String (mget key (md_g m))
  | E_SEC => option_map effdef_String (mget key (md_e m))
  | M_SEC => option_map (matcherdef_String key) (mget key (md_m m))
  | OtherSec => None
  end.

(** ** Policies *)

(** model.go:317-323 [GetPolicy]. *)
Definition GetPolicy (m : model) (key : string) : option nat :=
  match mget key (md_pMap m) with
  | Some i => Some i
  | None => mget key (md_rpMap m)
  end.

(** model.go:325-327 [SetPolicy]. *)
Definition SetPolicy (m : model) (key : string) (i : nat) : model := set_pMap m (mput key i (md_pMap m)).

(** model.go:329-332 [GetRoleManager]: [rp.GetRoleManager()] on a nil pointer. *)
Definition model_GetRoleManager (m : model) (key : string) : outcome nat :=
  match mget key (md_rpMap m) with
  | None => Panic
  | Some i => match nth_error (md_objs m) i with
              | Some (mkObj (ORole rm) _) => Val rm
              | _ => Panic
              end
  end.

(** model.go:348-351 [GetRequestDef]: the type assertion panics on nil. *)
Definition GetRequestDef (m : model) (key : string) : outcome argdef :=
  match mget key (md_r m) with None => Panic | Some d => Val d end.

(** Send an event to the matchers that listen. *)
Fixpoint notify (ms : list matcher) (ids : list nat) (e : event) : outcome (list matcher) :=
  match ids with
  | [] => Val ms
  | i :: rest =>
      match nth_error ms i with
      | None => Panic                       (* unreachable: ids are positions *)
      | Some x => let! x := m_event x e in notify (set_nth ms i x) rest e
      end
  end.
Fixpoint notify_all (ms : list matcher) (ids : list nat) (es : list event) : outcome (list matcher) :=
  match es with
  | [] => Val ms
  | e :: es' => let! ms := notify ms ids e in notify_all ms ids es'
  end.

(** [AddRule] / [RemoveRule] / [Clear] ([PolicyM.pop]) of a policy object:
    role_policy.go:18-49 for a [RolePolicy], policy.go:38-75 ([PolicyM.pstep]) for a
    [Policy]. *)
Definition act_role (ord : RbacM.order) (x : irm) (a : pop) : outcome (irm * bool * list event) :=
  match a with
  | PAdd r =>
      match r with
      | n1 :: n2 :: ds => let! (x, added) := i_Add ord x n1 n2 ds in
                          Val (x, added, if added : bool then [EvtAdded r] else [])
      | _ => Panic
      end
  | PRemove r =>
      match r with
      | n1 :: n2 :: ds => let! (x, removed) := i_Del ord x n1 n2 ds in
                          Val (x, removed, if removed : bool then [EvtRemoved r] else [])
      | _ => Panic
      end
  | PClear => Val (i_Clear x, true, [])
  end.

Definition act (o : orders) (m : model) (i : nat) (a : pop) : outcome (model * bool) :=
  match nth_error (md_objs m) i with
  | None => Panic                           (* unreachable *)
  | Some ob =>
      match o_body ob with
      | OPolicy p =>
          let '(p', b, es) := pstep p a in
          let! ms := notify_all (md_mats m) (o_listeners ob) es in
          Val (set_mats (set_objs m (set_nth (md_objs m) i (mkObj (OPolicy p') (o_listeners ob)))) ms, b)
      | ORole rm =>
          match nth_error (md_rms m) rm with
          | None => Panic                   (* unreachable *)
          | Some x =>
              let! (x', b, es) := act_role (o_names o) x a in
              let! ms := notify_all (md_mats m) (o_listeners ob) es in
              Val (set_mats (set_rms m (set_nth (md_rms m) rm x')) ms, b)
          end
      end
  end.

(** ** Rules *)

(** model.go:34-37: the events of the model. *)
Inductive mevent : Type := MAdded (r : rule) | MRemoved (r : rule).

(** model.go:248-265 [AddRule] with 286-292 and 302-307; [rule[0]] and [key[0]]
    panic on an empty rule and on an empty key. *)
Definition model_AddRule (o : orders) (m : model) (rl : rule) : outcome (model * bool * option goerr * list mevent) :=
  match rl with
  | [] => Panic
  | key :: r =>
      match first_byte key with
      | None => Panic
      | Some c =>
          if Ascii.eqb c "p" then
            match mget key (md_pMap m) with
            | None => Val (m, false, Some ErrPolicyNotFound, [])
            | Some i => let! (m, b) := act o m i (PAdd r) in
                        Val (m, b, None, if b : bool then [MAdded rl] else [])
            end
          else if Ascii.eqb c "g" then
            match mget key (md_rpMap m) with
            | None => Val (m, false, Some ErrRMNotFound, [])
            | Some i => let! (m, b) := act o m i (PAdd r) in
                        Val (m, b, None, if b : bool then [MAdded rl] else [])
            end
          else Val (m, false, Some ErrPolicyNotFound, [])
      end
  end.

(** model.go:267-284 [RemoveRule] with 294-300 and 309-314. *)
Definition model_RemoveRule (o : orders) (m : model) (rl : rule) : outcome (model * bool * option goerr * list mevent) :=
  match rl with
  | [] => Panic
  | key :: r =>
      match first_byte key with
      | None => Panic
      | Some c =>
          if Ascii.eqb c "p" then
            match mget key (md_pMap m) with
            | None => Val (m, false, Some ErrPolicyNotFound, [])
            | Some i => let! (m, b) := act o m i (PRemove r) in
                        Val (m, b, None, if b : bool then [MRemoved rl] else [])
            end
          else if Ascii.eqb c "g" then
            match mget key (md_rpMap m) with
            | None => Val (m, false, Some ErrRMNotFound, [])
            | Some i => let! (m, b) := act o m i (PRemove r) in
                        Val (m, b, None, if b : bool then [MRemoved rl] else [])
            end
          else Val (m, false, Some ErrPolicyNotFound, [])
      end
  end.

(** model.go:421-427 [ClearPolicy]: no event of the model. *)
Definition ClearPolicy (o : orders) (m : model) (key : string) : outcome (model * option goerr) :=
  match GetPolicy m key with
  | None => Val (m, Some ErrPolicyNotFound)
  | Some i => let! (m, _) := act o m i PClear in Val (m, None)
  end.

(** [Range] of a policy object (policy.go:59-65, role_policy.go:36-41). *)
Definition obj_Range {S} (o : orders) (m : model) (i : nat) (fn : S -> rule -> S * bool) (st : S) : S :=
  match nth_error (md_objs m) i with
  | None => st
  | Some ob =>
      match o_body ob with
      | OPolicy p => fst (Range (o_rules o) p fn st)
      | ORole rm => match nth_error (md_rms m) rm with
                    | None => st
                    | Some x => i_Range (o_names o) x fn st
                    end
      end
  end.

(** model.go:406-419 [RangeRules]. *)
Definition range_section {S} (o : orders) (m : model) (sm : smap nat) (fn : S -> rule -> S * bool) (st : S) : S :=
  fold_left (fun st key => match mget key sm with
                           | None => st
                           | Some i => obj_Range o m i (fun st r => fn st (key :: r)) st
                           end) (o_names o (mkeys sm)) st.
Definition RangeRules {S} (o : orders) (m : model) (fn : S -> rule -> S * bool) (st : S) : S :=
  range_section o m (md_rpMap m) fn (range_section o m (md_pMap m) fn st).

(** The rules given to a callback that never stops. *)
Definition obj_rules (o : orders) (m : model) (i : nat) : list rule :=
  obj_Range o m i (fun l r => (l ++ [r], true)) [].
Definition model_rules (o : orders) (m : model) : list rule :=
  RangeRules o m (fun l r => (l ++ [r], true)) [].

(** ** Matchers *)

(** model.go:220-246 [BuildMatcherFromDef]: the matcher is attached to the
    policy it was built on. *)
Definition BuildMatcherFromDef (E : env) (o : orders) (m : model) (expr : string)
    : outcome (model * (nat + goerr)) :=
  match Build (e_grow E) (e_parse E (mkeys (md_fm m))) expr with
  | inr e => Val (m, inr e)
  | inl root =>
      let pKey := GetPolicyKey root in
      match first_byte pKey with
      | None => Panic
      | Some c =>
          let pDef := if Ascii.eqb c "p" then mget pKey (md_p m)
                      else if Ascii.eqb c "g" then Some (NewPolicyDef pKey "user, role, domain")
                      else None in
          match pDef, GetPolicy m pKey with
          | Some d, Some i =>
              match nth_error (md_objs m) i with
              | None => Panic               (* unreachable *)
              | Some ob =>
                  let! x := NewMatcher d (obj_rules o m i) root in
                  let j := List.length (md_mats m) in
                  let m := set_objs m (set_nth (md_objs m) i (mkObj (o_body ob) (o_listeners ob ++ [j]))) in
                  Val (set_mats m (md_mats m ++ [x]), inl j)
              end
          | _, _ => Val (m, inr ErrPolicyNotFound)
          end
      end
  end.

(** model.go:205-218 [BuildMatcher]. *)
Definition BuildMatcher (E : env) (o : orders) (m : model) (key : string) : outcome (model * option goerr) :=
  match mget key (md_m m) with
  | None => Val (m, Some ErrMatcherNotFound)
  | Some expr =>
      let! (m, r) := BuildMatcherFromDef E o m expr in
      match r with
      | inr e => Val (m, Some e)
      | inl j => Val (set_mMap m (mput key j (md_mMap m)), None)
      end
  end.

(** model.go:196-203 [BuildMatchers]. *)
Fixpoint build_loop (E : env) (o : orders) (m : model) (keys : list string) : outcome (model * option goerr) :=
  match keys with
  | [] => Val (m, None)
  | key :: rest =>
      let! (m, err) := BuildMatcher E o m key in
      match err with
      | Some e => Val (m, Some e)
      | None => build_loop E o m rest
      end
  end.
Definition BuildMatchers (E : env) (o : orders) (m : model) : outcome (model * option goerr) :=
  build_loop E o m (o_names o (mkeys (md_m m))).

(** model.go:139-164 [LoadModelFromText] after the ini parser
    ([loadModelFromConfig]): the sections with their names and the key/value
    pairs in file order. *)
Definition secByName (name : string) : option sec :=
  if String.eqb name "request_definition" then Some R_SEC
  else if String.eqb name "policy_definition" then Some P_SEC
  else if String.eqb name "role_definition" then Some G_SEC
  else if String.eqb name "policy_effect" then Some E_SEC
  else if String.eqb name "matchers" then Some M_SEC
  else None.

Fixpoint set_defs (m : model) (s : sec) (kvs : list (string * string)) : outcome (model * option goerr) :=
  match kvs with
  | [] => Val (m, None)
  | (k, v) :: rest =>
      let! (m, err) := SetDef m s k v in
      match err with Some e => Val (m, Some e) | None => set_defs m s rest end
  end.
Fixpoint load_sections (m : model) (cfg : list (string * list (string * string))) : outcome (model * option goerr) :=
  match cfg with
  | [] => Val (m, None)
  | (name, kvs) :: rest =>
      match secByName name with
      | None => load_sections m rest
      | Some s => let! (m, err) := set_defs m s kvs in
                  match err with Some e => Val (m, Some e) | None => load_sections m rest end
      end
  end.
Definition loadModelFromConfig (E : env) (o : orders) (m : model) (cfg : list (string * list (string * string)))
    : outcome (model * option goerr) :=
  let! (m, err) := load_sections m cfg in
  match err with Some e => Val (m, Some e) | None => BuildMatchers E o m end.

(** ** Functions and requests *)

(** model.go:373-379 [SetFunction], [RemoveFunction]. *)
Definition SetFunction (m : model) (name : string) (f : gofn) : model := set_fm m (mput name (FFun f) (md_fm m)).
Definition RemoveFunction (m : model) (name : string) : model * bool :=
  (set_fm m (mdel name (md_fm m)), mhas name (md_fm m)).

(** role_manager_api.go:52-71 [GenerateGFunction].  The manager's answer is
    used; what the question does to the manager (match cache, see C27 and C38) is
    not kept.  [args[0]] and [args[1]] panic when missing, the type assertions
    when a value is not a string. *)
Fixpoint as_strings (vs : list value) : option (list string) :=
  match vs with
  | [] => Some []
  | VStr s :: vs' => option_map (cons s) (as_strings vs')
  | _ :: _ => None
  end.
Definition GenerateGFunction (ord : RbacM.order) (x : irm) : gofn := fun args =>
  match as_strings args with
  | Some (a :: b :: ds) => let! (_, r) := i_Has ord x a b ds in Val (inl (VBool r))
  | _ => Panic
  end.

Definition functions (o : orders) (m : model) (name : string) : option gofn :=
  match mget name (md_fm m) with
  | None => None
  | Some (FFun f) => Some f
  | Some (FG rm) => option_map (GenerateGFunction (o_names o)) (nth_error (md_rms m) rm)
  end.

(** model.go:366-371 [RangeMatches]: reported rules carry the policy key
    (matcher.go:114-116 [GetPolicyKey]: the key of the definition the matcher was
    built with). *)
Definition model_RangeMatches {S} (E : env) (o : orders) (m : model) (j : nat) (rDef : argdef) (rvals : list value)
    (fn : S -> rule -> S * bool) (st : S) : outcome (S * option goerr) :=
  match nth_error (md_mats m) j with
  | None => Panic                           (* a nil matcher *)
  | Some x => RangeMatches (e_eval E (functions o m)) (o_match o) x rDef rvals
                (fun st r => fn st (ad_key (m_def x) :: r)) st
  end.

(** ** model.go:381-404 [String] *)

(** [sort.Strings]. *)
Fixpoint insert_key (k : string) (l : list string) : list string :=
  match l with
  | [] => [k]
  | x :: l' => if String.leb k x then k :: l else x :: insert_key k l'
  end.
Definition sort_keys (l : list string) : list string := fold_right insert_key [] l.

Definition newline : string := String (ascii_of_nat 10) EmptyString.

Definition section_String (name : string) (keys : list string) (line : string -> string) : string :=
  match keys with
  | [] => ""
  | _ => "[" ++ name ++ "]" ++ newline ++
         fold_right (fun k s => line k ++ newline ++ s) "" (sort_keys keys) ++ newline
  end%string.

Definition def_line (m : model) (s : sec) (key : string) : string :=
  match GetDef m s key with Some t => t | None => "" end.
Definition sec_keys (m : model) (s : sec) : list string :=
  match s with
  | R_SEC => mkeys (md_r m) | P_SEC => mkeys (md_p m) | G_SEC => mkeys (md_g m)
  | E_SEC => mkeys (md_e m) | M_SEC => mkeys (md_m m) | OtherSec => []
  end.

(** model.go:64-70: the sections in order. *)
Definition sections : list (string * sec) :=
  [("request_definition", R_SEC); ("policy_definition", P_SEC); ("role_definition", G_SEC);
   ("policy_effect", E_SEC); ("matchers", M_SEC)]%string.
Definition model_String (m : model) : string :=
  fold_right (fun '(name, s) acc => section_String name (sec_keys m s) (def_line m s) ++ acc)%string ""%string sections.

(** ** Histories of calls on a model *)
Inductive mcall : Type :=
| CSetDef (s : sec) (key value : string)
| CRemoveDef (s : sec) (key : string)
| CAdd (r : rule)
| CRemove (r : rule)
| CClear (key : string)
| CBuild                             (* BuildMatchers *)
| CBuildKey (key : string)           (* BuildMatcher *)
| CAdhoc (expr : string)             (* BuildMatcherFromDef, as done by Enforce with a matcher text *)
| CSetRM (key : string) (x : irm)    (* SetRoleManager with a manager used nowhere else *)
| CSetFn (name : string) (f : gofn)
| CRemFn (name : string).

(** What a call returns: the boolean (if any), the error, and the events the
    model emitted. *)
Record mresult : Type := mkRes { x_bool : bool; x_err : option goerr; x_events : list mevent }.

Definition mstep (E : env) (o : orders) (m : model) (c : mcall) : outcome (model * mresult) :=
  match c with
  | CSetDef s k v => let! (m, e) := SetDef m s k v in Val (m, mkRes true e [])
  | CRemoveDef s k => let (m, e) := RemoveDef m s k in Val (m, mkRes true e [])
  | CAdd r => let! (m, b, e, es) := model_AddRule o m r in Val (m, mkRes b e es)
  | CRemove r => let! (m, b, e, es) := model_RemoveRule o m r in Val (m, mkRes b e es)
  | CClear k => let! (m, e) := ClearPolicy o m k in Val (m, mkRes true e [])
  | CBuild => let! (m, e) := BuildMatchers E o m in Val (m, mkRes true e [])
  | CBuildKey k => let! (m, e) := BuildMatcher E o m k in Val (m, mkRes true e [])
  | CAdhoc expr => let! (m, r) := BuildMatcherFromDef E o m expr in
                   Val (m, mkRes true (match r with inr e => Some e | inl _ => None end) [])
  | CSetRM k x => Val (SetRoleManager (set_rms m (md_rms m ++ [x])) k (List.length (md_rms m)), mkRes true None [])
  | CSetFn n f => Val (SetFunction m n f, mkRes true None [])
  | CRemFn n => let (m, b) := RemoveFunction m n in Val (m, mkRes b None [])
  end.

Fixpoint mexec (E : env) (m : model) (h : list (orders * mcall)) : outcome (model * list mresult) :=
  match h with
  | [] => Val (m, [])
  | (o, c) :: h' =>
      let! (m, r) := mstep E o m c in
      let! (m, rs) := mexec E m h' in
      Val (m, r :: rs)
  end.
