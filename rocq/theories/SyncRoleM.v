(** Model of calls on a role manager that run at the same time
    (rbac/role.go, rbac/role_manager.go).

    The role manager keeps its roles in sync.Maps and takes no lock, so calls are
    interleaved at every operation on a sync.Map: Load, Store, Delete, and every
    visit of a Range.  Role objects live in a heap, because a goroutine can hold
    an object that is no longer, or no longer the one, in [allRoles].
    - A schedule is a list of pairs of a goroutine and a choice.  Range may visit
      its keys in any order, may or may not visit a key that is stored meanwhile,
      and may end when it has visited the keys that were there when it began and
      are still there (documentation of sync.Map); the choice says which.  A
      choice that is not possible makes the goroutine wait.
    - Simplifications: calls are AddLink, DeleteLink, HasLink, GetRoles and
      GetUsers without domains (so [Role.redundant] is not touched); the match
      cache is left out (one matcher call is one step; see SyncCacheM for the
      cache); Clear and SetMatcher, which assign to plain fields, do not run
      meanwhile. *)
From Verif Require Import GoBase PathM.
Local Open Scope list_scope.

(** role.go:23-30 [Role]; a [*Role] is a place in the heap. *)
Record obj : Type := mkObj {
  o_name : string;
  o_roles : smap nat;
  o_users : smap nat;
  o_matched : smap nat;
  o_matchedBy : smap nat
}.
Inductive fld : Type := FRoles | FUsers | FMatched | FMatchedBy.
Definition field (f : fld) (o : obj) : smap nat :=
  match f with FRoles => o_roles o | FUsers => o_users o | FMatched => o_matched o | FMatchedBy => o_matchedBy o end.
Definition set_field (f : fld) (v : smap nat) (o : obj) : obj :=
  match f with
  | FRoles => mkObj (o_name o) v (o_users o) (o_matched o) (o_matchedBy o)
  | FUsers => mkObj (o_name o) (o_roles o) v (o_matched o) (o_matchedBy o)
  | FMatched => mkObj (o_name o) (o_roles o) (o_users o) v (o_matchedBy o)
  | FMatchedBy => mkObj (o_name o) (o_roles o) (o_users o) (o_matched o) v
  end.

(** role_manager.go:27-34 [RoleManager]: what the calls share. *)
Record mem : Type := mkMem {
  m_heap : list obj;
  m_all : smap nat;          (* allRoles *)
  m_pats : list string       (* patternRoles *)
}.
(** role_manager.go:154-159 [Clear], as in [NewRoleManager]. *)
Definition mem0 : mem := mkMem [] [] [].

Definition fget (m : mem) (r : nat) (f : fld) : smap nat :=
  match nth_error (m_heap m) r with Some o => field f o | None => [] end.
Definition name_at (m : mem) (r : nat) : string :=
  match nth_error (m_heap m) r with Some o => o_name o | None => ""%string end.
Fixpoint upd_at {A} (l : list A) (i : nat) (f : A -> A) : list A :=
  match l, i with
  | [], _ => []
  | x :: l', O => f x :: l'
  | x :: l', S i' => x :: upd_at l' i' f
  end.
Definition fupd (m : mem) (r : nat) (f : fld) (g : smap nat -> smap nat) : mem :=
  mkMem (upd_at (m_heap m) r (fun o => set_field f (g (field f o)) o)) (m_all m) (m_pats m).

(** The calls. *)
Inductive rop : Type :=
| OAdd (a b : string)
| ODel (a b : string)
| OHas (a b : string)
| ORoles (a : string)
| OUsers (a : string).
Inductive ans : Type := YBool (b : bool) | YNames (l : list string).

(** A Range in progress over a field of an object: its callback collects what it
    visits, or ranges over a field of the object it visits (role.go:97-123).  An
    open Range knows the keys it has to visit and those it has visited. *)
Inductive body : Type := BCollect | BInner (f : fld).
Inductive frame : Type :=
| FrNew (f : fld) (r : nat) (b : body)
| FrOpen (f : fld) (r : nat) (b : body) (must visited : list string).
(** role.go:97-109 [rangeRoles], role.go:111-123 [rangeUsers]. *)
Definition range_frames (f : fld) (r : nat) : list frame :=
  [FrNew f r BCollect; FrNew f r (BInner FMatched); FrNew FMatchedBy r (BInner f)].

(** What follows a [rangeRoles] or [rangeUsers]. *)
Inductive rk : Type :=
| KLevel (level : nat) (target : string) (todo next : smap nat)
| KNames.

(** A role that a call got by [getRole]. *)
Record got : Type := mkGot { g_name : string; g_ref : nat; g_new : bool }.

(** Where a call stands.  [cl] are the names of the deferred [removeRole] calls. *)
Inductive pc : Type :=
| PLoad (o : rop) (gs : list got) (n : string) (rest : list string)
| PStore (o : rop) (gs : list got) (n : string) (rest : list string)
| PPat (o : rop) (gs : list got) (n : string) (r : nat) (rest : list string)
| PMatch (o : rop) (gs : list got) (n : string) (r : nat) (rest : list string) (pat : bool) (open : option (list string * list string))
| PLoadPat (p : string) (r : nat) (k : pc)
| PSet (l : list (nat * fld * string * nat)) (k : pc)
| PUnset (l : list (nat * fld * string)) (k : pc)
| PHasRole (add : bool) (u r : nat)
| PLevel (level : nat) (target : string) (todo next : smap nat) (cl : list string)
| PRange (fs : list frame) (acc : list (string * nat)) (k : rk) (cl : list string)
| PClean (cl : list string) (y : ans)
| PDelAll (n : string) (r : nat) (cl : list string) (y : ans)
| PRem (f : fld) (n : string) (r : nat) (open : option (list string * list string)) (cl : list string) (y : ans)
| PPatDel (n : string) (cl : list string) (y : ans)
| PDone (y : ans).

(** May a Range that had to visit [must], has visited [visited] and finds the
    keys [now] visit [k], or end? *)
Definition may_visit (visited now : list string) (k : string) : bool := sin k now && negb (sin k visited).
Definition may_end (must visited now : list string) : bool :=
  forallb (fun k => negb (sin k now) || sin k visited) must.

Section Machine.
  Variable M : option imatcher.   (* rm.matcher *)
  Variable level : nat.           (* rm.maxHierarchyLevel; a negative level is 0 *)

  (** [rm.matcher != nil && rm.match(str, pattern)] *)
  Definition match_set (str pattern : string) : bool :=
    match M with None => false | Some mm => Match mm str pattern end.

  (** role_manager.go:206-209: the start of [hasLinkHelper]. *)
  Definition enter (level : nat) (target : string) (roles : smap nat) (cl : list string) : pc :=
    match level, roles with
    | O, _ | _, [] => PClean cl (YBool false)
    | S l, _ => PLevel l target roles [] cl
    end.

  (** The rest of a call that has got its roles.  The deferred calls of HasLink
      run last-in first-out (role_manager.go:194-201, 228-230, 238-240). *)
  Definition after_got (o : rop) (gs : list got) : pc :=
    let cl := map g_name (filter g_new (rev gs)) in
    match o, gs with
    | OAdd _ _, u :: r :: _ => PHasRole true (g_ref u) (g_ref r)
    | ODel _ _, u :: r :: _ => PHasRole false (g_ref u) (g_ref r)
    | OHas _ _, u :: r :: _ => enter level (g_name r) [(g_name u, g_ref u)] cl
    | ORoles _, u :: _ => PRange (range_frames FRoles (g_ref u)) [] KNames cl
    | OUsers _, u :: _ => PRange (range_frames FUsers (g_ref u)) [] KNames cl
    | _, _ => PDone (YBool false)     (* unreachable *)
    end.
  Definition next_got (o : rop) (gs : list got) (rest : list string) : pc :=
    match rest with [] => after_got o gs | n :: rest' => PLoad o gs n rest' end.

  (** The start of a call: role_manager.go:163-165 (AddLink), 176-178
      (DeleteLink), 188-193 (HasLink), 226-227 (GetRoles), 236-237 (GetUsers). *)
  Definition start (o : rop) : pc :=
    match o with
    | OAdd a b | ODel a b => PLoad o [] a [b]
    | OHas a b => if String.eqb a b || match_set a b then PDone (YBool true) else PLoad o [] a [b]
    | ORoles a | OUsers a => PLoad o [] a []
    end.

  (** role_manager.go:83-92, 102-125: a role that was just stored is matched with
      the patterns, or if it is one, with the other roles. *)
  Definition matching (o : rop) (gs : list got) (n : string) (r : nat) (rest : list string) : pc :=
    match M with
    | None => next_got o (gs ++ [mkGot n r true]) rest
    | Some mm => if IsPattern mm n then PPat o gs n r rest else PMatch o gs n r rest false None
    end.

  (** One step of a call. *)
  Definition tstep (ch : option string) (m : mem) (p : pc) : outcome (mem * pc) :=
    match p with
    (* role_manager.go:94-99 and 106: rm.load(name) *)
    | PLoad o gs n rest =>
        Val (m, match mget n (m_all m) with
                | Some r => next_got o (gs ++ [mkGot n r false]) rest
                | None => PStore o gs n rest
                end)
    (* role_manager.go:107-108 *)
    | PStore o gs n rest =>
        let r := List.length (m_heap m) in
        Val (mkMem (m_heap m ++ [mkObj n [] [] [] []]) (mput n r (m_all m)) (m_pats m), matching o gs n r rest)
    (* role_manager.go:112 *)
    | PPat o gs n r rest => Val (mkMem (m_heap m) (m_all m) (sadd n (m_pats m)), PMatch o gs n r rest true None)
    (* role_manager.go:73-81 (a pattern), 83-86 (not a pattern) *)
    | PMatch o gs n r rest pat open =>
        let keys := if pat then mkeys (m_all m) else m_pats m in
        match open with
        | None => Val (m, PMatch o gs n r rest pat (Some (keys, [])))
        | Some (must, visited) =>
            match ch with
            | Some k =>
                if may_visit visited keys k then
                  let back := PMatch o gs n r rest pat (Some (must, k :: visited)) in
                  if pat then
                    if negb (String.eqb n k) && match_set k n then
                      match mget k (m_all m) with
                      | Some r2 => Val (m, PSet [(r, FMatched, k, r2); (r2, FMatchedBy, n, r)] back)
                      | None => Val (m, back)
                      end
                    else Val (m, back)
                  else
                    if negb (String.eqb k n) && match_set n k then Val (m, PLoadPat k r back) else Val (m, back)
                else Val (m, p)
            | None =>
                if may_end must visited keys then Val (m, next_got o (gs ++ [mkGot n r true]) rest) else Val (m, p)
            end
        end
    (* role_manager.go:87-88: value, _ := rm.allRoles.Load(pattern); value.( *Role) *)
    | PLoadPat k r back =>
        match mget k (m_all m) with
        | None => Panic
        | Some r2 => Val (m, PSet [(r2, FMatched, name_at m r, r); (r, FMatchedBy, k, r2)] back)
        end
    (* role.go:52-53, 67-69, 76-79 *)
    | PSet [] k => Val (m, k)
    | PSet ((r, f, n, v) :: l) k => Val (fupd m r f (mput n v), match l with [] => k | _ => PSet l k end)
    (* role.go:61-62, 72-74, 81-84 *)
    | PUnset [] k => Val (m, k)
    | PUnset ((r, f, n) :: l) k => Val (fupd m r f (mdel n), match l with [] => k | _ => PUnset l k end)
    (* role.go:43-51 [addRole], 57-60 [removeRole] *)
    | PHasRole add u r =>
        if Bool.eqb add (mhas (name_at m r) (fget m u FRoles)) then Val (m, PDone (YBool false))
        else if add then
          Val (m, PSet [(u, FRoles, name_at m r, r); (r, FUsers, name_at m u, u)] (PDone (YBool true)))
        else
          Val (m, PUnset [(u, FRoles, name_at m r); (r, FUsers, name_at m u)] (PDone (YBool true)))
    (* role_manager.go:212-222 *)
    | PLevel l target todo next cl =>
        match todo with
        | [] => Val (m, enter l target next cl)
        | _ =>
            match ch with
            | None => Val (m, p)
            | Some k =>
                match mget k todo with
                | None => Val (m, p)
                | Some r =>
                    if String.eqb target (name_at m r) || match_set (name_at m r) target then Val (m, PClean cl (YBool true))
                    else Val (m, PRange (range_frames FRoles r) [] (KLevel l target (mdel k todo) next) cl)
                end
            end
        end
    (* role.go:97-123, role_manager.go:216-219, role.go:155-171 *)
    | PRange fs acc k cl =>
        match fs with
        | [] =>
            Val (m, match k with
                    | KLevel l target todo next => PLevel l target todo (fold_left (fun nx kv => mput (fst kv) (snd kv) nx) acc next) cl
                    | KNames => PClean cl (YNames (map fst acc))
                    end)
        | FrNew f r b :: fs' => Val (m, PRange (FrOpen f r b (mkeys (fget m r f)) [] :: fs') acc k cl)
        | FrOpen f r b must visited :: fs' =>
            match ch with
            | Some x =>
                if may_visit visited (mkeys (fget m r f)) x then
                  match mget x (fget m r f) with
                  | None => Val (m, p)   (* unreachable *)
                  | Some v =>
                      let fs := FrOpen f r b must (x :: visited) :: fs' in
                      Val (m, match b with
                              | BCollect => PRange fs (acc ++ [(x, v)]) k cl
                              | BInner g => PRange (FrNew g v BCollect :: fs) acc k cl
                              end)
                  end
                else Val (m, p)
            | None => if may_end must visited (mkeys (fget m r f)) then Val (m, PRange fs' acc k cl) else Val (m, p)
            end
        end
    (* role_manager.go:127-140 [removeRole]: the Load of loadAndDelete *)
    | PClean [] y => Val (m, PDone y)
    | PClean (n :: cl) y =>
        Val (m, match mget n (m_all m) with
                | Some r => PDelAll n r cl y
                | None => PPatDel n cl y
                end)
    (* role_manager.go:130 *)
    | PDelAll n r cl y => Val (mkMem (m_heap m) (mdel n (m_all m)) (m_pats m), PRem FMatched n r None cl y)
    (* role.go:86-95 [removeMatches] *)
    | PRem f n r open cl y =>
        match open with
        | None => Val (m, PRem f n r (Some (mkeys (fget m r f), [])) cl y)
        | Some (must, visited) =>
            match ch with
            | Some x =>
                if may_visit visited (mkeys (fget m r f)) x then
                  match mget x (fget m r f) with
                  | None => Val (m, p)   (* unreachable *)
                  | Some v =>
                      let back := PRem f n r (Some (must, x :: visited)) cl y in
                      Val (m, match f with
                              | FMatched => PUnset [(r, FMatched, name_at m v); (v, FMatchedBy, name_at m r)] back
                              | _ => PUnset [(v, FMatched, name_at m r); (r, FMatchedBy, name_at m v)] back
                              end)
                  end
                else Val (m, p)
            | None =>
                if may_end must visited (mkeys (fget m r f)) then
                  Val (m, match f with FMatched => PRem FMatchedBy n r None cl y | _ => PPatDel n cl y end)
                else Val (m, p)
            end
        end
    (* role_manager.go:139 *)
    | PPatDel n cl y => Val (mkMem (m_heap m) (m_all m) (srem n (m_pats m)), PClean cl y)
    | PDone _ => Val (m, p)
    end.

  (** The goroutines of a phase, and its steps. *)
  Definition config : Type := (mem * list pc)%type.
  Fixpoint run (s : config) (sched : list (nat * option string)) : outcome config :=
    match sched with
    | [] => Val s
    | (i, ch) :: sched' =>
        match nth_error (snd s) i with
        | None => run s sched'
        | Some p => let! (m, p') := tstep ch (fst s) p in run (m, upd_at (snd s) i (fun _ => p')) sched'
        end
    end.

  (** A phase: calls that run at the same time, under a schedule that lets all of
      them return. *)
  Definition finished (ts : list pc) (ys : list ans) : Prop := ts = map PDone ys.
  Definition phase_runs (m : mem) (ops : list rop) (sched : list (nat * option string)) (m' : mem) (ys : list ans) : Prop :=
    exists ts, run (m, map start ops) sched = Val (m', ts) /\ finished ts ys.

  (** Phases one after the other. *)
  Inductive phases_run (m : mem) : list (list rop) -> mem -> list (list ans) -> Prop :=
  | phases_nil : phases_run m [] m []
  | phases_snoc h m1 yss ops sched m2 ys :
      phases_run m h m1 yss -> phase_runs m1 ops sched m2 ys -> phases_run m (h ++ [ops]) m2 (yss ++ [ys]).
End Machine.
