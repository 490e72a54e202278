(** Model of rbac/role.go, rbac/role_manager.go, rbac/role_policy.go and
    rbac/role_manager_api.go.

    - A [*Role] pointer is represented by the role's name.  This loses nothing:
      [allRoles] holds one object per name, every role met while ranging was put
      into [allRoles] by [getRole], and an object leaves [allRoles] only in
      [removeRole], which is called on an object created by the same call.
    - A [sync.Map] used as a map or as a set is an association list / a list
      without duplicates.  [Range] visits the keys in the order given by the
      argument [ord] (Go leaves the order unspecified); deleting the visited key
      inside the callback (role.go:86-95) is modelled by ranging over the keys
      that were present at the start.
    - The mutexes inside [sync.Map] and [SyncLRUCache] are not modelled here
      (one call at a time; see SyncCacheM for interleavings). *)
From Verif Require Import GoBase PolicyM CacheM PathM.

Definition order := list string -> list string.

(** role_manager.go:24 *)
Definition REDUNDANT_ROLE : string := "redundant_role".

(** role.go:23-30 [Role] (the name is the key in [allRoles]). *)
Record role : Type := mkRole {
  r_roles : list string;
  r_users : list string;
  r_matched : list string;
  r_matchedBy : list string;
  r_redundant : list string
}.

(** role.go:32-41 [newRole]. *)
Definition newRole : role := mkRole [] [] [] [] [].

(** role_manager.go:27-34 [RoleManager] ([domainMatcher] is never read). *)
Record rolemgr : Type := mkRM {
  rm_all : smap role;            (* allRoles *)
  rm_patterns : list string;     (* patternRoles *)
  rm_level : Z;                  (* maxHierarchyLevel *)
  rm_matcher : option imatcher;
  rm_cache : lru bool            (* matchingFuncCache *)
}.

Definition with_all (rm : rolemgr) (a : smap role) : rolemgr :=
  mkRM a (rm_patterns rm) (rm_level rm) (rm_matcher rm) (rm_cache rm).
Definition with_patterns (rm : rolemgr) (p : list string) : rolemgr :=
  mkRM (rm_all rm) p (rm_level rm) (rm_matcher rm) (rm_cache rm).
Definition with_cache (rm : rolemgr) (c : lru bool) : rolemgr :=
  mkRM (rm_all rm) (rm_patterns rm) (rm_level rm) (rm_matcher rm) c.

(** The object named [n] (an unknown name never occurs, see above). *)
Definition role_of (all : smap role) (n : string) : role :=
  match mget n all with Some r => r | None => newRole end.
Definition upd_role (n : string) (f : role -> role) (all : smap role) : smap role :=
  match mget n all with Some r => mput n (f r) all | None => all end.

Definition on_roles (f : list string -> list string) (r : role) : role :=
  mkRole (f (r_roles r)) (r_users r) (r_matched r) (r_matchedBy r) (r_redundant r).
Definition on_users (f : list string -> list string) (r : role) : role :=
  mkRole (r_roles r) (f (r_users r)) (r_matched r) (r_matchedBy r) (r_redundant r).
Definition on_matched (f : list string -> list string) (r : role) : role :=
  mkRole (r_roles r) (r_users r) (f (r_matched r)) (r_matchedBy r) (r_redundant r).
Definition on_matchedBy (f : list string -> list string) (r : role) : role :=
  mkRole (r_roles r) (r_users r) (r_matched r) (f (r_matchedBy r)) (r_redundant r).
Definition on_redundant (f : list string -> list string) (r : role) : role :=
  mkRole (r_roles r) (r_users r) (r_matched r) (r_matchedBy r) (f (r_redundant r)).

(** role.go:43-46 [hasRole]. *)
Definition hasRole (all : smap role) (r role : string) : bool := sin role (r_roles (role_of all r)).

(** role.go:48-55 [addRole] and 67-69 [addUser]. *)
Definition addRole (all : smap role) (r role : string) : smap RbacM.role * bool :=
  if hasRole all r role then (all, false)
  else (upd_role role (on_users (sadd r)) (upd_role r (on_roles (sadd role)) all), true).

(** role.go:57-64 [removeRole] and 72-74 [removeUser]. *)
Definition removeRole (all : smap role) (r role : string) : smap RbacM.role * bool :=
  if negb (hasRole all r role) then (all, false)
  else (upd_role role (on_users (srem r)) (upd_role r (on_roles (srem role)) all), true).

(** role.go:76-79 [addMatch]: [r.addMatch(role)]. *)
Definition addMatch (all : smap role) (r role : string) : smap RbacM.role :=
  upd_role role (on_matchedBy (sadd r)) (upd_role r (on_matched (sadd role)) all).

(** role.go:81-84 [removeMatch]. *)
Definition removeMatch (all : smap role) (r role : string) : smap RbacM.role :=
  upd_role role (on_matchedBy (srem r)) (upd_role r (on_matched (srem role)) all).

(** role.go:86-95 [removeMatches]. *)
Definition removeMatches (all : smap role) (r : string) : smap RbacM.role :=
  let all := fold_left (fun a x => removeMatch a r x) (r_matched (role_of all r)) all in
  fold_left (fun a x => removeMatch a x r) (r_matchedBy (role_of all r)) all.

(** role.go:97-109 [rangeRoles] with a callback that never stops: the names it
    visits. *)
Definition rangeRoles (ord : order) (all : smap role) (r : string) : list string :=
  let o := role_of all r in
  ord (r_roles o) ++
  flat_map (fun x => ord (r_matched (role_of all x))) (ord (r_roles o)) ++
  flat_map (fun x => ord (r_roles (role_of all x))) (ord (r_matchedBy o)).

(** role.go:111-123 [rangeUsers], likewise. *)
Definition rangeUsers (ord : order) (all : smap role) (r : string) : list string :=
  let o := role_of all r in
  ord (r_users o) ++
  flat_map (fun x => ord (r_matched (role_of all x))) (ord (r_users o)) ++
  flat_map (fun x => ord (r_users (role_of all x))) (ord (r_matchedBy o)).

(** role_manager.go:154-159 [Clear] (the matcher and the level are kept). *)
Definition rm_Clear (rm : rolemgr) : rolemgr :=
  mkRM [] [] (rm_level rm) (rm_matcher rm) (NewLRUCache 100).

(** role_manager.go:38-50 [NewRoleManager] and [newRoleManagerWithMatchingFunc]. *)
Definition NewRoleManager (level : Z) : rolemgr := mkRM [] [] level None (NewLRUCache 100).
Definition newRoleManagerWithMatchingFunc (level : Z) (m : option imatcher) : rolemgr :=
  mkRM [] [] level m (NewLRUCache 100).

(** role_manager.go:62-71 [match]; calling it without a matcher is a nil
    dereference unless the answer is cached. *)
Definition rm_match (rm : rolemgr) (str pattern : string) : outcome (rolemgr * bool) :=
  let cacheKey := join "$$" [str; pattern] in
  let! (c, v) := Get (rm_cache rm) cacheKey in
  match v with
  | Some b => Val (with_cache rm c, b)
  | None =>
      match rm_matcher rm with
      | None => Panic
      | Some m =>
          let matched := Match m str pattern in
          let! c := Put c cacheKey matched in
          Val (with_cache rm c, matched)
      end
  end.

(** role_manager.go:73-81 [rangeMatchingRoles]: the matching names among
    [names] (the visited keys of [allRoles]). *)
Fixpoint matchingRoles (rm : rolemgr) (pattern : string) (names : list string)
    : outcome (rolemgr * list string) :=
  match names with
  | [] => Val (rm, [])
  | name :: rest =>
      if negb (String.eqb pattern name) then
        let! (rm, b) := rm_match rm name pattern in
        let! (rm, l) := matchingRoles rm pattern rest in
        Val (rm, if b then name :: l else l)
      else matchingRoles rm pattern rest
  end.

(** role_manager.go:83-92 [rangeMatchingPatterns]: the patterns among [pats]
    (the visited keys of [patternRoles]) that match [name].  The type assertion
    in line 88 panics if the pattern is not in [allRoles]. *)
Fixpoint matchingPatterns (rm : rolemgr) (name : string) (pats : list string)
    : outcome (rolemgr * list string) :=
  match pats with
  | [] => Val (rm, [])
  | pattern :: rest =>
      if negb (String.eqb pattern name) then
        let! (rm, b) := rm_match rm name pattern in
        if b && negb (mhas pattern (rm_all rm)) then Panic
        else
          let! (rm, l) := matchingPatterns rm name rest in
          Val (rm, if b then pattern :: l else l)
      else matchingPatterns rm name rest
  end.

(** role_manager.go:102-125 [getRole]; the boolean is [created]. *)
Definition getRole (ord : order) (rm : rolemgr) (name : string) : outcome (rolemgr * bool) :=
  if mhas name (rm_all rm) then Val (rm, false)
  else
    let rm := with_all rm (mput name newRole (rm_all rm)) in
    match rm_matcher rm with
    | None => Val (rm, true)
    | Some m =>
        if IsPattern m name then
          let rm := with_patterns rm (sadd name (rm_patterns rm)) in
          let! (rm, l) := matchingRoles rm name (ord (mkeys (rm_all rm))) in
          Val (with_all rm (fold_left (fun a r => addMatch a name r) l (rm_all rm)), true)
        else
          let! (rm, l) := matchingPatterns rm name (ord (rm_patterns rm)) in
          Val (with_all rm (fold_left (fun a r => addMatch a r name) l (rm_all rm)), true)
    end.

(** role_manager.go:127-140 [removeRole]. *)
Definition rm_removeRole (rm : rolemgr) (name : string) : rolemgr :=
  let rm :=
    if mhas name (rm_all rm) then with_all rm (mdel name (removeMatches (rm_all rm) name)) else rm in
  with_patterns rm (srem name (rm_patterns rm)).

(** [len(domains) > 0 && domains[0] == REDUNDANT_ROLE] *)
Definition is_redundant (domains : list string) : bool :=
  match domains with [] => false | d :: _ => String.eqb d REDUNDANT_ROLE end.

(** role_manager.go:163-172 [AddLink]. *)
Definition rm_AddLink (ord : order) (rm : rolemgr) (name1 name2 : string) (domains : list string)
    : outcome (rolemgr * bool) :=
  let! (rm, _) := getRole ord rm name1 in
  let! (rm, _) := getRole ord rm name2 in
  let all := if is_redundant domains then upd_role name1 (on_redundant (sadd name2)) (rm_all rm)
             else rm_all rm in
  let (all, added) := addRole all name1 name2 in
  Val (with_all rm all, added).

(** role_manager.go:176-185 [DeleteLink]. *)
Definition rm_DeleteLink (ord : order) (rm : rolemgr) (name1 name2 : string) (domains : list string)
    : outcome (rolemgr * bool) :=
  let! (rm, _) := getRole ord rm name1 in
  let! (rm, _) := getRole ord rm name2 in
  let all := if is_redundant domains then upd_role name1 (on_redundant (srem name2)) (rm_all rm)
             else rm_all rm in
  let (all, removed) := removeRole all name1 name2 in
  Val (with_all rm all, removed).

(** [rm.matcher != nil && rm.match(str, pattern)] (lines 189 and 213). *)
Definition match_if_set (rm : rolemgr) (str pattern : string) : outcome (rolemgr * bool) :=
  match rm_matcher rm with
  | None => Val (rm, false)
  | Some _ => rm_match rm str pattern
  end.

(** role_manager.go:212-220: the loop over one level of roles.  The result is
    [None] when the target was found, the next level otherwise. *)
Fixpoint level_loop (ord : order) (rm : rolemgr) (target : string) (roles next : list string)
    : outcome (rolemgr * option (list string)) :=
  match roles with
  | [] => Val (rm, Some next)
  | r :: rest =>
      let! (rm, found) := (if String.eqb target r then Val (rm, true) else match_if_set rm r target) in
      if found then Val (rm, None)
      else level_loop ord rm target rest
             (fold_left (fun n x => sadd x n) (rangeRoles ord (rm_all rm) r) next)
  end.

(** role_manager.go:206-223 [hasLinkHelper]; [level <= 0] is [O]. *)
Fixpoint hasLinkHelper (ord : order) (level : nat) (rm : rolemgr) (target : string) (roles : list string)
    : outcome (rolemgr * bool) :=
  match level with
  | O => Val (rm, false)
  | S level' =>
      match roles with
      | [] => Val (rm, false)
      | _ :: _ =>
          let! (rm, next) := level_loop ord rm target (ord roles) [] in
          match next with
          | None => Val (rm, true)
          | Some next => hasLinkHelper ord level' rm target next
          end
      end
  end.

(** role_manager.go:188-204 [HasLink] (the domains are ignored; the error is
    always nil).  The deferred [removeRole] calls run last-in first-out. *)
Definition rm_HasLink (ord : order) (rm : rolemgr) (name1 name2 : string) : outcome (rolemgr * bool) :=
  let! (rm, b) := (if String.eqb name1 name2 then Val (rm, true) else match_if_set rm name1 name2) in
  if b then Val (rm, true)
  else
    let! (rm, userCreated) := getRole ord rm name1 in
    let! (rm, roleCreated) := getRole ord rm name2 in
    let! (rm, res) := hasLinkHelper ord (Z.to_nat (rm_level rm)) rm name2 [name1] in
    let rm := if roleCreated : bool then rm_removeRole rm name2 else rm in
    let rm := if userCreated : bool then rm_removeRole rm name1 else rm in
    Val (rm, res).

(** role_manager.go:226-232 [GetRoles] and role.go:155-162 [getRoles]. *)
Definition rm_GetRoles (ord : order) (rm : rolemgr) (name : string) : outcome (rolemgr * list string) :=
  let! (rm, created) := getRole ord rm name in
  let l := rangeRoles ord (rm_all rm) name in
  Val (if created : bool then rm_removeRole rm name else rm, l).

(** role_manager.go:236-242 [GetUsers] and role.go:164-171 [getUsers]. *)
Definition rm_GetUsers (ord : order) (rm : rolemgr) (name : string) : outcome (rolemgr * list string) :=
  let! (rm, created) := getRole ord rm name in
  let l := rangeUsers ord (rm_all rm) name in
  Val (if created : bool then rm_removeRole rm name else rm, l).

(** role_manager.go:254-266 [rangeLinks]: the links of one user that are not
    flagged redundant. *)
Definition user_links (ord : order) (all : smap role) (user : string) : list rule :=
  let o := role_of all user in
  map (fun r => [user; r]) (filter (fun r => negb (sin r (r_redundant o))) (ord (r_roles o))).

(** [rangeLinks] with a callback: when the callback returns false the links of
    this user are abandoned, the outer loop goes on (line 264 returns true). *)
Definition rangeLinks {S} (ord : order) (all : smap role) (fn : S -> rule -> S * bool) (st : S) : S :=
  fold_left (fun st u => fst (range_vals fn st (user_links ord all u))) (ord (mkeys all)) st.

(** All links, as seen by a callback that never stops. *)
Definition all_links (ord : order) (all : smap role) : list rule :=
  flat_map (user_links ord all) (ord (mkeys all)).

(** role_manager.go:268-270 [Range]. *)
Definition rm_Range {S} (ord : order) (rm : rolemgr) (fn : S -> rule -> S * bool) (st : S) : S :=
  rangeLinks ord (rm_all rm) fn st.

(** A sequence of [AddLink] calls whose results are dropped. *)
Fixpoint add_links (ord : order) (rm : rolemgr) (ls : list rule) : outcome rolemgr :=
  match ls with
  | [] => Val rm
  | (n1 :: n2 :: ds) :: rest => let! (rm, _) := rm_AddLink ord rm n1 n2 ds in add_links ord rm rest
  | _ :: rest => Panic     (* unreachable: links have at least two names *)
  end.

(** role_manager.go:53-60 [rebuild]. *)
Definition rm_rebuild (ord : order) (rm : rolemgr) : outcome rolemgr :=
  add_links ord (rm_Clear rm) (all_links ord (rm_all rm)).

(** role_manager.go:143-146 [SetMatcher]. *)
Definition rm_SetMatcher (ord : order) (rm : rolemgr) (m : option imatcher) : outcome rolemgr :=
  rm_rebuild ord (mkRM (rm_all rm) (rm_patterns rm) (rm_level rm) m (rm_cache rm)).

(** role_policy.go:18-34 [AddRule] and [RemoveRule]: [rule[0]], [rule[1]] and
    [rule[2:]] are index panics on shorter rules.  The third component lists
    the emitted events. *)
Definition rp_AddRule (ord : order) (rm : rolemgr) (r : rule) : outcome (rolemgr * bool * list event) :=
  match r with
  | n1 :: n2 :: ds => let! (rm, added) := rm_AddLink ord rm n1 n2 ds in
                      Val (rm, added, if added : bool then [EvtAdded r] else [])
  | _ => Panic
  end.
Definition rp_RemoveRule (ord : order) (rm : rolemgr) (r : rule) : outcome (rolemgr * bool * list event) :=
  match r with
  | n1 :: n2 :: ds => let! (rm, removed) := rm_DeleteLink ord rm n1 n2 ds in
                      Val (rm, removed, if removed : bool then [EvtRemoved r] else [])
  | _ => Panic
  end.

(** Calls on a role manager; each call has its own iteration order. *)
Inductive rcall : Type :=
| RAdd (a b : string) (ds : list string)
| RDel (a b : string) (ds : list string)
| RHas (a b : string)
| RRoles (a : string)
| RUsers (a : string)
| RClear.

Inductive answer : Type := ABool (b : bool) | ANames (l : list string) | AUnit.

Definition rstep (ord : order) (rm : rolemgr) (c : rcall) : outcome (rolemgr * answer) :=
  match c with
  | RAdd a b ds => let! (rm, x) := rm_AddLink ord rm a b ds in Val (rm, ABool x)
  | RDel a b ds => let! (rm, x) := rm_DeleteLink ord rm a b ds in Val (rm, ABool x)
  | RHas a b => let! (rm, x) := rm_HasLink ord rm a b in Val (rm, ABool x)
  | RRoles a => let! (rm, x) := rm_GetRoles ord rm a in Val (rm, ANames x)
  | RUsers a => let! (rm, x) := rm_GetUsers ord rm a in Val (rm, ANames x)
  | RClear => Val (rm_Clear rm, AUnit)
  end.

(** A history and the answers it produced. *)
Fixpoint rexec (rm : rolemgr) (h : list (order * rcall)) : outcome (rolemgr * list answer) :=
  match h with
  | [] => Val (rm, [])
  | (ord, c) :: h' =>
      let! (rm, x) := rstep ord rm c in
      let! (rm, xs) := rexec rm h' in
      Val (rm, x :: xs)
  end.
