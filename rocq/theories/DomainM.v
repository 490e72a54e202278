(** Model of rbac/domain_manager.go.

    - A manager is a tree: a [DomainManager] holds a map from domain names to
      managers, which are again [DomainManager]s, except for the entry
      [defaultDomain], which is a [RoleManager].
    - Managers are Go pointers.  Every manager is reachable from exactly one map
      entry, so updating through the pointer is putting the updated manager back
      into the map ([put_back]); a manager created by a query is not stored and
      is dropped.
    - Map iteration uses the order [ord] of the call, as in RbacM.  The two
      loops over matching managers (lines 107-126) first collect the matching
      names and then visit the managers; in Go both happen in one loop, but the
      visits do not change the map or the cache the loop looks at.
    - [append(subdomains, REDUNDANT_ROLE)] and [append(domains, domain...)]
      are modelled as list concatenation (lines 150, 172, 190 and 297 may share
      a backing array with the caller's slice; no caller in /repo looks at it
      again).
    - Recursion into the tree is on a fuel argument; [fuel] is large enough for
      every call (each level of recursion drops one domain name).  Running out
      of fuel is [Panic]; the theorems that state a [Val] result thereby also
      state that the fuel suffices. *)
From Verif Require Import GoBase PolicyM CacheM PathM RbacM.

(** domain_manager.go:24 *)
Definition defaultDomain : string := "RoleManager".

(** domain_manager.go:26-33 [DomainManager], with the type of the managed
    managers as a parameter. *)
Record dommgr (R : Type) : Type := mkDM {
  d_map : smap R;                  (* rmMap *)
  d_patterns : list string;        (* patternMap *)
  d_level : Z;                     (* maxHierarchyLevel *)
  d_matcher : option imatcher;
  d_dmatcher : option imatcher;    (* domainMatcher *)
  d_cache : lru bool               (* matchingFuncCache *)
}.
Arguments mkDM {R}.
Arguments d_map {R}.
Arguments d_patterns {R}.
Arguments d_level {R}.
Arguments d_matcher {R}.
Arguments d_dmatcher {R}.
Arguments d_cache {R}.

(** rbac/role_manager_api.go:22-50 the interfaces [IRoleManager] and
    [IDefaultRoleManager] and their two implementations. *)
Inductive irm : Type :=
| IRole (rm : rolemgr)
| IDom (d : dommgr irm).

Definition d_with_map (d : dommgr irm) (x : smap irm) : dommgr irm :=
  mkDM x (d_patterns d) (d_level d) (d_matcher d) (d_dmatcher d) (d_cache d).
Definition d_with_patterns (d : dommgr irm) (x : list string) : dommgr irm :=
  mkDM (d_map d) x (d_level d) (d_matcher d) (d_dmatcher d) (d_cache d).
Definition d_with_cache (d : dommgr irm) (x : lru bool) : dommgr irm :=
  mkDM (d_map d) (d_patterns d) (d_level d) (d_matcher d) (d_dmatcher d) x.

(** domain_manager.go:73-78 [Clear]. *)
Definition dm_Clear (d : dommgr irm) : dommgr irm :=
  mkDM [] [] (d_level d) (d_matcher d) (d_dmatcher d) (NewLRUCache 100).

(** domain_manager.go:37-42 [NewDomainManager]. *)
Definition NewDomainManager (level : Z) : dommgr irm := mkDM [] [] level None None (NewLRUCache 100).

(** domain_manager.go:80-87 [getDomain] (the error is always nil). *)
Definition getDomain (domains : list string) : string * list string :=
  match domains with
  | [] => (defaultDomain, [])
  | d :: rest => if String.eqb d REDUNDANT_ROLE then (defaultDomain, [REDUNDANT_ROLE]) else (d, rest)
  end.

(** domain_manager.go:89-98 [match]. *)
Definition dm_match (d : dommgr irm) (str pattern : string) : outcome (dommgr irm * bool) :=
  let cacheKey := join "$$" [str; pattern] in
  let! (c, v) := Get (d_cache d) cacheKey in
  match v with
  | Some b => Val (d_with_cache d c, b)
  | None =>
      match d_dmatcher d with
      | None => Panic
      | Some m =>
          let matched := Match m str pattern in
          let! c := Put c cacheKey matched in
          Val (d_with_cache d c, matched)
      end
  end.

(** domain_manager.go:107-115 [rangeMatchingRMs]: the matching domains among
    [names] (the visited keys of [rmMap]). *)
Fixpoint matchingRMs (d : dommgr irm) (pattern : string) (names : list string)
    : outcome (dommgr irm * list string) :=
  match names with
  | [] => Val (d, [])
  | domain :: rest =>
      if negb (String.eqb pattern domain) then
        let! (d, b) := dm_match d domain pattern in
        let! (d, l) := matchingRMs d pattern rest in
        Val (d, if b then domain :: l else l)
      else matchingRMs d pattern rest
  end.

(** domain_manager.go:117-126 [rangeMatchingPatterns]: the managers of the
    patterns among [pats] that match [domain].  When [load] finds nothing the
    callback is called with a nil manager, whose [Range] is a nil dereference. *)
Fixpoint dmatchingPatterns (d : dommgr irm) (domain : string) (pats : list string)
    : outcome (dommgr irm * list irm) :=
  match pats with
  | [] => Val (d, [])
  | pattern :: rest =>
      if negb (String.eqb pattern domain) then
        let! (d, b) := dm_match d domain pattern in
        if b : bool then
          match mget pattern (d_map d) with
          | None => Panic
          | Some rm => let! (d, l) := dmatchingPatterns d domain rest in Val (d, rm :: l)
          end
        else dmatchingPatterns d domain rest
      else dmatchingPatterns d domain rest
  end.

(** [d] is a pattern for the domain matcher (lines 144-145, 170, 188). *)
Definition is_dpattern (d : dommgr irm) (domain : string) : bool :=
  match d_dmatcher d with None => false | Some m => IsPattern m domain end.

(** domain_manager.go:288-303 [rangeLinks] and 305-307 [Range] of a domain
    manager, role_manager.go:254-270 of a role manager: the links, as seen by a
    callback that never stops.  A link is (name1, name2, domains). *)
Definition link : Type := (string * string * list string)%type.

Fixpoint i_links (ord : order) (x : irm) : list link :=
  match x with
  | IRole rm =>
      flat_map (fun r => match r with a :: b :: _ => [(a, b, [])] | _ => [] end) (all_links ord (rm_all rm))
  | IDom d =>
      let subs := (fix subs (l : list (string * irm)) : smap (list link) :=
                     match l with
                     | [] => []
                     | (key, value) :: l' =>
                         let domains := if String.eqb key defaultDomain then [] else [key] in
                         (key, map (fun '(a, b, ds) => (a, b, domains ++ ds)) (i_links ord value)) :: subs l'
                     end) (d_map d) in
      flat_map (fun k => match mget k subs with Some l => l | None => [] end) (ord (mkeys subs))
  end.

(** [Range] with an arbitrary callback.  The callback's result is ignored by the
    domain manager (line 297); a role manager stops for the current user only. *)
Definition i_Range {S} (ord : order) (x : irm) (fn : S -> rule -> S * bool) (st : S) : S :=
  match x with
  | IRole rm => rm_Range ord rm fn st
  | IDom d => fold_left (fun st '(a, b, ds) => fst (fn st (a :: b :: ds))) (i_links ord x) st
  end.

(** A call of [AddLink] on a manager. *)
Definition adder := irm -> string -> string -> list string -> outcome (irm * bool).

(** domain_manager.go:148-153: copy the links of a pattern's manager, flagged
    redundant, into [rm]. *)
Fixpoint copy_links (add : adder) (rm : irm) (ls : list link) : outcome irm :=
  match ls with
  | [] => Val rm
  | (a, b, ds) :: rest => let! (rm, _) := add rm a b (ds ++ [REDUNDANT_ROLE])%list in copy_links add rm rest
  end.

(** domain_manager.go:134-140: the new manager for [domain].  [SetMatcher] and
    [SetDomainMatcher] on the new, empty domain manager only store the matcher
    (there are no entries to visit and no links to rebuild). *)
Definition new_manager (d : dommgr irm) (domain : string) : irm :=
  if negb (String.eqb domain defaultDomain)
  then IDom (mkDM [] [] (d_level d - 1) (d_matcher d) (d_dmatcher d) (NewLRUCache 100))
  else IRole (newRoleManagerWithMatchingFunc (d_level d - 1) (d_matcher d)).

(** domain_manager.go:129-158 [getRoleManager].  The manager is stored before
    the pattern links are copied into it. *)
Definition getRoleManager (add : adder) (ord : order) (d : dommgr irm) (domain : string) (store : bool)
    : outcome (dommgr irm * irm) :=
  match mget domain (d_map d) with
  | Some rm => Val (d, rm)
  | None =>
      let rm := new_manager d domain in
      let d := if store then d_with_map d (mput domain rm (d_map d)) else d in
      match d_dmatcher d with
      | None => Val (d, rm)
      | Some m =>
          if IsPattern m domain then Val (d_with_patterns d (sadd domain (d_patterns d)), rm)
          else
            let! (d, l) := dmatchingPatterns d domain (ord (d_patterns d)) in
            let! rm := copy_links add rm (flat_map (i_links ord) l) in
            Val (d, rm)
      end
  end.

(** The effect of updating a manager through its pointer. *)
Definition put_back (d : dommgr irm) (domain : string) (rm : irm) : dommgr irm :=
  if mhas domain (d_map d) then d_with_map d (mput domain rm (d_map d)) else d.

(** Visit the managers named in [l]. *)
Fixpoint on_each (f : irm -> outcome (irm * bool)) (d : dommgr irm) (l : list string) : outcome (dommgr irm) :=
  match l with
  | [] => Val d
  | k :: rest =>
      match mget k (d_map d) with
      | None => on_each f d rest
      | Some rm => let! (rm, _) := f rm in on_each f (put_back d k rm) rest
      end
  end.

(** domain_manager.go:162-176 [AddLink] of a domain manager; a role manager's
    [AddLink] for the leaves. *)
Fixpoint i_AddLink (n : nat) (ord : order) (x : irm) (name1 name2 : string) (domains : list string)
    : outcome (irm * bool) :=
  match x with
  | IRole rm => let! (rm, b) := rm_AddLink ord rm name1 name2 domains in Val (IRole rm, b)
  | IDom d =>
      match n with
      | O => Panic
      | S n =>
          let (domain, subdomains) := getDomain domains in
          let! (d, rm) := getRoleManager (i_AddLink n ord) ord d domain true in
          let! (rm, added) := i_AddLink n ord rm name1 name2 subdomains in
          let d := put_back d domain rm in
          if is_dpattern d domain then
            let! (d, l) := matchingRMs d domain (ord (mkeys (d_map d))) in
            let! d := on_each (fun rm => i_AddLink n ord rm name1 name2 (subdomains ++ [REDUNDANT_ROLE])%list) d l in
            Val (IDom d, added)
          else Val (IDom d, added)
      end
  end.

(** domain_manager.go:180-194 [DeleteLink]. *)
Fixpoint i_DeleteLink (n : nat) (ord : order) (x : irm) (name1 name2 : string) (domains : list string)
    : outcome (irm * bool) :=
  match x with
  | IRole rm => let! (rm, b) := rm_DeleteLink ord rm name1 name2 domains in Val (IRole rm, b)
  | IDom d =>
      match n with
      | O => Panic
      | S n =>
          let (domain, subdomains) := getDomain domains in
          let! (d, rm) := getRoleManager (i_AddLink n ord) ord d domain true in
          let! (rm, removed) := i_DeleteLink n ord rm name1 name2 subdomains in
          let d := put_back d domain rm in
          if is_dpattern d domain then
            let! (d, l) := matchingRMs d domain (ord (mkeys (d_map d))) in
            let! d := on_each (fun rm => i_DeleteLink n ord rm name1 name2 (subdomains ++ [REDUNDANT_ROLE])%list) d l in
            Val (IDom d, removed)
          else Val (IDom d, removed)
      end
  end.

(** domain_manager.go:197-224 [HasLink], [GetRoles] and [GetUsers]: find the
    manager without storing it and pass the question on. *)
Fixpoint i_query {A} (ask : rolemgr -> outcome (rolemgr * A)) (n : nat) (ord : order) (x : irm)
    (domains : list string) : outcome (irm * A) :=
  match x with
  | IRole rm => let! (rm, a) := ask rm in Val (IRole rm, a)
  | IDom d =>
      match n with
      | O => Panic
      | S n =>
          let (domain, subdomains) := getDomain domains in
          let! (d, rm) := getRoleManager (i_AddLink n ord) ord d domain false in
          let! (rm, a) := i_query ask n ord rm subdomains in
          Val (IDom (put_back d domain rm), a)
      end
  end.

(** How deep the tree is. *)
Fixpoint i_depth (x : irm) : nat :=
  match x with
  | IRole _ => O
  | IDom d => S ((fix depths (l : list (string * irm)) : nat :=
                    match l with [] => O | (_, v) :: l' => Nat.max (i_depth v) (depths l') end) (d_map d))
  end.
Definition fuel (x : irm) (domains : list string) : nat := S (S (i_depth x + List.length domains)).

Definition i_Add ord x a b ds : outcome (irm * bool) := i_AddLink (fuel x ds) ord x a b ds.
Definition i_Del ord x a b ds : outcome (irm * bool) := i_DeleteLink (fuel x ds) ord x a b ds.
Definition i_Has ord x a b ds : outcome (irm * bool) :=
  i_query (fun rm => rm_HasLink ord rm a b) (fuel x ds) ord x ds.
Definition i_Roles ord x a ds : outcome (irm * list string) :=
  i_query (fun rm => rm_GetRoles ord rm a) (fuel x ds) ord x ds.
Definition i_Users ord x a ds : outcome (irm * list string) :=
  i_query (fun rm => rm_GetUsers ord rm a) (fuel x ds) ord x ds.

(** [Clear] of either manager. *)
Definition i_Clear (x : irm) : irm :=
  match x with IRole rm => IRole (rm_Clear rm) | IDom d => IDom (dm_Clear d) end.

(** domain_manager.go:44-50 [SetMatcher]; role_manager.go:143-146 for leaves. *)
Fixpoint i_SetMatcher (ord : order) (x : irm) (m : option imatcher) : outcome irm :=
  match x with
  | IRole rm => let! rm := rm_SetMatcher ord rm m in Val (IRole rm)
  | IDom d =>
      let! l := (fix go (l : list (string * irm)) : outcome (list (string * irm)) :=
                   match l with
                   | [] => Val []
                   | (k, v) :: l' => let! v := i_SetMatcher ord v m in let! l' := go l' in Val ((k, v) :: l')
                   end) (d_map d) in
      Val (IDom (mkDM l (d_patterns d) (d_level d) m (d_dmatcher d) (d_cache d)))
  end.

(** A sequence of [AddLink] calls whose results are dropped. *)
Fixpoint i_adds (ord : order) (x : irm) (ls : list link) : outcome irm :=
  match ls with
  | [] => Val x
  | (a, b, ds) :: rest => let! (x, _) := i_Add ord x a b ds in i_adds ord x rest
  end.

(** domain_manager.go:63-70 [rebuild]. *)
Definition dm_rebuild (ord : order) (d : dommgr irm) : outcome irm :=
  i_adds ord (IDom (dm_Clear d)) (i_links ord (IDom d)).

(** domain_manager.go:53-60 [SetDomainMatcher]; role_manager.go:149-151 for
    leaves (stored but never read). *)
Fixpoint i_SetDomainMatcher (ord : order) (x : irm) (m : option imatcher) : outcome irm :=
  match x with
  | IRole rm => Val (IRole rm)
  | IDom d =>
      let! l := (fix go (l : list (string * irm)) : outcome (list (string * irm)) :=
                   match l with
                   | [] => Val []
                   | (k, v) :: l' => let! v := i_SetDomainMatcher ord v m in let! l' := go l' in Val ((k, v) :: l')
                   end) (d_map d) in
      dm_rebuild ord (mkDM l (d_patterns d) (d_level d) (d_matcher d) m (d_cache d))
  end.

(** Calls on a manager with domains; each call has its own iteration order. *)
Inductive dcall : Type :=
| DAdd (a b : string) (ds : list string)
| DDel (a b : string) (ds : list string)
| DHas (a b : string) (ds : list string)
| DRoles (a : string) (ds : list string)
| DUsers (a : string) (ds : list string)
| DClear.

Definition dstep (ord : order) (x : irm) (c : dcall) : outcome (irm * answer) :=
  match c with
  | DAdd a b ds => let! (x, r) := i_Add ord x a b ds in Val (x, ABool r)
  | DDel a b ds => let! (x, r) := i_Del ord x a b ds in Val (x, ABool r)
  | DHas a b ds => let! (x, r) := i_Has ord x a b ds in Val (x, ABool r)
  | DRoles a ds => let! (x, r) := i_Roles ord x a ds in Val (x, ANames r)
  | DUsers a ds => let! (x, r) := i_Users ord x a ds in Val (x, ANames r)
  | DClear => Val (i_Clear x, AUnit)
  end.

Fixpoint dexec (x : irm) (h : list (order * dcall)) : outcome (irm * list answer) :=
  match h with
  | [] => Val (x, [])
  | (ord, c) :: h' =>
      let! (x, r) := dstep ord x c in
      let! (x, rs) := dexec x h' in
      Val (x, r :: rs)
  end.

(** domain_manager.go:260-272 [getAllDomainsHelper]: one entry per joined
    domain; the last link with that text wins. *)
Definition allDomainsMap (ord : order) (x : irm) : smap (list string) :=
  fold_left (fun acc '(_, _, ds) => mput (join "/" ds) ds acc) (i_links ord x) [].

(** domain_manager.go:275-286 [GetAllDomains]. *)
Definition GetAllDomains (ord : order) (x : irm) : list string :=
  map (fun k => match mget k (allDomainsMap ord x) with Some ds => join "/" ds | None => "" end)
      (ord (mkeys (allDomainsMap ord x))).

(** domain_manager.go:240-258 [GetDomains]: the domains in which the name has a
    role or a user.  [role.getUsers()]/[getRoles()] are asked on the resolved
    role manager; the deferred [removeRole] makes this the same as [GetUsers]
    and [GetRoles] (RbacM). *)
Fixpoint getDomains_loop (ord : order) (x : irm) (name : string) (dl : list (list string))
    : outcome (irm * list string) :=
  match dl with
  | [] => Val (x, [])
  | ds :: rest =>
      let! (x, us) := i_Users ord x name ds in
      let! (x, rs) := i_Roles ord x name ds in
      let! (x, l) := getDomains_loop ord x name rest in
      Val (x, match us, rs with [], [] => l | _, _ => join "/" ds :: l end)
  end.
Definition GetDomains (ord : order) (x : irm) (name : string) : outcome (irm * list string) :=
  getDomains_loop ord x name
    (flat_map (fun k => match mget k (allDomainsMap ord x) with Some ds => [ds] | None => [] end)
              (ord (mkeys (allDomainsMap ord x)))).
