(** Model of rbac/role_manager.go with a matching function that may panic, in a
    program that recovers and goes on using the role manager.

    [util.RegexMatch] panics on a malformed pattern and [util.IPMatch] on a
    malformed address (util/builtin_operators.go:90-92, 100-111); a matching
    function given to [NewMatcher]/[NewPrefixMatcher] is called inside
    [RoleManager.match].  RbacM takes the matching function to be total; here
    the call [Match(str, pattern)] panics when [fails str pattern].  A panic
    unwinds the call and leaves in place whatever was stored before, except that
    the deferred [removeRole] calls run.  So every function returns the manager
    it leaves behind, and its result if it returned ([None]: it panicked).  The
    data structures are those of RbacM. *)
From Verif Require Import GoBase PolicyM CacheM PathM RbacM.

(** Go on with the next statement unless the last one panicked. *)
Definition pbind {A B} (o : rolemgr * option A) (f : rolemgr -> A -> rolemgr * option B)
    : rolemgr * option B :=
  match snd o with Some v => f (fst o) v | None => (fst o, None) end.

Section Recover.
  Context (fails : string -> string -> bool).

  (** role_manager.go:62-71 [match]: a panic of the matching function leaves
      nothing in the cache. *)
  Definition q_match (rm : rolemgr) (str pattern : string) : rolemgr * option bool :=
    let cacheKey := join "$$" [str; pattern] in
    match Get (rm_cache rm) cacheKey with
    | Panic => (rm, None)
    | Val (c, Some b) => (with_cache rm c, Some b)
    | Val (c, None) =>
        match rm_matcher rm with
        | None => (with_cache rm c, None)
        | Some m =>
            if fails str pattern then (with_cache rm c, None)
            else match Put c cacheKey (Match m str pattern) with
                 | Panic => (with_cache rm c, None)
                 | Val c => (with_cache rm c, Some (Match m str pattern))
                 end
        end
    end.

  (** role_manager.go:73-81 [rangeMatchingRoles] with the callback of lines
      114-116: matches found before a panic stay recorded. *)
  Fixpoint q_roles (rm : rolemgr) (pattern : string) (names : list string) : rolemgr * option unit :=
    match names with
    | [] => (rm, Some tt)
    | name :: rest =>
        if negb (String.eqb pattern name) then
          pbind (q_match rm name pattern) (fun rm b =>
            q_roles (if b : bool then with_all rm (addMatch (rm_all rm) pattern name) else rm) pattern rest)
        else q_roles rm pattern rest
    end.

  (** role_manager.go:83-92 [rangeMatchingPatterns] with the callback of lines
      118-120. *)
  Fixpoint q_patterns (rm : rolemgr) (name : string) (pats : list string) : rolemgr * option unit :=
    match pats with
    | [] => (rm, Some tt)
    | pattern :: rest =>
        if negb (String.eqb pattern name) then
          pbind (q_match rm name pattern) (fun rm b =>
            if b && negb (mhas pattern (rm_all rm)) then (rm, None)
            else q_patterns (if b : bool then with_all rm (addMatch (rm_all rm) pattern name) else rm) name rest)
        else q_patterns rm name rest
    end.

  (** role_manager.go:102-125 [getRole]: the name is stored before it is
      matched. *)
  Definition q_getRole (ord : order) (rm : rolemgr) (name : string) : rolemgr * option bool :=
    if mhas name (rm_all rm) then (rm, Some false)
    else
      let rm := with_all rm (mput name newRole (rm_all rm)) in
      match rm_matcher rm with
      | None => (rm, Some true)
      | Some m =>
          if IsPattern m name then
            let rm := with_patterns rm (sadd name (rm_patterns rm)) in
            pbind (q_roles rm name (ord (mkeys (rm_all rm)))) (fun rm _ => (rm, Some true))
          else
            pbind (q_patterns rm name (ord (rm_patterns rm))) (fun rm _ => (rm, Some true))
      end.

  (** role_manager.go:163-172 [AddLink]. *)
  Definition q_AddLink (ord : order) (rm : rolemgr) (name1 name2 : string) (domains : list string)
      : rolemgr * option bool :=
    pbind (q_getRole ord rm name1) (fun rm _ =>
    pbind (q_getRole ord rm name2) (fun rm _ =>
      let all := if is_redundant domains then upd_role name1 (on_redundant (sadd name2)) (rm_all rm)
                 else rm_all rm in
      let (all, added) := addRole all name1 name2 in
      (with_all rm all, Some added))).

  (** role_manager.go:176-185 [DeleteLink]. *)
  Definition q_DeleteLink (ord : order) (rm : rolemgr) (name1 name2 : string) (domains : list string)
      : rolemgr * option bool :=
    pbind (q_getRole ord rm name1) (fun rm _ =>
    pbind (q_getRole ord rm name2) (fun rm _ =>
      let all := if is_redundant domains then upd_role name1 (on_redundant (srem name2)) (rm_all rm)
                 else rm_all rm in
      let (all, removed) := removeRole all name1 name2 in
      (with_all rm all, Some removed))).

  (** [rm.matcher != nil && rm.match(str, pattern)] (lines 189 and 213). *)
  Definition q_match_if_set (rm : rolemgr) (str pattern : string) : rolemgr * option bool :=
    match rm_matcher rm with
    | None => (rm, Some false)
    | Some _ => q_match rm str pattern
    end.

  (** role_manager.go:212-220: the loop over one level of roles. *)
  Fixpoint q_level (ord : order) (rm : rolemgr) (target : string) (roles next : list string)
      : rolemgr * option (option (list string)) :=
    match roles with
    | [] => (rm, Some (Some next))
    | r :: rest =>
        pbind (if String.eqb target r then (rm, Some true) else q_match_if_set rm r target) (fun rm found =>
        if found : bool then (rm, Some None)
        else q_level ord rm target rest
               (fold_left (fun n x => sadd x n) (rangeRoles ord (rm_all rm) r) next))
    end.

  (** role_manager.go:206-223 [hasLinkHelper]. *)
  Fixpoint q_helper (ord : order) (level : nat) (rm : rolemgr) (target : string) (roles : list string)
      : rolemgr * option bool :=
    match level with
    | O => (rm, Some false)
    | S level' =>
        match roles with
        | [] => (rm, Some false)
        | _ :: _ =>
            pbind (q_level ord rm target (ord roles) []) (fun rm next =>
            match next with
            | None => (rm, Some true)
            | Some next => q_helper ord level' rm target next
            end)
        end
    end.

  (** role_manager.go:188-204 [HasLink]: the [defer] statements stand after both
      [getRole] calls; once executed, [removeRole] runs even if the search
      panics. *)
  Definition q_HasLink (ord : order) (rm : rolemgr) (name1 name2 : string) : rolemgr * option bool :=
    pbind (if String.eqb name1 name2 then (rm, Some true) else q_match_if_set rm name1 name2) (fun rm b =>
    if b : bool then (rm, Some true)
    else
      pbind (q_getRole ord rm name1) (fun rm userCreated =>
      pbind (q_getRole ord rm name2) (fun rm roleCreated =>
        let (rm, res) := q_helper ord (Z.to_nat (rm_level rm)) rm name2 [name1] in
        let rm := if roleCreated : bool then rm_removeRole rm name2 else rm in
        let rm := if userCreated : bool then rm_removeRole rm name1 else rm in
        (rm, res)))).

  (** role_manager.go:226-232 [GetRoles]. *)
  Definition q_GetRoles (ord : order) (rm : rolemgr) (name : string) : rolemgr * option (list string) :=
    pbind (q_getRole ord rm name) (fun rm created =>
      let l := rangeRoles ord (rm_all rm) name in
      (if created : bool then rm_removeRole rm name else rm, Some l)).

  (** role_manager.go:236-242 [GetUsers]. *)
  Definition q_GetUsers (ord : order) (rm : rolemgr) (name : string) : rolemgr * option (list string) :=
    pbind (q_getRole ord rm name) (fun rm created =>
      let l := rangeUsers ord (rm_all rm) name in
      (if created : bool then rm_removeRole rm name else rm, Some l)).

  (** One call of the program; a panic is recovered. *)
  Definition q_step (ord : order) (rm : rolemgr) (c : rcall) : rolemgr * option answer :=
    match c with
    | RAdd a b ds => pbind (q_AddLink ord rm a b ds) (fun rm x => (rm, Some (ABool x)))
    | RDel a b ds => pbind (q_DeleteLink ord rm a b ds) (fun rm x => (rm, Some (ABool x)))
    | RHas a b => pbind (q_HasLink ord rm a b) (fun rm x => (rm, Some (ABool x)))
    | RRoles a => pbind (q_GetRoles ord rm a) (fun rm x => (rm, Some (ANames x)))
    | RUsers a => pbind (q_GetUsers ord rm a) (fun rm x => (rm, Some (ANames x)))
    | RClear => (rm_Clear rm, Some AUnit)
    end.

  Fixpoint q_exec (rm : rolemgr) (h : list (order * rcall)) : rolemgr * list (option answer) :=
    match h with
    | [] => (rm, [])
    | (ord, c) :: h' =>
        let (rm, x) := q_step ord rm c in
        let (rm, xs) := q_exec rm h' in
        (rm, x :: xs)
    end.

  (** role_manager.go:53-60 [rebuild]: the links are added again one by one. *)
  Fixpoint q_links (ord : order) (rm : rolemgr) (ls : list rule) : rolemgr * option unit :=
    match ls with
    | [] => (rm, Some tt)
    | (n1 :: n2 :: ds) :: rest => pbind (q_AddLink ord rm n1 n2 ds) (fun rm _ => q_links ord rm rest)
    | _ :: rest => (rm, None)     (* unreachable: links have at least two names *)
    end.

  (** role_manager.go:143-146 [SetMatcher]; [fails] belongs to the new matcher. *)
  Definition q_SetMatcher (ord : order) (rm : rolemgr) (m : option imatcher) : rolemgr * option unit :=
    let rm := mkRM (rm_all rm) (rm_patterns rm) (rm_level rm) m (rm_cache rm) in
    q_links ord (rm_Clear rm) (all_links ord (rm_all rm)).
End Recover.
