(** Model of calls on a domain manager that run at the same time
    (rbac/domain_manager.go).

    A domain manager keeps the managers of its domains in a sync.Map and takes no
    lock, so calls are interleaved at every Load and Store of that map, and, once
    they have reached the role manager of their domain, at every step SyncRoleM
    gives them there.  Domain managers and role managers live in heaps, because a
    goroutine can hold a manager that is not in any map (a query does not store
    the managers it creates) or no longer in one.
    - Schedules are as in SyncRoleM.
    - Simplifications: there is no matcher and no domain matcher; the two reserved
      domain names are not used (C34); calls are AddLink, DeleteLink, HasLink,
      GetRoles and GetUsers with any number of domains; Clear, SetMatcher and
      SetDomainMatcher, which assign to plain fields, do not run meanwhile.
    - Levels below 0 are 0, as in SyncRoleM. *)
From Verif Require Import GoBase PathM DomainM SyncRoleM.
Local Open Scope list_scope.

(** A call and its domains. *)
Definition dcall : Type := (rop * list string)%type.

(** domain_manager.go:26-33: the map of a domain manager, to domain managers (or
    under [defaultDomain] to a role manager), and its level; the role managers with
    theirs. *)
Record dmem : Type := mkDMem {
  d_doms : list (nat * smap nat);
  d_roles : list (nat * mem)
}.
(** domain_manager.go:37-42 [NewDomainManager]: the manager the calls are made on
    is number 0. *)
Definition dmem0 (level : nat) : dmem := mkDMem [(level, [])] [].

Definition dom_map (d : dmem) (x : nat) : smap nat := match nth_error (d_doms d) x with Some (_, m) => m | None => [] end.
Definition dom_level (d : dmem) (x : nat) : nat := match nth_error (d_doms d) x with Some (l, _) => l | None => 0 end.
Definition role_mem (d : dmem) (r : nat) : mem := match nth_error (d_roles d) r with Some (_, m) => m | None => mem0 end.
Definition role_level (d : dmem) (r : nat) : nat := match nth_error (d_roles d) r with Some (l, _) => l | None => 0 end.
(** [rmMap.Store]. *)
Definition dom_put (d : dmem) (x : nat) (k : string) (v : nat) : list (nat * smap nat) :=
  upd_at (d_doms d) x (fun lm => (fst lm, mput k v (snd lm))).

(** Which calls create managers: getRoleManager is called with store = true by
    AddLink (line 167) and DeleteLink (line 185), with false by HasLink (202),
    GetRoles (212) and GetUsers (222). *)
Definition stores (o : rop) : bool := match o with OAdd _ _ | ODel _ _ => true | _ => false end.

(** Where a call stands: it looks for the manager of the first of its remaining
    domains in domain manager [x] (without one: for the role manager), it has not
    found it and is about to store a new one, or it runs on a role manager. *)
Inductive dpc : Type :=
| QLoad (o : rop) (x : nat) (ds : list string)
| QStore (o : rop) (x : nat) (ds : list string)
| QRun (r : nat) (p : pc).

(** The start of a call (lines 162-167, 180-185, 197-202, 207-212, 217-222). *)
Definition dstart (c : dcall) : dpc := QLoad (fst c) 0 (snd c).

(** One step of a call. *)
Definition dstep (ch : option string) (d : dmem) (p : dpc) : outcome (dmem * dpc) :=
  match p with
  (* domain_manager.go:133 and 100-105 [load]; lines 80-87 [getDomain] *)
  | QLoad o x ds =>
      match mget (match ds with [] => defaultDomain | k :: _ => k end) (dom_map d x), ds with
      | Some v, [] => Val (d, QRun v (start None o))
      | Some v, _ :: ds' => Val (d, QLoad o v ds')
      | None, _ =>
          if stores o then Val (d, QStore o x ds)
          else
            (* lines 134-140: the managers below are new and stay with the call *)
            Val (mkDMem (d_doms d) (d_roles d ++ [(dom_level d x - List.length ds - 1, mem0)]), QRun (List.length (d_roles d)) (start None o))
      end
  (* lines 134-143 *)
  | QStore o x [] =>
      let r := List.length (d_roles d) in
      Val (mkDMem (dom_put d x defaultDomain r) (d_roles d ++ [(dom_level d x - 1, mem0)]), QRun r (start None o))
  | QStore o x (k :: ds) =>
      let y := List.length (d_doms d) in
      Val (mkDMem (dom_put d x k y ++ [(dom_level d x - 1, [])]) (d_roles d), QLoad o y ds)
  (* lines 168, 186, 203, 213, 223: the call on the role manager (SyncRoleM) *)
  | QRun r p =>
      let! (m, p') := tstep None (role_level d r) ch (role_mem d r) p in
      Val (mkDMem (d_doms d) (upd_at (d_roles d) r (fun lm => (fst lm, m))), QRun r p')
  end.

Definition dconfig : Type := (dmem * list dpc)%type.
Fixpoint drun (s : dconfig) (sched : list (nat * option string)) : outcome dconfig :=
  match sched with
  | [] => Val s
  | (i, ch) :: sched' =>
      match nth_error (snd s) i with
      | None => drun s sched'
      | Some p => let! (d, p') := dstep ch (fst s) p in drun (d, upd_at (snd s) i (fun _ => p')) sched'
      end
  end.

(** All calls have returned, with the answers [ys]. *)
Definition dfinished (ts : list dpc) (ys : list ans) : Prop :=
  Forall2 (fun t y => exists r, t = QRun r (PDone y)) ts ys.
Definition dphase_runs (d : dmem) (ops : list dcall) (sched : list (nat * option string)) (d' : dmem) (ys : list ans) : Prop :=
  exists ts, drun (d, map dstart ops) sched = Val (d', ts) /\ dfinished ts ys.
Inductive dphases_run (d : dmem) : list (list dcall) -> dmem -> list (list ans) -> Prop :=
| dphases_nil : dphases_run d [] d []
| dphases_snoc h d1 yss ops sched d2 ys :
    dphases_run d h d1 yss -> dphase_runs d1 ops sched d2 ys -> dphases_run d (h ++ [ops]) d2 (yss ++ [ys]).
