(** Processes that keep their rules in storage of any kind: a database, a service. *)
From Verif Require Import GoBase DefsM PolicyM PolicySpec ModelM ModelSpec StorageM StorageSpec EnforcerM AppSpec MultiSpec LogicSpec RestartFileSpec StoreSpec.

(** Storage is in one of the states [S].  In a state it is the world [st_world] with
    its adapter [st_id], it holds the rules [st_holds], and the calls in a log on the
    adapter lead to the state [st_after]. *)
Record storage (S : Type) : Type := Storage { st_world : S -> world; st_id : nat; st_holds : S -> rset; st_after : S -> list entry -> S }.
Arguments st_world {S}. Arguments st_id {S}. Arguments st_holds {S}. Arguments st_after {S}.

(** It keeps a set of rules: it takes changes that change the set, loads the rules
    of the set, and holds after a process what the process asked it to hold.  It may
    refuse changes that would change nothing (C106). *)
Definition keeps_rules {S : Type} (T : storage S) : Prop := forall s,
  takes_changes (st_world T s) (st_id T) (st_holds T s) /\ loads_stored (st_world T s) (st_id T) (st_holds T s) /\
  forall log r, st_holds T (st_after T s log) r = true <-> stored (st_id T) (st_holds T s) log r = true.

(** A rule of a section of the model file, with no names beyond the first two in a
    grouping section without domains; the values are arbitrary. *)
Definition own_rule : deflist -> rule -> Prop := kept_by (fun _ => True).
Definition own_ecall : deflist -> ecall -> Prop := file_ecall_by (fun _ => True).

(** A process on the storage: the model is set up, the enforcer made with the
    adapter and autosave, the rules are loaded, and the calls [h] follow; no call
    panics or returns an error, and the process ends with [e]. *)
Definition store_process (E : env) (W : world) (id : nat) (hs : list (orders * mcall)) (os os1 : nat -> orders) (h : list ((nat -> orders) * ecall)) (e : enforcer) : Prop :=
  exists m rs0 e0 rs, mexec E (NewModel E) hs = Val (m, rs0) /\ NewEnforcer E W os m (ArgAdapter (AExt id)) [OptAutosave true] = Val (inl e0) /\
    eexec E W e0 ((os1, ELoad) :: h) = Val (e, rs) /\ Forall (fun r => y_err r = None) rs.

(** Processes one after the other (RestartFileSpec says what a lifetime is). *)
Definition own_lifetime (d : deflist) (r : lifetime) : Prop :=
  file_start d (r_setup r) /\ good_m (r_setup r) /\ (forall n, good_orders (r_os1 r n)) /\ Forall (fun x => own_ecall d (snd x)) (r_calls r) /\ eorders (r_calls r).
Inductive store_lives {S : Type} (E : env) (T : storage S) : S -> list lifetime -> S -> Prop :=
| store_none s : store_lives E T s [] s
| store_one s r rs e s2 : store_process E (st_world T s) (st_id T) (r_setup r) (r_os r) (r_os1 r) (r_calls r) e ->
    store_lives E T (st_after T s (f_log e)) rs s2 -> store_lives E T s (r :: rs) s2.
