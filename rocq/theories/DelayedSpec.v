(** Processes that save when they like: autosave may be switched on and off and
    delayed. *)
From Verif Require Import GoBase DefsM PolicyM ModelM ModelSpec StorageM StorageSpec EnforcerM PersistSpec RestartSpec MultiSpec RestartFileSpec StoreRestartSpec CrashSpec.

(** A discipline that can be read off the calls.  [auto]: autosave is on; [waits]:
    AddWait was called since the last Flush; [clean]: no change can be queued.
    SavePolicy is called, and the process ends, only while no change can be
    queued. *)
Fixpoint tidy (auto waits clean : bool) (h : list ((nat -> orders) * ecall)) : Prop :=
  match h with
  | [] => clean = true
  | (_, ESave) :: h' => clean = true /\ tidy auto waits clean h'
  | (_, EFlush) :: h' => tidy auto false true h'
  | (_, EOption (OptAutosave b)) :: h' => tidy b waits clean h'
  | (_, EAddWait _) :: h' => tidy auto true clean h'
  | (_, _) :: h' => tidy auto waits (clean && auto && negb waits) h'
  end.

(** A process made with autosave [b] (StoreRestartSpec). *)
Definition delayed_process (E : env) (W : world) (id : nat) (b : bool) (hs : list (orders * mcall)) (os os1 : nat -> orders) (h : list ((nat -> orders) * ecall)) (e : enforcer) : Prop :=
  exists m rs0 e0 rs, mexec E (NewModel E) hs = Val (m, rs0) /\ NewEnforcer E W os m (ArgAdapter (AExt id)) [OptAutosave b] = Val (inl e0) /\
    eexec E W e0 ((os1, ELoad) :: h) = Val (e, rs) /\ Forall (fun r => y_err r = None) rs.
Definition tidy_lifetime (d : deflist) (x : bool * lifetime) : Prop :=
  let (b, r) := x in
  file_start d (r_setup r) /\ good_m (r_setup r) /\ (forall n, good_orders (r_os1 r n)) /\ Forall (fun x => any_ecall d (snd x)) (r_calls r) /\ eorders (r_calls r) /\
  tidy b false true (r_calls r).
Inductive delayed_lives {S : Type} (E : env) (T : storage S) : S -> list (bool * lifetime) -> S -> Prop :=
| delayed_none s : delayed_lives E T s [] s
| delayed_one s b r rs e s2 : delayed_process E (st_world T s) (st_id T) b (r_setup r) (r_os r) (r_os1 r) (r_calls r) e ->
    delayed_lives E T (st_after T s (f_log e)) rs s2 -> delayed_lives E T s ((b, r) :: rs) s2.
