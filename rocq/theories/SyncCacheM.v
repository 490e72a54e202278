(** Model of the synchronised cache of util/cache.go:83-104: calls on several
    goroutines, interleaved at every read and write of a pointer or of the map.

    Simplifications: memory is sequentially consistent (Go promises less for
    these unsynchronised writes, so a real run can only be worse); a waiting
    writer does not hold back new readers (cache.go uses sync.RWMutex, which
    does: the schedules here include the real ones). *)
From Verif Require Import GoBase CacheM.

Section Sync.
  Context {V : Type}.

  (** A call in progress: what is left to do, one memory access at a time. *)
  Inductive prog : Type :=
  | Done (r : option V)
  | Access (f : lru V -> outcome (lru V * prog)).

  (** One memory access of each kind, then the rest of the call. *)
  Definition look_map (k : string) (next : option nat -> prog) : prog :=
    Access (fun c => Val (c, next (mget k (l_map c)))).
  Definition load_next (p : option nat) (next : option nat -> prog) : prog :=
    Access (fun c => let! q := get_next (l_heap c) p in Val (c, next q)).
  Definition load_prev (p : option nat) (next : option nat -> prog) : prog :=
    Access (fun c => let! q := get_prev (l_heap c) p in Val (c, next q)).
  Definition store_next (p q : option nat) (rest : prog) : prog :=
    Access (fun c => let! h := set_next (l_heap c) p q in Val (mkLru (l_cap c) (l_map c) h, rest)).
  Definition store_prev (p q : option nat) (rest : prog) : prog :=
    Access (fun c => let! h := set_prev (l_heap c) p q in Val (mkLru (l_cap c) (l_map c) h, rest)).
  Definition load_value (p : option nat) (next : option V -> prog) : prog :=
    Access (fun c => let! an := deref (l_heap c) p in Val (c, next (n_value (snd an)))).

  (** cache.go:36-42 [remove(n, true)]. *)
  Definition remove_prog (n : nat) (rest : prog) : prog :=
    load_prev (Some n) (fun p =>
    load_next (Some n) (fun q =>
    store_next p q (
    load_next (Some n) (fun q =>
    load_prev (Some n) (fun p =>
    store_prev q p rest))))).
  (** cache.go:44-53 [add(n, true)]. *)
  Definition add_prog (n : nat) (rest : prog) : prog :=
    load_next (Some a_head) (fun headNext =>
    store_next (Some a_head) (Some n) (
    store_prev headNext (Some n) (
    store_next (Some n) headNext (
    store_prev (Some n) (Some a_head) rest)))).
  (** cache.go:60-68 [LRUCache.Get], with 55-58 [moveToHead]. *)
  Definition get_prog (k : string) : prog :=
    look_map k (fun on =>
      match on with
      | None => Done None
      | Some n => remove_prog n (add_prog n (load_value (Some n) Done))
      end).

  (** A goroutine: a call that has not got the lock, a Get that holds the read
      lock (cache.go:94-98), or a call that returned. *)
  Inductive thread : Type := Waiting (o : cop V) | Reading (k : string) (p : prog) | Finished (o : cop V) (r : option V).
  Record config : Type := mkConfig { s_cache : lru V; s_threads : list thread }.
  Definition is_reading (t : thread) : bool := match t with Reading _ _ => true | _ => false end.
  Definition settle (k : string) (p : prog) : thread :=
    match p with Done r => Finished (CGet k) r | _ => Reading k p end.

  Fixpoint set_thread (ts : list thread) (i : nat) (t : thread) : list thread :=
    match ts, i with
    | [], _ => []
    | _ :: ts', O => t :: ts'
    | x :: ts', S i' => x :: set_thread ts' i' t
    end.

  (** Goroutine [i] runs for one step.  A Put needs the lock for itself
      (cache.go:100-104): it waits while a Get is in progress, and nothing
      happens between its accesses, so it is one step. *)
  Definition sstep (s : config) (i : nat) : outcome config :=
    match nth_error (s_threads s) i with
    | Some (Waiting (CGet k)) => Val (mkConfig (s_cache s) (set_thread (s_threads s) i (Reading k (get_prog k))))
    | Some (Waiting (CPut k v)) =>
        if existsb is_reading (s_threads s) then Val s
        else let! c := Put (s_cache s) k v in Val (mkConfig c (set_thread (s_threads s) i (Finished (CPut k v) None)))
    | Some (Reading k (Access f)) =>
        let! (c, p) := f (s_cache s) in
        Val (mkConfig c (set_thread (s_threads s) i (settle k p)))
    | _ => Val s
    end.
  Fixpoint srun (s : config) (sched : list nat) : outcome config :=
    match sched with
    | [] => Val s
    | i :: sched' => let! s := sstep s i in srun s sched'
    end.
  Definition start (c : lru V) (calls : list (cop V)) : config := mkConfig c (map Waiting calls).
End Sync.
Arguments prog : clear implicits.
Arguments thread : clear implicits.
Arguments config : clear implicits.
