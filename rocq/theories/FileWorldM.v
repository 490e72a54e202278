(** The world of StorageM when adapter 0 is a FileAdapter
    (storage/adapter/fileadapter.go) and nothing else writes its file. *)
From Verif Require Import GoBase PolicyM ModelM StorageM FileM.

(** How the calls on the file behave; the n-th call on an adapter visits the map
    of the rule set in the order [fl_ord n], hands its text to the file in the
    pieces [fl_chunk] and meets the faults [fl_fault n] (FileM). *)
Record fileadapter : Type := mkFile {
  fl_chunk : string -> list string;
  fl_ord : nat -> list rule -> list rule;
  fl_fault : nat -> nat -> option nat
}.

(** fileadapter.go:81-192: the methods of FileAdapter, [n] calls after the
    start.  LoadPolicy does not change the file. *)
Definition file_call (P : fileadapter) (n : nat) (d : disk) (c : acall) : disk * option ferr :=
  match c with
  | CAddRule r => AddRule (fl_fault P n) (fl_chunk P) (fl_ord P n) d r
  | CRemoveRule r => RemoveRule (fl_fault P n) (fl_chunk P) (fl_ord P n) d r
  | CAddRules rs => AddRules (fl_fault P n) (fl_chunk P) (fl_ord P n) d rs
  | CRemoveRules rs => RemoveRules (fl_fault P n) (fl_chunk P) (fl_ord P n) d rs
  | CSavePolicy rs => FileM.SavePolicy (fl_fault P n) (fl_chunk P) d rs
  | CLoadPolicy => (d, snd (load_file d))
  end.

(** The file after the calls in a log, and what a call on it answers; [d0] is
    the file before the first call. *)
Fixpoint file_after (P : fileadapter) (n : nat) (d : disk) (log : list entry) : disk :=
  match log with
  | [] => d
  | en :: log' =>
      file_after P (S n) (if Nat.eqb (en_id en) 0 then fst (file_call P n d (en_call en)) else d) log'
  end.
Definition the_file (P : fileadapter) (d0 : disk) (log : list entry) : disk := file_after P 0 d0 log.

(** Errors of the file and of csv are errors of the adapter. *)
Definition as_goerr (e : option ferr) : option goerr := match e with Some _ => Some ErrAdapter | None => None end.

(** fileadapter.go:134-192 with adapter.go:29-51: FileAdapter has the methods of a
    SimpleAdapter and of a BatchAdapter; enforcer.go:100-104: a policy path given to
    NewEnforcer is read in the same way. *)
Definition file_world (P : fileadapter) (d0 : disk) (files : string -> disk) : world :=
  mkWorld (fun id => if Nat.eqb id 0 then KBatch else KNone)
          (fun log id c => if Nat.eqb id 0 then as_goerr (snd (file_call P (List.length log) (the_file P d0 log) c)) else None)
          (fun log id => let (rs, e) := load_file (the_file P d0 log) in (rs, as_goerr e))
          (fun path => let (rs, e) := load_file (files path) in (rs, as_goerr e)).
