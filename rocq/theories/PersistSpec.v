(** When a file adapter works, and calls whose rules a file can hold. *)
From Coq Require Import Permutation.
From Verif Require Import GoBase PolicyM PolicySpec ModelM ModelSpec StorageM StorageSpec FileM FileSpec FileWorldM.

(** The operating system reports no error, the pieces written make up the text,
    and maps are visited in any order. *)
Definition working (P : fileadapter) : Prop :=
  pieces_of (fl_chunk P) /\ (forall n l, Permutation (fl_ord P n l) l) /\ forall n k, fl_fault P n k = None.

(** The rules named by a call can be written to a file. *)
Definition file_rules (c : ecall) : Prop :=
  match c with
  | EModel (CAdd rl) | EModel (CRemove rl) => plain_line rl
  | EAddRules rs | ERemoveRules rs => Forall plain_line rs
  | _ => True
  end.

(** A rule set given by a list. *)
Definition listed (rs : list rule) : rset := fun r => if in_dec rule_eq_dec r rs then true else false.

(** The file can be read, holds plain rules only, and holds, up to the changes
    still queued, the rules of the model; the queued changes are plain too. *)
Record in_sync (P : fileadapter) (d0 : disk) (e : enforcer) (held : list rule) : Prop := {
  sy_file : load_file (the_file P d0 (f_log e)) = (held, None);
  sy_plain : Forall plain_line held;
  sy_queue : Forall (fun op => plain_line (snd op)) (queue e);
  sy_rules : forall o rl, good_orders o -> (fold_left apply_op (queue e) (listed held) rl = true <-> In rl (model_rules o (f_model e)))
}.

(** None of the model calls a history consists of panics (C57 says which ones do
    not). *)
Definition never_panics (E : env) (m : model) (h : list ((nat -> orders) * ecall)) : Prop :=
  forall hm, model_parts h hm -> mexec E m hm <> Panic.

(** The same world, but every call on an adapter succeeds. *)
Definition yes (W : world) : world := mkWorld (w_kind W) (fun _ _ _ => None) (w_load W) (w_file W).
