(** What it means for policy rules to form a set.  Independent of the model's
    rule map and of its hash keys. *)
From Verif Require Import GoBase PolicyM.

(** A rule none of whose values contains a comma, with at least one value. *)
Definition comma_free (r : rule) : Prop :=
  r <> [] /\ Forall (fun v => has_char "," v = false) r.

Definition op_ok (ok : rule -> Prop) (o : pop) : Prop :=
  match o with PAdd r => ok r | PRemove r => ok r | PClear => True end.

(** The mathematical set denoted by a history: a set is a boolean-valued
    membership function. *)
Definition rset := rule -> bool.
Definition set_add (r : rule) (s : rset) : rset := fun x => rule_eqb x r || s x.
Definition set_remove (r : rule) (s : rset) : rset := fun x => negb (rule_eqb x r) && s x.
Definition set_empty : rset := fun _ => false.

Definition set_step (s : rset) (o : pop) : rset :=
  match o with
  | PAdd r => set_add r s
  | PRemove r => set_remove r s
  | PClear => set_empty
  end.

(** Membership after a whole history, starting from no rules. *)
Definition set_of (h : list pop) : rset := fold_left set_step h set_empty.

(** Replaying an event stream on a set, the way an observer would. *)
Definition replay_step (s : rset) (e : event) : rset :=
  match e with
  | EvtAdded r => set_add r s
  | EvtRemoved r => set_remove r s
  | EvtCleared => set_empty
  end.
Definition replay (es : list event) : rset := fold_left replay_step es set_empty.

(** [l] lists exactly the members of [s] satisfying [ok], each once. *)
Definition enumerates (l : list rule) (s : rset) (ok : rule -> Prop) : Prop :=
  NoDup l /\ forall r, ok r -> (In r l <-> s r = true).

(** The columns [cs] of a rule, if it has them all. *)
Definition columns_of (r : rule) (cs : list nat) (vs : rule) : Prop :=
  Forall2 (fun c v => nth_error r c = Some v) cs vs.
