(** Adapters that hold a set of rules, and may refuse a change that would change
    nothing - as a database table with a unique key does. *)
From Verif Require Import GoBase PolicyM PolicySpec ModelM ModelSpec StorageM StorageSpec PersistSpec.

(** Every change, in order, adds a rule that is not in the set or removes one that
    is. *)
Fixpoint effective (s : rset) (ops : list operation) : Prop :=
  match ops with
  | [] => True
  | (OpAdd, r) :: ops' => s r = false /\ effective (set_add r s) ops'
  | (OpRemove, r) :: ops' => s r = true /\ effective (set_remove r s) ops'
  end.

(** Adapter [id], which holds [s0] before the first call on it, takes single or
    batched changes and answers every call without an error, save that it may refuse
    a call with a change that would change nothing. *)
Definition takes_changes (W : world) (id : nat) (s0 : rset) : Prop :=
  w_kind W id <> KNone /\ forall log c, effective (stored id s0 log) (changes c) -> w_answer W log id c = None.
(** LoadPolicy hands over what is stored. *)
Definition loads_stored (W : world) (id : nat) (s0 : rset) : Prop :=
  forall log, exists held, w_load W log id = (held, None) /\ forall r, In r held <-> stored id s0 log r = true.

(** Every call in [es] asked adapter [id] for changes that change its set, and was
    answered without an error. *)
Fixpoint needed (id : nat) (s : rset) (es : list entry) : Prop :=
  match es with
  | [] => True
  | en :: es' => en_id en = id /\ en_err en = None /\ effective s (changes (en_call en)) /\ needed id (store_step id s en) es'
  end.

(** The adapter holds, up to the queued changes, the rules of the model, and each
    queued change would change what it holds. *)
Record store_in_sync (id : nat) (s0 : rset) (e : enforcer) : Prop := {
  ss_queue : effective (stored id s0 (f_log e)) (queue e);
  ss_rules : forall o rl, good_orders o -> (fold_left apply_op (queue e) (stored id s0 (f_log e)) rl = true <-> In rl (model_rules o (f_model e)))
}.

(** SavePolicy is called with an empty queue only. *)
Fixpoint saves_settled (E : env) (W : world) (e : enforcer) (h : list ((nat -> orders) * ecall)) : Prop :=
  match h with
  | [] => True
  | (os, c) :: h' => (c = ESave -> queue e = []) /\ forall e1 r, estep E W os e c = Val (e1, r) -> saves_settled E W e1 h'
  end.
