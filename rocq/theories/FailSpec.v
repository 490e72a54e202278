(** Specification: programs that recover from storage failures. *)
From Verif Require Import GoBase PolicyM PolicySpec MatcherM ModelM ModelSpec StorageM StorageSpec FailM.

(** ** What the calls do to a model that has no storage at all *)
Fixpoint rules_on (E : env) (os : nat -> orders) (m : model) (mk : rule -> mcall) (rs : list rule) : outcome (model * option goerr) :=
  match rs with
  | [] => Val (m, None)
  | r :: rs' =>
      let! (m, x) := mstep E (os 0) m (mk r) in
      match x_err x with
      | Some err => Val (m, Some err)
      | None => rules_on E (fun n => os (S n)) m mk rs'
      end
  end.
Definition on_step (E : env) (os : nat -> orders) (m : model) (c : ecall) : outcome (model * eresult) :=
  match c with
  | EModel c => let! (m, x) := mstep E (os 0) m c in Val (m, mkERes (x_err x) (Some x))
  | EAddRules rs => let! (m, err) := rules_on E os m CAdd rs in Val (m, mkERes err None)
  | ERemoveRules rs => let! (m, err) := rules_on E os m CRemove rs in Val (m, mkERes err None)
  | _ => Val (m, mkERes None None)
  end.
Fixpoint on_model (E : env) (m : model) (h : list ((nat -> orders) * ecall)) : outcome (model * list eresult) :=
  match h with
  | [] => Val (m, [])
  | (os, c) :: h' => let! (m, y) := on_step E os m c in let! (m, ys) := on_model E m h' in Val (m, y :: ys)
  end.
(** A rule change that returns gives the answer of the model; storage calls
    return and have no answer of the model. *)
Definition answer_of (c : ecall) (x : eresult + goerr) (y : eresult) : Prop :=
  match c with
  | EModel _ | EAddRules _ | ERemoveRules _ => match x with inl r => r = y | inr _ => True end
  | _ => exists err, x = inl (mkERes err None)
  end.

(** ** Where changes go

    [moved k id q es l q']: the changes [q] went to adapter [id] with the log
    entries [es]; the changes [l] are lost, [q'] is left.  A refused call loses its
    changes; a batch adapter that refuses a batch loses with it at most one
    further change, one of the other kind. *)
Definition dropped (k : akind) (c : acall) (d : list operation) : Prop :=
  d = [] \/ (k = KBatch /\ exists op, d = [op] /\ Forall (fun x => fst x <> fst op) (changes c)).
Inductive moved (k : akind) (id : nat) : list operation -> list entry -> list operation -> list operation -> Prop :=
| moved_none q : moved k id q [] [] q
| moved_taken c q es l q' : changes c <> [] -> moved k id q es l q' ->
    moved k id (changes c ++ q) (mkEntry id c None :: es) l q'
| moved_refused c err d q es l q' : changes c <> [] -> (k = KSimple -> exists op, c = single op) -> dropped k c d -> moved k id q es l q' ->
    moved k id (changes c ++ d ++ q) (mkEntry id c (Some err) :: es) (changes c ++ d ++ l) q'
| moved_save rs err q es l q' : moved k id q es l q' ->
    moved k id q (mkEntry id (CSavePolicy rs) err :: es) l q'.

(** States of an enforcer with external adapter [id] and storage enabled, reached
    with any failures of the adapter in between. *)
Definition reached (E : env) (W : world) (id : nat) (e : enforcer) : Prop :=
  exists e0 h xs, reachable_enforcer E W e0 /\ f_adapter e0 = AExt id /\ enabled e0 = true /\ attached e0 /\
    Forall (fun c => keeps_storage (snd c)) h /\ f_exec E W e0 h = Val (e, xs).

(** Calls that change rules. *)
Definition changes_rules (c : ecall) : Prop := match c with EModel _ | EAddRules _ | ERemoveRules _ => True | _ => False end.
