(** Model of listeners that the user registers on a model (Model.AddListener,
    model.go:84, api/interfaces.go:51-53) and that change rules in turn.

    EmitEvent (model.go:261-263, 280-282) calls the listeners of an event in the order
    in which they were registered, each after the one before it has returned; what a
    listener changes is announced to all listeners before its own call returns.  The
    storage controller (controller.go:64-71) is such a listener: it changes nothing.
    Listeners are neither added nor removed meanwhile, and each listens to additions
    and removals.  That EmitEvent may be called from a listener is assumed of the event
    library, which is not in /repo. *)
From Verif Require Import GoBase PolicyM MatcherM ModelM StorageM.

(** What a listener does next. *)
Inductive reaction : Type := Done | Calls (c : mcall) | Fails.
(** What a listener does next after it is told of [op]: it returns, it makes a call on
    the model or it panics, depending on what it was told before, the answers of the
    calls it has made since it was told, and the model as it is. *)
Definition listener : Type := list operation -> operation -> list mresult -> model -> reaction.
(** controller.go:64-71, 104-114: a storage controller only keeps what it is told. *)
Definition storage : listener := fun _ _ _ _ => Done.

(** The calls that have not returned yet, innermost first. *)
Inductive frame : Type :=
| FrTell (op : operation) (i : nat)                                             (* EmitEvent, before it calls listener [i] *)
| FrRun (i : nat) (told : list operation) (op : operation) (ans : list mresult) (* listener [i] *)
| FrMain (cs : list mcall).                                                     (* the program: calls still to make *)

(** [l_told]: what each listener was told.  [l_made]: the calls made on the model and
    their answers, in the order in which they changed the model; it is only a record. *)
Record lstate : Type := mkL { l_model : model; l_told : list (list operation); l_made : list ((orders * mcall) * mresult); l_stack : list frame }.
Definition lstart (n : nat) (m : model) (cs : list mcall) : lstate := mkL m (repeat [] n) [] [FrMain cs].

(** A call on the model (model.go:246-284): it changes the model, then announces. *)
Definition make (E : env) (os : nat -> orders) (s : lstate) (c : mcall) (back : mresult -> list frame) : outcome lstate :=
  let o := os (List.length (l_made s)) in
  let! (m, r) := mstep E o (l_model s) c in
  Val (mkL m (l_told s) (l_made s ++ [((o, c), r)]) (map (fun ev => FrTell (op_of ev) 0) (x_events r) ++ back r)).

Fixpoint note (i : nat) (op : operation) (l : list (list operation)) : list (list operation) :=
  match l, i with
  | [], _ => []
  | t :: l', 0 => (t ++ [op]) :: l'
  | t :: l', S i' => t :: note i' op l'
  end.

(** A panic ends every call up to the program, which recovers and goes on. *)
Fixpoint unwind (k : list frame) : list frame :=
  match k with
  | [] => []
  | FrMain cs :: k' => k
  | _ :: k' => unwind k'
  end.

(** One step; nothing happens when everything has returned. *)
Definition lstep (E : env) (os : nat -> orders) (ls : list listener) (s : lstate) : outcome lstate :=
  match l_stack s with
  | [] => Val s
  | FrTell op i :: k =>
      match nth_error ls i with
      | None => Val (mkL (l_model s) (l_told s) (l_made s) k)
      | Some _ => Val (mkL (l_model s) (note i op (l_told s)) (l_made s)
                           (FrRun i (nth i (l_told s) []) op [] :: FrTell op (S i) :: k))
      end
  | FrRun i told op ans :: k =>
      match nth_error ls i with
      | None => Val s   (* unreachable *)
      | Some L =>
          match L told op ans (l_model s) with
          | Done => Val (mkL (l_model s) (l_told s) (l_made s) k)
          | Calls c => make E os s c (fun r => FrRun i told op (ans ++ [r]) :: k)
          | Fails => Val (mkL (l_model s) (l_told s) (l_made s) (unwind k))
          end
      end
  | FrMain [] :: k => Val (mkL (l_model s) (l_told s) (l_made s) k)
  | FrMain (c :: cs) :: k => make E os s c (fun _ => FrMain cs :: k)
  end.

Fixpoint lsteps (E : env) (os : nat -> orders) (ls : list listener) (n : nat) (s : lstate) : outcome lstate :=
  match n with
  | 0 => Val s
  | S n' => let! s := lstep E os ls s in lsteps E os ls n' s
  end.
