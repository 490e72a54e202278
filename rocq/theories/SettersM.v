(** Model of handing a policy object to a model with model/model.go:325-327
    [SetPolicy] (IModel.SetPolicy of model/model_api.go). *)
From Verif Require Import GoBase PolicyM MatcherM ModelM.

(** A policy that its owner made with policy.go:30-36 [NewPolicy] and changed by the
    calls [ops], handed over with [SetPolicy].  Nobody else uses it afterwards: its
    owner makes no further calls on it, and the same object is not handed over
    twice. *)
Definition hand_over (m : model) (key : string) (ops : list pop) : model :=
  let (m, i) := new_obj m (OPolicy (fst (pexec NewPolicy ops))) in SetPolicy m key i.

(** Histories with [SetPolicy] among the calls of ModelM. *)
Inductive xcall : Type :=
| XCall (c : mcall)
| XSetPolicy (key : string) (ops : list pop).

Definition xstep (E : env) (o : orders) (m : model) (c : xcall) : outcome (model * mresult) :=
  match c with
  | XCall c => mstep E o m c
  | XSetPolicy key ops => Val (hand_over m key ops, mkRes true None [])
  end.

Fixpoint xexec (E : env) (m : model) (h : list (orders * xcall)) : outcome (model * list mresult) :=
  match h with
  | [] => Val (m, [])
  | (o, c) :: h' =>
      let! (m, r) := xstep E o m c in
      let! (m, rs) := xexec E m h' in
      Val (m, r :: rs)
  end.
