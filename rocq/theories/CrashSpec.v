(** What a crash leaves in storage. *)
From Verif Require Import GoBase PolicyM PolicySpec ModelM ModelSpec StorageM StorageSpec LogicSpec MultiSpec RestartFileSpec StoreRestartSpec.

(** The rule set [s] is that of the model [m] after the first ones of the calls
    [hm]: a moment of the past. *)
Definition moment (E : env) (m : model) (hm : list (orders * mcall)) (s : rset) : Prop :=
  exists before after m1 xs, hm = before ++ after /\ mexec E m before = Val (m1, xs) /\
    forall o rl, good_orders o -> (s rl = true <-> In rl (model_rules o m1)).

(** A process may crash between any two calls on its adapter, or before the first or
    after the last of them: [seen] are those that were answered. *)
Definition crash_point (e e' : enforcer) (seen : list entry) : Prop :=
  exists lost, f_log e' = (f_log e ++ seen) ++ lost.

(** The calls of C107, and switching autosave on and off or delaying it. *)
Definition any_ecall (d : deflist) (x : ecall) : Prop :=
  match x with
  | EAddWait _ | EOption (OptAutosave _) => True
  | _ => own_ecall d x
  end.
