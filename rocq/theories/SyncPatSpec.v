(** What queries that run at the same time on a role manager with a matcher are
    meant to answer. *)
From Verif Require Import GoBase PathM RbacSpec SyncRoleM SyncRoleSpec.
Local Open Scope list_scope.

(** A query all of whose names are known (C85: a link from or to them was added or
    deleted). *)
Definition about_known (K : nameset) (o : rop) : Prop := updates o = false -> forall n, In n (op_names o) -> K n = true.

(** A phase of calls is calm if it is one call, or queries about known names. *)
Definition calm_phases (h : list (list rop)) : Prop :=
  forall i ops, nth_error h i = Some ops ->
    (exists o, ops = [o]) \/ (forall o, In o ops -> updates o = false /\ about_known (known_after (firstn i h)) o).

(** The names that exist while a call runs: the known ones and those it mentions. *)
Definition during (K : nameset) (o : rop) : nameset := fun n => K n || sin n (op_names o).

(** The answer of a call that runs when the links are [L] and the names [K] are known. *)
Definition pattern_answer (mm : imatcher) (level : nat) (L : linkset) (K : nameset) (o : rop) (y : ans) : Prop :=
  match o, y with
  | OAdd a b, YBool x => x = negb (L a b)
  | ODel a b, YBool x => x = L a b
  | OHas a b, YBool x =>
      x = true <-> hits (Some mm) a b \/
                   exists n z, n < level /\ chain (pstep mm L K) n a z /\ hits (Some mm) z b
  | ORoles a, YNames l => forall b, In b l <-> pstep mm L K a b
  | OUsers a, YNames l => forall b, In b l <-> K b = true /\ pstep mm L K b a
  | _, _ => False
  end.
