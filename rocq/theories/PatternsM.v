(** Calls on a role manager, among them [SetMatcher]. *)
From Verif Require Import GoBase PolicyM PathM RbacM.

(** role_manager.go:143-250: the methods of a role manager and [SetMatcher]
    (lines 143-146; [None] is a nil matcher). *)
Inductive pcall : Type :=
| PCall (c : rcall)
| PSet (m : option imatcher).

(** One call; [SetMatcher] returns nothing. *)
Definition pat_step (ord : order) (rm : rolemgr) (c : pcall) : outcome (rolemgr * answer) :=
  match c with
  | PCall c => rstep ord rm c
  | PSet m => let! rm := rm_SetMatcher ord rm m in Val (rm, AUnit)
  end.

Fixpoint pat_exec (rm : rolemgr) (h : list (order * pcall)) : outcome (rolemgr * list answer) :=
  match h with
  | [] => Val (rm, [])
  | (ord, c) :: rest =>
      let! (rm, x) := pat_step ord rm c in
      let! (rm, xs) := pat_exec rm rest in
      Val (rm, x :: xs)
  end.
