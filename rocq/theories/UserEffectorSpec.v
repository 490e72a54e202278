(** What an effector written by the user is asked, and what its answers decide. *)
From Verif Require Import GoBase DefsM PolicyM EffectorM UserEffectorM.

Section Asked.
  Context {S : Type}.
  Variable X : merger S.
  Variable pd : argdef.
  (** The rules reported for the request, in the order they are found. *)
  Variable ms : list rule.

  (** The question about the first [n] rules. *)
  Definition question (s : S) (n : nat) (complete : bool) : outcome (S * (effect * rule * option goerr)) :=
    X s (map (GetEft pd) (firstn n ms)) (firstn n ms) complete.

  (** The state of the effector after the questions about the first rule, the first
      two, ..., the first [n]. *)
  Fixpoint state_after (s : S) (n : nat) : outcome S :=
    match n with
    | 0 => Val s
    | Datatypes.S k => let! s := state_after s k in let! (s, _) := question s n false in Val s
    end.
  (** Its answer about the first [n], after the questions about fewer. *)
  Definition answer (s : S) (n : nat) : outcome (S * (effect * rule * option goerr)) :=
    let! s := state_after s (Nat.pred n) in question s n false.

  (** It has not decided yet. *)
  Definition undecided (s : S) (n : nat) : Prop := exists s' r, answer s n = Val (s', (Indeterminate, r, None)).
End Asked.
