(** What listeners that change rules in turn are meant to be told. *)
From Verif Require Import GoBase PolicyM PolicySpec MatcherM ModelM ModelSpec StorageM StorageSpec ReactM.

(** The changes of the rules, in the order in which they took effect. *)
Definition changes_made (s : lstate) : list operation := announced (map snd (l_made s)).
(** What listener [i] was told, in the order in which it was. *)
Definition told_to (i : nat) (s : lstate) : list operation := nth i (l_told s) [].
(** All calls have returned. *)
Definition returned (s : lstate) : Prop := l_stack s = [].

(** The calls made, by the program and by listeners. *)
Definition calls_made (s : lstate) : list mcall := map (fun x => snd (fst x)) (l_made s).
(** [a] with other elements put in between. *)
Inductive among {A} : list A -> list A -> Prop :=
| among_nil : among [] []
| among_here x a b : among a b -> among (x :: a) (x :: b)
| among_other x a b : among a b -> among a (x :: b).

(** A listener that changes nothing. *)
Definition quiet (L : listener) : Prop := forall told op ans m, L told op ans m = Done.
(** A listener that, told of a change of a rule, only adds and removes rules of a higher
    rank; it may make other calls too. *)
Definition ranked (rank : rule -> nat) (L : listener) : Prop :=
  forall told op ans m c, L told op ans m = Calls c -> forall r, c = CAdd r \/ c = CRemove r -> rank (snd op) < rank r.
(** A listener that does not panic. *)
Definition never_fails (L : listener) : Prop := forall told op ans m, L told op ans m <> Fails.
(** A listener whose calls satisfy [P]. *)
Definition only_makes (P : mcall -> Prop) (L : listener) : Prop := forall told op ans m c, L told op ans m = Calls c -> P c.
(** Calls in the form in which the model lists rules (C40). *)
Definition plain_change (hs : list (orders * mcall)) (c : mcall) : Prop :=
  match c with CAdd rl | CRemove rl => plain_rule hs rl | c => rule_call c end.
