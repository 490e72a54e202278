(** What a matcher written by the user reports, and what that decides. *)
From Verif Require Import GoBase DefsM PolicyM EffectorM ModelM ModelSpec EnforcerM EnforcerSpec UserMatcherM.

(** The rules a search reports, in order, and the error it ends with, when it is told
    to go on ([true]) or to stop ([false]) after each rule as [go] says. *)
Fixpoint shows (go : rule -> bool) (v : search) : outcome (list rule * option goerr) :=
  match v with
  | SEnd err => Val ([], err)
  | SPanic => Panic
  | SReport r next => let! (l, err) := shows go (next (go r)) in Val (r :: l, err)
  end.

(** The search ends, without an error, as soon as it is told to stop. *)
Fixpoint heeds (v : search) : Prop :=
  match v with
  | SReport _ next => next false = SEnd None /\ heeds (next true)
  | _ => True
  end.

(** The call has no option that sets another matcher. *)
Definition no_matcher (ps : list param) : Prop :=
  Forall (fun op => match op with OMatcher s => s = ""%string | OMatcherDef _ | OMatcherVal _ => False | _ => True end) (opts_of ps).

Definition is_effect (h : list (orders * mcall)) (e : effect) (r : rule) : bool := effect_eqb (rule_effect h r) e.
Definition last_is (f : rule -> bool) (l : list rule) : bool := match rev l with r :: _ => f r | [] => false end.
Definition first_is (f : rule -> bool) (l : list rule) : bool := match l with r :: _ => f r | [] => false end.

(** A list of rules as a search: each is reported until the search is told to stop. *)
Fixpoint search_list (l : list rule) (err : option goerr) : search :=
  match l with
  | [] => SEnd err
  | r :: l' => SReport r (fun b => if b then search_list l' err else SEnd None)
  end.
