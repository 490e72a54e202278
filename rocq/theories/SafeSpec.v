(** Calls that keep to the documented shape of keys, rules and matchers. *)
From Verif Require Import GoBase DefsM PolicyM PolicySpec MatcherDefM MatcherM MatcherSpec RbacM RbacSpec DomainM ModelM ModelSpec.

(** Whatever functions are registered, the matcher text builds a tree with at
    most two alternatives at every point, or does not build. *)
Definition at_most_two (E : env) (expr : string) : Prop :=
  forall fns root, Build (e_grow E) (e_parse E fns) expr = inl root -> narrow root = true.

(** A rule names its section, a grouping rule has at least two names. *)
Definition shaped (rl : rule) : Prop :=
  match rl with
  | [] => False
  | k :: r => k <> ""%string /\ (g_key k -> 2 <= List.length r)
  end.

Definition calm_call (E : env) (c : mcall) : Prop :=
  match c with
  | CSetDef s k v => k <> ""%string /\ (s = M_SEC -> at_most_two E v)
  | CAdd rl | CRemove rl => shaped rl
  | CAdhoc expr => at_most_two E expr
  | CSetRM _ _ => False
  | _ => True
  end.
Definition calm (E : env) (h : list (orders * mcall)) : Prop := Forall (fun c => calm_call E (snd c)) h.
