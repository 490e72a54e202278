(** Which function a name stands for in a matcher, by the history of calls. *)
From Verif Require Import GoBase DefsM PolicyM PolicySpec MatcherDefM MatcherM MatcherSpec RbacM RbacSpec DomainM ModelM ModelSpec.

(** A function of the user or of the library, or the role function of the
    grouping section of the same name. *)
Inductive fsource : Type := FUser (f : gofn) | FRole.

(** The last call that concerns the name decides: SetFunction, RemoveFunction,
    defining or removing a grouping section, SetRoleManager. *)
Definition fn_step (k : string) (acc : option fsource) (c : mcall) : option fsource :=
  match c with
  | CSetFn n f => if String.eqb n k then Some (FUser f) else acc
  | CRemFn n => if String.eqb n k then None else acc
  | CSetDef G_SEC k' _ =>
      match first_byte k' with
      | Some c => if Ascii.eqb c "g" && String.eqb k' k then Some FRole else acc
      | None => acc
      end
  | CRemoveDef G_SEC k' => if String.eqb k' k then None else acc
  | CSetRM k' _ => if String.eqb k' k then Some FRole else acc
  | _ => acc
  end.
Definition fn_source (E : env) (k : string) (h : list (orders * mcall)) : option fsource :=
  fold_left (fn_step k) (map snd h) (option_map FUser (mget k (e_builtins E))).
