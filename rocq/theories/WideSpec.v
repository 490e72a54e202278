(** Matchers attached to the sections of a model.

    [narrow] (MatcherSpec) tells which trees have at most two alternatives at
    every point. *)
From Verif Require Import GoBase PolicyM MatcherDefM MatcherM MatcherSpec ModelM ModelSpec.

(** The matchers built on policy section [k] since it was last defined, in the
    order in which they were built. *)
Definition matchers_of (m : model) (k : string) : list matcher :=
  match mget k (md_pMap m) with
  | None => []
  | Some i => match nth_error (md_objs m) i with
              | None => []
              | Some ob => flat_map (fun j => match nth_error (md_mats m) j with Some x => [x] | None => [] end) (o_listeners ob)
              end
  end.

(** One of them has three or more alternatives at one point. *)
Definition obstructed (m : model) (k : string) : Prop := exists x, In x (matchers_of m k) /\ narrow (m_tree x) = false.

(** Calls that define policy section [k] again or remove it. *)
Definition redefines (k : string) (c : mcall) : Prop :=
  match c with
  | CSetDef P_SEC k' _ | CRemoveDef P_SEC k' => k' = k
  | _ => False
  end.

(** AddRule or RemoveRule of [rl]; would it change a list of rules? *)
Inductive change : Type := Adding | Removing.
Definition call_of (c : change) (rl : rule) : mcall := match c with Adding => CAdd rl | Removing => CRemove rl end.
Definition would_change (c : change) (rl : rule) (l : list rule) : Prop :=
  match c with Adding => ~ In rl l | Removing => In rl l end.
Definition changed (c : change) (rl : rule) (l : list rule) (rl' : rule) : Prop :=
  match c with Adding => In rl' l \/ rl' = rl | Removing => In rl' l /\ rl' <> rl end.
Definition event_of (c : change) (r : rule) : event := match c with Adding => EvtAdded r | Removing => EvtRemoved r end.
