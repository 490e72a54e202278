(** Patterns as users.  A history of calls leaves a set of links and the matcher
    set last; a name takes one step along its own links and along the links of
    every pattern that stands for it. *)
From Verif Require Import GoBase PolicyM PathM RbacM RbacSpec PatternsM.

(** The links: adding and deleting count, setting a matcher does not. *)
Definition plinks_step (L : linkset) (c : pcall) : linkset :=
  match c with PCall c => links_step L c | PSet _ => L end.
Definition plinks_of (h : list (order * pcall)) : linkset := fold_left plinks_step (map snd h) no_links.

(** The matcher in force: the one set last, none at the start. *)
Definition pmatcher_step (m : option imatcher) (c : pcall) : option imatcher :=
  match c with PCall _ => m | PSet m => m end.
Definition pmatcher_of (h : list (order * pcall)) : option imatcher :=
  fold_left pmatcher_step (map snd h) None.

(** A name that is not a pattern. *)
Definition ordinary_name (m : option imatcher) (n : string) : Prop :=
  match m with None => True | Some mm => IsPattern mm n = false end.

(** One step from [u] to [v]: a link to [v] from [u] itself or from a pattern
    that stands for [u]. *)
Definition ustep (m : option imatcher) (L : linkset) (u v : string) : Prop :=
  exists u', L u' v = true /\ (u' = u \/ exists mm, m = Some mm /\ covers mm u' u).

(** [b] is reached from [a] in at most [level - 1] steps. *)
Definition reached_by (m : option imatcher) (L : linkset) (level : Z) (a b : string) : Prop :=
  hits m a b \/
  exists k y, (Z.of_nat k <= level - 1)%Z /\ chain (ustep m L) k a y /\ hits m y b.

(** ** Side conditions *)

(** Every order visits every key once; no name holds a dollar sign (the
    separator in the cache of matches, see C30); no call carries the flag for
    redundant links. *)
Definition pnames (h : list (order * pcall)) : list string :=
  flat_map (fun c => match snd c with PCall c => call_names c | PSet _ => [] end) h.
Definition fit (h : list (order * pcall)) : Prop :=
  Forall (fun c => good_order (fst c) /\ match snd c with PCall c => unflagged c | PSet _ => True end) h /\
  forall n, In n (pnames h) -> plain n.

(** Roles are ordinary names: patterns stand on the left of links only. *)
Definition roles_ordinary (m : option imatcher) (L : linkset) : Prop :=
  forall u v, L u v = true -> ordinary_name m v.
