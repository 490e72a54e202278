(** What role links mean.  Independent of the role manager's data structures:
    a history of calls denotes a set of links and a set of known names; the
    links (and patterns) induce a graph, and HasLink asks for a bounded chain in
    it. *)
From Verif Require Import GoBase PolicyM PathM RbacM.

(** ** The links and names a history leaves behind *)
Definition linkset := string -> string -> bool.
Definition nameset := string -> bool.

Definition no_links : linkset := fun _ _ => false.
Definition no_names : nameset := fun _ => false.
Definition link_add (a b : string) (L : linkset) : linkset :=
  fun x y => (String.eqb x a && String.eqb y b) || L x y.
Definition link_del (a b : string) (L : linkset) : linkset :=
  fun x y => negb (String.eqb x a && String.eqb y b) && L x y.
Definition name_add (a : string) (K : nameset) : nameset := fun x => String.eqb x a || K x.

Definition links_step (L : linkset) (c : rcall) : linkset :=
  match c with
  | RAdd a b _ => link_add a b L
  | RDel a b _ => link_del a b L
  | RClear => no_links
  | RHas _ _ | RRoles _ | RUsers _ => L
  end.

(** A name is known once a link from or to it was added or deleted. *)
Definition names_step (K : nameset) (c : rcall) : nameset :=
  match c with
  | RAdd a b _ | RDel a b _ => name_add b (name_add a K)
  | RClear => no_names
  | RHas _ _ | RRoles _ | RUsers _ => K
  end.

Definition links_of (h : list (order * rcall)) : linkset :=
  fold_left links_step (map snd h) no_links.
Definition names_of (h : list (order * rcall)) : nameset :=
  fold_left names_step (map snd h) no_names.

(** ** Chains of a given length in a graph *)
Inductive chain (E : string -> string -> Prop) : nat -> string -> string -> Prop :=
| chain_O a : chain E 0 a a
| chain_S n a b c : E a b -> chain E n b c -> chain E (S n) a c.

Definition edge (L : linkset) (a b : string) : Prop := L a b = true.

(** ** Patterns *)

(** Pattern [p] stands for the different name [x]. *)
Definition covers (m : imatcher) (p x : string) : Prop :=
  p <> x /\ IsPattern m p = true /\ Match m x p = true.

(** One step with patterns: a link; a link to a pattern grants every known name
    the pattern covers; a link from a pattern applies to every name it covers. *)
Inductive pstep (m : imatcher) (L : linkset) (K : nameset) (u v : string) : Prop :=
| step_link : L u v = true -> pstep m L K u v
| step_to_pattern p : L u p = true -> covers m p v -> K v = true -> pstep m L K u v
| step_from_pattern p : covers m p u -> L p v = true -> pstep m L K u v.

(** The ideal step: patterns may stand on both sides of the same link. *)
Inductive ideal_step (m : imatcher) (L : linkset) (K : nameset) (u v : string) : Prop :=
| ideal u' v' : L u' v' = true -> (u' = u \/ covers m u' u) ->
                (v' = v \/ (covers m v' v /\ K v = true)) -> ideal_step m L K u v.

(** A name that reaches the target: equal to it or matched by it. *)
Definition hits (m : option imatcher) (x target : string) : Prop :=
  x = target \/ exists mm, m = Some mm /\ Match mm x target = true.

(** ** Side conditions *)
Definition plain (s : string) : Prop := has_char "$" s = false.

Definition call_names (c : rcall) : list string :=
  match c with
  | RAdd a b _ | RDel a b _ | RHas a b => [a; b]
  | RRoles a | RUsers a => [a]
  | RClear => []
  end.
Definition mentioned (h : list (order * rcall)) : list string :=
  flat_map (fun c => call_names (snd c)) h.

Definition is_query (c : rcall) : Prop :=
  match c with RHas _ _ | RRoles _ | RUsers _ => True | _ => False end.

Definition unflagged (c : rcall) : Prop :=
  match c with RAdd _ _ ds | RDel _ _ ds => is_redundant ds = false | _ => True end.

(** An iteration order visits every key once. *)
Definition good_order (ord : order) : Prop := forall l, Permutation (ord l) l.
Definition good (h : list (order * rcall)) : Prop := Forall (fun c => good_order (fst c)) h.

(** No pattern in the list stands for another pattern in the list. *)
Definition patterns_apart (m : imatcher) (names : list string) : Prop :=
  forall p q, In p names -> In q names -> IsPattern m q = true -> ~ covers m p q.

(** Same answer; lists of names as sets. *)
Definition same_answer (x y : answer) : Prop :=
  match x, y with
  | ABool a, ABool b => a = b
  | ANames a, ANames b => forall n, In n a <-> In n b
  | AUnit, AUnit => True
  | _, _ => False
  end.
