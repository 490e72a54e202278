(** What calls on a role manager that run at the same time are meant to do.

    Calls come in phases: the calls of a phase run at the same time, a phase
    begins when all calls of the phase before it have returned. *)
From Verif Require Import GoBase RbacSpec SyncRoleM.
Local Open Scope list_scope.

(** The links a phase adds and deletes, and the names it does so with. *)
Definition adds (ops : list rop) : linkset :=
  fun a b => existsb (fun o => match o with OAdd x y => String.eqb a x && String.eqb b y | _ => false end) ops.
Definition dels (ops : list rop) : linkset :=
  fun a b => existsb (fun o => match o with ODel x y => String.eqb a x && String.eqb b y | _ => false end) ops.
Definition op_names (o : rop) : list string :=
  match o with OAdd a b | ODel a b | OHas a b => [a; b] | ORoles a | OUsers a => [a] end.
Definition mentions (n : string) (o : rop) : bool := sin n (op_names o).
Definition updates (o : rop) : bool := match o with OAdd _ _ | ODel _ _ => true | _ => false end.
Definition updated (ops : list rop) : nameset := fun n => existsb (fun o => updates o && mentions n o) ops.

(** The links and names after phases: a name is known once a link from or to it
    was added or deleted. *)
Definition phase_links (L : linkset) (ops : list rop) : linkset := fun a b => (L a b || adds ops a b) && negb (dels ops a b).
Definition links_after (h : list (list rop)) : linkset := fold_left phase_links h no_links.
Definition known_after (h : list (list rop)) : nameset := fun n => existsb (fun ops => updated ops n) h.

(** A phase whose calls keep out of each other's way: no link is both added and
    deleted, and a name that is not known yet is mentioned by one call only, or by
    queries only. *)
Definition tidy (K : nameset) (ops : list rop) : Prop :=
  (forall a b, adds ops a b = true -> dels ops a b = false) /\
  (forall n, K n = false ->
     (forall o, In o ops -> mentions n o = true -> updates o = false) \/
     (forall i j oi oj, nth_error ops i = Some oi -> nth_error ops j = Some oj ->
        mentions n oi = true -> mentions n oj = true -> i = j)).
Fixpoint all_tidy (K : nameset) (h : list (list rop)) : Prop :=
  match h with
  | [] => True
  | ops :: h' => tidy K ops /\ all_tidy (fun n => K n || updated ops n) h'
  end.

(** Links that are there throughout the phase, and links that are there at some
    moment of it. *)
Definition throughout (L : linkset) (ops : list rop) : linkset := fun a b => L a b && negb (dels ops a b).
Definition sometime (L : linkset) (ops : list rop) : linkset := fun a b => L a b || adds ops a b.

(** [a] inherits [b]: the same name, or a chain of links shorter than [level]. *)
Definition inherits (level : nat) (L : linkset) (a b : string) : Prop :=
  a = b \/ exists n, n < level /\ chain (edge L) n a b.

(** The answer of call number [i] of a phase that began with the links [L]. *)
Definition answer_fits (level : nat) (L : linkset) (ops : list rop) (i : nat) (y : ans) : Prop :=
  match nth_error ops i, y with
  | Some (OAdd a b), YBool x =>
      (L a b = true -> x = false) /\
      ((forall j, nth_error ops j = Some (OAdd a b) -> j = i) -> x = negb (L a b))
  | Some (ODel a b), YBool x =>
      (L a b = false -> x = false) /\
      ((forall j, nth_error ops j = Some (ODel a b) -> j = i) -> x = L a b)
  | Some (OHas a b), YBool x =>
      (inherits level (throughout L ops) a b -> x = true) /\ (x = true -> inherits level (sometime L ops) a b)
  | Some (ORoles a), YNames l =>
      NoDup l /\ forall b, (throughout L ops a b = true -> In b l) /\ (In b l -> sometime L ops a b = true)
  | Some (OUsers a), YNames l =>
      NoDup l /\ forall b, (throughout L ops b a = true -> In b l) /\ (In b l -> sometime L ops b a = true)
  | _, _ => False
  end.
