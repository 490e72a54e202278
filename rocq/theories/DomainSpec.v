(** What domains mean.  Independent of the tree of managers: a domain list
    leads to a place, and every place behaves like a role manager of its own. *)
From Verif Require Import GoBase PolicyM PathM RbacM RbacSpec DomainM.

(** Names the domain manager treats specially. *)
Definition reserved (d : string) : Prop := d = defaultDomain \/ d = REDUNDANT_ROLE.
Definition unreserved (ds : list string) : Prop := Forall (fun d => ~ reserved d) ds.

(** The domain list of a call. *)
Definition call_domains (c : dcall) : option (list string) :=
  match c with
  | DAdd _ _ ds | DDel _ _ ds | DHas _ _ ds | DRoles _ ds | DUsers _ ds => Some ds
  | DClear => None
  end.

(** The same call on a role manager that knows no domains. *)
Definition without_domains (c : dcall) : rcall :=
  match c with
  | DAdd a b _ => RAdd a b []
  | DDel a b _ => RDel a b []
  | DHas a b _ => RHas a b
  | DRoles a _ => RRoles a
  | DUsers a _ => RUsers a
  | DClear => RClear
  end.

Definition path_eqb (p q : list string) : bool := if list_eq_dec string_dec p q then true else false.

(** The calls of a history that concern domain [p]; Clear concerns all. *)
Definition concerns (p : list string) (c : dcall) : bool :=
  match call_domains c with Some ds => path_eqb ds p | None => true end.
Definition calls_in (p : list string) (h : list (order * dcall)) : list (order * rcall) :=
  map (fun c => (fst c, without_domains (snd c))) (filter (fun c => concerns p (snd c)) h).
(** The answers that were given to those calls. *)
Definition answers_in (p : list string) (h : list (order * dcall)) (xs : list answer) : list answer :=
  map snd (filter (fun cx => concerns p (snd (fst cx))) (combine h xs)).

(** All calls use unreserved domain names. *)
Definition ordinary (h : list (order * dcall)) : Prop :=
  Forall (fun c => match call_domains (snd c) with Some ds => unreserved ds | None => True end) h.

Definition good_d (h : list (order * dcall)) : Prop := Forall (fun c => good_order (fst c)) h.
Definition mentioned_d (h : list (order * dcall)) : list string :=
  flat_map (fun c => call_names (without_domains (snd c))) h.
Definition is_dquery (c : dcall) : Prop :=
  match c with DHas _ _ _ | DRoles _ _ | DUsers _ _ => True | _ => False end.

(** Names are unproblematic for the role matcher (see C30). *)
Definition fine (m : option imatcher) (n : string) : Prop := match m with None => True | Some _ => plain n end.

(** A domain manager with role matcher [m] and domain matcher [dm], as made by
    NewDomainManager, SetMatcher and SetDomainMatcher. *)
Definition domains_with (level : Z) (m dm : option imatcher) : irm :=
  IDom (mkDM [] [] level m dm (CacheM.NewLRUCache 100)).

(** Renaming domains. *)
Definition rename (f : string -> string) (c : dcall) : dcall :=
  match c with
  | DAdd a b ds => DAdd a b (map f ds)
  | DDel a b ds => DDel a b (map f ds)
  | DHas a b ds => DHas a b (map f ds)
  | DRoles a ds => DRoles a (map f ds)
  | DUsers a ds => DUsers a (map f ds)
  | DClear => DClear
  end.

(** ** Domain patterns *)

(** The link [a -> b] was added in domain [k] at some time. *)
Definition added_link (h : list (order * dcall)) (a b k : string) : Prop :=
  exists ord, In (ord, DAdd a b [k]) h.

(** What should be effective in domain [d]: the links added in [d] and those
    added in a pattern domain that covers [d]. *)
Definition effective (dm : imatcher) (h : list (order * dcall)) (d a b : string) : Prop :=
  exists k, added_link h a b k /\ (k = d \/ covers dm k d).

(** Each call names exactly one domain, as the rules of a g section with three
    fields do; links are only added; queries ask about ordinary domains. *)
Definition one_domain (c : dcall) : Prop :=
  match call_domains c with Some ds => exists d, ds = [d] | None => False end.
Definition add_only (dm : imatcher) (c : dcall) : Prop :=
  match c with
  | DAdd _ _ [d] => True
  | DHas _ _ [d] | DRoles _ [d] | DUsers _ [d] => IsPattern dm d = false
  | _ => False
  end.
Definition domains_of (h : list (order * dcall)) : list string :=
  flat_map (fun c => match call_domains (snd c) with Some ds => ds | None => [] end) h.

(** ** Where a domain list leads

    With reserved names: [defaultDomain] ends the list (what follows is passed to
    the role manager, which only looks for the redundancy flag), and so does the
    redundancy flag itself. *)
Fixpoint place (ds : list string) : list string * list string :=
  match ds with
  | [] => ([], [])
  | d :: rest =>
      if String.eqb d REDUNDANT_ROLE then ([], [REDUNDANT_ROLE])
      else if String.eqb d defaultDomain then ([], rest)
      else (d :: fst (place rest), snd (place rest))
  end.

Definition translate (c : dcall) : rcall :=
  match c with
  | DAdd a b ds => RAdd a b (snd (place ds))
  | DDel a b ds => RDel a b (snd (place ds))
  | DHas a b _ => RHas a b
  | DRoles a _ => RRoles a
  | DUsers a _ => RUsers a
  | DClear => RClear
  end.
Definition leads (p : list string) (c : dcall) : bool :=
  match call_domains c with Some ds => path_eqb (fst (place ds)) p | None => true end.

(** The calls that lead to place [p], and their answers. *)
Definition calls_at (p : list string) (h : list (order * dcall)) : list (order * rcall) :=
  map (fun c => (fst c, translate (snd c))) (filter (fun c => leads p (snd c)) h).
Definition answers_at (p : list string) (h : list (order * dcall)) (xs : list answer) : list answer :=
  map snd (filter (fun cx => leads p (snd (fst cx))) (combine h xs)).
