(** Patterns in a manager with domains, as names and as domains: the links a
    history of calls leaves and what follows from them. *)
From Verif Require Import GoBase DefsM PolicyM PathM RbacM RbacSpec DomainM DomainSpec PatternsM PatternsSpec ModelM ModelSpec MultiSpec LogicSpec RoleAccessM RoleAccessSpec.

Definition rhistory : Type := list (order * role_call).

(** The calls before and after the domain matcher is set, and the matcher. *)
Fixpoint before_dm (l : rhistory) : rhistory :=
  match l with
  | [] => []
  | (o, c) :: l' => match c with RCSetDomainMatcher _ => [] | _ => (o, c) :: before_dm l' end
  end.
Fixpoint after_dm (l : rhistory) : rhistory :=
  match l with
  | [] => []
  | (o, c) :: l' => match c with RCSetDomainMatcher _ => l' | _ => after_dm l' end
  end.
Fixpoint dm_of (l : rhistory) : option imatcher :=
  match l with
  | [] => None
  | (o, c) :: l' => match c with RCSetDomainMatcher m => m | _ => dm_of l' end
  end.

(** The links of the domain list [ds]: those its own calls leave (C33).  Under a
    domain matcher, of the domain [d]: the links present in [d] and in every pattern
    that covers [d] (C35, C37). *)
Definition link_in (l : rhistory) (ds : list string) (u v : string) : Prop :=
  match dm_of l with
  | None => links_of (calls_in ds (dcalls l)) u v = true
  | Some dm => exists d k, ds = [d] /\
      (links_of (calls_in [k] (dcalls (before_dm l))) u v = true \/ added_link (dcalls (after_dm l)) u v k) /\
      (k = d \/ RbacSpec.covers dm k d)
  end.
(** The role matcher in force. *)
Definition names_matcher (l : rhistory) : option imatcher := pmatcher_of (pcalls l).

(** A name steps along its own links and along those of the patterns that stand
    for it; the bound is ten steps, less one for every manager on the way. *)
Definition nstep (m : option imatcher) (R : string -> string -> Prop) (u v : string) : Prop :=
  exists p, R p v /\ (p = u \/ exists mm, m = Some mm /\ RbacSpec.covers mm p u).
Definition joined_in (l : rhistory) (a b : string) (ds : list string) : Prop :=
  let m := names_matcher l in
  hits m a b \/
  exists n y, n + List.length ds <= 8 /\ chain (nstep m (link_in l ds)) n a y /\ hits m y b.

(** ** Side conditions *)

(** Matchers for names are set at any time before the domain matcher, which is set
    at most once; from then on links are only added (C36).  With a domain matcher
    every call names one domain. *)
Definition early_call (c : role_call) : Prop :=
  match c with
  | RC c => match call_domains c with Some ds => unreserved ds | None => True end
  | RCSetMatcher _ => True
  | RCSetDomainMatcher _ => False
  end.
Definition one_each (c : role_call) : Prop :=
  match c with
  | RC c => match call_domains c with Some ds => exists d, ds = [d] | None => True end
  | _ => True
  end.
(** Domains hold no dollar sign and are not reserved, and no pattern covers
    another (C35). *)
Definition names_apart (dm : imatcher) (names : list string) : Prop :=
  (forall n, In n names -> plain n) /\ unreserved names /\ patterns_apart dm names.
Definition domains_fit (l : rhistory) : Prop :=
  Forall (fun c => good_order (fst c)) l /\
  (matcher_used (pcalls l) -> forall n, In n (pnames (pcalls l)) -> plain n) /\
  Forall (fun c => early_call (snd c)) (before_dm l) /\
  ((forall m, ~ In (RCSetDomainMatcher m) (map snd l)) \/
   exists dm, dm_of l = Some dm /\ IsPattern dm defaultDomain = false /\ names_apart dm (domains_of (dcalls l)) /\
     Forall (fun c => one_each (snd c)) (before_dm l) /\
     Forall (fun c => exists dc, snd c = RC dc /\ add_only dm dc) (after_dm l)).
(** What is asked: with a domain matcher about one domain that is not a pattern. *)
Definition ask_fits (l : rhistory) (a b : string) (ds : list string) : Prop :=
  (matcher_used (pcalls l) -> plain a /\ plain b) /\ unreserved ds /\
  ordinary_name (names_matcher l) a /\
  (forall u v, link_in l ds u v -> ordinary_name (names_matcher l) v) /\
  match dm_of l with
  | None => True
  | Some dm => exists d, ds = [d] /\ IsPattern dm d = false /\
      names_apart dm (d :: domains_of (dcalls l))
  end.

(** ** Files

    Every grouping section of a file, told of rules and used directly. *)
Definition section_fit (gk gt : string) (h : xhistory) : Prop :=
  let l := section_calls gk h in
  if Nat.eqb (rd_nargs (NewRoleDef gk gt)) 2
  then Forall (fun c => good_order (fst c) /\ match snd c with RC c => unflagged (direct c) | _ => True end) l /\
       (matcher_used (pcalls l) -> forall n, In n (pnames (pcalls l)) -> plain n)
  else domains_fit l.
Definition section_joins (h : xhistory) (gk gt a b : string) (ds : list string) : Prop :=
  let l := section_calls gk h in
  if Nat.eqb (rd_nargs (NewRoleDef gk gt)) 2
  then reached_by (pmatcher_of (pcalls l)) (plinks_of (pcalls l)) 10 a b
  else joined_in l a b ds.
Definition section_asked (h : xhistory) (gk gt a b : string) (ds : list string) : Prop :=
  let l := section_calls gk h in
  if Nat.eqb (rd_nargs (NewRoleDef gk gt)) 2
  then (matcher_used (pcalls l) -> plain a /\ plain b) /\
       ordinary_name (pmatcher_of (pcalls l)) a /\ roles_ordinary (pmatcher_of (pcalls l)) (plinks_of (pcalls l))
  else ask_fits l a b ds.

(** A call in a matcher is true, and has an answer. *)
Definition pattern_holds (E : env) (d : deflist) (h : xhistory) (f : string) (us : list string) : Prop :=
  (exists gt a b ds, In (G_SEC, f, gt) d /\ us = a :: b :: ds /\ section_joins h f gt a b ds) \/
  (~ is_group d f /\ exists g, mget f (e_builtins E) = Some g /\ g (map VStr us) = Val (inl (VBool true))).
Definition pattern_defined (E : env) (d : deflist) (h : xhistory) (f : string) (us : list string) : Prop :=
  (exists gt a b ds, In (G_SEC, f, gt) d /\ us = a :: b :: ds /\ section_asked h f gt a b ds) \/
  (~ is_group d f /\ exists g v, mget f (e_builtins E) = Some g /\ g (map VStr us) = Val (inl (VBool v))).
