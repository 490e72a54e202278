(** What calls on a domain manager that run at the same time are meant to do: the
    calls of a domain do what SyncRoleSpec says, and domains do not meet. *)
From Verif Require Import GoBase RbacSpec DomainSpec SyncRoleM SyncRoleSpec SyncDomainM.
Local Open Scope list_scope.

Definition same_domain (ds es : list string) : bool := if list_eq_dec string_dec ds es then true else false.
(** The calls in domain [ds]. *)
Definition in_domain (ds : list string) (ops : list dcall) : list rop :=
  map fst (filter (fun c => same_domain (snd c) ds) ops).

(** No call names one of the two reserved domains. *)
Definition plain_names (ops : list dcall) : Prop := forall o ds, In (o, ds) ops -> unreserved ds.

(** Domain [ds] is, or is below, domain [p]. *)
Definition below (p ds : list string) : Prop := exists rest, ds = p ++ rest.
(** Some call of the history updates a link in [ds], or below [p]. *)
Definition updates_in (h : list (list dcall)) (ds : list string) : Prop := exists ops o, In ops h /\ In (o, ds) ops /\ updates o = true.
Definition updates_below (h : list (list dcall)) (p : list string) : Prop := exists ds, below p ds /\ updates_in h ds.

(** A domain that is new in a phase is new for one AddLink or DeleteLink only,
    and so is a domain above others. *)
Definition one_update (P : list string -> Prop) (ops : list dcall) : Prop :=
  forall i j oi oj ds es, nth_error ops i = Some (oi, ds) -> nth_error ops j = Some (oj, es) ->
    updates oi = true -> updates oj = true -> P ds -> P es -> i = j.
Definition one_opens (h : list (list dcall)) (ops : list dcall) : Prop :=
  (forall ds, ~ updates_in h ds -> one_update (fun es => es = ds) ops) /\
  (forall p, p <> [] -> ~ updates_below h p -> one_update (below p) ops).

(** All of it, phase by phase: moreover the calls of each domain keep out of each
    other's way (SyncRoleSpec.tidy). *)
Definition orderly (h : list (list dcall)) : Prop :=
  (forall ops, In ops h -> plain_names ops) /\
  (forall i ops, nth_error h i = Some ops -> one_opens (firstn i h) ops) /\
  (forall ds, all_tidy no_names (map (in_domain ds) h)).

(** The answer [y] of call number [j], in domain [ds], of the phase [ops] after the
    phases [h]: it fits the links of its domain. *)
Definition domain_answer (level : nat) (h : list (list dcall)) (ops : list dcall) (j : nat) (y : ans) : Prop :=
  match nth_error ops j with
  | None => False
  | Some (_, ds) =>
      answer_fits (level - S (List.length ds)) (links_after (map (in_domain ds) h)) (in_domain ds ops)
        (List.length (in_domain ds (firstn j ops))) y
  end.
