(** Model of util/util.go (Hash, Join2D) and model/policy/. *)
From Verif Require Import GoBase.

(** util/util.go:29-31 [Hash] (DefaultSep is "," at util.go:9). *)
Definition Hash (r : rule) : string := join "," r.

(** util/util.go:11-17 [Join2D]. *)
Definition Join2D (elems : list rule) (sep : string) : list string :=
  fold_left (fun res elem => res ++ [join sep elem]) elems [].

(** model/policy/policy_api.go:9-13: the three event types.  The payload is
    the rule passed to EmitEvent (policy.go:44,55,73). *)
Inductive event : Type :=
| EvtAdded (r : rule)
| EvtRemoved (r : rule)
| EvtCleared.

(** model/policy/policy.go:23-36: [Policy] with its [ruleMap].  The emitter is
    represented by returning the emitted events; the embedded definition lives
    in DefsM. *)
Definition policy := smap rule.

(** policy.go:30-36 [NewPolicy]. *)
Definition NewPolicy : policy := [].

(** policy.go:38-46 [AddRule]. *)
Definition AddRule (p : policy) (r : rule) : policy * bool * list event :=
  let key := Hash r in
  match mget key p with
  | Some _ => (p, false, [])
  | None => (mput key r p, true, [EvtAdded r])
  end.

(** policy.go:48-57 [RemoveRule]. *)
Definition RemoveRule (p : policy) (r : rule) : policy * bool * list event :=
  let key := Hash r in
  match mget key p with
  | None => (p, false, [])
  | Some _ => (mdel key p, true, [EvtRemoved r])
  end.

(** policy.go:71-75 [Clear]. *)
Definition Clear (p : policy) : policy * list event := ([], [EvtCleared]).

(** policy.go:59-65 [Range].  [fn] is a callback with state [S]; the map is
    visited in the order given by [ord] (Go leaves the order unspecified).
    The boolean tells whether the loop ran to the end. *)
Fixpoint range_vals {S} (fn : S -> rule -> S * bool) (st : S) (l : list rule) : S * bool :=
  match l with
  | [] => (st, true)
  | r :: l' => match fn st r with
               | (st', true) => range_vals fn st' l'
               | (st', false) => (st', false)
               end
  end.

Definition Range {S} (ord : list rule -> list rule) (p : policy)
    (fn : S -> rule -> S * bool) (st : S) : S * bool :=
  range_vals fn st (ord (mvals p)).

(** policy_api.go:29-31: [values[i] = rule[column]], an index panic when the
    rule has no such column. *)
Fixpoint project (columns : list nat) (r : rule) : outcome rule :=
  match columns with
  | [] => Val []
  | c :: cs => match nth_error r c with
               | None => Panic
               | Some v => let! vs := project cs r in Val (v :: vs)
               end
  end.

(** policy_api.go:24-39 [GetDistinct].  The visiting order of both maps is
    left to [ord] (rules) and [ord'] (result). *)
Fixpoint distinct_loop (columns : list nat) (l : list rule) (res : smap rule)
    : outcome (smap rule) :=
  match l with
  | [] => Val res
  | r :: l' => let! values := project columns r in
               distinct_loop columns l' (mput (Hash values) values res)
  end.

Definition GetDistinct (ord ord' : list rule -> list rule) (p : policy) (columns : list nat)
    : outcome (list rule) :=
  let! res := distinct_loop columns (ord (mvals p)) [] in
  Val (ord' (mvals res)).

(** A history of calls on one policy object. *)
Inductive pop : Type := PAdd (r : rule) | PRemove (r : rule) | PClear.

Definition pstep (p : policy) (o : pop) : policy * bool * list event :=
  match o with
  | PAdd r => AddRule p r
  | PRemove r => RemoveRule p r
  | PClear => let (p', e) := Clear p in (p', true, e)
  end.

(** Run a history; collect the events in emission order. *)
Fixpoint pexec (p : policy) (h : list pop) : policy * list event :=
  match h with
  | [] => (p, [])
  | o :: h' => let '(p', _, e) := pstep p o in
               let (p'', e') := pexec p' h' in (p'', e ++ e')
  end.
