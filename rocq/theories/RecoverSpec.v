(** What survives recovered panics.  [isp n]: the name [n] is a pattern;
    [bad p]: the matching function panics when [p] is the pattern. *)
From Verif Require Import GoBase PathM RbacM RbacSpec.

Section Bad.
  Context (isp bad : string -> bool) (matches : string -> string -> bool).

  (** Looking up a name the manager does not know matches it against the known
      names: a malformed pattern panics as soon as there is another name, any
      other name panics as soon as a malformed pattern is known. *)
  Definition panics_on (known : list string) (n : string) : bool :=
    if isp n then bad n && match known with [] => false | _ => true end
    else existsb (fun p => isp p && bad p) known.

  (** Look up [n]: the names known afterwards and whether it panicked.  The name
      stays known either way. *)
  Definition look (known : list string) (n : string) : list string * bool :=
    if sin n known then (known, false) else (n :: known, panics_on known n).

  Definition look2 (known : list string) (a b : string) : list string * bool :=
    let (k, p) := look known a in if p then (k, true) else look k b.

  (** A query that returns forgets the names it looked up, one that panics in a
      look-up does not. *)
  Definition names_after (known : list string) (c : rcall) : list string * bool :=
    match c with
    | RAdd a b _ | RDel a b _ => look2 known a b
    | RRoles a | RUsers a => let (k, p) := look known a in (if p then k else known, p)
    | RHas a b =>
        if String.eqb a b then (known, false)
        else if bad b then (known, true)
        else if matches a b then (known, false)
        else let (k, p) := look2 known a b in (if p then k else known, p)
    | RClear => ([], false)
    end.

  Fixpoint expected_panics (known : list string) (h : list (order * rcall)) : list bool :=
    match h with
    | [] => []
    | (_, c) :: h' => let (k, p) := names_after known c in p :: expected_panics k h'
    end.
End Bad.

(** The links of the calls that returned. *)
Definition returned_links (h : list (order * rcall)) (xs : list (option answer)) : linkset :=
  fold_left (fun L cx => match snd cx with Some _ => links_step L (snd (fst cx)) | None => L end)
            (combine h xs) no_links.

Definition panicked (x : option answer) : bool := match x with None => true | Some _ => false end.
