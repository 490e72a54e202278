(** Model of the path matching part of util/builtin_operators.go. *)
From Verif Require Import GoBase DefsM.

(** builtin_operators.go:30-35 [IMatcher]: how a role or domain matcher looks to
    its user. *)
Record imatcher : Type := mkMatcher {
  IsPattern : string -> bool;
  Match : string -> string -> bool      (* [Match str pattern] *)
}.

(** builtin_operators.go:37-51 [Matcher] and [NewMatcher]. *)
Definition NewMatcher (isPatternFn : string -> bool) (matchFn : string -> string -> bool) : imatcher :=
  mkMatcher isPatternFn matchFn.

(** builtin_operators.go:53-70 [PrefixMatcher]. *)
Definition NewPrefixMatcher (prefix : string) (matchFn : string -> string -> bool) : imatcher :=
  mkMatcher (fun s => has_prefix s prefix)
            (fun s pattern => if has_prefix pattern prefix
                              then matchFn s (drop (String.length prefix) pattern) else false).

(** [strings.Index(path, sep)] followed by the two slices, for a one-byte
    separator (fastac only passes "/"). *)
Fixpoint cut (sep : ascii) (s : string) : option (string * string) :=
  match s with
  | EmptyString => None
  | String c s' =>
      if Ascii.eqb c sep then Some (EmptyString, s')
      else match cut sep s' with
           | None => None
           | Some (a, b) => Some (String c a, b)
           end
  end.

(** builtin_operators.go:151-157 [nextSegment]: (segment, remaining, last). *)
Definition nextSegment (path : string) (sep : ascii) : string * string * bool :=
  match cut sep path with
  | None => (path, ""%string, true)
  | Some (seg, rest) => (seg, rest, false)
  end.

(** Last byte of a string. *)
Fixpoint last_byte (s : string) : option ascii :=
  match s with
  | EmptyString => None
  | String c s' => match s' with EmptyString => Some c | _ => last_byte s' end
  end.

Definition byte_is (o : option ascii) (c : ascii) : bool :=
  match o with Some d => Ascii.eqb d c | None => false end.

(** builtin_operators.go:159-166 [isDynamicSegment]; byte 0 stands for "none". *)
Definition isDynamicSegment (segment : string) (prefix suffix : ascii) : bool :=
  if Nat.eqb (String.length segment) 0 then false
  else (Ascii.eqb prefix zero || byte_is (first_byte segment) prefix) &&
       (Ascii.eqb suffix zero || byte_is (last_byte segment) suffix).

(** builtin_operators.go:168-192 [PathMatchHelper].  The Go function recurses on
    ever shorter paths; the model recurses on [fuel].  [PathP.pm_fuel] shows that
    the fuel used below is never exhausted. *)
Fixpoint PathMatchHelper (fuel : nat) (path pattern : string) (sep prefix suffix : ascii) : bool :=
  match fuel with
  | O => false
  | S f =>
      if String.eqb path pattern || String.eqb pattern "*" then true
      else
        let '(pathS, path, lastPathSeg) := nextSegment path sep in
        let '(patternS, pattern, lastPatternSeg) := nextSegment pattern sep in
        if String.eqb pathS patternS || isDynamicSegment patternS prefix suffix then
          if negb (Bool.eqb lastPathSeg lastPatternSeg) then false
          else PathMatchHelper f path pattern sep prefix suffix
        else if String.eqb patternS "*" then
          if negb lastPatternSeg && lastPathSeg then false
          else PathMatchHelper f path pattern sep prefix suffix ||
               PathMatchHelper f path ("*" ++ String sep pattern) sep prefix suffix
        else false
  end.

Definition pm_enough (path : string) : nat := S (S (String.length path)).

(** builtin_operators.go:211-217 [PathMatch], [PathMatch2]. *)
Definition PathMatch (path pattern : string) : bool :=
  PathMatchHelper (pm_enough path) path pattern "/" ":" zero.
Definition PathMatch2 (path pattern : string) : bool :=
  PathMatchHelper (pm_enough path) path pattern "/" "{" "}".

(** builtin_operators.go:194-209 [IsPathPatternHelper]. *)
Definition IsPathPatternHelper (pattern : string) (sep prefix suffix : ascii) : bool :=
  existsb (fun seg =>
    if Nat.eqb (String.length seg) 0 then false
    else if String.eqb seg "*" then true
    else (Ascii.eqb prefix zero || byte_is (first_byte seg) prefix) &&
         (Ascii.eqb suffix zero || byte_is (last_byte seg) suffix))
    (split_char sep pattern).

(** builtin_operators.go:219-225 [IsPathPattern], [IsPathPattern2]. *)
Definition IsPathPattern (path : string) : bool := IsPathPatternHelper path "/" ":" zero.
Definition IsPathPattern2 (path : string) : bool := IsPathPatternHelper path "/" "{" "}".

(** builtin_operators.go:234-235 [PathMatcher], [PathMatcher2]. *)
Definition PathMatcher : imatcher := NewMatcher IsPathPattern PathMatch.
Definition PathMatcher2 : imatcher := NewMatcher IsPathPattern2 PathMatch2.
