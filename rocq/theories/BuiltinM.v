(** Model of the functions a matcher can call without being given any
    (util/builtin_operators.go, model/fm/function.go, model/fm/global.go).

    The path functions are in PathM.v.  [regexp.MatchString] and [path.Match] are
    parameters; of package net the IPv4 parser, [ParseCIDR], [CIDRMask], [Mask],
    [To4], [Contains] and [Equal] are modelled after the Go source (1.17), the
    IPv6 parser is a parameter. *)
From Verif Require Import GoBase DefsM PathM ModelM.
From Coq Require Import NArith.

(** ** External functions *)

(** [l_regex pattern s]: [regexp.MatchString], [None] if the pattern does not
    compile.  [l_glob pattern s]: [path.Match], [None] if the pattern is
    malformed.  [l_ip6]: [net.parseIPv6], sixteen bytes. *)
Record lib : Type := mkLib {
  l_regex : string -> string -> option bool;
  l_glob : string -> string -> option bool;
  l_ip6 : string -> option (list N)
}.

(** ** Package net *)
Local Open Scope N_scope.

Definition is_digit (c : ascii) : bool := let n := N_of_ascii c in (48 <=? n) && (n <=? 57).
(** net/parse.go [dtoi]: the leading decimal digits as a number, and what
    follows; fails without a digit and from 0xFFFFFF on. *)
Definition big : N := 16777215.
Fixpoint dtoi_loop (n : N) (s : string) : option (N * string) :=
  match s with
  | String c s' =>
      if is_digit c then
        let n := n * 10 + (N_of_ascii c - 48) in
        if big <=? n then None else dtoi_loop n s'
      else Some (n, s)
  | EmptyString => Some (n, s)
  end.
Definition dtoi (s : string) : option (N * string) :=
  match s with
  | String c _ => if is_digit c then dtoi_loop 0 s else None
  | EmptyString => None
  end.

(** net/ip.go [parseIPv4]: one number of at most 255, without leading zeros. *)
Definition octet (s : string) : option (N * string) :=
  match dtoi s with
  | None => None
  | Some (n, rest) =>
      if 255 <? n then None
      else if (1 <? N.of_nat (String.length s - String.length rest)) && match first_byte s with Some c => Ascii.eqb c "0" | None => false end
      then None else Some (n, rest)
  end.
Fixpoint octets (i : nat) (s : string) : option (list N * string) :=
  match i with
  | O => Some ([], s)
  | S i' =>
      match s with
      | String "."%char s' =>
          match octet s' with
          | None => None
          | Some (n, rest) => match octets i' rest with None => None | Some (l, rest) => Some (n :: l, rest) end
          end
      | _ => None
      end
  end.
(** net/ip.go [IPv4]: the sixteen-byte form. *)
Definition v4InV6Prefix : list N := [0; 0; 0; 0; 0; 0; 0; 0; 0; 0; 255; 255].
Definition parseIPv4 (s : string) : option (list N) :=
  match octet s with
  | None => None
  | Some (a, rest) =>
      match octets 3 rest with
      | Some (l, EmptyString) => Some (v4InV6Prefix ++ a :: l)
      | _ => None
      end
  end.

(** net/ip.go [ParseIP]: the first dot or colon decides. *)
Fixpoint which (s : string) : option ascii :=
  match s with
  | EmptyString => None
  | String c s' => if Ascii.eqb c "." || Ascii.eqb c ":" then Some c else which s'
  end.
Definition ParseIP (L : lib) (s : string) : option (list N) :=
  match which s with
  | Some "."%char => parseIPv4 s
  | Some _ => l_ip6 L s
  | None => None
  end.

(** net/ip.go [CIDRMask], for a mask of [len] bytes. *)
Fixpoint CIDRMask (n : N) (len : nat) : list N :=
  match len with
  | O => []
  | S len' => if 8 <=? n then 255 :: CIDRMask (n - 8) len' else (255 - N.shiftr 255 n) :: CIDRMask 0 len'
  end.

Fixpoint bytes_eqb (a b : list N) : bool :=
  match a, b with
  | [], [] => true
  | x :: a', y :: b' => (x =? y) && bytes_eqb a' b'
  | _, _ => false
  end.
(** net/ip.go [To4]. *)
Definition To4 (ip : list N) : option (list N) :=
  if Nat.eqb (List.length ip) 4 then Some ip
  else if Nat.eqb (List.length ip) 16 && bytes_eqb (firstn 12 ip) v4InV6Prefix then Some (skipn 12 ip)
  else None.
Fixpoint land_bytes (a b : list N) : list N :=
  match a, b with
  | x :: a', y :: b' => N.land x y :: land_bytes a' b'
  | _, _ => []
  end.
(** net/ip.go [IP.Mask], for the lengths that occur: an address of sixteen bytes
    and a mask of four or sixteen. *)
Definition MaskIP (ip m : list N) : list N :=
  let ip := if Nat.eqb (List.length m) 4 && bytes_eqb (firstn 12 ip) v4InV6Prefix then skipn 12 ip else ip in
  if Nat.eqb (List.length ip) (List.length m) then land_bytes ip m else [].

(** net/ip.go [ParseCIDR]: network address and mask.  The text is cut at the
    first slash. *)
Definition ParseCIDR (L : lib) (s : string) : option (list N * list N) :=
  match cut "/" s with
  | None => None
  | Some (addr, mask) =>
      let (iplen, ip) := match parseIPv4 addr with Some ip => (4%nat, Some ip) | None => (16%nat, l_ip6 L addr) end in
      match ip, dtoi mask with
      | Some ip, Some (n, EmptyString) =>
          if 8 * N.of_nat iplen <? n then None
          else let m := CIDRMask n iplen in Some (MaskIP ip m, m)
      | _, _ => None
      end
  end.

(** net/ip.go [networkNumberAndMask] and [Contains]. *)
Definition networkNumberAndMask (ip m : list N) : list N * list N :=
  match (match To4 ip with Some x => Some x | None => if Nat.eqb (List.length ip) 16 then Some ip else None end) with
  | None => ([], [])
  | Some x =>
      if Nat.eqb (List.length m) 4 then if Nat.eqb (List.length x) 4 then (x, m) else ([], [])
      else if Nat.eqb (List.length m) 16 then if Nat.eqb (List.length x) 4 then (x, skipn 12 m) else (x, m)
      else ([], [])
  end.
Definition Contains (net : list N * list N) (ip : list N) : bool :=
  let (nn, m) := networkNumberAndMask (fst net) (snd net) in
  let ip := match To4 ip with Some x => x | None => ip end in
  Nat.eqb (List.length ip) (List.length nn) && bytes_eqb (land_bytes nn m) (land_bytes ip m).
Local Close Scope N_scope.

(** ** util/builtin_operators.go *)

(** builtin_operators.go:73-86 [ValidateVariadicArgs]: [true] means no error. *)
Definition is_str (v : value) : bool := match v with VStr _ => true | _ => false end.
Definition ValidateVariadicArgs (expectedLen : nat) (args : list value) : bool :=
  Nat.eqb (List.length args) expectedLen && forallb is_str args.

(** builtin_operators.go:88-95 [RegexMatch]. *)
Definition RegexMatch (L : lib) (key1 key2 : string) : outcome bool :=
  match l_regex L key2 key1 with Some b => Val b | None => Panic end.

(** builtin_operators.go:99-116 [IPMatch].  Addresses from [ParseIP] have sixteen
    bytes, so [Equal] compares the bytes. *)
Definition IPMatch (L : lib) (ip1 ip2 : string) : outcome bool :=
  match ParseIP L ip1 with
  | None => Panic
  | Some a =>
      match ParseCIDR L ip2 with
      | Some net => Val (Contains net a)
      | None => match ParseIP L ip2 with
                | None => Panic
                | Some b => Val (bytes_eqb a b)
                end
      end
  end.

(** builtin_operators.go:135-149 [WrapMatchingFunc]: the index expressions and
    type assertions follow the check. *)
Definition two_strings (args : list value) : outcome (string * string) :=
  match args with VStr a :: VStr b :: _ => Val (a, b) | _ => Panic end.
Definition WrapMatchingFunc (fn : string -> string -> outcome bool) : gofn := fun args =>
  if ValidateVariadicArgs 2 args
  then let! (a, b) := two_strings args in let! r := fn a b in Val (inl (VBool r))
  else Val (inr ErrArgs).

(** builtin_operators.go:118-133 [GlobMatch] and [GlobMatchFunc]. *)
Definition GlobMatchFunc (L : lib) : gofn := fun args =>
  if ValidateVariadicArgs 2 args
  then let! (a, b) := two_strings args in
       match l_glob L b a with Some r => Val (inl (VBool r)) | None => Val (inr ErrEval) end
  else Val (inr ErrArgs).

(** builtin_operators.go:227-230. *)
Definition PathMatchFunc : gofn := WrapMatchingFunc (fun a b => Val (PathMatch a b)).
Definition PathMatchFunc2 : gofn := WrapMatchingFunc (fun a b => Val (PathMatch2 a b)).
Definition RegexMatchFunc (L : lib) : gofn := WrapMatchingFunc (RegexMatch L).
Definition IPMatchFunc (L : lib) : gofn := WrapMatchingFunc (IPMatch L).

(** ** model/fm *)

(** function.go:34-51 [DefaultFunctionMap]; the functions registered with
    [fm.SetFunction] (global.go) are given as the sequence of those calls.  The
    function "eval" returns nil (here an object), it is replaced while a matcher
    is evaluated. *)
Definition builtins (L : lib) : list (string * gofn) :=
  [("eval", fun _ => Val (inl (VObj 0))); ("pathMatch", PathMatchFunc); ("pathMatch2", PathMatchFunc2);
   ("regexMatch", RegexMatchFunc L); ("ipMatch", IPMatchFunc L); ("globMatch", GlobMatchFunc L)]%string.
Definition set_all (fs : list (string * gofn)) (m : smap gofn) : smap gofn := fold_left (fun m '(k, f) => mput k f m) fs m.
Definition global_map (calls : list (string * gofn)) : smap gofn := set_all calls [].
Definition DefaultFunctionMap (L : lib) (ord : smap gofn -> smap gofn) (global : smap gofn) : smap gofn :=
  set_all (ord global) (set_all (builtins L) []).
