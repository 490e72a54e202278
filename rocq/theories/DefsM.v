(** Model of model/defs/defs.go, model/defs/util.go, model/eft and
    model/types. *)
From Verif Require Import GoBase.

(** ** Request values

    A request value is a Go [interface{}].  Strings are kept; every other
    value (struct, map, number, ...) is an opaque object. *)
Inductive value : Type :=
| VStr (s : string)
| VBool (b : bool)
| VObj (id : nat).

(** ** Effects: model/types/types.go:27-28, model/eft/eft.go:20-24. *)
Inductive effect : Type := Allow | Indeterminate | Deny.

Definition effect_eqb (a b : effect) : bool :=
  match a, b with
  | Allow, Allow | Indeterminate, Indeterminate | Deny, Deny => true
  | _, _ => false
  end.

(** ** Argument definitions

    PolicyDef (defs.go:39-54) and RequestDef (defs.go:117-136) have the same
    fields and constructor: a key, the argument names and an index from
    "key_arg" to the position of the argument. *)
Record argdef : Type := mkArgDef {
  ad_key : string;
  ad_args : list string;
  ad_index : smap nat
}.

(** defs.go:50-52 / 132-134: [for i, arg := range def.args
    { def.argIndex[key+"_"+arg] = i }]. *)
Fixpoint index_args (key : string) (i : nat) (args : list string) (m : smap nat) : smap nat :=
  match args with
  | [] => m
  | a :: args' => index_args key (S i) args' (mput (key ++ "_" ++ a)%string i m)
  end.

(** defs.go:45-54 [NewPolicyDef] and 127-136 [NewRequestDef]. *)
Definition NewArgDef (key arguments : string) : argdef :=
  let args := split_char "," (no_spaces arguments) in
  mkArgDef key args (index_args key 0 args []).

Definition NewPolicyDef := NewArgDef.
Definition NewRequestDef := NewArgDef.

(** defs.go:64-67 and 138-141 [Has]. *)
Definition Has (d : argdef) (name : string) : bool := mhas name (ad_index d).

(** defs.go:85-99 [PolicyDef.GetParameter] and 143-156
    [RequestDef.GetParameter]; [None] is the returned error. *)
Definition GetParameter {A} (d : argdef) (vals : list A) (name : string) : option A :=
  match mget name (ad_index d) with
  | None => None
  | Some index =>
      let index := if Nat.ltb (List.length (ad_args d)) (List.length vals) then S index else index in
      nth_error vals index
  end.

(** defs.go:101-111 and 158-168 [GetParameters]. *)
Fixpoint GetParameters {A} (d : argdef) (vals : list A) (names : list string) : option (list A) :=
  match names with
  | [] => Some []
  | n :: ns => match GetParameter d vals n with
               | None => None
               | Some v => match GetParameters d vals ns with
                           | None => None
                           | Some vs => Some (v :: vs)
                           end
               end
  end.

(** defs.go:69-83 [GetEft]; the error of GetParameter is ignored, the value is
    then "". *)
Definition GetEft (d : argdef) (values : rule) : effect :=
  let eftArg := (ad_key d ++ "_eft")%string in
  if Has d eftArg then
    let eftStr := match GetParameter d values eftArg with Some s => s | None => ""%string end in
    if String.eqb eftStr "" then Allow
    else if String.eqb eftStr "allow" then Allow
    else if String.eqb eftStr "deny" then Deny
    else Indeterminate
  else Allow.

(** defs.go:113-115 and 170-172 [String]. *)
Definition argdef_String (d : argdef) : string :=
  (ad_key d ++ " = " ++ join ", " (ad_args d))%string.

(** defs.go:174-196: [EffectDef] is its key and its space-free text. *)
Record effdef : Type := mkEffDef { ed_key : string; ed_expr : string }.
Definition NewEffectDef (key expr : string) : effdef := mkEffDef key (no_spaces expr).
Definition effdef_String (d : effdef) : string := (ed_key d ++ " = " ++ ed_expr d)%string.

(** defs.go:198-224: [RoleDef]. *)
Record roledef : Type := mkRoleDef { rd_key : string; rd_nargs : nat }.
Definition NewRoleDef (key arguments : string) : roledef :=
  mkRoleDef key (List.length (split_char "," arguments)).
Definition roledef_String (d : roledef) : string :=
  (rd_key d ++ " = " ++ join "," (repeat "_"%string (rd_nargs d)))%string.

(** eft.go:26-30. *)
Definition SOME_ALLOW : string := "some(where(p.eft==allow))".
Definition NO_DENY : string := "!some(where(p.eft==deny))".
Definition SOME_ALLOW_NO_DENY : string := "some(where(p.eft==allow))&&!some(where(p.eft==deny))".

(** ** The argument regular expressions (defs.go:30-32)

    [match_arg heads seps s] is a match of [[heads][0-9]*[seps][A-Za-z0-9_]+]
    at the start of [s]: the head with its digits, the separator, the
    identifier and the rest of the text.  The three groups are greedy and none
    of them can give characters back, so there is no backtracking. *)
Definition in_range (lo hi c : ascii) : bool :=
  Nat.leb (nat_of_ascii lo) (nat_of_ascii c) && Nat.leb (nat_of_ascii c) (nat_of_ascii hi).
Definition is_digit (c : ascii) : bool := in_range "0" "9" c.
Definition is_ident (c : ascii) : bool :=
  in_range "A" "Z" c || in_range "a" "z" c || is_digit c || Ascii.eqb c "_".

Fixpoint span (f : ascii -> bool) (s : string) : string * string :=
  match s with
  | EmptyString => (EmptyString, EmptyString)
  | String c s' => if f c then let (a, b) := span f s' in (String c a, b) else (EmptyString, s)
  end.

Definition match_arg (heads seps : list ascii) (s : string)
    : option (string * string * string) :=
  match s with
  | String c s1 =>
      if existsb (Ascii.eqb c) heads then
        let (ds, s2) := span is_digit s1 in
        match s2 with
        | String sep s3 =>
            if existsb (Ascii.eqb sep) seps then
              let (id, s4) := span is_ident s3 in
              if String.eqb id "" then None else Some (String c ds, id, s4)
            else None
        | EmptyString => None
        end
      else None
  | EmptyString => None
  end.

(** [FindAllString(s, -1)]: the non-overlapping matches from left to right.
    [fuel] bounds the number of positions, the length of the text is enough. *)
Fixpoint find_args (fuel : nat) (heads seps : list ascii) (s : string) : list string :=
  match fuel with
  | O => []
  | S fuel' =>
      match s with
      | EmptyString => []
      | String c s' =>
          match match_arg heads seps s with
          | Some (k, id, rest) => (k ++ "_" ++ id)%string :: find_args fuel' heads seps rest
          | None => find_args fuel' heads seps s'
          end
      end
  end.

(** defs.go:31 [pArgReg.FindAllString] and 32 [rArgReg.FindAllString] as used
    in matcher_def.go:21-22. *)
Definition p_args (s : string) : list string :=
  find_args (String.length s) ["p"%char; "g"%char] ["_"%char] s.
Definition r_args (s : string) : list string :=
  find_args (String.length s) ["r"%char] ["_"%char] s.

(** defs.go:30 [ArgReg.ReplaceAllString(s, "${1}_${3}")]
    (matcher_def.go:188, matcher.go:252). *)
Fixpoint replace_args (fuel : nat) (s : string) : string :=
  match fuel with
  | O => s
  | S fuel' =>
      match s with
      | EmptyString => EmptyString
      | String c s' =>
          match match_arg ["p"%char; "r"%char; "g"%char] ["."%char; "_"%char] s with
          | Some (k, id, rest) => (k ++ "_" ++ id ++ replace_args fuel' rest)%string
          | None => String c (replace_args fuel' s')
          end
      end
  end.
Definition arg_replace (s : string) : string := replace_args (String.length s) s.

(** defs/util.go:10-16 [SplitKey]. *)
Definition SplitKey (key : string) : string * string :=
  match split_char "." key with
  | [] => (""%string, ""%string)   (* unreachable *)
  | [x] => (x, ""%string)
  | x :: xs => (x, join "." xs)
  end.
