(** Shared base of the model: Go outcomes, maps, strings.

    Nothing in this file is specific to fastac; it fixes how the Go language
    constructs used by /repo are represented. *)
From Coq Require Export List String Ascii Arith ZArith Bool Lia Permutation.
Export ListNotations.
Open Scope string_scope.
Open Scope list_scope.

(** ** Panics

    A Go call either returns ([Val]) or panics ([Panic]).  A panic that nobody
    recovers ends the execution. *)
Inductive outcome (A : Type) : Type :=
| Val (a : A)
| Panic.
Arguments Val {A} a.
Arguments Panic {A}.

Definition obind {A B} (o : outcome A) (f : A -> outcome B) : outcome B :=
  match o with Val a => f a | Panic => Panic end.
Notation "'let!' x ':=' o 'in' e" := (obind o (fun x => e))
  (at level 200, x pattern, o at level 100, e at level 200).

(** Go errors.  Only the distinction the API exposes is kept (which kind of
    error), not the message text. *)
Inductive goerr : Type :=
| ErrPolicyNotFound     (* str/errors.go:21 *)
| ErrRMNotFound         (* str/errors.go:22 *)
| ErrMatcherNotFound    (* str/errors.go:20 *)
| ErrRequestDefNotFound (* str/errors.go:23 *)
| ErrInvalidSec         (* str/errors.go:18 *)
| ErrInvalidKeyPrefix   (* str/errors.go:19 *)
| ErrInvalidModel       (* str/errors.go:25 *)
| ErrUnsupportedEffect  (* model/effector/default_effector.go:51,78 *)
| ErrInvalidAdapter     (* storage/controller.go:181 *)
| ErrBuild              (* model/defs/matcher_def.go:173-194 *)
| ErrEval               (* error returned by the expression evaluator *)
| ErrAdapter            (* error returned by a storage adapter *)
| ErrIO                 (* error returned by the operating system *)
| ErrCsv                (* encoding/csv parse error *)
| ErrTooLong            (* bufio.ErrTooLong *)
| ErrParam              (* model/defs/defs.go:88,95,146,153 *)
| ErrArgs.              (* util/builtin_operators.go:75,81 *)

Definition goerr_eq_dec (a b : goerr) : {a = b} + {a <> b}.
Proof. decide equality. Defined.

(** ** Go maps with string keys

    A map is an association list without duplicate keys.  [mput] keeps the
    position of an existing key and appends a new one. *)
Definition smap (V : Type) : Type := list (string * V).

Section SMap.
  Context {V : Type}.

  Fixpoint mget (k : string) (m : smap V) : option V :=
    match m with
    | [] => None
    | (k', v) :: m' => if String.eqb k k' then Some v else mget k m'
    end.

  Fixpoint mput (k : string) (v : V) (m : smap V) : smap V :=
    match m with
    | [] => [(k, v)]
    | (k', v') :: m' => if String.eqb k k' then (k, v) :: m' else (k', v') :: mput k v m'
    end.

  Fixpoint mdel (k : string) (m : smap V) : smap V :=
    match m with
    | [] => []
    | (k', v') :: m' => if String.eqb k k' then mdel k m' else (k', v') :: mdel k m'
    end.

  Definition mhas (k : string) (m : smap V) : bool :=
    match mget k m with Some _ => true | None => false end.

  Definition mkeys (m : smap V) : list string := map fst m.
  Definition mvals (m : smap V) : list V := map snd m.
End SMap.

(** Sets of strings (a [sync.Map] used as a set). *)
Fixpoint sin (x : string) (l : list string) : bool :=
  match l with
  | [] => false
  | y :: l' => if String.eqb x y then true else sin x l'
  end.
Definition sadd (x : string) (l : list string) : list string :=
  if sin x l then l else l ++ [x].
Fixpoint srem (x : string) (l : list string) : list string :=
  match l with
  | [] => []
  | y :: l' => if String.eqb x y then srem x l' else y :: srem x l'
  end.

(** ** Strings *)

(** [strings.Join] *)
Fixpoint join (sep : string) (l : list string) : string :=
  match l with
  | [] => ""
  | x :: l' => match l' with
               | [] => x
               | _ :: _ => x ++ sep ++ join sep l'
               end
  end%string.

(** Does character [c] occur in [s]? ([strings.IndexByte(s, c) >= 0]) *)
Fixpoint has_char (c : ascii) (s : string) : bool :=
  match s with
  | EmptyString => false
  | String d s' => if Ascii.eqb c d then true else has_char c s'
  end.

(** [strings.Split(s, sep)] for a one-byte separator. *)
Fixpoint split_char (c : ascii) (s : string) : list string :=
  match s with
  | EmptyString => [""%string]
  | String d s' =>
      if Ascii.eqb c d then ""%string :: split_char c s'
      else match split_char c s' with
           | [] => [String d ""]     (* unreachable: [split_char] is never empty *)
           | x :: xs => String d x :: xs
           end
  end.

(** [strings.ReplaceAll(s, " ", "")] *)
Fixpoint no_spaces (s : string) : string :=
  match s with
  | EmptyString => EmptyString
  | String c s' => if Ascii.eqb c " " then no_spaces s' else String c (no_spaces s')
  end.

(** [strings.HasPrefix] *)
Definition has_prefix (s p : string) : bool := String.prefix p s.

(** [s[n:]] (for [n] not larger than the length). *)
Fixpoint drop (n : nat) (s : string) : string :=
  match n, s with
  | O, _ => s
  | S _, EmptyString => EmptyString
  | S n', String _ s' => drop n' s'
  end.

(** First byte of a string; [None] is the index-out-of-range panic of [s[0]]. *)
Definition first_byte (s : string) : option ascii :=
  match s with EmptyString => None | String c _ => Some c end.

(** A rule is a list of string values. *)
Definition rule := list string.

Definition rule_eq_dec (a b : rule) : {a = b} + {a <> b} := list_eq_dec string_dec a b.

Definition rule_eqb (a b : rule) : bool := if rule_eq_dec a b then true else false.
