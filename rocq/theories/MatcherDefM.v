(** Model of model/defs/matcher_def.go: compiling a matcher expression into a
    tree of stages. *)
From Verif Require Import GoBase DefsM.

(** ** Tokens

    The tokens of github.com/abichinger/govaluate.  Only the kinds the code of
    this repository distinguishes are separate; every other kind is [KOther].
    [t_text] is the text with which the token's value prints:
    the string itself (STRING), the dotted name (ACCESSOR), the function name
    (FUNCTION), "&&" or "||" (LOGICALOP), the [%v] text otherwise. *)
Inductive kind : Type :=
| KString | KClause | KClauseClose | KAccessor | KFunction | KLogicalOp
| KPrefix | KSeparator | KOther.

Definition kind_eqb (a b : kind) : bool :=
  match a, b with
  | KString, KString | KClause, KClause | KClauseClose, KClauseClose
  | KAccessor, KAccessor | KFunction, KFunction | KLogicalOp, KLogicalOp
  | KPrefix, KPrefix | KSeparator, KSeparator | KOther, KOther => true
  | _, _ => false
  end.

Record token : Type := mkTok { t_kind : kind; t_text : string }.

(** ** Stages: matcher_def.go:11-24 [MatcherStage], [NewMatcherStage].
    The argument lists are functions of the text. *)
Inductive stage : Type := Stage (expr : string) (children : list stage).

Definition stage_expr (s : stage) : string := match s with Stage e _ => e end.
Definition stage_children (s : stage) : list stage := match s with Stage _ c => c end.

(** matcher_def.go:18-28 [GetPolicyArgs]; 39-41 [GetRequestArgs] is [r_args] of
    the text, below. *)
Definition GetPolicyArgs (s : stage) : list string := p_args (stage_expr s).

(** matcher_def.go:30-37 and 43-50 [RecursivePolicyArgs],
    [RecursiveRequestArgs]. *)
Fixpoint RecursivePolicyArgs (s : stage) : list string :=
  match s with
  | Stage e cs => p_args e ++ flat_map RecursivePolicyArgs cs
  end.
Fixpoint RecursiveRequestArgs (s : stage) : list string :=
  match s with
  | Stage e cs => r_args e ++ flat_map RecursiveRequestArgs cs
  end.

(** matcher_def.go:56-58 [IsLeafNode]. *)
Definition IsLeafNode (s : stage) : bool :=
  match stage_children s with [] => true | _ => false end.

(** ** matcher_def.go:71-96 [nextOperator]

    [tokens[0]] panics on an empty list.  The counter is a Go [int] and can
    become negative on unbalanced input. *)
Fixpoint nextOperator_loop (tokens : list token) (i : nat) (n : nat)
    (clauseCounter : Z) (index : option nat) (isBracket : bool) : option nat * bool :=
  match tokens with
  | [] => (index, isBracket)
  | tok :: rest =>
      match t_kind tok with
      | KClause => nextOperator_loop rest (S i) n (clauseCounter + 1)%Z index isBracket
      | KClauseClose =>
          let cc := (clauseCounter - 1)%Z in
          let isB := if isBracket && Z.eqb cc 0 && negb (Nat.eqb i (n - 1)) then false else isBracket in
          nextOperator_loop rest (S i) n cc index isB
      | KLogicalOp =>
          if negb (Z.eqb clauseCounter 0) then nextOperator_loop rest (S i) n clauseCounter index isBracket
          else if String.eqb (t_text tok) "||" then (Some i, false)
          else nextOperator_loop rest (S i) n clauseCounter (Some i) isBracket
      | _ => nextOperator_loop rest (S i) n clauseCounter index isBracket
      end
  end.

Definition nextOperator (tokens : list token) : outcome (option nat * bool) :=
  match tokens with
  | [] => Panic
  | t0 :: _ => Val (nextOperator_loop tokens 0 (List.length tokens) 0 None (kind_eqb (t_kind t0) KClause))
  end.

(** ** matcher_def.go:98-135 [tokensToExpr] *)
Definition tok_text (t : token) : string :=
  match t_kind t with
  | KString => "'" ++ t_text t ++ "'"
  | KClause => "("
  | KClauseClose => ")"
  | _ => t_text t
  end%string.

(** The space after a token (matcher_def.go:117-132); [next] is the kind of the
    following token, if there is one. *)
Definition tok_space (t : token) (next : option kind) : string :=
  match t_kind t with
  | KPrefix | KClause | KFunction => ""
  | KAccessor => ""
      (* matcher_def.go:125-128: the case has no statement after its break *)
  | _ => match next with
         | None => ""
         | Some KClauseClose | Some KSeparator => ""
         | Some _ => " "
         end
  end%string.

Fixpoint tokensToExpr (tokens : list token) : string :=
  match tokens with
  | [] => ""
  | t :: rest =>
      let next := match rest with [] => None | t' :: _ => Some (t_kind t') end in
      tok_text t ++ tok_space t next ++ tokensToExpr rest
  end%string.

(** ** Slices of token lists with shared backing arrays

    [and] in buildExprTree is a Go slice: appending writes into the backing
    array when there is room.  [arrays] holds the backing arrays (a list of
    [cap] cells each), [slice] is (array, length); every slice starts at index
    0 of its array.  [nil] is a slice of length 0 of an array of capacity 0. *)
Definition arrays := list (list (list token)).
Record slice : Type := mkSlice { s_arr : option nat; s_len : nat }.
Definition nil_slice : slice := mkSlice None 0.

Definition cells (h : arrays) (s : slice) : list (list token) :=
  match s_arr s with None => [] | Some a => nth a h [] end.

Fixpoint set_nth {A} (l : list A) (i : nat) (x : A) : list A :=
  match l, i with
  | [], _ => []
  | _ :: l', O => x :: l'
  | y :: l', S i' => y :: set_nth l' i' x
  end.

Section Build.
  (** Capacity after growing a slice of capacity [c]; any growth policy. *)
  Variable grow : nat -> nat.

  (** The built-in [append(s, x)]. *)
  Definition append1 (h : arrays) (s : slice) (x : list token) : arrays * slice :=
    let cs := cells h s in
    match s_arr s with
    | Some a =>
        if Nat.ltb (s_len s) (List.length cs)
        then (set_nth h a (set_nth cs (s_len s) x), mkSlice (Some a) (S (s_len s)))
        else (h ++ [firstn (s_len s) cs ++ x :: repeat [] (grow (List.length cs))],
              mkSlice (Some (List.length h)) (S (s_len s)))
    | None => (h ++ [x :: repeat [] (grow 0)], mkSlice (Some (List.length h)) 1)
    end.

  (** [s[len(s)-1]] *)
  Definition last1 (h : arrays) (s : slice) : list token := nth (s_len s - 1) (cells h s) [].
  (** [s[:len(s)-1]] *)
  Definition butlast (s : slice) : slice := mkSlice (s_arr s) (s_len s - 1).

  (** ** matcher_def.go:137-167 [buildExprTree]

      Returns the stages that are appended to [node.children].  [BFuel] never
      occurs with enough fuel ([MatcherDefP.build_fuel]). *)
  Inductive bres : Type :=
  | BOk (h : arrays) (children : list stage)
  | BPanic
  | BFuel.

  Fixpoint buildExprTree (fuel : nat) (h : arrays) (tokens : list token) (and : slice) : bres :=
    match fuel with
    | O => BFuel
    | S f =>
        match nextOperator tokens with
        | Panic => BPanic
        | Val (_, true) =>
            (* line 142: tokens[1:len(tokens)-1] *)
            if Nat.ltb (List.length tokens) 2 then BPanic
            else buildExprTree f h (firstn (List.length tokens - 2) (skipn 1 tokens)) and
        | Val (None, false) =>
            let expr := tokensToExpr tokens in
            if Nat.ltb 0 (s_len and) then
              match buildExprTree f h (last1 h and) (butlast and) with
              | BOk h' cs => BOk h' [Stage expr cs]
              | e => e
              end
            else BOk h [Stage expr []]
        | Val (Some index, false) =>
            let op := nth index tokens (mkTok KOther "") in
            if String.eqb (t_text op) "||" then
              match buildExprTree f h (firstn index tokens) and with
              | BOk h1 c1 =>
                  match buildExprTree f h1 (skipn (S index) tokens) and with
                  | BOk h2 c2 => BOk h2 (c1 ++ c2)
                  | e => e
                  end
              | e => e
              end
            else
              let (h', and') := append1 h and (skipn (S index) tokens) in
              buildExprTree f h' (firstn index tokens) and'
        end
    end.

  (** Enough fuel: every call works on fewer tokens than its caller. *)
  Definition compile (tokens : list token) : bres :=
    buildExprTree (S (List.length tokens)) [] tokens nil_slice.
End Build.

(** matcher_def.go:173-194 [Build]: the text after argument rewriting is parsed
    by govaluate ([parse], with the registered functions); panics become
    errors. *)
Definition Build (grow : nat -> nat) (parse : string -> option (list token)) (expr : string)
    : stage + goerr :=
  match parse (arg_replace expr) with
  | None => inr ErrBuild
  | Some toks =>
      match compile grow toks with
      | BOk _ cs => inl (Stage "" cs)
      | _ => inr ErrBuild
      end
  end.

(** matcher_def.go:212-219 [GetPolicyKey]. *)
Definition GetPolicyKey (root : stage) : string :=
  match RecursivePolicyArgs root with
  | [] => "p"%string
  | a :: _ => match split_char "_" a with x :: _ => x | [] => ""%string end
  end.
