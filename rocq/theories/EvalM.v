(** A concrete evaluator for a small fragment of expressions.

    The evaluator of the model is a parameter ([MatcherM.evaluator]); this
    instance is used for examples, counterexamples and the end-to-end RBAC
    theorem.  It covers the atomic conditions
      a == b      a != b      f(a, b)      eval(a)      a
    where an operand is a parameter name or a string literal in single quotes.
    Texts are the ones [tokensToExpr] prints (single spaces).  The functions
    registered in the function map are a parameter. *)
From Verif Require Import GoBase DefsM MatcherDefM MatcherM.

Definition value_eqb (a b : value) : bool :=
  match a, b with
  | VStr x, VStr y => String.eqb x y
  | VBool x, VBool y => Bool.eqb x y
  | VObj x, VObj y => Nat.eqb x y
  | _, _ => false
  end.

Definition last_byte (s : string) : option ascii := get (String.length s - 1) s.
Definition init (s : string) : string := substring 0 (String.length s - 1) s.

(** [f(a, b)] split into [f], [a] and [b]; [f(a)] into [f] and [a]. *)
Definition call_of (e : string) : option (string * list string) :=
  match last_byte e with
  | Some ")"%char =>
      match split_char "(" (init e) with
      | [f; args] => Some (f, split_char "," (no_spaces args))
      | _ => None
      end
  | _ => None
  end.

Inductive shape : Type :=
| SEq (a b : string) | SNeq (a b : string) | SCall (f : string) (args : list string) | SWord (a : string) | SBad.

Definition shape_of (e : string) : shape :=
  match call_of e with
  | Some (f, args) => SCall f args
  | None =>
      match split_char " " e with
      | [a; op; b] => if String.eqb op "==" then SEq a b
                      else if String.eqb op "!=" then SNeq a b else SBad
      | [a] => if String.eqb a "" then SBad else SWord a
      | _ => SBad
      end
  end.

(** Functions of the function map (model/fm/function_map.go): an argument list
    to a value, an error or a panic. *)
Definition funs := smap (list value -> outcome (value + goerr)).

Section Eval.
  Variable F : funs.

  Definition operand (get : params) (w : string) : outcome (value + goerr) :=
    match w with
    | String "'"%char rest => Val (inl (VStr (init rest)))
    | _ => match get w with
           | Panic => Panic
           | Val None => Val (inr ErrEval)
           | Val (Some v) => Val (inl v)
           end
    end.

  Fixpoint operands (get : params) (ws : list string) : outcome (list value + goerr) :=
    match ws with
    | [] => Val (inl [])
    | w :: ws' =>
        match operand get w with
        | Panic => Panic
        | Val (inr e) => Val (inr e)
        | Val (inl v) => match operands get ws' with
                         | Val (inl vs) => Val (inl (v :: vs))
                         | o => o
                         end
        end
    end.

  (** [eval] (matcher.go:235-255) evaluates the text of its argument with the
      same parameters after rewriting dotted names.  [depth] bounds nested
      calls of eval; deeper nesting is an error here. *)
  Fixpoint mini_ev (depth : nat) (e : string) (get : params) : outcome (value + goerr) :=
    match shape_of e with
    | SBad => Val (inr ErrEval)
    | SWord a => operand get a
    | SEq a b => match operands get [a; b] with
                 | Val (inl [x; y]) => Val (inl (VBool (value_eqb x y)))
                 | Val (inr er) => Val (inr er)
                 | _ => Panic
                 end
    | SNeq a b => match operands get [a; b] with
                  | Val (inl [x; y]) => Val (inl (VBool (negb (value_eqb x y))))
                  | Val (inr er) => Val (inr er)
                  | _ => Panic
                  end
    | SCall f args =>
        match operands get args with
        | Panic => Panic
        | Val (inr er) => Val (inr er)
        | Val (inl vs) =>
            if String.eqb f "eval" then
              match vs with
              | [VStr t] => match depth with
                            | O => Val (inr ErrEval)
                            | S d => mini_ev d (arg_replace t) get
                            end
              | [_] => Panic   (* matcher.go:251: args[0].(string) *)
              | _ => Val (inr ErrEval)
              end
            else match mget f F with
                 | Some fn => fn vs
                 | None => Val (inr ErrEval)
                 end
        end
    end.

  Definition mini_parses (e : string) : bool :=
    match shape_of e with
    | SBad => false
    | SCall f _ => String.eqb f "eval" || mhas f F
    | _ => true
    end.

  Definition mini : evaluator := mkEvaluator mini_parses (mini_ev 3).
End Eval.
