(** Boolean formulas over atomic conditions: what a matcher expression means. *)
From Verif Require Import GoBase MatcherDefM.

Definition t_open : token := mkTok KClause "(".
Definition t_close : token := mkTok KClauseClose ")".
Definition t_and : token := mkTok KLogicalOp "&&".
Definition t_or : token := mkTok KLogicalOp "||".

(** A formula; [FPar] is a written pair of parentheses. *)
Inductive form : Type :=
| FAtom (ts : list token)
| FAnd (f g : form)
| FOr (f g : form)
| FPar (f : form).

(** The way a formula is written. *)
Fixpoint written (f : form) : list token :=
  match f with
  | FAtom ts => ts
  | FPar f => t_open :: written f ++ [t_close]
  | FOr f g => written f ++ t_or :: written g
  | FAnd f g => written f ++ t_and :: written g
  end.

(** [parsed f]: [f] is how [written f] reads, with && binding tighter than ||:
      expr ::= conj | conj "||" expr      conj ::= prim | conj "&&" prim
      prim ::= atom | "(" expr ")"
    Every expression over atoms, &&, || and parentheses has such an [f]. *)
Definition is_or (f : form) : bool := match f with FOr _ _ => true | _ => false end.
Definition is_and (f : form) : bool := match f with FAnd _ _ => true | _ => false end.
Fixpoint parsed (f : form) : Prop :=
  match f with
  | FAtom _ => True
  | FPar f => parsed f
  | FOr f g => parsed f /\ parsed g /\ is_or f = false
  | FAnd f g => parsed f /\ parsed g /\ is_or f = false /\ is_or g = false /\ is_and g = false
  end.

(** Truth of a formula when the atom with text [e] has truth value [val e]. *)
Fixpoint sem (val : string -> bool) (f : form) : bool :=
  match f with
  | FAtom ts => val (tokensToExpr ts)
  | FPar f => sem val f
  | FAnd f g => sem val f && sem val g
  | FOr f g => sem val f || sem val g
  end.

(** Well-formed atoms: at least one token; parentheses balanced and never
    closed below the start; no logical operator outside parentheses; not a
    parenthesised expression as a whole. *)
Definition delta (t : token) : Z :=
  match t_kind t with KClause => 1 | KClauseClose => -1 | _ => 0 end%Z.
Fixpoint level (ts : list token) : Z :=
  match ts with [] => 0 | t :: ts' => delta t + level ts' end%Z.

Record atom_ok (ts : list token) : Prop := {
  atom_nonempty : ts <> [];
  atom_balanced : level ts = 0%Z;
  atom_prefix : forall a b, ts = a ++ b -> (0 <= level a)%Z;
  atom_no_op : forall a t b, ts = a ++ t :: b -> t_kind t = KLogicalOp -> (0 < level a)%Z;
  atom_not_wrapped : forall t ts', ts = t :: ts' -> t_kind t = KClause ->
    exists a b, ts = a ++ b /\ a <> [] /\ b <> [] /\ level a = 0%Z
}.

Fixpoint atoms_ok (f : form) : Prop :=
  match f with
  | FAtom ts => atom_ok ts
  | FPar f => atoms_ok f
  | FAnd f g | FOr f g => atoms_ok f /\ atoms_ok g
  end.

(** Truth of a stage tree: some path from the root to a leaf whose stages are
    all true. *)
Fixpoint accepts (val : string -> bool) (s : stage) : bool :=
  match s with
  | Stage e cs => val e && match cs with [] => true | _ => existsb (accepts val) cs end
  end.
Definition accepts_any (val : string -> bool) (cs : list stage) : bool := existsb (accepts val) cs.

(** Formulas on which the compiler is faithful: an && whose left operand
    contains an || must not have another && in its right operand. *)
Fixpoint has_or (f : form) : bool :=
  match f with
  | FAtom _ => false
  | FPar f => has_or f
  | FAnd f g => has_or f || has_or g
  | FOr _ _ => true
  end.
Fixpoint has_and (f : form) : bool :=
  match f with
  | FAtom _ => false
  | FPar f => has_and f
  | FAnd _ _ => true
  | FOr f g => has_and f || has_and g
  end.
Fixpoint faithful (f : form) : bool :=
  match f with
  | FAtom _ => true
  | FPar f => faithful f
  | FOr f g => faithful f && faithful g
  | FAnd f g => faithful f && faithful g && (negb (has_or f) || negb (has_and g))
  end.
