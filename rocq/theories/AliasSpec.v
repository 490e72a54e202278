(** Specification for C58: rules as values.  The same system, but AddRule and
    RemoveRule copy what they are given: built from PolicyM and MatcherM. *)
From Verif Require Import GoBase DefsM PolicyM MatcherDefM MatcherM AliasM.

Record vsys : Type := mkVsys { v_pol : policy; v_mat : matcher; v_q : list (bool * rule) }.
Inductive vcall : Type := VAdd (r : rule) | VRemove (r : rule) | VFlush | VFilter (ord : order) (rDef : argdef) (rvals : list value).
Definition vsys0 (d : argdef) (t : stage) : vsys := mkVsys NewPolicy (mkMatcher d t empty_root) [].

Definition vstep (E : evaluator) (y : vsys) (c : vcall) : outcome (vsys * aresult) :=
  match c with
  | VAdd [] | VRemove [] => Panic
  | VAdd (key :: v) =>
      if String.eqb key "p" then
        let '(p, b, es) := AddRule (v_pol y) v in
        let! m := m_events (v_mat y) es in
        Val (mkVsys p m (v_q y ++ (if b then [(true, key :: v)] else [])), RBool b None)
      else Val (y, RBool false (Some ErrPolicyNotFound))
  | VRemove (key :: v) =>
      if String.eqb key "p" then
        let '(p, b, es) := RemoveRule (v_pol y) v in
        let! m := m_events (v_mat y) es in
        Val (mkVsys p m (v_q y ++ (if b then [(false, key :: v)] else [])), RBool b None)
      else Val (y, RBool false (Some ErrPolicyNotFound))
  | VFlush => Val (mkVsys (v_pol y) (v_mat y) [], RSent (v_q y))
  | VFilter ord rDef rvals =>
      let! (l, err) := RangeMatches E ord (v_mat y) rDef rvals (fun l r => (l ++ [r], true)) [] in Val (y, RRules l err)
  end.
Fixpoint vexec (E : evaluator) (y : vsys) (h : list vcall) : outcome (vsys * list aresult) :=
  match h with
  | [] => Val (y, [])
  | c :: h' => let! (y1, r) := vstep E y c in let! (y2, rs) := vexec E y1 h' in Val (y2, r :: rs)
  end.

(** The calls with the contents that the slices have when they are passed. *)
Fixpoint calls_of (H : heap) (h : list acall) : list vcall :=
  match h with
  | [] => []
  | ANew r :: h' => calls_of (H ++ [r]) h'
  | AWrite a i v :: h' => calls_of (write H a i v) h'
  | AAdd a :: h' => VAdd (array H a) :: calls_of H h'
  | ARemove a :: h' => VRemove (array H a) :: calls_of H h'
  | AFlush :: h' => VFlush :: calls_of H h'
  | AFilter ord rDef rvals :: h' => VFilter ord rDef rvals :: calls_of H h'
  end.
(** What the caller sees of its calls (allocating and writing show nothing). *)
Definition results_of (rs : list aresult) : list aresult := filter (fun r => match r with RNone => false | _ => true end) rs.
(** Only the answers of AddRule and RemoveRule. *)
Definition answers_of (rs : list aresult) : list aresult := filter (fun r => match r with RBool _ _ => true | _ => false end) rs.

(** A slice that was passed is not written to any more. *)
Fixpoint left_alone (passed : list nat) (h : list acall) : Prop :=
  match h with
  | [] => True
  | AWrite a _ _ :: h' => ~ In a passed /\ left_alone passed h'
  | AAdd a :: h' | ARemove a :: h' => left_alone (a :: passed) h'
  | _ :: h' => left_alone passed h'
  end.
