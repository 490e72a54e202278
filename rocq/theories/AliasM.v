(** Model of the storage of rules with Go slices as references: AddRule keeps the
    caller's array (model/model.go:248-284, model/policy/policy.go:38-57,
    model/matcher/matcher.go:122-168, storage/controller.go:64-71 and 103-114).

    One policy section "p" with one matcher and the queue of the storage
    controller (autosave off).  An array is what the caller allocated; policy and
    matcher keep the slice rule[1:] of it, the queue the whole slice.
    Simplifications: the caller passes slices of whole arrays only; other sections,
    whose keeping of rules is the same, are left out. *)
From Verif Require Import GoBase DefsM PolicyM MatcherDefM MatcherM.

Definition heap := list rule.
(** The contents of the array [a]; an unallocated one reads as the nil slice. *)
Definition array (H : heap) (a : nat) : rule := nth a H [].
(** The slice rule[1:] (model.go:255), or the rule of the root node
    (matcher.go:90). *)
Definition slice (H : heap) (r : option nat) : rule :=
  match r with None => [""%string] | Some a => tl (array H a) end.

(** matcher.go:28-40 with a reference as rule. *)
Inductive anode : Type := ANode (r : option nat) (c0 c1 : list (string * anode)).
Definition achild (n : anode) (i : nat) : outcome (smap anode) :=
  match n, i with
  | ANode _ c0 _, 0 => Val c0
  | ANode _ _ c1, 1 => Val c1
  | _, _ => Panic
  end.
Definition aset_child (n : anode) (i : nat) (m : smap anode) : anode :=
  match n, i with
  | ANode r _ c1, 0 => ANode r m c1
  | ANode r c0 _, 1 => ANode r c0 m
  | _, _ => n
  end.

(** matcher.go:122-142 [addRuleHelper]: [v] are the contents now, [a] is kept. *)
Fixpoint aadd (d : argdef) (v : rule) (a : nat) (s : stage) (n : anode) : outcome anode :=
  match s with
  | Stage _ cs =>
      (fix go (cs : list stage) (i : nat) (n : anode) : outcome anode :=
         match cs with
         | [] => Val n
         | c :: cs' =>
             let! m := achild n i in
             let key := stage_key d c v in
             let! m' := (if IsLeafNode c then Val (mput key (ANode (Some a) [] []) m)
                         else let! n' := aadd d v a c (match mget key m with Some n => n | None => ANode (Some a) [] [] end) in
                              Val (mput key n' m)) in
             go cs' (S i) (aset_child n i m')
         end) cs 0 n
  end.
(** matcher.go:148-168 [removeRuleHelper]. *)
Fixpoint aremove (d : argdef) (v : rule) (s : stage) (n : anode) : outcome anode :=
  match s with
  | Stage _ cs =>
      (fix go (cs : list stage) (i : nat) (n : anode) : outcome anode :=
         match cs with
         | [] => Val n
         | c :: cs' =>
             let! m := achild n i in
             let key := stage_key d c v in
             let! m' := (if IsLeafNode c then Val (mdel key m)
                         else match mget key m with
                              | None => Val m
                              | Some n1 => let! n' := aremove d v c n1 in Val (mput key n' m)
                              end) in
             go cs' (S i) (aset_child n i m')
         end) cs 0 n
  end.

(** The matcher as a search reads it with the heap [H] (matcher.go:183-195 reads
    the rules when they are tested). *)
Fixpoint seen (H : heap) (n : anode) : node :=
  match n with
  | ANode r c0 c1 => Node (slice H r) (map (fun kn => (fst kn, seen H (snd kn))) c0) (map (fun kn => (fst kn, seen H (snd kn))) c1)
  end.

Record asys : Type := mkAsys { y_heap : heap; y_pol : smap nat; y_root : anode; y_q : list (bool * nat) }.
Definition asys0 : asys := mkAsys [] [] (ANode None [] []) [].

(** What the caller does: allocate a slice, write to an element of one, pass one
    to AddRule or RemoveRule, Flush, Filter. *)
Inductive acall : Type :=
| ANew (r : rule) | AWrite (a i : nat) (v : string)
| AAdd (a : nat) | ARemove (a : nat) | AFlush | AFilter (ord : order) (rDef : argdef) (rvals : list value).
(** What it sees; a Flush sends the operations (true: AddRule) to the adapter. *)
Inductive aresult : Type :=
| RNone | RBool (b : bool) (err : option goerr) | RSent (ops : list (bool * rule)) | RRules (l : list rule) (err : option goerr).

Fixpoint set_nth {A} (l : list A) (i : nat) (x : A) : list A :=
  match l, i with
  | [], _ => []
  | _ :: l', O => x :: l'
  | y :: l', S i' => y :: set_nth l' i' x
  end.
Definition write (H : heap) (a i : nat) (v : string) : heap := set_nth H a (set_nth (array H a) i v).

Section Step.
  Variable E : evaluator.
  Variable d : argdef.
  Variable t : stage.

  (** enforcer.go:282-297 for one matcher. *)
  Definition filter_rules (ord : order) (root : node) (rDef : argdef) (rvals : list value) : outcome aresult :=
    let! (l, err) := RangeMatches E ord (mkMatcher d t root) rDef rvals (fun l r => (l ++ [r], true)) [] in
    Val (RRules l err).

  Definition astep (y : asys) (c : acall) : outcome (asys * aresult) :=
    match c with
    | ANew r => Val (mkAsys (y_heap y ++ [r]) (y_pol y) (y_root y) (y_q y), RNone)
    | AWrite a i v => Val (mkAsys (write (y_heap y) a i v) (y_pol y) (y_root y) (y_q y), RNone)
    | AAdd a =>
        match array (y_heap y) a with
        | [] => Panic                                              (* model.go:249 *)
        | key :: v =>
            if String.eqb key "p" then
              match mget (Hash v) (y_pol y) with
              | Some _ => Val (y, RBool false None)
              | None =>
                  let! n := aadd d v a t (y_root y) in
                  Val (mkAsys (y_heap y) (mput (Hash v) a (y_pol y)) n (y_q y ++ [(true, a)]), RBool true None)
              end
            else Val (y, RBool false (Some ErrPolicyNotFound))
        end
    | ARemove a =>
        match array (y_heap y) a with
        | [] => Panic                                              (* model.go:268 *)
        | key :: v =>
            if String.eqb key "p" then
              match mget (Hash v) (y_pol y) with
              | None => Val (y, RBool false None)
              | Some _ =>
                  let! n := aremove d v t (y_root y) in
                  Val (mkAsys (y_heap y) (mdel (Hash v) (y_pol y)) n (y_q y ++ [(false, a)]), RBool true None)
              end
            else Val (y, RBool false (Some ErrPolicyNotFound))
        end
    | AFlush => Val (mkAsys (y_heap y) (y_pol y) (y_root y) [], RSent (map (fun o => (fst o, array (y_heap y) (snd o))) (y_q y)))
    | AFilter ord rDef rvals => let! r := filter_rules ord (seen (y_heap y) (y_root y)) rDef rvals in Val (y, r)
    end.
  Fixpoint aexec (y : asys) (h : list acall) : outcome (asys * list aresult) :=
    match h with
    | [] => Val (y, [])
    | c :: h' => let! (y1, r) := astep y c in let! (y2, rs) := aexec y1 h' in Val (y2, r :: rs)
    end.
End Step.
