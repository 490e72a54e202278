(** Model of model/matcher/matcher.go: the index of rules by matcher stage. *)
From Verif Require Import GoBase DefsM PolicyM MatcherDefM.

(** ** matcher.go:28-40 [MatcherNode], [NewMatcherNode]: a rule and exactly two
    child maps. *)
Inductive node : Type := Node (r : rule) (c0 c1 : list (string * node)).

Definition node_rule (n : node) : rule := match n with Node r _ _ => r end.
Definition NewMatcherNode (r : rule) : node := Node r [] [].

(** [node.children[i]]; an index out of range panics. *)
Definition child (n : node) (i : nat) : outcome (smap node) :=
  match n, i with
  | Node _ c0 _, 0 => Val c0
  | Node _ _ c1, 1 => Val c1
  | _, _ => Panic
  end.
(** Store back the map [node.children[i]] after an update of the map. *)
Definition set_child (n : node) (i : nat) (m : smap node) : node :=
  match n, i with
  | Node r _ c1, 0 => Node r m c1
  | Node r c0 _, 1 => Node r c0 m
  | _, _ => n
  end.

(** matcher.go:124-132 and 150-158: the key under which a rule is filed for
    stage [c].  The error of GetParameters is ignored, its result is then nil. *)
Definition stage_key (d : argdef) (c : stage) (r : rule) : string :=
  match GetPolicyArgs c with
  | [] => Hash r
  | args => if IsLeafNode c then Hash r
            else Hash (match GetParameters d r args with Some vs => vs | None => [] end)
  end.

(** matcher.go:42-49 [GetOrCreate] as used at 135: the node for [key], a new
    one with the given rule if there is none. *)
Definition GetOrCreate (m : smap node) (key : string) (r : rule) : node :=
  match mget key m with Some n => n | None => NewMatcherNode r end.

(** matcher.go:122-142 [addRuleHelper]: the updated node. *)
Fixpoint addRuleHelper (d : argdef) (r : rule) (s : stage) (n : node) : outcome node :=
  match s with
  | Stage _ cs =>
      (fix go (cs : list stage) (i : nat) (n : node) : outcome node :=
         match cs with
         | [] => Val n
         | c :: cs' =>
             let! m := child n i in
             let key := stage_key d c r in
             let! m' := (if IsLeafNode c then Val (mput key (NewMatcherNode r) m)
                         else let! n' := addRuleHelper d r c (GetOrCreate m key r) in
                              Val (mput key n' m)) in
             go cs' (S i) (set_child n i m')
         end) cs 0 n
  end.

(** matcher.go:148-168 [removeRuleHelper]. *)
Fixpoint removeRuleHelper (d : argdef) (r : rule) (s : stage) (n : node) : outcome node :=
  match s with
  | Stage _ cs =>
      (fix go (cs : list stage) (i : nat) (n : node) : outcome node :=
         match cs with
         | [] => Val n
         | c :: cs' =>
             let! m := child n i in
             let key := stage_key d c r in
             let! m' := (if IsLeafNode c then Val (mdel key m)
                         else match mget key m with
                              | None => Val m
                              | Some n1 => let! n' := removeRuleHelper d r c n1 in
                                           Val (mput key n' m)
                              end) in
             go cs' (S i) (set_child n i m')
         end) cs 0 n
  end.

(** ** matcher.go:78-112 [Matcher].  The policy it listens to is outside; its
    events are fed to [m_event] (matcher.go:97-109). *)
Record matcher : Type := mkMatcher { m_def : argdef; m_tree : stage; m_root : node }.

Definition empty_root : node := NewMatcherNode [""%string].

Definition m_event (m : matcher) (e : event) : outcome matcher :=
  match e with
  | EvtAdded r => let! n := addRuleHelper (m_def m) r (m_tree m) (m_root m) in
                  Val (mkMatcher (m_def m) (m_tree m) n)
  | EvtRemoved r => let! n := removeRuleHelper (m_def m) r (m_tree m) (m_root m) in
                    Val (mkMatcher (m_def m) (m_tree m) n)
  | EvtCleared => Val (mkMatcher (m_def m) (m_tree m) empty_root)
  end.

Fixpoint m_events (m : matcher) (es : list event) : outcome matcher :=
  match es with
  | [] => Val m
  | e :: es' => let! m' := m_event m e in m_events m' es'
  end.

(** matcher.go:85-112 [NewMatcher]: the rules of the policy in the order in
    which its map is visited. *)
Definition NewMatcher (d : argdef) (rules : list rule) (s : stage) : outcome matcher :=
  m_events (mkMatcher d s empty_root) (map EvtAdded rules).

(** ** Evaluation

    matcher.go:67-76 [MatchParameters.Get]: [name[0]] panics on "".  The
    returned value is [None] on error.  Rule values are strings. *)
Definition ParamGet (pDef : argdef) (pvals : rule) (rDef : argdef) (rvals : list value)
    (name : string) : outcome (option value) :=
  match name with
  | EmptyString => Panic
  | String c _ =>
      if Ascii.eqb c "p" || Ascii.eqb c "g" then
        Val (match GetParameter pDef pvals name with Some v => Some (VStr v) | None => None end)
      else if Ascii.eqb c "r" then Val (GetParameter rDef rvals name)
      else Val None
  end.

(** The expression evaluator (govaluate with the functions of the model,
    including eval) is a parameter:
    - [parses e]: NewEvaluableExpressionWithFunctions succeeds on the text [e];
    - [ev e get]: the result of evaluating [e] where [get] answers lookups of
      parameters: a value, an error, or a panic. *)
Definition params := string -> outcome (option value).
Record evaluator : Type := mkEvaluator {
  parses : string -> bool;
  ev : string -> params -> outcome (value + goerr)
}.

(** The visiting order of the maps: Go picks an order for every range loop; the
    loop is identified by the way from the root to the node (child positions
    and keys, innermost first) and the position of the child map. *)
Definition visit := list (nat * string).
Definition order := visit -> nat -> smap node -> smap node.

(** Results [(cont, err)] of the two range functions. *)
Definition rres : Type := bool * option goerr.

Section RangeMatches.
  Variable E : evaluator.
  Variable ord : order.
  Variable pDef : argdef.
  Variable rDef : argdef.
  Variable rvals : list value.
  Context {S : Type}.
  (** The callback of the user, with its state. *)
  Variable fn : S -> rule -> S * bool.

  Definition eval_stage (c : stage) (r : rule) : outcome (value + goerr) :=
    ev E (stage_expr c) (ParamGet pDef r rDef rvals).

  (** matcher.go:177: [make([]string, len(pDef.GetArgs()))]. *)
  Definition blank : rule := repeat ""%string (List.length (ad_args pDef)).

  (** matcher.go:170-197 [rangeMatches]: [rules] are the entries in visiting
      order; [call] is the callback. *)
  Fixpoint range_entries (c : stage) (call : S -> string -> node -> outcome (S * bool))
      (entries : smap node) (st : S) : outcome (S * rres) :=
    match entries with
    | [] => Val (st, (true, None))
    | (k, n) :: rest =>
        match eval_stage c (node_rule n) with
        | Panic => Panic
        | Val (inr e) => Val (st, (false, Some e))
        | Val (inl (VBool true)) =>
            match call st k n with
            | Panic => Panic
            | Val (st', false) => Val (st', (false, None))
            | Val (st', true) => range_entries c call rest st'
            end
        | Val (inl _) => range_entries c call rest st
        end
    end.

  Definition rangeMatches (c : stage) (entries : smap node)
      (call : S -> string -> node -> outcome (S * bool)) (st : S) : outcome (S * rres) :=
    if parses E (stage_expr c) then
      range_entries c call
        (match entries with
         | [] => [(""%string, NewMatcherNode blank)]
         | _ => entries
         end) st
    else Val (st, (false, Some ErrEval)).

  (** matcher.go:199-220 [rangeMatchesHelper]. *)
  Fixpoint rangeMatchesHelper (s : stage) (at_ : visit) (n : node) (st : S) : outcome (S * rres) :=
    match s with
    | Stage _ cs =>
        (fix go (cs : list stage) (i : nat) (st : S) : outcome (S * rres) :=
           match cs with
           | [] => Val (st, (true, None))
           | c :: cs' =>
               let! m := child n i in
               let! res := rangeMatches c (ord at_ i m)
                 (fun st k nextNode =>
                    let rec_ st := 
                      let! r := rangeMatchesHelper c ((i, k) :: at_) nextNode st in
                      match r with
                      | (st', (cont, err)) =>
                          Val (st', match err with Some _ => false | None => cont end)
                      end in
                    if IsLeafNode c then
                      let (st', b) := fn st (node_rule nextNode) in
                      if b then rec_ st' else Val (st', false)
                    else rec_ st) st in
               match res with
               | (st', (_, Some e)) => Val (st', (false, Some e))
               | (st', (false, None)) => Val (st', (false, None))
               | (st', (true, None)) => go cs' (Datatypes.S i) st'
               end
           end) cs 0 st
    end.
End RangeMatches.

(** matcher.go:222-233 [RangeMatches]: the final state of the callback and the
    error. *)
Definition RangeMatches {S} (E : evaluator) (ord : order) (m : matcher) (rDef : argdef)
    (rvals : list value) (fn : S -> rule -> S * bool) (st : S) : outcome (S * option goerr) :=
  let! r := rangeMatchesHelper E ord (m_def m) rDef rvals fn (m_tree m) [] (m_root m) st in
  match r with (st', (_, err)) => Val (st', err) end.
