(** Model of several Enforce calls that run at the same time on one model
    (model/matcher/matcher.go:170-255, enforcer.go:311-344).

    Shared between the calls are the function map, where every call installs
    its own "eval" (matcher.go:224, the map inside FunctionMap is shared although
    the struct is copied), and the parameters an eval function reads (243-255).
    A call is interleaved at: installing eval, parsing the condition of a stage
    (which fixes the function that eval stands for in it), setting the rule under
    test, evaluating the condition.
    Simplifications: the model is not changed meanwhile; memory is sequentially
    consistent and concurrent writes to the Go map do not abort the process, as
    the Go runtime may do; functions other than eval do not interfere. *)
From Verif Require Import GoBase DefsM MatcherDefM MatcherM EffectorM EvalM.

(** The evaluator: [cev e own bound inner] evaluates [e] with the parameters
    [own]; eval in [e] reads [bound]; an eval inside an evaluated text reads
    [inner], those of the eval installed at that moment. *)
Record cevaluator : Type := mkCev {
  cparses : string -> bool;
  cev : string -> params -> params -> params -> outcome (value + goerr)
}.
(** When nothing else runs all three are the call's own parameters. *)
Definition alone_ev (CE : cevaluator) : evaluator := mkEvaluator (cparses CE) (fun e g => cev CE e g g g).

(** What one Enforce call works on. *)
Record ccall : Type := mkCall {
  cq_mat : matcher; cq_rdef : argdef; cq_vals : list value;
  cq_ord : order; cq_pdef : argdef; cq_expr : string
}.

(** The call whose eval is installed, and the rule under test of every call. *)
Record shared : Type := mkShared { sh_eval : option nat; sh_pvals : list rule }.
Fixpoint put_rule (l : list rule) (i : nat) (r : rule) : list rule :=
  match l, i with
  | [], _ => []
  | _ :: l', O => r :: l'
  | x :: l', S i' => x :: put_rule l' i' r
  end.

(** The rest of a call. *)
Inductive search : Type :=
| Found (st : estate) (err : option goerr)
| Then (f : shared -> outcome (shared * search)).

Section Search.
  Variable CE : cevaluator.
  Variable calls : list ccall.

  (** matcher.go:51-76: the parameters of call [j] now. *)
  Definition params_of (sh : shared) (j : option nat) : params :=
    match j with
    | None => fun _ => Val None
    | Some j => match nth_error calls j, nth_error (sh_pvals sh) j with
                | Some q, Some r => ParamGet (m_def (cq_mat q)) r (cq_rdef q) (cq_vals q)
                | _, _ => fun _ => Val None
                end
    end.

  Variable me : nat.
  Variable q : ccall.

  (** enforcer.go:319-331 behind model.go:366-371. *)
  Definition callback (st : estate) (r : rule) : estate * bool :=
    enforce_fn (cq_expr q) (cq_pdef q) st (ad_key (m_def (cq_mat q)) :: r).

  (** matcher.go:183-195. *)
  Fixpoint s_entries (c : stage) (bound : option nat)
      (call : estate -> string -> node -> (estate -> bool -> search) -> search)
      (entries : smap node) (st : estate) (k : estate -> rres -> search) : search :=
    match entries with
    | [] => k st (true, None)
    | (key, n) :: rest =>
        Then (fun sh => Val (mkShared (sh_eval sh) (put_rule (sh_pvals sh) me (node_rule n)),
          Then (fun sh =>
            match cev CE (stage_expr c) (params_of sh (Some me)) (params_of sh bound) (params_of sh (sh_eval sh)) with
            | Panic => Panic
            | Val (inr e) => Val (sh, k st (false, Some e))
            | Val (inl (VBool true)) =>
                Val (sh, call st key n (fun st' cont => if cont then s_entries c bound call rest st' k else k st' (false, None)))
            | Val (inl _) => Val (sh, s_entries c bound call rest st k)
            end)))
    end.

  (** matcher.go:170-182: parsing binds eval. *)
  Definition s_range (c : stage) (entries : smap node)
      (call : estate -> string -> node -> (estate -> bool -> search) -> search) (st : estate) (k : estate -> rres -> search) : search :=
    Then (fun sh => Val (sh,
      if cparses CE (stage_expr c) then
        s_entries c (sh_eval sh) call
          (match entries with
           | [] => [(""%string, NewMatcherNode (blank (m_def (cq_mat q))))]
           | _ => entries
           end) st k
      else k st (false, Some ErrEval))).

  (** matcher.go:199-220. *)
  Fixpoint s_helper (s : stage) (at_ : visit) (n : node) (st : estate) (k : estate -> rres -> search) : search :=
    match s with
    | Stage _ cs =>
        (fix go (cs : list stage) (i : nat) (st : estate) : search :=
           match cs with
           | [] => k st (true, None)
           | c :: cs' =>
               match child n i with
               | Panic => Then (fun _ => Panic)
               | Val m =>
                   s_range c (cq_ord q at_ i m)
                     (fun st key nextNode k' =>
                        let rec_ st := s_helper c ((i, key) :: at_) nextNode st
                          (fun st' r => k' st' (match snd r with Some _ => false | None => fst r end)) in
                        if IsLeafNode c then
                          let (st', b) := callback st (node_rule nextNode) in
                          if b then rec_ st' else k' st' false
                        else rec_ st) st
                     (fun st' r =>
                        match r with
                        | (_, Some e) => k st' (false, Some e)
                        | (false, None) => k st' (false, None)
                        | (true, None) => go cs' (S i) st'
                        end)
               end
           end) cs 0 st
    end.
  (** matcher.go:226 on. *)
  Definition s_search : search :=
    s_helper (m_tree (cq_mat q)) [] (m_root (cq_mat q)) estate0 (fun st r => Found st (snd r)).
End Search.

(** A goroutine with its call; a call starts by installing its eval
    (matcher.go:223-224). *)
Inductive gor : Type := GWait | GRun (p : search) | GDone (st : estate) (err : option goerr).
Record econfig : Type := mkEconfig { ec_sh : shared; ec_gors : list gor }.
Fixpoint set_gor (ts : list gor) (i : nat) (t : gor) : list gor :=
  match ts, i with
  | [], _ => []
  | _ :: ts', O => t :: ts'
  | x :: ts', S i' => x :: set_gor ts' i' t
  end.
Definition estep (CE : cevaluator) (calls : list ccall) (s : econfig) (i : nat) : outcome econfig :=
  match nth_error (ec_gors s) i, nth_error calls i with
  | Some GWait, Some q =>
      Val (mkEconfig (mkShared (Some i) (put_rule (sh_pvals (ec_sh s)) i [])) (set_gor (ec_gors s) i (GRun (s_search CE calls i q))))
  | Some (GRun (Then f)), _ =>
      let! (sh, p) := f (ec_sh s) in
      Val (mkEconfig sh (set_gor (ec_gors s) i (GRun p)))
  | Some (GRun (Found st err)), _ => Val (mkEconfig (ec_sh s) (set_gor (ec_gors s) i (GDone st err)))
  | _, _ => Val s
  end.
Fixpoint erun (CE : cevaluator) (calls : list ccall) (s : econfig) (sched : list nat) : outcome econfig :=
  match sched with
  | [] => Val s
  | i :: sched' => let! s := estep CE calls s i in erun CE calls s sched'
  end.
Definition estart (calls : list ccall) : econfig :=
  mkEconfig (mkShared None (map (fun _ => []) calls)) (map (fun _ => GWait) calls).

(** What the call returns (enforcer.go:332-343). *)
Definition decision (q : ccall) (st : estate) (err : option goerr) : outcome (bool * option goerr) := enforce_finish (cq_expr q) st err.
(** The call when nothing else runs: enforcer.go:311-344 with the plain search. *)
Definition enforce_alone (CE : cevaluator) (q : ccall) : outcome (bool * option goerr) :=
  let! (st, err) := RangeMatches (alone_ev CE) (cq_ord q) (cq_mat q) (cq_rdef q) (cq_vals q) (callback q) estate0 in
  enforce_finish (cq_expr q) st err.

(** ** A concrete evaluator

    [EvalM.mini_ev] with the three sets of parameters: the text of an eval is
    evaluated with [bound], an eval in it with [inner] (matcher.go:235-255). *)
Fixpoint cmini_ev (F : funs) (depth : nat) (e : string) (own bound inner : params) : outcome (value + goerr) :=
  match shape_of e with
  | SBad => Val (inr ErrEval)
  | SWord a => operand own a
  | SEq a b => match operands own [a; b] with
               | Val (inl [x; y]) => Val (inl (VBool (value_eqb x y)))
               | Val (inr er) => Val (inr er)
               | _ => Panic
               end
  | SNeq a b => match operands own [a; b] with
                | Val (inl [x; y]) => Val (inl (VBool (negb (value_eqb x y))))
                | Val (inr er) => Val (inr er)
                | _ => Panic
                end
  | SCall f args =>
      match operands own args with
      | Panic => Panic
      | Val (inr er) => Val (inr er)
      | Val (inl vs) =>
          if String.eqb f "eval" then
            match vs with
            | [VStr t] => match depth with
                          | O => Val (inr ErrEval)
                          | S d => cmini_ev F d (arg_replace t) bound inner inner
                          end
            | [_] => Panic
            | _ => Val (inr ErrEval)
            end
          else match mget f F with
               | Some fn => fn vs
               | None => Val (inr ErrEval)
               end
      end
  end.
Definition cmini (F : funs) : cevaluator := mkCev (mini_parses F) (cmini_ev F 3).
