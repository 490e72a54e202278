(** Model of storage/controller.go, storage/adapter.go,
    storage/adapter/noop_adapter.go and of the storage side of enforcer.go.

    - Adapters are external objects: an adapter is a number; what it answers to a
      call may depend on everything that was asked of any adapter before (the
      log).  Every call made to an external adapter is a log entry.
    - The emitter of the model is the list of controllers that have registered
      their two listeners, in registration order (the emitter is synchronous:
      model.go:105 em.NewEmitter(false)).
    - Controllers are pointers; they live in a heap.  Calls on a controller that
      is no longer the one of the enforcer (kept by the caller through
      GetStorageController) are not modelled. *)
From Verif Require Import GoBase PolicyM MatcherM ModelM.

(** controller.go:25-35 *)
Inductive opcode : Type := OpAdd | OpRemove.
Definition opcode_eqb (a b : opcode) : bool :=
  match a, b with OpAdd, OpAdd | OpRemove, OpRemove => true | _, _ => false end.
Definition operation : Type := opcode * rule.

(** adapter.go:22-51: what can be asked of an adapter.  [CSave] carries the
    rules it is given by RangeRules. *)
Inductive acall : Type :=
| CAddRule (r : rule) | CRemoveRule (r : rule)
| CAddRules (rs : list rule) | CRemoveRules (rs : list rule)
| CSavePolicy (rs : list rule) | CLoadPolicy.
Record entry : Type := mkEntry { en_id : nat; en_call : acall; en_err : option goerr }.

(** Which optional interface an adapter implements; the type switch in
    controller.go:175-182 tests BatchAdapter first. *)
Inductive akind : Type := KBatch | KSimple | KNone.

(** The world outside: kinds and answers of the adapters, the rules an adapter
    hands to LoadPolicy (with the error it ends with), and the rules of a policy
    file. *)
Record world : Type := mkWorld {
  w_kind : nat -> akind;
  w_answer : list entry -> nat -> acall -> option goerr;
  w_load : list entry -> nat -> list rule * option goerr;
  w_file : string -> list rule * option goerr
}.

(** An adapter value: a nil interface, a NoopAdapter (noop_adapter.go:5-10: a
    SimpleAdapter whose methods do nothing), or an external adapter. *)
Inductive aref : Type := ANil | ANoop | AExt (id : nat).
Definition kind_of (W : world) (a : aref) : akind :=
  match a with ANil => KNone | ANoop => KSimple | AExt id => w_kind W id end.

(** One call on an adapter of a suitable kind. *)
Definition ask (W : world) (a : aref) (c : acall) (log : list entry) : list entry * option goerr :=
  match a with
  | AExt id => let err := w_answer W log id c in (log ++ [mkEntry id c err], err)
  | _ => (log, None)
  end.

(** controller.go:42-49.  [sc_em] names the model whose emitter it uses. *)
Record controller : Type := mkSc {
  sc_autosave : bool; sc_em : nat; sc_adapter : aref;
  sc_q : list operation; sc_wait : Z; sc_listening : bool
}.

(** controller.go:188-199 [run]. *)
Definition run (W : world) (a : aref) (op : operation) (log : list entry) : list entry * option goerr :=
  match op with
  | (OpAdd, r) => ask W a (CAddRule r) log
  | (OpRemove, r) => ask W a (CRemoveRule r) log
  end.
(** controller.go:201-212 [runBatch]. *)
Definition runBatch (W : world) (a : aref) (o : opcode) (rs : list rule) (log : list entry) : list entry * option goerr :=
  match o with
  | OpAdd => ask W a (CAddRules rs) log
  | OpRemove => ask W a (CRemoveRules rs) log
  end.

(** controller.go:128-137 [flush]: the log, the queue left over, the error. *)
Fixpoint flush (W : world) (a : aref) (log : list entry) (q : list operation)
    : list entry * list operation * option goerr :=
  match q with
  | [] => (log, [], None)
  | op :: q' =>
      match run W a op log with
      | (log, Some e) => (log, q', Some e)
      | (log, None) => flush W a log q'
      end
  end.

(** controller.go:139-170 [batchFlush]. *)
Fixpoint batch_loop (W : world) (a : aref) (log : list entry) (cur : opcode) (rules : list rule) (q : list operation)
    : list entry * list operation * option goerr :=
  match q with
  | [] =>
      match rules with
      | [] => (log, [], None)
      | _ => match runBatch W a cur rules log with (log, err) => (log, [], err) end
      end
  | (o, r) :: q' =>
      if opcode_eqb cur o then batch_loop W a log cur (rules ++ [r]) q'
      else match runBatch W a cur rules log with
           | (log, Some e) => (log, q', Some e)
           | (log, None) => batch_loop W a log o [r] q'
           end
  end.
Definition batchFlush (W : world) (a : aref) (log : list entry) (q : list operation)
    : list entry * list operation * option goerr :=
  match q with
  | [] => batch_loop W a log OpAdd [] q
  | (o, _) :: _ => batch_loop W a log o [] q
  end.

Definition with_q (sc : controller) (q : list operation) (wait : Z) : controller :=
  mkSc (sc_autosave sc) (sc_em sc) (sc_adapter sc) q wait (sc_listening sc).

(** controller.go:172-186 [Flush]. *)
Definition Flush (W : world) (sc : controller) (log : list entry) : controller * list entry * option goerr :=
  let '(log, q, err) :=
    match kind_of W (sc_adapter sc) with
    | KBatch => batchFlush W (sc_adapter sc) log (sc_q sc)
    | KSimple => flush W (sc_adapter sc) log (sc_q sc)
    | KNone => (log, sc_q sc, Some ErrInvalidAdapter)
    end in
  (with_q sc q 0, log, err).

(** controller.go:103-114 [addOp]; an error of Flush is a panic. *)
Definition addOp (W : world) (sc : controller) (log : list entry) (op : operation) : outcome (controller * list entry) :=
  let sc := with_q sc (sc_q sc ++ [op]) (sc_wait sc) in
  if sc_autosave sc then
    let sc := with_q sc (sc_q sc) (sc_wait sc - 1) in
    if (sc_wait sc <=? 0)%Z then
      match Flush W sc log with
      | (sc, log, None) => Val (sc, log)
      | (_, _, Some _) => Panic
      end
    else Val (sc, log)
  else Val (sc, log).

(** controller.go:116-126 *)
Definition set_autosave (sc : controller) (b : bool) : controller :=
  mkSc b (sc_em sc) (sc_adapter sc) (sc_q sc) (sc_wait sc) (sc_listening sc).
(** controller.go:214-216 [AddWait]. *)
Definition AddWait (sc : controller) (i : Z) : controller := with_q sc (sc_q sc) (sc_wait sc + i).

(** ** The enforcer *)

(** enforcer.go:31-35.  [f_mid] is the identity of the model, [f_em] its
    emitter, [f_scs] the heap of controllers. *)
Record enforcer : Type := mkEnf {
  f_model : model; f_mid : nat; f_em : list nat;
  f_scs : list controller; f_sc : nat; f_adapter : aref;
  f_log : list entry
}.
Definition set_model e m := mkEnf m (f_mid e) (f_em e) (f_scs e) (f_sc e) (f_adapter e) (f_log e).
Definition set_em e em := mkEnf (f_model e) (f_mid e) em (f_scs e) (f_sc e) (f_adapter e) (f_log e).
Definition set_scs e x := mkEnf (f_model e) (f_mid e) (f_em e) x (f_sc e) (f_adapter e) (f_log e).
Definition set_log e l := mkEnf (f_model e) (f_mid e) (f_em e) (f_scs e) (f_sc e) (f_adapter e) l.

Definition upd {A} (l : list A) (i : nat) (x : A) : list A := firstn i l ++ x :: skipn (S i) l.
Definition put_sc (e : enforcer) (i : nat) (sc : controller) : enforcer :=
  match nth_error (f_scs e) i with
  | None => e
  | Some _ => set_scs e (upd (f_scs e) i sc)
  end.

Definition listen (sc : controller) (b : bool) : controller :=
  mkSc (sc_autosave sc) (sc_em sc) (sc_adapter sc) (sc_q sc) (sc_wait sc) b.

(** controller.go:77-94 [Enable] with 64-71: both listeners go to the emitter
    the controller was made with. *)
Definition Enable (e : enforcer) (i : nat) : enforcer :=
  match nth_error (f_scs e) i with
  | None => e
  | Some sc =>
      if sc_listening sc then e
      else let e := put_sc e i (listen sc true) in
           if Nat.eqb (sc_em sc) (f_mid e) then set_em e (f_em e ++ [i]) else e
  end.
(** controller.go:96-101 [Disable]. *)
Definition Disable (e : enforcer) (i : nat) : enforcer :=
  match nth_error (f_scs e) i with
  | None => e
  | Some sc =>
      let e := put_sc e i (listen sc false) in
      if Nat.eqb (sc_em sc) (f_mid e) then set_em e (filter (fun j => negb (Nat.eqb j i)) (f_em e)) else e
  end.

(** enforcer.go:133-141 [SetAdapter] with controller.go:51-62. *)
Definition SetAdapter (e : enforcer) (a : aref) : enforcer :=
  let autosave := match nth_error (f_scs e) (f_sc e) with Some sc => sc_autosave sc | None => false end in
  let e := match nth_error (f_scs e) (f_sc e) with Some _ => Disable e (f_sc e) | None => e end in
  let i := List.length (f_scs e) in
  let e := set_scs e (f_scs e ++ [mkSc autosave (f_mid e) a [] 0 false]) in
  let e := Enable e i in
  mkEnf (f_model e) (f_mid e) (f_em e) (f_scs e) i a (f_log e).

(** One event of the model reaches the listeners (controller.go:65-68). *)
Definition op_of (ev : mevent) : operation :=
  match ev with MAdded r => (OpAdd, r) | MRemoved r => (OpRemove, r) end.
Fixpoint deliver_to (W : world) (e : enforcer) (ls : list nat) (op : operation) : outcome enforcer :=
  match ls with
  | [] => Val e
  | i :: ls' =>
      match nth_error (f_scs e) i with
      | None => deliver_to W e ls' op         (* unreachable *)
      | Some sc =>
          let! (sc, log) := addOp W sc (f_log e) op in
          deliver_to W (set_log (put_sc e i sc) log) ls' op
      end
  end.
Fixpoint deliver (W : world) (e : enforcer) (evs : list mevent) : outcome enforcer :=
  match evs with
  | [] => Val e
  | ev :: evs' => let! e := deliver_to W e (f_em e) (op_of ev) in deliver W e evs'
  end.

(** A call on the model of the enforcer, directly or through
    enforcer.go:178-191 [AddRule], [RemoveRule]. *)
Definition model_call (E : env) (W : world) (o : orders) (e : enforcer) (c : mcall) : outcome (enforcer * mresult) :=
  let! (m, x) := mstep E o (f_model e) c in
  let! e := deliver W (set_model e m) (x_events x) in
  Val (e, x).

(** A loop of AddRule/RemoveRule calls that ends at the first error, as in
    enforcer.go:204-209 and 223-228 and fileadapter.go:89-93; the n-th call ranges
    over maps in the orders [os n]. *)
Fixpoint rules_loop (E : env) (W : world) (os : nat -> orders) (e : enforcer) (mk : rule -> mcall) (rs : list rule)
    : outcome (enforcer * option goerr) :=
  match rs with
  | [] => Val (e, None)
  | r :: rs' =>
      let! (e, x) := model_call E W (os 0) e (mk r) in
      match x_err x with
      | Some err => Val (e, Some err)
      | None => rules_loop E W (fun n => os (S n)) e mk rs'
      end
  end.

(** enforcer.go:194-229 [AddRules], [RemoveRules]; [mk] is [CAdd] or [CRemove].
    The deferred function runs after the loop; an error of its Flush is a
    panic. *)
Definition rules_call (E : env) (W : world) (os : nat -> orders) (e : enforcer) (mk : rule -> mcall) (rs : list rule)
    : outcome (enforcer * option goerr) :=
  match nth_error (f_scs e) (f_sc e) with
  | None => Panic                           (* unreachable: e.sc is nil *)
  | Some sc =>
      if sc_autosave sc then
        let! (e, err) := rules_loop E W os (put_sc e (f_sc e) (set_autosave sc false)) mk rs in
        match nth_error (f_scs e) (f_sc e) with
        | None => Panic                     (* unreachable *)
        | Some sc =>
            match Flush W (set_autosave sc true) (f_log e) with
            | (sc, log, None) => Val (set_log (put_sc e (f_sc e) sc) log, err)
            | (_, _, Some _) => Panic
            end
        end
      else rules_loop E W os e mk rs
  end.

(** An adapter's LoadPolicy: it adds its rules one by one, ends at the first
    error of the model, and else returns its own error, if any. *)
Definition load_from (E : env) (W : world) (os : nat -> orders) (e : enforcer) (src : list rule * option goerr)
    : outcome (enforcer * option goerr) :=
  let! (e, err) := rules_loop E W os e CAdd (fst src) in
  Val (e, match err with Some x => Some x | None => snd src end).

(** enforcer.go:149-155 [LoadPolicy]; a nil adapter is a panic. *)
Definition LoadPolicy (E : env) (W : world) (os : nat -> orders) (e : enforcer) : outcome (enforcer * option goerr) :=
  match nth_error (f_scs e) (f_sc e) with
  | None => Panic                           (* unreachable: e.sc is nil *)
  | Some sc =>
      let was := sc_listening sc in
      let e := if was then Disable e (f_sc e) else e in
      let! (e, err) :=
        match f_adapter e with
        | ANil => Panic
        | ANoop => Val (e, None)
        | AExt id => let src := w_load W (f_log e) id in
                     load_from E W os (set_log e (f_log e ++ [mkEntry id CLoadPolicy (snd src)])) src
        end in
      Val (if was then Enable e (f_sc e) else e, err)
  end.

(** enforcer.go:158-160 [SavePolicy]. *)
Definition SavePolicy (W : world) (o : orders) (e : enforcer) : outcome (enforcer * option goerr) :=
  match f_adapter e with
  | ANil => Panic
  | a => let (log, err) := ask W a (CSavePolicy (model_rules o (f_model e))) (f_log e) in Val (set_log e log, err)
  end.

(** enforcer.go:45-68 [OptionAutosave], [OptionStorage]. *)
Inductive eoption : Type := OptAutosave (b : bool) | OptStorage (b : bool).
Definition SetOption (e : enforcer) (op : eoption) : enforcer :=
  match op with
  | OptAutosave b => match nth_error (f_scs e) (f_sc e) with
                     | Some sc => put_sc e (f_sc e) (set_autosave sc b)
                     | None => e
                     end
  | OptStorage true => Enable e (f_sc e)
  | OptStorage false => Disable e (f_sc e)
  end.

(** enforcer.go:80-121 [NewEnforcer] with a model value; model files go through
    the ini parser, which is not modelled.  In the first case of the adapter
    switch [a3 :=] declares a new variable (enforcer.go:101), so that the outer
    [a3] stays nil.  The model is assumed to have no other listeners. *)
Inductive aarg : Type := ArgPath (path : string) | ArgAdapter (a : aref) | ArgOther.
Definition NewEnforcer (E : env) (W : world) (os : nat -> orders) (m : model) (arg : aarg) (opts : list eoption)
    : outcome (enforcer + goerr) :=
  let e := mkEnf m 0 [] [] 0 ANil [] in
  match arg with
  | ArgPath path =>
      let! (e, err) := load_from E W os e (w_file W path) in
      match err with
      | Some x => Val (inr x)
      | None => Val (inl (fold_left SetOption opts (SetAdapter e ANil)))
      end
  | ArgAdapter a => Val (inl (fold_left SetOption opts (SetAdapter e a)))
  | ArgOther => Val (inl (fold_left SetOption (OptStorage false :: opts) (SetAdapter e ANoop)))
  end.

(** ** Histories of calls on an enforcer *)
Inductive ecall : Type :=
| EModel (c : mcall)              (* AddRule, RemoveRule, or a call on GetModel() *)
| EAddRules (rs : list rule)
| ERemoveRules (rs : list rule)
| EFlush
| ESave
| ELoad
| ESetAdapter (a : aref)
| EOption (op : eoption)
| EAddWait (i : Z)                (* GetStorageController().AddWait *)
| ESetModel (m : model).          (* a model not used by the enforcer before *)

(** What a call returns: an error, and the result of a model call. *)
Record eresult : Type := mkERes { y_err : option goerr; y_model : option mresult }.

Definition estep (E : env) (W : world) (os : nat -> orders) (e : enforcer) (c : ecall) : outcome (enforcer * eresult) :=
  match c with
  | EModel c => let! (e, x) := model_call E W (os 0) e c in Val (e, mkERes (x_err x) (Some x))
  | EAddRules rs => let! (e, err) := rules_call E W os e CAdd rs in Val (e, mkERes err None)
  | ERemoveRules rs => let! (e, err) := rules_call E W os e CRemove rs in Val (e, mkERes err None)
  | EFlush =>
      match nth_error (f_scs e) (f_sc e) with
      | None => Panic                       (* unreachable: e.sc is nil *)
      | Some sc => let '(sc, log, err) := Flush W sc (f_log e) in
                   Val (set_log (put_sc e (f_sc e) sc) log, mkERes err None)
      end
  | ESave => let! (e, err) := SavePolicy W (os 0) e in Val (e, mkERes err None)
  | ELoad => let! (e, err) := LoadPolicy E W os e in Val (e, mkERes err None)
  | ESetAdapter a => Val (SetAdapter e a, mkERes None None)
  | EOption op => Val (SetOption e op, mkERes None None)
  | EAddWait i => match nth_error (f_scs e) (f_sc e) with
                  | None => Panic           (* unreachable: e.sc is nil *)
                  | Some sc => Val (put_sc e (f_sc e) (AddWait sc i), mkERes None None)
                  end
  | ESetModel m => Val (mkEnf m (S (f_mid e)) [] (f_scs e) (f_sc e) (f_adapter e) (f_log e), mkERes None None)
  end.

Fixpoint eexec (E : env) (W : world) (e : enforcer) (h : list ((nat -> orders) * ecall)) : outcome (enforcer * list eresult) :=
  match h with
  | [] => Val (e, [])
  | (os, c) :: h' =>
      let! (e, r) := estep E W os e c in
      let! (e, rs) := eexec E W e h' in
      Val (e, r :: rs)
  end.
