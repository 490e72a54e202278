(** Programs that recover from the panics of failing adapters.

    With autosave on, an error of the adapter becomes a panic of AddRule,
    RemoveRule, AddRules or RemoveRules.  [StorageM] ends there.  Here the panic
    is a result: the call returns the state in which it leaves the enforcer and
    the error it panics with, and the program goes on (recover).  The outer
    [Panic] is left for the panics of the model itself.

    Simplifications: what a panic in a listener leaves behind in the emitter
    (locks of the event library) is not modelled; the histories considered after
    a panic do not register or remove listeners. *)
From Verif Require Import GoBase PolicyM MatcherM ModelM StorageM.

(** controller.go:103-114 [addOp]: the change is appended and the wait counter
    decremented before the flush; when Flush fails the panic leaves the
    controller as Flush left it. *)
Definition f_addOp (W : world) (sc : controller) (log : list entry) (op : operation) : controller * list entry * option goerr :=
  let sc := with_q sc (sc_q sc ++ [op]) (sc_wait sc) in
  if sc_autosave sc then
    let sc := with_q sc (sc_q sc) (sc_wait sc - 1) in
    if (sc_wait sc <=? 0)%Z then Flush W sc log
    else (sc, log, None)
  else (sc, log, None).

(** controller.go:65-68: the listeners are called in turn; a panic ends the
    delivery. *)
Fixpoint f_deliver_to (W : world) (e : enforcer) (ls : list nat) (op : operation) : enforcer * option goerr :=
  match ls with
  | [] => (e, None)
  | i :: ls' =>
      match nth_error (f_scs e) i with
      | None => f_deliver_to W e ls' op       (* unreachable *)
      | Some sc =>
          match f_addOp W sc (f_log e) op with
          | (sc, log, None) => f_deliver_to W (set_log (put_sc e i sc) log) ls' op
          | (sc, log, Some err) => (set_log (put_sc e i sc) log, Some err)
          end
      end
  end.
Fixpoint f_deliver (W : world) (e : enforcer) (evs : list mevent) : enforcer * option goerr :=
  match evs with
  | [] => (e, None)
  | ev :: evs' =>
      match f_deliver_to W e (f_em e) (op_of ev) with
      | (e, None) => f_deliver W e evs'
      | (e, Some err) => (e, Some err)
      end
  end.

(** enforcer.go:178-191 with model.go:248-284: the model is changed
    before the event is emitted. *)
Definition f_model_call (E : env) (W : world) (o : orders) (e : enforcer) (c : mcall) : outcome (enforcer * (mresult + goerr)) :=
  let! (m, x) := mstep E o (f_model e) c in
  match f_deliver W (set_model e m) (x_events x) with
  | (e, None) => Val (e, inl x)
  | (e, Some err) => Val (e, inr err)
  end.

(** enforcer.go:204-209, 223-228: the loop; [inr] when one of its calls panics. *)
Fixpoint f_rules_loop (E : env) (W : world) (os : nat -> orders) (e : enforcer) (mk : rule -> mcall) (rs : list rule)
    : outcome (enforcer * (option goerr + goerr)) :=
  match rs with
  | [] => Val (e, inl None)
  | r :: rs' =>
      let! (e, x) := f_model_call E W (os 0) e (mk r) in
      match x with
      | inr err => Val (e, inr err)
      | inl x =>
          match x_err x with
          | Some err => Val (e, inl (Some err))
          | None => f_rules_loop E W (fun n => os (S n)) e mk rs'
          end
      end
  end.

(** enforcer.go:194-229 [AddRules], [RemoveRules]: the deferred function runs
    after the loop, also when the loop panicked; an error of its Flush is a
    (new) panic. *)
Definition f_rules_call (E : env) (W : world) (os : nat -> orders) (e : enforcer) (mk : rule -> mcall) (rs : list rule)
    : outcome (enforcer * (option goerr + goerr)) :=
  match nth_error (f_scs e) (f_sc e) with
  | None => Panic                           (* unreachable: e.sc is nil *)
  | Some sc =>
      if sc_autosave sc then
        let! (e, x) := f_rules_loop E W os (put_sc e (f_sc e) (set_autosave sc false)) mk rs in
        match nth_error (f_scs e) (f_sc e) with
        | None => Panic                     (* unreachable *)
        | Some sc =>
            match Flush W (set_autosave sc true) (f_log e) with
            | (sc, log, None) => Val (set_log (put_sc e (f_sc e) sc) log, x)
            | (sc, log, Some err) => Val (set_log (put_sc e (f_sc e) sc) log, inr err)
            end
        end
      else f_rules_loop E W os e mk rs
  end.

(** One call: [inl] what it returns, [inr] the error it panics with. *)
Definition f_step (E : env) (W : world) (os : nat -> orders) (e : enforcer) (c : ecall) : outcome (enforcer * (eresult + goerr)) :=
  match c with
  | EModel c =>
      let! (e, x) := f_model_call E W (os 0) e c in
      Val (e, match x with inl x => inl (mkERes (x_err x) (Some x)) | inr err => inr err end)
  | EAddRules rs =>
      let! (e, x) := f_rules_call E W os e CAdd rs in
      Val (e, match x with inl err => inl (mkERes err None) | inr err => inr err end)
  | ERemoveRules rs =>
      let! (e, x) := f_rules_call E W os e CRemove rs in
      Val (e, match x with inl err => inl (mkERes err None) | inr err => inr err end)
  | c => let! (e, r) := estep E W os e c in Val (e, inl r)
  end.
Fixpoint f_exec (E : env) (W : world) (e : enforcer) (h : list ((nat -> orders) * ecall)) : outcome (enforcer * list (eresult + goerr)) :=
  match h with
  | [] => Val (e, [])
  | (os, c) :: h' =>
      let! (e, x) := f_step E W os e c in
      let! (e, xs) := f_exec E W e h' in
      Val (e, x :: xs)
  end.
