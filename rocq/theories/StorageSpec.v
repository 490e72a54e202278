(** What a user of the storage side observes, and what adapters do.
    Independent of the controller's loops. *)
From Verif Require Import GoBase PolicyM PolicySpec MatcherM ModelM ModelSpec StorageM.

(** ** Observations *)
Definition cur (e : enforcer) : option controller := nth_error (f_scs e) (f_sc e).
Definition queue (e : enforcer) : list operation := match cur e with Some sc => sc_q sc | None => [] end.
Definition autosave (e : enforcer) : bool := match cur e with Some sc => sc_autosave sc | None => false end.
Definition enabled (e : enforcer) : bool := match cur e with Some sc => sc_listening sc | None => false end.
Definition waiting (e : enforcer) : Z := match cur e with Some sc => sc_wait sc | None => 0%Z end.
(** The controller listens to the model of the enforcer. *)
Definition attached (e : enforcer) : Prop := exists sc, cur e = Some sc /\ sc_em sc = f_mid e.

(** ** Adapters *)

(** The changes an adapter call asks for. *)
Definition changes (c : acall) : list operation :=
  match c with
  | CAddRule r => [(OpAdd, r)]
  | CRemoveRule r => [(OpRemove, r)]
  | CAddRules rs => map (pair OpAdd) rs
  | CRemoveRules rs => map (pair OpRemove) rs
  | CSavePolicy _ | CLoadPolicy => []
  end.
(** The changes adapter [id] has accepted, in order. *)
Definition accepted (id : nat) (es : list entry) : list operation :=
  flat_map (fun en => if Nat.eqb (en_id en) id then match en_err en with None => changes (en_call en) | Some _ => [] end else []) es.

(** An adapter that never fails and takes single or batched changes. *)
Definition accepts (W : world) (id : nat) : Prop :=
  w_kind W id <> KNone /\ forall log c, w_answer W log id c = None.

(** The rule set an adapter holds. *)
Definition apply_op (s : rset) (op : operation) : rset :=
  match op with (OpAdd, r) => set_add r s | (OpRemove, r) => set_remove r s end.
Definition store_step (id : nat) (s : rset) (en : entry) : rset :=
  if Nat.eqb (en_id en) id then
    match en_err en, en_call en with
    | None, CSavePolicy rs => fun r => if in_dec rule_eq_dec r rs then true else false
    | None, c => fold_left apply_op (changes c) s
    | Some _, _ => s
    end
  else s.
Definition stored (id : nat) (s : rset) (es : list entry) : rset := fold_left (store_step id) es s.

(** The maximal runs of equal operations of a queue. *)
Definition ungroup (gs : list (opcode * list rule)) : list operation :=
  flat_map (fun g => map (pair (fst g)) (snd g)) gs.
Fixpoint alternating (gs : list (opcode * list rule)) : Prop :=
  match gs with
  | g :: ((g' :: _) as gs') => fst g <> fst g' /\ alternating gs'
  | _ => True
  end.
Definition runs (q : list operation) (gs : list (opcode * list rule)) : Prop :=
  ungroup gs = q /\ Forall (fun g => snd g <> []) gs /\ alternating gs.

Definition single (op : operation) : acall :=
  match op with (OpAdd, r) => CAddRule r | (OpRemove, r) => CRemoveRule r end.
Definition batch (g : opcode * list rule) : acall :=
  match g with (OpAdd, rs) => CAddRules rs | (OpRemove, rs) => CRemoveRules rs end.

(** ** Histories *)

(** The calls on the model that a call of the enforcer consists of: AddRules and
    RemoveRules are rule calls, up to the first failing one. *)
Fixpoint rule_calls (os : nat -> orders) (mk : rule -> mcall) (rs : list rule) : list (orders * mcall) :=
  match rs with
  | [] => []
  | r :: rs' => (os 0, mk r) :: rule_calls (fun n => os (S n)) mk rs'
  end.
Definition model_part (os : nat -> orders) (c : ecall) (hm : list (orders * mcall)) : Prop :=
  match c with
  | EModel c => hm = [(os 0, c)]
  | EAddRules rs => exists n, hm = firstn n (rule_calls os CAdd rs)
  | ERemoveRules rs => exists n, hm = firstn n (rule_calls os CRemove rs)
  | _ => hm = []
  end.
Inductive model_parts : list ((nat -> orders) * ecall) -> list (orders * mcall) -> Prop :=
| parts_nil : model_parts [] []
| parts_cons os c h hm hm' : model_part os c hm -> model_parts h hm' -> model_parts ((os, c) :: h) (hm ++ hm').

(** Calls that leave the storage set-up alone. *)
Definition keeps_storage (c : ecall) : Prop :=
  match c with
  | ELoad | ESetAdapter _ | ESetModel _ | EOption (OptStorage _) => False
  | _ => True
  end.
Definition eorders (h : list ((nat -> orders) * ecall)) : Prop := Forall (fun c => forall n, good_orders (fst c n)) h.

(** Calls that change rules one by one, with rules of the form in which the model
    lists them (a grouping section without domains drops further values), after
    the model was set up by [hs]. *)
Definition plain_rule (hs : list (orders * mcall)) (rl : rule) : Prop := tame_rule rl /\ as_listed hs rl = rl.
Definition plain_call (hs : list (orders * mcall)) (c : ecall) : Prop :=
  match c with
  | EModel (CAdd rl) | EModel (CRemove rl) => plain_rule hs rl
  | EModel c => rule_call c
  | EAddRules rs | ERemoveRules rs => Forall (plain_rule hs) rs
  | _ => True
  end.

(** The states of an enforcer: made by NewEnforcer and reached by any calls. *)
Definition reachable_enforcer (E : env) (W : world) (e : enforcer) : Prop :=
  exists os m arg opts e0 h rs,
    NewEnforcer E W os m arg opts = Val (inl e0) /\ eexec E W e0 h = Val (e, rs).

(** One complete flush of the queue [q] to adapter [a]: what is appended to the
    log.  Single calls in order for a simple adapter, maximal runs for a batch
    adapter, nothing for the NoopAdapter. *)
Definition flushed (W : world) (a : aref) (q : list operation) (es : list entry) : Prop :=
  match a with
  | ANil => False
  | ANoop => es = []
  | AExt id =>
      match w_kind W id with
      | KSimple => es = map (fun op => mkEntry id (single op) None) q
      | KBatch => exists gs, runs q gs /\ es = map (fun g => mkEntry id (batch g) None) gs
      | KNone => False
      end
  end.

(** The changes that a piece of model history has announced. *)
Definition announced (xs : list mresult) : list operation :=
  map (fun ev => match ev with MAdded r => (OpAdd, r) | MRemoved r => (OpRemove, r) end) (flat_map x_events xs).

(** A sequence of rule calls on a model that ends at the first error. *)
Definition all_ok (xs : list mresult) : Prop := Forall (fun x => x_err x = None) xs.

(** What the loop does to the model: the calls up to the first error. *)
Definition until_error (E : env) (m : model) (calls : list (orders * mcall)) (m' : model) (xs : list mresult) (err : option goerr) : Prop :=
  exists n, mexec E m (firstn n calls) = Val (m', xs) /\
    match err with
    | None => firstn n calls = calls /\ all_ok xs
    | Some x => exists xs0 xl, xs = xs0 ++ [xl] /\ all_ok xs0 /\ x_err xl = Some x
    end.

(** Calls on the model of the enforcer, one after the other. *)
Definition model_calls (hm : list (orders * mcall)) : list ((nat -> orders) * ecall) :=
  map (fun oc => (fun _ => fst oc, EModel (snd oc))) hm.
