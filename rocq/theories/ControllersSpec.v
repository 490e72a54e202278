(** What the storage controllers of one model are told and what they pass on. *)
From Verif Require Import GoBase PolicyM PolicySpec MatcherM ModelM ModelSpec StorageM StorageSpec ControllersM.

(** The changes a controller has not passed on yet, and whether it learns of the
    changes of the enforcer's model: it is enabled and was made on this model. *)
Definition pending (i : nat) (e : enforcer) : list operation := match nth_error (f_scs e) i with Some sc => sc_q sc | None => [] end.
Definition hearing (i : nat) (e : enforcer) : bool :=
  match nth_error (f_scs e) i with Some sc => sc_listening sc && Nat.eqb (sc_em sc) (f_mid e) | None => false end.

(** The calls on the model that a call consists of. *)
Definition k_part (W : world) (os : nat -> orders) (e : enforcer) (c : kcall) (hm : list (orders * mcall)) : Prop :=
  match c with
  | KEnf ELoad => match f_adapter e with
                  | AExt id => exists n, hm = firstn n (rule_calls os CAdd (fst (w_load W (f_log e) id)))
                  | _ => hm = []
                  end
  | KEnf c => model_part os c hm
  | _ => hm = []
  end.

(** Of the changes announced during a call a controller learns those of the time it
    is hearing: all or none, and LoadPolicy hides its changes from the controller of
    the enforcer. *)
Definition told (i : nat) (e : enforcer) (c : kcall) (ops : list operation) : list operation :=
  match c with
  | KEnf ELoad => if hearing i e && negb (Nat.eqb i (f_sc e)) then ops else []
  | _ => if hearing i e then ops else []
  end.

(** A run, the calls on the model it consists of, and what controller [i] is told. *)
Inductive khears (E : env) (W : world) (i : nat) : enforcer -> list ((nat -> orders) * kcall) -> enforcer -> list (orders * mcall) -> list operation -> Prop :=
| khears_nil e : khears E W i e [] e [] []
| khears_cons os c h e e1 e' r hm xs hm' ops :
    kstep E W os e c = Val (e1, r) -> k_part W os e c hm -> mexec E (f_model e) hm = Val (f_model e1, xs) ->
    khears E W i e1 h e' hm' ops -> khears E W i e ((os, c) :: h) e' (hm ++ hm') (told i e c (announced xs) ++ ops).

(** Adapter [id] belongs to controller [i] and to no other. *)
Definition sole (i id : nat) (e : enforcer) : Prop :=
  (exists sc, nth_error (f_scs e) i = Some sc /\ sc_adapter sc = AExt id) /\
  forall j sc, nth_error (f_scs e) j = Some sc -> sc_adapter sc = AExt id -> j = i.

(** SetModel is left out: the calls are on one model. *)
Definition one_model (c : kcall) : Prop := match c with KEnf (ESetModel _) => False | _ => True end.

(** The states: made by NewEnforcer and reached by any calls. *)
Definition reachable_controllers (E : env) (W : world) (e : enforcer) : Prop :=
  exists os m arg opts e0 h rs,
    NewEnforcer E W os m arg opts = Val (inl e0) /\ kexec E W e0 h = Val (e, rs).

(** Controller [i] is not switched off by a call when [k] is the enforcer's. *)
Definition keeps_hearing (i k : nat) (c : kcall) : Prop :=
  match c with
  | KDisable j => j <> i
  | KEnf (EOption (OptStorage false)) | KEnf (ESetAdapter _) | KEnf ELoad => k <> i
  | KEnf (ESetModel _) => False
  | _ => True
  end.
(** Rule changes in the form in which the model lists rules (StorageSpec), and rules
    of that form in what is loaded. *)
Definition k_plain (W : world) (hs : list (orders * mcall)) (c : kcall) : Prop :=
  match c with
  | KEnf ELoad => forall log id, Forall (plain_rule hs) (fst (w_load W log id))
  | KEnf c => plain_call hs c
  | _ => True
  end.
