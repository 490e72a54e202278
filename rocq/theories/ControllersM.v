(** Model of storage controllers in the hands of the user: those kept from
    GetStorageController, also after SetAdapter has replaced them, and further ones
    made with storage.NewStorageController on the model of the enforcer. *)
From Verif Require Import GoBase PolicyM MatcherM ModelM StorageM.

(** Calls on the enforcer, and calls on the i-th controller made; the enforcer makes
    one in NewEnforcer and one in each SetAdapter. *)
Inductive kcall : Type :=
| KEnf (c : ecall)                    (* a call on the enforcer or its model (StorageM) *)
| KNew (a : aref) (autosave : bool)   (* storage.NewStorageController(e.GetModel(), a, autosave) *)
| KFlush (i : nat)
| KEnable (i : nat)
| KDisable (i : nat)
| KAutosave (i : nat) (b : bool)      (* EnableAutosave, DisableAutosave *)
| KWait (i : nat) (n : Z).            (* AddWait *)

(** controller.go:51-62 [NewStorageController]. *)
Definition NewController (e : enforcer) (a : aref) (autosave : bool) : enforcer :=
  Enable (set_scs e (f_scs e ++ [mkSc autosave (f_mid e) a [] 0 false])) (List.length (f_scs e)).

Definition kstep (E : env) (W : world) (os : nat -> orders) (e : enforcer) (c : kcall) : outcome (enforcer * eresult) :=
  match c with
  | KEnf c => estep E W os e c
  | KNew a b => Val (NewController e a b, mkERes None None)
  (* controller.go:172-186 *)
  | KFlush i => match nth_error (f_scs e) i with
                | None => Panic                 (* unreachable: there is no such controller *)
                | Some sc => let '(sc, log, err) := Flush W sc (f_log e) in
                             Val (set_log (put_sc e i sc) log, mkERes err None)
                end
  | KEnable i => Val (Enable e i, mkERes None None)
  | KDisable i => Val (Disable e i, mkERes None None)
  (* controller.go:116-122, 214-216 *)
  | KAutosave i b => match nth_error (f_scs e) i with
                     | None => Panic            (* unreachable *)
                     | Some sc => Val (put_sc e i (set_autosave sc b), mkERes None None)
                     end
  | KWait i n => match nth_error (f_scs e) i with
                 | None => Panic                (* unreachable *)
                 | Some sc => Val (put_sc e i (AddWait sc n), mkERes None None)
                 end
  end.

Fixpoint kexec (E : env) (W : world) (e : enforcer) (h : list ((nat -> orders) * kcall)) : outcome (enforcer * list eresult) :=
  match h with
  | [] => Val (e, [])
  | (os, c) :: h' =>
      let! (e, r) := kstep E W os e c in
      let! (e, rs) := kexec E W e h' in
      Val (e, r :: rs)
  end.
