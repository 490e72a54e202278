(** Model of Enforce with an effector written by the user of the library
    (model/effector/effector.go:19-25, passed with the context option SetEffector or
    stored with Model.SetEffector). *)
From Verif Require Import GoBase DefsM PolicyM EffectorM MatcherDefM MatcherM RbacM DomainM ModelM EnforcerM.

(** effector.go:20-25 [IEffector]: any implementation, with a state of its own; it
    may panic. *)
Definition merger (S : Type) : Type := S -> list effect -> list rule -> bool -> outcome (S * (effect * rule * option goerr)).

Section User.
  Context {S : Type}.
  Variable X : merger S.

  (** enforcer.go:314-318: the captured variables, with the state of the effector.
      The flag says that the effector panicked inside the callback. *)
  Record ustate : Type := mkUstate { us_s : S; us_res : effect; us_effects : list effect; us_matches : list rule; us_err : option goerr; us_panic : bool }.
  Definition ustate0 (s : S) : ustate := mkUstate s Indeterminate [] [] None false.

  (** enforcer.go:319-331: the callback. *)
  Definition user_fn (pDef : argdef) (st : ustate) (r : rule) : ustate * bool :=
    let effects := us_effects st ++ [GetEft pDef r] in
    let matches := us_matches st ++ [r] in
    match X (us_s st) effects matches false with
    | Panic => (mkUstate (us_s st) (us_res st) effects matches (us_err st) true, false)
    | Val (s, (res, _, err)) =>
        (mkUstate s res effects matches err false,
         match err with Some _ => false | None => effect_eqb res Indeterminate end)
    end.

  (** enforcer.go:332-343; the error of the last call is dropped. *)
  Definition user_finish (st : ustate) (err : option goerr) : outcome (S * (bool * option goerr)) :=
    if us_panic st then Panic else
    match err with
    | Some e => Val (us_s st, (false, Some e))
    | None =>
        match us_err st with
        | Some _ => Val (us_s st, (false, err))
        | None =>
            if effect_eqb (us_res st) Indeterminate then
              let! x := X (us_s st) (us_effects st) (us_matches st) true in
              let '(s, (res, _, _)) := x in Val (s, (effect_eqb res Allow, None))
            else Val (us_s st, (effect_eqb (us_res st) Allow, None))
        end
    end.

  (** enforcer.go:311-344 [enforce], as in EnforcerM, with the effector of the
      context. *)
  Definition enforce_user (E : env) (o : orders) (m : model) (x : ctx) (rvals : list value) (s : S) : outcome (S * (bool * option goerr)) :=
    match c_m x with
    | None => Panic
    | Some j =>
        match nth_error (md_mats m) j with
        | None => Panic
        | Some y =>
            match mget (ad_key (m_def y)) (md_p m) with
            | None => Panic
            | Some pDef =>
                let! (st, err) := RangeMatchesWithContext E o m x rvals (user_fn pDef) (ustate0 s) in
                user_finish st err
            end
        end
    end.

  (** enforcer.go:250-256 [Enforce] when the last effector given is the user's
      (context.go:82-83), or when none is given and it is the one stored under "e"
      (context.go:71, 111-113).  The default of [NewContext] does not fail and does
      not change anything else, so running it is harmless. *)
  Definition EnforceUser (E : env) (o : orders) (m : model) (ps : list param) (s : S) : outcome (model * (S * (bool * option goerr))) :=
    let! (m, c, rvals) := splitParams E o m ps in
    match c with
    | inr e => Val (m, (s, (false, Some e)))
    | inl x => let! r := enforce_user E o m x rvals s in Val (m, r)
    end.
End User.
