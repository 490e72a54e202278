(** Model of model/effector/default_effector.go and of the decision loop of
    enforcer.go:311-344. *)
From Verif Require Import GoBase DefsM PolicyM.

(** default_effector.go:37-82 [MergeEffects].  Returns the effect, the match
    and whether an error is returned; [effects[0]] panics when there is no
    effect. *)
Definition MergeEffects (expr : string) (effects : list effect) (matches : list rule)
    (complete : bool) : outcome (effect * rule * option goerr) :=
  if complete then
    if String.eqb expr SOME_ALLOW then Val (Deny, [], None)
    else if String.eqb expr NO_DENY then Val (Allow, [], None)
    else if String.eqb expr SOME_ALLOW_NO_DENY then
      match matches with
      | [] => Val (Deny, [], None)
      | m0 :: _ => match effects with
                   | [] => Panic
                   | e0 :: _ => Val (e0, m0, None)
                   end
      end
    else Val (Deny, [], Some ErrUnsupportedEffect)
  else
    let effect := last effects Indeterminate in
    let mtch := last matches [] in
    if String.eqb expr SOME_ALLOW then
      if effect_eqb effect Allow then Val (effect, mtch, None) else Val (Indeterminate, mtch, None)
    else if String.eqb expr NO_DENY then
      if effect_eqb effect Deny then Val (effect, mtch, None) else Val (Indeterminate, mtch, None)
    else if String.eqb expr SOME_ALLOW_NO_DENY then
      if effect_eqb effect Deny then Val (effect, mtch, None) else Val (Indeterminate, mtch, None)
    else Val (Deny, [], Some ErrUnsupportedEffect).

(** The variables captured by the callback, enforcer.go:314-318. *)
Record estate : Type := mkEstate {
  es_res : effect;
  es_effects : list effect;
  es_matches : list rule;
  es_err : option goerr;
  es_panic : bool           (* a panic inside the callback *)
}.

Definition estate0 : estate := mkEstate Indeterminate [] [] None false.

(** enforcer.go:319-331: the callback of [enforce].  The boolean is the value
    it returns to RangeMatches. *)
Definition enforce_fn (expr : string) (pDef : argdef) (st : estate) (r : rule) : estate * bool :=
  let effects := es_effects st ++ [GetEft pDef r] in
  let matches := es_matches st ++ [r] in
  match MergeEffects expr effects matches false with
  | Panic => (mkEstate (es_res st) effects matches (es_err st) true, false)
  | Val (res, _, err) =>
      let st' := mkEstate res effects matches err false in
      match err with
      | Some _ => (st', false)
      | None => if effect_eqb res Indeterminate then (st', true) else (st', false)
      end
  end.

(** enforcer.go:332-343: after RangeMatches returned [err].  The result is the
    pair (decision, error) returned by Enforce. *)
Definition enforce_finish (expr : string) (st : estate) (err : option goerr)
    : outcome (bool * option goerr) :=
  if es_panic st then Panic else
  match err with
  | Some e => Val (false, Some e)
  | None =>
      match es_err st with
      | Some _ => Val (false, err)          (* "return false, err": err is nil here *)
      | None =>
          if effect_eqb (es_res st) Indeterminate then
            let! x := MergeEffects expr (es_effects st) (es_matches st) true in
            let '(res, _, _) := x in Val (effect_eqb res Allow, None)
          else Val (effect_eqb (es_res st) Allow, None)
      end
  end.

(** The decision when RangeMatches would deliver the matching rules [ms] in
    that order and ends with [err] unless the callback stops it. *)
Definition decide (expr : string) (pDef : argdef) (ms : list rule) (err : option goerr)
    : outcome (bool * option goerr) :=
  match range_vals (enforce_fn expr pDef) estate0 ms with
  | (st, true) => enforce_finish expr st err
  | (st, false) => enforce_finish expr st None
  end.
