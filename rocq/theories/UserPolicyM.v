(** Model of policies written by the user: any implementation of
    model/policy/policy_api.go:15-22 [IPolicy] that is handed to a model with
    model/model.go:325-327 [SetPolicy]. *)
From Verif Require Import GoBase PolicyM MatcherDefM MatcherM ModelM.

(** An implementation of [IPolicy] (policy_api.go:15-22) with states [S].
    [u_AddRule], [u_RemoveRule] and [u_Clear] give the new state, what is returned,
    and the events the policy emits to those that listen to it
    (policy_api.go:9-13); any of them may panic.  [u_Own] is what its owner can do
    to it behind the model's back, [A] being the things the owner can do.
    [u_Range] are the rules it gives to a callback that never stops.

    Simplifications: the errors a policy returns are those of GoBase; the rules
    of [Range] are visited in the order that [o_rules] of the call makes of
    [u_Range], so that the order of [u_Range] itself does not matter; emitting an
    event calls the listeners, which do not look at the policy, so it does not
    matter when during a call the events are emitted; one object is not handed
    over twice. *)
Record upolicy (S A : Type) : Type := mkUPolicy {
  u_AddRule : S -> rule -> outcome (S * bool * option goerr * list event);
  u_RemoveRule : S -> rule -> outcome (S * bool * option goerr * list event);
  u_Clear : S -> outcome (S * option goerr * list event);
  u_Own : S -> A -> outcome (S * list event);
  u_Range : S -> list rule
}.
Arguments u_AddRule {S A}. Arguments u_RemoveRule {S A}. Arguments u_Clear {S A}. Arguments u_Own {S A}.
Arguments u_Range {S A}.

Section UserPolicy.
  Context {S A : Type} (U : upolicy S A) (E : env).

  (** A model with user-written policies among its policy objects: [um_state i]
      is the state of object [i] when the user wrote it.  The body of such an
      object is what its [Range] gives, which is all that model.go:406-419
      [RangeRules] and matcher.go:85-113 [NewMatcher] see of it. *)
  Record umodel : Type := mkUM { um_m : model; um_state : nat -> option S }.
  Definition put_state (f : nat -> option S) (i : nat) (s : S) : nat -> option S :=
    fun j => if Nat.eqb j i then Some s else f j.

  (** model.go:87-108 [NewModel]. *)
  Definition NewUModel : umodel := mkUM (NewModel E) (fun _ => None).

  Definition listing (l : list rule) : policy := map (fun r => (Hash r, r)) l.

  (** The user's policy in section [key], and its state. *)
  Definition user_policy (um : umodel) (key : string) : option (nat * S) :=
    match mget key (md_pMap (um_m um)) with
    | None => None
    | Some i => match um_state um i with None => None | Some s => Some (i, s) end
    end.

  (** Object [i] goes to state [s] and emits [es] to its listeners: the matchers
      that matcher.go:97-110 attached. *)
  Definition u_become (um : umodel) (i : nat) (s : S) (es : list event) : outcome umodel :=
    let m := um_m um in
    match nth_error (md_objs m) i with
    | None => Panic                         (* unreachable *)
    | Some ob =>
        let! ms := notify_all (md_mats m) (o_listeners ob) es in
        Val (mkUM (set_mats (set_objs m (set_nth (md_objs m) i (mkObj (OPolicy (listing (u_Range U s))) (o_listeners ob)))) ms)
                  (put_state (um_state um) i s))
    end.

  (** What a call returns, and the events a user-written policy emitted during
      it, if it reached one. *)
  Record uresult : Type := mkURes { ur_res : mresult; ur_told : option (list event) }.

  Inductive ucall : Type :=
  | UCall (c : mcall)
  | USetPolicy (key : string) (s : S)
  | UOwnCall (key : string) (a : A).

  (** model.go:248-265 [AddRule] and 267-284 [RemoveRule] for keys of policy
      sections (286-300), model.go:421-427 [ClearPolicy], when the section has a
      user-written policy; every other call is one of ModelM. *)
  Definition rule_on (um : umodel) (key : string) : option (nat * S) :=
    match first_byte key with
    | Some c => if Ascii.eqb c "p" then user_policy um key else None
    | None => None
    end.

  Definition ustep (o : orders) (um : umodel) (c : ucall) : outcome (umodel * uresult) :=
    let plain c :=
      let! (m, x) := mstep E o (um_m um) c in
      Val (mkUM m (um_state um), mkURes x None) in
    match c with
    | UCall (CAdd (key :: r) as c) =>
        match rule_on um key with
        | None => plain c
        | Some (i, s) =>
            let! (s, b, e, es) := u_AddRule U s r in
            let! um := u_become um i s es in
            Val (um, mkURes (mkRes b e (if b : bool then [MAdded (key :: r)] else [])) (Some es))
        end
    | UCall (CRemove (key :: r) as c) =>
        match rule_on um key with
        | None => plain c
        | Some (i, s) =>
            let! (s, b, e, es) := u_RemoveRule U s r in
            let! um := u_become um i s es in
            Val (um, mkURes (mkRes b e (if b : bool then [MRemoved (key :: r)] else [])) (Some es))
        end
    | UCall (CClear key as c) =>
        match user_policy um key with
        | None => plain c
        | Some (i, s) =>
            let! (s, e, es) := u_Clear U s in
            let! um := u_become um i s es in
            Val (um, mkURes (mkRes true e []) (Some es))
        end
    | UCall c => plain c
    | USetPolicy key s =>
        let (m, i) := new_obj (um_m um) (OPolicy (listing (u_Range U s))) in
        Val (mkUM (SetPolicy m key i) (put_state (um_state um) i s), mkURes (mkRes true None []) None)
    | UOwnCall key a =>
        match user_policy um key with
        | None => Val (um, mkURes (mkRes true None []) None)
        | Some (i, s) =>
            let! (s, es) := u_Own U s a in
            let! um := u_become um i s es in
            Val (um, mkURes (mkRes true None []) (Some es))
        end
    end.

  Fixpoint uexec (um : umodel) (h : list (orders * ucall)) : outcome (umodel * list uresult) :=
    match h with
    | [] => Val (um, [])
    | (o, c) :: h' =>
        let! (um, r) := ustep o um c in
        let! (um, rs) := uexec um h' in
        Val (um, r :: rs)
    end.
End UserPolicy.
Arguments mkUM {S}. Arguments um_m {S}. Arguments um_state {S}. Arguments umodel : clear implicits.
Arguments ucall : clear implicits. Arguments UCall {S A}. Arguments USetPolicy {S A}. Arguments UOwnCall {S A}.
