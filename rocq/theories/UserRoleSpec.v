(** What is expected of a model with functions and role managers of the user. *)
From Verif Require Import GoBase DefsM PolicyM MatcherDefM MatcherM RbacM RbacSpec DomainM ModelM ModelSpec MultiSpec LogicSpec RoleAccessSpec UserRoleM.

(** ** Functions registered before the file is loaded are like functions every
    model has. *)
Definition with_functions (E : env) (fs : list (string * gofn)) : env :=
  mkEnv (e_grow E) (e_parse E) (e_eval E) (fold_left (fun l x => mput (fst x) (snd x) l) fs (e_builtins E)).
Definition register (o : orders) (fs : list (string * gofn)) : list (orders * mcall) :=
  map (fun x => (o, CSetFn (fst x) (snd x))) fs.

(** ** What a manager is told *)
Inductive link_call : Type := LAdd (a b : string) (ds : list string) | LDel (a b : string) (ds : list string) | LClear.

Section Told.
  Context {S : Type}.
  Variable U : manager S.

  (** The manager set last for section [k], and the calls it gets from then on: one
      for each rule of the section that is added or removed, and one for each
      ClearPolicy, in order.  Defining or removing the section, or setting a manager
      of the library, ends it. *)
  Definition told_step (k : string) (acc : option (option S * list link_call)) (c : ucall S) : option (option S * list link_call) :=
    let tell l := option_map (fun x => (fst x, snd x ++ [l])%list) acc in
    match c with
    | USetRM k' s => if String.eqb k' k then Some (s, []) else acc
    | UM (CAdd (k' :: a :: b :: ds)) => if String.eqb k' k then tell (LAdd a b ds) else acc
    | UM (CRemove (k' :: a :: b :: ds)) => if String.eqb k' k then tell (LDel a b ds) else acc
    | UM (CClear k') => if String.eqb k' k then tell LClear else acc
    | UM (CSetDef G_SEC k' _) | UM (CRemoveDef G_SEC k') | UM (CSetRM k' _) => if String.eqb k' k then None else acc
    | _ => acc
    end.
  Definition told (k : string) (h : list (orders * ucall S)) : option (option S * list link_call) :=
    fold_left (told_step k) (map snd h) None.

  (** What the manager makes of it; a nil manager panics. *)
  Definition link_step (s : option S) (c : link_call) : outcome (option S) :=
    match s with
    | None => Panic
    | Some s =>
        match c with
        | LAdd a b ds => let! (s, _) := u_AddLink U s a b ds in Val (Some s)
        | LDel a b ds => let! (s, _) := u_DeleteLink U s a b ds in Val (Some s)
        | LClear => let! (s, _) := u_Clear U s in Val (Some s)
        end
    end.
  Fixpoint replay (s : option S) (cs : list link_call) : outcome (option S) :=
    match cs with
    | [] => Val s
    | c :: cs' => let! s := link_step s c in replay s cs'
    end.
  (** The manager in charge of section [k] and its state. *)
  Definition in_charge (k : string) (h : list (orders * ucall S)) (s : option S) : Prop :=
    exists s0 cs, told k h = Some (s0, cs) /\ replay s0 cs = Val s.

  (** ** A manager that keeps its links as a set *)
  Record keeps_links (ok : S -> Prop) (link : S -> string -> string -> list string -> bool) : Prop := {
    kl_add : forall s a b ds, ok s -> exists s', u_AddLink U s a b ds = Val (s', (negb (link s a b ds), None)) /\ ok s' /\
               forall a' b' ds', link s' a' b' ds' = true <-> (a' = a /\ b' = b /\ ds' = ds) \/ link s a' b' ds' = true;
    kl_del : forall s a b ds, ok s -> exists s', u_DeleteLink U s a b ds = Val (s', (link s a b ds, None)) /\ ok s' /\
               forall a' b' ds', link s' a' b' ds' = true <-> ~ (a' = a /\ b' = b /\ ds' = ds) /\ link s a' b' ds' = true;
    kl_clear : forall s, ok s -> exists s', u_Clear U s = Val (s', None) /\ ok s' /\ forall a b ds, link s' a b ds = false;
    kl_range : forall s, ok s -> forall a b ds, In (a, b, ds) (u_Range U s) <-> link s a b ds = true
  }.
  (** A link is there if the last call about it added it, or if it was there to
      begin with and no call was about it. *)
  Definition link_after (link : S -> string -> string -> list string -> bool) (s : S) (cs : list link_call) (a b : string) (ds : list string) : bool :=
    fold_left (fun acc c =>
      match c with
      | LAdd a' b' ds' => if list_eq_dec string_dec (a' :: b' :: ds') (a :: b :: ds) then true else acc
      | LDel a' b' ds' => if list_eq_dec string_dec (a' :: b' :: ds') (a :: b :: ds) then false else acc
      | LClear => false
      end) cs (link s a b ds).

  (** ** Matchers

      What the name [g] stands for after the calls [hx] that follow the loading of
      the file: what it stood for, a function, nothing, or the manager of the user
      for the section [g]. *)
  Inductive standing : Type := AsLoaded | Registered (f : gofn) | Nothing | Manager.
  Definition stand_step (g : string) (acc : standing) (c : ucall S) : standing :=
    match c with
    | USetRM k _ => if String.eqb k g then Manager else acc
    | UM (CSetFn n f) => if String.eqb n g then Registered f else acc
    | UM (CRemFn n) => if String.eqb n g then Nothing else acc
    | _ => acc
    end.
  Definition stands_for (g : string) (hx : list (orders * ucall S)) : standing := fold_left (stand_step g) (map snd hx) AsLoaded.

  (** The calls that reach the sections of the library: those about sections whose
      manager was replaced ([ks]) do not. *)
  Definition about (ks : list string) (c : mcall) : bool :=
    match c with
    | CAdd (k :: _) | CRemove (k :: _) | CClear k => if in_dec string_dec k ks then true else false
    | _ => false
    end.
  Fixpoint library_calls (ks : list string) (hx : list (orders * ucall S)) : list (orders * mcall) :=
    match hx with
    | [] => []
    | (o, USetRM k _) :: hx' => library_calls (k :: ks) hx'
    | (o, UM (CSetFn _ _)) :: hx' | (o, UM (CRemFn _)) :: hx' => library_calls ks hx'
    | (o, UM c) :: hx' => if about ks c then library_calls ks hx' else (o, c) :: library_calls ks hx'
    end.
  (** After the file: rules of its sections, functions that come and go, managers for
      grouping sections (of the file or not), and the rules of these. *)
  Fixpoint extended_calls (d : deflist) (ks : list string) (hx : list (orders * ucall S)) : Prop :=
    match hx with
    | [] => True
    | (o, USetRM k _) :: hx' => g_key k /\ extended_calls d (k :: ks) hx'
    | (o, UM (CSetFn _ _)) :: hx' | (o, UM (CRemFn _)) :: hx' => extended_calls d ks hx'
    | (o, UM c) :: hx' => (about ks c = false -> file_call d c) /\ extended_calls d ks hx'
    end.

  (** A call of [g] in a matcher is true, or has an answer; [h] are the calls that
      reached the sections of the library. *)
  Definition user_true (E : env) (d : deflist) (h : list (orders * mcall)) (hx : list (orders * ucall S)) (g : string) (us : list string) : Prop :=
    match stands_for g hx with
    | AsLoaded => call_true E d h g us
    | Registered f => f (map VStr us) = Val (inl (VBool true))
    | Nothing => False
    | Manager => exists s a b ds, in_charge g hx s /\ us = a :: b :: ds /\
                   match s with None => a = b | Some s => u_HasLink U s a b ds = Val (true, None) end
    end.
  Definition user_answers (E : env) (d : deflist) (hx : list (orders * ucall S)) (g : string) (us : list string) : Prop :=
    match stands_for g hx with
    | AsLoaded => call_answers E d g us
    | Registered f => exists v, f (map VStr us) = Val (inl (VBool v))
    | Nothing => False
    | Manager => exists s a b ds, in_charge g hx s /\ us = a :: b :: ds /\
                   match s with None => True | Some s => exists v, u_HasLink U s a b ds = Val (v, None) end
    end.
  Definition good_u (h : list (orders * ucall S)) : Prop := Forall (fun x => good_orders (fst x)) h.
  Definition from_model (h : list (orders * mcall)) : list (orders * ucall S) := map (fun x => (fst x, UM (snd x))) h.
End Told.

(** ** Functions alone: the calls on a model after the file *)
Definition fn_call (d : deflist) (c : mcall) : Prop :=
  match c with CSetFn _ _ | CRemFn _ => True | c => file_call d c end.
Definition named_now (g : string) (hx : list (orders * mcall)) : standing :=
  fold_left (fun acc c => match c with
    | CSetFn n f => if String.eqb n g then Registered f else acc
    | CRemFn n => if String.eqb n g then Nothing else acc
    | _ => acc end) (map snd hx) AsLoaded.
Definition rule_calls (hx : list (orders * mcall)) : list (orders * mcall) :=
  filter (fun x => match snd x with CSetFn _ _ | CRemFn _ => false | _ => true end) hx.
Definition fn_true (E : env) (d : deflist) (h : list (orders * mcall)) (hx : list (orders * mcall)) (g : string) (us : list string) : Prop :=
  match named_now g hx with
  | Registered f => f (map VStr us) = Val (inl (VBool true))
  | Nothing => False
  | _ => call_true E d h g us
  end.
Definition fn_answers (E : env) (d : deflist) (hx : list (orders * mcall)) (g : string) (us : list string) : Prop :=
  match named_now g hx with
  | Registered f => exists v, f (map VStr us) = Val (inl (VBool v))
  | Nothing => False
  | _ => call_answers E d g us
  end.
