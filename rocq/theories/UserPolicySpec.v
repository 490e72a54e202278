(** What it takes for a user-written policy to be followed, and the plain
    history that a history with user-written policies amounts to. *)
From Verif Require Import GoBase DefsM PolicyM PolicySpec MatcherM RbacM DomainM ModelM ModelSpec SettersM SettersSpec UserPolicyM.

(** The events [es] tell the whole story of how the rules [l] became the rules
    [l']: every rule announced as added was not there, every rule announced as
    removed was. *)
Inductive tells : list rule -> list event -> list rule -> Prop :=
| tells_end l : tells l [] l
| tells_added l r es l' : ~ In (Hash r) (map Hash l) -> tells (l ++ [r]) es l' -> tells l (EvtAdded r :: es) l'
| tells_removed l1 r l2 es l' : tells (l1 ++ l2) es l' -> tells (l1 ++ r :: l2) (EvtRemoved r :: es) l'
| tells_cleared l es l' : tells [] es l' -> tells l (EvtCleared :: es) l'.

(** A policy whose events account for every change of its rules, whoever made
    it.  Nothing is asked of what it returns. *)
Record outspoken {S A} (U : upolicy S A) : Prop := mkOut {
  out_add : forall s r s' b e es, u_AddRule U s r = Val (s', b, e, es) -> tells (u_Range U s) es (u_Range U s');
  out_remove : forall s r s' b e es, u_RemoveRule U s r = Val (s', b, e, es) -> tells (u_Range U s) es (u_Range U s');
  out_clear : forall s s' e es, u_Clear U s = Val (s', e, es) -> tells (u_Range U s) es (u_Range U s');
  out_own : forall s a s' es, u_Own U s a = Val (s', es) -> tells (u_Range U s) es (u_Range U s')
}.

(** The rules of a list are told apart by their hash (util.go:29-31). *)
Definition hash_apart (l : list rule) : Prop := NoDup (map Hash l).

Section Plain.
  Context {S A : Type} (U : upolicy S A).

  (** The calls of the model in a history. *)
  Definition model_calls (h : list (orders * ucall S A)) : list (orders * mcall) :=
    flat_map (fun oc => match snd oc with UCall c => [(fst oc, c)] | _ => [] end) h.

  (** Policies are handed over to policy sections that are defined, with rules
      that are told apart. *)
  Definition u_defined (h : list (orders * ucall S A)) : Prop :=
    forall h1 o k s h2, h = h1 ++ (o, USetPolicy k s) :: h2 ->
      p_key k /\ def_text P_SEC k (model_calls h1) <> None /\ hash_apart (u_Range U s).

  Definition ugood (h : list (orders * ucall S A)) : Prop := Forall (fun c => good_orders (fst c)) h.

  (** An event as the call that would cause it. *)
  Definition event_op (e : event) : pop :=
    match e with EvtAdded r => PAdd r | EvtRemoved r => PRemove r | EvtCleared => PClear end.

  Definition call_key (c : ucall S A) : string :=
    match c with
    | UCall (CAdd (k :: _)) | UCall (CRemove (k :: _)) | UCall (CClear k) | USetPolicy k _ | UOwnCall k _ => k
    | _ => ""%string
    end.

  (** What a call amounts to, with built-in policies only: [seen] is what came
      before.  A call that reached a user-written policy amounts to the changes
      that policy told of; handing one over, to defining the section again as it
      is and adding the rules one by one. *)
  Definition plain_call (seen : list (orders * mcall)) (oc : orders * ucall S A) (x : uresult) : list (orders * mcall) :=
    let (o, c) := oc in
    match c, ur_told x with
    | USetPolicy k s, _ =>
        match def_text P_SEC k seen with
        | Some v => redefine o k v (map PAdd (u_Range U s))
        | None => []
        end
    | _, Some es => map (fun e => (o, pop_call (call_key c) (event_op e))) es
    | UCall c, None => [(o, c)]
    | UOwnCall _ _, None => []
    end.
  Definition plain_history (h : list (orders * ucall S A)) (xs : list uresult) : list (orders * mcall) :=
    fold_left (fun seen p => seen ++ plain_call seen (fst p) (snd p)) (combine h xs) [].

  (** Calls that neither redefine, remove or replace policy section [pk] nor
      rebuild or remove matcher [mk]. *)
  Definition u_leaves_alone (pk mk : string) (c : ucall S A) : Prop :=
    match c with
    | UCall c => leaves_alone pk mk c
    | USetPolicy k _ => k <> pk
    | UOwnCall _ _ => True
    end.
End Plain.
