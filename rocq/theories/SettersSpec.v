(** What a history with SetPolicy means. *)
From Verif Require Import GoBase DefsM PolicyM PolicySpec MatcherM RbacM DomainM ModelM ModelSpec SettersM.

(** The calls policy section [k] has seen: those of the policy that was handed
    over last, then those made through the model. *)
Definition xp_step (k : string) (acc : option (list pop)) (c : xcall) : option (list pop) :=
  match c with
  | XCall c => p_step k acc c
  | XSetPolicy k' ops => if String.eqb k' k then Some ops else acc
  end.
Definition xp_history (k : string) (h : list (orders * xcall)) : option (list pop) :=
  fold_left (xp_step k) (map snd h) None.

(** The other calls. *)
Definition other_calls (h : list (orders * xcall)) : list (orders * mcall) :=
  flat_map (fun oc => match snd oc with XCall c => [(fst oc, c)] | XSetPolicy _ _ => [] end) h.

(** The rules the model holds: SetPolicy concerns policy sections only. *)
Definition xpresent (h : list (orders * xcall)) (rl : rule) : Prop :=
  match rl with
  | [] => False
  | k :: r =>
      (p_key k /\ exists ops, xp_history k h = Some ops /\ set_of ops r = true) \/
      (g_key k /\ present (other_calls h) rl)
  end.

(** Policies are handed over to policy sections that are defined. *)
Definition to_defined (h : list (orders * xcall)) : Prop :=
  forall h1 o k ops h2, h = h1 ++ (o, XSetPolicy k ops) :: h2 ->
    p_key k /\ def_text P_SEC k (other_calls h1) <> None.

Definition xgood (h : list (orders * xcall)) : Prop := Forall (fun c => good_orders (fst c)) h.
Definition xtame (h : list (orders * xcall)) : Prop :=
  Forall (fun c => match snd c with
                   | XCall c => tame_call c
                   | XSetPolicy _ ops => Forall (op_ok comma_free) ops
                   end) h.

(** Redefining section [k] with the text [v] and making the calls [ops] on it. *)
Definition pop_call (k : string) (a : pop) : mcall :=
  match a with
  | PAdd r => CAdd (k :: r)
  | PRemove r => CRemove (k :: r)
  | PClear => CClear k
  end.
Definition redefine (o : orders) (k v : string) (ops : list pop) : list (orders * mcall) :=
  (o, CSetDef P_SEC k v) :: map (fun a => (o, pop_call k a)) ops.
