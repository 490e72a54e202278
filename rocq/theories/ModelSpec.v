(** What a history of calls on a model means, section by section.  Independent
    of the model's maps, pointers and listeners. *)
From Verif Require Import GoBase DefsM PolicyM PolicySpec MatcherDefM MatcherM MatcherSpec RbacM RbacSpec DomainM ModelM.
From Verif Require DomainSpec.

(** Every map is visited completely, in some order. *)
Definition good_orders (o : orders) : Prop :=
  good_order (o_names o) /\ (forall l, Permutation (o_rules o l) l) /\ any_order (o_match o).
Definition good_m (h : list (orders * mcall)) : Prop := Forall (fun c => good_orders (fst c)) h.

(** The rule without its section key, if it belongs to section [k]. *)
Definition of_section (k : string) (rl : rule) : option rule :=
  match rl with
  | k' :: r => if String.eqb k' k then Some r else None
  | [] => None
  end.

(** The calls a policy section [k] (of the kind "p", "p2", ...) has received
    since it was last defined; [None] when it is not defined. *)
Definition p_step (k : string) (acc : option (list pop)) (c : mcall) : option (list pop) :=
  match c with
  | CSetDef P_SEC k' _ => if String.eqb k' k then Some [] else acc
  | CRemoveDef P_SEC k' => if String.eqb k' k then None else acc
  | CAdd rl => match of_section k rl with
               | Some r => option_map (fun l => l ++ [PAdd r]) acc
               | None => acc
               end
  | CRemove rl => match of_section k rl with
                  | Some r => option_map (fun l => l ++ [PRemove r]) acc
                  | None => acc
                  end
  | CClear k' => if String.eqb k' k then option_map (fun l => l ++ [PClear]) acc else acc
  | _ => acc
  end.
Definition p_history (k : string) (h : list (orders * mcall)) : option (list pop) :=
  fold_left (p_step k) (map snd h) None.

(** The manager of a new grouping section: links without domains when the
    definition has two places, with domains otherwise. *)
Definition fresh_manager (arguments : string) : irm :=
  if Nat.eqb (rd_nargs (NewRoleDef "" arguments)) 2 then IRole (NewRoleManager 10) else IDom (NewDomainManager 10).

(** The manager of grouping section [k] (of the kind "g", "g2", ...) when it was
    last defined or set, and the calls it has received since. *)
Definition g_step (k : string) (acc : option (irm * list (RbacM.order * dcall))) (oc : orders * mcall)
    : option (irm * list (RbacM.order * dcall)) :=
  let (o, c) := oc in
  let more d := option_map (fun a => (fst a, snd a ++ [(o_names o, d)])) acc in
  match c with
  | CSetDef G_SEC k' v => if String.eqb k' k then Some (fresh_manager v, []) else acc
  | CRemoveDef G_SEC k' => if String.eqb k' k then None else acc
  | CSetRM k' x => if String.eqb k' k then Some (x, []) else acc
  | CAdd rl => match of_section k rl with
               | Some (a :: b :: ds) => more (DAdd a b ds)
               | _ => acc
               end
  | CRemove rl => match of_section k rl with
                  | Some (a :: b :: ds) => more (DDel a b ds)
                  | _ => acc
                  end
  | CClear k' => if String.eqb k' k then more DClear else acc
  | _ => acc
  end.
Definition g_history (k : string) (h : list (orders * mcall)) : option (irm * list (RbacM.order * dcall)) :=
  fold_left (g_step k) h None.

Definition p_key (k : string) : Prop := first_byte k = Some "p"%char.
Definition g_key (k : string) : Prop := first_byte k = Some "g"%char.

(** Calls that neither redefine, remove nor rebuild policy section [pk] and
    matcher [mk]. *)
Definition leaves_alone (pk mk : string) (c : mcall) : Prop :=
  match c with
  | CSetDef P_SEC k _ => k <> pk
  | CRemoveDef P_SEC k => k <> pk
  | CRemoveDef M_SEC k => k <> mk
  | CBuild => False
  | CBuildKey k => k <> mk
  | _ => True
  end.

(** The calls on section [k] in a piece of history. *)
Definition p_calls (k : string) (h : list (orders * mcall)) : list pop :=
  match fold_left (p_step k) (map snd h) (Some []) with Some l => l | None => [] end.

(** ** The rules a model holds after a history *)

(** A manager without domains ignores the domains of a link. *)
Definition direct (c : dcall) : rcall :=
  match c with
  | DAdd a b ds => RAdd a b ds
  | DDel a b ds => RDel a b ds
  | DHas a b _ => RHas a b
  | DRoles a _ => RRoles a
  | DUsers a _ => RUsers a
  | DClear => RClear
  end.
Definition direct_calls (h : list (RbacM.order * dcall)) : list (RbacM.order * rcall) :=
  map (fun c => (fst c, direct (snd c))) h.

(** The link [a -> b] in domain [ds] is present in a grouping section. *)
Definition linked (s : irm * list (RbacM.order * dcall)) (a b : string) (ds : list string) : bool :=
  match fst s with
  | IRole _ => match ds with [] => links_of (direct_calls (snd s)) a b | _ => false end
  | IDom _ => links_of (DomainSpec.calls_in ds (snd s)) a b
  end.

Definition present (h : list (orders * mcall)) (rl : rule) : Prop :=
  match rl with
  | [] => False
  | k :: r =>
      (p_key k /\ exists ops, p_history k h = Some ops /\ set_of ops r = true) \/
      (g_key k /\ exists s a b ds, g_history k h = Some s /\ r = a :: b :: ds /\ linked s a b ds = true)
  end.

(** Policy rules with at least one value and no comma, grouping rules without
    the two reserved domain names, managers as made by SetDef. *)
Definition tame_rule (rl : rule) : Prop :=
  match rl with
  | [] => True
  | k :: r => (p_key k -> comma_free r) /\
              (g_key k -> match r with _ :: _ :: ds => DomainSpec.unreserved ds | _ => True end)
  end.
Definition tame_call (c : mcall) : Prop :=
  match c with
  | CAdd rl | CRemove rl => tame_rule rl
  | CSetRM _ _ => False
  | _ => True
  end.
Definition tame (h : list (orders * mcall)) : Prop := Forall (fun c => tame_call (snd c)) h.

(** Does the section of rule [rl] hold the rule?  [None] when there is no such
    section.  A grouping section without domains ignores everything after the two
    names. *)
Definition in_section (h : list (orders * mcall)) (rl : rule) : option bool :=
  match rl with
  | [] => None
  | k :: r =>
      match first_byte k with
      | Some "p"%char => option_map (fun ops => set_of ops r) (p_history k h)
      | Some "g"%char =>
          match g_history k h, r with
          | Some s, a :: b :: ds => Some (linked s a b (match fst s with IRole _ => [] | IDom _ => ds end))
          | Some s, _ => Some false
          | None, _ => None
          end
      | _ => None
      end
  end.

(** How a rule is listed: a grouping section without domains keeps two names. *)
Definition as_listed (h : list (orders * mcall)) (rl : rule) : rule :=
  match rl with
  | [] => []
  | k :: r =>
      match first_byte k, g_history k h with
      | Some "g"%char, Some (IRole _, _) => k :: firstn 2 r
      | _, _ => rl
      end
  end.

(** The rule set an observer of the model's events rebuilds. *)
Definition event_step (s : rset) (e : mevent) : rset :=
  match e with MAdded r => set_add r s | MRemoved r => set_remove r s end.
Definition event_rule (f : rule -> rule) (e : mevent) : mevent :=
  match e with MAdded r => MAdded (f r) | MRemoved r => MRemoved (f r) end.

(** Calls that change rules one by one only: no section is cleared, defined or
    removed. *)
Definition rule_call (c : mcall) : Prop :=
  match c with
  | CSetDef P_SEC _ _ | CSetDef G_SEC _ _ | CRemoveDef P_SEC _ | CRemoveDef G_SEC _ | CClear _ | CSetRM _ _ => False
  | _ => True
  end.

(** ** Definitions *)
Definition sec_eqb (a b : sec) : bool :=
  match a, b with
  | R_SEC, R_SEC | P_SEC, P_SEC | G_SEC, G_SEC | E_SEC, E_SEC | M_SEC, M_SEC => true
  | _, _ => false
  end.
(** The key begins with the letter of its section. *)
Definition key_of (s : sec) (k : string) : Prop := exists c, keyPrefix s = Some c /\ first_byte k = Some c.

(** The text of definition [k] of section [s]: the last one set and not
    removed. *)
Definition def_step (s : sec) (k : string) (acc : option string) (c : mcall) : option string :=
  match c with
  | CSetDef s' k' v => if sec_eqb s' s && String.eqb k' k then Some v else acc
  | CRemoveDef s' k' => if sec_eqb s' s && String.eqb k' k then None else acc
  | _ => acc
  end.
Definition def_text (s : sec) (k : string) (h : list (orders * mcall)) : option string :=
  fold_left (def_step s k) (map snd h) None.

(** How a definition prints. *)
Definition shown (s : sec) (k v : string) : string :=
  match s with
  | R_SEC => argdef_String (NewRequestDef k v)
  | P_SEC => argdef_String (NewPolicyDef k v)
  | G_SEC => roledef_String (NewRoleDef k v)
  | E_SEC => effdef_String (NewEffectDef k v)
  | M_SEC => matcherdef_String k v
  | OtherSec => ""
  end%string.

(** The text of a model: the sections in this order, each that has definitions
    with its header, one line per key and an empty line. *)
Definition nl : string := String (ascii_of_nat 10) EmptyString.
Definition section_text (s : sec) (name : string) (ks : list string) (line : string -> string) : string :=
  match ks with
  | [] => ""
  | _ => "[" ++ name ++ "]" ++ nl ++ String.concat "" (map (fun k => line k ++ nl) ks) ++ nl
  end%string.
Definition def_shown (h : list (orders * mcall)) (s : sec) (k : string) : string :=
  match def_text s k h with Some v => shown s k v | None => "" end%string.
Definition model_text (h : list (orders * mcall)) (ks : sec -> list string) : string :=
  (section_text R_SEC "request_definition" (ks R_SEC) (def_shown h R_SEC) ++
   section_text P_SEC "policy_definition" (ks P_SEC) (def_shown h P_SEC) ++
   section_text G_SEC "role_definition" (ks G_SEC) (def_shown h G_SEC) ++
   section_text E_SEC "policy_effect" (ks E_SEC) (def_shown h E_SEC) ++
   section_text M_SEC "matchers" (ks M_SEC) (def_shown h M_SEC))%string.

