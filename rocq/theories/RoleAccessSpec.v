(** What matchers mean when the role managers of the model are also used
    directly: links added and deleted past the model, and patterns. *)
From Verif Require Import GoBase DefsM PolicyM MatcherDefM PathM RbacM RbacSpec DomainM DomainSpec ModelM ModelSpec MultiSpec LogicSpec RoleAccessM PatternsM PatternsSpec.

Definition xhistory : Type := list (orders * xcall).

(** The calls on the model alone. *)
Definition model_calls (h : xhistory) : list (orders * mcall) :=
  flat_map (fun x => match snd x with XM c => [(fst x, c)] | XRole _ _ => [] end) h.

(** What the manager of section [gk] is told by a call: the grouping rules of the
    section and the direct calls. *)
Definition section_call (gk : string) (c : xcall) : list role_call :=
  match c with
  | XM (CAdd rl) => match of_section gk rl with Some (a :: b :: ds) => [RC (DAdd a b ds)] | _ => [] end
  | XM (CRemove rl) => match of_section gk rl with Some (a :: b :: ds) => [RC (DDel a b ds)] | _ => [] end
  | XM (CClear k) => if String.eqb k gk then [RC DClear] else []
  | XM _ => []
  | XRole k c => if String.eqb k gk then [c] else []
  end.
Definition section_calls (gk : string) (h : xhistory) : list (order * role_call) :=
  flat_map (fun x => map (fun c => (o_names (fst x), c)) (section_call gk (snd x))) h.
Definition of_model (h : list (orders * mcall)) : xhistory := map (fun x => (fst x, XM (snd x))) h.

(** A section with two places is a role manager without domains (C97); domains and
    domain matchers mean nothing to it. *)
Definition as_pcall (c : role_call) : list pcall :=
  match c with
  | RC c => [PCall (direct c)]
  | RCSetMatcher m => [PSet m]
  | RCSetDomainMatcher _ => []
  end.
Definition pcalls (h : list (order * role_call)) : list (order * pcall) :=
  flat_map (fun x => map (pair (fst x)) (as_pcall (snd x))) h.
(** The calls on a manager with domains other than setting a matcher. *)
Definition dcalls (h : list (order * role_call)) : list (order * dcall) :=
  flat_map (fun x => match snd x with RC c => [(fst x, c)] | _ => [] end) h.

(** A file, its history [h], and calls [hx] after it. *)
Definition direct_call (d : deflist) (c : xcall) : Prop :=
  match c with
  | XM c => file_call d c
  | XRole gk c => exists gt, In (G_SEC, gk, gt) d /\
      if Nat.eqb (rd_nargs (NewRoleDef gk gt)) 2
      then match c with RC c => unflagged (direct c) | _ => True end
      else match c with RC c => match call_domains c with Some ds => unreserved ds | None => True end | _ => False end
  end.
(** Calls of the file, and any calls on the managers of its grouping sections. *)
Definition known_call (d : deflist) (c : xcall) : Prop :=
  match c with XM c => file_call d c | XRole gk _ => exists gt, In (G_SEC, gk, gt) d end.
Definition good_x (h : xhistory) : Prop := Forall (fun x => good_orders (fst x)) h.

(** ** Meaning

    The links of a section are what its calls leave, whichever way they came.  In a
    section with two places a name steps along its own links and along those of
    the patterns that stand for it (C97). *)
Definition joined_by (h : xhistory) (gk gt a b : string) (ds : list string) : Prop :=
  if Nat.eqb (rd_nargs (NewRoleDef gk gt)) 2
  then let l := pcalls (section_calls gk h) in reached_by (pmatcher_of l) (plinks_of l) 10 a b
  else a = b \/ exists n, 1 <= n /\ n + List.length ds <= 8 /\
         chain (fun x y => links_of (calls_in ds (dcalls (section_calls gk h))) x y = true) n a b.
Definition call_holds (E : env) (d : deflist) (h : xhistory) (f : string) (us : list string) : Prop :=
  (exists gt a b ds, In (G_SEC, f, gt) d /\ us = a :: b :: ds /\ joined_by h f gt a b ds) \/
  (~ is_group d f /\ exists g, mget f (e_builtins E) = Some g /\ g (map VStr us) = Val (inl (VBool true))).
(** The call has an answer.  If a matcher was ever set on the section, names hold
    no dollar sign (C30), and in the end the first name and the roles of links are
    ordinary names. *)
Definition matcher_used (l : list (order * pcall)) : Prop := exists mm, In (PSet (Some mm)) (map snd l).
Definition call_defined (E : env) (d : deflist) (h : xhistory) (f : string) (us : list string) : Prop :=
  (exists gt a b ds, In (G_SEC, f, gt) d /\ us = a :: b :: ds /\
     if Nat.eqb (rd_nargs (NewRoleDef f gt)) 2
     then let l := pcalls (section_calls f h) in
          (matcher_used l -> plain a /\ plain b) /\
          ordinary_name (pmatcher_of l) a /\ roles_ordinary (pmatcher_of l) (plinks_of l)
     else unreserved ds) \/
  (~ is_group d f /\ exists g v, mget f (e_builtins E) = Some g /\ g (map VStr us) = Val (inl (VBool v))).
Definition names_fit (d : deflist) (h : xhistory) : Prop :=
  forall gk gt, In (G_SEC, gk, gt) d -> rd_nargs (NewRoleDef gk gt) = 2 ->
    matcher_used (pcalls (section_calls gk h)) -> forall n, In n (pnames (pcalls (section_calls gk h))) -> plain n.

(** As [LogicSpec.test_true], [satisfies], [says] and [calls_answer], with the
    truth of calls [CT] and their definedness [CA] given. *)
Section Calls.
  Variables CT CA : string -> list string -> Prop.
  Definition test_by (rt pt : string) (vals : list string) (r : rule) (t : test) : Prop :=
    let v := term_value rt pt vals r in
    match t with
    | Equal a b => exists x, v a x /\ v b x
    | Unequal a b => exists x y, v a x /\ v b y /\ x <> y
    | Call f args => exists us, Forall2 v args us /\ CT f us
    | Among a s1 s2 ss => exists x, v a x /\ In x (s1 :: s2 :: ss)
    end.
  Definition satisfies_by (rt pt : string) (f : mform) (vals : list string) (r : rule) : Prop :=
    form_true (test_by rt pt vals r) f.
  Definition says_by (h : list (orders * mcall)) (rt pk pt : string) (f : mform) (vals : list string) (e : effect) : Prop :=
    exists r, present h (pk :: r) /\ satisfies_by rt pt f vals r /\ rule_effect pt r e.
  Definition answer_by (h : list (orders * mcall)) (rt pk pt : string) (f : mform) (vals : list string) : Prop :=
    forall r g args us, In (Call g args) (tests f) ->
      added_to pk h r \/
      (r = repeat ""%string (List.length (named_columns pt)) /\ (In (Call g args) (last_tests f) \/ forall r', ~ present h (pk :: r'))) ->
      Forall2 (term_value rt pt vals r) args us -> CA g us.
End Calls.
