(** Model files with any number of definitions in each section, such as
    multiple_policy_definitions_model.conf and rbac_with_resource_roles_model.conf
    of examples/: their histories, and what each of their matchers means. *)
From Verif Require Import GoBase DefsM PolicyM PolicySpec MatcherDefM MatcherDefSpec MatcherM MatcherSpec RbacM RbacSpec DomainM ModelM ModelSpec AppSpec.

(** The definitions: section, key and text.  Each key is defined once and begins
    with the letter of its section. *)
Definition deflist : Type := list (sec * string * string).
Definition set_all (d : deflist) : list mcall := map (fun x => CSetDef (fst (fst x)) (snd (fst x)) (snd x)) d.
Definition well_formed (d : deflist) : Prop :=
  NoDup (map fst d) /\ forall s k t, In (s, k, t) d -> key_of s k.

(** Rules of the defined sections: policy rules have a value without a comma for
    every column of their section, grouping rules at least two names. *)
Definition file_rule (d : deflist) (rl : rule) : Prop :=
  (exists k t r, rl = k :: r /\ In (P_SEC, k, t) d /\ comma_free r /\ List.length r = List.length (ad_args (NewPolicyDef k t))) \/
  (exists k t a b ds, rl = k :: a :: b :: ds /\ In (G_SEC, k, t) d /\ DomainSpec.unreserved ds).
Definition file_call (d : deflist) (x : mcall) : Prop :=
  match x with
  | CAdd rl | CRemove rl => file_rule d rl
  | CClear k => exists t, In (P_SEC, k, t) d \/ In (G_SEC, k, t) d
  | _ => False
  end.
(** The definitions are loaded, the matchers built (before, between or after
    rules), and rules come and go. *)
Definition file_history (d : deflist) (h : list (orders * mcall)) : Prop :=
  exists hd hr1 o hr2, h = hd ++ hr1 ++ (o, CBuild) :: hr2 /\ map snd hd = set_all d /\
    Forall (fun x => file_call d (snd x)) hr1 /\ Forall (fun x => file_call d (snd x)) hr2.

(** The matcher text [t] is read by govaluate as the formula [f] when the role
    functions of the file and the built-in functions are registered (and otherwise
    read so or not at all); [f] is one of the formulas the compiler keeps (C08) and
    can index (C09); its conditions name policy values of section [pk] only (no
    values at all mean section p). *)
Record reads_over (E : env) (d : deflist) (t : string) (f : form) (pk : string) : Prop := {
  ro_tokens : forall fns, (forall k g, In (G_SEC, k, g) d -> In k fns) -> (forall k, In k (mkeys (e_builtins E)) -> In k fns) ->
                e_parse E fns (arg_replace t) = Some (written f);
  ro_other : forall fns, e_parse E fns (arg_replace t) = Some (written f) \/ e_parse E fns (arg_replace t) = None;
  ro_atoms : atoms_ok f;
  ro_parsed : parsed f;
  ro_faithful : faithful f = true;
  ro_two : two_way f = true;
  ro_names : forall e x, In e (conds f) -> In x (p_args e) -> exists y, x = (pk ++ "_" ++ y)%string;
  ro_some : pk = "p"%string \/ exists e x, In e (conds f) /\ In x (p_args e);
  ro_key : has_char "_" pk = false
}.
(** Every matcher of the file, by its key, is read over a policy section of the
    file. *)
Definition readings (E : env) (d : deflist) (R : string -> form * string) : Prop :=
  forall mk t, In (M_SEC, mk, t) d ->
    reads_over E d t (fst (R mk)) (snd (R mk)) /\ exists pt, In (P_SEC, snd (R mk), pt) d.

(** As [AppSpec.answerable], for section [pk] with the definition [pd] and requests
    defined by [rd]. *)
Definition added_to (pk : string) (h : list (orders * mcall)) (r : rule) : Prop := In (CAdd (pk :: r)) (map snd h).
Definition answers (E : env) (pk : string) (pd rd : argdef) (f : form) (F : string -> option gofn) (h : list (orders * mcall)) (vs : list value) : Prop :=
  (forall e, In e (conds f) ->
    (forall r, added_to pk h r -> has_values pd e r /\ evaluates (e_eval E F) pd rd vs e r) /\
    own_values (e_eval E F) pd rd vs e (added_to pk h) /\
    (In e (lasts f) \/ (forall r, ~ present h (pk :: r)) -> evaluates (e_eval E F) pd rd vs e (blank pd))) /\
  (forall e, In e (lasts f) -> holds (e_eval E F) pd rd vs e (blank pd) = false).
(** The formula is true for a rule and the request values. *)
Definition true_for (E : env) (pd rd : argdef) (f : form) (F : string -> option gofn) (vs : list value) (r : rule) : bool :=
  sem (fun e => holds (e_eval E F) pd rd vs e r) f.
(** Some present rule of section [pk] for which the formula is true has effect
    [e]. *)
Definition hit (E : env) (pk : string) (pd rd : argdef) (f : form) (F : string -> option gofn) (h : list (orders * mcall)) (vs : list value) (e : effect) : Prop :=
  exists r, present h (pk :: r) /\ true_for E pd rd f F vs r = true /\ GetEft pd (pk :: r) = e.

(** ** Matchers that compare requests and rules column by column

    A column of the request and the column of the same name in the rule are equal,
    or linked by the rules of a grouping section. *)
Inductive how : Type := Same | Via (gk : string).
Definition column : Type := (string * how)%type.
(** r.x == p.x or g(r.x, p.x), with the keys [rk] and [pk] for r and p. *)
Definition col_tokens (rk pk : string) (c : column) : list token :=
  (let a := mkTok KOther (rk ++ "_" ++ fst c) in let b := mkTok KOther (pk ++ "_" ++ fst c) in
   match snd c with
   | Same => [a; mkTok KOther "=="; b]
   | Via gk => [mkTok KFunction gk; mkTok KClause "("; a; mkTok KSeparator ","; b; mkTok KClauseClose ")"]
   end)%string.
Definition col_text (rk pk : string) (c : column) : string :=
  match snd c with
  | Same => rk ++ "_" ++ fst c ++ " == " ++ pk ++ "_" ++ fst c
  | Via gk => gk ++ "(" ++ rk ++ "_" ++ fst c ++ ", " ++ pk ++ "_" ++ fst c ++ ")"
  end%string.
(** What is assumed of govaluate: == compares two strings, and a function is
    called with the values of its arguments. *)
Definition col_evaluates (E : env) (rk pk : string) (c : column) : Prop :=
  let t := col_text rk pk c in
  forall F f, match snd c with Same => True | Via gk => F gk = Some f end ->
    parses (e_eval E F) t = true /\ reads_only_named (e_eval E F) t /\
    forall (get : params) a b, get (rk ++ "_" ++ fst c)%string = Val (Some (VStr a)) -> get (pk ++ "_" ++ fst c)%string = Val (Some (VStr b)) ->
      ev (e_eval E F) t get = match snd c with Same => Val (inl (VBool (String.eqb a b))) | Via _ => f [VStr a; VStr b] end.
(** The columns of a definition (AppsSpec.columns). *)
Definition named_columns (t : string) : list string := split_char "," (no_spaces t).

(** Value [a] of a request fits value [b] of a rule. *)
Definition related (h : list (orders * mcall)) (w : how) (a b : string) : Prop :=
  match w with
  | Same => a = b
  | Via gk => a = b \/ exists n, 1 <= n <= 9 /\ chain (fun x y => present h [gk; x; y]) n a b
  end.
Fixpoint covers (h : list (orders * mcall)) (cs : list column) (vals us : list string) : Prop :=
  match cs, vals, us with
  | [], [], [] => True
  | c :: cs', a :: vals', b :: us' => related h (snd c) a b /\ covers h cs' vals' us'
  | _, _, _ => False
  end.
(** The matcher [mk] of the file compares the columns [c :: cs] of the request
    [rk] with the first columns of the section [pk] (which may have more, such as
    the effect).  The grouping sections it uses have two places. *)
Record columnwise (E : env) (d : deflist) (R : string -> form * string) (mk rk pk rt pt : string) (c : column) (cs : list column) (more : list string) : Prop := {
  cw_matcher : exists mt, In (M_SEC, mk, mt) d;
  cw_reading : R mk = (fold_left (fun f x => FAnd f (FAtom (col_tokens rk pk x))) cs (FAtom (col_tokens rk pk c)), pk);
  cw_request : In (R_SEC, rk, rt) d;
  cw_policy : In (P_SEC, pk, pt) d;
  cw_rcols : named_columns rt = map fst (c :: cs);
  cw_pcols : named_columns pt = map fst (c :: cs) ++ more;
  cw_distinct : NoDup (map fst (c :: cs) ++ more);
  cw_plain : Forall (fun x => p_args (col_text rk pk x) = [pk ++ "_" ++ fst x]%string) (c :: cs);
  cw_groups : Forall (fun x => match snd x with Same => True | Via gk => exists gt, In (G_SEC, gk, gt) d /\ rd_nargs (NewRoleDef gk gt) = 2 end) (c :: cs);
  cw_eval : Forall (col_evaluates E rk pk) (c :: cs)
}.
