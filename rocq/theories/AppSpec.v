(** Applications with one request, policy, effect and matcher definition and at
    most one grouping section, as in most model files of examples/: their
    configuration, their histories, and what their matcher means. *)
From Verif Require Import GoBase DefsM PolicyM PolicySpec MatcherDefM MatcherDefSpec MatcherM MatcherSpec RbacM RbacSpec DomainM ModelM ModelSpec.

Record config : Type := mkCfg { cf_r : string; cf_p : string; cf_g : option string; cf_e : string; cf_m : string }.
Definition config_defs (c : config) : list mcall :=
  ([CSetDef R_SEC "r"%string (cf_r c); CSetDef P_SEC "p"%string (cf_p c)] ++
   match cf_g c with Some t => [CSetDef G_SEC "g"%string t] | None => [] end ++
   [CSetDef E_SEC "e"%string (cf_e c); CSetDef M_SEC "m"%string (cf_m c)])%list.
Definition cf_pd (c : config) : argdef := NewPolicyDef "p" (cf_p c).
Definition cf_rd (c : config) : argdef := NewRequestDef "r" (cf_r c).

(** A policy rule has a value without a comma for every column; a grouping rule
    has at least two names. *)
Definition fits (c : config) (r : rule) : Prop := comma_free r /\ List.length r = List.length (ad_args (cf_pd c)).
Definition app_rule (c : config) (rl : rule) : Prop :=
  (exists r, rl = "p"%string :: r /\ fits c r) \/
  (exists a b ds, rl = "g"%string :: a :: b :: ds /\ cf_g c <> None /\ DomainSpec.unreserved ds).
Definition app_call (c : config) (x : mcall) : Prop :=
  match x with
  | CAdd rl | CRemove rl => app_rule c rl
  | CClear k => k = "p"%string \/ k = "g"%string
  | _ => False
  end.
(** The model is loaded, its matcher built (before, between or after rules), and
    rules come and go. *)
Definition app_history (c : config) (h : list (orders * mcall)) : Prop :=
  exists hd hr1 o hr2, h = hd ++ hr1 ++ (o, CBuild) :: hr2 /\ map snd hd = config_defs c /\
    Forall (fun x => app_call c (snd x)) hr1 /\ Forall (fun x => app_call c (snd x)) hr2.

(** The conditions of a formula, and those that come last in an alternative. *)
Fixpoint conds (f : form) : list string :=
  match f with
  | FAtom ts => [tokensToExpr ts]
  | FPar f => conds f
  | FAnd f g | FOr f g => conds f ++ conds g
  end.
Fixpoint lasts (f : form) : list string :=
  match f with
  | FAtom ts => [tokensToExpr ts]
  | FPar f => lasts f
  | FAnd _ g => lasts g
  | FOr f g => lasts f ++ lasts g
  end.

(** govaluate reads the matcher text as the formula [f] when the functions it may
    use are registered (and otherwise reads it so or not at all); [f] is written
    with well-formed conditions, and is one of those the compiler keeps (C08) and
    can index (C09); its conditions name policy values of section p only. *)
Record reads_as (E : env) (c : config) (f : form) : Prop := {
  ra_tokens : forall fns, (cf_g c <> None -> In "g"%string fns) -> (forall k, In k (mkeys (e_builtins E)) -> In k fns) ->
                e_parse E fns (arg_replace (cf_m c)) = Some (written f);
  ra_other : forall fns, e_parse E fns (arg_replace (cf_m c)) = Some (written f) \/ e_parse E fns (arg_replace (cf_m c)) = None;
  ra_atoms : atoms_ok f;
  ra_parsed : parsed f;
  ra_faithful : faithful f = true;
  ra_two : two_way f = true;
  ra_section : forall e x, In e (conds f) -> In x (p_args e) -> exists y, x = ("p_" ++ y)%string
}.

(** The truth of the matcher for a rule and the request values [vs], given the
    functions [F] the matcher may call. *)
Definition meaning (E : env) (c : config) (f : form) (F : string -> option gofn) (vs : list value) (r : rule) : bool :=
  sem (fun e => holds (e_eval E F) (cf_pd c) (cf_rd c) vs e r) f.

(** [r] was added as a policy rule at some point. *)
Definition added (h : list (orders * mcall)) (r : rule) : Prop := In (CAdd ("p"%string :: r)) (map snd h).

(** Every condition can be evaluated for the policy rules the application adds, and
    depends, of a rule, on the values it names only.  The last condition of every
    alternative can be evaluated for the rule of empty values; the others need a
    value for that rule only while no policy rule is present. *)
Definition answerable_conds (E : env) (c : config) (f : form) (F : string -> option gofn) (h : list (orders * mcall)) (vs : list value) : Prop :=
  forall e, In e (conds f) ->
    (forall r, added h r -> has_values (cf_pd c) e r /\ evaluates (e_eval E F) (cf_pd c) (cf_rd c) vs e r) /\
    own_values (e_eval E F) (cf_pd c) (cf_rd c) vs e (added h) /\
    (In e (lasts f) \/ (forall r, ~ present h ("p"%string :: r)) -> evaluates (e_eval E F) (cf_pd c) (cf_rd c) vs e (blank (cf_pd c))).
(** Moreover the last condition of every alternative fails for the rule of empty
    values. *)
Definition answerable (E : env) (c : config) (f : form) (F : string -> option gofn) (h : list (orders * mcall)) (vs : list value) : Prop :=
  answerable_conds E c f F h vs /\
  (forall e, In e (lasts f) -> holds (e_eval E F) (cf_pd c) (cf_rd c) vs e (blank (cf_pd c)) = false).
