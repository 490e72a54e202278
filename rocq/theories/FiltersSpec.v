(** Filters as in the README ("Advanced Policy Filtering"): a matcher text of
    conditions on the columns of one section, each against a constant. *)
From Verif Require Import GoBase DefsM PolicyM PolicySpec MatcherDefM MatcherDefSpec MatcherM MatcherSpec RbacM RbacSpec DomainM ModelM ModelSpec AppSpec MultiSpec.

(** p.x == "v" or g("v", p.x) *)
Record fcond : Type := mkF { fc_col : string; fc_how : how; fc_val : string }.
Definition fc_name (sk : string) (c : fcond) : string := (sk ++ "_" ++ fc_col c)%string.
Definition fc_tokens (sk : string) (c : fcond) : list token :=
  match fc_how c with
  | Same => [mkTok KOther (fc_name sk c); mkTok KOther "=="; mkTok KString (fc_val c)]
  | Via gk => [mkTok KFunction gk; mkTok KClause "("; mkTok KString (fc_val c); mkTok KSeparator ","; mkTok KOther (fc_name sk c); mkTok KClauseClose ")"]
  end%string.
Definition fc_text (sk : string) (c : fcond) : string :=
  match fc_how c with
  | Same => fc_name sk c ++ " == '" ++ fc_val c ++ "'"
  | Via gk => gk ++ "('" ++ fc_val c ++ "', " ++ fc_name sk c ++ ")"
  end%string.
Definition fc_form (sk : string) (c : fcond) (cs : list fcond) : form :=
  fold_left (fun f x => FAnd f (FAtom (fc_tokens sk x))) cs (FAtom (fc_tokens sk c)).
(** What is assumed of govaluate. *)
Definition fc_evaluates (E : env) (sk : string) (c : fcond) : Prop :=
  forall F f, match fc_how c with Same => True | Via gk => F gk = Some f end ->
    parses (e_eval E F) (fc_text sk c) = true /\ reads_only_named (e_eval E F) (fc_text sk c) /\
    forall (get : params) b, get (fc_name sk c) = Val (Some (VStr b)) ->
      ev (e_eval E F) (fc_text sk c) get = match fc_how c with Same => Val (inl (VBool (String.eqb (fc_val c) b))) | Via _ => f [VStr (fc_val c); VStr b] end.

(** The columns of section [sk]: those of its definition, or user, role and domain
    for a grouping section. *)
Definition section_columns (d : deflist) (sk : string) (cols : list string) : Prop :=
  (exists pt, In (P_SEC, sk, pt) d /\ cols = named_columns pt) \/
  (exists gt, In (G_SEC, sk, gt) d /\ cols = ["user"; "role"; "domain"]%string).
(** The filter [text] over section [sk] with the conditions [c :: cs]. *)
Record filter_text (E : env) (d : deflist) (text sk : string) (cols : list string) (c : fcond) (cs : list fcond) : Prop := {
  ft_reads : forall fns, (forall k g, In (G_SEC, k, g) d -> In k fns) -> (forall k, In k (mkeys (e_builtins E)) -> In k fns) ->
               e_parse E fns (arg_replace text) = Some (written (fc_form sk c cs));
  ft_section : section_columns d sk cols;
  ft_distinct : NoDup cols;
  ft_key : has_char "_" sk = false;
  ft_columns : Forall (fun x => In (fc_col x) cols) (c :: cs);
  ft_plain : Forall (fun x => p_args (fc_text sk x) = [fc_name sk x]) (c :: cs);
  ft_groups : Forall (fun x => match fc_how x with Same => True | Via gk => exists gt, In (G_SEC, gk, gt) d /\ rd_nargs (NewRoleDef gk gt) = 2 end) (c :: cs);
  ft_eval : Forall (fc_evaluates E sk) (c :: cs)
}.
(** A rule satisfies a condition. *)
Definition meets (h : list (orders * mcall)) (cols : list string) (r : rule) (c : fcond) : Prop :=
  exists n b, nth_error cols n = Some (fc_col c) /\ nth_error r n = Some b /\ related h (fc_how c) (fc_val c) b.
(** The rules of a grouping section have no commas, at most one domain, and values
    for the columns the filter names. *)
Definition ordinary_groups (h : list (orders * mcall)) (sk : string) (cols : list string) (cs : list fcond) : Prop :=
  g_key sk -> forall r, present h (sk :: r) -> comma_free r /\ List.length r <= List.length cols /\
    Forall (fun c => exists n b, nth_error cols n = Some (fc_col c) /\ nth_error r n = Some b) cs.
