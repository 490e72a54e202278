(** What the options of an Enforce or Filter call select, in terms of the
    history of definitions. *)
From Verif Require Import GoBase DefsM PolicyM PolicySpec EffectorM MatcherDefM MatcherM MatcherSpec RbacM DomainM ModelM ModelSpec EnforcerM.

(** The effect text in force: the last effect option that is not empty, a name
    of an effect definition standing for its text; without such an option the
    definition "e". *)
Definition effect_named (h : list (orders * mcall)) (s : string) : string :=
  match first_byte s with
  | Some "e"%char => match def_text E_SEC s h with Some t => t | None => s end
  | _ => s
  end.
Definition effect_option (h : list (orders * mcall)) (acc : string) (op : copt) : string :=
  match op with
  | OEffect s => if String.eqb s "" then acc else effect_named h s
  | OEffectDef t => t
  | _ => acc
  end.
Definition effect_in_force (h : list (orders * mcall)) (ps : list param) : string :=
  fold_left (effect_option h) (opts_of ps) (effect_named h "e").

(** The effect of a reported rule (which carries its section key), by the
    definition of its section. *)
Definition rule_effect (h : list (orders * mcall)) (r : rule) : effect :=
  match r with
  | k :: _ => match def_text P_SEC k h with
              | Some t => GetEft (NewPolicyDef k t) r
              | None => Allow
              end
  | [] => Allow
  end.
Definition has_effect (h : list (orders * mcall)) (ms : list rule) (e : effect) : Prop :=
  exists r, In r ms /\ rule_effect h r = e.

(** The call uses matcher [mk] / request definition [rk] of the model: every
    option that selects one names it, and it is named or the default. *)
Definition uses_matcher (mk : string) (ps : list param) : Prop :=
  Forall (fun op => match op with
                    | OMatcher s => s = ""%string \/ s = mk
                    | OMatcherDef _ | OMatcherVal _ => False
                    | _ => True
                    end) (opts_of ps) /\ (mk = "m"%string \/ In (OMatcher mk) (opts_of ps)).
Definition uses_request (rk : string) (ps : list param) : Prop :=
  Forall (fun op => match op with
                    | ORequest s => s = ""%string \/ s = rk
                    | ORequestDef _ => False
                    | _ => True
                    end) (opts_of ps) /\ (rk = "r"%string \/ In (ORequest rk) (opts_of ps)).
(** The call uses the matcher text [text], which is not the name of a
    definition. *)
Definition uses_text (text : string) (ps : list param) : Prop :=
  ~ key_of M_SEC text /\ text <> ""%string /\
  exists ops1 ops2 op, opts_of ps = ops1 ++ op :: ops2 /\ (op = OMatcher text \/ op = OMatcherDef text) /\
    Forall (fun op => match op with OMatcher s => s = ""%string | OMatcherDef _ | OMatcherVal _ => False | _ => True end) (ops1 ++ ops2).

(** Matcher [mk] is in service after the history [h]: it was last built with the
    stage tree [root] on the policy section it names, defined by [ptext]; [h1] are
    the calls on that section before the build, [h2] those after it; since then
    the section was not redefined and the matcher neither removed nor rebuilt. *)
Definition in_service (E : env) (h : list (orders * mcall)) (mk : string)
    (root : stage) (ptext : string) (h1 h2 : list pop) : Prop :=
  key_of M_SEC mk /\ p_key (GetPolicyKey root) /\
  exists ha o c hb m1 rs1 m2 x expr,
    h = ha ++ (o, c) :: hb /\ (c = CBuild \/ c = CBuildKey mk) /\
    mexec E (NewModel E) ha = Val (m1, rs1) /\ mstep E o m1 c = Val (m2, x) /\ x_err x = None /\
    def_text M_SEC mk ha = Some expr /\
    Build (e_grow E) (e_parse E (mkeys (md_fm m1))) expr = inl root /\
    Forall (fun oc => leaves_alone (GetPolicyKey root) mk (snd oc)) hb /\
    def_text P_SEC (GetPolicyKey root) ha = Some ptext /\
    p_history (GetPolicyKey root) ha = Some h1 /\ h2 = p_calls (GetPolicyKey root) hb.
