(** Property C67 (and C09 for whole histories): which calls on a model panic. *)
From Verif Require Import GoBase GoBaseP DefsM PolicyM PolicySpec PolicyP MatcherDefM MatcherDefSpec MatcherM MatcherSpec
  RbacM RbacSpec DomainM DomainSpec EvalM ModelM ModelSpec ModelP ModelP2 ModelP3 ModelP4 ModelP5 SafeSpec SafeP Prop_Model.

(** Partial: keys are not empty, rules name their section, grouping rules have
    two names, matchers have at most two alternatives at every point, role managers
    are those of SetDef.  Then no call of any history panics, for every map order,
    evaluator and tokenizer. *)
Theorem C67_no_panic_partial :
  forall E h, good_m h -> calm E h -> exists m rs, mexec E (NewModel E) h = Val (m, rs).
Proof. intros E h G C. destruct (run_total E h G C) as [m [rs [H _]]]. eauto. Qed.
Print Assumptions C67_no_panic_partial.

(** After such a history, exactly these calls panic: a rule call without a
    section key or, for a grouping section that is defined, with fewer than two
    names; a definition with an empty key. *)
Definition bad_rule (h : list (orders * mcall)) (rl : rule) : Prop :=
  match rl with
  | [] => True
  | k :: r => k = ""%string \/ (g_key k /\ g_history k h <> None /\ List.length r < 2)
  end.
Definition bad_call (h : list (orders * mcall)) (c : mcall) : Prop :=
  match c with
  | CSetDef s k _ => k = ""%string /\ s <> OtherSec
  | CAdd rl | CRemove rl => bad_rule h rl
  | _ => False
  end.
(** A text or a manager in the call itself is as in [calm_call]. *)
Definition calm_parts (E : env) (c : mcall) : Prop :=
  match c with
  | CSetDef M_SEC _ v => at_most_two E v
  | CAdhoc expr => at_most_two E expr
  | CSetRM _ _ => False
  | _ => True
  end.

Lemma short_dec h rl : {bad_rule h rl} + {~ bad_rule h rl}.
Proof.
  destruct rl as [|k r]; [left; exact I|]. cbn. destruct (string_dec k "") as [->|N]; [left; now left|].
  destruct (first_byte k) as [c|] eqn:Eb; [|right; intros [?|[X _]]; [contradiction|unfold g_key in X; congruence]].
  destruct (ascii_dec c "g") as [->|Nc]; [|right; intros [?|[X _]]; [contradiction|unfold g_key in X; congruence]].
  destruct (g_history k h) as [x|] eqn:Eh; [|right; intros [?|[_ [X _]]]; [contradiction|congruence]].
  destruct (le_lt_dec 2 (List.length r)) as [L|L]; [right; intros [?|[_ [_ X]]]; [contradiction|lia]|left; right; repeat split; auto; discriminate].
Qed.

Theorem C67_panics_exactly :
  forall E h m rs o c,
    good_m h -> good_orders o -> calm E h -> mexec E (NewModel E) h = Val (m, rs) -> calm_parts E c ->
    (mstep E o m c = Panic <-> bad_call h c).
Proof.
  intros E h m rs o c G Go C H Cp. destruct (run_total E h G C) as [m0 [rs0 [H0 K]]]. rewrite H in H0. injection H0 as <- <-.
  destruct (reachable_ok E h m rs G H) as [g [V W]].
  assert (Fine : calm_call E c -> ~ bad_call h c -> (mstep E o m c = Panic <-> bad_call h c)).
  { intros Cc Hb. destruct (step_total E h m g o c G Go C Cc V W K) as [m' [r [Es _]]]. rewrite Es. split; [discriminate|contradiction]. }
  assert (Nosec : forall k, g_key k -> g_history k h = None -> mget k (md_rpMap m) = None).
  { intros k Hk Hn. pose proof (v_ghist h m g W k Hk) as X. destruct (mget k (md_rpMap m)); [|reflexivity].
    destruct X as [rm [ls [_ X]]]. congruence. }
  assert (Sec : forall k, g_key k -> g_history k h <> None -> exists i rm ls x, mget k (md_rpMap m) = Some i /\
     nth_error (md_objs m) i = Some (mkObj (ORole rm) ls) /\ nth_error (md_rms m) rm = Some x).
  { intros k Hk Hn. pose proof (v_ghist h m g W k Hk) as X. destruct (mget k (md_rpMap m)) as [i|] eqn:Ei; [|contradiction].
    destruct X as [rm [ls [Eo _]]]. pose proof (v_rmb m g V i rm ls Eo). destruct (nth_error (md_rms m) rm) as [x|] eqn:Ex; [eauto 8|].
    apply nth_error_None in Ex. lia. }
  destruct c; cbn [bad_call calm_parts] in *; try (apply Fine; [exact I|easy]).
  - destruct key as [|c0 key].
    + cbn [mstep SetDef]. unfold SetDef. cbn [first_byte].
      destruct s; cbn; (split; [intros X; first [discriminate X|split; [reflexivity|discriminate]]|intros [_ X]; first [reflexivity|now destruct X]]).
    + apply Fine; [|intros [X _]; discriminate]. cbn. split; [discriminate|]. intros ->. exact Cp.
  - destruct (short_dec h r) as [B|B].
    + split; [intros _; exact B|intros _]. destruct r as [|k r]; [reflexivity|]. cbn in B. destruct B as [->|[Hk [Hn L]]]; [reflexivity|].
      destruct (Sec k Hk Hn) as [i [rm [ls [x [E1 [E2 E3]]]]]]. unfold g_key in Hk. cbn [mstep model_AddRule]. rewrite Hk. cbn [Ascii.eqb Bool.eqb].
      rewrite E1. unfold act. rewrite E2. cbn [o_body]. rewrite E3. destruct r as [|a [|b r]]; [reflexivity|reflexivity|cbn in L; lia].
    + destruct r as [|k r]; [exfalso; apply B; exact I|]. cbn in B.
      destruct (first_byte k) as [c0|] eqn:Eb; [|exfalso; apply B; left; destruct k; [reflexivity|discriminate]].
      destruct (le_lt_dec 2 (List.length r)) as [L|L].
      * apply Fine; [|exact B]. cbn. split; [intros ->; discriminate|auto].
      * split; [|contradiction]. cbn [mstep model_AddRule]. rewrite Eb.
        destruct (Ascii.eqb_spec c0 "p") as [->|Np].
        { intros X. exfalso. assert (Cc : calm_call E (CAdd (k :: r))).
          { cbn. split; [intros ->; discriminate|]. unfold g_key. congruence. }
          destruct (step_total E h m g o _ G Go C Cc V W K) as [m' [y [Es _]]]. cbn [mstep model_AddRule] in Es. rewrite Eb in Es.
          cbn [Ascii.eqb Bool.eqb] in Es. rewrite Es in X. discriminate. }
        destruct (Ascii.eqb_spec c0 "g") as [->|Ng]; [|discriminate].
        rewrite (Nosec k Eb); [discriminate|]. destruct (g_history k h) eqn:Eg; [|reflexivity]. exfalso. apply B. right. repeat split; auto. discriminate.
  - destruct (short_dec h r) as [B|B].
    + split; [intros _; exact B|intros _]. destruct r as [|k r]; [reflexivity|]. cbn in B. destruct B as [->|[Hk [Hn L]]]; [reflexivity|].
      destruct (Sec k Hk Hn) as [i [rm [ls [x [E1 [E2 E3]]]]]]. unfold g_key in Hk. cbn [mstep model_RemoveRule]. rewrite Hk. cbn [Ascii.eqb Bool.eqb].
      rewrite E1. unfold act. rewrite E2. cbn [o_body]. rewrite E3. destruct r as [|a [|b r]]; [reflexivity|reflexivity|cbn in L; lia].
    + destruct r as [|k r]; [exfalso; apply B; exact I|]. cbn in B.
      destruct (first_byte k) as [c0|] eqn:Eb; [|exfalso; apply B; left; destruct k; [reflexivity|discriminate]].
      destruct (le_lt_dec 2 (List.length r)) as [L|L].
      * apply Fine; [|exact B]. cbn. split; [intros ->; discriminate|auto].
      * split; [|contradiction]. cbn [mstep model_RemoveRule]. rewrite Eb.
        destruct (Ascii.eqb_spec c0 "p") as [->|Np].
        { intros X. exfalso. assert (Cc : calm_call E (CRemove (k :: r))).
          { cbn. split; [intros ->; discriminate|]. unfold g_key. congruence. }
          destruct (step_total E h m g o _ G Go C Cc V W K) as [m' [y [Es _]]]. cbn [mstep model_RemoveRule] in Es. rewrite Eb in Es.
          cbn [Ascii.eqb Bool.eqb] in Es. rewrite Es in X. discriminate. }
        destruct (Ascii.eqb_spec c0 "g") as [->|Ng]; [|discriminate].
        rewrite (Nosec k Eb); [discriminate|]. destruct (g_history k h) eqn:Eg; [|reflexivity]. exfalso. apply B. right. repeat split; auto. discriminate.
  - apply Fine; [exact Cp|easy].
  - destruct Cp.
Qed.
Print Assumptions C67_panics_exactly.

(** Example: the histories of Prop_Model.v are of this kind. *)
Lemma ex_texts expr : at_most_two ex_env expr.
Proof.
  intros fns root. unfold Build, ex_env. cbn [e_parse e_grow].
  destruct (String.eqb (arg_replace expr) "r_sub == p_sub && r_obj == p_obj"); [vm_compute; intros H; injection H as <-; reflexivity|].
  destruct (String.eqb (arg_replace expr) "g(r_sub, p_sub) && r_obj == p_obj && r_act == p_act"); [vm_compute; intros H; injection H as <-; reflexivity|].
  discriminate.
Qed.
Example C67_ex : calm ex_env ex_h /\ bad_call ex_h (CAdd ["g"; "alice"]) /\ ~ bad_call ex_h (CAdd ["p"]) /\ ~ bad_call ex_h (CAdd ["g5"]).
Proof.
  split; [|split; [|split]].
  - unfold calm, ex_h. repeat (apply Forall_cons; [cbn; repeat split; try discriminate; try (intros _; apply ex_texts); auto with arith|]); apply Forall_nil.
  - right. repeat split; [discriminate|cbn; lia].
  - intros [X|[X _]]; discriminate.
  - intros [X|[_ [X _]]]; [discriminate|]. now apply X.
Qed.

(** The full statement is false: a matcher with three alternatives is accepted
    by BuildMatchers and then every AddRule to its section panics; so do AddRule
    with one name on a grouping section and SetDef with an empty key. *)
Definition wide_text : string := "r.sub == p.sub || r.obj == p.obj || r.act == p.act".
Definition wide_env : env :=
  mkEnv (fun n => n)
    (fun _ s => if String.eqb s "r_sub == p_sub || r_obj == p_obj || r_act == p_act" then
         Some [mkTok KOther "r_sub == p_sub"; mkTok KLogicalOp "||"; mkTok KOther "r_obj == p_obj"; mkTok KLogicalOp "||";
               mkTok KOther "r_act == p_act"] else None)%string
    (fun fs => mini []) [].
Definition wide_h : list (orders * mcall) :=
  [(ex_o, CSetDef R_SEC "r" "sub, obj, act"); (ex_o, CSetDef P_SEC "p" "sub, obj, act"); (ex_o, CSetDef G_SEC "g" "_, _");
   (ex_o, CSetDef M_SEC "m" wide_text); (ex_o, CBuild)].
Theorem C67_no_panic_refuted :
  exists m rs, good_m wide_h /\ mexec wide_env (NewModel wide_env) wide_h = Val (m, rs) /\ Forall (fun r => x_err r = None) rs /\
    (forall o r, mstep wide_env o m (CAdd ("p" :: r)) = Panic)%string /\
    (forall o a, mstep wide_env o m (CAdd ["g"; a]) = Panic)%string /\
    (forall o v, mstep wide_env o m (CSetDef P_SEC "" v) = Panic)%string.
Proof.
  eexists _, _. split; [|split; [vm_compute; reflexivity|]].
  - repeat (apply Forall_cons; [apply ex_o_good|]); apply Forall_nil.
  - split; [repeat constructor|]. repeat split.
Qed.
Print Assumptions C67_no_panic_refuted.
