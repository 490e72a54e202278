(** C105: matchers written by the user of the library. *)
From Verif Require Import GoBase GoBaseP DefsM DefsP PolicyM PolicySpec PolicyP EffectorM EffectorP MatcherDefM MatcherDefSpec MatcherDefP MatcherM MatcherSpec MatcherP MatcherP2
  RbacM RbacSpec DomainM DomainSpec EvalM ModelM ModelSpec ModelP ModelP2 ModelP3 ModelP4 ModelP5 ModelP6 EnforcerM EnforcerSpec EnforcerP
  SafeSpec SafeP FunctionsSpec FunctionsP AppSpec AppsSpec UserMatcherM UserMatcherSpec.
From Verif Require Import Prop_Effect Prop_Defs Prop_Matcher Prop_Model Prop_Enforce Prop_Query Prop_Functions Prop_App Prop_Apps.

(** ** The context *)
Lemma options_none E o m rk d ops : rk <> ""%string -> mget rk (md_r m) = Some d ->
  Forall (fun op => match op with OMatcher s => s = ""%string | OMatcherDef _ | OMatcherVal _ => False | _ => True end) ops ->
  Forall (fun op => match op with ORequest s => s = ""%string \/ s = rk | ORequestDef _ => False | _ => True end) ops ->
  forall x, c_r x = Some d \/ c_r x = None ->
  exists x', apply_options E o m x ops = Val (m, x', None) /\ (c_r x' = Some d \/ c_r x = None /\ c_r x' = None /\ ~ In (ORequest rk) ops).
Proof.
  intros Nr Hr. induction ops as [|op ops IH]; intros Fm Fr x Hx; cbn [apply_options].
  - exists x. split; [reflexivity|]. destruct Hx as [Hx|Hx]; [now left|right; auto].
  - apply Forall_cons_iff in Fm as [Om Fm]. apply Forall_cons_iff in Fr as [Or Fr].
    assert (S : exists x1, option_apply E o m x op = Val (m, x1, None) /\ (c_r x1 = Some d \/ c_r x = None /\ c_r x1 = None /\ op <> ORequest rk)).
    { destruct op; cbn [option_apply] in *; try contradiction.
      - subst s. cbn. exists x. split; [reflexivity|]. destruct Hx as [Hx|Hx]; [now left|right; repeat split; auto; discriminate].
      - destruct Or as [-> | ->].
        + cbn. exists x. split; [reflexivity|]. destruct Hx as [Hx|Hx]; [now left|right; repeat split; auto]. congruence.
        + destruct (String.eqb_spec rk ""); [contradiction|]. unfold GetRequestDef. rewrite Hr. cbn [obind]. eexists. split; [reflexivity|]. now left.
      - destruct (String.eqb s ""); eexists; (split; [reflexivity|]); cbn [c_r]; destruct Hx as [Hx|Hx]; try (now left); right; repeat split; auto; discriminate.
      - eexists. split; [reflexivity|]. cbn [c_r]. destruct Hx as [Hx|Hx]; [now left|right; repeat split; auto; discriminate].
      - eexists. split; [reflexivity|]. destruct Hx as [Hx|Hx]; [now left|right; repeat split; auto; discriminate]. }
    destruct S as [x1 [-> S]]. cbn [obind].
    destruct (IH Fm Fr x1) as [x' [A B]]; [destruct S as [S|[_ [S _]]]; auto|]. exists x'. split; [exact A|].
    destruct B as [B|[B1 [B2 B3]]]; [now left|]. destruct S as [S|[S1 [S2 S3]]]; [congruence|]. right. repeat split; auto. intros [H|H]; [now apply S3|now apply B3].
Qed.

Lemma context_user E h m rs o rk rt ps : mexec E (NewModel E) h = Val (m, rs) -> no_matcher ps -> uses_request rk ps -> key_of R_SEC rk -> def_text R_SEC rk h = Some rt ->
  exists x, user_context E o m (opts_of ps) = Val (m, inl x) /\ c_r x = Some (NewRequestDef rk rt) /\ c_e x = Some (no_spaces (effect_in_force h ps)).
Proof.
  intros H Nm [Fr Dr] Kr Hr. pose proof (defs_exec _ _ _ _ H) as D.
  assert (Er : mget rk (md_r m) = Some (NewRequestDef rk rt)) by (rewrite (f_r _ _ D _ Kr), Hr; reflexivity).
  assert (R : reach E h m) by now exists rs.
  destruct (options_none E o m rk _ (opts_of ps) (key_of_ne _ _ Kr) Er Nm Fr ctx0 (or_intror eq_refl)) as [x [A B]].
  pose proof (options_effect E o (opts_of ps) h m ctx0 m x R A (effect_named h "e") eq_refl) as Ef.
  unfold user_context. rewrite A. cbn [obind].
  assert (X : exists x1, (match c_r x with None => option_apply E o m x (ORequest "r") | Some _ => Val (m, x, None) end) = Val (m, x1, None) /\ c_r x1 = Some (NewRequestDef rk rt) /\ c_e x1 = c_e x).
  { destruct B as [B|[_ [B1 B2]]]; [rewrite B; exists x; auto|]. destruct Dr as [->|]; [|contradiction]. rewrite B1. cbn. unfold GetRequestDef. rewrite Er. cbn. eexists. split; [reflexivity|]. auto. }
  destruct X as [x1 [-> [X1 X2]]]. cbn [obind]. rewrite X2.
  destruct (c_e x) as [e|] eqn:E5; cbn [obind].
  - exists x1. split; [reflexivity|]. split; [exact X1|]. rewrite X2. f_equal. unfold e_val in Ef. rewrite E5 in Ef. exact Ef.
  - cbn [option_apply String.eqb]. eexists. split; [reflexivity|]. cbn [c_r c_e]. split; [exact X1|]. f_equal.
    destruct (reach_defs _ _ _ R) as [D' N]. etransitivity; [apply (effect_lookup _ _ "e" D' N)|]. unfold effect_in_force.
    assert (Z : forall ops x x' acc, apply_options E o m x ops = Val (m, x', None) -> c_e x' = None ->
                Forall (fun op => match op with OMatcher s => s = ""%string | OMatcherDef _ | OMatcherVal _ => False | _ => True end) ops ->
                Forall (fun op => match op with ORequest s => s = ""%string \/ s = rk | ORequestDef _ => False | _ => True end) ops ->
                c_e x = None /\ fold_left (effect_option h) ops acc = acc).
    { clear -Er Kr. induction ops as [|op ops IH]; intros x x' acc H1 H2 F1 F2; cbn [apply_options fold_left] in *.
      - injection H1 as <-. auto.
      - apply Forall_cons_iff in F1 as [O1 F1]. apply Forall_cons_iff in F2 as [O2 F2]. apply obind_val in H1 as [[[m1 x1] e1] [Eo H1]].
        destruct e1; [discriminate|]. assert (m1 = m) as ->.
        { destruct op; cbn [option_apply] in Eo; try contradiction; try (injection Eo as <- <-; reflexivity).
          - subst s. injection Eo as <- <-. reflexivity.
          - destruct (String.eqb s ""); [injection Eo as <- <-; reflexivity|]. apply obind_val in Eo as [d [_ Eo]]. injection Eo as <- <-. reflexivity.
          - destruct (String.eqb s ""); injection Eo as <- <-; reflexivity. }
        destruct (IH x1 x' (effect_option h acc op) H1 H2 F1 F2) as [A B]. rewrite B.
        destruct op; cbn [option_apply effect_option] in *; try contradiction.
        + subst s. injection Eo as <-. auto.
        + destruct (String.eqb s ""); [injection Eo as <-; auto|]. apply obind_val in Eo as [d [_ Eo]]. injection Eo as <-. auto.
        + destruct (String.eqb s ""); injection Eo as <-; [auto|discriminate].
        + injection Eo as <-. discriminate.
        + injection Eo as <-. auto. }
    destruct (Z (opts_of ps) ctx0 x (effect_named h "e") A E5 Nm Fr) as [_ Q]. now rewrite Q.
Qed.

(** ** The search *)
Lemma run_collect v key : forall l, run_search v (fun (l : list rule) r => Val (l ++ [key :: r : rule], true)) l = (let! (ms, err) := shows (fun _ => true) v in Val (l ++ map (cons key) ms, err)).
Proof.
  induction v as [err| |r next IH]; intros l; cbn [run_search shows obind]; [now rewrite app_nil_r|reflexivity|].
  rewrite IH. destruct (shows _ (next true)) as [[ms err]|]; cbn [obind map]; [|reflexivity]. now rewrite <- app_assoc.
Qed.

(** ** C105 *)
Theorem C105_filter :
  forall X E h m rs rk rt o ps, mexec E (NewModel E) h = Val (m, rs) ->
    no_matcher ps -> uses_request rk ps -> key_of R_SEC rk -> def_text R_SEC rk h = Some rt ->
    FilterWith X E o m ps = (let! (ms, err) := shows (fun _ => true) (im_search X (NewRequestDef rk rt) (vals_of ps) (functions o m)) in Val (m, (map (cons (im_key X)) ms, err))).
Proof.
  intros X E h m rs rk rt o ps H Nm Ur Kr Hr. destruct (context_user E h m rs o rk rt ps H Nm Ur Kr Hr) as (x & A & B & _).
  unfold FilterWith. rewrite A. cbn [obind]. unfold user_range. rewrite B, run_collect. destruct (shows _ _) as [[ms err]|]; reflexivity.
Qed.
Print Assumptions C105_filter.

(** The state of the callback after the rules [l] (with their key). *)
Definition after_rules (expr : string) (pd : argdef) (l : list rule) (st : estate) : Prop :=
  es_effects st = map (GetEft pd) l /\ es_matches st = l /\ es_panic st = false /\
  es_res st = match rev l with [] => Indeterminate | r :: _ => match MergeEffects expr (map (GetEft pd) l) l false with Val (e, _, _) => e | Panic => Indeterminate end end /\
  es_err st = match rev l with [] => None | r :: _ => match MergeEffects expr (map (GetEft pd) l) l false with Val (_, _, err) => err | Panic => None end end.

Lemma merge_val expr es ms : exists e r err, MergeEffects expr es ms false = Val (e, r, err).
Proof. unfold MergeEffects. repeat match goal with |- context [if ?b then _ else _] => destruct b end; eauto. Qed.

Lemma run_enforce expr pd key (go : rule -> bool) v :
  (forall es ms e r, match MergeEffects expr (es ++ [e]) (ms ++ [r]) false with Val (res, _, err) => match err with Some _ => false | None => effect_eqb res Indeterminate end | Panic => false end =
     match MergeEffects expr [e] [r] false with Val (res, _, err) => match err with Some _ => false | None => effect_eqb res Indeterminate end | Panic => false end) ->
  (forall r, go r = match MergeEffects expr [GetEft pd (key :: r)] [key :: r : rule] false with Val (res, _, err) => match err with Some _ => false | None => effect_eqb res Indeterminate end | Panic => false end) ->
  forall l st, after_rules expr pd l st ->
  match shows go v with
  | Panic => run_search v (fun st r => enforce_call expr pd st (key :: r)) st = Panic
  | Val (ms, err) => exists st', run_search v (fun st r => enforce_call expr pd st (key :: r)) st = Val (st', err) /\ after_rules expr pd (l ++ map (cons key) ms) st'
  end.
Proof.
  intros Hl Hg. induction v as [err| |r next IH]; intros l st A; cbn [shows run_search].
  - exists st. split; [reflexivity|]. cbn. now rewrite app_nil_r.
  - reflexivity.
  - destruct A as (A1 & A2 & A3 & A4 & A5).
    destruct (merge_val expr (map (GetEft pd) l ++ [GetEft pd (key :: r)]) (l ++ [key :: r : rule])) as (e & r0 & er & M).
    assert (G : go r = match er with Some _ => false | None => effect_eqb e Indeterminate end) by (rewrite Hg; specialize (Hl (map (GetEft pd) l) l (GetEft pd (key :: r)) (key :: r)); rewrite M in Hl; now rewrite <- Hl).
    set (st1 := mkEstate e (map (GetEft pd) l ++ [GetEft pd (key :: r)]) (l ++ [key :: r : rule]) er false).
    assert (Q : enforce_call expr pd st (key :: r) = Val (st1, go r)).
    { unfold enforce_call, enforce_fn. cbv zeta. rewrite A1, A2, M, G. destruct er; [reflexivity|]. destruct (effect_eqb e Indeterminate); reflexivity. }
    rewrite Q. cbn [obind].
    assert (S1 : after_rules expr pd (l ++ [key :: r : rule]) st1).
    { unfold after_rules, st1. cbn [es_effects es_matches es_panic es_res es_err]. rewrite rev_unit. assert (Mp : map (GetEft pd) (l ++ [key :: r : rule]) = map (GetEft pd) l ++ [GetEft pd (key :: r)]) by apply map_app. rewrite Mp, M. repeat split. }
    specialize (IH (go r) (l ++ [key :: r : rule]) st1 S1). destruct (shows go (next (go r))) as [[ms err]|]; cbn [obind map]; [|exact IH].
    rewrite <- app_assoc in IH. exact IH.
Qed.

Lemma one_answer expr : forall es ms e r, match MergeEffects expr (es ++ [e]) (ms ++ [r]) false with Val (res, _, err) => match err with Some _ => false | None => effect_eqb res Indeterminate end | Panic => false end =
     match MergeEffects expr [e] [r] false with Val (res, _, err) => match err with Some _ => false | None => effect_eqb res Indeterminate end | Panic => false end.
Proof.
  intros es ms e r. unfold MergeEffects. rewrite !last_last. cbn [last].
  destruct (String.eqb expr SOME_ALLOW); [destruct (effect_eqb e Allow); reflexivity|]. destruct (String.eqb expr NO_DENY); [destruct (effect_eqb e Deny); reflexivity|].
  destruct (String.eqb expr SOME_ALLOW_NO_DENY); [destruct (effect_eqb e Deny); reflexivity|]. reflexivity.
Qed.

Lemma runs_with X E h m rs rk rt pt o ps go : mexec E (NewModel E) h = Val (m, rs) ->
  no_matcher ps -> uses_request rk ps -> key_of R_SEC rk -> def_text R_SEC rk h = Some rt -> key_of P_SEC (im_key X) -> def_text P_SEC (im_key X) h = Some pt ->
  let expr := no_spaces (effect_in_force h ps) in let pd := NewPolicyDef (im_key X) pt in
  (forall r, go r = match MergeEffects expr [GetEft pd (im_key X :: r)] [im_key X :: r : rule] false with Val (res, _, err) => match err with Some _ => false | None => effect_eqb res Indeterminate end | Panic => false end) ->
  match shows go (im_search X (NewRequestDef rk rt) (vals_of ps) (functions o m)) with
  | Panic => EnforceWith X E o m ps = Panic
  | Val (ms, err) => exists st, after_rules expr pd (map (cons (im_key X)) ms) st /\ EnforceWith X E o m ps = (let! r := enforce_finish expr st err in Val (m, r))
  end.
Proof.
  intros H Nm Ur Kr Hr Kp Hp expr pd Hg. destruct (context_user E h m rs o rk rt ps H Nm Ur Kr Hr) as (x & A & B & C). fold expr in C.
  pose proof (defs_exec _ _ _ _ H) as D.
  assert (Ep : mget (im_key X) (md_p m) = Some pd) by (rewrite (f_p _ _ D _ Kp), Hp; reflexivity).
  pose proof (run_enforce expr pd (im_key X) go (im_search X (NewRequestDef rk rt) (vals_of ps) (functions o m)) (one_answer expr) Hg [] estate0) as R.
  unfold EnforceWith. rewrite A. cbn [obind]. unfold enforce_with, user_range. rewrite Ep, C, B.
  specialize (R ltac:(repeat split)). destruct (shows go _) as [[ms err]|]; cbn [app] in R.
  - destruct R as (st & R & S). exists st. split; [exact S|]. rewrite R. reflexivity.
  - rewrite R. reflexivity.
Qed.

Lemma eft_of h key pt r : def_text P_SEC key h = Some pt -> rule_effect h (key :: r) = GetEft (NewPolicyDef key pt) (key :: r).
Proof. intros H. unfold rule_effect. now rewrite H. Qed.

(** What the rules reported decide. *)
Lemma finish_rules expr pd l st err : after_rules expr pd l st ->
  enforce_finish expr st err = Val (match err with Some e => (false, Some e) | None =>
    (if String.eqb expr SOME_ALLOW then last_is (fun r => effect_eqb (GetEft pd r) Allow) l
     else if String.eqb expr NO_DENY then negb (last_is (fun r => effect_eqb (GetEft pd r) Deny) l)
     else if String.eqb expr SOME_ALLOW_NO_DENY then first_is (fun r => effect_eqb (GetEft pd r) Allow) l && negb (last_is (fun r => effect_eqb (GetEft pd r) Deny) l)
     else false, None) end).
Proof.
  intros (A1 & A2 & A3 & A4 & A5). unfold enforce_finish. rewrite A3. destruct err as [e|]; [reflexivity|]. rewrite A4, A5, A1, A2. unfold last_is.
  destruct l as [|r0 l0 _] using rev_ind.
  - cbn [rev map first_is]. unfold MergeEffects, effect_eqb at 1. cbn iota. destruct (String.eqb expr SOME_ALLOW); [reflexivity|]. destruct (String.eqb expr NO_DENY); [reflexivity|].
    destruct (String.eqb expr SOME_ALLOW_NO_DENY); reflexivity.
  - rewrite rev_unit, map_app. cbn [map]. unfold MergeEffects. rewrite !last_last.
    destruct (String.eqb expr SOME_ALLOW) eqn:E1; [destruct (GetEft pd r0); reflexivity|]. destruct (String.eqb expr NO_DENY) eqn:E2; [destruct (GetEft pd r0); reflexivity|].
    destruct (String.eqb expr SOME_ALLOW_NO_DENY) eqn:E3; [|reflexivity].
    destruct l0 as [|r1 l1]; cbn [app map first_is].
    + destruct (GetEft pd r0); reflexivity.
    + destruct (GetEft pd r0), (GetEft pd r1); reflexivity.
Qed.

(** Enforce asks the matcher to stop after each rule that settles the matter (one
    that allows, or one that denies); what counts is the last rule it reports, and for
    the combined effect also the first. *)
Theorem C105_enforce :
  forall X E h m rs rk rt pt o ps, mexec E (NewModel E) h = Val (m, rs) ->
    no_matcher ps -> uses_request rk ps -> key_of R_SEC rk -> def_text R_SEC rk h = Some rt ->
    key_of P_SEC (im_key X) -> def_text P_SEC (im_key X) h = Some pt ->
    let e := effect_in_force h ps in
    let v := im_search X (NewRequestDef rk rt) (vals_of ps) (functions o m) in
    let is (e : effect) (r : rule) := is_effect h e (im_key X :: r) in
    let result (go : rule -> bool) (verdict : list rule -> bool) :=
      let! (ms, err) := shows go v in
      Val (m, match err with Some er => (false, Some er) | None => (verdict ms, None) end) in
    (spells e "some(where (p.eft == allow))" ->
       EnforceWith X E o m ps = result (fun r => negb (is Allow r)) (last_is (is Allow))) /\
    (spells e "!some(where (p.eft == deny))" ->
       EnforceWith X E o m ps = result (fun r => negb (is Deny r)) (fun ms => negb (last_is (is Deny) ms))) /\
    (spells e "some(where (p.eft == allow)) && !some(where (p.eft == deny))" ->
       EnforceWith X E o m ps = result (fun r => negb (is Deny r)) (fun ms => first_is (is Allow) ms && negb (last_is (is Deny) ms))) /\
    (~ spells e "some(where (p.eft == allow))" -> ~ spells e "!some(where (p.eft == deny))" -> ~ spells e "some(where (p.eft == allow)) && !some(where (p.eft == deny))" ->
       EnforceWith X E o m ps = result (fun _ => false) (fun _ => false)).
Proof.
  intros X E h m rs rk rt pt o ps H Nm Ur Kr Hr Kp Hp e v is result.
  assert (Is : forall e r, is e r = effect_eqb (GetEft (NewPolicyDef (im_key X) pt) (im_key X :: r)) e) by (intros e0 r; unfold is, is_effect; now rewrite (eft_of h _ pt)).
  assert (L : forall e l, last_is (is e) l = last_is (fun r => effect_eqb (GetEft (NewPolicyDef (im_key X) pt) r) e) (map (cons (im_key X)) l)).
  { intros e0 l. unfold last_is. destruct l as [|r l _] using rev_ind; [reflexivity|]. rewrite map_app. cbn [map]. rewrite !rev_unit. apply Is. }
  assert (Fi : forall e l, first_is (is e) l = first_is (fun r => effect_eqb (GetEft (NewPolicyDef (im_key X) pt) r) e) (map (cons (im_key X)) l)).
  { intros e0 [|r l]; [reflexivity|]. apply Is. }
  assert (G : forall go verdict,
    (forall r, go r = match MergeEffects (no_spaces e) [GetEft (NewPolicyDef (im_key X) pt) (im_key X :: r)] [im_key X :: r : rule] false with Val (res, _, err) => match err with Some _ => false | None => effect_eqb res Indeterminate end | Panic => false end) ->
    (forall l, verdict l = let ms := map (cons (im_key X)) l in
       if String.eqb (no_spaces e) SOME_ALLOW then last_is (fun r => effect_eqb (GetEft (NewPolicyDef (im_key X) pt) r) Allow) ms
       else if String.eqb (no_spaces e) NO_DENY then negb (last_is (fun r => effect_eqb (GetEft (NewPolicyDef (im_key X) pt) r) Deny) ms)
       else if String.eqb (no_spaces e) SOME_ALLOW_NO_DENY then first_is (fun r => effect_eqb (GetEft (NewPolicyDef (im_key X) pt) r) Allow) ms && negb (last_is (fun r => effect_eqb (GetEft (NewPolicyDef (im_key X) pt) r) Deny) ms)
       else false) ->
    EnforceWith X E o m ps = result go verdict).
  { intros go verdict Hg Hv. pose proof (runs_with X E h m rs rk rt pt o ps go H Nm Ur Kr Hr Kp Hp Hg) as R. unfold result. fold v in R.
    destruct (shows go v) as [[ms err]|]; cbn [obind]; [|exact R]. destruct R as (st & A & R). rewrite R, (finish_rules _ _ _ st err A). cbn [obind].
    rewrite Hv. destruct err; reflexivity. }
  split; [|split; [|split]].
  - intros S. apply G; unfold spells in S; rewrite S.
    + intros r. rewrite Is. unfold MergeEffects. change (String.eqb (no_spaces _) SOME_ALLOW) with true. cbn [last]. destruct (GetEft _ _); reflexivity.
    + intros l. cbv zeta. change (String.eqb (no_spaces _) SOME_ALLOW) with true. apply L.
  - intros S. apply G; unfold spells in S; rewrite S.
    + intros r. rewrite Is. unfold MergeEffects. change (String.eqb (no_spaces _) SOME_ALLOW) with false. change (String.eqb (no_spaces _) NO_DENY) with true. cbn [last]. destruct (GetEft _ _); reflexivity.
    + intros l. cbv zeta. change (String.eqb (no_spaces _) SOME_ALLOW) with false. change (String.eqb (no_spaces _) NO_DENY) with true. now rewrite L.
  - intros S. apply G; unfold spells in S; rewrite S.
    + intros r. rewrite Is. unfold MergeEffects. change (String.eqb (no_spaces _) SOME_ALLOW) with false. change (String.eqb (no_spaces _) NO_DENY) with false.
      change (String.eqb (no_spaces _) SOME_ALLOW_NO_DENY) with true. cbn [last]. destruct (GetEft _ _); reflexivity.
    + intros l. cbv zeta. change (String.eqb (no_spaces _) SOME_ALLOW) with false. change (String.eqb (no_spaces _) NO_DENY) with false.
      change (String.eqb (no_spaces _) SOME_ALLOW_NO_DENY) with true. now rewrite L, Fi.
  - intros S1 S2 S3.
    assert (N1 : String.eqb (no_spaces e) SOME_ALLOW = false) by (apply String.eqb_neq; exact S1).
    assert (N2 : String.eqb (no_spaces e) NO_DENY = false) by (apply String.eqb_neq; exact S2).
    assert (N3 : String.eqb (no_spaces e) SOME_ALLOW_NO_DENY = false) by (apply String.eqb_neq; exact S3).
    apply G.
    + intros r. unfold MergeEffects. rewrite N1, N2, N3. reflexivity.
    + intros l. cbv zeta. now rewrite N1, N2, N3.
Qed.
Print Assumptions C105_enforce.

(** A matcher whose policy key is not a policy definition of the model makes Enforce
    panic, whatever it would report. *)
Theorem C105_unknown_section :
  forall X E h m rs rk rt o ps, mexec E (NewModel E) h = Val (m, rs) ->
    no_matcher ps -> uses_request rk ps -> key_of R_SEC rk -> def_text R_SEC rk h = Some rt ->
    (forall pt, ~ (key_of P_SEC (im_key X) /\ def_text P_SEC (im_key X) h = Some pt)) -> EnforceWith X E o m ps = Panic.
Proof.
  intros X E h m rs rk rt o ps H Nm Ur Kr Hr Hn. destruct (context_user E h m rs o rk rt ps H Nm Ur Kr Hr) as (x & A & B & C).
  unfold EnforceWith. rewrite A. cbn [obind]. unfold enforce_with. destruct (mget (im_key X) (md_p m)) as [pd|] eqn:Ep; [exfalso|reflexivity].
  pose proof (defs_exec _ _ _ _ H) as D.
  assert (K : key_of P_SEC (im_key X)) by (apply (f_keys _ _ D); apply mget_In in Ep; exact (in_map fst _ _ Ep)).
  rewrite (f_p _ _ D _ K) in Ep. destruct (def_text P_SEC (im_key X) h) as [pt|] eqn:Q; [|discriminate]. now apply (Hn pt).
Qed.
Print Assumptions C105_unknown_section.

(** ** Matchers that stop when they are told to *)
Fixpoint through (go : rule -> bool) (l : list rule) : list rule :=
  match l with [] => [] | r :: l' => r :: (if go r then through go l' else []) end.
Lemma shows_heeds go v : heeds v -> forall ms err, shows (fun _ => true) v = Val (ms, err) ->
  shows go v = Val (through go ms, if forallb go ms then err else None).
Proof.
  induction v as [e| |r next IH]; intros Hv ms err Hs; cbn [shows heeds] in *; [injection Hs as <- <-; reflexivity|discriminate|].
  destruct Hv as [Hf Ht]. apply obind_val in Hs as [[ms' e'] [Hs Q]]. injection Q as <- <-. cbn [through forallb]. destruct (go r) eqn:G; cbn [andb].
  - rewrite (IH true Ht ms' e' Hs). reflexivity.
  - rewrite Hf. reflexivity.
Qed.
Lemma last_through (f : rule -> bool) l : last_is f (through (fun r => negb (f r)) l) = existsb f l.
Proof.
  induction l as [|r l IH]; [reflexivity|]. cbn [through existsb]. destruct (f r) eqn:Fr; cbn [negb orb].
  - unfold last_is. cbn. exact Fr.
  - rewrite <- IH. unfold last_is. cbn [rev]. destruct (rev (through _ l)) as [|x y]; cbn [app]; [now rewrite Fr|reflexivity].
Qed.
Lemma first_through (f : rule -> bool) go l : first_is f (through go l) = first_is f l.
Proof. destruct l; reflexivity. Qed.
Lemma forallb_existsb (f : rule -> bool) l : forallb (fun r => negb (f r)) l = negb (existsb f l).
Proof. induction l as [|r l IH]; [reflexivity|]. cbn. rewrite IH. now destruct (f r), (existsb f l). Qed.

Theorem C105_stopping_matchers :
  forall X E h m rs rk rt pt o ps ms err, mexec E (NewModel E) h = Val (m, rs) ->
    no_matcher ps -> uses_request rk ps -> key_of R_SEC rk -> def_text R_SEC rk h = Some rt ->
    key_of P_SEC (im_key X) -> def_text P_SEC (im_key X) h = Some pt ->
    heeds (im_search X (NewRequestDef rk rt) (vals_of ps) (functions o m)) ->
    FilterWith X E o m ps = Val (m, (ms, err)) ->
    let e := effect_in_force h ps in
    (spells e "some(where (p.eft == allow))" ->
       (has_effect h ms Allow -> EnforceWith X E o m ps = Val (m, (true, None))) /\
       (~ has_effect h ms Allow -> EnforceWith X E o m ps = Val (m, (false, err)))) /\
    (spells e "!some(where (p.eft == deny))" ->
       (has_effect h ms Deny -> EnforceWith X E o m ps = Val (m, (false, None))) /\
       (~ has_effect h ms Deny -> EnforceWith X E o m ps = Val (m, (match err with None => true | Some _ => false end, err)))) /\
    (spells e "some(where (p.eft == allow)) && !some(where (p.eft == deny))" ->
       (has_effect h ms Deny -> EnforceWith X E o m ps = Val (m, (false, None))) /\
       (~ has_effect h ms Deny -> err <> None -> EnforceWith X E o m ps = Val (m, (false, err))) /\
       (~ has_effect h ms Deny -> err = None -> exists b, EnforceWith X E o m ps = Val (m, (b, None)) /\ (b = true <-> exists r ms', ms = r :: ms' /\ rule_effect h r = Allow))).
Proof.
  intros X E h m rs rk rt pt o ps ms err H Nm Ur Kr Hr Kp Hp Hv HF e.
  rewrite (C105_filter X E h m rs rk rt o ps H Nm Ur Kr Hr) in HF. apply obind_val in HF as [[l er] [Hs Q]]. injection Q as <- <-.
  destruct (C105_enforce X E h m rs rk rt pt o ps H Nm Ur Kr Hr Kp Hp) as (A & N & B & _).
  assert (Ex : forall e, existsb (fun r : rule => is_effect h e (im_key X :: r)) l = true <-> has_effect h (map (cons (im_key X)) l) e).
  { intros e0. rewrite existsb_exists. unfold has_effect, is_effect. split.
    - intros (r & I & Hq). exists (im_key X :: r). split; [now apply in_map|now apply effect_eqb_eq].
    - intros (r & I & Hq). apply in_map_iff in I as (r' & <- & I). exists r'. split; [exact I|now apply effect_eqb_eq]. }
  assert (Nx : forall e, existsb (fun r : rule => is_effect h e (im_key X :: r)) l = false <-> ~ has_effect h (map (cons (im_key X)) l) e).
  { intros e0. rewrite <- Ex. destruct (existsb _ _); split; congruence. }
  split; [|split].
  - intros S. specialize (A S). rewrite (shows_heeds _ _ Hv l er Hs) in A. cbn [obind] in A. rewrite last_through, forallb_existsb in A. split; intros Q.
    + apply Ex in Q. rewrite Q in A. exact A.
    + apply Nx in Q. rewrite Q in A. rewrite A. cbn [negb]. destruct er; reflexivity.
  - intros S. specialize (N S). rewrite (shows_heeds _ _ Hv l er Hs) in N. cbn [obind] in N. rewrite last_through, forallb_existsb in N. split; intros Q.
    + apply Ex in Q. rewrite Q in N. exact N.
    + apply Nx in Q. rewrite Q in N. rewrite N. cbn [negb]. destruct er; reflexivity.
  - intros S. specialize (B S). rewrite (shows_heeds _ _ Hv l er Hs) in B. cbn [obind] in B. rewrite last_through, first_through, forallb_existsb in B. split; [|split]; intros Q.
    + apply Ex in Q. rewrite Q in B. cbn [negb] in B. now rewrite andb_false_r in B.
    + intros Ne. apply Nx in Q. rewrite Q in B. rewrite B. cbn [negb]. destruct er; [reflexivity|congruence].
    + intros ->. apply Nx in Q. rewrite Q in B. rewrite B. cbn [negb]. rewrite andb_true_r. eexists. split; [reflexivity|].
      destruct l as [|r l]; cbn [first_is map].
      * split; [discriminate|]. intros (r & ms' & X1 & _). discriminate.
      * unfold is_effect. rewrite effect_eqb_eq. split; [intros Q1; eauto|]. intros (r1 & ms' & X1 & X2). injection X1 as <- <-. exact X2.
Qed.
Print Assumptions C105_stopping_matchers.

Lemma run_list expr pd key err ms : forall st,
  run_search (search_list ms err) (fun st r => enforce_call expr pd st (key :: r)) st =
  (let (st', b) := range_vals (enforce_fn expr pd) st (map (cons key) ms) in Val (st', if b then err else None)).
Proof.
  induction ms as [|r ms IH]; intros st; cbn [search_list run_search map range_vals]; [reflexivity|].
  assert (Q : enforce_call expr pd st (key :: r) = Val (enforce_fn expr pd st (key :: r))).
  { unfold enforce_call, enforce_fn. cbv zeta. destruct (merge_val expr (es_effects st ++ [GetEft pd (key :: r)]) (es_matches st ++ [key :: r : rule])) as (e & r0 & er & M). rewrite M.
    destruct er; [reflexivity|]. destruct (effect_eqb e Indeterminate); reflexivity. }
  rewrite Q. cbn [obind]. destruct (enforce_fn expr pd st (key :: r)) as [st1 b]. destruct b; [apply IH|reflexivity].
Qed.

(** A matcher of the library, given as one of the user that reports what Filter
    gives, decides the same: the matchers of the library stop when they are told to. *)
Theorem C105_built_in_agrees :
  forall E h m rs mk root ptext h1 h2 rk rtext o ps ps', good_m h -> mexec E (NewModel E) h = Val (m, rs) ->
    in_service E h mk root ptext h1 h2 -> uses_matcher mk ps -> uses_request rk ps -> key_of R_SEC rk -> def_text R_SEC rk h = Some rtext ->
    no_matcher ps' -> uses_request rk ps' -> vals_of ps' = vals_of ps -> effect_in_force h ps' = effect_in_force h ps ->
    forall (ms : list rule) err, Filter E o m ps = Val (m, (map (cons (GetPolicyKey root)) ms, err)) ->
      let X := mkImatch (GetPolicyKey root) (fun _ _ _ => search_list ms err) in
      FilterWith X E o m ps' = Filter E o m ps /\ EnforceWith X E o m ps' = Enforce E o m ps.
Proof.
  intros E h m rs mk root pt h1 h2 rk rt o ps ps' G H Sv Um Ur Kr Hr Nm Ur' Vq Eq ms err HF X.
  destruct (query_in_service E h m rs mk root pt h1 h2 rk rt o ps G H Sv Um Ur Kr Hr) as (y & _ & HF' & HE).
  destruct (in_service_lives _ _ _ _ _ _ _ _ _ G H Sv) as (j & y' & _ & _ & _ & A4 & _).
  assert (Sh : forall go, shows go (search_list ms err) = Val (through go ms, if forallb go ms then err else None)).
  { intros go. clear. induction ms as [|r ms IH]; [reflexivity|]. cbn [search_list shows through forallb]. destruct (go r); cbn [andb]; [rewrite IH; reflexivity|reflexivity]. }
  assert (Th : through (fun _ : rule => true) ms = ms /\ forallb (fun _ : rule => true) ms = true).
  { clear. induction ms as [|r ms [I1 I2]]; [split; reflexivity|]. cbn. now rewrite I1, I2. }
  split.
  - rewrite (C105_filter X E h m rs rk rt o ps' H Nm Ur' Kr Hr). cbn [im_search X im_key]. rewrite Sh. destruct Th as [-> ->]. cbn [obind]. now rewrite HF.
  - rewrite HF' in HF. apply obind_val in HF as [[l e0] [HR Q]]. cbn [fst snd] in Q. injection Q as Q1 Q2. subst e0. rewrite (HE l err HR). rewrite Q1.
    destruct (context_user E h m rs o rk rt ps' H Nm Ur' Kr Hr) as (x & A & B & C).
    unfold EnforceWith. rewrite A. cbn [obind]. unfold enforce_with, user_range. rewrite B, C. cbn [im_key im_search X]. rewrite A4, run_list, Eq.
    unfold decide. destruct (range_vals _ _ _) as [st b]. cbn [obind]. destruct b; reflexivity.
Qed.
Print Assumptions C105_built_in_agrees.

(** ** A matcher that goes on after it is told to stop

    That a request is denied under "no deny" if a rule that denies is reported, and
    allowed under "some allow" if one that allows is reported, is false: the rules
    reported after it undo it. *)
Definition um_defs (e : string) : list (orders * mcall) :=
  map (fun c => (ex_o, c)) [CSetDef R_SEC "r" "sub, obj"; CSetDef P_SEC "p" "sub, obj, eft"; CSetDef E_SEC "e" e]%string.
(** Reports a rule that denies and one that allows, and does not listen. *)
Definition restless (first second : string) : imatch :=
  mkImatch "p" (fun _ _ _ => SReport ["alice"; "data1"; first]%string (fun _ => SReport ["alice"; "data1"; second]%string (fun _ => SEnd None))).
Theorem C105_settled_refuted :
  ~ (forall X E h m rs rk rt pt o ps, mexec E (NewModel E) h = Val (m, rs) ->
       no_matcher ps -> uses_request rk ps -> key_of R_SEC rk -> def_text R_SEC rk h = Some rt ->
       key_of P_SEC (im_key X) -> def_text P_SEC (im_key X) h = Some pt ->
       (forall go, exists ms, shows go (im_search X (NewRequestDef rk rt) (vals_of ps) (functions o m)) = Val (ms, None) /\ has_effect h (map (cons (im_key X)) ms) Deny) ->
       spells (effect_in_force h ps) "!some(where (p.eft == deny))" -> EnforceWith X E o m ps = Val (m, (false, None))) /\
  ~ (forall X E h m rs rk rt pt o ps, mexec E (NewModel E) h = Val (m, rs) ->
       no_matcher ps -> uses_request rk ps -> key_of R_SEC rk -> def_text R_SEC rk h = Some rt ->
       key_of P_SEC (im_key X) -> def_text P_SEC (im_key X) h = Some pt ->
       (forall go, exists ms, shows go (im_search X (NewRequestDef rk rt) (vals_of ps) (functions o m)) = Val (ms, None) /\ has_effect h (map (cons (im_key X)) ms) Allow) ->
       spells (effect_in_force h ps) "some(where (p.eft == allow))" -> EnforceWith X E o m ps = Val (m, (true, None))).
Proof.
  assert (Kr : key_of R_SEC "r") by (exists "r"%char; split; reflexivity). assert (Kp : key_of P_SEC "p") by (exists "p"%char; split; reflexivity).
  assert (Ur : uses_request "r" [PVal (VStr "alice"); PVal (VStr "data1")]) by (split; [constructor|now left]).
  split; intros H.
  - assert (Q : (let! (m, _) := mexec ex_env (NewModel ex_env) (um_defs "!some(where (p.eft == deny))") in let! (_, r) := EnforceWith (restless "deny" "allow") ex_env ex_o m [PVal (VStr "alice"); PVal (VStr "data1")] in Val r) = Val (true, None)) by reflexivity.
    destruct (mexec ex_env (NewModel ex_env) (um_defs "!some(where (p.eft == deny))")) as [[m rs]|] eqn:Hm; [|discriminate]. cbn [obind] in Q.
    specialize (H (restless "deny" "allow") ex_env _ m rs "r"%string _ _ ex_o [PVal (VStr "alice"); PVal (VStr "data1")] Hm (Forall_nil _) Ur Kr eq_refl Kp eq_refl).
    rewrite H in Q; [discriminate| |reflexivity]. intros go. eexists. split; [reflexivity|]. eexists. split; [now left|reflexivity].
  - assert (Q : (let! (m, _) := mexec ex_env (NewModel ex_env) (um_defs "some(where (p.eft == allow))") in let! (_, r) := EnforceWith (restless "allow" "deny") ex_env ex_o m [PVal (VStr "alice"); PVal (VStr "data1")] in Val r) = Val (false, None)) by reflexivity.
    destruct (mexec ex_env (NewModel ex_env) (um_defs "some(where (p.eft == allow))")) as [[m rs]|] eqn:Hm; [|discriminate]. cbn [obind] in Q.
    specialize (H (restless "allow" "deny") ex_env _ m rs "r"%string _ _ ex_o [PVal (VStr "alice"); PVal (VStr "data1")] Hm (Forall_nil _) Ur Kr eq_refl Kp eq_refl).
    rewrite H in Q; [discriminate| |reflexivity]. intros go. eexists. split; [reflexivity|]. eexists. split; [now left|reflexivity].
Qed.
Print Assumptions C105_settled_refuted.

(** ** The hypotheses are met

    A matcher that knows who owns what and asks the model's functions for more. *)
Definition owners : imatch :=
  mkImatch "p" (fun _ rvals F =>
    match rvals with
    | [VStr s; VStr ob] =>
        search_list ((if String.eqb s "alice" then [["alice"; ob; "allow"]%string] else []) ++ (if String.eqb ob "vault" then [["*"; "vault"; "deny"]%string] else []))
          (if String.eqb s "" then Some ErrEval else match F "guest"%string with Some _ => None | None => Some ErrArgs end)
    | _ => SPanic
    end).
(** Every request that is answered with an error - of the matcher, or because the
    context names a section that is not defined - is denied. *)
Theorem C105_errors_deny :
  forall X E o m ps m' b err, EnforceWith X E o m ps = Val (m', (b, Some err)) -> b = false.
Proof.
  intros X E o m ps m' b err H. unfold EnforceWith in H. apply obind_val in H as [[m1 [x|e]] [_ H]]; [|now injection H].
  apply obind_val in H as [[b1 e1] [H1 H]]. injection H as _ -> ->. unfold enforce_with in H1.
  destruct (mget (im_key X) (md_p m1)) as [pd|]; [|discriminate]. destruct (c_e x) as [expr|]; [|discriminate].
  apply obind_val in H1 as [[st e2] [_ H1]]. unfold enforce_finish in H1. destruct (es_panic st); [discriminate|].
  destruct e2; [now injection H1|]. destruct (es_err st); [now injection H1|]. destruct (effect_eqb (es_res st) Indeterminate); [|discriminate].
  apply obind_val in H1 as [[[res ?] ?] [_ H1]]. discriminate.
Qed.
Print Assumptions C105_errors_deny.
(** It happens: the context names an effect that is not defined. *)
Example C105_errors_ex :
  (let! (m, _) := mexec ex_env (NewModel ex_env) (um_defs "some(where (p.eft == allow))") in
   let! (_, r) := EnforceWith owners ex_env ex_o m [PVal (VStr "alice"); PVal (VStr "desk"); POpt (OEffect "e7")] in Val r) <> Panic /\
  (let! (m, _) := mexec ex_env (NewModel ex_env) (um_defs "some(where (p.eft == allow))") in
   let! (_, r) := EnforceWith owners ex_env ex_o m [PVal (VStr "alice"); PVal (VStr "desk"); POpt (OEffect "e7")] in Val (fst r)) = Val false.
Proof. split; [discriminate|reflexivity]. Qed.

Definition um_ask (X : imatch) (E : env) (e : string) (h : list (orders * mcall)) (vals : list string) : outcome (bool * option goerr) :=
  let! (m, _) := mexec E (NewModel E) (um_defs e ++ h) in let! (_, r) := EnforceWith X E ex_rev m (map (fun v => PVal (VStr v)) vals) in Val r.
Example C105_ex :
  let guest := [(ex_o, CSetFn "guest" (fun _ => Panic))] in
  let E := ex_env in
  (forall e, exists m rs, mexec E (NewModel E) (um_defs e ++ guest) = Val (m, rs)) /\
  (forall vals, no_matcher (map PVal vals) /\ uses_request "r" (map PVal vals)) /\ key_of R_SEC "r" /\
  (forall e, def_text R_SEC "r" (um_defs e ++ guest) = Some "sub, obj"%string /\ def_text P_SEC "p" (um_defs e ++ guest) = Some "sub, obj, eft"%string) /\ key_of P_SEC (im_key owners) /\
  (forall rd vals F, heeds (im_search owners rd vals F)) /\
  um_ask owners E "some(where (p.eft == allow))" guest ["alice"; "vault"]%string = Val (true, None) /\
  um_ask owners E "!some(where (p.eft == deny))" guest ["alice"; "vault"]%string = Val (false, None) /\
  um_ask owners E "some(where (p.eft == allow)) && !some(where (p.eft == deny))" guest ["alice"; "vault"]%string = Val (false, None) /\
  um_ask owners E "some(where (p.eft == allow)) && !some(where (p.eft == deny))" guest ["alice"; "desk"]%string = Val (true, None) /\
  um_ask owners E "some(where (p.eft == allow))" [] ["bob"; "desk"]%string = Val (false, Some ErrArgs) /\
  um_ask owners E "some(where (p.eft == allow))" [] ["alice"; "desk"]%string = Val (true, None) /\
  um_ask owners E "some(where (p.eft == allow))" guest ["alice"]%string = Panic.
Proof.
  cbv zeta. split; [intros e; eexists _, _; reflexivity|]. split.
  { intros vals. unfold no_matcher, uses_request. rewrite opts_PVal. split; [constructor|]. split; [constructor|now left]. }
  split; [exists "r"%char; split; reflexivity|]. split; [intros e; split; reflexivity|]. split; [exists "p"%char; split; reflexivity|]. split.
  { intros rd vals F. assert (S : forall l err, heeds (search_list l err)) by (induction l as [|r l IH]; intros err; cbn; auto).
    cbn [owners im_search]. destruct vals as [|[s| |] [|[ob| |] [|]]]; try exact Logic.I. apply S. }
  repeat split; vm_compute; reflexivity.
Qed.
