(** Property C95: what an effector written by the user is asked and how its answers
    decide. *)
From Verif Require Import GoBase GoBaseP DefsM DefsP PolicyM PolicySpec PolicyP EffectorM MatcherDefM MatcherDefSpec MatcherDefP MatcherM MatcherSpec MatcherP MatcherP2
  RbacM RbacSpec DomainM DomainSpec EvalM ModelM ModelSpec ModelP ModelP2 ModelP3 ModelP4 ModelP5 ModelP6 EnforcerM EnforcerSpec EnforcerP
  SafeSpec SafeP FunctionsSpec FunctionsP AppSpec AppsSpec UserEffectorM UserEffectorSpec.
From Verif Require Import Prop_Effect Prop_Defs Prop_Matcher Prop_Model Prop_Enforce Prop_Query Prop_Functions Prop_App Prop_Apps.
Local Open Scope list_scope.

(** ** C95

    Every history of a model, every query in service, every order of map visits and
    every effector, with any state.  Let [ms] be the rules Filter reports, in order,
    and [err] its error.  The effector is asked about the first rule, then the first
    two, and so on.  The first answer that is not "indeterminate" decides: the
    request is allowed when it is "allow" without an error, and Enforce reports no
    error.  If there is none, an error of the search is reported; otherwise the
    effector is asked once more, about all rules, and told so, and the request is
    allowed exactly when it answers "allow". *)
Section Range.
  Context {S : Type}.
  Variable X : merger S.
  Variable pd : argdef.

  Definition at_n (ms : list rule) (s : S) (n : nat) : ustate := mkUstate s Indeterminate (map (GetEft pd) (firstn n ms)) (firstn n ms) None false.
  Lemma firstn_snoc {A} (l : list A) n x : nth_error l n = Some x -> firstn (Datatypes.S n) l = firstn n l ++ [x].
  Proof.
    revert n. induction l as [|a l IH]; intros [|n] H; try discriminate H.
    - injection H as ->. reflexivity.
    - cbn [firstn app]. f_equal. now apply IH.
  Qed.
  Lemma skipn_nth {A} (l : list A) n x : nth_error l n = Some x -> skipn n l = x :: skipn (Datatypes.S n) l.
  Proof.
    revert n. induction l as [|a l IH]; intros [|n] H; try discriminate H.
    - injection H as ->. reflexivity.
    - cbn [skipn]. now apply IH.
  Qed.

  (** As long as the effector is undecided the search goes on. *)
  Lemma goes_on ms s : forall n, n <= List.length ms -> (forall k, 0 < k <= n -> undecided X pd ms s k) ->
    exists s', state_after X pd ms s n = Val s' /\
      range_vals (user_fn X pd) (ustate0 s) ms = range_vals (user_fn X pd) (at_n ms s' n) (skipn n ms).
  Proof.
    induction n as [|n IH]; intros L U.
    - exists s. split; [reflexivity|]. reflexivity.
    - destruct IH as [s1 [H1 H2]]; [lia|intros k Hk; apply U; lia|].
      destruct (U (Datatypes.S n)) as (s2 & r2 & H3); [lia|]. unfold answer in H3. cbn [Nat.pred] in H3. rewrite H1 in H3. cbn [obind] in H3.
      exists s2. split; [cbn [state_after]; rewrite H1; cbn [obind]; now rewrite H3|].
      destruct (nth_error ms n) as [x|] eqn:Hx; [|apply nth_error_None in Hx; lia].
      rewrite H2, (skipn_nth _ _ _ Hx). cbn [range_vals]. unfold user_fn at 1. cbn [at_n us_s us_effects us_matches us_res us_err].
      unfold question in H3. rewrite (firstn_snoc _ _ _ Hx), map_app in H3. cbn [map] in H3. rewrite H3. cbn [effect_eqb].
      unfold at_n at 1. rewrite (firstn_snoc _ _ _ Hx), map_app. reflexivity.
  Qed.
End Range.

Lemma not_ind e : effect_eqb e Indeterminate = true -> e = Indeterminate.
Proof. now destruct e. Qed.

Lemma user_range (S : Type) (X : merger S) E h m rs mk root ptext h1 h2 rk rtext o ps :
    good_m h -> mexec E (NewModel E) h = Val (m, rs) ->
    in_service E h mk root ptext h1 h2 -> uses_matcher mk ps -> uses_request rk ps -> key_of R_SEC rk -> def_text R_SEC rk h = Some rtext ->
    forall ms err s, Filter E o m ps = Val (m, (ms, err)) ->
      EnforceUser X E o m ps s =
      (let! r := match range_vals (user_fn X (NewPolicyDef (GetPolicyKey root) ptext)) (ustate0 s) ms with
                 | (st, true) => user_finish X st err
                 | (st, false) => user_finish X st None
                 end in Val (m, r)).
Proof.
  intros G H Sv Um Ur Kr Hr ms err s HF. set (pd := NewPolicyDef (GetPolicyKey root) ptext).
  destruct (in_service_lives _ _ _ _ _ _ _ _ _ G H Sv) as [j [y [A1 [A2 [A3 [A4 A5]]]]]].
  pose proof (defs_exec _ _ _ _ H) as D. destruct Sv as [Km _].
  assert (Er : mget rk (md_r m) = Some (NewRequestDef rk rtext)) by (rewrite (f_r _ _ D _ Kr), Hr; reflexivity).
  destruct (context_named E o m mk rk j (NewRequestDef rk rtext) ps (key_of_ne _ _ Km) (key_of_ne _ _ Kr) A1 Er Um Ur) as [x [B1 [B2 B3]]].
  assert (Dy : m_def y = pd).
  { destruct A3 as (p1 & es1 & p2 & es2 & l & m0 & _ & _ & _ & Hn & He). apply NewMatcher_def in Hn as [Hd _].
    apply m_events_def in He as [He _]. unfold pd. congruence. }
  assert (Ky : ad_key (m_def y) = GetPolicyKey root) by now rewrite Dy.
  assert (Fl : exists l, reported (e_eval E (functions o m)) (o_match o) y (NewRequestDef rk rtext) (vals_of ps) = Val (l, err) /\ ms = map (cons (GetPolicyKey root)) l).
  { unfold Filter, enforcer_RangeMatches in HF. rewrite B1 in HF. cbn [obind] in HF. unfold RangeMatchesWithContext in HF. rewrite B2, B3 in HF.
    rewrite (range_collects _ _ _ _ _ _ _ A2), Ky in HF. destruct (reported _ _ _ _ _) as [[l e]|] eqn:R; [|discriminate HF].
    cbn in HF. injection HF as <- <-. eauto. }
  destruct Fl as [l [Hl Hms]].
  unfold EnforceUser. rewrite B1. cbn [obind]. unfold enforce_user. rewrite B2, A2, Ky, A4. unfold RangeMatchesWithContext.
    rewrite B2, B3, (range_reported _ _ _ _ _ _ _ _ _ _ _ A2 Hl), Ky, <- Hms. fold pd. destruct (range_vals _ _ _) as [st [|]]; reflexivity.
Qed.

Theorem C95_asked_in_order :
  forall (S : Type) (X : merger S) E h m rs mk root ptext h1 h2 rk rtext o ps,
    good_m h -> mexec E (NewModel E) h = Val (m, rs) ->
    in_service E h mk root ptext h1 h2 -> uses_matcher mk ps -> uses_request rk ps -> key_of R_SEC rk -> def_text R_SEC rk h = Some rtext ->
    forall ms err s, Filter E o m ps = Val (m, (ms, err)) ->
      let pd := NewPolicyDef (GetPolicyKey root) ptext in
      (forall n, 0 < n <= List.length ms -> (forall k, 0 < k < n -> undecided X pd ms s k) -> ~ undecided X pd ms s n ->
         EnforceUser X E o m ps s =
         match answer X pd ms s n with
         | Panic => Panic
         | Val (s', (e, _, None)) => Val (m, (s', (effect_eqb e Allow, None)))
         | Val (s', (_, _, Some _)) => Val (m, (s', (false, None)))
         end) /\
      ((forall k, 0 < k <= List.length ms -> undecided X pd ms s k) ->
         exists s', state_after X pd ms s (List.length ms) = Val s' /\
           EnforceUser X E o m ps s =
           match err with
           | Some e => Val (m, (s', (false, Some e)))
           | None => match question X pd ms s' (List.length ms) true with
                     | Panic => Panic
                     | Val (s'', (e, _, _)) => Val (m, (s'', (effect_eqb e Allow, None)))
                     end
           end).
Proof.
  intros S X E h m rs mk root ptext h1 h2 rk rtext o ps G H Sv Um Ur Kr Hr ms err s HF pd.
  rewrite (user_range S X E h m rs mk root ptext h1 h2 rk rtext o ps G H Sv Um Ur Kr Hr ms err s HF). fold pd. split.
  - intros n Hn Un Nn. destruct (goes_on X pd ms s (Nat.pred n)) as [s1 [H1 H2]]; [lia|intros k Hk; apply Un; lia|]. rewrite H2.
    assert (Ln : Nat.pred n < List.length ms) by (apply Nat.lt_le_trans with n; [lia|apply Hn]).
    destruct (nth_error ms (Nat.pred n)) as [z|] eqn:Hz; [|apply nth_error_None in Hz; exact (False_ind _ (Nat.lt_irrefl _ (Nat.lt_le_trans _ _ _ Ln Hz)))].
    rewrite (skipn_nth _ _ _ Hz). cbn [range_vals]. unfold undecided in Nn. unfold answer in *. rewrite H1 in *. cbn [obind] in *. unfold question in *.
    destruct n as [|n]; [lia|]. cbn [Nat.pred] in *. rewrite (firstn_snoc _ _ _ Hz), map_app in *. cbn [map] in *.
    unfold user_fn at 1. cbn [at_n us_s us_effects us_matches us_res us_err].
    destruct (X s1 _ _ false) as [[s2 [[e r] [er|]]]|] eqn:EX; [reflexivity| |reflexivity].
    destruct (effect_eqb e Indeterminate) eqn:Ee; [destruct Nn; apply not_ind in Ee; subst e; eauto|].
    unfold user_finish. cbn [us_panic us_err us_res]. now rewrite Ee.
  - intros Un. destruct (goes_on X pd ms s (List.length ms)) as [s1 [H1 H2]]; [lia|exact Un|]. exists s1. split; [exact H1|].
    rewrite H2, skipn_all. cbn [range_vals]. unfold user_finish. cbn [at_n us_panic us_err us_res us_s us_effects us_matches effect_eqb].
    destruct err as [e|]; [reflexivity|]. unfold question. destruct (X s1 _ _ true) as [[s2 [[e r] er]]|]; reflexivity.
Qed.
Print Assumptions C95_asked_in_order.

(** An error is never an allowed request, in no state and for no parameters; and
    parameters without usable definitions are reported without a question to the
    effector, with the error of Filter. *)
Theorem C95_error_denied :
  forall (S : Type) (X : merger S) E o m ps s m' s' b e,
    EnforceUser X E o m ps s = Val (m', (s', (b, Some e))) -> b = false /\ exists ms, Filter E o m ps = Val (m', (ms, Some e)).
Proof.
  intros S X E o m ps s m' s' b e H. unfold EnforceUser in H. unfold Filter, enforcer_RangeMatches.
  destruct (splitParams E o m ps) as [[[m1 c] rvals]|]; [|discriminate H]. cbn [obind] in *. destruct c as [x|e0].
  2: { injection H as <- _ <- <-. split; [reflexivity|]. exists []. reflexivity. }
  apply obind_val in H as [[s1 [b1 e1]] [H H2]]. injection H2 as <- -> -> ->.
  unfold enforce_user in H. destruct (c_m x) as [j|] eqn:Ej; [|discriminate H]. destruct (nth_error (md_mats m1) j) as [y|] eqn:Ey; [|discriminate H].
  destruct (mget _ _) as [pd|]; [|discriminate H]. apply obind_val in H as [[st er] [H1 H]].
  unfold user_finish in H. destruct (us_panic st); [discriminate H|]. destruct er as [er|].
  2: { exfalso. destruct (us_err st); [discriminate H|]. destruct (effect_eqb (us_res st) Indeterminate); [|discriminate H].
       destruct (X _ _ _ true) as [[? [[? ?] ?]]|]; discriminate H. }
  injection H as <- <- <-. split; [reflexivity|].
  unfold RangeMatchesWithContext in *. rewrite Ej in *. destruct (c_r x) as [rd|]; [|discriminate H1].
  rewrite (range_collects _ _ _ _ _ _ _ Ey). destruct (reported (e_eval E (functions o m1)) (o_match o) y rd rvals) as [[l err]|] eqn:R.
  - rewrite (range_reported _ _ _ _ _ _ _ _ _ _ _ Ey R) in H1. destruct (range_vals _ _ _) as [st' [|]]; [|discriminate H1]. injection H1 as _ ->. eexists. reflexivity.
  - destruct (range_reported_panic E o m1 j y rd rvals (user_fn X pd) (ustate0 s) Ey R) as [l Hl]. rewrite Hl in H1. destruct (range_vals _ _ _) as [st' [|]]; discriminate H1.
Qed.
Print Assumptions C95_error_denied.

(** An effector that never decides before it has seen everything decides with its
    answer about all rules reported. *)
Theorem C95_whole_answer :
  forall (S : Type) (X : merger S) E h m rs mk root ptext h1 h2 rk rtext o ps,
    good_m h -> mexec E (NewModel E) h = Val (m, rs) ->
    in_service E h mk root ptext h1 h2 -> uses_matcher mk ps -> uses_request rk ps -> key_of R_SEC rk -> def_text R_SEC rk h = Some rtext ->
    (forall s es ms, exists r, X s es ms false = Val (s, (Indeterminate, r, None))) ->
    forall ms s, Filter E o m ps = Val (m, (ms, None)) ->
      EnforceUser X E o m ps s =
      match X s (map (GetEft (NewPolicyDef (GetPolicyKey root) ptext)) ms) ms true with
      | Panic => Panic
      | Val (s', (e, _, _)) => Val (m, (s', (effect_eqb e Allow, None)))
      end.
Proof.
  intros S X E h m rs mk root ptext h1 h2 rk rtext o ps G H Sv Um Ur Kr Hr HX ms s HF.
  destruct (C95_asked_in_order S X E h m rs mk root ptext h1 h2 rk rtext o ps G H Sv Um Ur Kr Hr ms None s HF) as [_ C].
  set (pd := NewPolicyDef (GetPolicyKey root) ptext) in *.
  assert (St : forall n, state_after X pd ms s n = Val s).
  { induction n as [|n IH]; [reflexivity|]. cbn [state_after]. rewrite IH. cbn [obind]. unfold question. destruct (HX s (map (GetEft pd) (firstn (Datatypes.S n) ms)) (firstn (Datatypes.S n) ms)) as [r Hx].
    now rewrite Hx. }
  destruct C as [s' [H1 H2]].
  - intros k _. destruct (HX s (map (GetEft pd) (firstn k ms)) (firstn k ms)) as [r Hx]. exists s, r. unfold answer. rewrite St. exact Hx.
  - rewrite St in H1. injection H1 as <-. rewrite H2. unfold question. now rewrite firstn_all.
Qed.
Print Assumptions C95_whole_answer.

(** The effector the library makes from a definition (default_effector.go), seen
    as any other: Enforce is what the general description says. *)
Definition built_in (expr : string) : merger unit :=
  fun s es ms c => let! x := MergeEffects expr es ms c in Val (s, x).
Definition same_state (u : @ustate unit) (v : estate) : Prop :=
  us_panic u = es_panic v /\ us_res u = es_res v /\ us_effects u = es_effects v /\ us_matches u = es_matches v /\ us_err u = es_err v.
Lemma built_in_range expr pd : forall ms u v, same_state u v ->
  same_state (fst (range_vals (user_fn (built_in expr) pd) u ms)) (fst (range_vals (enforce_fn expr pd) v ms)) /\
  snd (range_vals (user_fn (built_in expr) pd) u ms) = snd (range_vals (enforce_fn expr pd) v ms).
Proof.
  induction ms as [|x ms IH]; intros u v Sm; [split; [exact Sm|reflexivity]|]. cbn [range_vals].
  destruct Sm as (S1 & S2 & S3 & S4 & S5).
  assert (St : same_state (fst (user_fn (built_in expr) pd u x)) (fst (enforce_fn expr pd v x)) /\ snd (user_fn (built_in expr) pd u x) = snd (enforce_fn expr pd v x)).
  { unfold user_fn, enforce_fn, built_in. rewrite S2, S3, S4, S5. destruct (MergeEffects expr _ _ false) as [[[e r] [er|]]|]; cbn;
      [|destruct (effect_eqb e Indeterminate)|]; repeat split; auto. }
  destruct (user_fn (built_in expr) pd u x) as [u' b], (enforce_fn expr pd v x) as [v' b']. cbn [fst snd] in St. destruct St as [St <-].
  destruct b; [now apply IH|split; [exact St|reflexivity]].
Qed.
Theorem C95_built_in_agrees :
  forall E h m rs mk root ptext h1 h2 rk rtext o ps,
    good_m h -> mexec E (NewModel E) h = Val (m, rs) ->
    in_service E h mk root ptext h1 h2 -> uses_matcher mk ps -> uses_request rk ps -> key_of R_SEC rk -> def_text R_SEC rk h = Some rtext ->
    forall ms err, Filter E o m ps = Val (m, (ms, err)) ->
      EnforceUser (built_in (no_spaces (effect_in_force h ps))) E o m ps tt = (let! (m', r) := Enforce E o m ps in Val (m', (tt, r))).
Proof.
  intros E h m rs mk root ptext h1 h2 rk rtext o ps G H Sv Um Ur Kr Hr ms err HF.
  rewrite (user_range unit _ E h m rs mk root ptext h1 h2 rk rtext o ps G H Sv Um Ur Kr Hr ms err tt HF).
  destruct (query_in_service E h m rs mk root ptext h1 h2 rk rtext o ps G H Sv Um Ur Kr Hr) as [y [_ [HF' HE]]].
  rewrite HF' in HF. apply obind_val in HF as [[l e] [HR HF]]. injection HF as HF1 HF2. cbn in HF1, HF2. subst e ms.
  rewrite (HE l err HR). unfold decide. set (expr := no_spaces (effect_in_force h ps)). set (pd := NewPolicyDef (GetPolicyKey root) ptext).
  set (ms := map (cons (GetPolicyKey root)) l). destruct (built_in_range expr pd ms (ustate0 tt) estate0) as [A B]; [repeat split|].
  destruct (range_vals (user_fn _ _) _ _) as [u b], (range_vals (enforce_fn _ _) _ _) as [v b']. cbn [fst snd] in A, B. subst b'.
  assert (Fin : forall er, user_finish (built_in expr) u er = (let! r := enforce_finish expr v er in Val (tt, r))).
  { intros er. destruct A as (A1 & A2 & A3 & A4 & A5). unfold user_finish, enforce_finish. rewrite A1, A2, A3, A4, A5. destruct (us_s u).
    destruct (es_panic v); [reflexivity|]. destruct er; [reflexivity|]. destruct (es_err v); [reflexivity|]. destruct (effect_eqb _ _); [|reflexivity].
    unfold built_in. destruct (MergeEffects _ _ _ true) as [[[x y'] z]|]; reflexivity. }
  destruct b; rewrite Fin; destruct (enforce_finish _ _ _); reflexivity.
Qed.
Print Assumptions C95_built_in_agrees.

(** ** Examples: the majority of the rules for a request decides *)
Definition votes_config : config :=
  mkCfg "sub, obj" "sub, obj, by, eft" None "some(where (p.eft == allow))" "r.sub == p.sub && r.obj == p.obj".
Definition votes_form : form := all_of (eq_tokens "sub") (map eq_tokens ["obj"]%string).
Definition votes_env : env := app_env votes_config votes_form.
Definition votes_h : list (orders * mcall) := app_h votes_config
  [CAdd ["p"; "alice"; "data1"; "ann"; "allow"]; CAdd ["p"; "alice"; "data1"; "ben"; "deny"]; CAdd ["p"; "bob"; "data1"; "ann"; "deny"]]%string
  [CAdd ["p"; "alice"; "data1"; "cho"; "allow"]; CAdd ["p"; "bob"; "data1"; "ben"; "allow"]]%string.
(** The majority decides; the state counts the questions. *)
Definition count_eft (e : effect) (l : list effect) : nat := List.length (filter (effect_eqb e) l).
Definition majority : merger nat :=
  fun n es ms c => Val (S n, ((if c then if Nat.ltb (count_eft Deny es) (count_eft Allow es) then Allow else Deny else Indeterminate), [], None)).
(** Fails on every question. *)
Definition failing : merger nat := fun n es ms c => Val (S n, (Allow, [], Some ErrUnsupportedEffect)).
Definition ask_user {S} (X : merger S) (s : S) (vals : list string) : outcome (S * (bool * option goerr)) :=
  let! (m, _) := mexec votes_env (NewModel votes_env) votes_h in
  let! (_, r) := EnforceUser X votes_env ex_rev m (map (fun v => PVal (VStr v)) vals) s in Val r.
Lemma votes_reads : reads_as votes_env votes_config votes_form.
Proof.
  apply all_of_reads; [apply app_env_reads| |].
  - apply Forall_forall. intros ts [<-|[<-|[]]]; apply eq_atom.
  - intros e z He Hz. destruct He as [<-|[<-|[]]]; vm_compute in Hz; destruct Hz as [<-|[]]; now eexists.
Qed.
Lemma votes_app : app_history votes_config votes_h.
Proof. apply app_h_app; call_tac. Qed.
Example C95_ex :
  good_m votes_h /\
  (exists m rs mk root ptext h1 h2 rk rtext, mexec votes_env (NewModel votes_env) votes_h = Val (m, rs) /\
     in_service votes_env votes_h mk root ptext h1 h2 /\ key_of R_SEC rk /\ def_text R_SEC rk votes_h = Some rtext /\
     forall vs, uses_matcher mk (map PVal vs) /\ uses_request rk (map PVal vs)) /\
  ask_user majority 0 ["alice"; "data1"]%string = Val (4, (true, None)) /\
  ask_user majority 0 ["bob"; "data1"]%string = Val (3, (false, None)) /\
  ask_user majority 0 ["carol"; "data1"]%string = Val (1, (false, None)).
Proof.
  split; [apply app_h_good|]. split; [|repeat split; vm_compute; reflexivity].
  destruct (app_query _ _ _ _ votes_reads votes_app (app_h_good _ _ _)) as (m & rs & h1 & h2 & Rm & _ & _ & AQ).
  destruct (AQ ex_o [] ex_o_good) as [[_ _ _ (mk & pt & rk & rt & Sv & Um & _ & Ur & Kr & Hr & _) _ _] _].
  exists m, rs, mk, (f_root votes_form), pt, h1, h2, rk, rt. split; [exact Rm|]. split; [exact Sv|]. split; [exact Kr|]. split; [exact Hr|].
  intros vs. unfold uses_matcher, uses_request in *. rewrite opts_PVal in *. cbn in Um, Ur. auto.
Qed.

(** An error of the effector is never reported.  With a matching rule it denies; in
    the last answer it is dropped, so that an effector that fails on every question
    allows a request for which there is no rule. *)
Theorem C95_error_denies_refuted :
  ~ (forall (S : Type) (X : merger S) E h m rs mk root ptext h1 h2 rk rtext o ps,
       good_m h -> mexec E (NewModel E) h = Val (m, rs) ->
       in_service E h mk root ptext h1 h2 -> uses_matcher mk ps -> uses_request rk ps -> key_of R_SEC rk -> def_text R_SEC rk h = Some rtext ->
       (forall s es ms c, exists s' e r er, X s es ms c = Val (s', (e, r, Some er))) ->
       forall s m' s' b err, EnforceUser X E o m ps s = Val (m', (s', (b, err))) -> b = false \/ err <> None).
Proof.
  intros H. destruct C95_ex as (G & (m & rs & mk & root & pt & h1 & h2 & rk & rt & Rm & Sv & Kr & Hr & U) & _).
  set (vs := [VStr "carol"; VStr "data1"]). destruct (U vs) as [Um Ur].
  specialize (H nat failing votes_env votes_h m rs mk root pt h1 h2 rk rt ex_rev (map PVal vs) G Rm Sv Um Ur Kr Hr).
  assert (A : ask_user failing 0 ["carol"; "data1"]%string = Val (1, (true, None))) by (vm_compute; reflexivity).
  unfold ask_user in A. rewrite Rm in A. cbn [obind] in A. change (map (fun v => PVal (VStr v)) ["carol"; "data1"]%string) with (map PVal vs) in A.
  apply obind_val in A as [[m' r] [A1 A2]]. injection A2 as ->.
  destruct (H (fun s es ms c => ex_intro _ _ (ex_intro _ _ (ex_intro _ _ (ex_intro _ _ eq_refl)))) 0 m' 1 true None A1) as [X|X]; [discriminate X|now apply X].
Qed.
Print Assumptions C95_error_denies_refuted.
