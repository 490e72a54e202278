(** Properties C103 and C104: functions registered on a model, and role managers
    written by the user. *)
From Verif Require Import PathM PathSpec BuiltinM GoBase GoBaseP DefsM DefsP PolicyM PolicySpec PolicyP EffectorM MatcherDefM MatcherDefSpec MatcherDefP MatcherM MatcherSpec MatcherP MatcherP2
  RbacM RbacSpec DomainM DomainSpec EvalM ModelM ModelSpec ModelP ModelP2 ModelP3 ModelP4 ModelP5 ModelP6 EnforcerM EnforcerSpec EnforcerP
  SafeSpec SafeP FunctionsSpec FunctionsP AppSpec AppsSpec MultiSpec LogicSpec RoleAccessM RoleAccessSpec LogicP RoleAccessP UserRoleM UserRoleSpec UserRoleP.
From Verif Require Import Prop_Path Prop_Builtin Prop_Effect Prop_Defs Prop_Matcher Prop_Model Prop_Enforce Prop_Query Prop_Functions Prop_App Prop_Apps Prop_Multi Prop_Columns Prop_Logic Prop_RoleAccess.
Local Open Scope list_scope.

(** ** The functions of a loaded file *)
Lemma file_functions E d h m rs o : well_formed d -> file_history d h -> good_m h -> good_orders o -> mexec E (NewModel E) h = Val (m, rs) ->
  forall g us, call_answers E d g us -> exists fg v, functions o m g = Some fg /\ fg (map VStr us) = Val (inl (VBool v)) /\ (v = true <-> call_true E d h g us).
Proof.
  intros W Ah G Go Hm g us [(gt & a & b & ds & Hg & -> & Hu)|(Hn & fg & v & Hf & Hv)].
  - destruct (file_links d h g gt W Ah Hg) as [cl Hl]. unfold fresh_manager in Hl.
    assert (Gs : forall gt', In (G_SEC, g, gt') d -> gt' = gt).
    { intros gt' Hg'. apply (defs_in G_SEC g d (proj2 W) (proj1 W)) in Hg, Hg'. congruence. }
    change (rd_nargs (NewRoleDef "" gt)) with (rd_nargs (NewRoleDef g gt)) in Hl.
    assert (Eq : forall v, (v = true <-> linked_by h g gt a b ds) -> (v = true <-> call_true E d h g (a :: b :: ds))).
    { intros v Hv. rewrite Hv. split; [intros X; left; exists gt, a, b, ds; auto|]. intros [(gt' & a' & b' & ds' & Hg' & X & Y)|(X & _)].
      - injection X as <- <- <-. rewrite (Gs gt' Hg') in Y. exact Y.
      - exfalso. apply X. now exists gt. }
    destruct (Nat.eqb (rd_nargs (NewRoleDef g gt)) 2) eqn:En.
    + destruct (C66_role_function E h m rs o g cl G Go (file_good_tame d h W Ah) Hm (g_byte _ _ _ (proj2 W) Hg) (file_role E d h g gt W Ah Hg) Hl) as [fg [Fg Hfg]].
      destruct (Hfg a b ds) as [v [Hv Hi]]. exists fg, v. split; [exact Fg|]. split; [exact Hv|]. apply Eq. unfold linked_by. rewrite En, Hi.
      split; (intros [X|(n & X)]; [now left|right; exists n; tauto]).
    + destruct (C66_domain_function E h m rs o g cl ds G Go (file_good_tame d h W Ah) Hm (g_byte _ _ _ (proj2 W) Hg) (file_role E d h g gt W Ah Hg) Hl Hu) as [fg [Fg Hfg]].
      destruct (Hfg a b) as [v [Hv Hi]]. exists fg, v. split; [exact Fg|]. split; [exact Hv|]. apply Eq. unfold linked_by. rewrite En, Hi.
      split; (intros [X|(n & X)]; [now left|right; exists n; tauto]).
  - exists fg, v. split; [|split; [exact Hv|]].
    + apply (C66_registered E h m rs o g Hm). rewrite (file_fn E d h g Ah Hn), Hf. reflexivity.
    + split.
      * intros ->. right. split; [exact Hn|]. exists fg. auto.
      * intros [(gt & a & b & ds & Hg & _)|(_ & fg' & Hf' & Hv')]; [exfalso; apply Hn; now exists gt|]. rewrite Hf in Hf'. injection Hf' as <-. congruence.
Qed.

(** ** Calls before any manager of the user *)
Lemma uexec_model {S} (U : manager S) E h : forall m, uexec U E (mkU m []) (from_model h) = let! (m', rs) := mexec E m h in Val (mkU m' [], rs).
Proof.
  induction h as [|[o c] h IH]; intros m; [reflexivity|]. cbn [from_model map fst snd uexec mexec].
  assert (St : ustep U E o (mkU m []) (UM c) = let! (m', r) := mstep E o m c in Val (mkU m' [], r)).
  { assert (Ow : forall k, @u_own S (mkU m []) k = None) by (intros k; unfold u_own; destruct (first_byte k) as [c'|]; [destruct (Ascii.eqb c' "g")|]; reflexivity).
    destruct c as [s k v|s k|[|k r]|[|k r]|k| |k|e|k y|n f|n]; try reflexivity.
    - destruct s; try reflexivity. cbn [ustep u_m u_rms]. destruct (mstep E o m (CSetDef G_SEC k v)) as [[m' r]|]; cbn [obind]; [|reflexivity]. destruct (x_err r); reflexivity.
    - destruct s; reflexivity.
    - cbn [ustep]. rewrite Ow. reflexivity.
    - cbn [ustep]. rewrite Ow. reflexivity.
    - cbn [ustep u_m u_rms mget]. destruct (mget k (md_pMap m)); reflexivity. }
  rewrite St. destruct (mstep E o m c) as [[m1 r]|]; cbn [obind]; [|reflexivity]. change (map _ h) with (@from_model S h). rewrite IH.
  destruct (mexec E m1 h) as [[m2 rs]|]; reflexivity.
Qed.
Lemma uexec_app {S} (U : manager S) E h1 : forall x h2, uexec U E x (h1 ++ h2) = let! (x, rs1) := uexec U E x h1 in let! (x, rs2) := uexec U E x h2 in Val (x, rs1 ++ rs2).
Proof.
  induction h1 as [|[o c] h1 IH]; intros x h2; cbn [app uexec obind].
  - destruct (uexec U E x h2) as [[y rs]|]; reflexivity.
  - destruct (ustep U E o x c) as [[x1 r]|]; cbn [obind]; [|reflexivity]. rewrite IH. destruct (uexec U E x1 h1) as [[x2 rs]|]; cbn [obind]; [|reflexivity].
    destruct (uexec U E x2 h2) as [[x3 rs3]|]; reflexivity.
Qed.
Lemma library_fits {S} d (hx : list (orders * ucall S)) : forall ks, extended_calls d ks hx -> Forall (fun x => file_call d (snd x)) (library_calls ks hx).
Proof.
  induction hx as [|[o c] hx IH]; intros ks H; [constructor|]. destruct c as [c|k s]; cbn [extended_calls library_calls] in *; [|apply IH; tauto].
  destruct c; try (apply IH; tauto); destruct H as [H1 H2]; (destruct (about ks _) eqn:Ea; [apply IH; exact H2|constructor; [exact (H1 eq_refl)|apply IH; exact H2]]).
Qed.
Lemma library_good {S} (hx : list (orders * ucall S)) : good_u hx -> forall ks, good_m (library_calls ks hx).
Proof.
  induction 1 as [|[o c] hx Ho Hg IH]; intros ks; [constructor|]. destruct c as [c|k s]; cbn [library_calls]; [|apply IH].
  destruct c; try apply IH; (destruct (about ks _); [apply IH|constructor; [exact Ho|apply IH]]).
Qed.

Lemma user_by {S} (U : manager S) E d R h (hx : list (orders * ucall S)) x rs : well_formed d -> readings E d R -> file_history d h -> good_m h ->
  extended_calls d [] hx -> good_u hx -> uexec U E (unew E) (from_model h ++ hx) = Val (x, rs) ->
  let hp := h ++ library_calls [] hx in let CT := user_true U E d hp hx in
  forall mk rk pk rt pt f, logical E d R mk rk pk rt pt f ->
  forall o ps vals, good_orders o -> uses_matcher mk ps -> uses_request rk ps ->
    vals_of ps = map VStr vals -> List.length vals = List.length (named_columns rt) ->
    answer_by (user_answers U E d hx) hp rt pk pt f vals ->
    (forall t, In t (last_tests f) -> ~ test_by CT rt pt vals (repeat ""%string (List.length (named_columns pt))) t) ->
    let e := effect_in_force hp ps in
    let says := says_by CT hp rt pk pt f vals in
    (exists ms, Filter E o (u_m x) ps = Val (u_m x, (ms, None)) /\
       forall y, In y ms <-> present hp y /\ exists r, y = pk :: r /\ satisfies_by CT rt pt f vals r) /\
    (spells e "some(where (p.eft == allow))" ->
       exists b, Enforce E o (u_m x) ps = Val (u_m x, (b, None)) /\ (b = true <-> says Allow)) /\
    (spells e "!some(where (p.eft == deny))" ->
       exists b, Enforce E o (u_m x) ps = Val (u_m x, (b, None)) /\ (b = true <-> ~ says Deny)) /\
    (spells e "some(where (p.eft == allow)) && !some(where (p.eft == deny))" -> ~ says Indeterminate ->
       exists b, Enforce E o (u_m x) ps = Val (u_m x, (b, None)) /\ (b = true <-> says Allow /\ ~ says Deny)).
Proof.
  intros W Re Ah G Dx Gx Hx hp CT mk rk pk rt pt f C o ps vals Go Um Ur Vp Lv Ca Last eff says.
  pose proof (library_fits d hx [] Dx) as Fc. pose proof (library_good hx Gx []) as Gl.
  assert (Gh : good_m hp) by (apply Forall_app; split; assumption).
  pose proof (file_longer d h _ Ah Fc) as Af. fold hp in Af.
  destruct (C87_each_matcher_decides_partial E d R h W Re Ah G) as (m0 & rs0 & H0 & _).
  unfold unew in Hx. rewrite uexec_app, uexec_model, H0 in Hx. cbn [obind] in Hx. destruct (uexec U E (mkU m0 []) hx) as [[x1 rs1]|] eqn:Ex; cbn [obind] in Hx; [|discriminate]. injection Hx as -> <-.
  destruct (file_roles_at E d R h m0 rs0 W Re Ah G H0) as (ix & rx & Ra & _).
  assert (F0 : follows U [] (fun _ => None) (fun _ => AsLoaded) m0 (mkU m0 [])).
  { constructor; cbn [u_m u_rms].
    - exists (md_fm m0). split; [now destruct m0|reflexivity].
    - reflexivity.
    - intros g. split; [intros []|congruence].
    - intros g [].
    - exact (ra_n _ _ _ _ Ra). }
  destruct (follow_run U E d hx [] _ _ m0 _ x rs1 F0 Dx Ex) as (ks & mf & rsl & H1 & Fo).
  destruct (C87_each_matcher_decides_partial E d R hp W Re Af Gh) as (mf' & rsf & Hmf & _).
  pose proof Hmf as Hs. unfold hp in Hs. apply mexec_app in Hs as (m1 & ra & rb & A1 & A2 & _). rewrite H0 in A1. injection A1 as <- <-. rewrite H1 in A2. injection A2 as <- _.
  destruct (fo_m _ _ _ _ _ _ Fo) as (X & Em & HX).
  destruct (lg_matcher _ _ _ _ _ _ _ _ _ C) as [mt Im]. pose proof (lg_reading _ _ _ _ _ _ _ _ _ C) as ER.
  pose proof (lg_request _ _ _ _ _ _ _ _ _ C) as Ir. pose proof (lg_policy _ _ _ _ _ _ _ _ _ C) as Ip.
  set (F := functions o (set_fm mf X)).
  assert (Fn : forall g us, user_answers U E d hx g us -> exists fg v, F g = Some fg /\ fg (map VStr us) = Val (inl (VBool v)) /\ (v = true <-> CT g us)).
  { intros g us Hca. specialize (HX g). change (fold_left (stand_step g) (map snd hx) AsLoaded) with (stands_for g hx) in HX.
    unfold CT, user_true. unfold user_answers in Hca. unfold F, functions. cbn [md_fm md_rms set_fm].
    destruct (stands_for g hx) as [|f0| |].
    - rewrite HX. exact (file_functions E d hp mf rsf o W Af Gh Go Hmf g us Hca).
    - rewrite HX. destruct Hca as [v Hv]. exists f0, v. split; [reflexivity|]. split; [exact Hv|]. rewrite Hv. split; congruence.
    - contradiction.
    - destruct HX as (s & Gs & ->). exists (user_function U s). destruct Hca as (s1 & a & b & ds & (s0 & cs & Et & Er) & -> & Hh).
      pose proof (fo_s _ _ _ _ _ _ Fo g) as Y. cbn beta in Y. change (fold_left (told_step g) (map snd hx) None) with (told g hx) in Y. rewrite Et in Y.
      destruct Y as (s2 & R2 & G2). rewrite R2 in Er. injection Er as <-. rewrite Gs in G2. injection G2 as <- _.
      assert (Un : forall P, (exists s1 a' b' ds', in_charge U g hx s1 /\ a :: b :: ds = a' :: b' :: ds' /\ P s1 a' b' ds') <-> P s a b ds).
      { intros P. split.
        - intros (s1 & a' & b' & ds' & (s3 & cs3 & E3 & R3) & Q & Hp). injection Q as <- <- <-. rewrite Et in E3. injection E3 as <- <-. rewrite R2 in R3. injection R3 as <-. exact Hp.
        - intros Hp. exists s, a, b, ds. split; [exists s0, cs; auto|]. auto. }
      cbn [map user_function]. assert (As : forall l, as_strings (map VStr l) = Some l) by (clear; induction l as [|z l IH]; [reflexivity|cbn; now rewrite IH]).
      destruct s as [s|].
      + destruct Hh as [v Hv]. exists v. rewrite As, Hv. split; [reflexivity|]. split; [reflexivity|].
        rewrite (Un (fun s a b ds => match s with None => a = b | Some s => u_HasLink U s a b ds = Val (true, None) end)). rewrite Hv. split; congruence.
      + exists (String.eqb a b). split; [reflexivity|]. split; [reflexivity|].
        rewrite (Un (fun s a b ds => match s with None => a = b | Some s => u_HasLink U s a b ds = Val (true, None) end)). apply String.eqb_eq. }
  destruct (logic_by E d R hp F CT (user_answers U E d hx) mk rk pk rt pt f vals W Af C Lv Fn Ca Last) as (An & Me & Hc).
  destruct (file_named E d R _ mf rsf mk mt rk rt W Re Af Gh Hmf Im Ir) as (Nm & Nr & (j & Hj) & (rd & Hrd)).
  set (E2 := env_with E F).
  destruct (fm_query_twin E o mf X mk rk j rd ps Nm Nr Hj Hrd Um Ur) as [QF QE]. fold F in QF, QE. fold E2 in QF, QE. rewrite <- Em in QF, QE.
  assert (U2 : readings E2 d R).
  { intros k t Hk. destruct (Re k t Hk) as [[a1 a2 a3 a4 a5 a6 a7 a8 a9] Hp]. split; [|exact Hp]. constructor; assumption. }
  destruct (C87_each_matcher_decides_partial E2 d R hp W U2 Af Gh) as (mf' & rsf' & Hmf' & D).
  unfold E2 in Hmf'. rewrite mexec_env in Hmf'. change (NewModel (env_with E F)) with (NewModel E) in Hmf'. rewrite Hmf in Hmf'. injection Hmf' as <- <-.
  specialize (D mk mt pt rk rt o ps Im). rewrite ER in D. cbn [fst snd] in D. specialize (D Ip Ir Um Ur Go). cbv zeta in D. rewrite Vp in D.
  destruct (D An) as ((ms & HF & Hms) & D1 & D2 & D3). clear D.
  change (hit E2 pk (NewPolicyDef pk pt) (NewRequestDef rk rt) (as_form rk pk f) (functions o mf)) with (hit E pk (NewPolicyDef pk pt) (NewRequestDef rk rt) (as_form rk pk f) F) in D1, D2, D3.
  unfold says, eff. split; [|split; [|split]].
  - exists ms. split; [exact (QF _ HF)|]. intros y. rewrite Hms. split.
    + intros [r [-> [Hp Ht]]]. split; [exact Hp|]. exists r. split; [reflexivity|]. now apply (Me r Hp).
    + intros [Hp (r & -> & Ht)]. exists r. split; [reflexivity|]. split; [exact Hp|]. now apply (Me r Hp).
  - intros Sp. destruct (D1 Sp) as [b [HE Hb]]. exists b. split; [exact (QE _ HE)|]. now rewrite Hb, Hc.
  - intros Sp. destruct (D2 Sp) as [b [HE Hb]]. exists b. split; [exact (QE _ HE)|]. now rewrite Hb, Hc.
  - intros Sp Hi. rewrite <- Hc in Hi. destruct (D3 Sp Hi) as [b [HE Hb]]. exists b. split; [exact (QE _ HE)|]. now rewrite Hb, !Hc.
Qed.

(** ** C103: functions registered on a model *)
Lemma builtins_apply E fs o : forall ops m x, apply_options (with_functions E fs) o m x ops = apply_options E o m x ops.
Proof.
  induction ops as [|op ops IH]; intros m x; [reflexivity|]. cbn [apply_options]. change (option_apply (with_functions E fs) o m x op) with (option_apply E o m x op).
  destruct (option_apply E o m x op) as [[[m1 x1] [e|]]|]; cbn [obind]; auto.
Qed.
Lemma builtins_split E fs o m ps : splitParams (with_functions E fs) o m ps = splitParams E o m ps.
Proof.
  unfold splitParams, NewContext. rewrite builtins_apply. reflexivity.
Qed.
Lemma builtins_query E fs o m ps : Enforce (with_functions E fs) o m ps = Enforce E o m ps /\ Filter (with_functions E fs) o m ps = Filter E o m ps.
Proof. unfold Enforce, Filter, enforcer_RangeMatches. rewrite builtins_split. auto. Qed.
Lemma builtins_loop E fs o keys : forall m, build_loop (with_functions E fs) o m keys = build_loop E o m keys.
Proof.
  induction keys as [|k keys IH]; intros m; [reflexivity|]. cbn [build_loop]. change (BuildMatcher (with_functions E fs) o m k) with (BuildMatcher E o m k).
  destruct (BuildMatcher E o m k) as [[m1 [e|]]|]; cbn [obind]; auto.
Qed.
Lemma builtins_exec E fs h : forall m, mexec (with_functions E fs) m h = mexec E m h.
Proof.
  induction h as [|[o c] h IH]; intros m; [reflexivity|]. cbn [mexec]. assert (S : mstep (with_functions E fs) o m c = mstep E o m c).
  { destruct c; try reflexivity. cbn [mstep]. unfold BuildMatchers. now rewrite builtins_loop. }
  rewrite S. destruct (mstep E o m c) as [[m1 r]|]; cbn [obind]; [|reflexivity]. now rewrite IH.
Qed.
Lemma put_map {A B} (f : A -> B) k v l : map (fun '(k, v) => (k, f v)) (mput k v l) = mput k (f v) (map (fun '(k, v) => (k, f v)) l).
Proof. induction l as [|[k' v'] l IH]; [reflexivity|]. cbn. destruct (String.eqb k k'); cbn; [reflexivity|]. now rewrite IH. Qed.
Lemma register_new E o fs : forall bs, let E0 := mkEnv (e_grow E) (e_parse E) (e_eval E) bs in
  mexec E (NewModel E0) (register o fs) = Val (NewModel (with_functions E0 fs), map (fun _ => mkRes true None []) fs).
Proof.
  induction fs as [|[n f] fs IH]; intros bs; [reflexivity|]. cbn [register map fst snd mexec mstep obind].
  set (E1 := mkEnv (e_grow E) (e_parse E) (e_eval E) (mput n f bs)). assert (Q : SetFunction (NewModel (mkEnv (e_grow E) (e_parse E) (e_eval E) bs)) n f = NewModel E1).
  { unfold NewModel, SetFunction, set_fm. cbn. now rewrite (put_map FFun). }
  rewrite Q. change (map (fun x => (o, CSetFn (fst x) (snd x))) fs) with (register o fs). specialize (IH (mput n f bs)). cbn zeta in IH. fold E1 in IH. rewrite IH. reflexivity.
Qed.

(** Registering functions on a new model is the same as having them built in: from
    then on every call and every query does the same.  A name registered twice
    stands for the last function, also in place of a built-in one.  All functions, all
    further calls. *)
Theorem C103_registered_first :
  forall E o fs h,
    mexec E (NewModel E) (register o fs ++ h) =
      (let! (m, rs) := mexec (with_functions E fs) (NewModel (with_functions E fs)) h in Val (m, map (fun _ => mkRes true None []) fs ++ rs)) /\
    (forall o m ps, Enforce (with_functions E fs) o m ps = Enforce E o m ps /\ Filter (with_functions E fs) o m ps = Filter E o m ps) /\
    forall n, mget n (e_builtins (with_functions E fs)) =
      fold_left (fun acc x => if String.eqb (fst x) n then Some (snd x) else acc) fs (mget n (e_builtins E)).
Proof.
  intros E o fs h. split; [|split; [intros; apply builtins_query|]].
  - pose proof (register_new E o fs (e_builtins E)) as H. cbn zeta in H. assert (Q : mkEnv (e_grow E) (e_parse E) (e_eval E) (e_builtins E) = E) by now destruct E.
    rewrite Q in H. rewrite builtins_exec.
    assert (App : forall h1 m h2, mexec E m (h1 ++ h2) = let! (m, rs1) := mexec E m h1 in let! (m, rs2) := mexec E m h2 in Val (m, rs1 ++ rs2)).
    { clear. induction h1 as [|[o c] h1 IH]; intros m h2; cbn [app mexec obind].
      - destruct (mexec E m h2) as [[y rs]|]; reflexivity.
      - destruct (mstep E o m c) as [[x1 r]|]; cbn [obind]; [|reflexivity]. rewrite IH. destruct (mexec E x1 h1) as [[x2 rs]|]; cbn [obind]; [|reflexivity].
        destruct (mexec E x2 h2) as [[x3 rs3]|]; reflexivity. }
    now rewrite App, H.
  - intros n. cbn [e_builtins with_functions]. generalize (e_builtins E). induction fs as [|[k f] fs IH]; intros l; [reflexivity|]. cbn [fold_left fst snd]. rewrite IH, mget_put, String.eqb_sym. reflexivity.
Qed.
Print Assumptions C103_registered_first.

Lemma fn_run E d hx : Forall (fun x => fn_call d (snd x)) hx -> forall m X m' rs', mexec E m (rule_calls hx) = Val (m', rs') ->
  exists Y rs, mexec E (set_fm m X) hx = Val (set_fm m' Y, rs).
Proof.
  induction 1 as [|[o c] hx Hc F IH]; intros m X m' rs' H.
  { injection H as <- <-. exists X, []. reflexivity. }
  assert (Rule : rules_only c -> rule_calls ((o, c) :: hx) = (o, c) :: rule_calls hx -> exists Y rs, mexec E (set_fm m X) ((o, c) :: hx) = Val (set_fm m' Y, rs)).
  { intros Hr El. rewrite El in H. cbn [mexec] in *. rewrite (step_fm E o m X c Hr). destruct (mstep E o m c) as [[m1 r1]|]; cbn [obind] in *; [|discriminate].
    destruct (mexec E m1 (rule_calls hx)) as [[m2 rs2]|] eqn:Ee; cbn [obind] in H; [|discriminate]. injection H as <- <-.
    destruct (IH m1 X m2 rs2 Ee) as (Y & rs & Hy). rewrite Hy. cbn [obind]. eauto. }
  destruct c as [| |rl|rl|k| | | | |n f|n]; cbn in Hc; try contradiction; try (apply Rule; [exact Logic.I|reflexivity]).
  - cbn [mexec mstep obind]. destruct (IH m (mput n (FFun f) X) m' rs' H) as (Y & rs & Hy). exists Y, (mkRes true None [] :: rs).
    change (SetFunction (set_fm m X) n f) with (set_fm m (mput n (FFun f) X)). rewrite Hy. reflexivity.
  - cbn [mexec mstep RemoveFunction obind]. destruct (IH m (mdel n X) m' rs' H) as (Y & rs & Hy). eexists Y, _.
    change (set_fm (set_fm m X) (mdel n (md_fm (set_fm m X)))) with (set_fm m (mdel n X)). rewrite Hy. reflexivity.
Qed.
(** A manager nobody uses. *)
Definition nobody : manager Empty_set :=
  mkManager (fun _ _ _ _ => Panic) (fun _ _ _ _ => Panic) (fun _ _ _ _ => Panic) (fun _ => Panic) (fun _ => []).
Lemma fn_extended d hx : Forall (fun x => fn_call d (snd x)) hx -> extended_calls d [] (@from_model Empty_set hx) /\ library_calls [] (@from_model Empty_set hx) = rule_calls hx.
Proof.
  induction 1 as [|[o c] hx Hc F [IH1 IH2]]; [split; [exact Logic.I|reflexivity]|]. cbn [snd fn_call] in Hc.
  destruct c as [| |[|k r]|[|k r]|k| | | | |n f|n]; try contradiction; cbn [from_model map fst snd extended_calls library_calls about]; cbn [in_dec list_rect];
    change (map _ hx) with (@from_model Empty_set hx); rewrite ?IH2; auto.
Qed.
Lemma fn_stands g hx : @stands_for Empty_set g (from_model hx) = named_now g hx.
Proof.
  unfold stands_for, named_now, from_model. rewrite !map_map. cbn [snd]. generalize AsLoaded. induction hx as [|[o c] hx IH]; intros a; [reflexivity|]. cbn [map fold_left snd]. rewrite IH. destruct c; reflexivity.
Qed.
Lemma never_managed g hx : named_now g hx <> Manager.
Proof.
  unfold named_now. assert (Y : forall acc, acc <> Manager -> fold_left (fun acc c => match c with
    | CSetFn n f => if String.eqb n g then Registered f else acc
    | CRemFn n => if String.eqb n g then Nothing else acc
    | _ => acc end) (map snd hx) acc <> Manager); [|apply Y; discriminate].
  induction hx as [|[o c] hx IH]; intros acc H; [exact H|]. cbn [map fold_left snd]. apply IH. destruct c; try exact H; destruct (String.eqb _ g); congruence.
Qed.
Lemma form_true_iff (P Q : test -> Prop) f : (forall t, P t <-> Q t) -> (form_true P f <-> form_true Q f).
Proof. intros H. induction f; cbn; rewrite ?H, ?IHf, ?IHf1, ?IHf2; tauto. Qed.
Lemma test_by_iff (CT CT' : string -> list string -> Prop) rt pt vals r t : (forall g us, CT g us <-> CT' g us) -> (test_by CT rt pt vals r t <-> test_by CT' rt pt vals r t).
Proof.
  intros H. destruct t as [a b|a b|g args|a s1 s2 ss]; cbn; try tauto. split; intros [us [A B]]; exists us; (split; [exact A|now apply H]).
Qed.

(** Every file whose matchers may call functions [fs] registered before it was
    loaded, every history of rules, and after it any functions registered, replaced
    and removed between further rules, under any names, also those of grouping
    sections and built-in functions.  Filter reports exactly the present rules for
    which the formula is true, and Enforce answers by their effects, where a name
    stands for the function registered last; a name not touched since loading stands
    for the chain of grouping rules, or for the function registered before. *)
Theorem C103_functions_partial :
  forall E0 of fs d R h hx, let E := with_functions E0 fs in
    well_formed d -> readings E d R -> file_history d h -> good_m h ->
    Forall (fun x => fn_call d (snd x)) hx -> good_m hx ->
    let hp := h ++ rule_calls hx in let CT := fn_true E d hp hx in
    exists m rs, mexec E0 (NewModel E0) (register of fs ++ h ++ hx) = Val (m, rs) /\
      forall mk rk pk rt pt f, logical E d R mk rk pk rt pt f ->
      forall o ps vals, good_orders o -> uses_matcher mk ps -> uses_request rk ps ->
        vals_of ps = map VStr vals -> List.length vals = List.length (named_columns rt) ->
        answer_by (fn_answers E d hx) hp rt pk pt f vals ->
        (forall t, In t (last_tests f) -> ~ test_by CT rt pt vals (repeat ""%string (List.length (named_columns pt))) t) ->
        let e := effect_in_force hp ps in
        let says := says_by CT hp rt pk pt f vals in
        (exists ms, Filter E0 o m ps = Val (m, (ms, None)) /\
           forall y, In y ms <-> present hp y /\ exists r, y = pk :: r /\ satisfies_by CT rt pt f vals r) /\
        (spells e "some(where (p.eft == allow))" ->
           exists b, Enforce E0 o m ps = Val (m, (b, None)) /\ (b = true <-> says Allow)) /\
        (spells e "!some(where (p.eft == deny))" ->
           exists b, Enforce E0 o m ps = Val (m, (b, None)) /\ (b = true <-> ~ says Deny)) /\
        (spells e "some(where (p.eft == allow)) && !some(where (p.eft == deny))" -> ~ says Indeterminate ->
           exists b, Enforce E0 o m ps = Val (m, (b, None)) /\ (b = true <-> says Allow /\ ~ says Deny)).
Proof.
  intros E0 of fs d R h hx E W Re Ah G Fx Gx hp CT.
  destruct (fn_extended d hx Fx) as [Xx Lx].
  assert (Gu : good_u (@from_model Empty_set hx)) by (unfold good_u, from_model; apply Forall_map; exact Gx).
  assert (Fr : Forall (fun x => file_call d (snd x)) (rule_calls hx)) by (rewrite <- Lx; apply library_fits; exact Xx).
  pose proof (file_longer d h _ Ah Fr) as Af. fold hp in Af.
  assert (Gh : good_m hp) by (apply Forall_app; split; [exact G|]; rewrite <- Lx; apply library_good; exact Gu).
  destruct (C87_each_matcher_decides_partial E d R hp W Re Af Gh) as (mf & rsf & Hmf & _).
  unfold hp in Hmf. apply mexec_app in Hmf as (m0 & rs0 & rs1 & H0 & H1 & _).
  destruct (fn_run E d hx Fx m0 (md_fm m0) mf rs1 H1) as (Y & rs2 & H2). assert (Em : set_fm m0 (md_fm m0) = m0) by now destruct m0. rewrite Em in H2.
  assert (Hh : mexec E (NewModel E) (h ++ hx) = Val (set_fm mf Y, rs0 ++ rs2)) by (apply mexec_app; exists m0, rs0, rs2; auto).
  exists (set_fm mf Y). eexists. split.
  { rewrite (proj1 (C103_registered_first E0 of fs (h ++ hx))). fold E. rewrite Hh. reflexivity. }
  intros mk rk pk rt pt f C o ps vals Go Um Ur Vp Lv Ca Last e says.
  assert (Hu : uexec nobody E (unew E) (from_model h ++ from_model hx) = Val (mkU (set_fm mf Y) [], rs0 ++ rs2)).
  { unfold from_model. rewrite <- map_app. change (map _ (h ++ hx)) with (@from_model Empty_set (h ++ hx)). unfold unew. rewrite uexec_model, Hh. reflexivity. }
  assert (Ct : forall g us, user_true nobody E d hp (from_model hx) g us <-> CT g us).
  { intros g us. unfold CT, fn_true, user_true. rewrite fn_stands. pose proof (never_managed g hx). destruct (named_now g hx); tauto. }
  assert (Cn : forall g us, fn_answers E d hx g us -> user_answers nobody E d (from_model hx) g us).
  { intros g us. unfold fn_answers, user_answers. rewrite fn_stands. pose proof (never_managed g hx). destruct (named_now g hx); tauto. }
  pose proof (user_by nobody E d R h (from_model hx) _ _ W Re Ah G Xx Gu Hu) as D. cbn zeta in D. rewrite Lx in D. fold hp in D. cbn [u_m] in D.
  specialize (D mk rk pk rt pt f C o ps vals Go Um Ur Vp Lv).
  assert (Sa : forall r, satisfies_by (user_true nobody E d hp (from_model hx)) rt pt f vals r <-> satisfies_by CT rt pt f vals r).
  { intros r. apply form_true_iff. intros t. now apply test_by_iff. }
  assert (Sy : forall ef, says_by (user_true nobody E d hp (from_model hx)) hp rt pk pt f vals ef <-> says ef).
  { intros ef. unfold says, says_by. split; intros [r (A & B & D0)]; exists r; (split; [exact A|split; [now apply Sa|exact D0]]). }
  destruct D as ((ms & D0 & Dm) & D1 & D2 & D3).
  - intros r g args us A B D0. apply Cn. eapply Ca; eassumption.
  - intros t Ht. rewrite (test_by_iff _ CT) by exact Ct. now apply Last.
  - unfold E in D0, D1, D2, D3. rewrite (proj2 (builtins_query E0 fs o _ ps)) in D0. rewrite (proj1 (builtins_query E0 fs o _ ps)) in D1, D2, D3. fold E in D0, D1, D2, D3.
    split; [|split; [|split]].
    + exists ms. split; [exact D0|]. intros y. rewrite Dm. split; intros [A [r [B D4]]]; (split; [exact A|exists r; split; [exact B|now apply Sa]]).
    + intros Sp. destruct (D1 Sp) as [b [A B]]. exists b. split; [exact A|]. now rewrite B, Sy.
    + intros Sp. destruct (D2 Sp) as [b [A B]]. exists b. split; [exact A|]. now rewrite B, Sy.
    + intros Sp Hi. rewrite <- Sy in Hi. destruct (D3 Sp Hi) as [b [A B]]. exists b. split; [exact A|]. now rewrite B, !Sy.
Qed.
Print Assumptions C103_functions_partial.

(** ** C104: role managers written by the user *)
Definition no_g (m : model) : Prop := forall k, g_key k -> mget k (md_pMap m) = None.
Lemma no_g_step E o m c m' r : no_g m -> mstep E o m c = Val (m', r) -> no_g m'.
Proof.
  intros H Hs. assert (Same : md_pMap m' = md_pMap m -> no_g m') by (intros Q k; rewrite Q; apply H).
  destruct c as [s k v|s k|rl|rl|k| |k|e|k y|n f|n]; cbn [mstep] in Hs.
  - unfold SetDef in Hs. destruct (keyPrefix s) as [pf|] eqn:Ep; [|injection Hs as <- _; exact H]. destruct (first_byte k) as [c|] eqn:Ek; [|discriminate].
    destruct (Ascii.eqb_spec c pf) as [->|]; [|injection Hs as <- _; exact H]. cbn [obind] in Hs. injection Hs as <- _. destruct s; try exact H.
    cbn in Ep. injection Ep as <-. intros x Hx. cbn. rewrite mget_put_neq; [apply H, Hx|]. intros ->. unfold g_key in Hx. congruence.
  - destruct s; cbn [RemoveDef] in Hs; injection Hs as <- _; try exact H. intros x Hx. cbn. rewrite mget_del. destruct (String.eqb x k); [reflexivity|apply H, Hx].
  - apply obind_val in Hs as [[[[m1 b] e] es] [Ha Hs]]. injection Hs as <- _. apply Same. apply add_maps in Ha. unfold same_maps in Ha. intuition congruence.
  - apply obind_val in Hs as [[[[m1 b] e] es] [Ha Hs]]. injection Hs as <- _. apply Same. apply remove_maps in Ha. unfold same_maps in Ha. intuition congruence.
  - apply obind_val in Hs as [[m1 e] [Ha Hs]]. injection Hs as <- _. apply Same. apply clear_maps in Ha. unfold same_maps in Ha. intuition congruence.
  - apply obind_val in Hs as [[m1 e] [Ha Hs]]. injection Hs as <- _. apply Same. apply loop_maps in Ha. tauto.
  - apply obind_val in Hs as [[m1 e] [Ha Hs]]. injection Hs as <- _. apply Same. apply buildkey_maps in Ha. tauto.
  - apply obind_val in Hs as [[m1 e1] [Ha Hs]]. injection Hs as <- _. apply Same. apply buildfrom_maps in Ha. tauto.
  - injection Hs as <- _. exact H.
  - injection Hs as <- _. exact H.
  - cbn in Hs. injection Hs as <- _. exact H.
Qed.

Section Charge.
  Context {S : Type}.
  Variable (U : manager S) (E : env).

  Definition charged (h : list (orders * ucall S)) (x : umodel S) : Prop := forall k, g_key k ->
    match told k h with
    | None => mget k (u_rms x) = None
    | Some (s0, cs) => exists s live, replay U s0 cs = Val s /\ mget k (u_rms x) = Some (s, live)
    end.
  Lemma told_snoc k h (o : orders) (c : ucall S) : told k (h ++ [(o, c)]) = told_step k (told k h) c.
  Proof. unfold told. now rewrite map_app, fold_left_app. Qed.
  Lemma own_get (x : umodel S) k : g_key k -> u_own x k = mget k (u_rms x).
  Proof. intros H. unfold u_own. rewrite H. reflexivity. Qed.
  Lemma own_some (x : umodel S) k v : u_own x k = Some v -> g_key k /\ mget k (u_rms x) = Some v.
  Proof. unfold u_own, g_key. destruct (first_byte k) as [c|]; [|discriminate]. destruct (Ascii.eqb_spec c "g") as [->|]; [auto|discriminate]. Qed.
  Lemma unlink_get n (l : smap (option S * bool)) k : mget k (u_unlink n l) = if String.eqb n k then option_map (fun y => (fst y, false)) (mget k l) else mget k l.
  Proof.
    unfold u_unlink. destruct (mget n l) as [[s b]|] eqn:En.
    - rewrite mget_put, String.eqb_sym. destruct (String.eqb_spec n k) as [<-|]; [now rewrite En|reflexivity].
    - destruct (String.eqb_spec n k) as [<-|]; [now rewrite En|reflexivity].
  Qed.

  (** One call. *)
  Lemma charged_step h o c x x' r : charged h x -> no_g (u_m x) -> ustep U E o x c = Val (x', r) -> charged (h ++ [(o, c)]) x' /\ no_g (u_m x').
  Proof.
    intros C N H.
    (* nothing changes for any manager *)
    assert (Same : forall c0, u_pass E o x c0 = Val (x', r) -> (forall k, g_key k -> told_step k (told k h) c = told k h) -> charged (h ++ [(o, c)]) x' /\ no_g (u_m x')).
    { intros c0 Hp Ht. unfold u_pass in Hp. destruct (mstep E o (u_m x) c0) as [[m1 r1]|] eqn:Em; cbn [obind] in Hp; [|discriminate]. injection Hp as <- <-.
      split; [|exact (no_g_step _ _ _ _ _ _ N Em)]. intros k Hk. rewrite told_snoc, Ht by exact Hk. exact (C k Hk). }
    (* one manager is told *)
    assert (Tell : forall k s live l s', g_key k -> mget k (u_rms x) = Some (s, live) -> link_step U s l = Val s' -> x' = u_store U x k s' live ->
              (forall g, told_step g (told g h) c = if String.eqb k g then option_map (fun y => (fst y, snd y ++ [l])) (told g h) else told g h) ->
              charged (h ++ [(o, c)]) x' /\ no_g (u_m x')).
    { intros k s live l s' Hk Gk Hl -> Ht. split; [|destruct live; exact N]. intros g Hg. rewrite told_snoc, Ht. specialize (C g Hg). cbn [u_store u_rms]. rewrite mget_put, String.eqb_sym.
      destruct (String.eqb_spec g k) as [->|]; [|exact C]. destruct (told k h) as [[s0 cs]|]; cbn [option_map fst snd].
      - destruct C as (s1 & lv & R1 & G1). rewrite Gk in G1. injection G1 as <- <-. exists s', live. rewrite replay_app, R1. cbn [obind replay]. rewrite Hl. auto.
      - congruence. }
    assert (Kp : forall k l, (g_key k -> mget k (u_rms x) = None) -> forall g, g_key g -> (if String.eqb k g then option_map (fun y : option S * list link_call => (fst y, snd y ++ [l])) (told g h) else told g h) = told g h).
    { intros k l Hn g Hg. destruct (String.eqb_spec k g) as [->|]; [|reflexivity]. specialize (C g Hg). destruct (told g h) as [[s0 cs]|]; [|reflexivity].
      destruct C as (s & lv & _ & G1). rewrite (Hn Hg) in G1. discriminate. }
    destruct c as [c|k s].
    2:{ injection H as <- <-. split; [|exact N]. intros g Hg. rewrite told_snoc. cbn [told_step u_store u_rms]. rewrite mget_put, String.eqb_sym. specialize (C g Hg).
        destruct (String.eqb_spec g k) as [->|]; [|exact C]. exists s, true. auto. }
    destruct c as [sc k v|sc k|rl|rl|k| |k|e|k y|n f|n]; cbn [ustep] in H.
    - destruct sc; try (eapply Same; [exact H|reflexivity]).
      destruct (mstep E o (u_m x) (CSetDef G_SEC k v)) as [[m1 r1]|] eqn:Em; cbn [obind] in H; [|discriminate]. injection H as <- <-.
      split; [|exact (no_g_step _ _ _ _ _ _ N Em)]. intros g Hg. rewrite told_snoc. cbn [told_step u_rms]. specialize (C g Hg).
      destruct (String.eqb_spec k g) as [->|Hn].
      + cbn [mstep] in Em. unfold SetDef in Em. cbn [keyPrefix] in Em. rewrite Hg in Em. cbn in Em. injection Em as _ <-. cbn [x_err]. apply mget_del_eq.
      + destruct (x_err r1); [exact C|]. rewrite mget_del_neq by congruence. exact C.
    - destruct sc; try (eapply Same; [exact H|reflexivity]).
      destruct (mstep E o (u_m x) (CRemoveDef G_SEC k)) as [[m1 r1]|] eqn:Em; cbn [obind] in H; [|discriminate]. injection H as <- <-.
      split; [|exact (no_g_step _ _ _ _ _ _ N Em)]. intros g Hg. rewrite told_snoc. cbn [told_step u_rms]. specialize (C g Hg).
      rewrite mget_del, (String.eqb_sym g k). destruct (String.eqb_spec k g) as [->|Hn]; [reflexivity|exact C].
    - destruct rl as [|k l]; [eapply Same; [exact H|reflexivity]|]. destruct (u_own x k) as [[[s|] live]|] eqn:Eo; [|discriminate|].
      + destruct l as [|a [|b ds]]; try discriminate. destruct (own_some _ _ _ Eo) as [Kg Gk].
        destruct (u_AddLink U s a b ds) as [[s' [ad er]]|] eqn:Ea; cbn [obind] in H; [|discriminate]. injection H as <- <-.
        eapply (Tell k (Some s) live (LAdd a b ds) (Some s') Kg Gk); [cbn [link_step]; now rewrite Ea|reflexivity|reflexivity].
      + eapply Same; [exact H|]. intros g Hg. cbn [told_step]. destruct l as [|a [|b ds]]; try reflexivity. apply (Kp k (LAdd a b ds)); [|exact Hg].
        intros Hk. rewrite own_get in Eo by exact Hk. exact Eo.
    - destruct rl as [|k l]; [eapply Same; [exact H|reflexivity]|]. destruct (u_own x k) as [[[s|] live]|] eqn:Eo; [|discriminate|].
      + destruct l as [|a [|b ds]]; try discriminate. destruct (own_some _ _ _ Eo) as [Kg Gk].
        destruct (u_DeleteLink U s a b ds) as [[s' [ad er]]|] eqn:Ea; cbn [obind] in H; [|discriminate]. injection H as <- <-.
        eapply (Tell k (Some s) live (LDel a b ds) (Some s') Kg Gk); [cbn [link_step]; now rewrite Ea|reflexivity|reflexivity].
      + eapply Same; [exact H|]. intros g Hg. cbn [told_step]. destruct l as [|a [|b ds]]; try reflexivity. apply (Kp k (LDel a b ds)); [|exact Hg].
        intros Hk. rewrite own_get in Eo by exact Hk. exact Eo.
    - destruct (mget k (md_pMap (u_m x))) as [i|] eqn:Ep; [eapply Same; [exact H|]|].
      { intros g Hg. cbn [told_step]. destruct (String.eqb_spec k g) as [->|]; [|reflexivity]. rewrite (N g Hg) in Ep. discriminate. }
      destruct (mget k (u_rms x)) as [[[s|] live]|] eqn:Eo; [|discriminate|].
      + destruct (u_Clear U s) as [[s' er]|] eqn:Ea; cbn [obind] in H; [|discriminate]. injection H as <- <-.
        assert (Kd : g_key k \/ ~ g_key k).
        { unfold g_key. destruct (first_byte k) as [c|]; [|right; discriminate]. destruct (Ascii.eqb_spec c "g") as [->|Hn]; [now left|right; congruence]. }
        destruct Kd as [Kg|Kn].
        * eapply (Tell k (Some s) live LClear (Some s') Kg Eo); [cbn [link_step]; now rewrite Ea|reflexivity|reflexivity].
        * split; [|destruct live; exact N]. intros g Hg. rewrite told_snoc. cbn [told_step u_store u_rms]. rewrite mget_put, String.eqb_sym. destruct (String.eqb_spec g k) as [->|]; [contradiction|]. exact (C g Hg).
      + eapply Same; [exact H|]. intros g Hg. cbn [told_step]. apply (Kp k LClear); [|exact Hg]. auto.
    - eapply Same; [exact H|reflexivity].
    - eapply Same; [exact H|reflexivity].
    - eapply Same; [exact H|reflexivity].
    - destruct (mstep E o (u_m x) (CSetRM k y)) as [[m1 r1]|] eqn:Em; cbn [obind] in H; [|discriminate]. injection H as <- <-.
      split; [|exact (no_g_step _ _ _ _ _ _ N Em)]. intros g Hg. rewrite told_snoc. cbn [told_step u_rms]. specialize (C g Hg).
      rewrite mget_del, (String.eqb_sym g k). destruct (String.eqb_spec k g) as [->|Hn]; [reflexivity|exact C].
    - destruct (mstep E o (u_m x) (CSetFn n f)) as [[m1 r1]|] eqn:Em; cbn [obind] in H; [|discriminate]. injection H as <- <-.
      split; [|exact (no_g_step _ _ _ _ _ _ N Em)]. intros g Hg. rewrite told_snoc. cbn [told_step u_rms]. specialize (C g Hg). rewrite unlink_get.
      destruct (told g h) as [[s0 cs]|]; [destruct C as (s & lv & A & B); rewrite B; destruct (String.eqb n g); cbn; eauto|rewrite C; now destruct (String.eqb n g)].
    - destruct (mstep E o (u_m x) (CRemFn n)) as [[m1 r1]|] eqn:Em; cbn [obind] in H; [|discriminate]. injection H as <- <-.
      split; [|exact (no_g_step _ _ _ _ _ _ N Em)]. intros g Hg. rewrite told_snoc. cbn [told_step u_rms]. specialize (C g Hg). rewrite unlink_get.
      destruct (told g h) as [[s0 cs]|]; [destruct C as (s & lv & A & B); rewrite B; destruct (String.eqb n g); cbn; eauto|rewrite C; now destruct (String.eqb n g)].
  Qed.
  Lemma charged_exec h : forall x rs, uexec U E (unew E) h = Val (x, rs) -> charged h x /\ no_g (u_m x).
  Proof.
    induction h as [|[o c] h IH] using rev_ind; intros x rs H.
    - injection H as <- <-. split; [intros k _; reflexivity|intros k _; reflexivity].
    - rewrite uexec_app in H. destruct (uexec U E (unew E) h) as [[x1 rs1]|]; cbn [obind] in H; [|discriminate]. destruct (IH x1 rs1 eq_refl) as [C N]. cbn [uexec] in H.
      destruct (ustep U E o x1 c) as [[x2 r]|] eqn:Es; cbn [obind] in H; [|discriminate]. injection H as <- <-. eapply charged_step; eauto.
  Qed.
End Charge.

Lemma mdel_fold {V} (l : list string) (sm : smap V) k : In k l -> mget k (fold_right mdel sm l) = None.
Proof.
  induction l as [|a l IH]; intros [].
  - subst. apply mget_del_eq.
  - cbn [fold_right]. rewrite mget_del. destruct (String.eqb k a); [reflexivity|auto].
Qed.
Lemma get_keys {V} (sm : smap V) k v : mget k sm = Some v -> In k (mkeys sm).
Proof.
  induction sm as [|[k' v'] sm IH]; cbn; [discriminate|]. destruct (String.eqb_spec k k') as [->|]; [auto|]. intros H. right. now apply IH.
Qed.
Lemma section_rules_key o m sm k r : In (k :: r) (section_rules o m sm) -> mget k sm <> None.
Proof.
  unfold section_rules. intros H. apply in_flat_map in H as [k' [_ H]]. destruct (mget k' sm) as [i|] eqn:Eg; [|destruct H].
  apply in_map_iff in H as [y [Q _]]. injection Q as <- _. congruence.
Qed.
Lemma sections_spec {S} (U : manager S) x keys : forall l, u_sections U x keys = Val l ->
  forall k r, In (k :: r) l <-> exists s live, In k keys /\ mget k (u_rms x) = Some (Some s, live) /\ exists a b ds, r = a :: b :: ds /\ In (a, b, ds) (u_Range U s).
Proof.
  induction keys as [|k0 keys IH]; intros l H k r; cbn [u_sections] in H.
  - injection H as <-. split; [intros []|intros (s & lv & [] & _)].
  - destruct (mget k0 (u_rms x)) as [[[s|] lv]|] eqn:Eg; [|discriminate|].
    + destruct (u_sections U x keys) as [l'|]; cbn [obind] in H; [|discriminate]. injection H as <-. rewrite in_app_iff, (IH l' eq_refl). split.
      * intros [H|(s1 & lv1 & A & B)]; [|exists s1, lv1; split; [now right|exact B]].
        apply in_map_iff in H as [[[a b] ds] [Q Hi]]. injection Q as <- <-. exists s, lv. split; [now left|]. split; [exact Eg|]. eauto 6.
      * intros (s1 & lv1 & [A|A] & B & C); [|right; exists s1, lv1; auto]. subst k. rewrite Eg in B. injection B as <- <-. left.
        destruct C as (a & b & ds & -> & Hi). apply in_map_iff. exists (a, b, ds). auto.
    + rewrite (IH l H). split; intros (s1 & lv1 & A & B); exists s1, lv1; [split; [now right|exact B]|].
      destruct A as [->|A]; [rewrite Eg in B; destruct B; discriminate|auto].
Qed.
Lemma listed {S} (U : manager S) o x l k s live : good_orders o -> g_key k -> no_g (u_m x) -> u_rules U o x = Val l -> mget k (u_rms x) = Some (s, live) ->
  exists s1, s = Some s1 /\ forall r, In (k :: r) l <-> exists a b ds, r = a :: b :: ds /\ In (a, b, ds) (u_Range U s1).
Proof.
  intros Go Kg N H Hk. unfold u_rules in H. destruct (u_sections U x (o_names o (mkeys (u_rms x)))) as [ls|] eqn:Es; cbn [obind] in H; [|discriminate]. injection H as <-.
  assert (Ik : In k (o_names o (mkeys (u_rms x)))) by (eapply Permutation.Permutation_in; [apply Permutation.Permutation_sym; apply (proj1 Go)|]; eapply get_keys; eauto).
  assert (Sm : exists s1, s = Some s1).
  { destruct s as [s1|]; [eauto|]. exfalso. clear - Es Ik Hk. revert ls Es. induction (o_names o (mkeys (u_rms x))) as [|k0 l IH]; intros ls Es; [destruct Ik|]. cbn [u_sections] in Es.
    destruct Ik as [->|Ik]; [rewrite Hk in Es; discriminate|]. destruct (mget k0 (u_rms x)) as [[[s|] lv]|]; [|discriminate|eauto].
    destruct (u_sections U x l) as [l'|]; [eauto|discriminate]. }
  destruct Sm as [s1 ->]. exists s1. split; [reflexivity|]. intros r. rewrite in_app_iff, (sections_spec U x _ _ Es). split.
  - intros [H|(s2 & lv & _ & B & C)]; [|rewrite Hk in B; injection B as <- _; exact C]. exfalso. rewrite model_rules_eq in H. apply in_app_iff in H as [H|H]; apply section_rules_key in H; apply H; cbn.
    + apply N, Kg.
    + apply mdel_fold. eapply get_keys; eauto.
  - intros C. right. exists s1, live. auto.
Qed.

(** Every history: definitions, rules, matchers, functions, managers set by the user
    in any order.  The manager that was set last for a section [k] was told of
    every rule of the section added or removed since, and of every ClearPolicy, once
    and in order, and of nothing else; its answer is what the next call returns,
    error and all; the rule is announced when it says so; and RangeRules lists as
    the rules of the section what its Range lists. *)
Theorem C104_manager_is_told :
  forall S (U : manager S) E h x rs k s0 cs, g_key k ->
    uexec U E (unew E) h = Val (x, rs) -> told k h = Some (s0, cs) ->
    exists s, replay U s0 cs = Val s /\
      (forall o l, good_orders o -> u_rules U o x = Val l ->
         exists s1, s = Some s1 /\ forall r, In (k :: r) l <-> exists a b ds, r = a :: b :: ds /\ In (a, b, ds) (u_Range U s1)) /\
      (forall o r, match s, r with
         | Some s1, a :: b :: ds =>
             match u_AddLink U s1 a b ds with
             | Panic => ustep U E o x (UM (CAdd (k :: r))) = Panic
             | Val (_, (added, err)) => exists x', ustep U E o x (UM (CAdd (k :: r))) = Val (x', mkRes added err (if added then [MAdded (k :: r)] else []))
             end
         | _, _ => ustep U E o x (UM (CAdd (k :: r))) = Panic
         end) /\
      (forall o r, match s, r with
         | Some s1, a :: b :: ds =>
             match u_DeleteLink U s1 a b ds with
             | Panic => ustep U E o x (UM (CRemove (k :: r))) = Panic
             | Val (_, (removed, err)) => exists x', ustep U E o x (UM (CRemove (k :: r))) = Val (x', mkRes removed err (if removed then [MRemoved (k :: r)] else []))
             end
         | _, _ => ustep U E o x (UM (CRemove (k :: r))) = Panic
         end) /\
      (forall o, match s with
         | Some s1 =>
             match u_Clear U s1 with
             | Panic => ustep U E o x (UM (CClear k)) = Panic
             | Val (_, err) => exists x', ustep U E o x (UM (CClear k)) = Val (x', mkRes true err [])
             end
         | None => ustep U E o x (UM (CClear k)) = Panic
         end).
Proof.
  intros S U E h x rs k s0 cs Kg H Ht. destruct (charged_exec U E h x rs H) as [C N]. specialize (C k Kg). rewrite Ht in C. destruct C as (s & live & R & G). exists s. split; [exact R|].
  split; [|split; [|split]].
  - intros o l Go Hl. exact (listed U o x l k s live Go Kg N Hl G).
  - intros o r. cbn [ustep]. rewrite (own_get x k Kg), G. destruct s as [s|]; [|destruct r; reflexivity]. destruct r as [|a [|b ds]]; try reflexivity.
    destruct (u_AddLink U s a b ds) as [[s' [ad er]]|]; cbn [obind]; [eauto|reflexivity].
  - intros o r. cbn [ustep]. rewrite (own_get x k Kg), G. destruct s as [s|]; [|destruct r; reflexivity]. destruct r as [|a [|b ds]]; try reflexivity.
    destruct (u_DeleteLink U s a b ds) as [[s' [ad er]]|]; cbn [obind]; [eauto|reflexivity].
  - intros o. cbn [ustep]. rewrite (N k Kg), G. destruct s as [s|]; [|reflexivity]. destruct (u_Clear U s) as [[s' er]|]; cbn [obind]; [eauto|reflexivity].
Qed.
Print Assumptions C104_manager_is_told.

Lemma replay_set {S} (U : manager S) ok link : keeps_links U ok link -> forall cs s, ok s ->
  exists s', replay U (Some s) cs = Val (Some s') /\ ok s' /\ forall a b ds, link s' a b ds = link_after link s cs a b ds.
Proof.
  intros K. induction cs as [|c cs IH]; intros s Hs; [exists s; auto|].
  assert (Go : forall s1, link_step U (Some s) c = Val (Some s1) -> ok s1 -> (forall a b ds, link s1 a b ds = link_after link s [c] a b ds) ->
            exists s', replay U (Some s) (c :: cs) = Val (Some s') /\ ok s' /\ forall a b ds, link s' a b ds = link_after link s (c :: cs) a b ds).
  { intros s1 E1 O1 L1. destruct (IH s1 O1) as (s2 & R2 & O2 & L2). exists s2. cbn [replay]. rewrite E1. split; [exact R2|]. split; [exact O2|]. intros a b ds. rewrite L2. unfold link_after. cbn [fold_left]. now rewrite L1. }
  assert (Bt : forall p q : bool, (p = true <-> q = true) -> p = q) by (intros [] [] [A B]; try reflexivity; [symmetry; now apply A|now apply B]).
  destruct c as [a b ds|a b ds|].
  - destruct (kl_add _ _ _ K s a b ds Hs) as (s1 & A & O & L). apply (Go s1); [cbn [link_step]; now rewrite A|exact O|]. intros a' b' ds'. apply Bt. rewrite L. unfold link_after. cbn [fold_left].
    destruct (list_eq_dec string_dec (a :: b :: ds) (a' :: b' :: ds')) as [Q|Q]; [injection Q as -> -> ->; tauto|]. split; [intros [(-> & -> & ->)|X]; congruence|auto].
  - destruct (kl_del _ _ _ K s a b ds Hs) as (s1 & A & O & L). apply (Go s1); [cbn [link_step]; now rewrite A|exact O|]. intros a' b' ds'. apply Bt. rewrite L. unfold link_after. cbn [fold_left].
    destruct (list_eq_dec string_dec (a :: b :: ds) (a' :: b' :: ds')) as [Q|Q]; [injection Q as -> -> ->; split; [tauto|discriminate]|]. split; [tauto|]. intros X. split; [|exact X]. intros (-> & -> & ->). congruence.
  - destruct (kl_clear _ _ _ K s Hs) as (s1 & A & O & L). apply (Go s1); [cbn [link_step]; now rewrite A|exact O|]. intros a' b' ds'. rewrite L. reflexivity.
Qed.

(** If the manager keeps its links as a set, the section is that set: no call fails, a
    rule is listed exactly when the last call about it added it (or when the manager
    had it from the start), AddRule answers and announces that it was new,
    RemoveRule that it was there. *)
Theorem C104_a_set_of_links :
  forall S (U : manager S) ok link E h x rs k s0 cs, keeps_links U ok link -> g_key k ->
    uexec U E (unew E) h = Val (x, rs) -> told k h = Some (Some s0, cs) -> ok s0 ->
    let there := link_after link s0 cs in
    (forall o l, good_orders o -> u_rules U o x = Val l ->
       forall r, In (k :: r) l <-> exists a b ds, r = a :: b :: ds /\ there a b ds = true) /\
    (forall o a b ds, exists x', ustep U E o x (UM (CAdd (k :: a :: b :: ds))) =
       Val (x', mkRes (negb (there a b ds)) None (if there a b ds then [] else [MAdded (k :: a :: b :: ds)]))) /\
    (forall o a b ds, exists x', ustep U E o x (UM (CRemove (k :: a :: b :: ds))) =
       Val (x', mkRes (there a b ds) None (if there a b ds then [MRemoved (k :: a :: b :: ds)] else []))) /\
    (forall o, exists x', ustep U E o x (UM (CClear k)) = Val (x', mkRes true None [])).
Proof.
  intros S U ok link E h x rs k s0 cs K Kg H Ht O0 there.
  destruct (C104_manager_is_told S U E h x rs k (Some s0) cs Kg H Ht) as (s & R & L & A & D & C).
  destruct (replay_set U ok link K cs s0 O0) as (s1 & R1 & O1 & L1). rewrite R in R1. injection R1 as ->. fold there in L1. split; [|split; [|split]].
  - intros o l Go Hl r. destruct (L o l Go Hl) as (s2 & Q & Hr). injection Q as <-. rewrite Hr. split; intros (a & b & ds & -> & X); exists a, b, ds; (split; [reflexivity|]);
      [rewrite <- L1; now apply (kl_range _ _ _ K s1 O1)|apply (kl_range _ _ _ K s1 O1); now rewrite L1].
  - intros o a b ds. specialize (A o (a :: b :: ds)). cbn iota in A. destruct (kl_add _ _ _ K s1 a b ds O1) as (s2 & E2 & _). rewrite E2, L1 in A. destruct (there a b ds); exact A.
  - intros o a b ds. specialize (D o (a :: b :: ds)). cbn iota in D. destruct (kl_del _ _ _ K s1 a b ds O1) as (s2 & E2 & _). rewrite E2, L1 in D. exact D.
  - intros o. specialize (C o). cbn iota in C. destruct (kl_clear _ _ _ K s1 O1) as (s2 & E2 & _). rewrite E2 in C. exact C.
Qed.
Print Assumptions C104_a_set_of_links.

(** Every file, every history of rules, and after it managers of the user set for
    grouping sections of the file or for new ones, with further rules, and functions
    registered and removed in between.  If no call panicked, Filter reports exactly the
    present rules for which the formula is true and Enforce answers by their
    effects, where a section with a manager of the user means the answers of that
    manager's HasLink in the state its calls left it in; with a nil manager it means
    that the two names are equal. *)
Theorem C104_managers_decide_partial :
  forall S (U : manager S) E d R h hx x rs, well_formed d -> readings E d R -> file_history d h -> good_m h ->
    extended_calls d [] hx -> good_u hx -> uexec U E (unew E) (from_model h ++ hx) = Val (x, rs) ->
    let hp := h ++ library_calls [] hx in let CT := user_true U E d hp hx in
    forall mk rk pk rt pt f, logical E d R mk rk pk rt pt f ->
    forall o ps vals, good_orders o -> uses_matcher mk ps -> uses_request rk ps ->
      vals_of ps = map VStr vals -> List.length vals = List.length (named_columns rt) ->
      answer_by (user_answers U E d hx) hp rt pk pt f vals ->
      (forall t, In t (last_tests f) -> ~ test_by CT rt pt vals (repeat ""%string (List.length (named_columns pt))) t) ->
      let e := effect_in_force hp ps in
      let says := says_by CT hp rt pk pt f vals in
      (exists ms, Filter E o (u_m x) ps = Val (u_m x, (ms, None)) /\
         forall y, In y ms <-> present hp y /\ exists r, y = pk :: r /\ satisfies_by CT rt pt f vals r) /\
      (spells e "some(where (p.eft == allow))" ->
         exists b, Enforce E o (u_m x) ps = Val (u_m x, (b, None)) /\ (b = true <-> says Allow)) /\
      (spells e "!some(where (p.eft == deny))" ->
         exists b, Enforce E o (u_m x) ps = Val (u_m x, (b, None)) /\ (b = true <-> ~ says Deny)) /\
      (spells e "some(where (p.eft == allow)) && !some(where (p.eft == deny))" -> ~ says Indeterminate ->
         exists b, Enforce E o (u_m x) ps = Val (u_m x, (b, None)) /\ (b = true <-> says Allow /\ ~ says Deny)).
Proof. intros S U E d R h hx x rs. apply user_by. Qed.
Print Assumptions C104_managers_decide_partial.

(** That a rule whose addition fails is not announced, so that a storage controller
    does not store it, is false for a manager that has added the link and then fails:
    AddRule returns the error, and the model has announced the rule. *)
Definition failing : manager unit :=
  mkManager (fun s _ _ _ => Val (s, (true, Some ErrArgs))) (fun s _ _ _ => Val (s, (true, Some ErrArgs))) (fun _ _ _ _ => Val (true, None)) (fun s => Val (s, None)) (fun _ => []).
Theorem C104_failed_rule_announced_refuted :
  ~ forall S (U : manager S) E h x rs o rl x' r, uexec U E (unew E) h = Val (x, rs) -> ustep U E o x (UM (CAdd rl)) = Val (x', r) ->
      x_err r <> None -> x_events r = [].
Proof.
  intros H. specialize (H unit failing ex_env [(ex_o, USetRM "g" (Some tt))] _ _ ex_o ["g"; "alice"; "admin"]%string _ _ eq_refl eq_refl).
  cbn in H. specialize (H ltac:(discriminate)). discriminate.
Qed.
Print Assumptions C104_failed_rule_announced_refuted.
(** With the managers of the library a call that fails announces nothing. *)
Theorem C104_library_fails_quietly :
  forall E o m rl m' r, mstep E o m (CAdd rl) = Val (m', r) \/ mstep E o m (CRemove rl) = Val (m', r) -> x_err r <> None -> x_events r = [] /\ x_bool r = false /\ m' = m.
Proof.
  intros E o m rl m' r [H|H]; (destruct rl as [|k l]; [discriminate|]); cbn [mstep model_AddRule model_RemoveRule] in H; (destruct (first_byte k) as [c|]; [|discriminate]);
    (destruct (Ascii.eqb c "p"); [|destruct (Ascii.eqb c "g"); [|injection H as <- <-; auto]]); (destruct (mget k _) as [i|]; [|injection H as <- <-; auto]);
    (destruct (act o m i _) as [[m1 b]|]; [|discriminate]); cbn [obind] in H; injection H as <- <-; cbn; congruence.
Qed.
Print Assumptions C104_library_fails_quietly.

(** ** The hypotheses are met

    An office where objects match by a function the user registers. *)
Definition vip_text : string := "g(r.sub, p.sub) && office(r.obj, p.obj) && r.act == p.act".
Definition vip_defs : deflist :=
  [(R_SEC, "r", "sub, obj, act"); (P_SEC, "p", "sub, obj, act"); (G_SEC, "g", "_, _");
   (E_SEC, "e", "some(where (p.eft == allow))"); (M_SEC, "m", vip_text)]%string.
Definition vip_form : mform :=
  MAnd (MAnd (MTest (Call "g" [TReq "sub"; TPol "sub"])) (MTest (Call "office" [TReq "obj"; TPol "obj"]))) (MTest (Equal (TReq "act") (TPol "act"))).
Definition vip_env (L : lib) : env := one_env ["g"; "office"]%string vip_text (as_form "r" "p" vip_form) L.
Definition below : gofn := fun args => match args with [VStr a; VStr b] => Val (inl (VBool (String.prefix b a))) | _ => Panic end.
Definition same : gofn := fun args => match args with [VStr a; VStr b] => Val (inl (VBool (String.eqb a b))) | _ => Panic end.
Definition vip_fs : list (string * gofn) := [("office", same); ("office", below)]%string.
Definition vip (L : lib) : env := with_functions (vip_env L) vip_fs.
Lemma vip_wf : well_formed vip_defs.
Proof.
  split; [repeat (apply NoDup_cons; [cbn; intuition discriminate|]); apply NoDup_nil|].
  intros s k t H. repeat (destruct H as [H|H]; [injection H as <- <- <-; eexists; split; reflexivity|]). destruct H.
Qed.
Lemma vip_reads L : readings (vip L) vip_defs (over_p vip_form).
Proof.
  intros mk t H. repeat (destruct H as [H|H]; [first [discriminate H|injection H as <- <-]|]); [|destruct H]. split; [|eexists; cbn; tauto].
  constructor; try reflexivity; try (cbn [fst over_p]); [| |atom_tac|repeat split|plain_tac|now left].
  - intros fns Hg Hb. cbn [e_parse vip with_functions vip_env one_env]. assert (forallb (fun k => if in_dec string_dec k fns then true else false) ["g"; "office"]%string = true) as ->; [|now rewrite String.eqb_refl].
    apply forallb_forall. intros k Hk. destruct (in_dec string_dec k fns) as [|n]; [reflexivity|]. destruct n. destruct Hk as [<-|[<-|[]]].
    + eapply Hg. cbn. tauto.
    + apply Hb. vm_compute. tauto.
  - intros fns. cbn [e_parse vip with_functions vip_env one_env]. rewrite String.eqb_refl. destruct (forallb _ _); auto.
Qed.
Lemma vip_logical L : logical (vip L) vip_defs (over_p vip_form) "m" "r" "p" "sub, obj, act" "sub, obj, act" vip_form.
Proof.
  constructor; [eexists; cbn; tauto|reflexivity|cbn; tauto|cbn; tauto|apply distinct_columns; reflexivity|apply distinct_columns; reflexivity|terms_tac|columns_tac|].
  assert (C : forall F : string -> option gofn, e_eval (vip L) F = mini (flat_map (fun k => match F k with Some f => [(k, f)] | None => [] end) ["g"; "office"]%string)) by reflexivity.
  apply Forall_cons; [|apply Forall_cons; [|apply Forall_cons; [eq_tac|apply Forall_nil]]];
    (intros F Hf; specialize (Hf _ _ eq_refl); rewrite C; cbn [flat_map]; destruct (F "g"%string) eqn:E1, (F "office"%string) eqn:E2; try contradiction; call_of_tac).
Qed.
Definition vip_l1 : list mcall := [CAdd ["p"; "clerk"; "/files/"; "read"]; CAdd ["g"; "alice"; "clerk"]; CAdd ["g"; "boss"; "alice"]]%string.
Definition vip_h : list (orders * mcall) := after vip_defs vip_l1 [].
Definition vip_hx : list (orders * mcall) :=
  [(ex_rev, CSetFn "office" same); (ex_o, CAdd ["p"; "clerk"; "/desk"; "read"]); (ex_o, CRemFn "pathMatch"); (ex_rev, CRemove ["g"; "boss"; "alice"])]%string.
(** Requests for which the calls have answers, whatever the functions are. *)
Lemma vip_last (CT : string -> list string -> Prop) s ob a : a <> ""%string -> forall t, In t (last_tests vip_form) -> ~ test_by CT "sub, obj, act" "sub, obj, act" [s; ob; a] (repeat ""%string (List.length (named_columns "sub, obj, act"))) t.
Proof.
  intros Ha t [<-|[]] (x & H1 & H2). destruct H2 as (n & _ & H2). assert (x = ""%string) as ->.
  { do 3 (destruct n as [|n]; [injection H2 as <-; reflexivity|]). destruct n; discriminate H2. }
  destruct H1 as (k & H1 & H3). do 3 (destruct k as [|k]; [try discriminate H1; injection H3 as H3; now apply Ha|]). destruct k; discriminate H1.
Qed.
Lemma vip_plain : forall l h, effect_in_force h (map (fun v => PVal (VStr v)) l) = effect_in_force h [] /\ uses_matcher "m" (map (fun v => PVal (VStr v)) l) /\ uses_request "r" (map (fun v => PVal (VStr v)) l).
Proof.
  intros l h. assert (Ol : opts_of (map (fun v => PVal (VStr v)) l) = []) by (rewrite <- (map_map VStr PVal); apply opts_PVal).
  unfold uses_matcher, uses_request, effect_in_force. rewrite Ol. split; [reflexivity|]. split; (split; [constructor|now left]).
Qed.
Example C103_ex : forall L,
  well_formed vip_defs /\ readings (vip L) vip_defs (over_p vip_form) /\ file_history vip_defs vip_h /\ good_m vip_h /\
  Forall (fun x => fn_call vip_defs (snd x)) vip_hx /\ good_m vip_hx /\
  logical (vip L) vip_defs (over_p vip_form) "m" "r" "p" "sub, obj, act" "sub, obj, act" vip_form /\
  spells (effect_in_force (vip_h ++ rule_calls vip_hx) []) "some(where (p.eft == allow))" /\
  (forall s ob a, a <> ""%string -> answer_by (fn_answers (vip L) vip_defs vip_hx) (vip_h ++ rule_calls vip_hx) "sub, obj, act" "p" "sub, obj, act" vip_form [s; ob; a]) /\
  let E := vip_env L in
  ask E (register ex_o vip_fs ++ vip_h) ["alice"; "/files/7"; "read"]%string = Val (true, None) /\
  ask E (register ex_o vip_fs ++ vip_h) ["boss"; "/files/7"; "read"]%string = Val (true, None) /\
  ask E (register ex_o vip_fs ++ vip_h) ["alice"; "/desk"; "read"]%string = Val (false, None) /\
  ask E (register ex_o vip_fs ++ vip_h ++ vip_hx) ["alice"; "/files/7"; "read"]%string = Val (false, None) /\
  ask E (register ex_o vip_fs ++ vip_h ++ vip_hx) ["alice"; "/desk"; "read"]%string = Val (true, None) /\
  ask E (register ex_o vip_fs ++ vip_h ++ vip_hx) ["boss"; "/desk"; "read"]%string = Val (false, None).
Proof.
  intros L. split; [exact vip_wf|]. split; [apply vip_reads|].
  destruct (after_file vip_defs vip_l1 []) as [H1 H2]; [unfold vip_l1; file_tac|apply Forall_nil|].
  split; [exact H1|]. split; [exact H2|]. split.
  { unfold vip_hx. apply Forall_cons; [exact Logic.I|]. apply Forall_cons; [|apply Forall_cons; [exact Logic.I|apply Forall_cons; [|apply Forall_nil]]]; cbn [fn_call snd file_call].
    - left; eexists _, _, _; split; [reflexivity|]; split; [cbn; tauto|]; split; [split; [discriminate|repeat (apply Forall_cons; [reflexivity|]); apply Forall_nil]|reflexivity].
    - right; eexists _, _, _, _, _; split; [reflexivity|]; split; [cbn; tauto|]; apply Forall_nil. }
  split; [unfold good_m, vip_hx; repeat (apply Forall_cons; [first [apply ex_o_good|apply ex_rev_good]|]); apply Forall_nil|].
  split; [apply vip_logical|]. split; [reflexivity|]. split.
  { intros s ob a Ha r g args us Ht Hr Hu. repeat (destruct Ht as [Ht|Ht]; [first [discriminate Ht|injection Ht as <- <-]|]); [| |destruct Ht]; args_tac; unfold fn_answers.
    - change (named_now "g" vip_hx) with AsLoaded. cbn iota. left. eexists _, _, _, _. split; [cbn; tauto|]. split; [reflexivity|]. apply Forall_nil.
    - change (named_now "office" vip_hx) with (Registered same). cbn iota. cbn. eauto. }
  repeat split; vm_compute; reflexivity.
Qed.

(** A manager of the user that keeps direct links only: no chains, and everybody has
    the role guest. *)
Definition link_eq_dec (x y : string * string * list string) : {x = y} + {x <> y}.
Proof. repeat decide equality. Defined.
Definition linked_in (s : list (string * string * list string)) (a b : string) (ds : list string) : bool :=
  if in_dec link_eq_dec (a, b, ds) s then true else false.
Definition flat : manager (list (string * string * list string)) :=
  mkManager (fun s a b ds => Val (if linked_in s a b ds then s else (a, b, ds) :: s, (negb (linked_in s a b ds), None)))
            (fun s a b ds => Val (remove link_eq_dec (a, b, ds) s, (linked_in s a b ds, None)))
            (fun s a b ds => Val (String.eqb b "guest" || linked_in s a b ds, None))
            (fun s => Val ([], None)) (fun s => s).
Lemma flat_set : keeps_links flat (fun _ => True) linked_in.
Proof.
  assert (B : forall s a b ds, linked_in s a b ds = true <-> In (a, b, ds) s) by (intros s a b ds; unfold linked_in; destruct (in_dec _ _ _); split; congruence).
  constructor.
  - intros s a b ds _. eexists. split; [reflexivity|]. split; [exact Logic.I|]. intros a' b' ds'. rewrite !B. pose proof (B s a b ds) as Bs.
    destruct (linked_in s a b ds); cbn [In].
    + split; [auto|]. intros [(-> & -> & ->)|H]; [now apply Bs|exact H].
    + split; [intros [H|H]; [injection H as <- <- <-; auto|auto]|]. intros [(-> & -> & ->)|H]; auto.
  - intros s a b ds _. eexists. split; [reflexivity|]. split; [exact Logic.I|]. intros a' b' ds'. rewrite !B. split.
    + intros H. apply in_remove in H as [H Hn]. split; [|exact H]. intros (-> & -> & ->). now apply Hn.
    + intros [Hn H]. apply in_in_remove; [|exact H]. intros Q. injection Q as -> -> ->. apply Hn. auto.
  - intros s _. eexists. split; [reflexivity|]. split; [exact Logic.I|]. intros a b ds. reflexivity.
  - intros s _ a b ds. now rewrite B.
Qed.
Notation flat_calls := (list (orders * ucall (list (string * string * list string)))).
(** The manager replaces that of section g after rules were loaded; then rules of the
    section reach it, and a second section without definition gets a nil manager. *)
Definition flat_hx : flat_calls :=
  [(ex_o, USetRM "g" (Some [("dora", "clerk", [])])); (ex_rev, UM (CAdd ["g"; "eve"; "clerk"])); (ex_o, UM (CAdd ["p"; "guest"; "/hall"; "read"]));
   (ex_o, USetRM "g2" None); (ex_rev, UM (CRemove ["g"; "dora"; "clerk"])); (ex_o, UM (CAdd ["g"; "frank"; "eve"]))]%string.
Definition uask (E : env) (h : flat_calls) (vals : list string) : outcome (bool * option goerr) :=
  let! (x, _) := uexec flat E (unew E) h in let! (_, r) := Enforce E ex_rev (u_m x) (map (fun v => PVal (VStr v)) vals) in Val r.
Example C104_ex : forall L, let E := vip L in
  well_formed vip_defs /\ readings E vip_defs (over_p vip_form) /\ file_history vip_defs vip_h /\ good_m vip_h /\
  extended_calls vip_defs [] flat_hx /\ good_u flat_hx /\
  logical E vip_defs (over_p vip_form) "m" "r" "p" "sub, obj, act" "sub, obj, act" vip_form /\
  (exists x rs, uexec flat E (unew E) (from_model vip_h ++ flat_hx) = Val (x, rs)) /\
  told "g" (from_model vip_h ++ flat_hx) = Some (Some [("dora", "clerk", [])], [LAdd "eve" "clerk" []; LDel "dora" "clerk" []; LAdd "frank" "eve" []])%string /\
  keeps_links flat (fun _ => True) linked_in /\
  (forall s ob a, a <> ""%string -> answer_by (user_answers flat E vip_defs flat_hx) (vip_h ++ library_calls [] flat_hx) "sub, obj, act" "p" "sub, obj, act" vip_form [s; ob; a]) /\
  uask E (from_model vip_h) ["alice"; "/files/7"; "read"]%string = Val (true, None) /\
  uask E (from_model vip_h ++ firstn 1 flat_hx) ["alice"; "/files/7"; "read"]%string = Val (false, None) /\
  uask E (from_model vip_h ++ firstn 1 flat_hx) ["dora"; "/files/7"; "read"]%string = Val (true, None) /\
  uask E (from_model vip_h ++ flat_hx) ["dora"; "/files/7"; "read"]%string = Val (false, None) /\
  uask E (from_model vip_h ++ flat_hx) ["eve"; "/files/7"; "read"]%string = Val (true, None) /\
  uask E (from_model vip_h ++ flat_hx) ["frank"; "/files/7"; "read"]%string = Val (false, None) /\
  uask E (from_model vip_h ++ flat_hx) ["nobody"; "/hall/1"; "read"]%string = Val (true, None).
Proof.
  intros L E. split; [exact vip_wf|]. split; [apply vip_reads|].
  destruct (after_file vip_defs vip_l1 []) as [H1 H2]; [unfold vip_l1; file_tac|apply Forall_nil|].
  split; [exact H1|]. split; [exact H2|]. split.
  { unfold flat_hx. cbn [extended_calls about]. split; [reflexivity|]. split; [discriminate|]. split.
    { intros _. left; eexists _, _, _; split; [reflexivity|]; split; [cbn; tauto|]; split; [split; [discriminate|repeat (apply Forall_cons; [reflexivity|]); apply Forall_nil]|reflexivity]. }
    split; [reflexivity|]. split; [discriminate|]. split; [discriminate|exact Logic.I]. }
  split; [unfold good_u, flat_hx; repeat (apply Forall_cons; [first [apply ex_o_good|apply ex_rev_good]|]); apply Forall_nil|].
  split; [apply vip_logical|]. split.
  { assert (V : match uexec flat E (unew E) (from_model vip_h ++ flat_hx) with Val _ => true | Panic => false end = true) by (vm_compute; reflexivity).
    destruct (uexec flat E (unew E) (from_model vip_h ++ flat_hx)) as [[x rs]|]; [eauto|discriminate]. }
  split; [vm_compute; reflexivity|]. split; [exact flat_set|]. split.
  { intros s ob a Ha r g args us Ht Hr Hu. repeat (destruct Ht as [Ht|Ht]; [first [discriminate Ht|injection Ht as <- <-]|]); [| |destruct Ht]; args_tac; unfold user_answers.
    - change (stands_for "g" flat_hx) with (@Manager). cbn iota. exists (Some [("frank", "eve", []); ("eve", "clerk", [])])%string. eexists _, _, _. split; [|split; [reflexivity|cbn; eauto]].
      exists (Some [("dora", "clerk", [])])%string, [LAdd "eve" "clerk" []; LDel "dora" "clerk" []; LAdd "frank" "eve" []]%string. split; reflexivity.
    - change (stands_for "office" flat_hx) with (@AsLoaded). cbn iota. right. split; [intros [gt X]; cbn in X; intuition discriminate|].
      eexists below, _. split; [vm_compute; reflexivity|]. reflexivity. }
  repeat split; vm_compute; reflexivity.
Qed.
