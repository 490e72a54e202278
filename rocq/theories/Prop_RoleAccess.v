(** Property C98: matchers when the role managers of the model are used
    directly. *)
From Verif Require Import PathM PathSpec BuiltinM GoBase GoBaseP DefsM DefsP PolicyM PolicySpec PolicyP EffectorM MatcherDefM MatcherDefSpec MatcherDefP MatcherM MatcherSpec MatcherP MatcherP2
  RbacM RbacSpec DomainM DomainSpec EvalM ModelM ModelSpec ModelP ModelP2 ModelP3 ModelP4 ModelP5 ModelP6 EnforcerM EnforcerSpec EnforcerP
  SafeSpec SafeP FunctionsSpec FunctionsP AppSpec AppsSpec MultiSpec LogicSpec PatternsM PatternsSpec RbacP RbacP2 RbacP3 RbacP5 RoleAccessM RoleAccessSpec LogicP RoleAccessP.
From Verif Require Import Prop_Path Prop_Rbac Prop_Domain Prop_Patterns Prop_Builtin Prop_Effect Prop_Defs Prop_Matcher Prop_Model Prop_Enforce Prop_Query Prop_Functions Prop_App Prop_Apps Prop_Multi Prop_Columns Prop_Logic.
Local Open Scope list_scope.

(** ** What a manager has been told *)
Lemma role_exec_app l1 : forall x l2, role_exec x (l1 ++ l2) = obind (role_exec x l1) (fun r => obind (role_exec (fst r) l2) (fun s => Val (fst s, snd r ++ snd s))).
Proof.
  induction l1 as [|[o c] l1 IH]; intros x l2; cbn [role_exec app obind fst snd].
  - destruct (role_exec x l2) as [[y ys]|]; reflexivity.
  - destruct (role_step o x c) as [[x1 a]|]; cbn [obind]; [|reflexivity]. rewrite IH. destruct (role_exec x1 l1) as [[x2 as2]|]; cbn [obind fst snd]; [|reflexivity].
    destruct (role_exec x2 l2) as [[x3 as3]|]; reflexivity.
Qed.
Lemma role_exec_pat l : forall rm rm' xs, pat_exec rm (pcalls l) = Val (rm', xs) -> exists ys, role_exec (IRole rm) l = Val (IRole rm', ys).
Proof.
  induction l as [|[o c] l IH]; intros rm rm' xs H; cbn [pcalls flat_map] in H.
  - injection H as <- <-. exists []. reflexivity.
  - fold (pcalls l) in H. cbn [fst snd] in H. cbn [role_exec]. destruct c as [c|m|m]; cbn [as_pcall map app pat_exec] in H.
    + destruct (pat_step o rm (PCall (direct c))) as [[rm1 a]|] eqn:Es; cbn [obind] in H; [|discriminate].
      destruct (pat_exec rm1 (pcalls l)) as [[rm2 as2]|] eqn:Ee; cbn [obind] in H; [|discriminate]. injection H as <- <-.
      assert (S : role_step o (IRole rm) (RC c) = Val (IRole rm1, a)).
      { destruct c; cbn in Es |- *; unfold i_Add, i_Del, i_Has, i_Roles, i_Users, fuel; cbn.
        - destruct (rm_AddLink o rm a0 b ds) as [[r1 y]|]; cbn [obind] in *; [|discriminate]. now injection Es as <- <-.
        - destruct (rm_DeleteLink o rm a0 b ds) as [[r1 y]|]; cbn [obind] in *; [|discriminate]. now injection Es as <- <-.
        - destruct (rm_HasLink o rm a0 b) as [[r1 y]|]; cbn [obind] in *; [|discriminate]. now injection Es as <- <-.
        - destruct (rm_GetRoles o rm a0) as [[r1 y]|]; cbn [obind] in *; [|discriminate]. now injection Es as <- <-.
        - destruct (rm_GetUsers o rm a0) as [[r1 y]|]; cbn [obind] in *; [|discriminate]. now injection Es as <- <-.
        - now injection Es as <- <-. }
      rewrite S. cbn [obind]. destruct (IH _ _ _ Ee) as [ys ->]. cbn. eauto.
    + destruct (pat_step o rm (PSet m)) as [[rm1 a]|] eqn:Es; cbn [obind] in H; [|discriminate].
      destruct (pat_exec rm1 (pcalls l)) as [[rm2 as2]|] eqn:Ee; cbn [obind] in H; [|discriminate]. injection H as <- <-.
      cbn [pat_step] in Es. cbn [role_step i_SetMatcher]. destruct (rm_SetMatcher o rm m) as [rm3|]; cbn [obind] in *; [|discriminate]. injection Es as <- <-.
      destruct (IH _ _ _ Ee) as [ys ->]. cbn. eauto.
    + cbn [role_step i_SetDomainMatcher obind]. destruct (IH _ _ _ H) as [ys ->]. cbn. eauto.
Qed.
Lemma role_exec_dom l : Forall (fun c => exists d, snd c = RC d) l -> forall x, role_exec x l = dexec x (dcalls l).
Proof.
  induction 1 as [|[o c] l [d Hd] F IH]; intros x; [reflexivity|]. cbn [snd] in Hd. subst c. cbn [dcalls flat_map snd fst app role_exec role_step dexec]. fold (dcalls l).
  destruct (dstep o x d) as [[x1 a]|]; cbn [obind]; [|reflexivity]. now rewrite IH.
Qed.
Lemma role_exec_RC cl : forall x, role_exec x (map (fun c => (fst c, RC (snd c))) cl) = dexec x cl.
Proof. induction cl as [|[o c] cl IH]; intros x; [reflexivity|]. cbn [map fst snd role_exec role_step dexec]. destruct (dstep o x c) as [[x1 a]|]; cbn [obind]; [|reflexivity]. now rewrite IH. Qed.

Lemma section_app k l1 l2 : section_calls k (l1 ++ l2) = section_calls k l1 ++ section_calls k l2.
Proof. apply flat_map_app. Qed.
Lemma section_hist_more d k (hr : list (orders * mcall)) : Forall (fun x : orders * mcall => file_call d (snd x)) hr -> forall x l,
  exists cl, fold_left (g_step k) hr (Some (x, l)) = Some (x, l ++ cl) /\ section_calls k (of_model hr) = map (fun c => (fst c, RC (snd c))) cl.
Proof.
  induction 1 as [|[o y] hr Hc F IH]; intros x l; cbn [fold_left].
  - exists []. now rewrite app_nil_r.
  - assert (G : forall c, (exists cl, fold_left (g_step k) hr (Some (x, l ++ [(o_names o, c)])) = Some (x, l ++ cl) /\ (o_names o, RC c) :: section_calls k (of_model hr) = map (fun c => (fst c, RC (snd c))) cl)).
    { intros c. destruct (IH x (l ++ [(o_names o, c)])) as [cl [A B]]. exists ((o_names o, c) :: cl). rewrite A, B, <- app_assoc. auto. }
    unfold section_calls in *. cbn [of_model map flat_map fst snd section_call]. fold (of_model hr). cbn [snd] in Hc. destruct y; try contradiction; cbn [g_step].
    + destruct (of_section k r) as [[|a [|b ds]]|]; cbn [map app]; try apply IH. apply G.
    + destruct (of_section k r) as [[|a [|b ds]]|]; cbn [map app]; try apply IH. apply G.
    + destruct (String.eqb key k); cbn [map app]; [apply G|apply IH].
Qed.
Lemma section_hist d h k t cl : well_formed d -> file_history d h -> In (G_SEC, k, t) d -> g_history k h = Some (fresh_manager t, cl) ->
  section_calls k (of_model h) = map (fun c => (fst c, RC (snd c))) cl.
Proof.
  intros W (hd & hr1 & ob & hr2 & -> & Hd & H1 & H2) Hk Hg. unfold g_history in Hg. rewrite !fold_left_app, (g_defs k t d hd (proj1 W) Hk Hd) in Hg.
  destruct (section_hist_more d k hr1 H1 (fresh_manager t) []) as [c1 [A1 B1]]. rewrite A1 in Hg. cbn [fold_left g_step] in Hg.
  destruct (section_hist_more d k hr2 H2 (fresh_manager t) ([] ++ c1)) as [c2 [A2 B2]]. rewrite A2 in Hg. injection Hg as <-.
  unfold of_model. rewrite !map_app. cbn [map fst snd]. rewrite !section_app. change (map (fun x : orders * mcall => (fst x, XM (snd x))) hr1) with (of_model hr1).
  unfold section_calls at 3. cbn [flat_map section_call snd map app]. fold (of_model hr2). fold (section_calls k (of_model hr2)). rewrite B1, B2.
  assert (E : section_calls k (map (fun x : orders * mcall => (fst x, XM (snd x))) hd) = []); [|now rewrite E].
  clear - Hd. revert d Hd. induction hd as [|[o c] hd IH]; intros d Hd; [reflexivity|]. destruct d as [|[[s k'] t'] d]; [discriminate|]. cbn in Hd. injection Hd as -> Hd.
  unfold section_calls. cbn. exact (IH d Hd).
Qed.
Lemma model_calls_of h : model_calls (of_model h) = h.
Proof. induction h as [|[o c] h IH]; [reflexivity|]. cbn. fold (of_model h). fold (model_calls (of_model h)). now rewrite IH. Qed.
Lemma model_calls_app l1 l2 : model_calls (l1 ++ l2) = model_calls l1 ++ model_calls l2.
Proof. apply flat_map_app. Qed.
Lemma file_longer d h hr : file_history d h -> Forall (fun x => file_call d (snd x)) hr -> file_history d (h ++ hr).
Proof.
  intros (hd & hr1 & ob & hr2 & -> & Hd & H1 & H2) H. exists hd, hr1, ob, (hr2 ++ hr). split; [now rewrite <- !app_assoc|]. split; [exact Hd|]. split; [exact H1|]. apply Forall_app. auto.
Qed.
Lemma xexec_model E h : forall m m' rs, mexec E m h = Val (m', rs) -> xexec E m (of_model h) = Val (m', map inl rs).
Proof.
  induction h as [|[o c] h IH]; intros m m' rs H; cbn [mexec] in H; [injection H as <- <-; reflexivity|].
  destruct (mstep E o m c) as [[m1 r]|] eqn:Es; cbn [obind] in H; [|discriminate]. destruct (mexec E m1 h) as [[m2 rs2]|] eqn:Em; cbn [obind] in H; [|discriminate]. injection H as <- <-.
  cbn [of_model map fst snd xexec xstep]. rewrite Es. cbn [obind]. fold (of_model h). now rewrite (IH _ _ _ Em).
Qed.
Lemma xexec_app E l1 : forall m l2 m1 r1 m2 r2, xexec E m l1 = Val (m1, r1) -> xexec E m1 l2 = Val (m2, r2) -> xexec E m (l1 ++ l2) = Val (m2, r1 ++ r2).
Proof.
  induction l1 as [|[o c] l1 IH]; intros m l2 m1 r1 m2 r2 H1 H2; cbn [xexec app] in *; [injection H1 as <- <-; exact H2|].
  destruct (xstep E o m c) as [[m3 r]|]; cbn [obind] in *; [|discriminate]. destruct (xexec E m3 l1) as [[m4 r4]|] eqn:E4; cbn [obind] in H1; [|discriminate]. injection H1 as <- <-.
  rewrite (IH _ _ _ _ _ _ E4 H2). reflexivity.
Qed.

(** The manager of a section answers by the links and patterns of its calls. *)
Definition call_fits (t : string) (c : role_call) : Prop :=
  if Nat.eqb (rd_nargs (NewRoleDef "" t)) 2
  then match c with RC c => unflagged (direct c) | _ => True end
  else match c with RC c => match call_domains c with Some ds => unreserved ds | None => True end | _ => False end.
Lemma section_fits d h hx k t : well_formed d -> file_history d h -> good_m h -> Forall (fun x => direct_call d (snd x)) hx -> good_x hx -> In (G_SEC, k, t) d ->
  Forall (fun c => good_order (fst c) /\ call_fits t (snd c)) (section_calls k (of_model h ++ hx)).
Proof.
  intros W Ah G Dx Gx Hk.
  assert (S : forall xs : xhistory, good_x xs -> Forall (fun x => direct_call d (snd x) \/ section_call k (snd x) = []) xs -> Forall (fun c => good_order (fst c) /\ call_fits t (snd c)) (section_calls k xs)).
  { intros xs Hg Hf. apply Forall_forall. intros c Hc. unfold section_calls in Hc. apply in_flat_map in Hc as [[o y] [Hi Hc]]. apply in_map_iff in Hc as [c' [<- Hc]]. cbn [fst snd] in *.
    pose proof (proj1 (Forall_forall _ _) Hg _ Hi) as Ho. pose proof (proj1 (Forall_forall _ _) Hf _ Hi) as Hd. cbn [fst snd] in *. split; [apply Ho|]. destruct Hd as [Hd|Hd]; [|rewrite Hd in Hc; destruct Hc].
    assert (Rule : forall rl c0 a b ds, file_rule d rl -> of_section k rl = Some (a :: b :: ds) -> (direct c0 = RAdd a b ds \/ direct c0 = RDel a b ds) -> call_domains c0 = Some ds -> call_fits t (RC c0)).
    { intros rl c0 a b ds Hr He Hc0 Hc1. unfold call_fits. rewrite Hc1. assert (Hu : unreserved ds).
      { destruct Hr as [(k' & t' & r & -> & Hp & _)|(k' & t' & a' & b' & ds' & -> & _ & Hu)]; cbn in He; destruct (String.eqb_spec k' k) as [->|]; try discriminate.
        - destruct (pg_key _ (p_byte _ _ _ (proj2 W) Hp) (g_byte _ _ _ (proj2 W) Hk)).
        - injection He as <- <- <-. exact Hu. }
      destruct (Nat.eqb _ 2); [|exact Hu]. destruct Hc0 as [-> | ->]; now apply is_redundant_unreserved. }
    destruct y as [y|k' y]; cbn [direct_call section_call] in Hd, Hc.
    - destruct y; try contradiction; cbn [file_call] in Hd.
      + destruct (of_section k r) as [[|a [|b ds]]|] eqn:Er; try contradiction. destruct Hc as [<-|[]]. eapply Rule; eauto; reflexivity.
      + destruct (of_section k r) as [[|a [|b ds]]|] eqn:Er; try contradiction. destruct Hc as [<-|[]]. eapply Rule; eauto; reflexivity.
      + destruct (String.eqb key k); [|contradiction]. destruct Hc as [<-|[]]. unfold call_fits. destruct (Nat.eqb _ 2); exact Logic.I.
    - destruct (String.eqb_spec k' k) as [->|]; [|contradiction]. destruct Hc as [<-|[]]. destruct Hd as [t' [Hk' Hd]].
      assert (t' = t) as ->. { apply (defs_in G_SEC k d (proj2 W) (proj1 W)) in Hk, Hk'. congruence. }
      exact Hd. }
  rewrite section_app. apply Forall_app. split; apply S.
  - unfold good_x, of_model. apply Forall_map. exact G.
  - destruct Ah as (hd & hr1 & ob & hr2 & -> & Hd & H1 & H2). unfold of_model. apply Forall_map. apply Forall_app. split; [|apply Forall_app; split; [|constructor; [now right|]]].
    + apply (ohd_calls d hd Hd (fun c => direct_call d (snd (ob, XM c)) \/ section_call k (XM c) = [])). unfold set_all. apply Forall_map, Forall_forall. intros x _. now right.
    + eapply Forall_impl; [|exact H1]. intros x Hx. now left.
    + eapply Forall_impl; [|exact H2]. intros x Hx. now left.
  - exact Gx.
  - eapply Forall_impl; [|exact Dx]. intros x Hx. now left.
Qed.
Lemma pcalls_fit l t : Nat.eqb (rd_nargs (NewRoleDef "" t)) 2 = true -> Forall (fun c => good_order (fst c) /\ call_fits t (snd c)) l ->
  Forall (fun c => good_order (fst c) /\ match snd c with PCall c => unflagged c | PSet _ => True end) (pcalls l).
Proof.
  intros Ht. induction 1 as [|[o c] l [Ho Hc] F IH]; [constructor|]. cbn [pcalls flat_map]. apply Forall_app. split; [|exact IH].
  unfold call_fits in Hc. rewrite Ht in Hc. cbn [fst snd] in *. destruct c; cbn [as_pcall map]; repeat constructor; auto.
Qed.
Lemma dcalls_fit l t : Nat.eqb (rd_nargs (NewRoleDef "" t)) 2 = false -> Forall (fun c => good_order (fst c) /\ call_fits t (snd c)) l ->
  Forall (fun c => exists d, snd c = RC d) l /\ good_d (dcalls l) /\ ordinary (dcalls l).
Proof.
  intros Ht. induction 1 as [|[o c] l [Ho Hc] F (I1 & I2 & I3)]; [repeat constructor|].
  unfold call_fits in Hc. rewrite Ht in Hc. cbn [fst snd] in *. destruct c as [c| |]; try contradiction. cbn [dcalls flat_map snd fst app]. fold (dcalls l).
  split; [constructor; [now exists c|exact I1]|]. split; constructor; auto.
Qed.

Lemma two_places l : Forall (fun c => good_order (fst c) /\ match snd c with PCall c => unflagged c | PSet _ => True end) (pcalls l) ->
  (matcher_used (pcalls l) -> forall n, In n (pnames (pcalls l)) -> plain n) ->
  exists x xs, role_exec (IRole (NewRoleManager 10)) l = Val (x, xs) /\
    forall ord a b ds, good_order ord -> (matcher_used (pcalls l) -> plain a /\ plain b) ->
      ordinary_name (pmatcher_of (pcalls l)) a -> roles_ordinary (pmatcher_of (pcalls l)) (plinks_of (pcalls l)) ->
      exists x' r, i_Has ord x a b ds = Val (x', r) /\ (r = true <-> reached_by (pmatcher_of (pcalls l)) (plinks_of (pcalls l)) 10 a b).
Proof.
  intros Fi Np. set (P := pcalls l) in *.
  set (N := fun n => matcher_used P -> plain n).
  assert (NO : forall m, m = rm_matcher (NewRoleManager 10) \/ In (PSet m) (map snd P) -> names_ok m N).
  { intros [mm|] Hm n Hn; cbn; [|exact Logic.I]. destruct Hm as [Hm|Hm]; [discriminate|]. apply Hn. now exists mm. }
  destruct (pok_exec N P (NewRoleManager 10) no_links NO Fi) as [rm [xs [E [[[K H] _] [Em El]]]]].
  + intros n Hn M. now apply Np.
  + split; [exists no_names; apply (wholds_start _ 10 None)|]. intros u. reflexivity.
  + destruct (role_exec_pat l _ _ _ E) as [ys Ey]. exists (IRole rm), ys. split; [exact Ey|]. intros ord a b ds Ho Hpl Oa Or.
    change (fold_left pmatcher_step (map snd P) (rm_matcher (NewRoleManager 10))) with (pmatcher_of P) in Em.
    assert (NM : names_ok (rm_matcher rm) N).
    { rewrite Em. apply NO. clear. destruct (pmatcher_of P) as [mm|] eqn:Ep; [|now left]. right. unfold pmatcher_of in Ep.
      assert (S : forall l m0, fold_left pmatcher_step l m0 = Some mm -> m0 = Some mm \/ In (PSet (Some mm)) l).
      { induction l0 as [|c l0 IH]; intros m0 X; cbn [fold_left] in X; [now left|]. destruct (IH _ X) as [Y|Y]; [|right; now right]. destruct c; cbn in Y; [now left|subst; right; now left]. }
      destruct (S _ _ Ep) as [X|X]; [discriminate|exact X]. }
    destruct (HasLink_wholds N rm (plinks_of P) K ord a b NM Ho H) as [rm' [r [Er Hr]]].
    * intros M. now apply Hpl.
    * intros M. now apply Hpl.
    * rewrite Em. now apply ordinary_pat.
    * intros u v Hl. rewrite Em. apply ordinary_pat. exact (Or u v Hl).
    * exists (IRole rm'), r. unfold i_Has, fuel. cbn. rewrite Er. split; [reflexivity|]. rewrite Hr, Em, El. unfold reached_by. change (rm_level (NewRoleManager 10)) with 10%Z.
      split; (intros [Hx|[n [y [Hn Hx]]]]; [now left|right; exists n, y; split; [lia|exact Hx]]).
Qed.

Lemma section_managed d h hx k t : well_formed d -> file_history d h -> good_m h -> Forall (fun x => direct_call d (snd x)) hx -> good_x hx -> names_fit d (of_model h ++ hx) -> In (G_SEC, k, t) d ->
  let xh := of_model h ++ hx in let l := section_calls k xh in
  exists x xs, role_exec (fresh_manager t) l = Val (x, xs) /\
    forall ord a b ds, good_order ord ->
      (if Nat.eqb (rd_nargs (NewRoleDef k t)) 2
       then (matcher_used (pcalls l) -> plain a /\ plain b) /\ ordinary_name (pmatcher_of (pcalls l)) a /\ roles_ordinary (pmatcher_of (pcalls l)) (plinks_of (pcalls l))
       else unreserved ds) ->
      exists x' r, i_Has ord x a b ds = Val (x', r) /\ (r = true <-> joined_by xh k t a b ds).
Proof.
  intros W Ah G Dx Gx Nf Hk xh l. pose proof (section_fits d h hx k t W Ah G Dx Gx Hk) as Fi. fold xh l in Fi.
  unfold fresh_manager, joined_by. change (rd_nargs (NewRoleDef k t)) with (rd_nargs (NewRoleDef "" t)). destruct (Nat.eqb (rd_nargs (NewRoleDef "" t)) 2) eqn:En.
  - destruct (two_places l (pcalls_fit l t En Fi)) as (x & xs & Ex & An).
    { intros M n Hn. apply (Nf k t Hk); [apply Nat.eqb_eq in En; exact En|exact M|exact Hn]. }
    exists x, xs. split; [exact Ex|]. intros ord a b ds Ho (Hpl & Oa & Or). exact (An ord a b ds Ho Hpl Oa Or).
  - destruct (dcalls_fit l t En Fi) as (F1 & F2 & F3).
    destruct (C33_bounded_reachability_partial 10 [] (dcalls l) (fun z => z) ""%string ""%string F2 F3) as [x0 [xs [_ [_ [E0 _]]]]]; [intros z; reflexivity|constructor|].
    change (domains_with 10 None None) with (IDom (NewDomainManager 10)) in E0.
    exists x0, xs. rewrite role_exec_dom by exact F1. split; [exact E0|]. intros ord a b ds Ho Hu.
    destruct (C33_bounded_reachability_partial 10 ds (dcalls l) ord a b F2 F3 Ho Hu) as [x1 [xs1 [x' [r [E1 [E2 Hr]]]]]].
    change (domains_with 10 None None) with (IDom (NewDomainManager 10)) in E1. rewrite E0 in E1. injection E1 as <- <-. cbn [dstep] in E2.
    destruct (i_Has ord x0 a b ds) as [[x2 r2]|]; cbn [obind] in E2; [|discriminate]. injection E2 as <- <-. exists x2, r2. split; [reflexivity|].
    rewrite Hr. fold xh l. split; (intros [Hx|[n (A & B & C)]]; [now left|right; exists n; split; [exact A|split; [lia|exact C]]]).
Qed.

(** ** Whatever the managers of the sections answer by, matchers mean *)
Lemma direct_by E d R h hx (CT CA : string -> list string -> Prop) : well_formed d -> readings E d R -> file_history d h -> good_m h ->
  Forall (fun x => known_call d (snd x)) hx -> good_x hx ->
  let xh := of_model h ++ hx in
  (forall k t, In (G_SEC, k, t) d -> exists x xs, role_exec (fresh_manager t) (section_calls k xh) = Val (x, xs) /\
     forall ord us, good_order ord -> CA k us ->
       exists a b ds x' r, us = a :: b :: ds /\ i_Has ord x a b ds = Val (x', r) /\ (r = true <-> CT k us)) ->
  (forall g us, ~ is_group d g -> CA g us ->
     exists fg v, mget g (e_builtins E) = Some fg /\ fg (map VStr us) = Val (inl (VBool v)) /\ (v = true <-> CT g us)) ->
    exists m rs, xexec E (NewModel E) xh = Val (m, rs) /\
      forall mk rk pk rt pt f, logical E d R mk rk pk rt pt f ->
      forall o ps vals, good_orders o -> uses_matcher mk ps -> uses_request rk ps ->
        vals_of ps = map VStr vals -> List.length vals = List.length (named_columns rt) ->
        answer_by CA (model_calls xh) rt pk pt f vals ->
        (forall t, In t (last_tests f) -> ~ test_by CT rt pt vals (repeat ""%string (List.length (named_columns pt))) t) ->
        let e := effect_in_force (model_calls xh) ps in
        let says := says_by CT (model_calls xh) rt pk pt f vals in
        (exists ms, Filter E o m ps = Val (m, (ms, None)) /\
           forall x, In x ms <-> present (model_calls xh) x /\ exists r, x = pk :: r /\ satisfies_by CT rt pt f vals r) /\
        (spells e "some(where (p.eft == allow))" ->
           exists b, Enforce E o m ps = Val (m, (b, None)) /\ (b = true <-> says Allow)) /\
        (spells e "!some(where (p.eft == deny))" ->
           exists b, Enforce E o m ps = Val (m, (b, None)) /\ (b = true <-> ~ says Deny)) /\
        (spells e "some(where (p.eft == allow)) && !some(where (p.eft == deny))" -> ~ says Indeterminate ->
           exists b, Enforce E o m ps = Val (m, (b, None)) /\ (b = true <-> says Allow /\ ~ says Deny)).
Proof.
  intros W U Ah G Dx Gx xh Se Fe.
  assert (EM : model_calls xh = h ++ model_calls hx) by (unfold xh; now rewrite model_calls_app, model_calls_of).
  assert (Fc : Forall (fun x => file_call d (snd x)) (model_calls hx)).
  { apply Forall_forall. intros [o c] Hi. unfold model_calls in Hi. apply in_flat_map in Hi as [[o' y] [Hi Hc]]. destruct y as [c'|]; [|destruct Hc]. destruct Hc as [Hc|[]]. injection Hc as <- <-.
    exact (proj1 (Forall_forall _ _) Dx _ Hi). }
  assert (Gh : good_m (h ++ model_calls hx)).
  { apply Forall_app. split; [exact G|]. apply Forall_forall. intros [o c] Hi. unfold model_calls in Hi. apply in_flat_map in Hi as [[o' y] [Hi Hc]]. destruct y as [c'|]; [|destruct Hc]. destruct Hc as [Hc|[]]. injection Hc as <- <-.
    exact (proj1 (Forall_forall _ _) Gx _ Hi). }
  pose proof (file_longer d h _ Ah Fc) as Af.
  destruct (C87_each_matcher_decides_partial E d R _ W U Af Gh) as (mf & rsf & Hmf & _).
  pose proof Hmf as Hsplit. apply mexec_app in Hsplit as (m0 & rs0 & rs1 & H0 & H1 & _).
  destruct (file_roles_at E d R h m0 rs0 W U Ah G H0) as (ix & rx & Ra & Rm).
  destruct (twin_run E d ix rx (proj2 W) hx m0 (md_rms m0) mf rs1 Ra Dx H1) as (X & ys & Hx & Rf & Mg).
  { intros k t Hk. destruct (Rm k t Hk) as (x & xs & cl & A & B & C). destruct (Se k t Hk) as (y & zs & S & _). unfold xh in S.
    rewrite section_app, (section_hist d h k t cl W Ah Hk B), role_exec_app, role_exec_RC, C in S. cbn [obind fst snd] in S.
    destruct (role_exec x (section_calls k hx)) as [[y1 ys1]|] eqn:Ex; cbn [obind fst snd] in S; [|discriminate]. exists x, y1, ys1. auto. }
  assert (E0 : set_rms m0 (md_rms m0) = m0) by now destruct m0. rewrite E0 in Hx.
  exists (set_rms mf X). eexists. split; [exact (xexec_app E _ _ _ _ _ _ _ (xexec_model E h _ _ _ H0) Hx)|].
  intros mk rk pk rt pt f C o ps vals Go Um Ur Vp Lv Ca Last eff says.
  destruct (lg_matcher _ _ _ _ _ _ _ _ _ C) as [mt Im]. pose proof (lg_reading _ _ _ _ _ _ _ _ _ C) as ER.
  pose proof (lg_request _ _ _ _ _ _ _ _ _ C) as Ir. pose proof (lg_policy _ _ _ _ _ _ _ _ _ C) as Ip.
  set (F := functions o (set_rms mf X)).
  pose proof (fns_exec _ _ _ _ Hmf) as Fns.
  assert (Grp : forall g, is_group d g \/ ~ is_group d g).
  { intros g. unfold is_group. clear. induction d as [|[[s k] t] d' IH]; [right; intros [gt []]|].
    destruct IH as [[gt H]|H]; [left; exists gt; now right|].
    assert (Sd : {s = G_SEC} + {s <> G_SEC}) by decide equality. destruct Sd as [->|Hs]; [destruct (string_dec k g) as [->|Hk]|].
    - left. exists t. now left.
    - right. intros [gt [X|X]]; [congruence|]. apply H. now exists gt.
    - right. intros [gt [X|X]]; [congruence|]. apply H. now exists gt. }
  assert (Fn : forall g us, CA g us -> exists fg v, F g = Some fg /\ fg (map VStr us) = Val (inl (VBool v)) /\ (v = true <-> CT g us)).
  { intros g us Hca. destruct (Grp g) as [[gt Hg]|Hn].
    - destruct (Mg g gt Hg) as (x & y & zs & P & Q & S). destruct (Se g gt Hg) as (y' & zs' & S' & An).
      destruct (Rm g gt Hg) as (x0 & xs & cl & A & B & D). unfold xh in S'.
      rewrite section_app, (section_hist d h g gt cl W Ah Hg B), role_exec_app, role_exec_RC, D in S'. cbn [obind fst snd] in S'. rewrite P in A. injection A as <-. rewrite Q in S'. cbn [obind fst snd] in S'. injection S' as <- _.
      destruct (An (o_names o) us (proj1 Go) Hca) as (a & b & ds & y2 & r & -> & Hr & Hi).
      exists (GenerateGFunction (o_names o) y), r. split; [|split; [|exact Hi]].
      + unfold F, functions. cbn [md_fm md_rms set_rms]. specialize (Fns g). rewrite (file_role E d _ g gt W Af Hg) in Fns. destruct Fns as (i & rm & ls & F1 & F2 & F3). rewrite F3.
        destruct (ra_r _ _ _ _ Rf g gt Hg) as [I1 I2]. rewrite F1 in I1. injection I1 as ->. rewrite F2 in I2. injection I2 as -> _. now rewrite S.
      + unfold GenerateGFunction. cbn [map as_strings]. assert (As : forall l, as_strings (map VStr l) = Some l) by (clear; induction l as [|s l IH]; [reflexivity|cbn; now rewrite IH]).
        rewrite As. cbn [option_map]. rewrite Hr. reflexivity.
    - destruct (Fe g us Hn Hca) as (fg & v & Hf & Hv & Hi). exists fg, v. split; [|split; [exact Hv|exact Hi]].
      specialize (Fns g). rewrite (file_fn E d _ g Af Hn), Hf in Fns. cbn in Fns. unfold F, functions. cbn [md_fm set_rms]. rewrite Fns. reflexivity. }
  unfold eff, says. clear eff says. rewrite EM in *.
  destruct (logic_by E d R (h ++ model_calls hx) F CT CA mk rk pk rt pt f vals W Af C Lv Fn Ca Last) as (An & Me & Hc).
  destruct (file_named E d R _ mf rsf mk mt rk rt W U Af Gh Hmf Im Ir) as (Nm & Nr & (j & Hj) & (rd & Hrd)).
  set (E2 := env_with E F).
  destruct (query_twin E o mf X mk rk j rd ps Nm Nr Hj Hrd Um Ur) as [QF QE]. fold F in QF, QE. fold E2 in QF, QE.
  assert (U2 : readings E2 d R).
  { intros k t Hk. destruct (U k t Hk) as [[a1 a2 a3 a4 a5 a6 a7 a8 a9] Hp]. split; [|exact Hp]. constructor; assumption. }
  destruct (C87_each_matcher_decides_partial E2 d R _ W U2 Af Gh) as (mf' & rsf' & Hmf' & D).
  unfold E2 in Hmf'. rewrite mexec_env in Hmf'. change (NewModel (env_with E F)) with (NewModel E) in Hmf'. rewrite Hmf in Hmf'. injection Hmf' as <- <-.
  specialize (D mk mt pt rk rt o ps Im). rewrite ER in D. cbn [fst snd] in D. specialize (D Ip Ir Um Ur Go). cbv zeta in D. rewrite Vp in D.
  destruct (D An) as ((ms & HF & Hms) & D1 & D2 & D3). clear D.
  change (hit E2 pk (NewPolicyDef pk pt) (NewRequestDef rk rt) (as_form rk pk f) (functions o mf)) with (hit E pk (NewPolicyDef pk pt) (NewRequestDef rk rt) (as_form rk pk f) F) in D1, D2, D3.
  split; [|split; [|split]].
  - exists ms. split; [exact (QF _ HF)|]. intros x. rewrite Hms. split.
    + intros [r [-> [Hp Ht]]]. split; [exact Hp|]. exists r. split; [reflexivity|]. now apply (Me r Hp).
    + intros [Hp (r & -> & Ht)]. exists r. split; [reflexivity|]. split; [exact Hp|]. now apply (Me r Hp).
  - intros Sp. destruct (D1 Sp) as [b [HE Hb]]. exists b. split; [exact (QE _ HE)|]. now rewrite Hb, Hc.
  - intros Sp. destruct (D2 Sp) as [b [HE Hb]]. exists b. split; [exact (QE _ HE)|]. now rewrite Hb, Hc.
  - intros Sp Hi. rewrite <- Hc in Hi. destruct (D3 Sp Hi) as [b [HE Hb]]. exists b. split; [exact (QE _ HE)|]. now rewrite Hb, !Hc.
Qed.

(** ** C98

    Every file and every history of rules, after which the role managers of the
    model are also used directly, in any order with further rules: links are
    added and deleted past the model, and matchers are set and changed on the
    managers of sections with two places.  Filter reports exactly the present rules for
    which the formula is true, and Enforce answers by their effects, where a call of
    a grouping section means: joined by the links and patterns the section has
    now, whichever way they came. *)
Theorem C98_direct_access_partial :
  forall E d R h hx, well_formed d -> readings E d R -> file_history d h -> good_m h ->
    Forall (fun x => direct_call d (snd x)) hx -> good_x hx -> names_fit d (of_model h ++ hx) ->
    let xh := of_model h ++ hx in let CT := call_holds E d xh in
    exists m rs, xexec E (NewModel E) xh = Val (m, rs) /\
      forall mk rk pk rt pt f, logical E d R mk rk pk rt pt f ->
      forall o ps vals, good_orders o -> uses_matcher mk ps -> uses_request rk ps ->
        vals_of ps = map VStr vals -> List.length vals = List.length (named_columns rt) ->
        answer_by (call_defined E d xh) (model_calls xh) rt pk pt f vals ->
        (forall t, In t (last_tests f) -> ~ test_by CT rt pt vals (repeat ""%string (List.length (named_columns pt))) t) ->
        let e := effect_in_force (model_calls xh) ps in
        let says := says_by CT (model_calls xh) rt pk pt f vals in
        (exists ms, Filter E o m ps = Val (m, (ms, None)) /\
           forall x, In x ms <-> present (model_calls xh) x /\ exists r, x = pk :: r /\ satisfies_by CT rt pt f vals r) /\
        (spells e "some(where (p.eft == allow))" ->
           exists b, Enforce E o m ps = Val (m, (b, None)) /\ (b = true <-> says Allow)) /\
        (spells e "!some(where (p.eft == deny))" ->
           exists b, Enforce E o m ps = Val (m, (b, None)) /\ (b = true <-> ~ says Deny)) /\
        (spells e "some(where (p.eft == allow)) && !some(where (p.eft == deny))" -> ~ says Indeterminate ->
           exists b, Enforce E o m ps = Val (m, (b, None)) /\ (b = true <-> says Allow /\ ~ says Deny)).
Proof.
  intros E d R h hx W U Ah G Dx Gx Nf xh CT. apply direct_by; auto.
  - eapply Forall_impl; [|exact Dx]. intros [o [c|k c]] Hx; cbn in *; [exact Hx|]. destruct Hx as [t [Hk _]]. now exists t.
  - intros k t Hk. destruct (section_managed d h hx k t W Ah G Dx Gx Nf Hk) as (x & xs & S & An). exists x, xs. split; [exact S|].
    intros ord us Ho [(gt & a & b & ds & Hg & -> & Hu)|(Hn & _)]; [|exfalso; apply Hn; now exists t].
    assert (Gs : forall gt', In (G_SEC, k, gt') d -> gt' = t).
    { intros gt' Hg'. apply (defs_in G_SEC k d (proj2 W) (proj1 W)) in Hk, Hg'. congruence. }
    rewrite (Gs gt Hg) in Hu. destruct (An ord a b ds Ho Hu) as (x' & r & Hr & Hi). exists a, b, ds, x', r. split; [reflexivity|]. split; [exact Hr|].
    rewrite Hi. unfold CT, call_holds. split; [intros Y; left; exists t, a, b, ds; auto|]. intros [(gt' & a' & b' & ds' & Hg' & Y & Z)|(Y & _)].
    + injection Y as <- <- <-. rewrite (Gs gt' Hg') in Z. exact Z.
    + exfalso. apply Y. now exists t.
  - intros g us Hn [(gt & a & b & ds & Hg & _)|(_ & fg & v & Hf & Hv)]; [exfalso; apply Hn; now exists gt|].
    exists fg, v. split; [exact Hf|]. split; [exact Hv|]. unfold CT, call_holds. split.
    + intros ->. right. split; [exact Hn|]. exists fg. auto.
    + intros [(gt & a & b & ds & Hg & _)|(_ & fg' & Hf' & Hv')]; [exfalso; apply Hn; now exists gt|]. rewrite Hf in Hf'. injection Hf' as <-. congruence.
Qed.
Print Assumptions C98_direct_access_partial.

(** The hypotheses are met by a library whose books and pens are grouped by path:
    the path matcher is set on section g2 after rules were loaded
    (example_matcher_test.go:61-67), the manager of section g is told of a link and
    loses one, and rules go on coming through the model. *)
Definition lib_text : string := "g(r.sub, p.sub) && g2(r.obj, p.obj) && r.act == p.act".
Definition lib_defs : deflist :=
  [(R_SEC, "r", "sub, obj, act"); (P_SEC, "p", "sub, obj, act"); (G_SEC, "g", "_, _"); (G_SEC, "g2", "_, _");
   (E_SEC, "e", "some(where (p.eft == allow))"); (M_SEC, "m", lib_text)]%string.
Definition lib_form : mform :=
  MAnd (MAnd (MTest (Call "g" [TReq "sub"; TPol "sub"])) (MTest (Call "g2" [TReq "obj"; TPol "obj"]))) (MTest (Equal (TReq "act") (TPol "act"))).
Definition lib_env (L : lib) : env := one_env ["g"; "g2"]%string lib_text (as_form "r" "p" lib_form) L.
Lemma lib_wf : well_formed lib_defs.
Proof.
  split; [repeat (apply NoDup_cons; [cbn; intuition discriminate|]); apply NoDup_nil|].
  intros s k t H. repeat (destruct H as [H|H]; [injection H as <- <- <-; eexists; split; reflexivity|]). destruct H.
Qed.
Lemma lib_reads L : readings (lib_env L) lib_defs (over_p lib_form).
Proof.
  intros mk t H. repeat (destruct H as [H|H]; [first [discriminate H|injection H as <- <-]|]); [|destruct H]. split; [|eexists; cbn; tauto].
  apply one_reads; try reflexivity; [atom_tac|repeat split| |plain_tac].
  intros k [<-|[<-|[]]]; left; eexists; cbn; tauto.
Qed.
Lemma lib_logical L : logical (lib_env L) lib_defs (over_p lib_form) "m" "r" "p" "sub, obj, act" "sub, obj, act" lib_form.
Proof.
  constructor; [eexists; cbn; tauto|reflexivity|cbn; tauto|cbn; tauto|apply distinct_columns; reflexivity|apply distinct_columns; reflexivity|terms_tac|columns_tac|].
  assert (C : forall F : string -> option gofn, e_eval (lib_env L) F = mini (flat_map (fun k => match F k with Some f => [(k, f)] | None => [] end) ["g"; "g2"]%string)) by reflexivity.
  apply Forall_cons; [|apply Forall_cons; [|apply Forall_cons; [eq_tac|apply Forall_nil]]];
    (intros F Hf; specialize (Hf _ _ eq_refl); rewrite C; cbn [flat_map]; destruct (F "g"%string) eqn:E1, (F "g2"%string) eqn:E2; try contradiction; call_of_tac).
Qed.
Definition lib_l1 : list mcall :=
  [CAdd ["p"; "reader"; "books"; "GET"]; CAdd ["p"; "writer"; "pens"; "GET"]; CAdd ["g2"; "/book/:id"; "books"]; CAdd ["g"; "alice"; "reader"]]%string.
Definition lib_h : list (orders * mcall) := after lib_defs lib_l1 [].
Definition lib_hx : xhistory :=
  [(ex_rev, XRole "g2" (RCSetMatcher (Some PathMatcher))); (ex_o, XRole "g" (RC (DAdd "bob" "writer" []))); (ex_o, XM (CAdd ["g2"; "/pen/:id"; "pens"]));
   (ex_rev, XRole "g" (RC (DDel "alice" "reader" []))); (ex_o, XM (CAdd ["g"; "carol"; "reader"]))]%string.
Definition lib_x : xhistory := of_model lib_h ++ lib_hx.
Definition xask (E : env) (h : xhistory) (vals : list string) : outcome (bool * option goerr) :=
  let! (m, _) := xexec E (NewModel E) h in let! (_, r) := Enforce E ex_rev m (map (fun v => PVal (VStr v)) vals) in Val r.
Lemma lib_names : names_fit lib_defs lib_x.
Proof.
  intros k t H _ [mm M]. repeat (destruct H as [H|H]; [first [discriminate H|injection H as <- <-]|]); [| |destruct H].
  - exfalso. vm_compute in M. intuition discriminate.
  - intros n Hn. vm_compute in Hn. repeat (destruct Hn as [<-|Hn]; [reflexivity|]). destruct Hn.
Qed.
(** The roles of section g2 are ordinary names, so every request without dollar
    signs whose object is an ordinary name has what the theorem asks for. *)
Lemma lib_calls : pcalls (section_calls "g2" lib_x) =
  [(o_names ex_rev, PCall (RAdd "/book/:id" "books" [])); (o_names ex_rev, PSet (Some PathMatcher)); (o_names ex_o, PCall (RAdd "/pen/:id" "pens" []))]%string.
Proof. reflexivity. Qed.
Lemma lib_roles : roles_ordinary (Some PathMatcher) (plinks_of (pcalls (section_calls "g2" lib_x))).
Proof.
  rewrite lib_calls. intros u v Hl. assert (Hv : v = "books"%string \/ v = "pens"%string).
  { revert Hl. unfold plinks_of. cbn. unfold link_add, no_links. destruct (String.eqb_spec v "pens"), (String.eqb_spec v "books"); auto. rewrite ?andb_false_r. discriminate. }
  destruct Hv as [-> | ->]; reflexivity.
Qed.
Lemma lib_answers L s ob a : plain ob -> IsPathPattern ob = false -> a <> ""%string ->
  answer_by (call_defined (lib_env L) lib_defs lib_x) (model_calls lib_x) "sub, obj, act" "p" "sub, obj, act" lib_form [s; ob; a] /\
  (forall t, In t (last_tests lib_form) ->
     ~ test_by (call_holds (lib_env L) lib_defs lib_x) "sub, obj, act" "sub, obj, act" [s; ob; a] (repeat ""%string (List.length (named_columns "sub, obj, act"))) t).
Proof.
  intros Ho Hp Ha. split.
  - intros r g args us Ht Hr Hu. repeat (destruct Ht as [Ht|Ht]; [first [discriminate Ht|injection Ht as <- <-]|]); [| |destruct Ht]; args_tac; left.
    + eexists _, _, _, _. split; [cbn; tauto|]. split; [reflexivity|]. cbn [Nat.eqb rd_nargs NewRoleDef]. split; [|split].
      * intros [mm M]. exfalso. vm_compute in M. intuition discriminate.
      * exact Logic.I.
      * intros u v _. exact Logic.I.
    + eexists _, _, _, _. split; [cbn; tauto|]. split; [reflexivity|].
      repeat match goal with H : term_value _ _ _ _ _ _ |- _ => destruct H as (? & ? & ?) end.
      match goal with K1 : nth_error _ ?n = Some "obj"%string, K2 : nth_error [s; ob; a] ?n = Some ?z |- _ =>
        assert (z = ob) as -> by (do 3 (destruct n as [|n]; [try discriminate K1; injection K2 as <-; reflexivity|]); destruct n; discriminate K1) end.
      split; [|split; [exact Hp|exact lib_roles]]. intros _. split; [exact Ho|].
      match goal with K2 : nth_error r ?n = Some ?z |- plain ?z => apply nth_error_In in K2; rename K2 into Hz end.
      destruct Hr as [Hr|[-> _]].
      * vm_compute in Hr. repeat (destruct Hr as [Hr|Hr]; [first [discriminate Hr|injection Hr as <-; repeat (destruct Hz as [<-|Hz]; [reflexivity|]); destruct Hz]|]). destruct Hr.
      * repeat (destruct Hz as [<-|Hz]; [reflexivity|]). destruct Hz.
  - intros t [<-|[]] (x & H1 & H2). destruct H2 as (n & _ & H2). assert (x = ""%string) as ->.
    { do 3 (destruct n as [|n]; [injection H2 as <-; reflexivity|]). destruct n; discriminate H2. }
    destruct H1 as (k & H1 & H3). do 3 (destruct k as [|k]; [try discriminate H1; injection H3 as H3; now apply Ha|]). destruct k; discriminate H1.
Qed.
Example C98_ex : forall L,
  well_formed lib_defs /\ readings (lib_env L) lib_defs (over_p lib_form) /\ file_history lib_defs lib_h /\ good_m lib_h /\
  Forall (fun x => direct_call lib_defs (snd x)) lib_hx /\ good_x lib_hx /\ names_fit lib_defs lib_x /\
  logical (lib_env L) lib_defs (over_p lib_form) "m" "r" "p" "sub, obj, act" "sub, obj, act" lib_form /\
  (forall l, uses_matcher "m" (map (fun v => PVal (VStr v)) l) /\ uses_request "r" (map (fun v => PVal (VStr v)) l) /\
     spells (effect_in_force (model_calls lib_x) (map (fun v => PVal (VStr v)) l)) "some(where (p.eft == allow))") /\
  xask (lib_env L) (of_model lib_h) ["alice"; "/book/7"; "GET"]%string = Val (false, None) /\
  xask (lib_env L) (of_model lib_h ++ firstn 1 lib_hx) ["alice"; "/book/7"; "GET"]%string = Val (true, None) /\
  xask (lib_env L) lib_x ["alice"; "/book/7"; "GET"]%string = Val (false, None) /\
  xask (lib_env L) lib_x ["carol"; "/book/7"; "GET"]%string = Val (true, None) /\
  xask (lib_env L) lib_x ["carol"; "/pen/7"; "GET"]%string = Val (false, None) /\
  xask (lib_env L) lib_x ["bob"; "/pen/7"; "GET"]%string = Val (true, None).
Proof.
  intros L. split; [exact lib_wf|]. split; [apply lib_reads|].
  destruct (after_file lib_defs lib_l1 []) as [H1 H2]; [unfold lib_l1; file_tac|apply Forall_nil|].
  split; [exact H1|]. split; [exact H2|]. split.
  { unfold lib_hx. apply Forall_cons; [eexists; split; [cbn; tauto|exact Logic.I]|]. apply Forall_cons; [eexists; split; [cbn; tauto|reflexivity]|].
    apply Forall_cons; [right; eexists _, _, _, _, _; split; [reflexivity|]; split; [cbn; tauto|]; apply Forall_nil|].
    apply Forall_cons; [eexists; split; [cbn; tauto|reflexivity]|].
    apply Forall_cons; [right; eexists _, _, _, _, _; split; [reflexivity|]; split; [cbn; tauto|]; apply Forall_nil|]. apply Forall_nil. }
  split; [unfold good_x, lib_hx; repeat (apply Forall_cons; [first [apply ex_o_good|apply ex_rev_good]|]); apply Forall_nil|].
  split; [exact lib_names|]. split; [apply lib_logical|]. split.
  { intros l. assert (Ol : opts_of (map (fun v => PVal (VStr v)) l) = []) by (rewrite <- (map_map VStr PVal); apply opts_PVal).
    unfold uses_matcher, uses_request, effect_in_force. rewrite Ol.
    split; [split; [constructor|now left]|]. split; [split; [constructor|now left]|]. reflexivity. }
  repeat split; vm_compute; reflexivity.
Qed.

(** That every link a query uses was announced, so that a storage controller or
    anybody else who listens to the model could keep it, is false: a link told to the
    manager is announced by nobody, not even by adding the same rule to the model
    afterwards, which reports that nothing changed. *)
Definition untold_hx : xhistory := [(ex_o, XRole "g" (RC (DAdd "bob" "reader" []))); (ex_o, XM (CAdd ["g"; "bob"; "reader"])); (ex_o, XRole "g2" (RCSetMatcher (Some PathMatcher)))]%string.
Definition events_of (r : mresult + answer) : list mevent := match r with inl r => x_events r | inr _ => [] end.
Theorem C98_untold_refuted :
  forall L, Forall (fun x => direct_call lib_defs (snd x)) untold_hx /\ good_x untold_hx /\
    exists m rs, xexec (lib_env L) (NewModel (lib_env L)) (of_model lib_h ++ untold_hx) = Val (m, rs) /\
      In (inl (mkRes false None [])) rs /\
      Forall (fun r => Forall (fun e => e = MAdded ["g"; "bob"; "reader"]%string -> False) (events_of r)) rs /\
      xask (lib_env L) (of_model lib_h ++ untold_hx) ["bob"; "/book/7"; "GET"]%string = Val (true, None).
Proof.
  intros L. split; [|split].
  - unfold untold_hx. apply Forall_cons; [eexists; split; [cbn; tauto|reflexivity]|].
    apply Forall_cons; [right; eexists _, _, _, _, _; split; [reflexivity|]; split; [cbn; tauto|]; apply Forall_nil|].
    apply Forall_cons; [eexists; split; [cbn; tauto|exact Logic.I]|apply Forall_nil].
  - unfold good_x, untold_hx; repeat (apply Forall_cons; [apply ex_o_good|]); apply Forall_nil.
  - eexists _, _. split; [vm_compute; reflexivity|]. split; [cbn; tauto|]. split; [|vm_compute; reflexivity].
    repeat (apply Forall_cons; [cbn [events_of x_events]; repeat (apply Forall_cons; [discriminate|]); apply Forall_nil|]); apply Forall_nil.
Qed.
Print Assumptions C98_untold_refuted.
