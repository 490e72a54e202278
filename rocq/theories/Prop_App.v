(** Property C75: an application with one policy section decides by the boolean
    meaning of its matcher over the rules present. *)
From Verif Require Import GoBase GoBaseP DefsM DefsP PolicyM PolicySpec PolicyP EffectorM MatcherDefM MatcherDefSpec MatcherDefP MatcherM MatcherSpec MatcherP MatcherP2
  RbacM RbacSpec DomainM DomainSpec EvalM ModelM ModelSpec ModelP ModelP2 ModelP3 ModelP4 ModelP5 ModelP6 EnforcerM EnforcerSpec EnforcerP
  SafeSpec SafeP FunctionsSpec FunctionsP AppSpec.
From Verif Require Import Prop_Effect Prop_Matcher Prop_Model Prop_Enforce Prop_Query Prop_Functions.

Definition f_root (f : form) : stage := Stage "" (ptree f []).

(** ** The tree of a formula *)
Lemma texts_ptree f : forall k e, In e (flat_map (fun c => stage_expr c :: texts c) (ptree f k)) ->
  In e (conds f) \/ In e (flat_map (fun c => stage_expr c :: texts c) k).
Proof.
  induction f as [ts|f IHf g IHg|f IHf g IHg|f IHf]; intros k e; cbn [ptree conds].
  - cbn [flat_map stage_expr texts]. rewrite app_nil_r. cbn [In]. intros [<-|H]; [left; now left|now right].
  - intros H. rewrite in_app_iff. destruct (IHf _ _ H) as [X|X]; [tauto|]. destruct (IHg _ _ X); tauto.
  - rewrite flat_map_app, !in_app_iff. intros [H|H]; [destruct (IHf _ _ H)|destruct (IHg _ _ H)]; tauto.
  - apply IHf.
Qed.
Lemma texts_root f e : In e (texts (f_root f)) -> In e (conds f).
Proof. intros H. cbn [f_root texts] in H. destruct (texts_ptree f [] e H) as [X|[]]. exact X. Qed.
Lemma ways_ptree f : forall k w, In w (flat_map ways (ptree f k)) ->
  exists w1 w2, w = w1 ++ w2 /\ (exists pre e, w1 = pre ++ [e] /\ In e (lasts f)) /\ ((k = [] /\ w2 = []) \/ In w2 (flat_map ways k)).
Proof.
  induction f as [ts|f IHf g IHg|f IHf g IHg|f IHf]; intros k w; cbn [ptree lasts].
  - cbn [flat_map]. rewrite app_nil_r. destruct k as [|s k].
    + cbn [ways]. intros [<-|[]]. exists [tokensToExpr ts], []. split; [reflexivity|]. split; [|auto]. exists [], (tokensToExpr ts). split; [reflexivity|now left].
    + cbn [ways]. intros H. apply in_map_iff in H as [w' [<- H]]. exists [tokensToExpr ts], w'. split; [reflexivity|]. split; [|now right].
      exists [], (tokensToExpr ts). split; [reflexivity|now left].
  - intros H. destruct (IHf _ _ H) as (w1 & w2 & -> & (p1 & e1 & -> & _) & Hw). destruct Hw as [[X _]|Hw]; [now apply ptree_ne in X|].
    destruct (IHg _ _ Hw) as (w3 & w4 & -> & (p2 & e2 & -> & He) & Hk).
    exists ((p1 ++ [e1]) ++ p2 ++ [e2]), w4. split; [now rewrite !app_assoc|]. split; [|exact Hk].
    exists ((p1 ++ [e1]) ++ p2), e2. split; [now rewrite !app_assoc|exact He].
  - rewrite flat_map_app, in_app_iff. intros [H|H]; [destruct (IHf _ _ H) as (w1 & w2 & A & (p1 & e1 & B & C) & D)|destruct (IHg _ _ H) as (w1 & w2 & A & (p1 & e1 & B & C) & D)];
      exists w1, w2; (split; [exact A|]); (split; [|exact D]); exists p1, e1; (split; [exact B|]); apply in_or_app; auto.
  - apply IHf.
Qed.
Lemma ways_root f w e : In (w ++ [e]) (ways_of (f_root f)) -> In e (lasts f).
Proof.
  intros H. destruct (ways_ptree f [] _ H) as (w1 & w2 & E1 & (p & e' & -> & He) & [[_ ->]|[]]). rewrite app_nil_r in E1.
  apply app_inj_tail in E1 as [_ <-]. exact He.
Qed.
Lemma lasts_ptree f : forall k e,
  In e (flat_map (fun c => match stage_children c with [] => [stage_expr c] | _ => lasts_of c end) (ptree f k)) ->
  (k = [] /\ In e (lasts f)) \/ In e (flat_map (fun c => match stage_children c with [] => [stage_expr c] | _ => lasts_of c end) k).
Proof.
  induction f as [ts|f IHf g IHg|f IHf g IHg|f IHf]; intros k e; cbn [ptree lasts].
  - destruct k as [|s k]; cbn [flat_map stage_children stage_expr]; [|rewrite app_nil_r; intros H; right; exact H]. cbn. tauto.
  - intros H. destruct (IHf _ _ H) as [[X _]|X]; [now apply ptree_ne in X|]. now apply IHg.
  - rewrite flat_map_app, !in_app_iff. intros [H|H]; [destruct (IHf _ _ H)|destruct (IHg _ _ H)]; tauto.
  - apply IHf.
Qed.
Lemma lasts_root f e : In e (lasts_of (f_root f)) -> In e (lasts f).
Proof. intros H. destruct (lasts_ptree f [] e H) as [[_ X]|[]]. exact X. Qed.
Lemma args_tree : forall s x, In x (RecursivePolicyArgs s) -> In x (p_args (stage_expr s)) \/ exists e, In e (texts s) /\ In x (p_args e).
Proof.
  fix IH 1. intros [e cs] x. cbn [RecursivePolicyArgs texts stage_expr]. rewrite in_app_iff. intros [H|H]; [now left|]. right.
  revert H. induction cs as [|c cs IHc]; [intros []|]. cbn [flat_map]. rewrite in_app_iff. intros [H|H].
  - destruct (IH c x H) as [X|[e' [X Y]]].
    + exists (stage_expr c). split; [now left|exact X].
    + exists e'. split; [right; apply in_or_app; now left|exact Y].
  - destruct (IHc H) as [e' [X Y]]. exists e'. split; [right; apply in_or_app; now right|exact Y].
Qed.
Lemma f_key E c f : reads_as E c f -> GetPolicyKey (f_root f) = "p"%string.
Proof.
  intros R. unfold GetPolicyKey. destruct (RecursivePolicyArgs (f_root f)) as [|a l] eqn:Ea; [reflexivity|].
  assert (Ha : In a (RecursivePolicyArgs (f_root f))) by (rewrite Ea; now left).
  destruct (args_tree _ _ Ha) as [X|[e [X Y]]]; [destruct X|].
  destruct (ra_section E c f R e a (texts_root f e X) Y) as [y ->]. reflexivity.
Qed.
Lemma f_build E c f fns : reads_as E c f -> (cf_g c <> None -> In "g"%string fns) -> (forall k, In k (mkeys (e_builtins E)) -> In k fns) ->
  Build (e_grow E) (e_parse E fns) (cf_m c) = inl (f_root f).
Proof.
  intros R Hg Hb. unfold Build. rewrite (ra_tokens E c f R fns Hg Hb).
  destruct (compile_faithful (e_grow E) f (conj (ra_atoms E c f R) (ra_parsed E c f R)) (ra_faithful E c f R)) as [h ->]. reflexivity.
Qed.
Lemma f_two E c f : reads_as E c f -> at_most_two E (cf_m c).
Proof.
  intros R fns root. unfold Build. destruct (ra_other E c f R fns) as [-> | ->]; [|discriminate].
  destruct (compile_faithful (e_grow E) f (conj (ra_atoms E c f R) (ra_parsed E c f R)) (ra_faithful E c f R)) as [h ->].
  intros X. injection X as <-. rewrite two_way_narrow. apply R.
Qed.

(** ** Histories *)
Definition fit_ops (c : config) (h : list pop) : Prop := Forall (op_ok (fits c)) h.
Lemma fit_plain c h : fit_ops c h -> plain_ops h.
Proof. apply Forall_impl. intros [r|r|]; cbn; [intros [H _]; exact H|intros [H _]; exact H|exact (fun H => H)]. Qed.
Lemma ap_more c (hr : list (orders * mcall)) : Forall (fun x : orders * mcall => app_call c (snd x)) hr -> forall l,
  exists l', fold_left (p_step "p") (map snd hr) (Some l) = Some (l ++ l') /\ fit_ops c l'.
Proof.
  induction 1 as [|[o x] hr Hc F IH]; intros l; cbn [map fold_left snd].
  - exists []. rewrite app_nil_r. split; [reflexivity|constructor].
  - assert (G : forall op, op_ok (fits c) op -> exists l', fold_left (p_step "p") (map snd hr) (Some (l ++ [op])) = Some (l ++ l') /\ fit_ops c l').
    { intros op Hop. destruct (IH (l ++ [op])) as [l' [A B]]. exists (op :: l'). rewrite A, <- app_assoc. split; [reflexivity|]. now constructor. }
    cbn in Hc. destruct x; try (now destruct Hc); cbn [app_call] in Hc; cbn [p_step].
    + destruct Hc as [[r' [-> Hf]]|[a [b [ds [-> _]]]]]; cbn [of_section]; [|apply IH]. apply G. exact Hf.
    + destruct Hc as [[r' [-> Hf]]|[a [b [ds [-> _]]]]]; cbn [of_section]; [|apply IH]. apply G. exact Hf.
    + destruct Hc as [-> | ->]; cbn; [|apply IH]. now apply G.
Qed.
Lemma ag_more c (hr : list (orders * mcall)) : Forall (fun x : orders * mcall => app_call c (snd x)) hr -> forall x l,
  exists l', fold_left (g_step "g") hr (Some (x, l)) = Some (x, l').
Proof.
  induction 1 as [|[o y] hr Hc F IH]; intros x l; cbn [fold_left]; [eauto|].
  cbn in Hc. destruct y; try (now destruct Hc); cbn [app_call] in Hc; cbn [g_step].
  - destruct Hc as [[r' [-> Hf]]|[a [b [ds [-> _]]]]]; cbn [of_section]; apply IH.
  - destruct Hc as [[r' [-> Hf]]|[a [b [ds [-> _]]]]]; cbn [of_section]; apply IH.
  - destruct Hc as [-> | ->]; cbn; apply IH.
Qed.
Lemma adef_more c (hr : list (orders * mcall)) s k : Forall (fun x : orders * mcall => app_call c (snd x)) hr -> forall acc, fold_left (def_step s k) (map snd hr) acc = acc.
Proof. induction 1 as [|[o x] hr Hc F IH]; intros acc; [reflexivity|]. cbn [map fold_left snd]. cbn in Hc. destruct x; try (now destruct Hc); apply IH. Qed.
Lemma afn_more c (hr : list (orders * mcall)) k : Forall (fun x : orders * mcall => app_call c (snd x)) hr -> forall acc, fold_left (fn_step k) (map snd hr) acc = acc.
Proof. induction 1 as [|[o x] hr Hc F IH]; intros acc; [reflexivity|]. cbn [map fold_left snd]. cbn in Hc. destruct x; try (now destruct Hc); apply IH. Qed.
Lemma app_tame_call c x : app_call c x -> tame_call x.
Proof.
  destruct x; cbn [app_call tame_call]; try tauto.
  - intros [[r' [-> [Hf _]]]|[a [b [ds [-> [_ Hu]]]]]]; cbn; (split; [|intros X; try discriminate X; assumption]); intros X; try discriminate X; exact Hf.
  - intros [[r' [-> [Hf _]]]|[a [b [ds [-> [_ Hu]]]]]]; cbn; (split; [|intros X; try discriminate X; assumption]); intros X; try discriminate X; exact Hf.
Qed.
Lemma app_calm_call E c x : app_call c x -> calm_call E x.
Proof.
  destruct x; cbn [app_call calm_call]; try tauto.
  - intros [[r' [-> _]]|[a [b [ds [-> _]]]]]; cbn; (split; [discriminate|]); intros X; try discriminate X; lia.
  - intros [[r' [-> _]]|[a [b [ds [-> _]]]]]; cbn; (split; [discriminate|]); intros X; try discriminate X; lia.
Qed.

Section Run.
  Variables (E : env) (c : config) (f : form) (hd hr1 hr2 : list (orders * mcall)) (ob : orders).
  Hypothesis U : reads_as E c f.
  Hypothesis Hd : map snd hd = config_defs c.
  Hypothesis H1 : Forall (fun x => app_call c (snd x)) hr1.
  Hypothesis H2 : Forall (fun x => app_call c (snd x)) hr2.
  Let ha := hd ++ hr1.
  Let h := hd ++ hr1 ++ (ob, CBuild) :: hr2.

  Lemma ah_eq : h = ha ++ (ob, CBuild) :: hr2.
  Proof. unfold h, ha. now rewrite <- app_assoc. Qed.
  Lemma ahd_calls P : Forall P (config_defs c) -> Forall (fun x => P (snd x)) hd.
  Proof. rewrite <- Hd, Forall_map. auto. Qed.
  Lemma a_tame : tame h.
  Proof.
    unfold tame, h. apply Forall_app. split; [|apply Forall_app; split; [|constructor; [exact Logic.I|]]].
    - apply ahd_calls. unfold config_defs. destruct (cf_g c); repeat constructor.
    - eapply Forall_impl; [|exact H1]. intros x. apply app_tame_call.
    - eapply Forall_impl; [|exact H2]. intros x. apply app_tame_call.
  Qed.
  Lemma a_calm : calm E h.
  Proof.
    unfold calm, h. apply Forall_app. split; [|apply Forall_app; split; [|constructor; [exact Logic.I|]]].
    - apply ahd_calls. unfold config_defs.
      destruct (cf_g c); cbn [app]; repeat (apply Forall_cons; [split; [discriminate|try discriminate; intros _; now apply (f_two E c f)]|]); apply Forall_nil.
    - eapply Forall_impl; [|exact H1]. intros x. apply app_calm_call.
    - eapply Forall_impl; [|exact H2]. intros x. apply app_calm_call.
  Qed.
  Lemma a_def s k : def_text s k ha = fold_left (def_step s k) (config_defs c) None.
  Proof. unfold def_text, ha. rewrite map_app, fold_left_app, Hd. eapply adef_more; eauto. Qed.
  Lemma a_def' s k : def_text s k h = fold_left (def_step s k) (config_defs c) None.
  Proof.
    rewrite ah_eq. unfold def_text. rewrite map_app, fold_left_app. cbn [map snd fold_left def_step]. rewrite (adef_more c) by exact H2. apply a_def.
  Qed.
  Lemma a_fn k : fn_source E k ha = fold_left (fn_step k) (config_defs c) (option_map FUser (mget k (e_builtins E))).
  Proof. unfold fn_source, ha. rewrite map_app, fold_left_app, Hd. eapply afn_more; eauto. Qed.
  Lemma a_fn' k : fn_source E k h = fold_left (fn_step k) (config_defs c) (option_map FUser (mget k (e_builtins E))).
  Proof.
    rewrite ah_eq. unfold fn_source. rewrite map_app, fold_left_app. cbn [map snd fold_left fn_step]. rewrite (afn_more c) by exact H2. apply a_fn.
  Qed.
  Lemma a_phist : exists h1 h2, p_history "p" ha = Some h1 /\ h2 = p_calls "p" hr2 /\ fit_ops c h1 /\ fit_ops c h2.
  Proof.
    destruct (ap_more c hr1 H1 []) as [h1 [A1 B1]]. destruct (ap_more c hr2 H2 []) as [h2 [A2 B2]]. exists h1, h2.
    split; [|split; [unfold p_calls; now rewrite A2|auto]]. unfold p_history, ha. rewrite map_app, fold_left_app, Hd.
    unfold config_defs. destruct (cf_g c); exact A1.
  Qed.

  Lemma a_run : good_m h -> exists m1 rs1 m2 x m rs,
    mexec E (NewModel E) ha = Val (m1, rs1) /\ mstep E ob m1 CBuild = Val (m2, x) /\ x_err x = None /\
    Build (e_grow E) (e_parse E (mkeys (md_fm m1))) (cf_m c) = inl (f_root f) /\ mexec E (NewModel E) h = Val (m, rs).
  Proof.
    intros G. destruct (run_total E h G a_calm) as [m [rs [Hm _]]].
    pose proof Hm as Hm'. rewrite ah_eq in Hm'. apply mexec_app in Hm' as [m1 [rs1 [rs2 [Ha [Hb _]]]]].
    cbn [mexec] in Hb. apply obind_val in Hb as [[m2 x] [Hs _]].
    assert (Ga : good_m ha). { rewrite ah_eq in G. apply Forall_app in G. apply G. }
    assert (Gb : good_orders ob). { rewrite ah_eq in G. apply Forall_app in G as [_ G]. exact (Forall_inv G). }
    pose proof (defs_exec _ _ _ _ Ha) as D. pose proof (fns_exec _ _ _ _ Ha) as Fn.
    assert (Reg : forall k, fn_source E k ha <> None -> In k (mkeys (md_fm m1))).
    { intros k Hk. specialize (Fn k). destruct (mget k (md_fm m1)) as [v|] eqn:Ev; [apply mget_In in Ev; apply in_map_iff; exists (k, v); auto|].
      exfalso. destruct (fn_source E k ha) as [[f0|]|]; [discriminate| |congruence]. destruct Fn as [i [rm [ls [_ [_ X]]]]]. discriminate. }
    assert (Eg : cf_g c <> None -> In "g"%string (mkeys (md_fm m1))).
    { intros Hg. apply Reg. rewrite a_fn. unfold config_defs. destruct (cf_g c); [discriminate|congruence]. }
    assert (Ebu : forall k, In k (mkeys (e_builtins E)) -> In k (mkeys (md_fm m1))).
    { intros k Hk. apply Reg. rewrite a_fn. destruct (mget k (e_builtins E)) as [b|] eqn:Eb; [|apply mget_None in Eb; contradiction].
      unfold config_defs. destruct (cf_g c); cbn; [destruct (match k with String _ _ => _ | _ => _ end)|]; try discriminate.
      all: repeat (match goal with |- context [if ?x then _ else _] => destruct x end); discriminate. }
    assert (Eb : Build (e_grow E) (e_parse E (mkeys (md_fm m1))) (cf_m c) = inl (f_root f)) by now apply f_build.
    exists m1, rs1, m2, x, m, rs. split; [exact Ha|]. split; [exact Hs|]. split; [|split; [exact Eb|exact Hm]].
    cbn [mstep] in Hs. apply obind_val in Hs as [[m2' e] [Hs Hx]]. injection Hx as <- <-. cbn [x_err].
    unfold BuildMatchers in Hs.
    assert (Ks : forall k, In k (o_names ob (mkeys (md_m m1))) -> mget k (md_m m1) = Some (cf_m c)).
    { intros k Hk. apply (Permutation_in _ (proj1 Gb _)) in Hk. pose proof (f_keys _ _ D M_SEC k Hk) as Kk.
      pose proof (f_m _ _ D k Kk) as X. rewrite a_def in X.
      destruct (mget k (md_m m1)) as [v|] eqn:Ev.
      - unfold config_defs in X. destruct (cf_g c); cbn [app fold_left def_step sec_eqb andb] in X; (destruct (String.eqb_spec "m" k) as [<-|]; [|discriminate]); exact X.
      - exfalso. apply mget_None in Ev. contradiction. }
    assert (Hp : mget "p" (md_p m1) = Some (cf_pd c)).
    { rewrite (f_p _ _ D) by (exists "p"%char; auto). rewrite a_def. unfold config_defs. destruct (cf_g c); reflexivity. }
    assert (Hpm : exists i, mget "p" (md_pMap m1) = Some i).
    { destruct (reachable_ok E ha m1 rs1 Ga Ha) as [g [V W]]. pose proof (v_phist _ _ _ W "p" eq_refl) as X.
      destruct a_phist as [h1 [h2 [Y _]]]. rewrite Y in X. destruct (mget "p" (md_pMap m1)); [eauto|discriminate]. }
    pose proof (f_key E c f U) as Kf.
    clear - Hs Ks Hp Hpm Eb Kf. revert Ks Hs. generalize (o_names ob (mkeys (md_m m1))) as keys. intros keys Ks.
    assert (Inv : forall keys m, (forall k, In k keys -> mget k (md_m m) = Some (cf_m c)) ->
       mget "p" (md_p m) = Some (cf_pd c) -> (exists i, mget "p" (md_pMap m) = Some i) -> md_fm m = md_fm m1 ->
       forall m2, build_loop E ob m keys = Val (m2, e) -> e = None).
    { clear - Eb Kf. induction keys as [|k keys IH]; intros m Ks Hp Hpm Hf m2 Hs; cbn [build_loop] in Hs; [congruence|].
      apply obind_val in Hs as [[m3 e3] [Hk Hs]]. unfold BuildMatcher in Hk. rewrite (Ks k) in Hk by now left.
      apply obind_val in Hk as [[m4 r] [Hk X]].
      unfold BuildMatcherFromDef in Hk. rewrite Hf, Eb, Kf in Hk.
      cbn [first_byte Ascii.eqb Bool.eqb] in Hk. rewrite Hp in Hk.
      destruct Hpm as [i Hi]. unfold GetPolicy in Hk. rewrite Hi in Hk.
      destruct (nth_error (md_objs m) i) as [obj|]; [|discriminate]. apply obind_val in Hk as [y [_ Hk]]. injection Hk as <- <-.
      injection X as <- <-. eapply IH; [| | | |exact Hs].
      - intros k' Hk2. cbn. apply Ks. now right.
      - exact Hp.
      - cbn. eauto.
      - exact Hf. }
    intros Hs. eapply Inv; [|exact Hp|exact Hpm|reflexivity|exact Hs]. exact Ks.
  Qed.
End Run.

(** ** Rules on record were added *)
Lemma recorded_adds h1 : forall h2 r, recorded h1 h2 r -> In (PAdd r) (h1 ++ h2).
Proof.
  assert (S1 : forall r, set_of h1 r = true -> In (PAdd r) h1).
  { induction h1 as [|o h IH] using rev_ind; intros r; [discriminate|]. unfold set_of. rewrite fold_left_app. cbn [fold_left]. intros H. apply in_or_app.
    destruct o as [r'|r'|]; cbn [set_step] in H; [|left; apply IH|discriminate].
    - unfold set_add in H. destruct (rule_eqb_spec r r') as [<-|]; cbn [orb] in H; [right; now left|]. left. apply IH. exact H.
    - unfold set_remove in H. now apply andb_true_iff in H as [_ H]. }
  induction h2 as [|o h IH] using rev_ind; intros r; [rewrite app_nil_r; apply S1|].
  unfold recorded. rewrite fold_left_app, app_assoc. cbn [fold_left]. intros H. apply in_or_app.
  destruct o as [r'|r'|]; cbn in H; [destruct H as [<-|H]; [right; now left|]| |destruct H]; left; apply IH; exact H.
Qed.
Lemma present_recorded h1 : forall h2 r, set_of (h1 ++ h2) r = true -> recorded h1 h2 r.
Proof.
  induction h2 as [|o h IH] using rev_ind; intros r; [rewrite app_nil_r; auto|].
  unfold recorded. rewrite fold_left_app, app_assoc. unfold set_of. rewrite fold_left_app. cbn [fold_left]. intros H.
  destruct o as [r'|r'|]; cbn [set_step recorded_step] in *; [|apply IH|discriminate].
  - unfold set_add in H. destruct (rule_eqb_spec r r') as [<-|]; cbn [orb] in H; [now left|]. right. apply IH. exact H.
  - unfold set_remove in H. now apply andb_true_iff in H as [_ H].
Qed.
Lemma p_adds r : forall (cs : list mcall) acc ops, fold_left (p_step "p") cs acc = Some ops -> In (PAdd r) ops ->
  (exists l, acc = Some l /\ In (PAdd r) l) \/ In (CAdd ("p"%string :: r)) cs.
Proof.
  induction cs as [|x cs IH]; intros acc ops H Hi; cbn [fold_left] in H; [left; eauto|].
  destruct (IH _ _ H Hi) as [[l [Hl Hin]]|X]; [|right; now right].
  destruct x as [s k t|s k|rl|rl|k| |k|t|k y|k g|k]; cbn [p_step] in Hl; eauto.
  - destruct s; eauto. destruct (String.eqb k "p"); [injection Hl as <-; destruct Hin|eauto].
  - destruct s; eauto. destruct (String.eqb k "p"); [discriminate|eauto].
  - destruct (of_section "p" rl) as [r'|] eqn:Er; [|eauto]. destruct acc as [l0|]; [|discriminate]. injection Hl as <-.
    apply in_app_or in Hin as [X|[X|[]]]; [eauto|]. injection X as ->. right. left.
    destruct rl as [|k rl]; [discriminate|]. cbn in Er. destruct (String.eqb_spec k "p") as [->|]; [now injection Er as ->|discriminate].
  - destruct (of_section "p" rl) as [r'|] eqn:Er; [|eauto]. destruct acc as [l0|]; [|discriminate]. injection Hl as <-.
    apply in_app_or in Hin as [X|[X|[]]]; [eauto|discriminate].
  - destruct (String.eqb k "p"); [|eauto]. destruct acc as [l0|]; [|discriminate]. injection Hl as <-.
    apply in_app_or in Hin as [X|[X|[]]]; [eauto|discriminate].
Qed.

Lemma present_added h r : present h ("p"%string :: r) -> added h r.
Proof.
  intros [[_ [ops [Ho Hr]]]|[X _]]; [|discriminate X].
  assert (Hi : In (PAdd r) ops) by (rewrite <- (app_nil_r ops); now apply recorded_adds).
  destruct (p_adds r _ _ _ Ho Hi) as [[l [X _]]|X]; [discriminate|exact X].
Qed.

(** The usual way to establish [answerable]: the conditions can be evaluated for
    every rule that has a value for every column. *)
Lemma added_fits c h r : app_history c h -> added h r -> fits c r.
Proof.
  intros (hd & hr1 & ob & hr2 & -> & Hd & H1 & H2) Ha. unfold added in Ha. rewrite !map_app, Hd, !in_app_iff in Ha. cbn [map snd In] in Ha.
  assert (X : app_call c (CAdd ("p"%string :: r))).
  { rewrite Forall_forall in H1, H2. destruct Ha as [Ha|[Ha|[Ha|Ha]]]; [|apply in_map_iff in Ha as [x [<- Hx]]; now apply H1|discriminate|apply in_map_iff in Ha as [x [<- Hx]]; now apply H2].
    exfalso. unfold config_defs in Ha. destruct (cf_g c); cbn in Ha; intuition discriminate. }
  destruct X as [[r' [X Hf]]|[a [b [ds [X _]]]]]; [injection X as ->; exact Hf|discriminate].
Qed.
Lemma answerable_plain E c f F h vs : app_history c h ->
  (forall e, In e (conds f) -> reads_only_named (e_eval E F) e /\
     forall r, List.length r = List.length (ad_args (cf_pd c)) ->
       has_values (cf_pd c) e r /\ evaluates (e_eval E F) (cf_pd c) (cf_rd c) vs e r) ->
  (forall e, In e (lasts f) -> holds (e_eval E F) (cf_pd c) (cf_rd c) vs e (blank (cf_pd c)) = false) ->
  answerable E c f F h vs.
Proof.
  intros Ah H L. split; [|exact L]. intros e He. destruct (H e He) as [RO HV].
  assert (Hr : forall r, added h r -> List.length r = List.length (ad_args (cf_pd c))) by (intros r X; now apply (added_fits c h r Ah)).
  split; [intros r X; now apply HV, Hr|]. split; [apply named_own; [intros r X; now apply HV, Hr|exact RO]|].
  intros _. apply HV, repeat_length.
Qed.

(** ** From the reported rules to the decision *)
Lemma query_decides E h m o ps root pd rd h1 h2 ms : query E h m o ps root pd rd h1 h2 -> Filter E o m ps = Val (m, (ms, None)) ->
  Enforce E o m ps = obind (decision (effect_in_force h ps) pd ms None) (fun r => Val (m, r)).
Proof.
  intros [G Go [rs H] (mk & pt & rk & rt & S & Um & Hpd & Ur & Kr & Hr & Hrd) Hn Ap] HF.
  destruct (query_in_service E h m rs mk root pt h1 h2 rk rt o ps G H S Um Ur Kr Hr) as [y [L [HF' HE]]].
  rewrite HF' in HF. apply obind_val in HF as [[l e] [HR HF]]. injection HF as HF1 HF2. cbn in HF1, HF2. subst e ms.
  specialize (HE l None HR). rewrite <- Hpd in HE. exact HE.
Qed.

(** ** What a request to an application is answered from *)
Lemma vals_PVal (vs : list value) : vals_of (map PVal vs) = vs.
Proof. induction vs as [|v vs IH]; [reflexivity|]. cbn. now f_equal. Qed.
Lemma opts_PVal (vs : list value) : opts_of (map PVal vs) = [].
Proof. induction vs as [|v vs IH]; [reflexivity|exact IH]. Qed.
Lemma app_query E c f h : reads_as E c f -> app_history c h -> good_m h ->
  exists m rs h1 h2, mexec E (NewModel E) h = Val (m, rs) /\ p_history "p" h = Some (h1 ++ h2) /\ (forall r, recorded h1 h2 r -> added h r) /\
    forall o vs, good_orders o -> query E h m o (map PVal vs) (f_root f) (cf_pd c) (cf_rd c) h1 h2 /\ effect_in_force h (map PVal vs) = cf_e c.
Proof.
  intros U (hd & hr1 & ob & hr2 & -> & Hd & H1 & H2) G.
  destruct (a_run E c f hd hr1 hr2 ob U Hd H1 H2 G) as (m1 & rs1 & m2 & x & m & rs & Ra & Rb & Rx & Eb & Rm).
  pose proof (fun s k => a_def' c hd hr1 hr2 ob Hd H1 H2 s k) as Df.
  destruct (a_phist c hd hr1 hr2 Hd H1 H2) as (h1 & h2 & P1 & P2 & F1 & F2).
  assert (Dh : def_text M_SEC "m" (hd ++ hr1) = Some (cf_m c)) by (rewrite (a_def c hd hr1 Hd H1); unfold config_defs; destruct (cf_g c); reflexivity).
  assert (Dp : def_text P_SEC "p" (hd ++ hr1) = Some (cf_p c)) by (rewrite (a_def c hd hr1 Hd H1); unfold config_defs; destruct (cf_g c); reflexivity).
  assert (EQ : hd ++ hr1 ++ (ob, CBuild) :: hr2 = (hd ++ hr1) ++ (ob, CBuild) :: hr2) by now rewrite <- app_assoc.
  set (h := hd ++ hr1 ++ (ob, CBuild) :: hr2) in *. exists m, rs, h1, h2. split; [exact Rm|]. pose proof (f_key E c f U) as Kf.
  assert (Ph : p_history "p" h = Some (h1 ++ h2)).
  { rewrite EQ. replace ((hd ++ hr1) ++ (ob, CBuild) :: hr2) with (((hd ++ hr1) ++ [(ob, CBuild)]) ++ hr2) by now rewrite <- app_assoc.
    rewrite P2. apply (p_history_more "p" "m"); [|rewrite p_history_snoc; exact P1].
    eapply Forall_impl; [|exact H2]. intros [o0 c0]. cbn [snd]. destruct c0; cbn; tauto. }
  assert (Rc : forall r, recorded h1 h2 r -> added h r).
  { intros r Hr. apply recorded_adds in Hr. destruct (p_adds r _ _ _ Ph Hr) as [[l [X _]]|X]; [discriminate|exact X]. }
  split; [exact Ph|]. split; [exact Rc|]. intros o vs Go. set (ps := map PVal vs).
  pose proof (opts_PVal vs : opts_of ps = []) as Op. split.
  { constructor.
    - exact G.
    - exact Go.
    - eauto.
    - exists "m"%string, (cf_p c), "r"%string, (cf_r c). unfold uses_matcher, uses_request. rewrite Op, Kf.
      split; [|split; [split; [apply Forall_nil|now left]|split; [reflexivity|split; [split; [apply Forall_nil|now left]|
        split; [exists "r"%char; auto|split; [rewrite Df; unfold config_defs; destruct (cf_g c); reflexivity|reflexivity]]]]]].
      split; [exists "m"%char; auto|]. rewrite Kf. split; [reflexivity|].
      exists (hd ++ hr1), ob, CBuild, hr2, m1, rs1, m2, x, (cf_m c).
      split; [exact EQ|]. split; [now left|]. split; [exact Ra|]. split; [exact Rb|]. split; [exact Rx|]. split; [exact Dh|].
      split; [exact Eb|]. split; [|split; [exact Dp|split; [exact P1|exact P2]]].
      eapply Forall_impl; [|exact H2]. intros [o0 c0]. cbn [snd]. destruct c0; cbn; tauto.
    - unfold f_root. rewrite two_way_narrow. apply U.
    - apply told_apart_ops; eapply fit_plain; eassumption. }
  unfold effect_in_force. rewrite Op. cbn [fold_left]. unfold effect_named. cbn [first_byte]. rewrite Df. unfold config_defs. destruct (cf_g c); reflexivity.
Qed.
Lemma app_sound E c f h m o vs h1 h2 : (forall r, recorded h1 h2 r -> added h r) -> p_history "p" h = Some (h1 ++ h2) ->
  answerable_conds E c f (functions o m) h vs -> sound E o m (map PVal vs) (cf_pd c) (cf_rd c) (f_root f) h1 h2.
Proof.
  intros Rc Ph A1. pose proof (vals_PVal vs) as Vp.
  { intros e He. apply texts_root in He. destruct (A1 e He) as [B1 [B2 B3]]. rewrite Vp. split; [|split; [|split]].
    - intros r Hr. now apply B1, Rc.
    - exact (own_values_sub _ _ _ _ _ _ _ Rc B2).
    - intros r Hr. now apply B1, Rc.
    - intros [X|X]; apply B3; [left; now apply lasts_root|right]. intros r [[_ [ops [Ho Hr]]]|[Y _]]; [|discriminate Y].
      rewrite Ph in Ho. injection Ho as <-. apply (X r). now apply present_recorded. }
Qed.

(** ** C75

    Every configuration with one policy section whose matcher is read as the
    formula [f]; every history of rules around the build; every order of map
    visits.  No call panics and the matcher is built.  For every request [vs] whose
    conditions can be evaluated: Filter reports exactly the present rules for which
    the formula is true, and Enforce answers by their effects, for each of the
    three effect definitions. *)
Definition matched (E : env) (c : config) (f : form) (F : string -> option gofn) (h : list (orders * mcall)) (vs : list value) (e : effect) : Prop :=
  exists r, present h ("p"%string :: r) /\ meaning E c f F vs r = true /\ GetEft (cf_pd c) ("p"%string :: r) = e.

Theorem C75_decides_by_meaning :
  forall E c f h,
    reads_as E c f -> app_history c h -> good_m h ->
    exists m rs, mexec E (NewModel E) h = Val (m, rs) /\
      forall o vs, good_orders o -> let F := functions o m in answerable E c f F h vs ->
        (exists ms, Filter E o m (map PVal vs) = Val (m, (ms, None)) /\
           forall x, In x ms <-> exists r, x = "p"%string :: r /\ present h x /\ meaning E c f F vs r = true) /\
        (spells (cf_e c) "some(where (p.eft == allow))" ->
           exists b, Enforce E o m (map PVal vs) = Val (m, (b, None)) /\ (b = true <-> matched E c f F h vs Allow)) /\
        (spells (cf_e c) "!some(where (p.eft == deny))" ->
           exists b, Enforce E o m (map PVal vs) = Val (m, (b, None)) /\ (b = true <-> ~ matched E c f F h vs Deny)) /\
        (spells (cf_e c) "some(where (p.eft == allow)) && !some(where (p.eft == deny))" -> ~ matched E c f F h vs Indeterminate ->
           exists b, Enforce E o m (map PVal vs) = Val (m, (b, None)) /\
             (b = true <-> matched E c f F h vs Allow /\ ~ matched E c f F h vs Deny)).
Proof.
  intros E c f h U Ah G. destruct (app_query E c f h U Ah G) as (m & rs & h1 & h2 & Rm & Ph & Rc & AQ).
  exists m, rs. split; [exact Rm|]. intros o vs Go Fs [A1 A2]. destruct (AQ o vs Go) as [Q Ef].
  pose proof (vals_PVal vs) as Vp. pose proof (f_key E c f U) as Kf. pose proof (app_sound E c f h m o vs h1 h2 Rc Ph A1) as S.
  set (ps := map PVal vs) in *.
  assert (B : blank_fails E o m ps (cf_pd c) (cf_rd c) (f_root f)).
  { intros w e Hw. rewrite Vp. apply A2. eapply ways_root; eassumption. }
  destruct (C12_filter_partial E h m o ps _ _ _ h1 h2 Q S B) as [ms [HF Hms]]. rewrite Kf in Hms.
  assert (Me : forall r, matches E o m ps (cf_pd c) (cf_rd c) (f_root f) r = meaning E c f Fs vs r).
  { intros r. unfold matches, meaning. rewrite satisfies_accepts, Vp. unfold f_root. cbn [stage_children]. rewrite ptree_sem. cbn. now rewrite andb_true_r. }
  assert (Hm : forall x, In x ms <-> exists r, x = "p"%string :: r /\ present h x /\ meaning E c f Fs vs r = true).
  { intros z. rewrite Hms. split; intros [r [X [Y Z]]]; exists r; [rewrite <- Me|rewrite Me]; auto. }
  pose proof (query_decides _ _ _ _ _ _ _ _ _ _ _ Q HF) as HE.
  rewrite Ef in HE.
  assert (Some_eff : forall e, some_effect (cf_pd c) ms e <-> matched E c f Fs h vs e).
  { intros e. unfold some_effect, matched. split.
    - intros [z [Hz He]]. apply Hm in Hz as [r [-> [Y Z]]]. eauto.
    - intros [r [Y [Z He]]]. exists ("p"%string :: r). split; [apply Hm; eauto|exact He]. }
  split; [eauto|]. split; [|split].
  - intros Sp. destruct (C18_allow_override _ (cf_pd c) ms Sp) as [b [Hb Hi]]. rewrite Hb in HE. exists b. split; [exact HE|]. now rewrite Hi, Some_eff.
  - intros Sp. destruct (C19_deny_override _ (cf_pd c) ms Sp) as [b [Hb Hi]]. rewrite Hb in HE. exists b. split; [exact HE|]. now rewrite Hi, Some_eff.
  - intros Sp Hi0. rewrite <- Some_eff in Hi0. destruct (C20_allow_and_no_deny_partial _ (cf_pd c) ms Sp Hi0) as [b [Hb Hi]]. rewrite Hb in HE.
    exists b. split; [exact HE|]. now rewrite Hi, !Some_eff.
Qed.
Print Assumptions C75_decides_by_meaning.
(** A concrete configuration, history and requests that meet the hypotheses:
    [C75_ex] in Prop_Apps.v (a matcher of two alternatives). *)
