(** Property C87: in a model with several definitions every matcher decides by
    its own meaning over its own section. *)
From Verif Require Import GoBase GoBaseP DefsM DefsP PolicyM PolicySpec PolicyP EffectorM MatcherDefM MatcherDefSpec MatcherDefP MatcherM MatcherSpec MatcherP MatcherP2
  RbacM RbacSpec DomainM DomainSpec EvalM ModelM ModelSpec ModelP ModelP2 ModelP3 ModelP4 ModelP5 ModelP6 EnforcerM EnforcerSpec EnforcerP
  SafeSpec SafeP FunctionsSpec FunctionsP AppSpec MultiSpec.
From Verif Require Import Prop_Effect Prop_Matcher Prop_Model Prop_Enforce Prop_Query Prop_Functions Prop_App.

(** ** Readings *)
Lemma root_key f pk : (forall e x, In e (conds f) -> In x (p_args e) -> exists y, x = (pk ++ "_" ++ y)%string) ->
  pk = "p"%string \/ (exists e x, In e (conds f) /\ In x (p_args e)) -> has_char "_" pk = false -> GetPolicyKey (f_root f) = pk.
Proof.
  intros Rn Rs Rk. unfold GetPolicyKey. destruct (RecursivePolicyArgs (f_root f)) as [|a l] eqn:Ea.
  - destruct Rs as [->|[e [x [He Hx]]]]; [reflexivity|]. exfalso.
    assert (X : In x (RecursivePolicyArgs (f_root f))); [|rewrite Ea in X; destruct X].
    assert (G : forall f k e, In e (conds f) -> In x (p_args e) -> In x (flat_map RecursivePolicyArgs (ptree f k))).
    { clear. induction f as [ts|f IHf g IHg|f IHf g IHg|f IHf]; intros k e; cbn [ptree conds].
      - intros [<-|[]] Hx. cbn [flat_map RecursivePolicyArgs]. rewrite app_nil_r. apply in_or_app. now left.
      - rewrite in_app_iff. intros [H|H] Hx; [eapply IHf; eauto|].
        assert (K : forall f k, In x (flat_map RecursivePolicyArgs k) -> In x (flat_map RecursivePolicyArgs (ptree f k))).
        { clear. induction f as [ts|f IHf g IHg|f IHf g IHg|f IHf]; intros k Hk; cbn [ptree]; auto.
          - cbn [flat_map RecursivePolicyArgs]. rewrite app_nil_r. apply in_or_app. now right.
          - rewrite flat_map_app. apply in_or_app. left. now apply IHf. }
        apply K. eapply IHg; eauto.
      - rewrite flat_map_app, !in_app_iff. intros [H|H] Hx; [left; eapply IHf; eauto|right; eapply IHg; eauto].
      - apply IHf. }
    unfold f_root. cbn [RecursivePolicyArgs]. apply in_or_app. right. exact (G f [] e He Hx).
  - assert (Ha : In a (RecursivePolicyArgs (f_root f))) by (rewrite Ea; now left).
    destruct (args_tree _ _ Ha) as [X|[e [X Y]]]; [destruct X|].
    destruct (Rn e a (texts_root f e X) Y) as [y ->].
    change ("_" ++ y)%string with (String "_" y). now rewrite (split_char_app "_" pk y Rk).
Qed.
Lemma o_key E d t f pk : reads_over E d t f pk -> GetPolicyKey (f_root f) = pk.
Proof. intros R. apply root_key; apply R. Qed.
Lemma o_build E d t f pk fns : reads_over E d t f pk -> (forall k g, In (G_SEC, k, g) d -> In k fns) -> (forall k, In k (mkeys (e_builtins E)) -> In k fns) ->
  Build (e_grow E) (e_parse E fns) t = inl (f_root f).
Proof.
  intros R Hg Hb. unfold Build. rewrite (ro_tokens _ _ _ _ _ R fns Hg Hb).
  destruct (compile_faithful (e_grow E) f (conj (ro_atoms _ _ _ _ _ R) (ro_parsed _ _ _ _ _ R)) (ro_faithful _ _ _ _ _ R)) as [h ->]. reflexivity.
Qed.
Lemma o_two E d t f pk : reads_over E d t f pk -> at_most_two E t.
Proof.
  intros R fns root. unfold Build. destruct (ro_other _ _ _ _ _ R fns) as [-> | ->]; [|discriminate].
  destruct (compile_faithful (e_grow E) f (conj (ro_atoms _ _ _ _ _ R) (ro_parsed _ _ _ _ _ R)) (ro_faithful _ _ _ _ _ R)) as [h ->].
  intros X. injection X as <-. rewrite two_way_narrow. apply R.
Qed.

(** ** Definitions *)
Definition key_byte (d : deflist) : Prop := forall s k t, In (s, k, t) d -> key_of s k.
Lemma sec_eqb_spec a b k : key_of a k -> reflect (a = b) (sec_eqb a b).
Proof. intros Hk. assert (Hc : keyPrefix a <> None) by (destruct Hk as [c [-> _]]; discriminate). destruct a, b; try (now destruct Hc); (apply ReflectT; reflexivity) || (apply ReflectF; discriminate). Qed.
Lemma defs_fold s k : forall (d : deflist) acc, fold_left (def_step s k) (set_all d) acc =
  match fold_left (def_step s k) (set_all d) None with Some t => Some t | None => acc end.
Proof.
  induction d as [|[[s' k'] t] d IH]; intros acc; cbn; [reflexivity|]. fold (set_all d).
  destruct (sec_eqb s' s && String.eqb k' k); [|apply IH]. rewrite (IH (Some t)). now destruct (fold_left _ _ None).
Qed.
Lemma defs_in s k : forall (d : deflist), key_byte d -> NoDup (map fst d) -> forall t, fold_left (def_step s k) (set_all d) None = Some t <-> In (s, k, t) d.
Proof.
  induction d as [|[[s' k'] t'] d IH]; intros K N t; cbn [set_all map fold_left In]; [split; [discriminate|intros []]|].
  cbn [map fst] in N. apply NoDup_cons_iff in N as [N1 N]. cbn [def_step fst snd]. specialize (IH (fun a b e Hi => K a b e (or_intror Hi))). destruct (sec_eqb_spec s' s k' (K _ _ _ (or_introl eq_refl))) as [->|Hs].
  - destruct (String.eqb_spec k' k) as [->|Hk]; cbn [andb].
    + rewrite defs_fold. fold (set_all d). assert (X : fold_left (def_step s k) (set_all d) None = None).
      { pose proof (IH N) as IH'. destruct (fold_left _ (set_all d) None) as [u|]; [|reflexivity]. pose proof (proj1 (IH' u) eq_refl) as Eu. exfalso. apply N1. apply in_map_iff. exists (s, k, u). auto. }
      rewrite X. split; [intros Y; injection Y as ->; now left|]. intros [Y|Y]; [injection Y as ->; reflexivity|].
      exfalso. apply N1. apply in_map_iff. exists (s, k, t). auto.
    + fold (set_all d). rewrite (IH N t). split; [now right|]. intros [Y|Y]; [congruence|exact Y].
  - cbn [andb]. fold (set_all d). rewrite (IH N t). split; [now right|]. intros [Y|Y]; [congruence|exact Y].
Qed.
Lemma fn_keeps k : forall (d : deflist) acc, acc <> None -> fold_left (fn_step k) (set_all d) acc <> None.
Proof.
  induction d as [|[[s k'] t] d IH]; intros acc H; cbn [set_all map fold_left]; [exact H|]. apply IH. cbn [fn_step fst snd].
  destruct s; try exact H. destruct (first_byte k'); [|exact H]. destruct (_ && _); [discriminate|exact H].
Qed.
Lemma fn_role k t : forall (d : deflist) acc, (forall s k t, In (s, k, t) d -> key_of s k) -> In (G_SEC, k, t) d -> fold_left (fn_step k) (set_all d) acc <> None.
Proof.
  induction d as [|[[s k'] t'] d IH]; intros acc K H; [destruct H|]. destruct H as [H|H]; cbn [set_all map fold_left].
  - injection H as -> -> ->. apply fn_keeps. cbn [fn_step fst snd]. destruct (K G_SEC k t (or_introl eq_refl)) as [c [Hc Hk]]. injection Hc as <-.
    rewrite Hk, String.eqb_refl. discriminate.
  - apply IH; [|exact H]. intros a b e Hi. apply (K a b e). now right.
Qed.
Lemma p_defs pk pt : forall (d : deflist) acc, In (P_SEC, pk, pt) d -> fold_left (p_step pk) (set_all d) acc = Some [].
Proof.
  assert (G : forall d acc, acc = Some [] -> fold_left (p_step pk) (set_all d) acc = Some []).
  { induction d as [|[[s k] t] d IH]; intros acc H; cbn [set_all map fold_left]; [exact H|]. apply IH. cbn [p_step fst snd].
    destruct s; try exact H. destruct (String.eqb k pk); [reflexivity|exact H]. }
  induction d as [|[[s k] t] d IH]; intros acc H; [destruct H|]. destruct H as [H|H]; cbn [set_all map fold_left].
  - injection H as -> -> ->. apply G. cbn. now rewrite String.eqb_refl.
  - now apply IH.
Qed.

(** ** Histories *)
Lemma p_byte d k t : key_byte d -> In (P_SEC, k, t) d -> p_key k.
Proof. intros K H. destruct (K _ _ _ H) as [c [X Y]]. injection X as <-. exact Y. Qed.
Lemma g_byte d k t : key_byte d -> In (G_SEC, k, t) d -> g_key k.
Proof. intros K H. destruct (K _ _ _ H) as [c [X Y]]. injection X as <-. exact Y. Qed.

Lemma fp_more d pk (hr : list (orders * mcall)) : key_byte d -> p_key pk -> Forall (fun x : orders * mcall => file_call d (snd x)) hr -> forall l,
  exists l', fold_left (p_step pk) (map snd hr) (Some l) = Some (l ++ l') /\ plain_ops l'.
Proof.
  intros K Kp. induction 1 as [|[o x] hr Hc F IH]; intros l; cbn [map fold_left snd].
  - exists []. rewrite app_nil_r. split; [reflexivity|constructor].
  - assert (G : forall op, op_ok comma_free op -> exists l', fold_left (p_step pk) (map snd hr) (Some (l ++ [op])) = Some (l ++ l') /\ plain_ops l').
    { intros op Hop. destruct (IH (l ++ [op])) as [l' [A B]]. exists (op :: l'). rewrite A, <- app_assoc. split; [reflexivity|]. now constructor. }
    cbn in Hc. destruct x; try (now destruct Hc); cbn [file_call] in Hc; cbn [p_step].
    + destruct Hc as [(k & t & r' & -> & Hi & Hf & _)|(k & t & a & b & ds & -> & Hi & _)]; cbn [of_section]; (destruct (String.eqb_spec k pk) as [->|]; [|apply IH]).
      * apply G. exact Hf.
      * exfalso. exact (pg_key _ Kp (g_byte _ _ _ K Hi)).
    + destruct Hc as [(k & t & r' & -> & Hi & Hf & _)|(k & t & a & b & ds & -> & Hi & _)]; cbn [of_section]; (destruct (String.eqb_spec k pk) as [->|]; [|apply IH]).
      * apply G. exact Hf.
      * exfalso. exact (pg_key _ Kp (g_byte _ _ _ K Hi)).
    + destruct (String.eqb _ pk); [|apply IH]. now apply G.
Qed.
Lemma fdef_more d (hr : list (orders * mcall)) s k : Forall (fun x : orders * mcall => file_call d (snd x)) hr -> forall acc, fold_left (def_step s k) (map snd hr) acc = acc.
Proof. induction 1 as [|[o x] hr Hc F IH]; intros acc; [reflexivity|]. cbn [map fold_left snd]. cbn in Hc. destruct x; try (now destruct Hc); apply IH. Qed.
Lemma ffn_more d (hr : list (orders * mcall)) k : Forall (fun x : orders * mcall => file_call d (snd x)) hr -> forall acc, fold_left (fn_step k) (map snd hr) acc = acc.
Proof. induction 1 as [|[o x] hr Hc F IH]; intros acc; [reflexivity|]. cbn [map fold_left snd]. cbn in Hc. destruct x; try (now destruct Hc); apply IH. Qed.
Lemma file_tame_call d x : key_byte d -> file_call d x -> tame_call x.
Proof.
  intros K. assert (G : forall rl, file_rule d rl -> tame_rule rl).
  { intros rl [(k & t & r' & -> & Hi & Hf & _)|(k & t & a & b & ds & -> & Hi & Hu)]; cbn; split; intros Hk; auto; exfalso.
    - exact (pg_key _ (p_byte _ _ _ K Hi) Hk).
    - exact (pg_key _ Hk (g_byte _ _ _ K Hi)). }
  destruct x; cbn [file_call tame_call]; try tauto; apply G.
Qed.
Lemma file_calm_call E d x : key_byte d -> file_call d x -> calm_call E x.
Proof.
  intros K. assert (G : forall rl, file_rule d rl -> shaped rl).
  { intros rl [(k & t & r' & -> & Hi & Hf & _)|(k & t & a & b & ds & -> & Hi & Hu)]; cbn; (split; [|intros Hk]).
    - intros ->. discriminate (p_byte _ _ _ K Hi).
    - exfalso. exact (pg_key _ (p_byte _ _ _ K Hi) Hk).
    - intros ->. discriminate (g_byte _ _ _ K Hi).
    - lia. }
  destruct x; cbn [file_call calm_call]; try tauto; apply G.
Qed.

Section Run.
  Variables (E : env) (d : deflist) (R : string -> form * string) (hd hr1 hr2 : list (orders * mcall)) (ob : orders).
  Hypothesis W : well_formed d.
  Hypothesis U : readings E d R.
  Hypothesis Hd : map snd hd = set_all d.
  Hypothesis H1 : Forall (fun x => file_call d (snd x)) hr1.
  Hypothesis H2 : Forall (fun x => file_call d (snd x)) hr2.
  Let ha := hd ++ hr1.
  Let h := hd ++ hr1 ++ (ob, CBuild) :: hr2.

  Lemma w_keys : key_byte d.
  Proof. exact (proj2 W). Qed.
  Lemma o_eq : h = ha ++ (ob, CBuild) :: hr2.
  Proof. unfold h, ha. now rewrite <- app_assoc. Qed.
  Lemma ohd_calls P : Forall P (set_all d) -> Forall (fun x => P (snd x)) hd.
  Proof. rewrite <- Hd, Forall_map. auto. Qed.
  Lemma o_tame : tame h.
  Proof.
    unfold tame, h. apply Forall_app. split; [|apply Forall_app; split; [|constructor; [exact Logic.I|]]].
    - apply ohd_calls. unfold set_all. apply Forall_map, Forall_forall. intros x _. exact Logic.I.
    - eapply Forall_impl; [|exact H1]. intros x. apply file_tame_call, w_keys.
    - eapply Forall_impl; [|exact H2]. intros x. apply file_tame_call, w_keys.
  Qed.
  Lemma o_calm : calm E h.
  Proof.
    unfold calm, h. apply Forall_app. split; [|apply Forall_app; split; [|constructor; [exact Logic.I|]]].
    - apply ohd_calls. unfold set_all. apply Forall_map, Forall_forall. intros [[s k] t] Hi. cbn [fst snd calm_call]. split.
      + intros ->. destruct (w_keys _ _ _ Hi) as [c [_ X]]. discriminate.
      + intros ->. destruct (U k t Hi) as [X _]. exact (o_two _ _ _ _ _ X).
    - eapply Forall_impl; [|exact H1]. intros x. apply file_calm_call, w_keys.
    - eapply Forall_impl; [|exact H2]. intros x. apply file_calm_call, w_keys.
  Qed.
  Lemma o_def s k t : def_text s k ha = Some t <-> In (s, k, t) d.
  Proof. unfold def_text, ha. rewrite map_app, fold_left_app, Hd, (fdef_more d) by exact H1. apply defs_in; [exact (proj2 W)|exact (proj1 W)]. Qed.
  Lemma o_def' s k t : def_text s k h = Some t <-> In (s, k, t) d.
  Proof.
    rewrite o_eq. unfold def_text. rewrite map_app, fold_left_app. cbn [map snd fold_left def_step]. rewrite (fdef_more d) by exact H2. apply o_def.
  Qed.
  Lemma o_fn k : fn_source E k ha = fold_left (fn_step k) (set_all d) (option_map FUser (mget k (e_builtins E))).
  Proof. unfold fn_source, ha. rewrite map_app, fold_left_app, Hd. eapply ffn_more; eauto. Qed.
  Lemma o_phist pk pt : In (P_SEC, pk, pt) d -> exists h1 h2, p_history pk ha = Some h1 /\ h2 = p_calls pk hr2 /\ plain_ops h1 /\ plain_ops h2.
  Proof.
    intros Hp. pose proof (p_byte _ _ _ w_keys Hp) as Kp.
    destruct (fp_more d pk hr1 w_keys Kp H1 []) as [h1 [A1 B1]]. destruct (fp_more d pk hr2 w_keys Kp H2 []) as [h2 [A2 B2]]. exists h1, h2.
    split; [|split; [unfold p_calls; now rewrite A2|auto]]. unfold p_history, ha. rewrite map_app, fold_left_app, Hd, (p_defs pk pt) by exact Hp. exact A1.
  Qed.

  Lemma o_run : good_m h -> exists m1 rs1 m2 x m rs,
    mexec E (NewModel E) ha = Val (m1, rs1) /\ mstep E ob m1 CBuild = Val (m2, x) /\ x_err x = None /\
    (forall mk t, In (M_SEC, mk, t) d -> Build (e_grow E) (e_parse E (mkeys (md_fm m1))) t = inl (f_root (fst (R mk)))) /\
    mexec E (NewModel E) h = Val (m, rs).
  Proof.
    intros G. destruct (run_total E h G o_calm) as [m [rs [Hm _]]].
    pose proof Hm as Hm'. rewrite o_eq in Hm'. apply mexec_app in Hm' as [m1 [rs1 [rs2 [Ha [Hb _]]]]].
    cbn [mexec] in Hb. apply obind_val in Hb as [[m2 x] [Hs _]].
    assert (Ga : good_m ha). { rewrite o_eq in G. apply Forall_app in G. apply G. }
    assert (Gb : good_orders ob). { rewrite o_eq in G. apply Forall_app in G as [_ G]. exact (Forall_inv G). }
    pose proof (defs_exec _ _ _ _ Ha) as D. pose proof (fns_exec _ _ _ _ Ha) as Fn.
    assert (Reg : forall k, fn_source E k ha <> None -> In k (mkeys (md_fm m1))).
    { intros k Hk. specialize (Fn k). destruct (mget k (md_fm m1)) as [v|] eqn:Ev; [apply mget_In in Ev; apply in_map_iff; exists (k, v); auto|].
      exfalso. destruct (fn_source E k ha) as [[f0|]|]; [discriminate| |congruence]. destruct Fn as [i [rm [ls [_ [_ X]]]]]. discriminate. }
    assert (Eg : forall k g, In (G_SEC, k, g) d -> In k (mkeys (md_fm m1))).
    { intros k g Hg. apply Reg. rewrite o_fn. eapply fn_role; [exact w_keys|exact Hg]. }
    assert (Ebu : forall k, In k (mkeys (e_builtins E)) -> In k (mkeys (md_fm m1))).
    { intros k Hk. apply Reg. rewrite o_fn. destruct (mget k (e_builtins E)) as [b|] eqn:Eb; [|apply mget_None in Eb; contradiction].
      apply fn_keeps. discriminate. }
    assert (Eb : forall mk t, In (M_SEC, mk, t) d -> Build (e_grow E) (e_parse E (mkeys (md_fm m1))) t = inl (f_root (fst (R mk)))).
    { intros mk t Hi. destruct (U mk t Hi) as [X _]. exact (o_build _ _ _ _ _ _ X Eg Ebu). }
    exists m1, rs1, m2, x, m, rs. split; [exact Ha|]. split; [exact Hs|]. split; [|split; [exact Eb|exact Hm]].
    cbn [mstep] in Hs. apply obind_val in Hs as [[m2' e] [Hs Hx]]. injection Hx as <- <-. cbn [x_err].
    unfold BuildMatchers in Hs.
    assert (Ks : forall k, In k (o_names ob (mkeys (md_m m1))) -> exists t, In (M_SEC, k, t) d /\ mget k (md_m m1) = Some t).
    { intros k Hk. apply (Permutation_in _ (proj1 Gb _)) in Hk. pose proof (f_keys _ _ D M_SEC k Hk) as Kk.
      pose proof (f_m _ _ D k Kk) as X. destruct (mget k (md_m m1)) as [v|] eqn:Ev.
      - exists v. split; [|reflexivity]. now apply o_def.
      - exfalso. apply mget_None in Ev. contradiction. }
    assert (Hp : forall pk pt, In (P_SEC, pk, pt) d -> p_key pk /\ mget pk (md_p m1) = Some (NewPolicyDef pk pt) /\ exists i, mget pk (md_pMap m1) = Some i).
    { intros pk pt Hi. pose proof (p_byte _ _ _ w_keys Hi) as Kp. split; [exact Kp|]. split.
      - rewrite (f_p _ _ D) by exact (w_keys _ _ _ Hi). apply o_def in Hi. now rewrite Hi.
      - destruct (reachable_ok E ha m1 rs1 Ga Ha) as [g [V W']]. pose proof (v_phist _ _ _ W' pk Kp) as X.
        destruct (o_phist pk pt Hi) as [h1 [h2 [Y _]]]. rewrite Y in X. destruct (mget pk (md_pMap m1)); [eauto|discriminate]. }
    clear - Hs Ks Hp Eb U. revert Ks Hs. generalize (o_names ob (mkeys (md_m m1))) as keys. intros keys Ks.
    assert (Inv : forall keys m, (forall k, In k keys -> exists t, In (M_SEC, k, t) d /\ mget k (md_m m) = Some t) ->
       (forall pk pt, In (P_SEC, pk, pt) d -> p_key pk /\ mget pk (md_p m) = Some (NewPolicyDef pk pt) /\ exists i, mget pk (md_pMap m) = Some i) -> md_fm m = md_fm m1 ->
       forall m2, build_loop E ob m keys = Val (m2, e) -> e = None).
    { clear - Eb U. induction keys as [|k keys IH]; intros m Ks Hp Hf m2 Hs; cbn [build_loop] in Hs; [congruence|].
      apply obind_val in Hs as [[m3 e3] [Hk Hs]]. unfold BuildMatcher in Hk. destruct (Ks k (or_introl eq_refl)) as [t [Hi Hk']]. rewrite Hk' in Hk.
      apply obind_val in Hk as [[m4 r] [Hk X]]. destruct (U k t Hi) as [Ur [pt Hpt]]. pose proof (o_key _ _ _ _ _ Ur) as Kf.
      destruct (Hp _ _ Hpt) as [Kp [Hpd [i Hpm]]].
      unfold BuildMatcherFromDef in Hk. rewrite Hf, (Eb _ _ Hi), Kf in Hk. unfold p_key in Kp. rewrite Kp in Hk.
      cbn [Ascii.eqb Bool.eqb] in Hk. rewrite Hpd in Hk. unfold GetPolicy in Hk. rewrite Hpm in Hk.
      destruct (nth_error (md_objs m) i) as [obj|]; [|discriminate]. apply obind_val in Hk as [y [_ Hk]]. injection Hk as <- <-.
      injection X as <- <-. eapply IH; [| | |exact Hs].
      - intros k' Hk2. cbn. apply Ks. now right.
      - cbn. exact Hp.
      - exact Hf. }
    intros Hs. eapply Inv; [|exact Hp|reflexivity|exact Hs]. exact Ks.
  Qed.
End Run.

(** ** Rules on record were added *)
Lemma pk_adds pk r : forall (cs : list mcall) acc ops, fold_left (p_step pk) cs acc = Some ops -> In (PAdd r) ops ->
  (exists l, acc = Some l /\ In (PAdd r) l) \/ In (CAdd (pk :: r)) cs.
Proof.
  induction cs as [|x cs IH]; intros acc ops H Hi; cbn [fold_left] in H; [left; eauto|].
  destruct (IH _ _ H Hi) as [[l [Hl Hin]]|X]; [|right; now right].
  destruct x as [s k t|s k|rl|rl|k| |k|t|k y|k g|k]; cbn [p_step] in Hl; eauto.
  - destruct s; eauto. destruct (String.eqb k pk); [injection Hl as <-; destruct Hin|eauto].
  - destruct s; eauto. destruct (String.eqb k pk); [discriminate|eauto].
  - destruct (of_section pk rl) as [r'|] eqn:Er; [|eauto]. destruct acc as [l0|]; [|discriminate]. injection Hl as <-.
    apply in_app_or in Hin as [X|[X|[]]]; [eauto|]. injection X as ->. right. left.
    destruct rl as [|k rl]; [discriminate|]. cbn in Er. destruct (String.eqb_spec k pk) as [->|]; [now injection Er as ->|discriminate].
  - destruct (of_section pk rl) as [r'|] eqn:Er; [|eauto]. destruct acc as [l0|]; [|discriminate]. injection Hl as <-.
    apply in_app_or in Hin as [X|[X|[]]]; [eauto|discriminate].
  - destruct (String.eqb k pk); [|eauto]. destruct acc as [l0|]; [|discriminate]. injection Hl as <-.
    apply in_app_or in Hin as [X|[X|[]]]; [eauto|discriminate].
Qed.
Lemma added_columns d h pk pt r : well_formed d -> file_history d h -> In (P_SEC, pk, pt) d -> added_to pk h r ->
  List.length r = List.length (ad_args (NewPolicyDef pk pt)).
Proof.
  intros W (hd & hr1 & ob & hr2 & -> & Hd & H1 & H2) Hp Ha. unfold added_to in Ha. rewrite !map_app, Hd, !in_app_iff in Ha. cbn [map snd In] in Ha.
  assert (X : file_call d (CAdd (pk :: r))).
  { rewrite Forall_forall in H1, H2. destruct Ha as [Ha|[Ha|[Ha|Ha]]]; [|apply in_map_iff in Ha as [x [<- Hx]]; now apply H1|discriminate|apply in_map_iff in Ha as [x [<- Hx]]; now apply H2].
    exfalso. unfold set_all in Ha. apply in_map_iff in Ha as [x [Hx _]]. discriminate. }
  pose proof (proj2 W) as K. destruct X as [(k & t & r' & X & Hi & _ & Hl)|(k & t & a & b & ds & X & Hi & _)].
  - injection X as <- <-. apply (defs_in P_SEC pk d K (proj1 W)) in Hi, Hp. rewrite Hp in Hi. injection Hi as <-. exact Hl.
  - injection X as <- _. exfalso. exact (pg_key _ (p_byte _ _ _ K Hp) (g_byte _ _ _ K Hi)).
Qed.
(** The usual way to establish [answers]: the conditions can be evaluated for
    every rule that has a value for every column. *)
Lemma answers_plain E d pk pt rd f F h vs : well_formed d -> file_history d h -> In (P_SEC, pk, pt) d ->
  (forall e, In e (conds f) -> reads_only_named (e_eval E F) e /\
     forall r, List.length r = List.length (ad_args (NewPolicyDef pk pt)) ->
       has_values (NewPolicyDef pk pt) e r /\ evaluates (e_eval E F) (NewPolicyDef pk pt) rd vs e r) ->
  (forall e, In e (lasts f) -> holds (e_eval E F) (NewPolicyDef pk pt) rd vs e (blank (NewPolicyDef pk pt)) = false) ->
  answers E pk (NewPolicyDef pk pt) rd f F h vs.
Proof.
  intros W Ah Hp H L. split; [|exact L]. intros e He. destruct (H e He) as [RO HV].
  assert (Hr : forall r, added_to pk h r -> List.length r = List.length (ad_args (NewPolicyDef pk pt))) by (intros r X; eapply added_columns; eassumption).
  split; [intros r X; now apply HV, Hr|]. split; [apply named_own; [intros r X; now apply HV, Hr|exact RO]|].
  intros _. apply HV, repeat_length.
Qed.

(** ** C87

    Every set of definitions, each of whose matchers is read as a formula over a
    policy section of the set; every history of rules around the build; every order
    of map visits.  No call panics and all matchers are built.  For every call that
    selects the matcher [mk] and the request definition [rk] by name or by default,
    and whose conditions can be evaluated: Filter reports exactly the present rules
    of the section of [mk] for which the formula of [mk] is true, and Enforce
    answers by their effects, for each of the three effect definitions. *)
Theorem C87_each_matcher_decides_partial :
  forall E d R h,
    well_formed d -> readings E d R -> file_history d h -> good_m h ->
    exists m rs, mexec E (NewModel E) h = Val (m, rs) /\
      forall mk mt pt rk rt o ps,
        In (M_SEC, mk, mt) d -> In (P_SEC, snd (R mk), pt) d -> In (R_SEC, rk, rt) d ->
        uses_matcher mk ps -> uses_request rk ps -> good_orders o ->
        let f := fst (R mk) in let pk := snd (R mk) in
        let pd := NewPolicyDef pk pt in let rd := NewRequestDef rk rt in
        let F := functions o m in let vs := vals_of ps in let e := effect_in_force h ps in
        answers E pk pd rd f F h vs ->
        (exists ms, Filter E o m ps = Val (m, (ms, None)) /\
           forall x, In x ms <-> exists r, x = pk :: r /\ present h x /\ true_for E pd rd f F vs r = true) /\
        (spells e "some(where (p.eft == allow))" ->
           exists b, Enforce E o m ps = Val (m, (b, None)) /\ (b = true <-> hit E pk pd rd f F h vs Allow)) /\
        (spells e "!some(where (p.eft == deny))" ->
           exists b, Enforce E o m ps = Val (m, (b, None)) /\ (b = true <-> ~ hit E pk pd rd f F h vs Deny)) /\
        (spells e "some(where (p.eft == allow)) && !some(where (p.eft == deny))" -> ~ hit E pk pd rd f F h vs Indeterminate ->
           exists b, Enforce E o m ps = Val (m, (b, None)) /\
             (b = true <-> hit E pk pd rd f F h vs Allow /\ ~ hit E pk pd rd f F h vs Deny)).
Proof.
  intros E d R h W U (hd & hr1 & ob & hr2 & -> & Hd & H1 & H2) G.
  destruct (o_run E d R hd hr1 hr2 ob W U Hd H1 H2 G) as (m1 & rs1 & m2 & x & m & rs & Ra & Rb & Rx & Eb & Rm).
  pose proof (fun s k t => proj2 (o_def' d hd hr1 hr2 ob W Hd H1 H2 s k t)) as Df.
  pose proof (fun s k t => proj2 (o_def d hd hr1 W Hd H1 s k t)) as Da.
  assert (EQ : hd ++ hr1 ++ (ob, CBuild) :: hr2 = (hd ++ hr1) ++ (ob, CBuild) :: hr2) by now rewrite <- app_assoc.
  set (h := hd ++ hr1 ++ (ob, CBuild) :: hr2) in *. exists m, rs. split; [exact Rm|].
  intros mk mt pt rk rt o ps Im Ip Ir Um Ur Go f pk pd rd Fs vs eff [A1 A2].
  destruct (U mk mt Im) as [Rm' _]. pose proof (o_key _ _ _ _ _ Rm') as Kf. fold f pk in Rm', Kf.
  pose proof (p_byte _ _ _ (proj2 W) Ip) as Kp. fold pk in Kp, Ip.
  destruct (o_phist d hd hr1 hr2 W Hd H1 H2 pk pt Ip) as (h1 & h2 & P1 & P2 & F1 & F2).
  assert (La : Forall (fun oc => leaves_alone pk mk (snd oc)) hr2).
  { eapply Forall_impl; [|exact H2]. intros [o0 c0]. cbn [snd]. destruct c0; cbn; tauto. }
  assert (Ph : p_history pk h = Some (h1 ++ h2)).
  { rewrite EQ. replace ((hd ++ hr1) ++ (ob, CBuild) :: hr2) with (((hd ++ hr1) ++ [(ob, CBuild)]) ++ hr2) by now rewrite <- app_assoc.
    rewrite P2. apply (p_history_more pk mk); [exact La|rewrite p_history_snoc; exact P1]. }
  assert (Rc : forall r, recorded h1 h2 r -> added_to pk h r).
  { intros r Hr. apply recorded_adds in Hr. destruct (pk_adds pk r _ _ _ Ph Hr) as [[l [X _]]|X]; [discriminate|exact X]. }
  assert (Q : query E h m o ps (f_root f) pd rd h1 h2).
  { constructor.
    - exact G.
    - exact Go.
    - eauto.
    - exists mk, pt, rk, rt. rewrite Kf. split; [|split; [exact Um|split; [reflexivity|split; [exact Ur|
        split; [exact (proj2 W _ _ _ Ir)|split; [now apply Df|reflexivity]]]]]].
      split; [exact (proj2 W _ _ _ Im)|]. rewrite Kf. split; [exact Kp|].
      exists (hd ++ hr1), ob, CBuild, hr2, m1, rs1, m2, x, mt.
      split; [exact EQ|]. split; [now left|]. split; [exact Ra|]. split; [exact Rb|]. split; [exact Rx|]. split; [now apply Da|].
      split; [now apply Eb|]. split; [exact La|split; [now apply Da|split; [exact P1|exact P2]]].
    - unfold f_root. rewrite two_way_narrow. apply Rm'.
    - apply told_apart_ops; assumption. }
  assert (S : sound E o m ps pd rd (f_root f) h1 h2).
  { intros e He. apply texts_root in He. destruct (A1 e He) as [B1 [B2 B3]]. fold vs. split; [|split; [|split]].
    - intros r Hr. now apply B1, Rc.
    - exact (own_values_sub _ _ _ _ _ _ _ Rc B2).
    - intros r Hr. now apply B1, Rc.
    - intros [X|X]; apply B3; [left; now apply lasts_root|right]. intros r [[_ [ops [Ho Hr]]]|[Y _]]; [|exact (pg_key _ Kp Y)].
      rewrite Ph in Ho. injection Ho as <-. apply (X r). now apply present_recorded. }
  assert (B : blank_fails E o m ps pd rd (f_root f)).
  { intros w e Hw. apply A2. eapply ways_root; eassumption. }
  destruct (C12_filter_partial E h m o ps _ _ _ h1 h2 Q S B) as [ms [HF Hms]]. rewrite Kf in Hms.
  assert (Me : forall r, matches E o m ps pd rd (f_root f) r = true_for E pd rd f Fs vs r).
  { intros r. unfold matches, true_for. rewrite satisfies_accepts. unfold f_root. cbn [stage_children]. rewrite ptree_sem. cbn. now rewrite andb_true_r. }
  assert (Hm : forall x, In x ms <-> exists r, x = pk :: r /\ present h x /\ true_for E pd rd f Fs vs r = true).
  { intros z. rewrite Hms. split; intros [r [X [Y Z]]]; exists r; [rewrite <- Me|rewrite Me]; auto. }
  pose proof (query_decides _ _ _ _ _ _ _ _ _ _ _ Q HF) as HE. fold eff in HE.
  assert (Some_eff : forall e, some_effect pd ms e <-> hit E pk pd rd f Fs h vs e).
  { intros e. unfold some_effect, hit. split.
    - intros [z [Hz He]]. apply Hm in Hz as [r [-> [Y Z]]]. eauto.
    - intros [r [Y [Z He]]]. exists (pk :: r). split; [apply Hm; eauto|exact He]. }
  split; [eauto|]. split; [|split].
  - intros Sp. destruct (C18_allow_override _ pd ms Sp) as [b [Hb Hi]]. rewrite Hb in HE. exists b. split; [exact HE|]. now rewrite Hi, Some_eff.
  - intros Sp. destruct (C19_deny_override _ pd ms Sp) as [b [Hb Hi]]. rewrite Hb in HE. exists b. split; [exact HE|]. now rewrite Hi, Some_eff.
  - intros Sp Hi0. rewrite <- Some_eff in Hi0. destruct (C20_allow_and_no_deny_partial _ pd ms Sp Hi0) as [b [Hb Hi]]. rewrite Hb in HE.
    exists b. split; [exact HE|]. now rewrite Hi, !Some_eff.
Qed.
Print Assumptions C87_each_matcher_decides_partial.
(** A concrete file with two matchers over two sections that meets the hypotheses:
    [C88_ex] in Prop_Columns.v (C88 derives [answers]). *)
