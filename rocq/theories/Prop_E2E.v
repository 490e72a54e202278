(** Property C59: the decision of the documented RBAC model, from rules to
    Enforce. *)
From Verif Require Import GoBase GoBaseP DefsM DefsP PolicyM PolicySpec PolicyP EffectorM MatcherDefM MatcherDefSpec MatcherDefP MatcherM MatcherSpec MatcherP MatcherP2
  RbacM RbacSpec DomainM DomainSpec EvalM ModelM ModelSpec ModelP ModelP2 ModelP3 ModelP4 ModelP5 ModelP6 EnforcerM EnforcerSpec EnforcerP
  SafeSpec SafeP FunctionsSpec FunctionsP RbacE2ESpec.
From Verif Require Import Prop_Effect Prop_Matcher Prop_Model Prop_Enforce Prop_Query Prop_Functions.

Definition e_root : stage := Stage "" [Stage c_g [Stage c_obj [Stage c_act []]]].
Definition e_pd : argdef := NewPolicyDef "p" "sub, obj, act".
Definition e_rd : argdef := NewRequestDef "r" "sub, obj, act".
Definition req (sub obj act : string) : list param := [PVal (VStr sub); PVal (VStr obj); PVal (VStr act)].

(** ** The matcher compiles to three nested stages *)
Definition atom_check (ts : list token) : bool :=
  negb (match ts with t :: _ => kind_eqb (t_kind t) KClause | [] => true end) && Z.eqb (level ts) 0 &&
  forallb (fun n => Z.leb 0 (level (firstn n ts))) (seq 0 (S (List.length ts))) &&
  forallb (fun t => negb (kind_eqb (t_kind t) KLogicalOp)) ts.
Lemma kind_eqb_eq a b : kind_eqb a b = true <-> a = b.
Proof. destruct a, b; cbn; split; congruence. Qed.
Lemma atom_checked ts : atom_check ts = true -> atom_ok ts.
Proof.
  unfold atom_check. rewrite !andb_true_iff. intros [[[H1 H2] H3] H4]. apply Z.eqb_eq in H2.
  rewrite forallb_forall in H3, H4. constructor.
  - intros ->. discriminate.
  - exact H2.
  - intros a b ->. specialize (H3 (List.length a)). rewrite firstn_app, Nat.sub_diag, firstn_all in H3. cbn [firstn] in H3. rewrite app_nil_r in H3.
    apply Z.leb_le, H3, in_seq. rewrite app_length. lia.
  - intros a t b -> Hk. specialize (H4 t). rewrite Hk in H4. cbn in H4. discriminate H4. apply in_or_app. right. now left.
  - intros t ts' -> Hk. rewrite Hk in H1. discriminate.
Qed.
Definition e_form : form :=
  FAnd (FAnd (FAtom (firstn 6 rbac_tokens)) (FAtom (firstn 3 (skipn 7 rbac_tokens)))) (FAtom (skipn 11 rbac_tokens)).
Lemma e_build E fns : understands E ->
  Build (e_grow E) (e_parse E fns) rbac_matcher = if in_dec string_dec "g"%string fns then inl e_root else inr ErrBuild.
Proof.
  intros U. unfold Build. change (arg_replace rbac_matcher) with "g(r_sub, p_sub) && r_obj == p_obj && r_act == p_act"%string.
  rewrite (u_tokens E U). destruct (in_dec string_dec "g"%string fns); [|reflexivity].
  destruct (compile_faithful (e_grow E) e_form) as [h Hc].
  - split; [|cbn; tauto]. cbn [atoms_ok e_form]. split; [split|]; apply atom_checked; vm_compute; reflexivity.
  - reflexivity.
  - change (written e_form) with rbac_tokens in Hc. rewrite Hc. vm_compute. reflexivity.
Qed.

Lemma e_two E : understands E -> at_most_two E rbac_matcher.
Proof. intros U fns root. rewrite (e_build E fns U). destruct (in_dec _ _ _); [|discriminate]. intros H. injection H as <-. reflexivity. Qed.

(** ** Histories *)
Definition three (r : rule) : Prop := comma_free r /\ List.length r = 3.
Definition three_ops (h : list pop) : Prop := Forall (op_ok three) h.
Lemma rule_full a b c : Forall (fun v => has_char "," v = false) [a; b; c] -> three [a; b; c].
Proof. intros F. split; [|reflexivity]. split; [discriminate|exact F]. Qed.
Lemma full_three r : three r -> exists a b c, r = [a; b; c].
Proof. intros [_ L]. destruct r as [|a [|b [|c [|]]]]; try discriminate. eauto. Qed.
Lemma three_plain h : three_ops h -> plain_ops h.
Proof. apply Forall_impl. intros [r|r|]; cbn; [intros [H _]; exact H|intros [H _]; exact H|exact (fun H => H)]. Qed.

Lemma p_more (hr : list (orders * mcall)) : Forall (fun c : orders * mcall => rbac_call (snd c)) hr -> forall l,
  exists l', fold_left (p_step "p") (map snd hr) (Some l) = Some (l ++ l') /\ three_ops l'.
Proof.
  induction 1 as [|[o c] hr Hc F IH]; intros l; cbn [map fold_left snd].
  - exists []. rewrite app_nil_r. split; [reflexivity|constructor].
  - assert (G : forall op, op_ok three op -> exists l', fold_left (p_step "p") (map snd hr) (Some (l ++ [op])) = Some (l ++ l') /\ three_ops l').
    { intros op Hop. destruct (IH (l ++ [op])) as [l' [A B]]. exists (op :: l'). rewrite A, <- app_assoc. split; [reflexivity|]. now constructor. }
    cbn in Hc. destruct c; try (now destruct Hc); cbn [rbac_call] in Hc; cbn [p_step].
    + destruct Hc as [[a [b [c [-> Hf]]]]|[a [b ->]]]; cbn [of_section]; [|apply IH]. apply G. now apply rule_full.
    + destruct Hc as [[a [b [c [-> Hf]]]]|[a [b ->]]]; cbn [of_section]; [|apply IH]. apply G. now apply rule_full.
    + destruct Hc as [-> | ->]; cbn; [|apply IH]. now apply G.
Qed.
Lemma g_more (hr : list (orders * mcall)) : Forall (fun c : orders * mcall => rbac_call (snd c)) hr -> forall x l,
  exists l', fold_left (g_step "g") hr (Some (x, l)) = Some (x, l').
Proof.
  induction 1 as [|[o c] hr Hc F IH]; intros x l; cbn [fold_left]; [eauto|].
  cbn in Hc. destruct c; try (now destruct Hc); cbn [rbac_call] in Hc; cbn [g_step].
  - destruct Hc as [[a [b [c [-> Hf]]]]|[a [b ->]]]; cbn [of_section]; apply IH.
  - destruct Hc as [[a [b [c [-> Hf]]]]|[a [b ->]]]; cbn [of_section]; apply IH.
  - destruct Hc as [-> | ->]; cbn; apply IH.
Qed.
Lemma def_more (hr : list (orders * mcall)) s k : Forall (fun c : orders * mcall => rbac_call (snd c)) hr -> forall acc, fold_left (def_step s k) (map snd hr) acc = acc.
Proof. induction 1 as [|[o c] hr Hc F IH]; intros acc; [reflexivity|]. cbn [map fold_left snd]. cbn in Hc. destruct c; try (now destruct Hc); apply IH. Qed.
Lemma fn_more (hr : list (orders * mcall)) k : Forall (fun c : orders * mcall => rbac_call (snd c)) hr -> forall acc, fold_left (fn_step k) (map snd hr) acc = acc.
Proof. induction 1 as [|[o c] hr Hc F IH]; intros acc; [reflexivity|]. cbn [map fold_left snd]. cbn in Hc. destruct c; try (now destruct Hc); apply IH. Qed.

Lemma rbac_tame_call c : rbac_call c -> tame_call c.
Proof.
  destruct c; cbn [rbac_call tame_call]; try tauto.
  - intros [[a [b [c [-> Hf]]]]|[a [b ->]]]; cbn; (split; [|intros X; try discriminate X; constructor]); intros X; try discriminate X; split; [discriminate|exact Hf].
  - intros [[a [b [c [-> Hf]]]]|[a [b ->]]]; cbn; (split; [|intros X; try discriminate X; constructor]); intros X; try discriminate X; split; [discriminate|exact Hf].
Qed.
Lemma rbac_calm_call E c : rbac_call c -> calm_call E c.
Proof.
  destruct c; cbn [rbac_call calm_call]; try tauto.
  - intros [[a [b [c [-> Hf]]]]|[a [b ->]]]; cbn; (split; [discriminate|]); intros X; try discriminate X; lia.
  - intros [[a [b [c [-> Hf]]]]|[a [b ->]]]; cbn; (split; [discriminate|]); intros X; try discriminate X; lia.
Qed.

Section Run.
  Variables (E : env) (hd hr1 hr2 : list (orders * mcall)) (ob : orders).
  Hypothesis U : understands E.
  Hypothesis Hd : map snd hd = rbac_defs.
  Hypothesis H1 : Forall (fun c => rbac_call (snd c)) hr1.
  Hypothesis H2 : Forall (fun c => rbac_call (snd c)) hr2.
  Let ha := hd ++ hr1.
  Let h := hd ++ hr1 ++ (ob, CBuild) :: hr2.

  Lemma h_eq : h = ha ++ (ob, CBuild) :: hr2.
  Proof. unfold h, ha. now rewrite <- app_assoc. Qed.
  Lemma hd_calls P : Forall P rbac_defs -> Forall (fun c => P (snd c)) hd.
  Proof. rewrite <- Hd, Forall_map. auto. Qed.
  Lemma e_tame : tame h.
  Proof.
    unfold tame, h. apply Forall_app. split; [|apply Forall_app; split; [|constructor; [exact I|]]].
    - apply hd_calls. repeat constructor.
    - eapply Forall_impl; [|exact H1]. intros c. apply rbac_tame_call.
    - eapply Forall_impl; [|exact H2]. intros c. apply rbac_tame_call.
  Qed.
  Lemma e_calm : calm E h.
  Proof.
    unfold calm, h. apply Forall_app. split; [|apply Forall_app; split; [|constructor; [exact I|]]].
    - apply hd_calls. unfold rbac_defs. repeat (apply Forall_cons; [split; [discriminate|try discriminate; intros _; now apply e_two]|]); apply Forall_nil.
    - eapply Forall_impl; [|exact H1]. intros c. apply rbac_calm_call.
    - eapply Forall_impl; [|exact H2]. intros c. apply rbac_calm_call.
  Qed.
  Lemma e_def s k : def_text s k ha = fold_left (def_step s k) rbac_defs None.
  Proof. unfold def_text, ha. rewrite map_app, fold_left_app, Hd. now apply def_more. Qed.
  Lemma e_def' s k : def_text s k h = fold_left (def_step s k) rbac_defs None.
  Proof.
    rewrite h_eq. unfold def_text. rewrite map_app, fold_left_app. cbn [map snd fold_left def_step]. rewrite def_more by exact H2. apply e_def.
  Qed.
  Lemma e_fn : fn_source E "g" h = Some FRole.
  Proof.
    rewrite h_eq. unfold fn_source, ha. rewrite !map_app, !fold_left_app. cbn [map snd fold_left fn_step]. rewrite !fn_more by assumption. rewrite Hd.
    reflexivity.
  Qed.
  Lemma e_ghist : exists calls, g_history "g" h = Some (IRole (NewRoleManager 10), calls).
  Proof.
    rewrite h_eq. unfold g_history, ha. rewrite !fold_left_app. cbn [fold_left g_step].
    assert (X : fold_left (g_step "g") hd None = Some (IRole (NewRoleManager 10), [])).
    { clear - Hd. destruct hd as [|[? ?] [|[? ?] [|[? ?] [|[? ?] [|[? ?] [|]]]]]]; try discriminate Hd.
      cbn [map snd] in Hd. injection Hd as -> -> -> -> ->. reflexivity. }
    rewrite X. destruct (g_more hr1 H1 (IRole (NewRoleManager 10)) []) as [l1 ->]. apply g_more. exact H2.
  Qed.
  Lemma e_phist : exists h1 h2, p_history "p" ha = Some h1 /\ h2 = p_calls "p" hr2 /\ three_ops h1 /\ three_ops h2.
  Proof.
    destruct (p_more hr1 H1 []) as [h1 [A1 B1]]. destruct (p_more hr2 H2 []) as [h2 [A2 B2]]. exists h1, h2.
    split; [|split; [unfold p_calls; now rewrite A2|auto]]. unfold p_history, ha. rewrite map_app, fold_left_app, Hd. exact A1.
  Qed.

  Lemma e_run : good_m h -> exists m1 rs1 m2 x m rs,
    mexec E (NewModel E) ha = Val (m1, rs1) /\ mstep E ob m1 CBuild = Val (m2, x) /\ x_err x = None /\
    Build (e_grow E) (e_parse E (mkeys (md_fm m1))) rbac_matcher = inl e_root /\ mexec E (NewModel E) h = Val (m, rs).
  Proof.
    intros G. destruct (run_total E h G e_calm) as [m [rs [Hm _]]].
    pose proof Hm as Hm'. rewrite h_eq in Hm'. apply mexec_app in Hm' as [m1 [rs1 [rs2 [Ha [Hb _]]]]].
    cbn [mexec] in Hb. apply obind_val in Hb as [[m2 x] [Hs _]].
    assert (Ga : good_m ha). { rewrite h_eq in G. apply Forall_app in G. apply G. }
    assert (Gb : good_orders ob). { rewrite h_eq in G. apply Forall_app in G as [_ G]. exact (Forall_inv G). }
    pose proof (defs_exec _ _ _ _ Ha) as D.
    assert (Eg : In "g"%string (mkeys (md_fm m1))).
    { assert (Fs : fn_source E "g" ha = Some FRole).
      { unfold fn_source, ha. rewrite map_app, fold_left_app, fn_more by exact H1. now rewrite Hd. }
      destruct (role_function E ha m1 rs1 "g" Ga Ha eq_refl Fs) as [x0 [c0 [y [ys [_ [_ Hf]]]]]].
      specialize (Hf ex_o). unfold functions in Hf. destruct (mget "g" (md_fm m1)) as [v|] eqn:Eq; [|discriminate].
      apply mget_In in Eq. apply in_map_iff. eexists. split; [|exact Eq]. reflexivity. }
    assert (Eb : Build (e_grow E) (e_parse E (mkeys (md_fm m1))) rbac_matcher = inl e_root).
    { rewrite (e_build E _ U). destruct (in_dec _ _ _); [reflexivity|contradiction]. }
    exists m1, rs1, m2, x, m, rs. split; [exact Ha|]. split; [exact Hs|]. split; [|split; [exact Eb|exact Hm]].
    cbn [mstep] in Hs. apply obind_val in Hs as [[m2' e] [Hs Hx]]. injection Hx as <- <-. cbn [x_err].
    unfold BuildMatchers in Hs.
    assert (Ks : forall k, In k (o_names ob (mkeys (md_m m1))) -> k = "m"%string /\ mget k (md_m m1) = Some rbac_matcher).
    { intros k Hk. apply (Permutation_in _ (proj1 Gb _)) in Hk. pose proof (f_keys _ _ D M_SEC k Hk) as Kk.
      pose proof (f_m _ _ D k Kk) as X. rewrite e_def in X.
      destruct (mget k (md_m m1)) as [v|] eqn:Ev.
      - unfold rbac_defs in X. cbn [fold_left def_step sec_eqb andb] in X. destruct (String.eqb_spec "m" k) as [<-|]; [|discriminate]. split; [reflexivity|]. exact X.
      - exfalso. apply mget_None in Ev. contradiction. }
    assert (Hp : mget "p" (md_p m1) = Some e_pd).
    { rewrite (f_p _ _ D) by (exists "p"%char; auto). rewrite e_def. reflexivity. }
    assert (Hpm : exists i, mget "p" (md_pMap m1) = Some i).
    { destruct (reachable_ok E ha m1 rs1 Ga Ha) as [g [V W]]. pose proof (v_phist _ _ _ W "p" eq_refl) as X.
      destruct e_phist as [h1 [h2 [Y _]]]. rewrite Y in X. destruct (mget "p" (md_pMap m1)); [eauto|discriminate]. }
    clear - Hs Ks Hp Hpm Eb. revert Ks Hs. generalize (o_names ob (mkeys (md_m m1))) as keys. intros keys Ks.
    assert (Inv : forall keys m, (forall k, In k keys -> mget k (md_m m) = Some rbac_matcher) ->
       mget "p" (md_p m) = Some e_pd -> (exists i, mget "p" (md_pMap m) = Some i) -> md_fm m = md_fm m1 ->
       forall m2, build_loop E ob m keys = Val (m2, e) -> e = None).
    { clear - Eb. induction keys as [|k keys IH]; intros m Ks Hp Hpm Hf m2 Hs; cbn [build_loop] in Hs; [congruence|].
      apply obind_val in Hs as [[m3 e3] [Hk Hs]]. pose proof Hk as Hk'. unfold BuildMatcher in Hk. rewrite (Ks k) in Hk by now left.
      apply obind_val in Hk as [[m4 r] [Hk X]]. pose proof (buildfrom_maps _ _ _ _ _ _ Hk) as Mp.
      unfold BuildMatcherFromDef in Hk. rewrite Hf, Eb in Hk.
      change (GetPolicyKey e_root) with "p"%string in Hk. cbn [first_byte Ascii.eqb Bool.eqb] in Hk. rewrite Hp in Hk.
      destruct Hpm as [i Hi]. unfold GetPolicy in Hk. rewrite Hi in Hk.
      destruct (nth_error (md_objs m) i) as [obj|]; [|discriminate]. apply obind_val in Hk as [y [_ Hk]]. injection Hk as <- <-.
      injection X as <- <-. eapply IH; [| | | |exact Hs].
      - intros k' Hk2. cbn. apply Ks. now right.
      - exact Hp.
      - cbn. eauto.
      - exact Hf. }
    intros Hs. eapply Inv; [|exact Hp|exact Hpm|reflexivity|exact Hs]. intros k Hk. now apply Ks.
  Qed.
End Run.

(** ** C59: the decision

    Partial: requests with a non-empty action (an empty action can be allowed by
    the blank rule, [C59_blank_refuted]), policy values without commas
    ([C59_comma_refuted]), chains of at most nine grouping rules (a documented
    bound is not given in the code's documentation, the constant is 10).  Every
    history of rule changes around the build, every order of map visits: no call
    panics, Enforce reports no error, and allows exactly the permitted requests. *)
Theorem C59_rbac_partial :
  forall E h o sub obj act,
    understands E -> rbac_history h -> good_m h -> good_orders o -> act <> ""%string ->
    exists m rs b, mexec E (NewModel E) h = Val (m, rs) /\
      Enforce E o m (req sub obj act) = Val (m, (b, None)) /\
      (b = true <-> permitted h sub obj act).
Proof.
  intros E h o sub obj act U (hd & hr1 & ob & hr2 & -> & Hd & H1 & H2) G Go Ha.
  set (ps := req sub obj act).
  destruct (e_run E hd hr1 hr2 ob U Hd H1 H2 G) as (m1 & rs1 & m2 & x & m & rs & Ra & Rb & Rx & Eb & Rm).
  pose proof (e_tame hd hr1 hr2 ob Hd H1 H2) as T.
  pose proof (fun s k => e_def' hd hr1 hr2 ob Hd H1 H2 s k) as Df.
  destruct (e_ghist hd hr1 hr2 ob Hd H1 H2) as [calls Hg].
  pose proof (e_fn E hd hr1 hr2 ob Hd H1 H2) as Hfn.
  destruct (e_phist hd hr1 hr2 Hd H1 H2) as (h1 & h2 & P1 & P2 & F1 & F2).
  assert (Dh : def_text M_SEC "m" (hd ++ hr1) = Some rbac_matcher) by (rewrite (e_def hd hr1 Hd H1); reflexivity).
  assert (Dp : def_text P_SEC "p" (hd ++ hr1) = Some "sub, obj, act"%string) by (rewrite (e_def hd hr1 Hd H1); reflexivity).
  assert (EQ : hd ++ hr1 ++ (ob, CBuild) :: hr2 = (hd ++ hr1) ++ (ob, CBuild) :: hr2) by now rewrite <- app_assoc.
  set (h := hd ++ hr1 ++ (ob, CBuild) :: hr2) in *.
  assert (Q : query E h m o ps e_root e_pd e_rd h1 h2).
  { constructor.
    - exact G.
    - exact Go.
    - eauto.
    - exists "m"%string, "sub, obj, act"%string, "r"%string, "sub, obj, act"%string.
      split; [|split; [split; [apply Forall_nil|now left]|split; [reflexivity|split; [split; [apply Forall_nil|now left]|
        split; [exists "r"%char; auto|split; [rewrite Df; reflexivity|reflexivity]]]]]].
      split; [exists "m"%char; auto|]. split; [reflexivity|].
      exists (hd ++ hr1), ob, CBuild, hr2, m1, rs1, m2, x, rbac_matcher.
      split; [exact EQ|]. split; [now left|]. split; [exact Ra|]. split; [exact Rb|]. split; [exact Rx|]. split; [exact Dh|].
      split; [exact Eb|]. split; [|split; [exact Dp|split; [exact P1|exact P2]]].
      eapply Forall_impl; [|exact H2]. intros [o0 c]. cbn [snd]. destruct c; cbn; tauto.
    - reflexivity.
    - apply told_apart_ops; apply three_plain; [exact F1|exact F2]. }
  destruct (C66_role_function E h m rs o "g" calls G Go T Rm eq_refl Hfn Hg) as [fg [Fg Hfg]].
  assert (Vg : forall a b, exists r, fg [VStr a; VStr b] = Val (inl (VBool r)) /\
             (r = true <-> a = b \/ exists n, 1 <= n <= 9 /\ chain (fun x y => present h ["g"; x; y]%string) n a b)).
  { intros a b. apply (Hfg a b []). }
  assert (Three : forall r, recorded h1 h2 r \/ r = blank e_pd -> exists a b c, r = [a; b; c]).
  { intros r [Hr| ->]; [|now exists ""%string, ""%string, ""%string]. apply full_three.
    apply (recorded_in h1 h2 three); [|exact F2|exact Hr]. intros r0 Hr0. exact (set_of_ok _ h1 F1 r0 Hr0). }
  assert (Eg : forall a b c, ev (e_eval E (functions o m)) c_g (ParamGet e_pd [a; b; c] e_rd (vals_of ps)) = fg [VStr sub; VStr a])
    by (intros; apply (u_call E U (functions o m) fg); [exact Fg|reflexivity|reflexivity]).
  assert (Eo : forall a b c, ev (e_eval E (functions o m)) c_obj (ParamGet e_pd [a; b; c] e_rd (vals_of ps)) = Val (inl (VBool (String.eqb obj b))))
    by (intros; apply (u_obj E U); reflexivity).
  assert (Ea : forall a b c, ev (e_eval E (functions o m)) c_act (ParamGet e_pd [a; b; c] e_rd (vals_of ps)) = Val (inl (VBool (String.eqb act c))))
    by (intros; apply (u_act E U); reflexivity).
  assert (S : sound E o m ps e_pd e_rd e_root h1 h2).
  { apply sound_named. intros e He. change (texts e_root) with [c_g; c_obj; c_act] in He.
    split; [|split].
    - intros r Hr. destruct (Three r (or_introl Hr)) as [a [b [c ->]]]. destruct He as [<-|[<-|[<-|[]]]]; intros y [<-|[]]; discriminate.
    - now apply (u_named E U).
    - intros r Hr. destruct (Three r Hr) as [a [b [c ->]]]. split; [exact (u_parses E U (functions o m) fg e Fg He)|].
      destruct He as [<-|[<-|[<-|[]]]]; [rewrite Eg; destruct (Vg sub a) as [v [-> _]]|rewrite Eo|rewrite Ea]; eauto. }
  assert (B : blank_fails E o m ps e_pd e_rd e_root).
  { intros w e Hw. change (ways_of e_root) with [[c_g; c_obj; c_act]] in Hw. destruct Hw as [Hw|[]].
    change [c_g; c_obj; c_act] with ([c_g; c_obj] ++ [c_act]) in Hw. apply app_inj_tail in Hw as [_ <-].
    unfold holds. change (blank e_pd) with [""; ""; ""]%string. rewrite Ea. destruct (String.eqb_spec act ""); [contradiction|reflexivity]. }
  destruct (C12_enforce_partial E h m o ps e_root e_pd e_rd h1 h2 Q S B) as [b [HE Hb]].
  { unfold effect_in_force, ps. cbn [opts_of req fold_left]. unfold effect_named. cbn [first_byte]. rewrite Df. reflexivity. }
  exists m, rs, b. split; [exact Rm|]. split; [exact HE|]. rewrite Hb. change (GetPolicyKey e_root) with "p"%string.
  assert (Meaning : forall a b c, matches E o m ps e_pd e_rd e_root [a; b; c] = true <->
            (sub = a \/ exists n, 1 <= n <= 9 /\ chain (fun x y => present h ["g"; x; y]%string) n sub a) /\ b = obj /\ c = act).
  { intros a b0 c. unfold matches, satisfies. change (ways_of e_root) with [[c_g; c_obj; c_act]]. cbn [existsb]. rewrite orb_false_r.
    unfold all_hold. cbn [forallb]. rewrite andb_true_r. unfold holds. rewrite Eg, Eo, Ea. destruct (Vg sub a) as [v [-> Hv]].
    rewrite <- Hv. destruct v, (String.eqb_spec obj b0), (String.eqb_spec act c); cbn; intuition congruence. }
  assert (Pres : forall r, present h ("p"%string :: r) -> exists a b c, r = [a; b; c]).
  { intros r Hr. apply full_three. rewrite <- (query_present _ _ _ _ _ _ _ _ _ _ Q r) in Hr.
    apply (set_of_ok _ (h1 ++ h2)); [|exact Hr]. apply Forall_app. split; [exact F1|exact F2]. }
  unfold permitted. split.
  - intros [r [Hp [Hm _]]]. destruct (Pres r Hp) as [a [b0 [c ->]]]. apply Meaning in Hm as [Hr [-> ->]]. eauto.
  - intros [role [Hp Hr]]. exists [role; obj; act]. split; [exact Hp|]. split; [now apply Meaning|].
    unfold rule_effect. rewrite Df. reflexivity.
Qed.
Print Assumptions C59_rbac_partial.

(** ** An evaluator that understands the matcher, and a history

    alice is a manager, managers are admins; admins read data1, bob writes data2,
    carol's right is revoked. *)
Definition rbac_env : env :=
  mkEnv (fun n => n)
    (fun fns s => if String.eqb s "g(r_sub, p_sub) && r_obj == p_obj && r_act == p_act" then
                    if in_dec string_dec "g"%string fns then Some rbac_tokens else None
                  else None)%string
    (fun fs => mini (match fs "g"%string with Some f => [("g"%string, f)] | None => [] end)) [].
Lemma rbac_understands : understands rbac_env.
Proof.
  constructor.
  - reflexivity.
  - intros F f e Hf He. cbn in He. destruct He as [<-|[<-|[<-|[]]]]; cbn [e_eval rbac_env]; rewrite Hf; reflexivity.
  - intros F f get x y Hf Hx Hy. cbn [e_eval rbac_env]. rewrite Hf. cbn. now rewrite Hx, Hy.
  - intros F get x y Hx Hy. cbn. now rewrite Hx, Hy.
  - intros F get x y Hx Hy. cbn. now rewrite Hx, Hy.
  - intros F e He get get' A B. cbn in He. destruct He as [<-|[<-|[<-|[]]]].
    + cbn. rewrite (A "p_sub"%string), (B "r_sub"%string) by (try discriminate; now left). reflexivity.
    + cbn. rewrite (A "p_obj"%string), (B "r_obj"%string) by (try discriminate; now left). reflexivity.
    + cbn. rewrite (A "p_act"%string), (B "r_act"%string) by (try discriminate; now left). reflexivity.
Qed.
Definition e_setup : list (orders * mcall) := map (fun c => (ex_o, c)) rbac_defs.
Definition e_h : list (orders * mcall) :=
  (e_setup ++ [(ex_o, CAdd ["p"; "admin"; "data1"; "read"]); (ex_rev, CAdd ["g"; "alice"; "manager"])]%string ++ (ex_rev, CBuild) ::
   [(ex_o, CAdd ["p"; "carol"; "data1"; "read"]); (ex_o, CAdd ["g"; "manager"; "admin"]);
    (ex_rev, CAdd ["p"; "bob"; "data2"; "write"]); (ex_rev, CRemove ["p"; "carol"; "data1"; "read"])]%string).
Lemma e_h_rbac : rbac_history e_h.
Proof.
  exists e_setup. eexists _, _, _. split; [reflexivity|]. split; [reflexivity|].
  split; repeat (apply Forall_cons; [cbn; first [right; now eauto|left; eexists _, _, _; split; [reflexivity|repeat constructor]]|]); apply Forall_nil.
Qed.
Definition ask (h : list (orders * mcall)) (sub obj act : string) : outcome (bool * option goerr) :=
  let! (m, _) := mexec rbac_env (NewModel rbac_env) h in
  let! (_, r) := Enforce rbac_env ex_rev m (req sub obj act) in Val r.
Example C59_ex :
  understands rbac_env /\ rbac_history e_h /\ good_m e_h /\
  ask e_h "alice" "data1" "read" = Val (true, None) /\ ask e_h "alice" "data1" "write" = Val (false, None) /\
  ask e_h "bob" "data2" "write" = Val (true, None) /\ ask e_h "carol" "data1" "read" = Val (false, None).
Proof.
  split; [exact rbac_understands|]. split; [exact e_h_rbac|]. split.
  - repeat (apply Forall_cons; [first [apply ex_o_good|apply ex_rev_good]|]); apply Forall_nil.
  - repeat split; vm_compute; reflexivity.
Qed.

(** A decider of [permitted] used for the counterexamples. *)
Lemma not_permitted_rules h sub obj act : (forall r, ~ present h ["p"; r; obj; act]%string) -> ~ permitted h sub obj act.
Proof. intros H [r [Hp _]]. exact (H r Hp). Qed.

(** With an empty action a request is allowed although the only rule was removed
    again: the emptied node of the index still answers, with a blank rule. *)
Theorem C59_blank_refuted :
  exists E h o sub obj act m rs, understands E /\ rbac_history h /\ good_m h /\ good_orders o /\
    mexec E (NewModel E) h = Val (m, rs) /\
    Enforce E o m (req sub obj act) = Val (m, (true, None)) /\ ~ permitted h sub obj act.
Proof.
  set (h := (e_setup ++ [] ++ (ex_o, CBuild) :: [(ex_o, CAdd ["p"; "alice"; "data1"; "read"]); (ex_o, CRemove ["p"; "alice"; "data1"; "read"])]%string)).
  exists rbac_env, h, ex_o, "alice"%string, "data1"%string, ""%string.
  eexists _, _. split; [exact rbac_understands|]. split; [|split; [|split; [apply ex_o_good|]]].
  - exists e_setup. eexists _, _, _. split; [reflexivity|]. split; [reflexivity|].
    split; repeat (apply Forall_cons; [cbn; left; eexists _, _, _; split; [reflexivity|repeat constructor]|]); apply Forall_nil.
  - repeat (apply Forall_cons; [apply ex_o_good|]); apply Forall_nil.
  - split; [vm_compute; reflexivity|]. split; [vm_compute; reflexivity|].
    apply not_permitted_rules. intros r [[_ [ops [Ho Hr]]]|[X _]]; [|discriminate X].
    change (p_history "p" h) with (Some [PAdd ["alice"; "data1"; "read"]; PRemove ["alice"; "data1"; "read"]]%string) in Ho.
    injection Ho as <-. cbn in Hr. unfold set_remove, set_add, set_empty, rule_eqb in Hr.
    destruct (rule_eq_dec _ _); discriminate.
Qed.
Print Assumptions C59_blank_refuted.

(** Values with commas: two different rules share one identity in the policy, the
    second is not stored, and what it permits is denied. *)
Theorem C59_comma_refuted :
  exists E h o sub obj act m rs, understands E /\ good_m h /\ good_orders o /\
    map snd h = rbac_defs ++ [CBuild; CAdd ["p"; "a"; "b,c"; "read"]; CAdd ["p"; "a,b"; "c"; "read"]]%string /\
    mexec E (NewModel E) h = Val (m, rs) /\ act <> ""%string /\
    Enforce E o m (req sub obj act) = Val (m, (false, None)) /\ permitted h sub obj act.
Proof.
  exists rbac_env, (e_setup ++ [(ex_o, CBuild); (ex_o, CAdd ["p"; "a"; "b,c"; "read"]); (ex_o, CAdd ["p"; "a,b"; "c"; "read"])]%string),
    ex_o, "a,b"%string, "c"%string, "read"%string.
  eexists _, _. split; [exact rbac_understands|]. split; [|split; [apply ex_o_good|split; [reflexivity|split; [vm_compute; reflexivity|]]]].
  - repeat (apply Forall_cons; [apply ex_o_good|]); apply Forall_nil.
  - split; [discriminate|]. split; [vm_compute; reflexivity|]. exists "a,b"%string. split; [|now left].
    left. split; [reflexivity|]. eexists. split; [reflexivity|]. reflexivity.
Qed.
Print Assumptions C59_comma_refuted.
