(** Property C89: the filters of the README report exactly the rules that meet
    their conditions. *)
From Verif Require Import GoBase GoBaseP DefsM DefsP PolicyM PolicySpec PolicyP EffectorM MatcherDefM MatcherDefSpec MatcherDefP MatcherM MatcherSpec MatcherP MatcherP2
  RbacM RbacSpec DomainM DomainSpec EvalM ModelM ModelSpec ModelP ModelP2 ModelP3 ModelP4 ModelP5 ModelP6 EnforcerM EnforcerSpec EnforcerP
  SafeSpec SafeP FunctionsSpec FunctionsP AppSpec AppsSpec MultiSpec FiltersSpec.
From Verif Require Import Prop_Effect Prop_Defs Prop_Matcher Prop_Model Prop_Enforce Prop_Query Prop_Adhoc Prop_Functions Prop_App Prop_Apps Prop_Multi Prop_Columns.
Local Open Scope list_scope.

Lemma fc_expr sk c : tokensToExpr (fc_tokens sk c) = fc_text sk c.
Proof. destruct c as [x [|gk] v]; unfold fc_tokens, fc_text; cbn; rewrite ?str_nil, ?str_assoc; reflexivity. Qed.
Lemma fc_atom sk c : atom_ok (fc_tokens sk c).
Proof. destruct c as [x [|gk] v]; apply atom_checked; reflexivity. Qed.
Lemma fc_all sk c cs : fc_form sk c cs = all_of (fc_tokens sk c) (map (fc_tokens sk) cs).
Proof. unfold fc_form, all_of. generalize (FAtom (fc_tokens sk c)) as f. induction cs as [|x cs IH]; intros f; [reflexivity|]. apply IH. Qed.
Lemma fc_exprs sk cs : map tokensToExpr (map (fc_tokens sk) cs) = map (fc_text sk) cs.
Proof. induction cs as [|c cs IH]; [reflexivity|]. cbn [map]. now rewrite fc_expr, IH. Qed.

Lemma sec_val sk t (r : rule) rd vs n y a : p_key sk \/ g_key sk -> NoDup (named_columns t) -> List.length r <= List.length (named_columns t) ->
  nth_error (named_columns t) n = Some y -> nth_error r n = Some a ->
  GetParameter (NewPolicyDef sk t) r (sk ++ "_" ++ y)%string = Some a /\ ParamGet (NewPolicyDef sk t) r rd vs (sk ++ "_" ++ y)%string = Val (Some (VStr a)).
Proof.
  intros K N L H V. pose proof (GetParameter_nth sk t r n y N H) as X. cbv zeta in X. change NewArgDef with NewPolicyDef in X.
  change (ad_args (NewPolicyDef sk t)) with (named_columns t) in X. replace (Nat.ltb _ _) with false in X by (symmetry; apply Nat.ltb_ge; exact L). rewrite V in X.
  split; [exact X|]. destruct sk as [|c sk]; [destruct K; discriminate|]. destruct K as [K|K]; injection K as ->; cbn [append ParamGet Ascii.eqb Bool.eqb orb] in *; now rewrite X.
Qed.
Lemma file_fns E d h m rs : well_formed d -> file_history d h -> mexec E (NewModel E) h = Val (m, rs) ->
  (forall k g, In (G_SEC, k, g) d -> In k (mkeys (md_fm m))) /\ (forall k, In k (mkeys (e_builtins E)) -> In k (mkeys (md_fm m))).
Proof.
  intros W Ah Hm. pose proof (fns_exec _ _ _ _ Hm) as Fn.
  assert (Reg : forall k, fn_source E k h <> None -> In k (mkeys (md_fm m))).
  { intros k Hk. specialize (Fn k). destruct (mget k (md_fm m)) as [v|] eqn:Ev; [apply mget_In in Ev; apply in_map_iff; exists (k, v); auto|].
    exfalso. destruct (fn_source E k h) as [[f0|]|]; [discriminate| |congruence]. destruct Fn as [i [rm [ls [_ [_ X]]]]]. discriminate. }
  split.
  - intros k g Hi. apply Reg. rewrite (file_role E d h k g W Ah Hi). discriminate.
  - intros k Hk. apply Reg. destruct Ah as (hd & hr1 & ob & hr2 & -> & Hd & H1 & H2). unfold fn_source.
    rewrite !map_app, !fold_left_app, Hd, (ffn_more d hr1 k H1). cbn [map snd fold_left fn_step]. rewrite (ffn_more d hr2 k H2). apply fn_keeps.
    destruct (mget k (e_builtins E)) as [b|] eqn:Eb; [discriminate|]. apply mget_None in Eb. contradiction.
Qed.
Lemma file_def d h s k t : well_formed d -> file_history d h -> def_text s k h = Some t <-> In (s, k, t) d.
Proof. intros W (hd & hr1 & ob & hr2 & -> & Hd & H1 & H2). now apply (o_def' d). Qed.
Lemma p_rules d h pk pt r : well_formed d -> file_history d h -> In (P_SEC, pk, pt) d -> present h (pk :: r) ->
  comma_free r /\ List.length r = List.length (named_columns pt).
Proof.
  intros W Ah Hp Hr. pose proof (p_byte _ _ _ (proj2 W) Hp) as Kp. destruct Hr as [[_ [ops [Ho Hr]]]|[X _]]; [|destruct (pg_key _ Kp X)].
  assert (Hi : In (PAdd r) ops) by (rewrite <- (app_nil_r ops); now apply recorded_adds).
  assert (Ha : added_to pk h r) by (destruct (pk_adds pk r _ _ _ Ho Hi) as [[l [X _]]|X]; [discriminate|exact X]).
  split; [|exact (added_columns d h pk pt r W Ah Hp Ha)].
  pose proof (file_good_tame d h W Ah) as T. unfold added_to in Ha. apply in_map_iff in Ha as [x [Hx Hin]]. unfold tame in T. rewrite Forall_forall in T.
  specialize (T x Hin). rewrite Hx in T. now apply T.
Qed.

(** ** C89

    Every file, every history of rules around the build, every order of map visits;
    every filter text that compares any number of columns of a policy or grouping
    section with constants, by equality or by a grouping section.  Filter reports
    exactly the present rules of the section that meet all conditions.  The section
    has a rule, or one of the conditions asks for a value that is not empty. *)
Theorem C89_filter_by_constants_partial :
  forall E d R h, well_formed d -> readings E d R -> file_history d h -> good_m h ->
    exists m rs, mexec E (NewModel E) h = Val (m, rs) /\
      forall text sk cols c cs rk rt o ps,
        filter_text E d text sk cols c cs -> ordinary_groups h sk cols (c :: cs) ->
        In (R_SEC, rk, rt) d -> uses_text text ps -> uses_request rk ps -> good_orders o ->
        (exists r, present h (sk :: r)) \/ (exists x, In x (c :: cs) /\ fc_how x = Same /\ fc_val x <> ""%string) ->
        exists m' ms, Filter E o m ps = Val (m', (ms, None)) /\
          forall x, In x ms <-> exists r, x = sk :: r /\ present h x /\ Forall (meets h cols r) (c :: cs).
Proof.
  intros E d R h W U Ah G. destruct (C87_each_matcher_decides_partial E d R h W U Ah G) as (m & rs & Hm & _). exists m, rs. split; [exact Hm|].
  intros text sk cols c cs rk rt o ps T Og Ir Ut Ur Go Hne. set (F := functions o m). set (f := fc_form sk c cs).
  pose proof (ft_distinct _ _ _ _ _ _ _ T) as Nd. pose proof (ft_columns _ _ _ _ _ _ _ T) as Cl. pose proof (ft_plain _ _ _ _ _ _ _ T) as Pl.
  pose proof (ft_groups _ _ _ _ _ _ _ T) as Gr. pose proof (ft_eval _ _ _ _ _ _ _ T) as Ev. rewrite Forall_forall in Cl, Pl, Gr, Ev.
  assert (Cd : conds f = map (fc_text sk) (c :: cs)) by (unfold f; rewrite fc_all, all_of_conds; exact (fc_exprs sk (c :: cs))).
  assert (Kf : GetPolicyKey (f_root f) = sk).
  { apply root_key; [| |apply T].
    - intros e x He Hx. rewrite Cd in He. apply in_map_iff in He as [y [<- Hy]]. rewrite (Pl y Hy) in Hx. destruct Hx as [<-|[]]. now exists (fc_col y).
    - right. exists (fc_text sk c), (fc_name sk c). rewrite Cd. split; [now left|]. rewrite (Pl c (or_introl eq_refl)). now left. }
  destruct (file_fns E d h m rs W Ah Hm) as [Hfg Hfb].
  assert (Bd : Build (e_grow E) (e_parse E (mkeys (md_fm m))) text = inl (f_root f)).
  { unfold Build. rewrite (ft_reads _ _ _ _ _ _ _ T _ Hfg Hfb). fold f.
    destruct (compile_faithful (e_grow E) f) as [hh ->]; [split| |reflexivity].
    - unfold f. rewrite fc_all. apply all_of_atoms. change (fc_tokens sk c :: map (fc_tokens sk) cs) with (map (fc_tokens sk) (c :: cs)).
      apply Forall_map, Forall_forall. intros x _. apply fc_atom.
    - unfold f. rewrite fc_all. apply all_of_shape.
    - unfold f. rewrite fc_all. apply all_of_shape. }
  assert (Nw : narrow (f_root f) = true).
  { unfold f_root. rewrite two_way_narrow. unfold f. rewrite fc_all. destruct (all_of_shape (fc_tokens sk c) (map (fc_tokens sk) cs)) as (_ & _ & _ & _ & Al & An).
    unfold two_way. now rewrite Al, An. }
  (* the section *)
  assert (Sec : exists t, cols = named_columns t /\ described h sk (NewPolicyDef sk t) /\ (p_key sk \/ g_key sk) /\
            forall r, present h (sk :: r) -> comma_free r /\ List.length r <= List.length cols /\
              Forall (fun x => exists n b, nth_error cols n = Some (fc_col x) /\ nth_error r n = Some b) (c :: cs)).
  { destruct (ft_section _ _ _ _ _ _ _ T) as [[pt [Hp Ec]]|[gt [Hg Ec]]].
    - exists pt. split; [exact Ec|]. pose proof (p_byte _ _ _ (proj2 W) Hp) as Kp. split; [left; split; [exact Kp|exists pt; split; [now apply (file_def d)|reflexivity]]|].
      split; [now left|]. intros r Hr. destruct (p_rules d h sk pt r W Ah Hp Hr) as [Cf L]. rewrite Ec. split; [exact Cf|]. split; [lia|].
      apply Forall_forall. intros x Hx. destruct (In_nth_error _ _ (Cl x Hx)) as [n Hn]. rewrite Ec in Hn.
      destruct (nth_error r n) as [b|] eqn:Eb; [exists n, b; auto|]. apply nth_error_None in Eb. assert (n < List.length (named_columns pt)) by (apply nth_error_Some; congruence). lia.
    - exists "user, role, domain"%string. split; [exact Ec|]. pose proof (g_byte _ _ _ (proj2 W) Hg) as Kg.
      split; [right; split; [exact Kg|split; [exists gt; now apply (file_def d)|reflexivity]]|]. split; [now right|]. exact (Og Kg). }
  destruct Sec as (t & Ec & Ds & Ks & Rl). set (pd := NewPolicyDef sk t) in *. set (rd := NewRequestDef rk rt).
  assert (Q : text_query E h m o ps (f_root f) pd rd).
  { constructor; auto.
    - exact (file_good_tame d h W Ah).
    - eauto.
    - eauto.
    - now rewrite Kf.
    - rewrite Kf. apply told_apart_plain. intros r Hr. now apply Rl.
    - exists rk, rt. split; [exact Ur|]. split; [exact (proj2 W _ _ _ Ir)|]. split; [now apply (file_def d)|reflexivity]. }
  (* the value of one condition *)
  assert (One : forall x (r : rule) n b, In x (c :: cs) -> List.length r <= List.length cols -> nth_error cols n = Some (fc_col x) -> nth_error r n = Some b ->
            parses (e_eval E F) (fc_text sk x) = true /\ reads_only_named (e_eval E F) (fc_text sk x) /\ GetParameter pd r (fc_name sk x) = Some b /\
            exists v, ev (e_eval E F) (fc_text sk x) (ParamGet pd r rd (vals_of ps)) = Val (inl (VBool v)) /\ (v = true <-> related h (fc_how x) (fc_val x) b)).
  { intros x r n b Hx L Hn Hb. specialize (Gr x Hx). specialize (Ev x Hx). rewrite Ec in Hn, L, Nd.
    destruct (sec_val sk t r rd (vals_of ps) n (fc_col x) b Ks Nd L Hn Hb) as [G1 G2]. fold pd in G1, G2. change (sk ++ "_" ++ fc_col x)%string with (fc_name sk x) in G1, G2.
    unfold fc_evaluates in Ev. destruct (fc_how x) as [|gk].
    - destruct (Ev F (fun _ => Panic) Logic.I) as (P1 & P2 & P3). split; [exact P1|]. split; [exact P2|]. split; [exact G1|].
      exists (String.eqb (fc_val x) b). split; [exact (P3 _ b G2)|]. cbn [related]. apply String.eqb_eq.
    - destruct Gr as [gt [Hg Hn2]]. destruct (file_links d h gk gt W Ah Hg) as [cl Hl]. rewrite (fresh_two gk gt Hn2) in Hl.
      destruct (C66_role_function E h m rs o gk cl G Go (file_good_tame d h W Ah) Hm (g_byte _ _ _ (proj2 W) Hg) (file_role E d h gk gt W Ah Hg) Hl) as [fg [Fg Hfg']].
      destruct (Ev F fg Fg) as (P1 & P2 & P3). split; [exact P1|]. split; [exact P2|]. split; [exact G1|].
      destruct (Hfg' (fc_val x) b []) as [v [Hv Hi]]. exists v. split; [exact (eq_trans (P3 _ b G2) Hv)|exact Hi]. }
  assert (Bl : forall x, In x (c :: cs) -> exists n, nth_error cols n = Some (fc_col x) /\ nth_error (blank pd) n = Some ""%string).
  { intros x Hx. destruct (In_nth_error _ _ (Cl x Hx)) as [n Hn]. exists n. split; [exact Hn|]. unfold blank. apply nth_error_repeat.
    change (ad_args pd) with (named_columns t). rewrite <- Ec. apply nth_error_Some. congruence. }
  assert (Lb : List.length (blank pd) <= List.length cols) by (unfold blank; rewrite repeat_length, Ec; reflexivity).
  assert (SC : text_sound E h o m ps pd rd (f_root f)).
  { unfold text_sound. rewrite Kf. apply sound_named. intros e He. apply texts_root in He. rewrite Cd in He. apply in_map_iff in He as [x [<- Hx]].
    assert (Val' : forall r, present h (sk :: r) -> exists n b, nth_error cols n = Some (fc_col x) /\ nth_error r n = Some b /\ List.length r <= List.length cols).
    { intros r Hr. destruct (Rl r Hr) as (_ & L & Fa). rewrite Forall_forall in Fa. destruct (Fa x Hx) as (n & b & Hn & Hb). exists n, b. auto. }
    split; [|split].
    - intros r Hr z Hz. rewrite (Pl x Hx) in Hz. destruct Hz as [<-|[]]. destruct (Val' r Hr) as (n & b & Hn & Hb & L).
      destruct (One x r n b Hx L Hn Hb) as (_ & _ & Gp & _). rewrite Gp. discriminate.
    - destruct (Bl x Hx) as (n & Hn & Hb). apply (One x (blank pd) n _ Hx Lb Hn Hb).
    - intros r [Hr| ->].
      + destruct (Val' r Hr) as (n & b & Hn & Hb & L). destruct (One x r n b Hx L Hn Hb) as (P1 & _ & _ & v & P3 & _). split; [exact P1|eauto].
      + destruct (Bl x Hx) as (n & Hn & Hb). destruct (One x (blank pd) n _ Hx Lb Hn Hb) as (P1 & _ & _ & v & P3 & _). split; [exact P1|eauto]. }
  assert (Me : forall r, matches E o m ps pd rd (f_root f) r = forallb (fun x => holds (e_eval E F) pd rd (vals_of ps) (fc_text sk x) r) (c :: cs)).
  { intros r. unfold matches. rewrite satisfies_accepts. unfold f_root. cbn [stage_children]. rewrite ptree_sem. cbn [existsb]. rewrite andb_true_r.
    unfold f. rewrite fc_all, all_of_sem. fold F.
    assert (X : forall l, forallb (fun e => holds (e_eval E F) pd rd (vals_of ps) e r) (map tokensToExpr (map (fc_tokens sk) l)) =
                          forallb (fun x => holds (e_eval E F) pd rd (vals_of ps) (fc_text sk x) r) l).
    { induction l as [|x l IH]; [reflexivity|]. cbn [map forallb]. now rewrite IH, fc_expr. }
    exact (X (c :: cs)). }
  assert (Mm : forall r, present h (sk :: r) -> (matches E o m ps pd rd (f_root f) r = true <-> Forall (meets h cols r) (c :: cs))).
  { intros r Hr. rewrite Me, forallb_forall, Forall_forall. destruct (Rl r Hr) as (_ & L & Fa). rewrite Forall_forall in Fa.
    assert (Px : forall x, In x (c :: cs) -> (holds (e_eval E F) pd rd (vals_of ps) (fc_text sk x) r = true <-> meets h cols r x)).
    { intros x Hx. destruct (Fa x Hx) as (n & b & Hn & Hb). destruct (One x r n b Hx L Hn Hb) as (_ & _ & _ & v & P3 & P4). unfold holds. rewrite P3. split.
      - intros Hv. exists n, b. split; [exact Hn|]. split; [exact Hb|]. apply P4. now destruct v.
      - intros (n' & b' & Hn' & Hb' & Hr'). assert (n' = n) as ->.
        { apply (proj1 (NoDup_nth_error cols) Nd); [apply nth_error_Some; congruence|congruence]. }
        rewrite Hb in Hb'. injection Hb' as <-. apply P4 in Hr'. now subst v. }
    split; intros H x Hx; apply Px; auto. }
  destruct (C73_filter_text E h m o ps (f_root f) pd rd Q SC) as (m' & ms & HF & Some' & None'). rewrite Kf in Some', None'. exists m', ms. split; [exact HF|].
  assert (Bf : (exists x, In x (c :: cs) /\ fc_how x = Same /\ fc_val x <> ""%string) -> matches E o m ps pd rd (f_root f) (blank pd) = true -> False).
  { intros (x & Hx & Hh & Hv) Hmt. rewrite Me, forallb_forall in Hmt. specialize (Hmt x Hx). destruct (Bl x Hx) as (n & Hn & Hb).
    destruct (One x (blank pd) n _ Hx Lb Hn Hb) as (_ & _ & _ & v & P3 & P4). unfold holds in Hmt. rewrite P3 in Hmt. rewrite Hh in P4. apply Hv, P4. now destruct v. }
  assert (Full : (exists r, present h (sk :: r)) -> forall x, In x ms <-> exists r, x = sk :: r /\ present h x /\ Forall (meets h cols r) (c :: cs)).
  { intros Hex x. rewrite (proj1 (Some' Hex)). split; intros [r [-> [Hp Hx]]]; exists r; (split; [reflexivity|]); (split; [exact Hp|]); now apply (Mm r Hp). }
  destruct Hne as [Hex|Hc]; [now apply Full|].
  destruct (text_lives _ _ _ _ _ _ _ _ Q) as (l & _ & _ & _ & _ & _ & _ & Hl & _). rewrite Kf in Hl. destruct l as [|r0 l].
  - assert (He : forall r, ~ present h (sk :: r)) by (intros r Hr; exact (proj2 (Hl r) Hr)).
    intros x. rewrite (None' He). split; [intros [_ Hb]; destruct (Bf Hc Hb)|]. intros [r [-> [Hp _]]]. destruct (He r Hp).
  - apply Full. exists r0. apply Hl. now left.
Qed.
Print Assumptions C89_filter_by_constants_partial.

(** ** The three filters of the README *)
Definition rd_defs : deflist :=
  [(R_SEC, "r", "sub, dom, act"); (P_SEC, "p", "sub, dom, act"); (G_SEC, "g", "_, _"); (E_SEC, "e", "some(where (p.eft == allow))");
   (M_SEC, "m", "g(r.sub, p.sub) && r.dom == p.dom && r.act == p.act")]%string.
Definition rd_form : form := all_of (col_tokens "r" "p" ("sub", Via "g")%string) (map (col_tokens "r" "p") [("dom", Same); ("act", Same)]%string).
Definition in_domain1 : fcond := mkF "dom" Same "domain1".
Definition for_alice : fcond := mkF "sub" (Via "g") "alice".
Definition reading : fcond := mkF "act" Same "read".
Definition of_alice : fcond := mkF "user" Same "alice".
Definition q (s : string) : string := (String "034" s ++ String "034" "")%string.
Definition text1 : string := ("p.dom == " ++ q "domain1")%string.
Definition text2 : string := ("g(" ++ q "alice" ++ ", p.sub) && p.act == " ++ q "read")%string.
Definition text3 : string := ("g.user == " ++ q "alice")%string.
Definition rd_env : env :=
  mkEnv (fun n => n)
    (fun fns s =>
       if in_dec string_dec "g"%string fns then
         if String.eqb s (arg_replace "g(r.sub, p.sub) && r.dom == p.dom && r.act == p.act") then Some (written rd_form)
         else if String.eqb s (arg_replace text1) then Some (written (fc_form "p" in_domain1 []))
         else if String.eqb s (arg_replace text2) then Some (written (fc_form "p" for_alice [reading]))
         else if String.eqb s (arg_replace text3) then Some (written (fc_form "g" of_alice []))
         else if String.eqb s "p_dom == """""%string then Some (written (fc_form "p" (mkF "dom" Same "") []))
         else None else None)
    (fun fs => mini (match fs "g"%string with Some f => [("g"%string, f)] | None => [] end)) [].
Lemma rd_wf : well_formed rd_defs.
Proof.
  split; [repeat (apply NoDup_cons; [cbn; intuition discriminate|]); apply NoDup_nil|].
  intros s k t H. repeat (destruct H as [H|H]; [injection H as <- <- <-; eexists; split; reflexivity|]). destruct H.
Qed.
Lemma rd_reads : readings rd_env rd_defs (fun _ => (rd_form, "p"%string)).
Proof.
  intros mk t H. repeat (destruct H as [H|H]; [first [discriminate H|injection H as <- <-]|]); [|destruct H]. split; [|eexists; cbn; tauto].
  constructor; [|intros fns; cbn [e_parse rd_env]; destruct (in_dec string_dec "g"%string fns); auto; left; reflexivity
    |apply all_of_atoms; repeat (apply Forall_cons; [apply col_atom|]); apply Forall_nil|apply all_of_shape|apply all_of_shape|reflexivity| | |reflexivity].
  - intros fns Hg _. cbn [e_parse rd_env]. destruct (in_dec string_dec "g"%string fns) as [|n]; [reflexivity|destruct n; eapply Hg; cbn; tauto].
  - intros e x He Hx. vm_compute in He. repeat (destruct He as [<-|He]; [vm_compute in Hx; destruct Hx as [<-|[]]; now eexists|]). destruct He.
  - now left.
Qed.
Ltac fc_val := let H := fresh in intros get b H; match goal with
  |- _ = match fc_how ?c with _ => _ end =>
     first [transitivity (Val (@inl value goerr (VBool (value_eqb (VStr b) (VStr (fc_val c)))))); [cbn in H |- *; rewrite H; reflexivity|cbn [value_eqb]; rewrite String.eqb_sym; reflexivity]
           |cbn in H |- *; rewrite H; reflexivity] end.
Ltac fc_tac := intros F f Hf; cbn in Hf; cbn [e_eval rd_env]; first [rewrite Hf|destruct (F "g"%string)]; (split; [reflexivity|]; split;
  [intros get get' A B; cbn; repeat match goal with |- context [get ?x] => rewrite (A x) by (now left) end; reflexivity|fc_val]).
Ltac ft_tac := constructor;
  [intros fns Hg _; cbn [e_parse rd_env]; destruct (in_dec string_dec "g"%string fns) as [|n]; [reflexivity|destruct n; eapply Hg; cbn; tauto]
  |first [left; eexists; split; [cbn; tauto|reflexivity]|right; eexists; split; [cbn; tauto|reflexivity]]
  |repeat (apply NoDup_cons; [cbn; intuition discriminate|]); apply NoDup_nil
  |reflexivity
  |repeat (apply Forall_cons; [cbn; tauto|]); apply Forall_nil
  |repeat (apply Forall_cons; [vm_compute; reflexivity|]); apply Forall_nil
  |repeat (apply Forall_cons; [first [exact Logic.I|exists "_, _"%string; split; [cbn; tauto|reflexivity]]|]); apply Forall_nil
  |repeat (apply Forall_cons; [fc_tac|]); apply Forall_nil].
Lemma rd_text1 : filter_text rd_env rd_defs text1 "p" ["sub"; "dom"; "act"]%string in_domain1 [].
Proof. ft_tac. Qed.
Lemma rd_text2 : filter_text rd_env rd_defs text2 "p" ["sub"; "dom"; "act"]%string for_alice [reading].
Proof. ft_tac. Qed.
Lemma rd_text3 : filter_text rd_env rd_defs text3 "g" ["user"; "role"; "domain"]%string of_alice [].
Proof. ft_tac. Qed.
Definition rd_setup (l1 l2 : list mcall) : list (orders * mcall) :=
  map (fun x => (ex_o, x)) (set_all rd_defs) ++ map (fun x => (ex_rev, x)) l1 ++ (ex_rev, CBuild) :: map (fun x => (ex_o, x)) l2.
Lemma rd_setup_file l1 l2 : Forall (file_call rd_defs) l1 -> Forall (file_call rd_defs) l2 -> file_history rd_defs (rd_setup l1 l2).
Proof.
  intros F1 F2. exists (map (fun x => (ex_o, x)) (set_all rd_defs)), (map (fun x => (ex_rev, x)) l1), ex_rev, (map (fun x => (ex_o, x)) l2).
  split; [reflexivity|]. split; [rewrite map_map; apply map_id|]. split; apply Forall_map; assumption.
Qed.
Lemma rd_setup_good l1 l2 : good_m (rd_setup l1 l2).
Proof.
  unfold good_m, rd_setup. apply Forall_app. split; [|apply Forall_app; split; [|constructor; [apply ex_rev_good|]]];
    apply Forall_map, Forall_forall; intros x _; first [apply ex_o_good|apply ex_rev_good].
Qed.
Definition rd_h : list (orders * mcall) := rd_setup
  [CAdd ["p"; "admin"; "domain1"; "read"]; CAdd ["p"; "bob"; "domain1"; "write"]; CAdd ["g"; "alice"; "admin"]]%string
  [CAdd ["p"; "carol"; "domain2"; "read"]; CAdd ["g"; "bob"; "admin"]; CRemove ["p"; "bob"; "domain1"; "write"]; CAdd ["p"; "alice"; "domain2"; "read"]]%string.
Definition listed (E : env) (h : list (orders * mcall)) (text : string) : outcome (list rule * option goerr) :=
  let! (m, _) := mexec E (NewModel E) h in let! (_, r) := Filter E ex_rev m [POpt (OMatcher text)] in Val r.
Lemma text_used text : first_byte text <> Some "m"%char -> text <> ""%string -> uses_text text [POpt (OMatcher text)].
Proof.
  intros Hf Hn. split; [intros [c [Hc H]]; injection Hc as <-; contradiction|]. split; [exact Hn|].
  exists [], [], (OMatcher text). split; [reflexivity|]. split; [now left|apply Forall_nil].
Qed.
Example C89_ex :
  well_formed rd_defs /\ readings rd_env rd_defs (fun _ => (rd_form, "p"%string)) /\ file_history rd_defs rd_h /\ good_m rd_h /\
  filter_text rd_env rd_defs text1 "p" ["sub"; "dom"; "act"]%string in_domain1 [] /\
  filter_text rd_env rd_defs text2 "p" ["sub"; "dom"; "act"]%string for_alice [reading] /\
  filter_text rd_env rd_defs text3 "g" ["user"; "role"; "domain"]%string of_alice [] /\
  ordinary_groups rd_h "g" ["user"; "role"; "domain"]%string [of_alice] /\
  (forall t, In t [text1; text2; text3] -> uses_text t [POpt (OMatcher t)] /\ uses_request "r" [POpt (OMatcher t)]) /\
  listed rd_env rd_h text1 = Val ([["p"; "admin"; "domain1"; "read"]]%string, None) /\
  listed rd_env rd_h text2 = Val ([["p"; "admin"; "domain1"; "read"]; ["p"; "alice"; "domain2"; "read"]]%string, None) /\
  listed rd_env rd_h text3 = Val ([["g"; "alice"; "admin"]]%string, None).
Proof.
  split; [exact rd_wf|]. split; [exact rd_reads|]. split; [apply rd_setup_file; file_tac|]. split; [apply rd_setup_good|].
  split; [exact rd_text1|]. split; [exact rd_text2|]. split; [exact rd_text3|]. split.
  { intros _ r Hr. apply g_present in Hr; [|reflexivity]. destruct Hr as (s & a & b & ds & Hs & -> & Hl). vm_compute in Hs. injection Hs as <-.
    destruct ds as [|x ds]; [|discriminate Hl]. split; [|split; [cbn; lia|]].
    - assert (X : (a = "alice"%string \/ a = "bob"%string) /\ b = "admin"%string).
      { revert Hl. clear. unfold linked. cbn. unfold link_add, no_links.
        destruct (String.eqb_spec a "bob"), (String.eqb_spec b "admin"), (String.eqb_spec a "alice"); cbn; intros H; try discriminate H; subst; auto. }
      destruct X as [[-> | ->] ->]; (split; [discriminate|repeat (apply Forall_cons; [reflexivity|]); apply Forall_nil]).
    - repeat (apply Forall_cons; [exists 0, a; split; reflexivity|]). apply Forall_nil. }
  split.
  { intros t [<-|[<-|[<-|[]]]]; (split; [apply text_used; discriminate|split; [repeat constructor|now left]]). }
  repeat split; vm_compute; reflexivity.
Qed.

(** ** Without a rule and with an empty constant the filter reports a rule that is
    not there *)
Definition rd_empty : list (orders * mcall) := rd_setup [] [].
Definition text0 : string := ("p.dom == " ++ q "")%string.
Theorem C89_empty_refuted :
  ~ (forall E d R h, well_formed d -> readings E d R -> file_history d h -> good_m h ->
      exists m rs, mexec E (NewModel E) h = Val (m, rs) /\
        forall text sk cols c cs rk rt o ps,
          filter_text E d text sk cols c cs -> ordinary_groups h sk cols (c :: cs) ->
          In (R_SEC, rk, rt) d -> uses_text text ps -> uses_request rk ps -> good_orders o ->
          exists m' ms, Filter E o m ps = Val (m', (ms, None)) /\
            forall x, In x ms <-> exists r, x = sk :: r /\ present h x /\ Forall (meets h cols r) (c :: cs)).
Proof.
  intros X. destruct (X rd_env rd_defs (fun _ => (rd_form, "p"%string)) rd_empty rd_wf rd_reads) as (m & rs & Hm & D).
  - apply rd_setup_file; apply Forall_nil.
  - apply rd_setup_good.
  - destruct (D text0 "p"%string ["sub"; "dom"; "act"]%string (mkF "dom" Same "") [] "r"%string "sub, dom, act"%string ex_o [POpt (OMatcher text0)]) as (m' & ms & HF & Hms).
    + ft_tac.
    + intros K. discriminate K.
    + cbn. tauto.
    + apply text_used; discriminate.
    + split; [repeat constructor|now left].
    + apply ex_o_good.
    + assert (Hd : mexec rd_env (NewModel rd_env) rd_empty = Val (m, rs)) by exact Hm.
      assert (Y : exists r, (let! (m, _) := mexec rd_env (NewModel rd_env) rd_empty in let! (_, r) := Filter rd_env ex_o m [POpt (OMatcher text0)] in Val (fst r)) = Val r /\ In ["p"; ""; ""; ""]%string r)
        by (eexists; split; [vm_compute; reflexivity|now left]).
      destruct Y as [r [Y Hr]]. rewrite Hd in Y. cbn [obind] in Y. rewrite HF in Y. cbn [obind fst] in Y. injection Y as <-.
      apply Hms in Hr as [r [Er [Hp _]]]. injection Er as <-. destruct Hp as [[_ [ops [Ho Hp]]]|[K _]]; [|discriminate K].
      vm_compute in Ho. injection Ho as <-. discriminate Hp.
Qed.
Print Assumptions C89_empty_refuted.
