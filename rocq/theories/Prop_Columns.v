(** Property C88: a matcher that compares requests and rules column by column
    decides by the rules present, for any number of columns, grouping sections and
    other definitions. *)
From Verif Require Import GoBase GoBaseP DefsM DefsP PolicyM PolicySpec PolicyP EffectorM MatcherDefM MatcherDefSpec MatcherDefP MatcherM MatcherSpec MatcherP MatcherP2
  RbacM RbacSpec DomainM DomainSpec EvalM ModelM ModelSpec ModelP ModelP2 ModelP3 ModelP4 ModelP5 ModelP6 EnforcerM EnforcerSpec EnforcerP
  SafeSpec SafeP FunctionsSpec FunctionsP AppSpec AppsSpec MultiSpec.
From Verif Require Import Prop_Effect Prop_Defs Prop_Matcher Prop_Model Prop_Enforce Prop_Query Prop_Functions Prop_App Prop_Apps Prop_Multi.
Local Open Scope list_scope.

(** ** Conditions *)
Lemma col_expr rk pk c : tokensToExpr (col_tokens rk pk c) = col_text rk pk c.
Proof. destruct c as [x [|gk]]; unfold col_tokens, col_text; cbn; rewrite ?str_nil, ?str_assoc; reflexivity. Qed.
Lemma col_atom rk pk c : atom_ok (col_tokens rk pk c).
Proof. destruct c as [x [|gk]]; apply atom_checked; reflexivity. Qed.
Lemma col_form rk pk c cs : fold_left (fun f x => FAnd f (FAtom (col_tokens rk pk x))) cs (FAtom (col_tokens rk pk c)) = all_of (col_tokens rk pk c) (map (col_tokens rk pk) cs).
Proof.
  unfold all_of. generalize (FAtom (col_tokens rk pk c)) as f. induction cs as [|x cs IH]; intros f; [reflexivity|]. apply IH.
Qed.
Lemma col_exprs rk pk cs : map tokensToExpr (map (col_tokens rk pk) cs) = map (col_text rk pk) cs.
Proof. induction cs as [|c cs IH]; [reflexivity|]. cbn [map]. now rewrite col_expr, IH. Qed.

(** ** Values *)
Lemma val_p pk pt (r : rule) rd vs n y a : p_key pk -> NoDup (named_columns pt) -> List.length r = List.length (ad_args (NewPolicyDef pk pt)) ->
  nth_error (named_columns pt) n = Some y -> nth_error r n = Some a -> ParamGet (NewPolicyDef pk pt) r rd vs (pk ++ "_" ++ y)%string = Val (Some (VStr a)).
Proof.
  intros K N L H V. pose proof (GetParameter_nth pk pt r n y N H) as X. cbv zeta in X. change NewArgDef with NewPolicyDef in X. rewrite L, Nat.ltb_irrefl, V in X.
  destruct pk as [|c pk]; [discriminate|]. injection K as ->. cbn [append ParamGet Ascii.eqb Bool.eqb orb] in *. now rewrite X.
Qed.
Lemma val_r pd (r : rule) rk rt (vals : list string) n y a : key_of R_SEC rk -> NoDup (named_columns rt) -> List.length vals = List.length (ad_args (NewRequestDef rk rt)) ->
  nth_error (named_columns rt) n = Some y -> nth_error vals n = Some a -> ParamGet pd r (NewRequestDef rk rt) (map VStr vals) (rk ++ "_" ++ y)%string = Val (Some (VStr a)).
Proof.
  intros [b [Hb K]] N L H V. injection Hb as <-. pose proof (GetParameter_nth rk rt (map VStr vals) n y N H) as X. cbv zeta in X. change NewArgDef with NewRequestDef in X.
  rewrite map_length, L, Nat.ltb_irrefl, (map_nth_error _ _ _ V) in X.
  destruct rk as [|c rk]; [discriminate|]. injection K as ->. cbn [append ParamGet Ascii.eqb Bool.eqb orb] in *. now rewrite X.
Qed.

(** ** Grouping sections of a file *)
Lemma file_good_tame d h : well_formed d -> file_history d h -> tame h.
Proof. intros W (hd & hr1 & ob & hr2 & -> & Hd & H1 & H2). now apply (o_tame d). Qed.
Lemma fg_more d gk (hr : list (orders * mcall)) : Forall (fun x : orders * mcall => file_call d (snd x)) hr -> forall x l,
  exists l', fold_left (g_step gk) hr (Some (x, l)) = Some (x, l').
Proof.
  induction 1 as [|[o y] hr Hc F IH]; intros x l; cbn [fold_left]; [eauto|].
  cbn in Hc. destruct y; try (now destruct Hc); cbn [file_call] in Hc; cbn [g_step].
  - destruct (of_section gk r) as [[|a [|b ds]]|]; apply IH.
  - destruct (of_section gk r) as [[|a [|b ds]]|]; apply IH.
  - destruct (String.eqb _ gk); apply IH.
Qed.
Lemma fresh_two gk gt : rd_nargs (NewRoleDef gk gt) = 2 -> fresh_manager gt = IRole (NewRoleManager 10).
Proof. intros H. unfold fresh_manager. change (rd_nargs (NewRoleDef "" gt)) with (rd_nargs (NewRoleDef gk gt)). now rewrite H. Qed.
Lemma g_defs gk gt : forall (d : deflist) (hd : list (orders * mcall)), NoDup (map fst d) -> In (G_SEC, gk, gt) d -> map snd hd = set_all d -> forall acc,
  fold_left (g_step gk) hd acc = Some (fresh_manager gt, []).
Proof.
  assert (Keep : forall (d : deflist) (hd : list (orders * mcall)), ~ In (G_SEC, gk) (map fst d) -> map snd hd = set_all d -> forall acc, fold_left (g_step gk) hd acc = acc).
  { induction d as [|[[s k] t] d IH]; intros hd Hn Hd acc; destruct hd as [|[o c] hd]; try discriminate Hd; [reflexivity|].
    cbn [map snd set_all fst] in Hd. injection Hd as -> Hd. cbn [fold_left]. rewrite (IH hd); [|intros X; apply Hn; now right|exact Hd].
    cbn [g_step]. destruct s; try reflexivity. destruct (String.eqb_spec k gk) as [->|]; [|reflexivity]. destruct Hn. now left. }
  induction d as [|[[s k] t] d IH]; intros hd N Hi Hd acc; [destruct Hi|]. destruct hd as [|[o c] hd]; [discriminate Hd|].
  cbn [map snd set_all fst] in Hd, N. injection Hd as -> Hd. apply NoDup_cons_iff in N as [N1 N]. cbn [fold_left]. destruct Hi as [Hi|Hi].
  - injection Hi as -> -> ->. rewrite (Keep d hd N1 Hd). cbn. now rewrite String.eqb_refl.
  - now apply IH.
Qed.
Lemma file_links d h gk gt : well_formed d -> file_history d h -> In (G_SEC, gk, gt) d -> exists cs, g_history gk h = Some (fresh_manager gt, cs).
Proof.
  intros W (hd & hr1 & ob & hr2 & -> & Hd & H1 & H2) Hi. unfold g_history. rewrite !fold_left_app, (g_defs gk gt d hd (proj1 W) Hi Hd).
  destruct (fg_more d gk hr1 H1 (fresh_manager gt) []) as [l1 ->]. cbn [fold_left g_step]. now apply (fg_more d).
Qed.
Lemma fn_is_role gk gt : forall (d : deflist) acc, key_byte d -> NoDup (map fst d) -> In (G_SEC, gk, gt) d -> fold_left (fn_step gk) (set_all d) acc = Some FRole.
Proof.
  assert (Keep : forall (d : deflist) acc, acc = Some FRole -> fold_left (fn_step gk) (set_all d) acc = Some FRole).
  { induction d as [|[[s k] t] d IH]; intros acc H; cbn [set_all map fold_left]; [exact H|]. apply IH. cbn [fn_step fst snd].
    destruct s; try exact H. destruct (first_byte k); [|exact H]. destruct (_ && _); [reflexivity|exact H]. }
  induction d as [|[[s k] t] d IH]; intros acc K N Hi; [destruct Hi|]. cbn [set_all map fold_left]. cbn [map fst] in N. apply NoDup_cons_iff in N as [N1 N]. destruct Hi as [Hi|Hi].
  - injection Hi as -> -> ->. apply Keep. cbn [fn_step fst snd]. destruct (K G_SEC gk gt (or_introl eq_refl)) as [c [Hc Hk]]. injection Hc as <-.
    now rewrite Hk, String.eqb_refl.
  - apply IH; [|exact N|exact Hi]. intros a b e X. apply (K a b e). now right.
Qed.
Lemma file_role E d h gk gt : well_formed d -> file_history d h -> In (G_SEC, gk, gt) d -> fn_source E gk h = Some FRole.
Proof.
  intros W (hd & hr1 & ob & hr2 & -> & Hd & H1 & H2) Hi. unfold fn_source. rewrite !map_app, !fold_left_app, Hd, (fn_is_role gk gt d _ (proj2 W) (proj1 W) Hi), (ffn_more d hr1 gk H1).
  cbn [map snd fold_left fn_step]. now apply (ffn_more d).
Qed.

(** ** C88

    Every file, every matcher of it that compares any number of columns by
    equality or by a grouping section with two places, every history of rules around
    the build and every order of map visits.  For every request of strings whose
    last value does not fit the empty string: Filter reports exactly the present
    rules of the section of the matcher that cover the request, and Enforce answers
    by the effects of those rules, for the three effect definitions. *)
Definition covered (h : list (orders * mcall)) (pk pt : string) (cs : list column) (vals : list string) (e : effect) : Prop :=
  exists us ext, present h (pk :: us ++ ext) /\ covers h cs vals us /\ GetEft (NewPolicyDef pk pt) (pk :: us ++ ext) = e.
Theorem C88_column_by_column :
  forall E d R h, well_formed d -> readings E d R -> file_history d h -> good_m h ->
    exists m rs, mexec E (NewModel E) h = Val (m, rs) /\
      forall mk rk pk rt pt c cs more, columnwise E d R mk rk pk rt pt c cs more ->
      forall o ps vals, good_orders o -> uses_matcher mk ps -> uses_request rk ps ->
        vals_of ps = map VStr vals -> List.length vals = S (List.length cs) ->
        ~ related h (snd (last cs c)) (last vals ""%string) "" ->
        let e := effect_in_force h ps in
        (exists ms, Filter E o m ps = Val (m, (ms, None)) /\
           forall x, In x ms <-> present h x /\ exists us ext, x = pk :: us ++ ext /\ covers h (c :: cs) vals us) /\
        (spells e "some(where (p.eft == allow))" ->
           exists b, Enforce E o m ps = Val (m, (b, None)) /\ (b = true <-> covered h pk pt (c :: cs) vals Allow)) /\
        (spells e "!some(where (p.eft == deny))" ->
           exists b, Enforce E o m ps = Val (m, (b, None)) /\ (b = true <-> ~ covered h pk pt (c :: cs) vals Deny)) /\
        (spells e "some(where (p.eft == allow)) && !some(where (p.eft == deny))" -> ~ covered h pk pt (c :: cs) vals Indeterminate ->
           exists b, Enforce E o m ps = Val (m, (b, None)) /\
             (b = true <-> covered h pk pt (c :: cs) vals Allow /\ ~ covered h pk pt (c :: cs) vals Deny)).
Proof.
  intros E d R h W U Ah G. destruct (C87_each_matcher_decides_partial E d R h W U Ah G) as (m & rs & Hm & D). exists m, rs. split; [exact Hm|].
  intros mk rk pk rt pt c cs more C o ps vals Go Um Ur Vp Lv Last eff.
  destruct (cw_matcher _ _ _ _ _ _ _ _ _ _ _ C) as [mt Im]. pose proof (cw_reading _ _ _ _ _ _ _ _ _ _ _ C) as ER. rewrite col_form in ER.
  pose proof (cw_request _ _ _ _ _ _ _ _ _ _ _ C) as Ir. pose proof (cw_policy _ _ _ _ _ _ _ _ _ _ _ C) as Ip.
  pose proof (cw_rcols _ _ _ _ _ _ _ _ _ _ _ C) as Cr. pose proof (cw_pcols _ _ _ _ _ _ _ _ _ _ _ C) as Cp.
  pose proof (cw_distinct _ _ _ _ _ _ _ _ _ _ _ C) as Nd. pose proof (cw_plain _ _ _ _ _ _ _ _ _ _ _ C) as Pl.
  pose proof (cw_groups _ _ _ _ _ _ _ _ _ _ _ C) as Gr. pose proof (cw_eval _ _ _ _ _ _ _ _ _ _ _ C) as Ev.
  set (F := functions o m) in *. set (pd := NewPolicyDef pk pt). set (rd := NewRequestDef rk rt).
  pose proof (p_byte _ _ _ (proj2 W) Ip) as Kp. pose proof (proj2 W _ _ _ Ir) as Kr.
  assert (Np : NoDup (named_columns pt)) by (rewrite Cp; exact Nd).
  assert (Nr : NoDup (named_columns rt)).
  { rewrite Cr. clear - Nd. revert Nd. generalize (map fst (c :: cs)) as l. induction l as [|x l IH]; intros N; [constructor|]. cbn in N.
    apply NoDup_cons_iff in N as [N1 N]. constructor; [intros X; apply N1, in_or_app; now left|auto]. }
  assert (Lr : List.length vals = List.length (ad_args rd)).
  { change (ad_args rd) with (named_columns rt). rewrite Cr, map_length, Lv. reflexivity. }
  assert (Lp : List.length (ad_args pd) = List.length vals + List.length more).
  { change (ad_args pd) with (named_columns pt). rewrite Cp, app_length, map_length, Lv. reflexivity. }
  (* the value of one condition *)
  assert (One : forall n x (r : rule) a b, nth_error (c :: cs) n = Some x -> List.length r = List.length (ad_args pd) -> nth_error vals n = Some a -> nth_error r n = Some b ->
            parses (e_eval E F) (col_text rk pk x) = true /\ reads_only_named (e_eval E F) (col_text rk pk x) /\
            exists v, ev (e_eval E F) (col_text rk pk x) (ParamGet pd r rd (map VStr vals)) = Val (inl (VBool v)) /\ (v = true <-> related h (snd x) a b)).
  { intros n x r a b Hx L Ha Hb. pose proof (nth_error_In _ _ Hx) as Hin. rewrite Forall_forall in Gr, Ev. specialize (Gr x Hin). specialize (Ev x Hin).
    assert (Hc : nth_error (named_columns rt) n = Some (fst x)) by (rewrite Cr; now apply map_nth_error).
    assert (Hc' : nth_error (named_columns pt) n = Some (fst x)).
    { rewrite Cp, nth_error_app1; [now apply map_nth_error|]. rewrite map_length. apply (proj1 (nth_error_Some (c :: cs) n)). congruence. }
    pose proof (val_r pd r rk rt vals n (fst x) a Kr Nr Lr Hc Ha) as Ga. pose proof (val_p pk pt r rd (map VStr vals) n (fst x) b Kp Np L Hc' Hb) as Gb.
    destruct x as [y [|gk]]; unfold col_evaluates in Ev; cbn [fst snd] in *.
    - destruct (Ev F (fun _ => Panic) Logic.I) as (P1 & P2 & P3). split; [exact P1|]. split; [exact P2|].
      exists (String.eqb a b). split; [exact (P3 _ a b Ga Gb)|]. cbn [related]. apply String.eqb_eq.
    - destruct Gr as [gt [Hg Hn]]. destruct (file_links d h gk gt W Ah Hg) as [cl Hl]. rewrite (fresh_two gk gt Hn) in Hl.
      destruct (C66_role_function E h m rs o gk cl G Go (file_good_tame d h W Ah) Hm (g_byte _ _ _ (proj2 W) Hg) (file_role E d h gk gt W Ah Hg) Hl) as [fg [Fg Hfg]].
      destruct (Ev F fg Fg) as (P1 & P2 & P3). split; [exact P1|]. split; [exact P2|].
      destruct (Hfg a b []) as [v [Hv Hi]]. exists v. split; [exact (eq_trans (P3 _ a b Ga Gb) Hv)|exact Hi]. }
  assert (At : forall (r : rule), List.length r = List.length (ad_args pd) -> forall n, n < List.length vals -> exists a b, nth_error vals n = Some a /\ nth_error r n = Some b).
  { intros r L n Hn. destruct (nth_error vals n) as [a|] eqn:Ea; [|apply nth_error_None in Ea; lia].
    destruct (nth_error r n) as [b|] eqn:Eb; [eauto|]. apply nth_error_None in Eb. lia. }
  assert (Ex : map tokensToExpr (col_tokens rk pk c :: map (col_tokens rk pk) cs) = map (col_text rk pk) (c :: cs)) by exact (col_exprs rk pk (c :: cs)).
  assert (An : answers E pk pd rd (all_of (col_tokens rk pk c) (map (col_tokens rk pk) cs)) F h (map VStr vals)).
  { apply (answers_plain E d); auto.
    - intros e He. rewrite all_of_conds, Ex in He. apply in_map_iff in He as [x [<- Hx]]. destruct (In_nth_error _ _ Hx) as [n Hn].
      assert (Hlt : n < List.length vals). { rewrite Lv. apply (proj1 (nth_error_Some (c :: cs) n)). congruence. }
      split.
      + destruct (At (repeat ""%string (List.length (ad_args pd))) (repeat_length _ _) n Hlt) as (a & b & Ha & Hb).
        apply (One n x _ a b Hn (repeat_length _ _) Ha Hb).
      + intros r L. destruct (At r L n Hlt) as (a & b & Ha & Hb). destruct (One n x r a b Hn L Ha Hb) as (P1 & P2 & v & P3 & _). split.
        * intros z Hz. rewrite Forall_forall in Pl. rewrite (Pl x Hx) in Hz. destruct Hz as [<-|[]].
          assert (Hc : nth_error (named_columns pt) n = Some (fst x)).
          { rewrite Cp, nth_error_app1; [now apply map_nth_error|]. rewrite map_length. apply (proj1 (nth_error_Some (c :: cs) n)). congruence. }
          pose proof (GetParameter_nth pk pt r n (fst x) Np Hc) as X. cbv zeta in X. change NewArgDef with NewPolicyDef in X. rewrite L, Nat.ltb_irrefl, Hb in X.
          rewrite X. discriminate.
        * split; [exact P1|]. eauto.
    - intros e He. rewrite all_of_lasts in He. destruct He as [<-|[]].
      assert (Hl : nth_error (c :: cs) (List.length cs) = Some (last cs c)).
      { clear. revert c. induction cs as [|x cs IH]; intros c; [reflexivity|]. cbn [List.length nth_error]. rewrite IH. f_equal. destruct cs; [reflexivity|]. 
        cbn [last]. clear. revert x. generalize c0 as y. induction cs as [|z cs IH]; intros y x; [reflexivity|]. cbn. destruct cs; [reflexivity|apply (IH z x)]. }
      replace (tokensToExpr (last (map (col_tokens rk pk) cs) (col_tokens rk pk c))) with (col_text rk pk (last cs c)).
      2:{ rewrite <- col_expr. f_equal. clear. revert c. induction cs as [|x cs IH]; intros c; [reflexivity|]. cbn [map last]. destruct cs; [reflexivity|]. cbn [map] in *. apply (IH c). }
      assert (Ha : nth_error vals (List.length cs) = Some (last vals ""%string)) by (apply last_nth; exact Lv).
      assert (Hb : nth_error (blank pd) (List.length cs) = Some ""%string).
      { unfold blank. apply nth_error_repeat. lia. }
      destruct (One (List.length cs) (last cs c) (blank pd) _ _ Hl (repeat_length _ _) Ha Hb) as (_ & _ & v & P3 & P4).
      change (NewPolicyDef pk pt) with pd. unfold holds. rewrite P3. destruct v; [|reflexivity]. exfalso. now apply Last, P4. }
  assert (Me : forall r, List.length r = List.length (ad_args pd) ->
            (true_for E pd rd (all_of (col_tokens rk pk c) (map (col_tokens rk pk) cs)) F (map VStr vals) r = true <-> exists us ext, r = us ++ ext /\ covers h (c :: cs) vals us)).
  { intros r L. unfold true_for. rewrite all_of_sem, Ex.
    assert (St : forall csr k, (forall n, nth_error csr n = nth_error (c :: cs) (k + n)) -> List.length csr + k = List.length vals ->
              (forallb (fun e => holds (e_eval E F) pd rd (map VStr vals) e r) (map (col_text rk pk) csr) = true <->
               covers h csr (skipn k vals) (firstn (List.length csr) (skipn k r)))).
    { induction csr as [|x csr IH]; intros k Hn Hk; cbn [map forallb covers List.length].
      - rewrite skipn_all2 by (cbn in Hk; lia). cbn. tauto.
      - cbn [List.length] in Hk. destruct (At r L k ltac:(lia)) as (a & b & Ha & Hb).
        assert (Hx : nth_error (c :: cs) k = Some x) by (specialize (Hn 0); rewrite Nat.add_0_r in Hn; now rewrite <- Hn).
        destruct (One k x r a b Hx L Ha Hb) as (_ & _ & v & P3 & P4). rewrite andb_true_iff. unfold holds at 1. rewrite P3.
        assert (Sv : skipn k vals = a :: skipn (S k) vals).
        { clear - Ha. revert vals Ha. induction k as [|k IH]; intros [|w l] H; try discriminate; [injection H as ->; reflexivity|]. exact (IH l H). }
        assert (Sr : skipn k r = b :: skipn (S k) r).
        { clear - Hb. revert r Hb. induction k as [|k IH]; intros [|w l] H; try discriminate; [injection H as ->; reflexivity|]. exact (IH l H). }
        rewrite Sv, Sr. cbn [firstn]. rewrite (IH (S k)); [|intros n; specialize (Hn (S n)); cbn in Hn; now rewrite Hn, Nat.add_succ_r|lia].
        rewrite <- P4. destruct v; intuition discriminate. }
    rewrite (St (c :: cs) 0); [|reflexivity|cbn [List.length]; lia]. cbn [skipn]. split.
    - intros Hc. exists (firstn (List.length (c :: cs)) r), (skipn (List.length (c :: cs)) r). split; [now rewrite firstn_skipn|exact Hc].
    - intros (us & ext & -> & Hc). replace (firstn (List.length (c :: cs)) (us ++ ext)) with us; [exact Hc|].
      assert (Lu : List.length us = List.length (c :: cs)).
      { clear - Hc. revert Hc. generalize (c :: cs) as l. revert vals. induction us as [|b us IH]; intros [|a vals] [|x l]; cbn [covers]; try tauto.
        intros [_ H]. cbn. f_equal. eapply IH; eassumption. }
      rewrite firstn_app, Lu, Nat.sub_diag, <- Lu, firstn_all. cbn. now rewrite app_nil_r. }
  assert (Fit : forall r, present h (pk :: r) -> List.length r = List.length (ad_args pd)).
  { intros r [[_ [ops [Ho Hr]]]|[X _]]; [|destruct (pg_key _ Kp X)]. eapply added_columns; eauto.
    assert (Hi : In (PAdd r) ops) by (rewrite <- (app_nil_r ops); now apply recorded_adds).
    destruct (pk_adds pk r _ _ _ Ho Hi) as [[l [X _]]|X]; [discriminate|exact X]. }
  specialize (D mk mt pt rk rt o ps Im). rewrite ER in D. cbn [fst snd] in D. specialize (D Ip Ir Um Ur Go). cbv zeta in D. rewrite Vp in D. change (NewPolicyDef pk pt) with pd in D. change (NewRequestDef rk rt) with rd in D. change (functions o m) with F in D.
  destruct (D An) as ((ms & HF & Hms) & D1 & D2 & D3).
  assert (Hc : forall ef, hit E pk pd rd (all_of (col_tokens rk pk c) (map (col_tokens rk pk) cs)) F h (map VStr vals) ef <-> covered h pk pt (c :: cs) vals ef).
  { intros ef. split.
    - intros [r [Hp [Ht He]]]. apply (Me r (Fit r Hp)) in Ht as (us & ext & -> & Hc). exists us, ext. auto.
    - intros (us & ext & Hp & Hc & He). exists (us ++ ext). split; [exact Hp|]. split; [apply (Me _ (Fit _ Hp)); eauto|exact He]. }
  split; [|split; [|split]].
  - exists ms. split; [exact HF|]. intros x. rewrite Hms. split.
    + intros [r [-> [Hp Ht]]]. split; [exact Hp|]. apply (Me r (Fit r Hp)) in Ht as (us & ext & -> & Hc'). eauto.
    + intros [Hp (us & ext & -> & Hc')]. exists (us ++ ext). split; [reflexivity|]. split; [exact Hp|]. apply (Me _ (Fit _ Hp)). eauto.
  - intros Sp. destruct (D1 Sp) as [b [HE Hb]]. exists b. split; [exact HE|]. now rewrite Hb, Hc.
  - intros Sp. destruct (D2 Sp) as [b [HE Hb]]. exists b. split; [exact HE|]. now rewrite Hb, Hc.
  - intros Sp Hi. rewrite <- Hc in Hi. destruct (D3 Sp Hi) as [b [HE Hb]]. exists b. split; [exact HE|]. now rewrite Hb, !Hc.
Qed.
Print Assumptions C88_column_by_column.

(** ** A file with two matchers over two sections: RBAC with resource roles
    (rbac_with_resource_roles_model.conf) and, over a second policy section and a
    second request definition, a list of denials. *)
Definition two_defs : deflist :=
  [(R_SEC, "r", "sub, obj, act"); (R_SEC, "r2", "sub, act"); (P_SEC, "p", "sub, obj, act"); (P_SEC, "p2", "sub, act, eft");
   (G_SEC, "g", "_, _"); (G_SEC, "g2", "_, _"); (E_SEC, "e", "some(where (p.eft == allow))"); (E_SEC, "e2", "!some(where (p.eft == deny))");
   (M_SEC, "m", "g(r.sub, p.sub) && g2(r.obj, p.obj) && r.act == p.act"); (M_SEC, "m2", "r2.sub == p2.sub && r2.act == p2.act")]%string.
Definition m_col : column := ("sub"%string, Via "g").
Definition m_cols : list column := [("obj"%string, Via "g2"); ("act"%string, Same)].
Definition m2_col : column := ("sub"%string, Same).
Definition m2_cols : list column := [("act"%string, Same)].
Definition two_forms (k : string) : form * string :=
  if String.eqb k "m2" then (all_of (col_tokens "r2" "p2" m2_col) (map (col_tokens "r2" "p2") m2_cols), "p2"%string)
  else (all_of (col_tokens "r" "p" m_col) (map (col_tokens "r" "p") m_cols), "p"%string).
Definition two_env : env :=
  mkEnv (fun n => n)
    (fun fns s =>
       if in_dec string_dec "g"%string fns then if in_dec string_dec "g2"%string fns then
         if String.eqb s (arg_replace "g(r.sub, p.sub) && g2(r.obj, p.obj) && r.act == p.act") then Some (written (fst (two_forms "m")))
         else if String.eqb s (arg_replace "r2.sub == p2.sub && r2.act == p2.act") then Some (written (fst (two_forms "m2")))
         else None else None else None)
    (fun fs => mini (flat_map (fun k => match fs k with Some f => [(k, f)] | None => [] end) ["g"; "g2"]%string)) [].
Lemma two_wf : well_formed two_defs.
Proof.
  split; [repeat (apply NoDup_cons; [cbn; intuition discriminate|]); apply NoDup_nil|].
  intros s k t H. repeat (destruct H as [H|H]; [injection H as <- <- <-; eexists; split; reflexivity|]). destruct H.
Qed.
Lemma two_reads : readings two_env two_defs two_forms.
Proof.
  intros mk t H. repeat (destruct H as [H|H]; [first [discriminate H|injection H as <- <-]|]); [| |destruct H]; (split; [|eexists; cbn; tauto]).
  all: (constructor; [|intros fns; cbn [e_parse two_env]; destruct (in_dec string_dec "g"%string fns), (in_dec string_dec "g2"%string fns); auto; left; reflexivity
    |apply all_of_atoms; repeat (apply Forall_cons; [apply col_atom|]); apply Forall_nil|apply all_of_shape|apply all_of_shape|reflexivity| | |reflexivity]).
  - intros fns Hg _. cbn [e_parse two_env]. destruct (in_dec string_dec "g"%string fns) as [|n]; [|destruct n; eapply Hg; cbn; tauto].
    destruct (in_dec string_dec "g2"%string fns) as [|n]; [reflexivity|destruct n; eapply Hg; cbn; tauto].
  - intros e x He Hx. vm_compute in He. repeat (destruct He as [<-|He]; [vm_compute in Hx; destruct Hx as [<-|[]]; now eexists|]). destruct He.
  - now left.
  - intros fns Hg _. cbn [e_parse two_env]. destruct (in_dec string_dec "g"%string fns) as [|n]; [|destruct n; eapply Hg; cbn; tauto].
    destruct (in_dec string_dec "g2"%string fns) as [|n]; [reflexivity|destruct n; eapply Hg; cbn; tauto].
  - intros e x He Hx. vm_compute in He. repeat (destruct He as [<-|He]; [vm_compute in Hx; destruct Hx as [<-|[]]; now eexists|]). destruct He.
  - right. exists "r2_sub == p2_sub"%string, "p2_sub"%string. split; [now left|]. now left.
Qed.
Ltac col_same := intros F f _; split; [reflexivity|]; split;
  [intros get get' A B; cbn;
   repeat match goal with |- context [get ?x] => first [rewrite (A x) by (now left)|rewrite (B x) by discriminate] end; reflexivity
  |intros get a b Ha Hb; cbn in Ha, Hb |- *; rewrite Ha, Hb; reflexivity].
Ltac col_via := intros F f Hf; cbn in Hf; cbn [e_eval two_env flat_map]; rewrite Hf; split; [now destruct (F "g"%string)|]; split;
  [intros get get' A B; cbn;
   repeat match goal with |- context [get ?x] => first [rewrite (A x) by (now left)|rewrite (B x) by discriminate] end; now destruct (F "g"%string)
  |intros get a b Ha Hb; cbn in Ha, Hb |- *; rewrite Ha, Hb; now destruct (F "g"%string)].
Lemma two_m : columnwise two_env two_defs two_forms "m" "r" "p" "sub, obj, act" "sub, obj, act" m_col m_cols [].
Proof.
  constructor; try reflexivity; try (cbn; tauto).
  - eexists; cbn; tauto.
  - repeat (apply NoDup_cons; [cbn; intuition discriminate|]); apply NoDup_nil.
  - repeat (apply Forall_cons; [vm_compute; reflexivity|]). apply Forall_nil.
  - repeat (apply Forall_cons; [first [exact Logic.I|exists "_, _"%string; split; [cbn; tauto|reflexivity]]|]). apply Forall_nil.
  - apply Forall_cons; [col_via|]. apply Forall_cons; [col_via|]. apply Forall_cons; [col_same|apply Forall_nil].
Qed.
Lemma two_m2 : columnwise two_env two_defs two_forms "m2" "r2" "p2" "sub, act" "sub, act, eft" m2_col m2_cols ["eft"%string].
Proof.
  constructor; try reflexivity; try (cbn; tauto).
  - eexists; cbn; tauto.
  - repeat (apply NoDup_cons; [cbn; intuition discriminate|]); apply NoDup_nil.
  - repeat (apply Forall_cons; [vm_compute; reflexivity|]). apply Forall_nil.
  - repeat (apply Forall_cons; [exact Logic.I|]). apply Forall_nil.
  - apply Forall_cons; [col_same|]. apply Forall_cons; [col_same|apply Forall_nil].
Qed.
(** Alice is an admin, data1 and data2 are documents, admins write documents; data2
    is then taken out of the documents.  Bob is denied to log in. *)
Definition two_l1 : list mcall :=
  [CAdd ["p"; "admin"; "doc"; "write"]; CAdd ["g"; "alice"; "admin"]; CAdd ["g2"; "data1"; "doc"]; CAdd ["g2"; "data2"; "doc"]]%string.
Definition two_l2 : list mcall :=
  [CRemove ["g2"; "data2"; "doc"]; CAdd ["p2"; "bob"; "login"; "deny"]; CAdd ["p2"; "alice"; "login"; "allow"]]%string.
Definition two_h : list (orders * mcall) :=
  map (fun x => (ex_o, x)) (set_all two_defs) ++ map (fun x => (ex_rev, x)) two_l1 ++ (ex_rev, CBuild) :: map (fun x => (ex_o, x)) two_l2.
Definition ask_with (E : env) (h : list (orders * mcall)) (ps : list param) : outcome (bool * option goerr) :=
  let! (m, _) := mexec E (NewModel E) h in let! (_, r) := Enforce E ex_rev m ps in Val r.
Definition with_m2 (l : list string) : list param := [POpt (OMatcher "m2"); POpt (ORequest "r2"); POpt (OEffect "e2")]%string ++ map (fun v => PVal (VStr v)) l.
Ltac file_tac := repeat (apply Forall_cons; [cbn [file_call]; first
  [left; eexists _, _, _; split; [reflexivity|]; split; [cbn; tauto|]; split; [split; [discriminate|repeat (apply Forall_cons; [reflexivity|]); apply Forall_nil]|reflexivity]
  |right; eexists _, _, _, _, _; split; [reflexivity|]; split; [cbn; tauto|]; apply Forall_nil]|]); apply Forall_nil.
Example C88_ex :
  well_formed two_defs /\ readings two_env two_defs two_forms /\ file_history two_defs two_h /\ good_m two_h /\
  columnwise two_env two_defs two_forms "m" "r" "p" "sub, obj, act" "sub, obj, act" m_col m_cols [] /\
  columnwise two_env two_defs two_forms "m2" "r2" "p2" "sub, act" "sub, act, eft" m2_col m2_cols ["eft"%string] /\
  (forall l, uses_matcher "m" (map (fun v => PVal (VStr v)) l) /\ uses_request "r" (map (fun v => PVal (VStr v)) l) /\ uses_matcher "m2" (with_m2 l) /\ uses_request "r2" (with_m2 l) /\
     spells (effect_in_force two_h (map (fun v => PVal (VStr v)) l)) "some(where (p.eft == allow))" /\
     spells (effect_in_force two_h (with_m2 l)) "!some(where (p.eft == deny))") /\
  ask two_env two_h ["alice"; "data1"; "write"]%string = Val (true, None) /\ ask two_env two_h ["alice"; "data2"; "write"]%string = Val (false, None) /\
  ask two_env two_h ["bob"; "data1"; "write"]%string = Val (false, None) /\
  ask_with two_env two_h (with_m2 ["alice"; "login"]%string) = Val (true, None) /\ ask_with two_env two_h (with_m2 ["bob"; "login"]%string) = Val (false, None) /\
  ask_with two_env two_h (with_m2 ["carol"; "login"]%string) = Val (true, None).
Proof.
  split; [exact two_wf|]. split; [exact two_reads|]. split.
  { exists (map (fun x => (ex_o, x)) (set_all two_defs)), (map (fun x => (ex_rev, x)) two_l1), ex_rev, (map (fun x => (ex_o, x)) two_l2).
    split; [reflexivity|]. split; [rewrite map_map; apply map_id|]. split; apply Forall_map; [unfold two_l1|unfold two_l2]; cbn [snd]; file_tac. }
  split.
  { unfold good_m, two_h. apply Forall_app. split; [|apply Forall_app; split; [|constructor; [apply ex_rev_good|]]];
      apply Forall_map, Forall_forall; intros x _; first [apply ex_o_good|apply ex_rev_good]. }
  split; [exact two_m|]. split; [exact two_m2|]. split.
  { intros l. assert (Ol : opts_of (map (fun v => PVal (VStr v)) l) = []) by (rewrite <- (map_map VStr PVal); apply opts_PVal).
    assert (Ow : opts_of (with_m2 l) = [OMatcher "m2"; ORequest "r2"; OEffect "e2"]%string) by exact (f_equal (app [OMatcher "m2"; ORequest "r2"; OEffect "e2"]%string) Ol).
    unfold uses_matcher, uses_request, effect_in_force. rewrite Ol, Ow.
    split; [split; [constructor|now left]|]. split; [split; [constructor|now left]|].
    split; [split; [repeat constructor; now right|right; now left]|]. split; [split; [repeat constructor; now right|right; right; now left]|].
    split; reflexivity. }
  repeat split; vm_compute; reflexivity.
Qed.
