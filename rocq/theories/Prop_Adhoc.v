(** Property C73: a query that brings its own matcher text searches the rules as
    they are at the time of the call, in policy sections and in grouping
    sections. *)
From Verif Require Import GoBase GoBaseP DefsM DefsP PolicyM PolicySpec PolicyP EffectorM EffectorP MatcherDefM MatcherM MatcherSpec MatcherP MatcherP2
  RbacM RbacSpec DomainM DomainSpec EvalM ModelM ModelSpec ModelP ModelP2 ModelP3 ModelP4 ModelP5 ModelP6 SafeP EnforcerM EnforcerSpec EnforcerP.
From Verif Require Import Prop_Effect Prop_Policy Prop_Matcher Prop_Model Prop_ModelDefs Prop_Enforce Prop_Query.

(** ** The hypotheses

    [pd] describes the rules of section [k] after [h]: a policy section is
    described by its definition, a grouping section by "user, role, domain". *)
Definition described (h : list (orders * mcall)) (k : string) (pd : argdef) : Prop :=
  (p_key k /\ exists t, def_text P_SEC k h = Some t /\ pd = NewPolicyDef k t) \/
  (g_key k /\ (exists t, def_text G_SEC k h = Some t) /\ pd = NewPolicyDef k "user, role, domain").

(** The call [ps] on the state [m] after [h] brings the matcher text [text], which
    is read as the tree [root] with at most two alternatives at each point, over an
    existing section whose rules are told apart by their texts, and uses request definition [rd]. *)
Record text_query (E : env) (h : list (orders * mcall)) (m : model) (o : orders) (ps : list param)
    (root : stage) (pd rd : argdef) : Prop := {
  t_good : good_m h;
  t_order : good_orders o;
  t_tame : tame h;
  t_run : exists rs, mexec E (NewModel E) h = Val (m, rs);
  t_text : exists text, uses_text text ps /\ Build (e_grow E) (e_parse E (mkeys (md_fm m))) text = inl root;
  t_narrow : narrow root = true;
  t_section : described h (GetPolicyKey root) pd;
  t_apart : told_apart pd root (fun r => present h (GetPolicyKey root :: r));
  t_request : exists rk rtext, uses_request rk ps /\ key_of R_SEC rk /\ def_text R_SEC rk h = Some rtext /\ rd = NewRequestDef rk rtext
}.
(** The conditions can be evaluated for the rules of the section and the blank
    rule. *)
Definition text_sound (E : env) (h : list (orders * mcall)) (o : orders) (m : model) (ps : list param) (pd rd : argdef) (root : stage) : Prop :=
  sound_conditions (e_eval E (functions o m)) pd rd (vals_of ps) root (fun r => present h (GetPolicyKey root :: r)).

(** ** A matcher built over a list of rules *)
Lemma set_of_adds l r : set_of (map PAdd l) r = true <-> In r l.
Proof.
  unfold set_of. assert (G : forall l (s : rset), fold_left set_step (map PAdd l) s r = true <-> In r l \/ s r = true).
  { clear l. induction l as [|a l IH]; intros s; cbn [map fold_left]; [cbn; tauto|]. rewrite IH. cbn [set_step In]. unfold set_add.
    rewrite orb_true_iff. destruct (rule_eqb_spec r a) as [->|N].
    - cbn. tauto.
    - split; [intros [H|[H|H]]; [auto|discriminate|auto]|intros [[H|H]|H]; [congruence|auto|auto]]. }
  rewrite G. split; [intros [H|H]; [exact H|discriminate]|auto].
Qed.
Lemma ok_adds (ok : rule -> Prop) l : (forall r, In r l -> ok r) -> Forall (op_ok ok) (map PAdd l).
Proof. intros F. apply Forall_map, Forall_forall. exact F. Qed.
Lemma plain_adds l : Forall comma_free l -> plain_ops (map PAdd l).
Proof. intros F. apply ok_adds. now apply Forall_forall. Qed.
Lemma rules_in_adds l r : rules_in (map PAdd l ++ []) r -> In r l.
Proof. rewrite app_nil_r. intros [H|H]; apply in_map_iff in H as [x [E H]]; [now injection E as ->|discriminate]. Qed.
Lemma fresh_lives d root l y : NoDup l -> inj_on (fun r => In r l) -> NewMatcher d l root = Val y -> lives d root (map PAdd l) [] y.
Proof.
  intros N F H. destruct (pexec [] (map PAdd l)) as [p es] eqn:E.
  exists p, es, p, [], l, y. split; [exact E|]. split; [reflexivity|]. split; [|split; [exact H|reflexivity]].
  destruct (repr_exec _ F (map PAdd l) [] set_empty p es (repr_nil _) (ok_adds _ _ (fun r H => H)) E) as [R _].
  pose proof R as [K [O S]]. apply NoDup_Permutation; [exact N|now apply keyed_NoDup_vals|].
  rewrite Forall_forall in O. destruct (repr_enumerates _ _ _ R) as [_ L]. intros r. split; intros Hr.
  - apply L; [exact Hr|]. now apply set_of_adds.
  - apply set_of_adds. apply L; auto.
Qed.
Lemma build_val d l root : narrow root = true -> exists y, NewMatcher d l root = Val y.
Proof. intros H. unfold NewMatcher. now apply events_total. Qed.

(** ** The context of a call with a matcher text *)
Lemma options_plain E o m rk d ops : rk <> ""%string -> mget rk (md_r m) = Some d ->
  Forall (fun op => match op with OMatcher s => s = ""%string | OMatcherDef _ | OMatcherVal _ => False | _ => True end) ops ->
  Forall (fun op => match op with ORequest s => s = ""%string \/ s = rk | ORequestDef _ => False | _ => True end) ops ->
  forall x, (c_r x = None \/ c_r x = Some d) ->
  exists x', apply_options E o m x ops = Val (m, x', None) /\ c_m x' = c_m x /\
    (c_r x' = Some d \/ (c_r x' = c_r x /\ ~ In (ORequest rk) ops)).
Proof.
  intros Nr Hr Fm Fr. induction ops as [|op ops IH]; intros x Cr.
  - exists x. cbn. split; [reflexivity|]. split; [reflexivity|]. right. auto.
  - inversion Fm as [|? ? Om Fm']; subst. inversion Fr as [|? ? Or Fr']; subst. specialize (IH Fm' Fr').
    assert (S : forall x1, option_apply E o m x op = Val (m, x1, None) -> c_m x1 = c_m x ->
       (op = ORequest rk /\ c_r x1 = Some d \/ op <> ORequest rk /\ c_r x1 = c_r x) ->
       exists x', apply_options E o m x (op :: ops) = Val (m, x', None) /\ c_m x' = c_m x /\
        (c_r x' = Some d \/ (c_r x' = c_r x /\ ~ In (ORequest rk) (op :: ops)))).
    { intros x1 Ea C1 C2. destruct (IH x1) as [x' [A [B C]]]; [destruct C2 as [[_ C2]|[_ C2]]; rewrite C2; auto|].
      exists x'. cbn [apply_options]. rewrite Ea. cbn [obind]. split; [exact A|]. split; [congruence|].
      destruct C as [C|[C N]]; [now left|]. destruct C2 as [[_ C2]|[N2 C2]].
      - left. congruence.
      - right. split; [congruence|]. intros [X|X]; auto. }
    destruct op; cbn [option_apply] in *; try contradiction.
    + subst s. apply (S x); auto. right. split; [discriminate|reflexivity].
    + destruct (String.eqb_spec s "") as [->|Hs].
      * apply (S x); auto. right. split; [intros X; injection X as X; congruence|reflexivity].
      * destruct Or as [Or|Or]; [congruence|]. subst s. unfold GetRequestDef in S |- *. rewrite Hr in *. cbn [obind] in *.
        eapply S; [reflexivity|reflexivity|]. left. auto.
    + destruct (String.eqb s ""); (eapply S; [reflexivity|reflexivity|]; right; split; [discriminate|reflexivity]).
    + eapply S; [reflexivity|reflexivity|]. right. split; [discriminate|reflexivity].
    + eapply S; [reflexivity|reflexivity|]. right. split; [discriminate|reflexivity].
Qed.

Lemma apply_options_app E o ops1 ops2 : forall m x m1 x1, apply_options E o m x ops1 = Val (m1, x1, None) ->
  apply_options E o m x (ops1 ++ ops2) = apply_options E o m1 x1 ops2.
Proof.
  induction ops1 as [|op ops1 IH]; intros m x m1 x1 H; cbn [app apply_options] in *; [injection H as <- <-; reflexivity|].
  apply obind_val in H as [[[m2 x2] e2] [Eo H]]. rewrite Eo. cbn [obind]. destruct e2; [discriminate|]. now apply IH.
Qed.

Lemma context_text E o m text rk d m' j ps : rk <> ""%string -> mget rk (md_r m) = Some d ->
  mget text (md_mMap m) = None -> uses_text text ps -> uses_request rk ps ->
  BuildMatcherFromDef E o m text = Val (m', inl j) ->
  exists x, splitParams E o m ps = Val (m', inl x, vals_of ps) /\ c_m x = Some j /\ c_r x = Some d.
Proof.
  intros Nr Hr Hn (_ & Nt & ops1 & ops2 & op & Eo & Hop & Fm) [Fr Dr] Hb.
  apply Forall_app in Fm as [Fm1 Fm2]. rewrite Eo in Fr, Dr. apply Forall_app in Fr as [Fr1 Fr2]. inversion Fr2 as [|? ? _ Fr2']; subst.
  destruct (buildfrom_maps _ _ _ _ _ _ Hb) as [(Mr & _) _].
  assert (Hr' : mget rk (md_r m') = Some d) by now rewrite Mr.
  destruct (options_plain E o m rk d ops1 Nr Hr Fm1 Fr1 ctx0) as [x1 [A1 [B1 C1]]]; [now left|].
  set (x2 := mkCtx (c_r x1) (Some j) (c_e x1)).
  assert (A2 : option_apply E o m x1 op = Val (m', x2, None)).
  { destruct Hop as [-> | ->]; cbn [option_apply].
    - destruct (String.eqb_spec text "") as [X|_]; [congruence|]. rewrite Hn. unfold setMatcherText. rewrite Hb. reflexivity.
    - unfold setMatcherText. rewrite Hb. reflexivity. }
  destruct (options_plain E o m' rk d ops2 Nr Hr' Fm2 Fr2' x2) as [x3 [A3 [B3 C3]]].
  { cbn. destruct C1 as [C1|[C1 _]]; rewrite C1; auto. }
  assert (A : apply_options E o m ctx0 (opts_of ps) = Val (m', x3, None)).
  { rewrite Eo, (apply_options_app _ _ _ _ _ _ _ _ A1). cbn [apply_options]. rewrite A2. cbn [obind]. exact A3. }
  assert (C : c_r x3 = Some d \/ (c_r x3 = None /\ rk = "r"%string)).
  { destruct C3 as [C3|[C3 N3]]; [now left|]. cbn in C3. destruct C1 as [C1|[C1 N1]]; [left; congruence|].
    right. split; [rewrite C3, C1; reflexivity|]. destruct Dr as [Dr|Dr]; [exact Dr|]. exfalso. apply in_app_or in Dr as [Dr|[Dr|Dr]]; [auto| |auto].
    destruct Hop; congruence. }
  unfold splitParams, NewContext. rewrite A. cbn [obind].
  assert (X : exists x4, (match c_r x3 with None => option_apply E o m' x3 (ORequest "r") | Some _ => Val (m', x3, None) end) = Val (m', x4, None) /\
            c_r x4 = Some d /\ c_m x4 = Some j).
  { destruct C as [C|[C ->]].
    - rewrite C. exists x3. rewrite B3. auto.
    - rewrite C. cbn. unfold GetRequestDef. rewrite Hr'. cbn. eexists. split; [reflexivity|]. cbn. rewrite B3. auto. }
  destruct X as [x4 [-> [X1 X2]]]. cbn [obind]. rewrite X2. cbn [obind].
  destruct (c_e x4); cbn [obind].
  - exists x4. auto.
  - cbn. eexists. split; [reflexivity|]. cbn. auto.
Qed.

(** ** The section of the text *)
Lemma p_history_def h k : p_history k h <> None <-> def_text P_SEC k h <> None.
Proof.
  induction h as [|[o c] h IH] using rev_ind; [cbn; tauto|]. rewrite p_history_snoc, def_text_snoc.
  destruct c; cbn [p_step def_step]; try exact IH.
  - destruct s; cbn [sec_eqb andb]; try exact IH. destruct (String.eqb key k); [|exact IH]. split; discriminate.
  - destruct s; cbn [sec_eqb andb]; try exact IH. destruct (String.eqb key k); [|exact IH]. tauto.
  - destruct (of_section k r); [|exact IH]. destruct (p_history k h); cbn; [|exact IH]. rewrite <- IH. split; discriminate.
  - destruct (of_section k r); [|exact IH]. destruct (p_history k h); cbn; [|exact IH]. rewrite <- IH. split; discriminate.
  - destruct (String.eqb key k); [|exact IH]. destruct (p_history k h); cbn; [|exact IH]. rewrite <- IH. split; discriminate.
Qed.

Lemma g_history_def h k : tame h -> g_history k h <> None <-> def_text G_SEC k h <> None.
Proof.
  induction h as [|[o c] h IH] using rev_ind; [cbn; tauto|]. intros T. apply Forall_app in T as [T Tc]. inversion Tc as [|? ? Hc _]; subst. cbn in Hc.
  specialize (IH T). rewrite g_history_snoc, def_text_snoc.
  assert (M : forall d, option_map (fun a : irm * list (RbacM.order * dcall) => (fst a, snd a ++ [(o_names o, d)])) (g_history k h) <> None <-> g_history k h <> None).
  { intros d. destruct (g_history k h); cbn; [split; discriminate|tauto]. }
  destruct c; cbn [g_step def_step]; try exact IH.
  - destruct s; cbn [sec_eqb andb]; try exact IH. destruct (String.eqb key k); [|exact IH]. split; discriminate.
  - destruct s; cbn [sec_eqb andb]; try exact IH. destruct (String.eqb key k); [|exact IH]. tauto.
  - destruct (of_section k r) as [[|a [|b ds]]|]; try exact IH. now rewrite M.
  - destruct (of_section k r) as [[|a [|b ds]]|]; try exact IH. now rewrite M.
  - destruct (String.eqb key k); [now rewrite M|exact IH].
  - destruct Hc.
Qed.

(** The rules that a matcher over section [k] is built from. *)
Lemma section_rules E h m rs o k pd : good_m h -> good_orders o -> tame h -> mexec E (NewModel E) h = Val (m, rs) -> described h k pd ->
  exists c i ob, first_byte k = Some c /\
    (if Ascii.eqb c "p" then mget k (md_p m) else if Ascii.eqb c "g" then Some (NewPolicyDef k "user, role, domain") else None) = Some pd /\
    GetPolicy m k = Some i /\ nth_error (md_objs m) i = Some ob /\
    NoDup (obj_rules o m i) /\ (forall r, In r (obj_rules o m i) <-> present h (k :: r)).
Proof.
  intros G Go T H Hd. destruct (reachable_ok E h m rs G H) as [g [V W]]. pose proof (defs_exec _ _ _ _ H) as D.
  destruct Hd as [[Kp [t [Ht ->]]]|[Kg [[t Ht] ->]]].
  - destruct (mget k (md_pMap m)) as [i|] eqn:Ei.
    2:{ exfalso. pose proof (v_phist h m g W k Kp) as X. rewrite Ei in X. cbn in X. symmetry in X. revert X.
        apply p_history_def. congruence. }
    destruct (p_rules_ok h o m g k i Go T V W Kp Ei) as [ops [p [ls [Eh [Eo [_ [_ [N L]]]]]]]].
    exists "p"%char, i, (mkObj (OPolicy p) ls). split; [exact Kp|]. split; [cbn; rewrite (f_p _ _ D) by (exists "p"%char; auto); now rewrite Ht|].
    split; [unfold GetPolicy; now rewrite Ei|]. split; [exact Eo|]. split; [exact N|].
    intros r. rewrite L. unfold present. split.
    + intros Hr. left. split; [exact Kp|]. eauto.
    + intros [[_ [ops' [Eh' Hr]]]|[Kg _]]; [congruence|]. exfalso. exact (pg_key k Kp Kg).
  - destruct (mget k (md_rpMap m)) as [i|] eqn:Ei.
    2:{ exfalso. pose proof (v_ghist h m g W k Kg) as X. rewrite Ei in X. revert X. apply g_history_def; [exact T|]. congruence. }
    assert (Ep : mget k (md_pMap m) = None).
    { destruct (mget k (md_pMap m)) as [i'|] eqn:Ep; [|reflexivity]. exfalso. apply (pg_key k); [|exact Kg]. apply (v_p m g V k i' Ep). }
    destruct (g_rules_ok h o m g k i G Go T V W Kg Ei) as [s [rm [ls [x [xs [Eh [Eo [_ [_ [_ [_ [_ [N L]]]]]]]]]]]]].
    exists "g"%char, i, (mkObj (ORole rm) ls). split; [exact Kg|]. split; [reflexivity|].
    split; [unfold GetPolicy; now rewrite Ep|]. split; [exact Eo|]. split; [exact N|].
    intros r. rewrite L. unfold present. split.
    + intros [a [b [ds [-> Hl]]]]. right. split; [exact Kg|]. exists s, a, b, ds. auto.
    + intros [[Kp _]|[_ [s' [a [b [ds [Eh' [-> Hl]]]]]]]]; [exfalso; exact (pg_key k Kp Kg)|]. rewrite Eh in Eh'. injection Eh' as <-. eauto.
Qed.

(** ** What the query sees *)
Lemma text_lives E h m o ps root pd rd : text_query E h m o ps root pd rd ->
  exists l j y m' x,
    NoDup l /\ told_apart pd root (fun r => In r l) /\ (forall r, In r l <-> present h (GetPolicyKey root :: r)) /\
    lives pd root (map PAdd l) [] y /\
    splitParams E o m ps = Val (m', inl x, vals_of ps) /\ c_m x = Some j /\ c_r x = Some rd /\
    nth_error (md_mats m') j = Some y /\ m_def y = pd /\ ad_key pd = GetPolicyKey root /\
    md_p m' = md_p m /\ functions o m' = functions o m.
Proof.
  intros [G Go T [rs H] [text [Ut Hb]] Hn Hs Hp [rk [rtext [Ur [Kr [Hr ->]]]]]].
  destruct (section_rules E h m rs o (GetPolicyKey root) pd G Go T H Hs) as [c [i [ob [Hc [Hd [Hg [Ho [N L]]]]]]]].
  destruct (build_val pd (obj_rules o m i) root Hn) as [y Hy].
  assert (F : told_apart pd root (fun r => In r (obj_rules o m i))) by (apply (told_apart_sub _ _ _ _ (fun r => proj1 (L r)) Hp)).
  pose proof (defs_exec _ _ _ _ H) as D. assert (R : reach E h m) by now exists rs.
  destruct (reach_defs _ _ _ R) as [_ Nm].
  set (m' := set_mats (set_objs m (set_nth (md_objs m) i (mkObj (o_body ob) (o_listeners ob ++ [List.length (md_mats m)])))) (md_mats m ++ [y])).
  assert (B : BuildMatcherFromDef E o m text = Val (m', inl (List.length (md_mats m)))).
  { unfold BuildMatcherFromDef. rewrite Hb, Hc, Hd, Hg, Ho, Hy. reflexivity. }
  assert (Tn : mget text (md_mMap m) = None).
  { destruct (mget text (md_mMap m)) as [j'|] eqn:Et; [|reflexivity]. exfalso. destruct Ut as [Ut _]. apply Ut. exact (n_m _ Nm _ _ Et). }
  assert (Er : mget rk (md_r m) = Some (NewRequestDef rk rtext)) by (rewrite (f_r _ _ D _ Kr), Hr; reflexivity).
  destruct (context_text E o m text rk _ m' _ ps (key_of_ne _ _ Kr) Er Tn Ut Ur B) as [x [A1 [A2 A3]]].
  exists (obj_rules o m i), (List.length (md_mats m)), y, m', x.
  split; [exact N|]. split; [exact F|]. split; [exact L|]. split; [apply fresh_lives; [exact N|exact (proj1 F)|exact Hy]|]. split; [exact A1|]. split; [exact A2|].
  split; [exact A3|]. split; [unfold m'; cbn; rewrite nth_error_app2 by lia; now rewrite Nat.sub_diag|].
  split; [now apply NewMatcher_def in Hy|]. split; [destruct Hs as [[_ [t [_ ->]]]|[_ [_ ->]]]; reflexivity|]. split; reflexivity.
Qed.

(** ** C73: Filter

    When the section has rules, Filter reports exactly those that satisfy the
    text, each once for every way it does; over an empty section it reports
    nothing but the blank rule, exactly when that satisfies the text. *)
Theorem C73_filter_text :
  forall E h m o ps root pd rd,
    text_query E h m o ps root pd rd -> text_sound E h o m ps pd rd root ->
    exists m' ms,
      Filter E o m ps = Val (m', (ms, None)) /\
      ((exists r, present h (GetPolicyKey root :: r)) ->
         (forall x, In x ms <-> exists r, x = GetPolicyKey root :: r /\ present h x /\ matches E o m ps pd rd root r = true) /\
         (forall r, present h (GetPolicyKey root :: r) ->
            occ ms (GetPolicyKey root :: r) = times (e_eval E (functions o m)) pd rd (vals_of ps) root r)) /\
      ((forall r, ~ present h (GetPolicyKey root :: r)) ->
         forall x, In x ms <-> x = GetPolicyKey root :: blank pd /\ matches E o m ps pd rd root (blank pd) = true).
Proof.
  intros E h m o ps root pd rd Q SC. pose proof (t_order _ _ _ _ _ _ _ _ Q) as Go. pose proof (t_narrow _ _ _ _ _ _ _ _ Q) as Hn.
  destruct (text_lives _ _ _ _ _ _ _ _ Q) as (l & j & y & m' & x & N & F & L & Lv & Ec & Cm & Cr & Ey & Dy & Ky & _ & Ef).
  assert (Hset : forall r, set_of (map PAdd l ++ []) r = true <-> present h (GetPolicyKey root :: r)).
  { intros r. rewrite app_nil_r, set_of_adds. apply L. }
  assert (SC' : sound_conditions (e_eval E (functions o m)) pd rd (vals_of ps) root (recorded (map PAdd l) [])).
  { apply (sound_ext _ _ _ _ _ _ _ (fun r => iff_trans (set_of_adds l r) (L r)) SC). }
  destruct (C10_reported_exactly (e_eval E (functions o m)) (o_match o) pd rd (vals_of ps) root (map PAdd l) [] y
              (proj2 (proj2 Go)) Hn (told_apart_sub _ _ _ _ (rules_in_adds l) F) Lv SC') as [ys [k [A [B C]]]].
  exists m', (map (cons (GetPolicyKey root)) ys). split.
  { unfold Filter, enforcer_RangeMatches. rewrite Ec. cbn [obind]. unfold RangeMatchesWithContext. rewrite Cm, Cr.
    rewrite (range_collects _ _ _ _ _ _ _ Ey), Ef, A, Dy, Ky. reflexivity. }
  assert (Hin : forall r, In r ys <-> 0 < (if set_of (map PAdd l ++ []) r then times (e_eval E (functions o m)) pd rd (vals_of ps) root r else 0) +
                                       (if rule_eqb r (blank pd) then k else 0)).
  { intros r. rewrite <- B. apply occ_In. }
  split.
  - intros [r0 Hr0].
    assert (Hk : k = 0).
    { destruct k as [|k]; [reflexivity|]. exfalso. destruct C as [C _]. destruct C as [w [_ [pre [e [-> [_ X]]]]]]; [lia|].
      unfold recorded in X. cbn [fold_left] in X. destruct X as [[X _]|[z [Hz [_ X]]]].
      - apply (X r0), set_of_adds, L, Hr0.
      - apply (X z); [now rewrite app_nil_r|]. apply Forall_forall. intros e0 _. unfold same_values. now destruct (p_args e0). }
    subst k. split.
    + intros z. rewrite in_map_iff. split.
      * intros [r [<- Hr]]. exists r. split; [reflexivity|]. apply Hin in Hr. rewrite <- Hset. unfold matches. rewrite <- times_satisfies.
        destruct (set_of (map PAdd l ++ []) r), (rule_eqb r (blank pd)); intuition lia.
      * intros [r [-> [Hp Hm]]]. exists r. split; [reflexivity|]. apply Hin. apply Hset in Hp. rewrite Hp. apply times_satisfies in Hm. lia.
    + intros r Hp. unfold occ at 1. rewrite keyed_occ, B. apply Hset in Hp. rewrite Hp. destruct (rule_eqb r (blank pd)); lia.
  - intros He.
    assert (Hs : forall r, set_of (map PAdd l ++ []) r = false).
    { intros r. destruct (set_of (map PAdd l ++ []) r) eqn:Es; [|reflexivity]. exfalso. exact (He r (proj1 (Hset r) Es)). }
    assert (Hk : 0 < k <-> matches E o m ps pd rd root (blank pd) = true).
    { rewrite C. unfold matches, satisfies. rewrite existsb_exists. split.
      - intros [w [Hw [pre [e [-> [X Y]]]]]]. exists (pre ++ [e]). split; [exact Hw|]. unfold all_hold. rewrite forallb_app. cbn.
        rewrite X, !andb_true_r. destruct Y as [[_ Y]|[z [Hz _]]]; [exact Y|]. exfalso. unfold recorded in Hz. cbn in Hz.
        rewrite app_nil_r in Hs. congruence.
      - intros [w [Hw X]]. exists w. split; [exact Hw|].
        destruct (exists_last (l := w)) as [pre [e ->]].
        + intros ->. revert Hw. clear. unfold ways_of. rewrite in_flat_map. intros [[t cs] [_ Hw]]. destruct cs as [|c cs]; cbn [ways] in Hw.
          * destruct Hw as [Hw|[]]. discriminate.
          * apply in_map_iff in Hw as [z [Hz _]]. discriminate.
        + unfold all_hold in X. rewrite forallb_app in X. apply andb_true_iff in X as [X1 X2]. cbn in X2. rewrite andb_true_r in X2.
          exists pre, e. split; [reflexivity|]. split; [exact X2|]. left. split; [|exact X1]. intros z Hz. unfold recorded in Hz. cbn in Hz.
          rewrite app_nil_r in Hs. congruence. }
    intros z. rewrite in_map_iff, <- Hk. split.
    + intros [r [<- Hr]]. apply Hin in Hr. rewrite Hs in Hr. destruct (rule_eqb_spec r (blank pd)) as [Eb|]; [|lia]. rewrite Eb. split; [reflexivity|lia].
    + intros [-> Hk']. exists (blank pd). split; [reflexivity|]. apply Hin. rewrite Hs. destruct (rule_eqb_spec (blank pd) (blank pd)); [lia|congruence].
Qed.
Print Assumptions C73_filter_text.

(** ** C73: Enforce

    Over a policy section with rules and with allow-override, the request is
    allowed exactly when a present rule with effect allow satisfies the text. *)
Lemma text_decides E h m o ps root pd rd m' ms err : text_query E h m o ps root pd rd -> p_key (GetPolicyKey root) ->
  Filter E o m ps = Val (m', (ms, err)) ->
  Enforce E o m ps = obind (decision (effect_in_force h ps) pd ms err) (fun r => Val (m', r)).
Proof.
  intros Q Kp HF. destruct (text_lives _ _ _ _ _ _ _ _ Q) as (l & j & y & m1 & x & N & F & L & Lv & Ec & Cm & Cr & Ey & Dy & Ky & Ep & Ef).
  destruct Q as [G Go T [rs H] _ Hn Hs Hp _]. pose proof (defs_exec _ _ _ _ H) as D.
  assert (Hpd : mget (GetPolicyKey root) (md_p m1) = Some pd).
  { rewrite Ep. destruct Hs as [[_ [t [Ht ->]]]|[Kg _]]; [|exfalso; exact (pg_key _ Kp Kg)].
    rewrite (f_p _ _ D) by (exists "p"%char; auto). now rewrite Ht. }
  unfold Filter, enforcer_RangeMatches in HF. rewrite Ec in HF. cbn [obind] in HF. unfold RangeMatchesWithContext in HF. rewrite Cm, Cr in HF.
  rewrite (range_collects _ _ _ _ _ _ _ Ey) in HF. apply obind_val in HF as [[ys' e'] [HF H1]]. injection H1 as -> -> ->.
  apply obind_val in HF as [[ys e] [HR HF]]. cbn [fst snd] in HF. injection HF as <- <-.
  unfold Enforce. rewrite Ec. cbn [obind]. unfold enforce. rewrite Cm, Ey, Dy, Ky, Hpd.
  assert (R : reach E h m) by now exists rs.
  assert (He : c_e x = Some (no_spaces (effect_in_force h ps))).
  { unfold splitParams in Ec. apply obind_val in Ec as [[m2 c] [Ec B1]]. injection B1 as -> ->. exact (context_effect _ _ _ _ _ _ _ R Ec). }
  rewrite He. unfold RangeMatchesWithContext. rewrite Cm, Cr, (range_reported _ _ _ _ _ _ _ _ _ _ _ Ey HR), Dy, Ky.
  unfold decision, decide. cbn [NewEffectDef ed_expr]. destruct (range_vals _ _ _) as [st [|]]; reflexivity.
Qed.

Theorem C73_enforce_text :
  forall E h m o ps root pd rd,
    text_query E h m o ps root pd rd -> text_sound E h o m ps pd rd root ->
    p_key (GetPolicyKey root) -> (exists r, present h (GetPolicyKey root :: r)) ->
    spells (effect_in_force h ps) "some(where (p.eft == allow))" ->
    exists m' b, Enforce E o m ps = Val (m', (b, None)) /\
      (b = true <-> exists r, present h (GetPolicyKey root :: r) /\ matches E o m ps pd rd root r = true /\
                              rule_effect h (GetPolicyKey root :: r) = Allow).
Proof.
  intros E h m o ps root pd rd Q SC Kp Hne Hs.
  destruct (C73_filter_text _ _ _ _ _ _ _ _ Q SC) as [m' [ms [HF [Hms _]]]]. destruct (Hms Hne) as [Hin _].
  pose proof (text_decides _ _ _ _ _ _ _ _ _ _ _ Q Kp HF) as HE.
  destruct (C18_allow_override _ pd ms Hs) as [b [Hd Hiff]]. rewrite Hd in HE. exists m', b. split; [exact HE|].
  destruct (t_section _ _ _ _ _ _ _ _ Q) as [[_ [t [Ht Epd]]]|[Kg _]]; [|exfalso; exact (pg_key _ Kp Kg)].
  rewrite Hiff. unfold some_effect. split.
  - intros [x [Hx He]]. apply Hin in Hx as [r [-> [Hp Hm]]]. exists r. cbn [rule_effect]. rewrite Ht, <- Epd. auto.
  - intros [r [Hp [Hm He]]]. exists (GetPolicyKey root :: r). split; [apply Hin; eauto|]. cbn [rule_effect] in He. now rewrite Ht, <- Epd in He.
Qed.
Print Assumptions C73_enforce_text.

(** ** Example: which roles was alice given directly?  One of them was taken away
    again. *)
Definition ga_env : env :=
  mkEnv (fun n => n) (fun _ s => if String.eqb s "r_sub == g_user" then Some [mkTok KOther "r_sub == g_user"] else None)%string (fun _ => mini []) [].
Definition ga_h : list (orders * mcall) :=
  [(ex_o, CSetDef R_SEC "r" "sub"); (ex_o, CSetDef G_SEC "g" "_, _"); (ex_o, CAdd ["g"; "alice"; "admin"]);
   (ex_rev, CAdd ["g"; "alice"; "dev"]); (ex_o, CAdd ["g"; "bob"; "dev"]); (ex_rev, CRemove ["g"; "alice"; "admin"])]%string.
Definition ga_m : model := match mexec ga_env (NewModel ga_env) ga_h with Val (m, _) => m | Panic => NewModel ga_env end.
Definition ga_root : stage := Stage "" [Stage "r_sub == g_user" []].
Definition ga_ps : list param := [POpt (OMatcher "r.sub == g.user"); PVal (VStr "alice")].
Definition ga_pd : argdef := NewPolicyDef "g" "user, role, domain".


Lemma ga_good : good_m ga_h.
Proof. repeat (apply Forall_cons; [first [apply ex_o_good|apply ex_rev_good]|]); apply Forall_nil. Qed.
Lemma ga_tame : tame ga_h.
Proof. unfold ga_h. tame_tac. Qed.
Lemma ga_run : exists rs, mexec ga_env (NewModel ga_env) ga_h = Val (ga_m, rs).
Proof. eexists. vm_compute. reflexivity. Qed.
Lemma ga_present r : present ga_h ("g" :: r) <-> r = ["alice"; "dev"] \/ r = ["bob"; "dev"].
Proof.
  destruct ga_run as [rs H]. destruct (model_listing ga_env ga_h ex_o ga_m rs ga_good ex_o_good ga_tame H) as [_ L].
  rewrite <- L. assert (X : model_rules ex_o ga_m = [["g"; "alice"; "dev"]; ["g"; "bob"; "dev"]]) by (vm_compute; reflexivity).
  rewrite X. cbn. intuition congruence.
Qed.

Example C73_example :
  text_query ga_env ga_h ga_m ex_rev ga_ps ga_root ga_pd (NewRequestDef "r" "sub") /\
  text_sound ga_env ga_h ex_rev ga_m ga_ps ga_pd (NewRequestDef "r" "sub") ga_root /\
  (exists m', Filter ga_env ex_rev ga_m ga_ps = Val (m', ([["g"; "alice"; "dev"]], None))).
Proof.
  split; [|split].
  - constructor.
    + apply ga_good.
    + apply ex_rev_good.
    + apply ga_tame.
    + apply ga_run.
    + exists "r.sub == g.user". split; [|vm_compute; reflexivity]. split; [|split; [discriminate|]].
      * intros [c [Hc Hf]]. vm_compute in Hc, Hf. congruence.
      * exists [], [], (OMatcher "r.sub == g.user"). split; [reflexivity|]. split; [now left|]. apply Forall_nil.
    + reflexivity.
    + right. split; [reflexivity|]. split; [|reflexivity]. exists "_, _". reflexivity.
    + apply told_apart_plain. intros r Hr. apply ga_present in Hr as [-> | ->]; (split; [discriminate|repeat constructor]).
    + exists "r", "sub". split; [|split; [exists "r"%char; auto|split; reflexivity]].
      split; [|now left]. repeat constructor.
  - apply sound_named. intros e [<-|[]]. split; [|split].
    + intros r Hr x [<-|[]]. apply ga_present in Hr as [-> | ->]; discriminate.
    + intros get get' H1 H2. cbn. rewrite (H1 "g_user"), (H2 "r_sub") by (try discriminate; now left). reflexivity.
    + intros r [Hr| ->]; [apply ga_present in Hr as [-> | ->]|]; (split; [reflexivity|]); eexists; vm_compute; reflexivity.
  - eexists. vm_compute. reflexivity.
Qed.
