(** The leftovers of the index (C10, C12) in terms of formulas. *)
From Verif Require Import PathM PathSpec BuiltinM GoBase GoBaseP DefsM DefsP PolicyM PolicySpec PolicyP EffectorM MatcherDefM MatcherDefSpec MatcherDefP MatcherM MatcherSpec MatcherP MatcherP2
  RbacM RbacSpec DomainM DomainSpec EvalM ModelM ModelSpec ModelP ModelP2 ModelP3 ModelP4 ModelP5 ModelP6 EnforcerM EnforcerSpec EnforcerP
  SafeSpec SafeP FunctionsSpec FunctionsP AppSpec AppsSpec MultiSpec LogicSpec RoleAccessM RoleAccessSpec LogicP LeftoverSpec.
From Verif Require Import Prop_Path Prop_Builtin Prop_Effect Prop_Defs Prop_Matcher Prop_Model Prop_Enforce Prop_Query Prop_Functions Prop_App Prop_Apps Prop_Multi Prop_Columns Prop_Logic.
Local Open Scope list_scope.

(** ** Ways and alternatives *)
Lemma ways_ptree_iff rk pk f : forall k w, In w (flat_map ways (ptree (as_form rk pk f) k)) <->
  exists a b, In a (LeftoverSpec.alternatives f) /\ w = map (test_text rk pk) a ++ b /\ ((k = [] /\ b = []) \/ In b (flat_map ways k)).
Proof.
  induction f as [t|f IH|f IHf g IHg|f IHf g IHg]; intros k w; cbn [as_form ptree LeftoverSpec.alternatives].
  - cbn [flat_map]. rewrite app_nil_r. cbn [ways]. change (tokensToExpr (test_tokens rk pk t)) with (test_text rk pk t). destruct k as [|s k].
    + split; [intros [<-|[]]; exists [t], []; split; [now left|split; [reflexivity|left; auto]]|].
      intros (a & b & [<-|[]] & -> & [[_ ->]|[]]). now left.
    + rewrite in_map_iff. split.
      * intros (b & <- & Hb). exists [t], b. split; [now left|]. split; [reflexivity|now right].
      * intros (a & b & [<-|[]] & -> & [[X _]|Hb]); [discriminate|]. exists b. auto.
  - apply IH.
  - rewrite IHf. split.
    + intros (a & b & Ha & -> & [[X _]|Hb]); [now apply ptree_ne in X|]. apply IHg in Hb as (a' & b' & Ha' & -> & Hb).
      exists (a ++ a'), b'. split; [apply in_flat_map; exists a; split; [exact Ha|now apply in_map]|]. split; [now rewrite map_app, app_assoc|exact Hb].
    + intros (a & b & Ha & -> & Hb). apply in_flat_map in Ha as (a1 & Ha1 & Ha). apply in_map_iff in Ha as (a2 & <- & Ha2).
      exists a1, (map (test_text rk pk) a2 ++ b). split; [exact Ha1|]. split; [now rewrite map_app, <- app_assoc|]. right. apply IHg. exists a2, b. auto.
  - rewrite flat_map_app, in_app_iff, IHf, IHg. split.
    + intros [(a & b & Ha & X)|(a & b & Ha & X)]; exists a, b; (split; [apply in_or_app; auto|exact X]).
    + intros (a & b & Ha & X). apply in_app_or in Ha as [Ha|Ha]; [left|right]; exists a, b; auto.
Qed.
Lemma ways_alternatives rk pk f w : In w (ways_of (f_root (as_form rk pk f))) <-> exists a, In a (LeftoverSpec.alternatives f) /\ w = map (test_text rk pk) a.
Proof.
  unfold ways_of, f_root. cbn [stage_children]. rewrite ways_ptree_iff. split.
  - intros (a & b & Ha & -> & [[_ ->]|[]]). exists a. split; [exact Ha|apply app_nil_r].
  - intros (a & Ha & ->). exists a, []. split; [exact Ha|]. split; [now rewrite app_nil_r|left; auto].
Qed.
Lemma alternatives_ne f : LeftoverSpec.alternatives f <> [] /\ Forall (fun a => a <> []) (LeftoverSpec.alternatives f).
Proof.
  induction f as [t|f IH|f [F1 F2] g [G1 G2]|f [F1 F2] g [G1 G2]]; cbn [LeftoverSpec.alternatives].
  - split; [discriminate|]. constructor; [discriminate|constructor].
  - exact IH.
  - split.
    + destruct (LeftoverSpec.alternatives f); [congruence|]. cbn. destruct (LeftoverSpec.alternatives g); [congruence|]. discriminate.
    + apply Forall_forall. intros a Ha. apply in_flat_map in Ha as (b & Hb & Ha). apply in_map_iff in Ha as (c & <- & _).
      rewrite Forall_forall in F2. specialize (F2 b Hb). destruct b; [congruence|discriminate].
  - split; [destruct (LeftoverSpec.alternatives f); [congruence|discriminate]|]. apply Forall_app. auto.
Qed.
Lemma alternatives_tests f a t : In a (LeftoverSpec.alternatives f) -> In t a -> In t (tests f).
Proof.
  revert a. induction f as [t0|f IH|f IHf g IHg|f IHf g IHg]; cbn [LeftoverSpec.alternatives tests]; intros a Ha Ht.
  - destruct Ha as [<-|[]]. exact Ht.
  - eauto.
  - apply in_flat_map in Ha as (b & Hb & Ha). apply in_map_iff in Ha as (c & <- & Hc). apply in_or_app. apply in_app_or in Ht as [X|X]; eauto.
  - apply in_or_app. apply in_app_or in Ha as [X|X]; eauto.
Qed.
Lemma alternatives_last f pre t : In (pre ++ [t]) (LeftoverSpec.alternatives f) -> In t (last_tests f).
Proof.
  revert pre. induction f as [t0|f IH|f IHf g IHg|f IHf g IHg]; cbn [LeftoverSpec.alternatives last_tests]; intros pre Ha.
  - destruct Ha as [Ha|[]]. apply (app_inj_tail [] pre) in Ha. left. apply Ha.
  - eauto.
  - apply in_flat_map in Ha as (b & Hb & Ha). apply in_map_iff in Ha as (c & Ec & Hc).
    pose proof (proj1 (Forall_forall _ _) (proj2 (alternatives_ne g)) c Hc) as Nc. destruct (exists_last Nc) as (c' & t' & ->).
    rewrite app_assoc in Ec. apply app_inj_tail in Ec as [_ ->]. eauto.
  - apply in_or_app. apply in_app_or in Ha as [X|X]; eauto.
Qed.

(** ** Values *)
Lemma GetParameters_same {A} d (r r' : list A) names : (forall x, In x names -> GetParameter d r x <> None) -> (forall x, In x names -> GetParameter d r' x <> None) ->
  (GetParameters d r names = GetParameters d r' names <-> forall x, In x names -> GetParameter d r x = GetParameter d r' x).
Proof.
  induction names as [|n ns IH]; intros H H'; cbn [GetParameters]; [split; [intros _ x []|reflexivity]|].
  specialize (IH (fun x Hx => H x (or_intror Hx)) (fun x Hx => H' x (or_intror Hx))).
  pose proof (H n (or_introl eq_refl)) as Hn. pose proof (H' n (or_introl eq_refl)) as Hn'.
  destruct (GetParameter d r n) as [v|] eqn:E1; [|congruence]. destruct (GetParameter d r' n) as [v'|] eqn:E2; [|congruence].
  assert (T : forall (z : list A), (forall x, In x ns -> GetParameter d z x <> None) -> exists vs, GetParameters d z ns = Some vs).
  { clear. intros z. induction ns as [|m ns IH]; intros H; cbn [GetParameters]; [eauto|]. pose proof (H m (or_introl eq_refl)) as Hm. destruct (GetParameter d z m); [|congruence].
    destruct IH as [vs ->]; [intros x Hx; apply H; now right|]. eauto. }
  destruct (T r (fun x Hx => H x (or_intror Hx))) as [vs Ev]. destruct (T r' (fun x Hx => H' x (or_intror Hx))) as [vs' Ev']. rewrite Ev, Ev' in *. split.
  - intros X. injection X as -> ->. intros x [<-|Hx]; [congruence|]. now apply IH.
  - intros X. assert (v = v') as -> by (specialize (X n (or_introl eq_refl)); congruence). f_equal. f_equal.
    assert (Y : Some vs = Some vs') by (apply IH; intros x Hx; apply X; now right). congruence.
Qed.
Lemma same_agree rk pk pt f t r r' : NoDup (named_columns pt) -> names_columns rk pk f -> In t (tests f) ->
  (forall y, In y (policy_columns t) -> In y (named_columns pt)) ->
  List.length r = List.length (named_columns pt) -> List.length r' = List.length (named_columns pt) ->
  (same_values (NewPolicyDef pk pt) (test_text rk pk t) r r' <-> agree pt t r r').
Proof.
  intros Np Nc Ht Co L L'. unfold same_values, agree. specialize (Nc t). set (pd := NewPolicyDef pk pt).
  assert (GP : forall (z : rule) n y, List.length z = List.length (named_columns pt) -> nth_error (named_columns pt) n = Some y -> GetParameter pd z (pk ++ "_" ++ y) = nth_error z n).
  { intros z n y Lz Hn. pose proof (GetParameter_nth pk pt z n y Np Hn) as X. cbv zeta in X. change NewArgDef with NewPolicyDef in X. fold pd in X.
    change (ad_args pd) with (named_columns pt) in X. rewrite Lz, Nat.ltb_irrefl in X. exact X. }
  destruct (p_args (test_text rk pk t)) as [|a al] eqn:Ea, (policy_columns t) as [|y ys] eqn:Ey.
  - reflexivity.
  - exfalso. destruct (proj2 (Nc (pk ++ "_" ++ y)%string Ht)). exists y. split; [now left|reflexivity].
  - exfalso. destruct (proj1 (Nc a Ht) (or_introl eq_refl)) as (z & [] & _).
  - assert (Df : forall z : rule, List.length z = List.length (named_columns pt) -> forall x, In x (a :: al) -> GetParameter pd z x <> None).
    { intros z Lz x Hx. destruct (proj1 (Nc x Ht) Hx) as (u & Hu & ->). destruct (In_nth_error _ _ (Co u Hu)) as [n Hn]. rewrite (GP z n u Lz Hn).
      intros X. apply nth_error_None in X. rewrite Lz in X. apply nth_error_None in X. congruence. }
    rewrite (GetParameters_same pd r r' (a :: al) (Df r L) (Df r' L')). split.
    + intros X u n Hu Hn. specialize (X (pk ++ "_" ++ u)%string (proj2 (Nc _ Ht) (ex_intro _ u (conj Hu eq_refl)))). rewrite (GP r n u L Hn), (GP r' n u L' Hn) in X. exact X.
    + intros X x Hx. destruct (proj1 (Nc x Ht) Hx) as (u & Hu & ->). destruct (In_nth_error _ _ (Co u Hu)) as [n Hn]. rewrite (GP r n u L Hn), (GP r' n u L' Hn). exact (X u n Hu Hn).
Qed.

(** ** What is remembered *)
Lemma remember_ext pk cs : forall (P Q : rule -> Prop), (forall r, P r <-> Q r) -> forall r, fold_left (remember_step pk) cs P r <-> fold_left (remember_step pk) cs Q r.
Proof.
  induction cs as [|c cs IH]; intros P Q H; [exact H|]. cbn [fold_left]. apply IH. intros r. destruct c; cbn [remember_step]; try apply H.
  - now rewrite H.
  - destruct (String.eqb key pk); [reflexivity|apply H].
Qed.
Lemma recorded_remembered d pk h1 (hr : list (orders * mcall)) : key_byte d -> p_key pk -> Forall (fun x : orders * mcall => file_call d (snd x)) hr ->
  forall r, recorded h1 (p_calls pk hr) r <-> fold_left (remember_step pk) (map snd hr) (fun r => set_of h1 r = true) r.
Proof.
  intros K Kp. induction hr as [|[o c] hr IH] using rev_ind; intros F r; [reflexivity|]. apply Forall_app in F as [F Fc]. inversion Fc as [|? ? Hc _]; subst. cbn [snd] in Hc.
  specialize (IH F). destruct (fp_more d pk hr K Kp F []) as [l [El _]]. cbn [app] in El. unfold p_calls in *. rewrite map_app, fold_left_app, El. rewrite El in IH.
  rewrite fold_left_app. cbn [map snd fold_left p_step remember_step].
  destruct c; cbn [file_call] in Hc; try contradiction; cbn [p_step remember_step].
  - destruct (of_section pk r0) as [r1|] eqn:Er.
    + destruct r0 as [|k r0]; [discriminate|]. cbn in Er. destruct (String.eqb_spec k pk) as [->|]; [|discriminate]. injection Er as ->. cbn [option_map]. unfold recorded. rewrite fold_left_app. cbn [fold_left recorded_step].
      fold (recorded h1 l). rewrite (IH r). split; (intros [X|X]; [left; congruence|now right]).
    + rewrite (IH r). split; [now right|]. intros [->|X]; [|exact X]. cbn in Er. rewrite String.eqb_refl in Er. discriminate.
  - destruct (of_section pk r0) as [r1|] eqn:Er; [|apply IH]. cbn [option_map]. unfold recorded. rewrite fold_left_app. cbn [fold_left recorded_step]. apply IH.
  - destruct (String.eqb key pk); [|apply IH]. cbn [option_map]. unfold recorded. rewrite fold_left_app. cbn [fold_left recorded_step]. reflexivity.
Qed.
Lemma one_build (l1 l2 hb ha : list (orders * mcall)) o o' : Forall (fun x => snd x <> CBuild) l1 -> Forall (fun x => snd x <> CBuild) l2 ->
  l1 ++ (o, CBuild) :: l2 = hb ++ (o', CBuild) :: ha -> hb = l1 /\ ha = l2.
Proof.
  intros H1 H2. revert hb. induction H1 as [|x l1 Hx H1 IH]; intros [|y hb] Eq; cbn [app] in Eq.
  - injection Eq as _ <-. auto.
  - injection Eq as <- ->. exfalso. apply Forall_app in H2 as [_ H2]. inversion H2 as [|? ? X _]; subst. now apply X.
  - injection Eq as -> _. now destruct Hx.
  - injection Eq as <- Eq. destruct (IH _ Eq) as [-> ->]. auto.
Qed.
Lemma file_no_build d (l : list (orders * mcall)) : Forall (fun x : orders * mcall => file_call d (snd x)) l -> Forall (fun x => snd x <> CBuild) l.
Proof. apply Forall_impl. intros [o c] H X. cbn [snd] in *. now rewrite X in H. Qed.
Lemma set_no_build d (hd : list (orders * mcall)) : map snd hd = set_all d -> Forall (fun x => snd x <> CBuild) hd.
Proof.
  intros Hd. apply Forall_forall. intros x Hx X. assert (Hi : In CBuild (set_all d)) by (rewrite <- Hd, <- X; now apply in_map).
  unfold set_all in Hi. apply in_map_iff in Hi as (y & Y & _). discriminate.
Qed.

(** ** The query of a matcher of a file *)
Lemma file_query E d R h : well_formed d -> readings E d R -> file_history d h -> good_m h ->
  exists m rs, mexec E (NewModel E) h = Val (m, rs) /\
    forall mk mt pt rk rt o ps, In (M_SEC, mk, mt) d -> In (P_SEC, snd (R mk), pt) d -> In (R_SEC, rk, rt) d ->
      uses_matcher mk ps -> uses_request rk ps -> good_orders o ->
      let f := fst (R mk) in let pk := snd (R mk) in
      exists h1 h2, query E h m o ps (f_root f) (NewPolicyDef pk pt) (NewRequestDef rk rt) h1 h2 /\ GetPolicyKey (f_root f) = pk /\
        (forall r, set_of (h1 ++ h2) r = true <-> present h (pk :: r)) /\
        (forall r, recorded h1 h2 r <-> remembered pk h r) /\ (forall r, recorded h1 h2 r -> added_to pk h r).
Proof.
  intros W U (hd & hr1 & ob & hr2 & -> & Hd & H1 & H2) G.
  destruct (o_run E d R hd hr1 hr2 ob W U Hd H1 H2 G) as (m1 & rs1 & m2 & x & m & rs & Ra & Rb & Rx & Eb & Rm).
  pose proof (fun s k t => proj2 (o_def' d hd hr1 hr2 ob W Hd H1 H2 s k t)) as Df.
  pose proof (fun s k t => proj2 (o_def d hd hr1 W Hd H1 s k t)) as Da.
  assert (EQ : hd ++ hr1 ++ (ob, CBuild) :: hr2 = (hd ++ hr1) ++ (ob, CBuild) :: hr2) by now rewrite <- app_assoc.
  set (h := hd ++ hr1 ++ (ob, CBuild) :: hr2) in *. exists m, rs. split; [exact Rm|].
  intros mk mt pt rk rt o ps Im Ip Ir Um Ur Go f pk.
  destruct (U mk mt Im) as [Rm' _]. pose proof (o_key _ _ _ _ _ Rm') as Kf. fold f pk in Rm', Kf.
  pose proof (p_byte _ _ _ (proj2 W) Ip) as Kp. fold pk in Kp, Ip.
  destruct (o_phist d hd hr1 hr2 W Hd H1 H2 pk pt Ip) as (h1 & h2 & P1 & P2 & F1 & F2).
  assert (La : Forall (fun oc => leaves_alone pk mk (snd oc)) hr2).
  { eapply Forall_impl; [|exact H2]. intros [o0 c0]. cbn [snd]. destruct c0; cbn; tauto. }
  assert (Ph : p_history pk h = Some (h1 ++ h2)).
  { rewrite EQ. replace ((hd ++ hr1) ++ (ob, CBuild) :: hr2) with (((hd ++ hr1) ++ [(ob, CBuild)]) ++ hr2) by now rewrite <- app_assoc.
    rewrite P2. apply (p_history_more pk mk); [exact La|rewrite p_history_snoc; exact P1]. }
  assert (Sp : forall hh ops, p_history pk hh = Some ops -> forall r, set_of ops r = true <-> present hh (pk :: r)).
  { intros hh ops Ho r. split; [intros X; left; split; [exact Kp|]; exists ops; auto|]. intros [[_ (ops' & Y & Z)]|[Y _]]; [|destruct (pg_key _ Kp Y)].
    rewrite Ho in Y. injection Y as <-. exact Z. }
  exists h1, h2. split; [|split; [exact Kf|split; [exact (Sp h _ Ph)|split]]].
  - constructor.
    + exact G.
    + exact Go.
    + eauto.
    + exists mk, pt, rk, rt. rewrite Kf. split; [|split; [exact Um|split; [reflexivity|split; [exact Ur|
        split; [exact (proj2 W _ _ _ Ir)|split; [now apply Df|reflexivity]]]]]].
      split; [exact (proj2 W _ _ _ Im)|]. rewrite Kf. split; [exact Kp|].
      exists (hd ++ hr1), ob, CBuild, hr2, m1, rs1, m2, x, mt.
      split; [exact EQ|]. split; [now left|]. split; [exact Ra|]. split; [exact Rb|]. split; [exact Rx|]. split; [now apply Da|].
      split; [now apply Eb|]. split; [exact La|split; [now apply Da|split; [exact P1|exact P2]]].
    + unfold f_root. rewrite two_way_narrow. apply Rm'.
    + apply told_apart_ops; assumption.
  - intros r. rewrite P2, (recorded_remembered d pk h1 hr2 (proj2 W) Kp H2 r), (remember_ext pk (map snd hr2) _ _ (Sp _ _ P1) r). split.
    + intros X. exists (hd ++ hr1), ob, hr2. split; [exact EQ|exact X].
    + intros (hb & o' & ha & Y & X). rewrite EQ in Y. apply one_build in Y as [-> ->]; [exact X| |eapply file_no_build; exact H2].
      apply Forall_app. split; [eapply set_no_build; exact Hd|eapply file_no_build; exact H1].
  - intros r Hr. apply recorded_adds in Hr. destruct (pk_adds pk r _ _ _ Ph Hr) as [[l [X _]]|X]; [discriminate|exact X].
Qed.

(** The calls of role functions and of the functions of a new model. *)
Lemma file_calls E d h m rs o : well_formed d -> file_history d h -> good_m h -> good_orders o -> mexec E (NewModel E) h = Val (m, rs) ->
  forall g us, call_answers E d g us -> exists fg v, functions o m g = Some fg /\ fg (map VStr us) = Val (inl (VBool v)) /\ (v = true <-> call_true E d h g us).
Proof.
  intros W Ah G Go Hm g us [(gt & a & b & ds & Hg & -> & Hu)|(Hn & fg & v & Hf & Hv)].
  - destruct (file_links d h g gt W Ah Hg) as [cl Hl]. unfold fresh_manager in Hl.
    assert (Gs : forall gt', In (G_SEC, g, gt') d -> gt' = gt).
    { intros gt' Hg'. apply (defs_in G_SEC g d (proj2 W) (proj1 W)) in Hg, Hg'. congruence. }
    change (rd_nargs (NewRoleDef "" gt)) with (rd_nargs (NewRoleDef g gt)) in Hl.
    assert (Eq : forall v, (v = true <-> linked_by h g gt a b ds) -> (v = true <-> call_true E d h g (a :: b :: ds))).
    { intros v Hv. rewrite Hv. split; [intros X; left; exists gt, a, b, ds; auto|]. intros [(gt' & a' & b' & ds' & Hg' & X & Y)|(X & _)].
      - injection X as <- <- <-. rewrite (Gs gt' Hg') in Y. exact Y.
      - exfalso. apply X. now exists gt. }
    destruct (Nat.eqb (rd_nargs (NewRoleDef g gt)) 2) eqn:En.
    + destruct (C66_role_function E h m rs o g cl G Go (file_good_tame d h W Ah) Hm (g_byte _ _ _ (proj2 W) Hg) (file_role E d h g gt W Ah Hg) Hl) as [fg [Fg Hfg]].
      destruct (Hfg a b ds) as [v [Hv Hi]]. exists fg, v. split; [exact Fg|]. split; [exact Hv|]. apply Eq. unfold linked_by. rewrite En, Hi.
      split; (intros [X|(n & X)]; [now left|right; exists n; tauto]).
    + destruct (C66_domain_function E h m rs o g cl ds G Go (file_good_tame d h W Ah) Hm (g_byte _ _ _ (proj2 W) Hg) (file_role E d h g gt W Ah Hg) Hl Hu) as [fg [Fg Hfg]].
      destruct (Hfg a b) as [v [Hv Hi]]. exists fg, v. split; [exact Fg|]. split; [exact Hv|]. apply Eq. unfold linked_by. rewrite En, Hi.
      split; (intros [X|(n & X)]; [now left|right; exists n; tauto]).
  - exists fg, v. split; [|split; [exact Hv|]].
    + apply (C66_registered E h m rs o g Hm). rewrite (file_fn E d h g Ah Hn), Hf. reflexivity.
    + split.
      * intros ->. right. split; [exact Hn|]. exists fg. auto.
      * intros [(gt & a & b & ds & Hg & _)|(_ & fg' & Hf' & Hv')]; [exfalso; apply Hn; now exists gt|]. rewrite Hf in Hf'. injection Hf' as <-. congruence.
Qed.

(** ** Phantoms are leftovers *)
Lemma phantom_leftover rk pk rt pt f vals h (Rec Pres : rule -> Prop) (CT : string -> list string -> Prop) Ev rd :
  let pd := NewPolicyDef pk pt in
  (forall t r, In t (tests f) -> added_to pk h r \/ (r = empty_rule pt /\ (In t (last_tests f) \/ forall r', ~ present h (pk :: r'))) ->
     (holds Ev pd rd (map VStr vals) (test_text rk pk t) r = true <-> test_by CT rt pt vals r t)) ->
  (forall r, Rec r <-> remembered pk h r) -> (forall r, Rec r -> added_to pk h r) -> (forall r, Pres r <-> present h (pk :: r)) -> (forall r, Pres r -> Rec r) ->
  (forall t r r', In t (tests f) -> added_to pk h r -> added_to pk h r' -> (same_values pd (test_text rk pk t) r r' <-> agree pt t r r')) ->
  ((exists w, In w (ways_of (f_root (as_form rk pk f))) /\ phantom Ev pd rd (map VStr vals) Rec Pres w) <-> leftover CT h rt pk pt f vals).
Proof.
  intros pd Ho Hrec Hadd Hpres Hpr Hsame.
  assert (AH : forall pre r, (forall t, In t pre -> In t (tests f)) -> added_to pk h r \/ (r = empty_rule pt /\ forall r', ~ present h (pk :: r')) ->
             (all_hold Ev pd rd (map VStr vals) (map (test_text rk pk) pre) r = true <-> Forall (test_by CT rt pt vals r) pre)).
  { intros pre r Hin Hr. unfold all_hold. rewrite forallb_forall, Forall_forall. split.
    - intros X t Ht. apply (Ho t r (Hin t Ht)); [tauto|]. apply X. now apply in_map.
    - intros X e He. apply in_map_iff in He as (t & <- & Ht). apply (Ho t r (Hin t Ht)); [tauto|]. now apply X. }
  assert (SA : forall pre r r', (forall t, In t pre -> In t (tests f)) -> added_to pk h r -> added_to pk h r' ->
             (Forall (fun e => same_values pd e r r') (map (test_text rk pk) pre) <-> Forall (fun t => agree pt t r r') pre)).
  { intros pre r r' Hin Hr Hr'. rewrite Forall_map, !Forall_forall. split; intros X t Ht; apply (Hsame t r r' (Hin t Ht) Hr Hr'); now apply X. }
  unfold leftover. split.
  - intros (w & Hw & pre & l & -> & Hl & Hc). apply ways_alternatives in Hw as (a & Ha & Ew).
    assert (exists pre' t', a = pre' ++ [t']) as (pre' & t' & ->).
    { pose proof (proj1 (Forall_forall _ _) (proj2 (alternatives_ne f)) a Ha) as Na. destruct (exists_last Na) as (p' & t' & ->). eauto. }
    rewrite map_app in Ew. cbn [map] in Ew. apply app_inj_tail in Ew as [-> ->].
    assert (Hin : forall t, In t pre' -> In t (tests f)) by (intros t Ht; eapply alternatives_tests; [exact Ha|apply in_or_app; now left]).
    pose proof (alternatives_last _ _ _ Ha) as Hlast.
    exists pre', t'. split; [exact Ha|]. split; [apply (Ho t' _ (last_tests_in _ _ Hlast)); [right; split; [reflexivity|now left]|exact Hl]|].
    destruct Hc as [[Hn Hc]|(r & Hr & Hc & Hd)].
    + left. split; [intros r X; apply (Hn r); now apply Hrec|]. apply (AH pre' (empty_rule pt) Hin); [|exact Hc].
      right. split; [reflexivity|]. intros r' X. apply (Hn r'). apply Hpr. now apply Hpres.
    + right. exists r. split; [now apply Hrec|]. split; [apply (AH pre' r Hin); [left; now apply Hadd|exact Hc]|].
      intros r' Hp X. apply Hpres in Hp. apply (Hd r' Hp). apply (SA pre' r r' Hin); [now apply Hadd|now apply Hadd, Hpr|exact X].
  - intros (pre & t & Ha & Hl & Hc). exists (map (test_text rk pk) (pre ++ [t])). split; [apply ways_alternatives; eauto|].
    assert (Hin : forall t, In t pre -> In t (tests f)) by (intros t' Ht; eapply alternatives_tests; [exact Ha|apply in_or_app; now left]).
    pose proof (alternatives_last _ _ _ Ha) as Hlast.
    exists (map (test_text rk pk) pre), (test_text rk pk t). split; [now rewrite map_app|].
    split; [apply (Ho t _ (last_tests_in _ _ Hlast)); [right; split; [reflexivity|now left]|exact Hl]|].
    destruct Hc as [[Hn Hc]|(r & Hr & Hc & Hd)].
    + left. split; [intros r X; apply (Hn r); now apply Hrec|]. apply (AH pre (empty_rule pt) Hin); [|exact Hc].
      right. split; [reflexivity|]. intros r' X. apply (Hn r'). apply Hrec. apply Hpr. now apply Hpres.
    + right. apply Hrec in Hr. exists r. split; [exact Hr|]. split; [apply (AH pre r Hin); [left; now apply Hadd|exact Hc]|].
      intros r' Hp X. apply (Hd r'); [now apply Hpres|]. apply (SA pre r r' Hin); [now apply Hadd|now apply Hadd, Hpr|exact X].
Qed.
