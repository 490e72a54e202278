(** Property C100: patterns as names and as domains, in the managers of a model
    and in the matchers that use them. *)
From Verif Require Import GoBase GoBaseP PolicyM CacheM PathM RbacM RbacSpec RbacP RbacP2 RbacP3 RbacP4 RbacP5 PatternsM PatternsSpec
  DomainM DomainSpec DomainP DomainP2 DomainP3 DomainP4 DomainP5 DomainP6.
From Verif Require Import PathSpec BuiltinM DefsM DefsP PolicySpec PolicyP EffectorM MatcherDefM MatcherDefSpec MatcherDefP MatcherM MatcherSpec MatcherP MatcherP2
  EvalM ModelM ModelSpec ModelP ModelP2 ModelP3 ModelP4 ModelP5 ModelP6 EnforcerM EnforcerSpec EnforcerP
  SafeSpec SafeP FunctionsSpec FunctionsP AppSpec AppsSpec MultiSpec LogicSpec RoleAccessM RoleAccessSpec LogicP RoleAccessP DomainPatternSpec DomainP7.
From Verif Require Import Prop_Path Prop_Rbac Prop_Domain Prop_Patterns Prop_Builtin Prop_Effect Prop_Defs Prop_Matcher Prop_Model Prop_Enforce Prop_Query Prop_Functions Prop_App Prop_Apps Prop_Multi Prop_Columns Prop_Logic Prop_RoleAccess.
Local Open Scope list_scope.

Lemma no_dm l : (forall m, ~ In (RCSetDomainMatcher m) (map snd l)) -> before_dm l = l /\ dm_of l = None.
Proof.
  induction l as [|[o c] l IH]; intros H; [split; reflexivity|]. destruct IH as [A B]; [intros m Hm; apply (H m); now right|].
  cbn. destruct c as [c|m|m]; [rewrite A; auto|rewrite A; auto|]. exfalso. apply (H m). now left.
Qed.
Lemma dm_split l dm : dm_of l = Some dm -> exists o, l = before_dm l ++ (o, RCSetDomainMatcher (Some dm)) :: after_dm l.
Proof.
  induction l as [|[o c] l IH]; intros H; [discriminate|]. cbn in H |- *. destruct c as [c|m|m].
  - destruct (IH H) as [o' E]. exists o'. cbn. now rewrite <- E.
  - destruct (IH H) as [o' E]. exists o'. cbn. now rewrite <- E.
  - subst m. exists o. reflexivity.
Qed.
Lemma pcalls_app l1 l2 : pcalls (l1 ++ l2) = pcalls l1 ++ pcalls l2.
Proof. apply flat_map_app. Qed.
Lemma pmatcher_RC l : Forall (fun c => exists dc, snd c = RC dc) l -> forall m, fold_left pmatcher_step (map snd (pcalls l)) m = m.
Proof. induction 1 as [|[o c] l [dc Hc] F IH]; intros m; [reflexivity|]. cbn in Hc. subst c. cbn. apply IH. Qed.
Lemma last_set l m0 mm : fold_left pmatcher_step l m0 = Some mm -> m0 = Some mm \/ In (PSet (Some mm)) l.
Proof.
  revert m0. induction l as [|c l IH]; intros m0 X; cbn [fold_left] in X; [now left|]. destruct (IH _ X) as [Y|Y]; [|right; now right].
  destruct c; cbn in Y; [now left|subst; right; now left].
Qed.

(** The manager of a section with domains, for every history of calls in which
    matchers for names are set and changed at any time and a domain matcher is set at
    most once, after which links are only added. *)
Theorem C100_patterns_in_domains_partial :
  forall l, domains_fit l ->
    exists x xs, role_exec (IDom (NewDomainManager 10)) l = Val (x, xs) /\
      forall ord a b ds, good_order ord -> ask_fits l a b ds ->
        exists x' r, i_Has ord x a b ds = Val (x', r) /\ (r = true <-> joined_in l a b ds).
Proof.
  intros l (Hg & Hp & He & Hd).
  set (N := fun n => matcher_used (pcalls l) -> plain n).
  assert (NO : forall mm, mm = None \/ In (PSet mm) (map snd (pcalls l)) -> names_ok mm N).
  { intros [mm|] Hm n Hn; cbn; [|exact Logic.I]. destruct Hm as [Hm|Hm]; [discriminate|]. apply Hn. now exists mm. }
  assert (Hn : forall n, In n (pnames (pcalls l)) -> N n) by (intros n Hi M; now apply Hp).
  assert (NM : names_ok (names_matcher l) N).
  { apply NO. unfold names_matcher. destruct (pmatcher_of (pcalls l)) as [mm|] eqn:Ep; [|now left]. right. unfold pmatcher_of in Ep.
    destruct (last_set _ _ _ Ep) as [X|X]; [discriminate|exact X]. }
  change (IDom (NewDomainManager 10)) with (domains_with 10 None None).
  destruct Hd as [Hd|(dm & Edm & Hdef & Hna & H1 & H2)].
  - destruct (no_dm l Hd) as [Eb En]. rewrite Eb in He.
    destruct (tree_exec N 10 l None (fun _ => no_links) _ NO Hg He Hn (tree_start N 10)) as (x & ys & Ex & T & _).
    exists x, ys. split; [exact Ex|]. intros ord a b ds Ho (Pl & Hu & Oa & Or & _).
    assert (HL : forall u v, links_of (calls_in ds (dcalls l)) u v = true <-> link_in l ds u v) by (intros u v; unfold link_in; rewrite En; reflexivity).
    destruct (tree_has (names_matcher l) N 10 _ x ord a b ds (link_in l ds) NM Ho Hu (fun M => proj1 (Pl M)) (fun M => proj2 (Pl M)) T Oa HL Or) as (x' & r & Er & Hr).
    exists x', r. split; [exact Er|]. rewrite Hr. unfold joined_in.
    split; (intros [H|[n [y (A & B & C)]]]; [now left|right; exists n, y; split; [lia|auto]]).
  - destruct (dm_split l dm Edm) as [o El]. set (l1 := before_dm l) in *. set (l2 := after_dm l) in *.
    assert (Em : names_matcher l = pmatcher_of (pcalls l1)).
    { unfold names_matcher. rewrite El at 1. rewrite pcalls_app. unfold pmatcher_of. rewrite map_app, fold_left_app. cbn [pcalls flat_map as_pcall snd fst map app]. fold (pcalls l2).
      apply pmatcher_RC. eapply Forall_impl; [|exact H2]. intros c [dc [A _]]. now exists dc. }
    assert (NO1 : forall mm, mm = None \/ In (PSet mm) (map snd (pcalls l1)) -> names_ok mm N).
    { intros mm [H|H]; apply NO; [now left|right]. rewrite El, pcalls_app, map_app. apply in_or_app. now left. }
    rewrite Em in NM.
    pose proof (fun ns => dm_run N 10 l1 o dm l2 ns NO1 NM) as Run. rewrite <- El in Run.
    destruct (Run (domains_of (dcalls l)) Hg He H1 H2 Hn Hdef Hna (fun k Hk => Hk)) as (x & xs & Ex & _).
    exists x, xs. split; [exact Ex|]. intros ord a b ds Ho (Pl & Hu & Oa & Or & Hdm). rewrite Edm in Hdm. destruct Hdm as (d & -> & Hi & Hna2).
    destruct (Run (d :: domains_of (dcalls l)) Hg He H1 H2 Hn Hdef Hna2 (fun k Hk => or_intror Hk)) as (x2 & xs2 & Ex2 & An). rewrite Ex in Ex2. injection Ex2 as <- <-.
    rewrite Em in Oa, Or.
    set (R := fun u v => exists k, (links_of (calls_in [k] (dcalls l1)) u v = true \/ added_link (dcalls l2) u v k) /\ (k = d \/ RbacSpec.covers dm k d)).
    assert (HR : forall u v, R u v <-> link_in l [d] u v).
    { intros u v. unfold link_in, R. rewrite Edm. fold l1 l2. split.
      - intros [k H]. exists d, k. split; [reflexivity|exact H].
      - intros (d' & k & E & H). injection E as <-. exists k. exact H. }
    destruct (An ord a b d Ho (or_introl eq_refl) Hi (fun M => proj1 (Pl M)) (fun M => proj2 (Pl M)) Oa) as (x' & r & Er & Hr).
    { intros u v H. apply (Or u v). now apply HR. }
    exists x', r. split; [exact Er|]. fold R in Hr. rewrite Hr. unfold joined_in. rewrite Em.
    assert (Hc : forall n y, RbacSpec.chain (nstep (pmatcher_of (pcalls l1)) R) n a y <-> RbacSpec.chain (nstep (pmatcher_of (pcalls l1)) (link_in l [d])) n a y).
    { intros n y. apply chain_iff with (Q := fun _ => True); auto. intros u v _. unfold nstep. split; intros [p [A B]]; exists p; (split; [now apply HR|exact B]). }
    cbn [List.length].
    split; (intros [H|[n [y (A & B & C)]]]; [now left|right; exists n, y; split; [lia|split; [now apply Hc|exact C]]]).
Qed.
Print Assumptions C100_patterns_in_domains_partial.

(** ** Matchers

    Every file and every history of rules, after which the role managers of the
    model are also used directly, in any order with further rules: patterns stand for
    names in every section, and for domains in sections with three places.  Filter
    reports exactly the present rules for which the formula is true, and Enforce
    answers by their effects. *)
Theorem C100_patterns_in_matchers_partial :
  forall E d R h hx, well_formed d -> readings E d R -> file_history d h -> good_m h ->
    Forall (fun x => known_call d (snd x)) hx -> good_x hx ->
    let xh := of_model h ++ hx in let CT := pattern_holds E d xh in
    (forall gk gt, In (G_SEC, gk, gt) d -> section_fit gk gt xh) ->
    exists m rs, xexec E (NewModel E) xh = Val (m, rs) /\
      forall mk rk pk rt pt f, logical E d R mk rk pk rt pt f ->
      forall o ps vals, good_orders o -> uses_matcher mk ps -> uses_request rk ps ->
        vals_of ps = map VStr vals -> List.length vals = List.length (named_columns rt) ->
        answer_by (pattern_defined E d xh) (model_calls xh) rt pk pt f vals ->
        (forall t, In t (last_tests f) -> ~ test_by CT rt pt vals (repeat ""%string (List.length (named_columns pt))) t) ->
        let e := effect_in_force (model_calls xh) ps in
        let says := says_by CT (model_calls xh) rt pk pt f vals in
        (exists ms, Filter E o m ps = Val (m, (ms, None)) /\
           forall x, In x ms <-> present (model_calls xh) x /\ exists r, x = pk :: r /\ satisfies_by CT rt pt f vals r) /\
        (spells e "some(where (p.eft == allow))" ->
           exists b, Enforce E o m ps = Val (m, (b, None)) /\ (b = true <-> says Allow)) /\
        (spells e "!some(where (p.eft == deny))" ->
           exists b, Enforce E o m ps = Val (m, (b, None)) /\ (b = true <-> ~ says Deny)) /\
        (spells e "some(where (p.eft == allow)) && !some(where (p.eft == deny))" -> ~ says Indeterminate ->
           exists b, Enforce E o m ps = Val (m, (b, None)) /\ (b = true <-> says Allow /\ ~ says Deny)).
Proof.
  intros E d R h hx W U Ah G Dx Gx xh CT Sf. apply direct_by; auto.
  - intros k t Hk. specialize (Sf k t Hk). fold xh. set (l := section_calls k xh) in *.
    assert (Gs : forall gt', In (G_SEC, k, gt') d -> gt' = t).
    { intros gt' Hg'. apply (defs_in G_SEC k d (proj2 W) (proj1 W)) in Hk, Hg'. congruence. }
    assert (Mg : exists x xs, role_exec (fresh_manager t) l = Val (x, xs) /\ forall ord a b ds, good_order ord -> section_asked xh k t a b ds ->
       exists x' r, i_Has ord x a b ds = Val (x', r) /\ (r = true <-> section_joins xh k t a b ds)).
    { unfold section_fit, section_asked, section_joins, fresh_manager in *. fold l in Sf |- *. change (rd_nargs (NewRoleDef k t)) with (rd_nargs (NewRoleDef "" t)) in *.
      destruct (Nat.eqb (rd_nargs (NewRoleDef "" t)) 2).
      - destruct Sf as [S1 S2]. destruct (two_places l) as (x & xs & Ex & An); [|exact S2|].
        { clear - S1. induction S1 as [|[o c] l [Ho Hc] F IH]; [constructor|]. cbn [pcalls flat_map]. apply Forall_app. split; [|exact IH].
          cbn [fst snd] in *. destruct c; cbn [as_pcall map]; repeat constructor; auto. }
        exists x, xs. split; [exact Ex|]. intros ord a b ds Ho (Hpl & Oa & Or). exact (An ord a b ds Ho Hpl Oa Or).
      - exact (C100_patterns_in_domains_partial l Sf). }
    destruct Mg as (x & xs & S & An). exists x, xs. split; [exact S|].
    intros ord us Ho [(gt & a & b & ds & Hg & -> & Hu)|(Hn & _)]; [|exfalso; apply Hn; now exists t].
    rewrite (Gs gt Hg) in Hu. destruct (An ord a b ds Ho Hu) as (x' & r & Hr & Hi). exists a, b, ds, x', r. split; [reflexivity|]. split; [exact Hr|].
    rewrite Hi. unfold CT, pattern_holds. split; [intros Y; left; exists t, a, b, ds; auto|]. intros [(gt' & a' & b' & ds' & Hg' & Y & Z)|(Y & _)].
    + injection Y as <- <- <-. rewrite (Gs gt' Hg') in Z. exact Z.
    + exfalso. apply Y. now exists t.
  - intros g us Hn [(gt & a & b & ds & Hg & _)|(_ & fg & v & Hf & Hv)]; [exfalso; apply Hn; now exists gt|].
    exists fg, v. split; [exact Hf|]. split; [exact Hv|]. unfold CT, pattern_holds. split.
    + intros ->. right. split; [exact Hn|]. exists fg. auto.
    + intros [(gt & a & b & ds & Hg & _)|(_ & fg' & Hf' & Hv')]; [exfalso; apply Hn; now exists gt|]. rewrite Hf in Hf'. injection Hf' as <-. congruence.
Qed.
Print Assumptions C100_patterns_in_matchers_partial.

(** The hypotheses are met by examples/rbac_with_all_pattern_model.conf and its
    policy with both matchers set (model_test.go:633-643), and rules that come
    afterwards. *)
Definition all_text : string := "r.sub == p.sub && g(r.obj, p.obj, r.dom) && r.dom == p.dom && r.act == p.act".
Definition all_defs : deflist :=
  [(R_SEC, "r", "sub, dom, obj, act"); (P_SEC, "p", "sub, dom, obj, act"); (G_SEC, "g", "_, _, _");
   (E_SEC, "e", "some(where (p.eft == allow))"); (M_SEC, "m", all_text)]%string.
Definition all_form : mform :=
  MAnd (MAnd (MAnd (MTest (Equal (TReq "sub") (TPol "sub"))) (MTest (Call "g" [TReq "obj"; TPol "obj"; TReq "dom"]))) (MTest (Equal (TReq "dom") (TPol "dom"))))
       (MTest (Equal (TReq "act") (TPol "act"))).
Definition all_env (L : lib) : env := one_env ["g"]%string all_text (as_form "r" "p" all_form) L.
Lemma all_wf : well_formed all_defs.
Proof.
  split; [repeat (apply NoDup_cons; [cbn; intuition discriminate|]); apply NoDup_nil|].
  intros s k t H. repeat (destruct H as [H|H]; [injection H as <- <- <-; eexists; split; reflexivity|]). destruct H.
Qed.
Lemma all_reads L : readings (all_env L) all_defs (over_p all_form).
Proof.
  intros mk t H. repeat (destruct H as [H|H]; [first [discriminate H|injection H as <- <-]|]); [|destruct H]. split; [|eexists; cbn; tauto].
  apply one_reads; try reflexivity; [atom_tac|repeat split| |plain_tac].
  intros k [<-|[]]; left; eexists; cbn; tauto.
Qed.
Lemma all_logical L : logical (all_env L) all_defs (over_p all_form) "m" "r" "p" "sub, dom, obj, act" "sub, dom, obj, act" all_form.
Proof.
  constructor; [eexists; cbn; tauto|reflexivity|cbn; tauto|cbn; tauto|apply distinct_columns; reflexivity|apply distinct_columns; reflexivity|terms_tac|columns_tac|].
  assert (C : forall F : string -> option gofn, e_eval (all_env L) F = mini (flat_map (fun k => match F k with Some f => [(k, f)] | None => [] end) ["g"]%string)) by reflexivity.
  apply Forall_cons; [eq_tac|]. apply Forall_cons; [|apply Forall_cons; [eq_tac|apply Forall_cons; [eq_tac|apply Forall_nil]]].
  intros F Hf; specialize (Hf _ _ eq_refl); rewrite C; cbn [flat_map]; destruct (F "g"%string) eqn:E1; try contradiction; call_of_tac.
Qed.
Definition all_l1 : list mcall :=
  [CAdd ["p"; "alice"; "domain1"; "book_group"; "read"]; CAdd ["p"; "alice"; "domain2"; "book_group"; "write"]; CAdd ["g"; "/book/:id"; "book_group"; "*"]]%string.
Definition all_h : list (orders * mcall) := after all_defs all_l1 [].
Definition all_hx : xhistory :=
  [(ex_rev, XRole "g" (RCSetMatcher (Some PathMatcher))); (ex_o, XRole "g" (RCSetDomainMatcher (Some PathMatcher)));
   (ex_rev, XM (CAdd ["g"; "/pen/:id"; "pen_group"; "domain2"])); (ex_o, XM (CAdd ["p"; "alice"; "domain2"; "pen_group"; "read"]))]%string.
Definition all_x : xhistory := of_model all_h ++ all_hx.
Lemma all_calls : section_calls "g" all_x =
  [(o_names ex_rev, RC (DAdd "/book/:id" "book_group" ["*"])); (o_names ex_rev, RCSetMatcher (Some PathMatcher)); (o_names ex_o, RCSetDomainMatcher (Some PathMatcher));
   (o_names ex_rev, RC (DAdd "/pen/:id" "pen_group" ["domain2"]))]%string.
Proof. reflexivity. Qed.
Lemma all_apart d : plain d -> ~ reserved d -> IsPathPattern d = false -> names_apart PathMatcher (d :: ["*"; "domain2"])%string.
Proof.
  intros Hp Hr Hi. split; [|split].
  - intros n [<-|[<-|[<-|[]]]]; [exact Hp|reflexivity|reflexivity].
  - repeat apply Forall_cons; [exact Hr|intros [X|X]; discriminate X|intros [X|X]; discriminate X|apply Forall_nil].
  - intros p q Ip Iq Pq (Hne & Hip & _). destruct Iq as [<-|[<-|[<-|[]]]]; [change (IsPathPattern d = true) in Pq; congruence| |discriminate Pq].
    destruct Ip as [<-|[<-|[<-|[]]]]; [change (IsPathPattern d = true) in Hip; congruence|congruence|discriminate Hip].
Qed.
Lemma all_fit : section_fit "g" "_, _, _" all_x.
Proof.
  unfold section_fit. cbn [Nat.eqb rd_nargs NewRoleDef]. change (rd_nargs (NewRoleDef "g" "_, _, _")) with 3. cbn [Nat.eqb]. rewrite all_calls. split; [|split; [|split]].
  - repeat (apply Forall_cons; [first [apply ex_o_good|apply ex_rev_good]|]); apply Forall_nil.
  - intros _ n Hn. vm_compute in Hn. repeat (destruct Hn as [<-|Hn]; [reflexivity|]). destruct Hn.
  - cbn [before_dm]. apply Forall_cons; [repeat constructor; intros [X|X]; discriminate X|]. repeat constructor.
  - right. exists PathMatcher. split; [reflexivity|]. split; [reflexivity|]. split; [|split].
    + change (domains_of (dcalls _)) with ["*"; "domain2"]%string. destruct (all_apart "domain2"%string) as (A & B & C); [reflexivity|intros [X|X]; discriminate X|reflexivity|].
      split; [intros n Hn; apply A; now right|]. split; [now apply Forall_inv_tail in B|]. intros p q Hp Hq. apply C; now right.
    + cbn [before_dm]. apply Forall_cons; [eexists; reflexivity|]. repeat constructor.
    + cbn [after_dm]. apply Forall_cons; [eexists; split; [reflexivity|exact Logic.I]|apply Forall_nil].
Qed.
(** The roles of the section are ordinary names, so every request without dollar
    signs whose object and domain are ordinary names has what the theorem asks for. *)
Lemma all_answers L s dom ob a : plain ob -> IsPathPattern ob = false -> plain dom -> ~ reserved dom -> IsPathPattern dom = false -> a <> ""%string ->
  answer_by (pattern_defined (all_env L) all_defs all_x) (model_calls all_x) "sub, dom, obj, act" "p" "sub, dom, obj, act" all_form [s; dom; ob; a] /\
  (forall t, In t (last_tests all_form) ->
     ~ test_by (pattern_holds (all_env L) all_defs all_x) "sub, dom, obj, act" "sub, dom, obj, act" [s; dom; ob; a] (repeat ""%string (List.length (named_columns "sub, dom, obj, act"))) t).
Proof.
  intros Ho Hp Hd Hr0 Hdp Ha. split.
  - intros r g args us Ht Hr Hu. repeat (destruct Ht as [Ht|Ht]; [first [discriminate Ht|injection Ht as <- <-]|]); [|destruct Ht]; args_tac; left.
    eexists _, _, _, _. split; [cbn; tauto|]. split; [reflexivity|].
    repeat match goal with H : term_value _ _ _ _ _ _ |- _ => destruct H as (? & ? & ?) end.
    match goal with K1 : nth_error _ ?n = Some "obj"%string, K2 : nth_error [s; dom; ob; a] ?n = Some ?z |- _ =>
      assert (z = ob) as -> by (do 4 (destruct n as [|n]; [try discriminate K1; injection K2 as <-; reflexivity|]); destruct n; discriminate K1) end.
    match goal with K1 : nth_error _ ?n = Some "dom"%string, K2 : nth_error [s; dom; ob; a] ?n = Some ?z |- _ =>
      assert (z = dom) as -> by (do 4 (destruct n as [|n]; [try discriminate K1; injection K2 as <-; reflexivity|]); destruct n; discriminate K1) end.
    unfold section_asked. change (rd_nargs (NewRoleDef "g" "_, _, _")) with 3. cbn [Nat.eqb]. rewrite all_calls. split; [|split; [|split; [|split]]].
    + intros _. split; [exact Ho|].
      match goal with K2 : nth_error r ?n = Some ?z |- plain ?z => apply nth_error_In in K2; rename K2 into Hz end.
      destruct Hr as [Hr|[-> _]].
      * vm_compute in Hr. repeat (destruct Hr as [Hr|Hr]; [first [discriminate Hr|injection Hr as <-; repeat (destruct Hz as [<-|Hz]; [reflexivity|]); destruct Hz]|]). destruct Hr.
      * repeat (destruct Hz as [<-|Hz]; [reflexivity|]). destruct Hz.
    + apply Forall_cons; [exact Hr0|apply Forall_nil].
    + exact Hp.
    + intros u v (d & k & _ & [Hl|[o Hl]] & _).
      * assert (Hv : v = "book_group"%string); [|subst v; reflexivity]. apply link_was_added in Hl as [o Hl]. cbn in Hl. destruct Hl as [Hl|[]]. now injection Hl as _ _ <- _.
      * cbn in Hl. destruct Hl as [Hl|[]]. injection Hl as _ _ <- _. reflexivity.
    + cbn [dm_of]. exists dom. split; [reflexivity|]. split; [exact Hdp|]. now apply all_apart.
  - intros t [<-|[]] (x & H1 & H2). destruct H2 as (n & _ & H2). assert (x = ""%string) as ->.
    { do 4 (destruct n as [|n]; [injection H2 as <-; reflexivity|]). destruct n; discriminate H2. }
    destruct H1 as (k & H1 & H3). do 4 (destruct k as [|k]; [try discriminate H1; injection H3 as H3; now apply Ha|]). destruct k; discriminate H1.
Qed.
Example C100_ex : forall L,
  well_formed all_defs /\ readings (all_env L) all_defs (over_p all_form) /\ file_history all_defs all_h /\ good_m all_h /\
  Forall (fun x => known_call all_defs (snd x)) all_hx /\ good_x all_hx /\
  (forall gk gt, In (G_SEC, gk, gt) all_defs -> section_fit gk gt all_x) /\
  logical (all_env L) all_defs (over_p all_form) "m" "r" "p" "sub, dom, obj, act" "sub, dom, obj, act" all_form /\
  (forall l, uses_matcher "m" (map (fun v => PVal (VStr v)) l) /\ uses_request "r" (map (fun v => PVal (VStr v)) l) /\
     spells (effect_in_force (model_calls all_x) (map (fun v => PVal (VStr v)) l)) "some(where (p.eft == allow))") /\
  xask (all_env L) (of_model all_h) ["alice"; "domain1"; "/book/1"; "read"]%string = Val (false, None) /\
  xask (all_env L) all_x ["alice"; "domain1"; "/book/1"; "read"]%string = Val (true, None) /\
  xask (all_env L) all_x ["alice"; "domain1"; "/book/1"; "write"]%string = Val (false, None) /\
  xask (all_env L) all_x ["alice"; "domain2"; "/book/1"; "read"]%string = Val (false, None) /\
  xask (all_env L) all_x ["alice"; "domain2"; "/book/1"; "write"]%string = Val (true, None) /\
  xask (all_env L) all_x ["alice"; "domain2"; "/pen/1"; "read"]%string = Val (true, None) /\
  xask (all_env L) all_x ["alice"; "domain1"; "/pen/1"; "read"]%string = Val (false, None).
Proof.
  intros L. split; [exact all_wf|]. split; [apply all_reads|].
  assert (Un : forall x, x = "*"%string \/ x = "domain2"%string -> unreserved [x]).
  { intros x Hx. apply Forall_cons; [|apply Forall_nil]. destruct Hx as [-> | ->]; intros [X|X]; discriminate X. }
  destruct (after_file all_defs all_l1 []) as [H1 H2].
  { unfold all_l1. apply Forall_cons; [left; eexists _, _, _; split; [reflexivity|]; split; [cbn; tauto|]; split; [split; [discriminate|repeat (apply Forall_cons; [reflexivity|]); apply Forall_nil]|reflexivity]|].
    apply Forall_cons; [left; eexists _, _, _; split; [reflexivity|]; split; [cbn; tauto|]; split; [split; [discriminate|repeat (apply Forall_cons; [reflexivity|]); apply Forall_nil]|reflexivity]|].
    apply Forall_cons; [right; eexists _, _, _, _, _; split; [reflexivity|]; split; [cbn; tauto|]; apply Un; auto|]. apply Forall_nil. }
  { apply Forall_nil. }
  split; [exact H1|]. split; [exact H2|]. split.
  { unfold all_hx. apply Forall_cons; [eexists; cbn; tauto|]. apply Forall_cons; [eexists; cbn; tauto|].
    apply Forall_cons; [right; eexists _, _, _, _, _; split; [reflexivity|]; split; [cbn; tauto|]; apply Un; auto|].
    apply Forall_cons; [left; eexists _, _, _; split; [reflexivity|]; split; [cbn; tauto|]; split; [split; [discriminate|repeat (apply Forall_cons; [reflexivity|]); apply Forall_nil]|reflexivity]|]. apply Forall_nil. }
  split; [unfold good_x, all_hx; repeat (apply Forall_cons; [first [apply ex_o_good|apply ex_rev_good]|]); apply Forall_nil|].
  split.
  { intros gk gt H. repeat (destruct H as [H|H]; [first [discriminate H|injection H as <- <-]|]); [exact all_fit|destruct H]. }
  split; [apply all_logical|]. split.
  { intros l. assert (Ol : opts_of (map (fun v => PVal (VStr v)) l) = []) by (rewrite <- (map_map VStr PVal); apply opts_PVal).
    unfold uses_matcher, uses_request, effect_in_force. rewrite Ol.
    split; [split; [constructor|now left]|]. split; [split; [constructor|now left]|]. reflexivity. }
  repeat split; vm_compute; reflexivity.
Qed.
