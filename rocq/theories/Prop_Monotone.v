(** C90: decisions depend on the rules that are present only, and more rules grant
    more (C88 for two histories of the same file). *)
From Verif Require Import GoBase DefsM PolicyM PolicySpec EffectorM MatcherDefM MatcherDefSpec MatcherM MatcherSpec RbacM RbacSpec DomainM DomainSpec ModelM ModelSpec ModelP5
  EnforcerM EnforcerSpec AppSpec MultiSpec Prop_Effect Prop_Model Prop_App Prop_Apps Prop_Multi Prop_Columns.

Lemma file_def d h s k t : well_formed d -> file_history d h -> def_text s k h = Some t <-> In (s, k, t) d.
Proof. intros W (hd & hr1 & ob & hr2 & -> & Hd & H1 & H2). apply (o_def' d hd hr1 hr2 ob W Hd H1 H2). Qed.
Lemma same_defs d h h' s k : well_formed d -> file_history d h -> file_history d h' -> def_text s k h = def_text s k h'.
Proof.
  intros W H H'. destruct (def_text s k h) as [t|] eqn:D.
  - symmetry. apply (file_def d h' s k t W H'). now apply (file_def d h s k t W H).
  - destruct (def_text s k h') as [t|] eqn:D'; [|reflexivity]. apply (file_def d h' s k t W H') in D'. apply (file_def d h s k t W H) in D'. congruence.
Qed.
Lemma same_effect d h h' ps : well_formed d -> file_history d h -> file_history d h' -> effect_in_force h ps = effect_in_force h' ps.
Proof.
  intros W H H'. assert (N : forall s, effect_named h s = effect_named h' s) by (intros s; unfold effect_named; now rewrite (same_defs d h h' E_SEC s W H H')).
  unfold effect_in_force. rewrite N. generalize (effect_named h' "e"). induction (opts_of ps) as [|op ops IH]; intros a; cbn [fold_left]; [reflexivity|].
  assert (X : effect_option h a op = effect_option h' a op) by (destruct op; cbn; rewrite ?N; reflexivity). rewrite X. apply IH.
Qed.

(** Every rule present after [h] is present after [h']. *)
Definition fewer_rules (h h' : list (orders * mcall)) : Prop := forall rl, present h rl -> present h' rl.

Lemma chain_mono (P Q : string -> string -> Prop) n a b : (forall x y, P x y -> Q x y) -> chain P n a b -> chain Q n a b.
Proof. intros X C. induction C; econstructor; eauto. Qed.
Lemma related_mono h h' w a b : fewer_rules h h' -> related h w a b -> related h' w a b.
Proof.
  intros F. destruct w as [|gk]; cbn; [auto|]. intros [X|[n [Hn C]]]; [auto|right; exists n; split; [exact Hn|]].
  eapply chain_mono; [|exact C]. intros x y. exact (F [gk; x; y]).
Qed.
Lemma covers_mono h h' cs vals us : fewer_rules h h' -> covers h cs vals us -> covers h' cs vals us.
Proof.
  intros F. revert vals us. induction cs as [|c cs IH]; intros [|v vals] [|u us]; cbn; auto. intros [A B]. split; [eapply related_mono; eauto|auto].
Qed.
Lemma covered_mono h h' pk pt cs vals e : fewer_rules h h' -> covered h pk pt cs vals e -> covered h' pk pt cs vals e.
Proof. intros F (us & ext & A & B & C). exists us, ext. split; [now apply F|]. split; [eapply covers_mono; eauto|exact C]. Qed.

(** Two histories of rules with the same model file, in whatever order the rules
    came and went and wherever the matchers were built.  If all the rules that are
    present after the first are present after the second, then whatever the matcher
    allows after the first it allows after the second (allow-override), whatever is
    denied after the first is denied after the second (deny-override), and Filter
    lists at least the same rules. *)
Theorem C90_more_rules_grant_more :
  forall E d R h h',
    well_formed d -> readings E d R -> file_history d h -> file_history d h' -> good_m h -> good_m h' -> fewer_rules h h' ->
    exists m rs m' rs', mexec E (NewModel E) h = Val (m, rs) /\ mexec E (NewModel E) h' = Val (m', rs') /\
      forall mk rk pk rt pt c cs more, columnwise E d R mk rk pk rt pt c cs more ->
      forall o o' ps vals, good_orders o -> good_orders o' -> uses_matcher mk ps -> uses_request rk ps ->
        vals_of ps = map VStr vals -> List.length vals = S (List.length cs) ->
        ~ related h' (snd (last cs c)) (last vals ""%string) "" ->
        (exists ms ms', Filter E o m ps = Val (m, (ms, None)) /\ Filter E o' m' ps = Val (m', (ms', None)) /\ incl ms ms') /\
        (spells (effect_in_force h ps) "some(where (p.eft == allow))" ->
           exists b b', Enforce E o m ps = Val (m, (b, None)) /\ Enforce E o' m' ps = Val (m', (b', None)) /\ (b = true -> b' = true)) /\
        (spells (effect_in_force h ps) "!some(where (p.eft == deny))" ->
           exists b b', Enforce E o m ps = Val (m, (b, None)) /\ Enforce E o' m' ps = Val (m', (b', None)) /\ (b' = true -> b = true)).
Proof.
  intros E d R h h' W U Fh Fh' G G' Le.
  destruct (C88_column_by_column E d R h W U Fh G) as (m & rs & Hm & D). destruct (C88_column_by_column E d R h' W U Fh' G') as (m' & rs' & Hm' & D').
  exists m, rs, m', rs'. split; [exact Hm|]. split; [exact Hm'|].
  intros mk rk pk rt pt c cs more C o o' ps vals Go Go' Um Ur Vp Lv Last.
  destruct (D mk rk pk rt pt c cs more C o ps vals Go Um Ur Vp Lv) as ((ms & Fa & Fb) & A & B & _); [intros X; apply Last; eapply related_mono; eauto|].
  destruct (D' mk rk pk rt pt c cs more C o' ps vals Go' Um Ur Vp Lv Last) as ((ms' & Fa' & Fb') & A' & B' & _).
  rewrite <- (same_effect d h h' ps W Fh Fh') in A', B'. split; [|split].
  - exists ms, ms'. split; [exact Fa|]. split; [exact Fa'|]. intros x Hx. apply Fb'. apply Fb in Hx as (Hp & us & ext & Ex & Hc).
    split; [now apply Le|]. exists us, ext. split; [exact Ex|]. eapply covers_mono; eauto.
  - intros S. destruct (A S) as (b & Eb & Ib). destruct (A' S) as (b' & Eb' & Ib'). exists b, b'. split; [exact Eb|]. split; [exact Eb'|].
    rewrite Ib, Ib'. apply covered_mono. exact Le.
  - intros S. destruct (B S) as (b & Eb & Ib). destruct (B' S) as (b' & Eb' & Ib'). exists b, b'. split; [exact Eb|]. split; [exact Eb'|].
    rewrite Ib, Ib'. intros X Y. apply X. eapply covered_mono; eauto.
Qed.
Print Assumptions C90_more_rules_grant_more.

(** The same rules: the same rules are listed and every decision is the same, for
    all three effects. *)
Theorem C90_same_rules_same_decisions :
  forall E d R h h',
    well_formed d -> readings E d R -> file_history d h -> file_history d h' -> good_m h -> good_m h' ->
    (forall rl, present h rl <-> present h' rl) ->
    exists m rs m' rs', mexec E (NewModel E) h = Val (m, rs) /\ mexec E (NewModel E) h' = Val (m', rs') /\
      forall mk rk pk rt pt c cs more, columnwise E d R mk rk pk rt pt c cs more ->
      forall o o' ps vals, good_orders o -> good_orders o' -> uses_matcher mk ps -> uses_request rk ps ->
        vals_of ps = map VStr vals -> List.length vals = S (List.length cs) ->
        ~ related h (snd (last cs c)) (last vals ""%string) "" ->
        (exists ms ms', Filter E o m ps = Val (m, (ms, None)) /\ Filter E o' m' ps = Val (m', (ms', None)) /\ forall x, In x ms <-> In x ms') /\
        (spells (effect_in_force h ps) "some(where (p.eft == allow))" \/ spells (effect_in_force h ps) "!some(where (p.eft == deny))" \/
         spells (effect_in_force h ps) "some(where (p.eft == allow)) && !some(where (p.eft == deny))" /\ ~ covered h pk pt (c :: cs) vals Indeterminate ->
           exists b, Enforce E o m ps = Val (m, (b, None)) /\ Enforce E o' m' ps = Val (m', (b, None))).
Proof.
  intros E d R h h' W U Fh Fh' G G' Eq. assert (Le : fewer_rules h h') by (intros rl; apply Eq). assert (Ge : fewer_rules h' h) by (intros rl; apply Eq).
  destruct (C88_column_by_column E d R h W U Fh G) as (m & rs & Hm & D). destruct (C88_column_by_column E d R h' W U Fh' G') as (m' & rs' & Hm' & D').
  exists m, rs, m', rs'. split; [exact Hm|]. split; [exact Hm'|].
  intros mk rk pk rt pt c cs more C o o' ps vals Go Go' Um Ur Vp Lv Last.
  destruct (D mk rk pk rt pt c cs more C o ps vals Go Um Ur Vp Lv Last) as ((ms & Fa & Fb) & A & B & N).
  destruct (D' mk rk pk rt pt c cs more C o' ps vals Go' Um Ur Vp Lv) as ((ms' & Fa' & Fb') & A' & B' & N'); [intros X; apply Last; eapply related_mono; eauto|].
  rewrite <- (same_effect d h h' ps W Fh Fh') in A', B', N'.
  assert (Cv : forall e, covered h pk pt (c :: cs) vals e <-> covered h' pk pt (c :: cs) vals e) by (intros e; split; apply covered_mono; assumption).
  split.
  - exists ms, ms'. split; [exact Fa|]. split; [exact Fa'|]. intros x. rewrite Fb, Fb', Eq.
    split; intros (Hp & us & ext & Ex & Hc); (split; [exact Hp|]; exists us, ext; split; [exact Ex|]; eapply covers_mono; [|exact Hc]; assumption).
  - assert (Bq : forall (b b' : bool) (P Q : Prop), (b = true <-> P) -> (b' = true <-> Q) -> (P <-> Q) -> b = b').
    { intros [|] [|] P Q X Y Z; try reflexivity; [symmetry; apply Y, Z, X; reflexivity|apply X, Z, Y; reflexivity]. }
    intros [S|[S|[S Ni]]].
    + destruct (A S) as (b & Eb & Ib). destruct (A' S) as (b' & Eb' & Ib'). rewrite <- (Bq _ _ _ _ Ib Ib' (Cv Allow)) in Eb'. eauto.
    + destruct (B S) as (b & Eb & Ib). destruct (B' S) as (b' & Eb' & Ib'). rewrite <- (Bq _ _ _ _ Ib Ib' (not_iff_compat (Cv Deny))) in Eb'. eauto.
    + destruct (N S Ni) as (b & Eb & Ib). destruct (N' S) as (b' & Eb' & Ib'); [now rewrite <- Cv|].
      assert (Z : covered h pk pt (c :: cs) vals Allow /\ ~ covered h pk pt (c :: cs) vals Deny <-> covered h' pk pt (c :: cs) vals Allow /\ ~ covered h' pk pt (c :: cs) vals Deny)
        by (rewrite !Cv; reflexivity).
      rewrite <- (Bq _ _ _ _ Ib Ib' Z) in Eb'. eauto.
Qed.
Print Assumptions C90_same_rules_same_decisions.

(** ** One call more *)
Lemma file_snoc d h o x : file_history d h -> file_call d x -> file_history d (h ++ [(o, x)]).
Proof.
  intros (hd & hr1 & ob & hr2 & -> & Hd & H1 & H2) Hx. exists hd, hr1, ob, (hr2 ++ [(o, x)]). split; [now rewrite <- !app_assoc|]. split; [exact Hd|]. split; [exact H1|].
  apply Forall_app. split; [exact H2|]. repeat constructor. exact Hx.
Qed.
Lemma file_long d rl : well_formed d -> file_rule d rl -> long_enough rl.
Proof.
  intros W [(k & t & r & -> & Hi & _)|(k & t & a & b & ds & -> & _)].
  - intros Kg. pose proof (p_byte _ _ _ (proj2 W) Hi) as Kp. unfold p_key, g_key in *. congruence.
  - intros _. cbn. lia.
Qed.
(** AddRule never takes away an access under allow-override, and RemoveRule never
    gives one (and the other way round under deny-override). *)
Theorem C90_one_call :
  forall E d R h o0 rl,
    well_formed d -> readings E d R -> file_history d h -> good_m h -> good_orders o0 -> file_rule d rl ->
    exists m rs ma rsa mr rsr,
      mexec E (NewModel E) h = Val (m, rs) /\ mexec E (NewModel E) (h ++ [(o0, CAdd rl)]) = Val (ma, rsa) /\ mexec E (NewModel E) (h ++ [(o0, CRemove rl)]) = Val (mr, rsr) /\
      forall mk rk pk rt pt c cs more, columnwise E d R mk rk pk rt pt c cs more ->
      forall o oa or_ ps vals, good_orders o -> good_orders oa -> good_orders or_ -> uses_matcher mk ps -> uses_request rk ps ->
        vals_of ps = map VStr vals -> List.length vals = S (List.length cs) ->
        ~ related (h ++ [(o0, CAdd rl)]) (snd (last cs c)) (last vals ""%string) "" ->
        (spells (effect_in_force h ps) "some(where (p.eft == allow))" ->
           exists b ba br, Enforce E o m ps = Val (m, (b, None)) /\ Enforce E oa ma ps = Val (ma, (ba, None)) /\ Enforce E or_ mr ps = Val (mr, (br, None)) /\
             (br = true -> b = true) /\ (b = true -> ba = true)) /\
        (spells (effect_in_force h ps) "!some(where (p.eft == deny))" ->
           exists b ba br, Enforce E o m ps = Val (m, (b, None)) /\ Enforce E oa ma ps = Val (ma, (ba, None)) /\ Enforce E or_ mr ps = Val (mr, (br, None)) /\
             (ba = true -> b = true) /\ (b = true -> br = true)).
Proof.
  intros E d R h o0 rl W U Fh G Go0 Hr. pose proof (file_long d rl W Hr) as Lg.
  assert (Fa : file_history d (h ++ [(o0, CAdd rl)])) by (apply file_snoc; assumption).
  assert (Fr : file_history d (h ++ [(o0, CRemove rl)])) by (apply file_snoc; assumption).
  assert (Ga : good_m (h ++ [(o0, CAdd rl)])) by (apply Forall_app; split; [exact G|repeat constructor; apply Go0]).
  assert (Gr : good_m (h ++ [(o0, CRemove rl)])) by (apply Forall_app; split; [exact G|repeat constructor; apply Go0]).
  assert (La : fewer_rules h (h ++ [(o0, CAdd rl)])) by (intros x Hx; apply present_add; auto).
  assert (Lr : fewer_rules (h ++ [(o0, CRemove rl)]) h) by (intros x Hx; apply present_remove in Hx; tauto).
  destruct (C90_more_rules_grant_more E d R _ _ W U Fh Fa G Ga La) as (m & rs & ma & rsa & Hm & Hma & DA).
  destruct (C90_more_rules_grant_more E d R _ _ W U Fr Fh Gr G Lr) as (mr & rsr & m' & rs' & Hmr & Hm' & DR).
  rewrite Hm in Hm'. injection Hm' as <- <-. exists m, rs, ma, rsa, mr, rsr. split; [exact Hm|]. split; [exact Hma|]. split; [exact Hmr|].
  intros mk rk pk rt pt c cs more C o oa or_ ps vals Go Goa Gor Um Ur Vp Lv Last.
  destruct (DA _ _ _ _ _ _ _ _ C o oa ps vals Go Goa Um Ur Vp Lv Last) as (_ & A1 & A2).
  destruct (DR _ _ _ _ _ _ _ _ C or_ o ps vals Gor Go Um Ur Vp Lv) as (_ & R1 & R2); [intros X; apply Last; eapply related_mono; eauto|].
  rewrite (same_effect d _ h ps W Fr Fh) in R1, R2. split; intros S.
  - destruct (A1 S) as (b & ba & X1 & X2 & X3). destruct (R1 S) as (br & b' & Y1 & Y2 & Y3). rewrite X1 in Y2. injection Y2 as <-. exists b, ba, br. auto.
  - destruct (A2 S) as (b & ba & X1 & X2 & X3). destruct (R2 S) as (br & b' & Y1 & Y2 & Y3). rewrite X1 in Y2. injection Y2 as <-. exists b, ba, br. auto.
Qed.
Print Assumptions C90_one_call.

(** Histories of the file of C88_ex: with a rule that comes and goes, which leaves
    the same rules, and with one rule more and one less. *)
Definition two_h' : list (orders * mcall) :=
  map (fun x => (ex_rev, x)) (set_all two_defs) ++ [] ++ (ex_o, CBuild) ::
  map (fun x => (ex_rev, x)) [CAdd ["p"; "alice"; "data1"; "write"]; CAdd ["p2"; "bob"; "login"; "deny"]]%string.
Example C90_ex :
  file_history two_defs two_h' /\ good_m two_h' /\ file_rule two_defs ["g"; "carol"; "alice"]%string /\
  ~ related (two_h' ++ [(ex_o, CAdd ["g"; "carol"; "alice"]%string)]) (snd (last m_cols m_col)) "write" "" /\
  (forall rl, present two_h' rl <-> present ((two_h' ++ [(ex_o, CAdd ["p"; "bob"; "data1"; "read"]%string)]) ++ [(ex_o, CRemove ["p"; "bob"; "data1"; "read"]%string)]) rl) /\
  ask two_env two_h' ["carol"; "data1"; "write"]%string = Val (false, None) /\
  ask two_env (two_h' ++ [(ex_o, CAdd ["g"; "carol"; "alice"]%string)]) ["carol"; "data1"; "write"]%string = Val (true, None) /\
  ask two_env (two_h' ++ [(ex_o, CRemove ["p"; "alice"; "data1"; "write"]%string)]) ["alice"; "data1"; "write"]%string = Val (false, None).
Proof.
  split.
  { exists (map (fun x => (ex_rev, x)) (set_all two_defs)), [], ex_o, (map (fun x => (ex_rev, x)) [CAdd ["p"; "alice"; "data1"; "write"]; CAdd ["p2"; "bob"; "login"; "deny"]]%string).
    split; [reflexivity|]. split; [rewrite map_map; apply map_id|]. split; [constructor|]. apply Forall_map. cbn [snd]. file_tac. }
  split.
  { unfold good_m, two_h'. apply Forall_app. split; [apply Forall_map, Forall_forall; intros x _; apply ex_rev_good|]. cbn [app].
    constructor; [apply ex_o_good|]. apply Forall_map, Forall_forall. intros x _. apply ex_rev_good. }
  split; [right; eexists _, _, _, _, _; split; [reflexivity|]; split; [cbn; tauto|apply Forall_nil]|].
  split; [cbn; discriminate|]. split; [|repeat split; vm_compute; reflexivity].
  intros rl. rewrite present_remove, present_add by discriminate.
  rewrite !(as_listed_p _ "p"%string) by reflexivity.
  split; [|intros [[H|[_ H]] N]; [exact H|congruence]]. intros H. split; [now left|]. intros ->.
  apply p_present in H; [|reflexivity]. vm_compute in H. discriminate H.
Qed.
