(** Property C81: a restart from the policy file changes no decision. *)
From Coq Require Import Permutation.
From Verif Require Import GoBase GoBaseP DefsM PolicyM PolicySpec PolicyP MatcherDefM MatcherDefSpec MatcherM RbacM RbacSpec DomainM DomainSpec ModelM ModelSpec ModelP ModelP4 ModelP5
  EnforcerM StorageM StorageSpec StorageP StorageP2 StorageP3 StorageP4 FileM FileSpec FileP FileWorldM PersistSpec PersistP AppSpec AppsSpec RestartSpec.
From Verif Require Import Prop_File Prop_Model Prop_Storage Prop_Persist Prop_App Prop_Apps.
Import ListNotations.
Local Open Scope list_scope.

(** ** The set-up *)
Lemma start_app c hs hr : app_start c hs -> Forall (fun x => app_call c (snd x)) hr -> app_history c (hs ++ hr).
Proof.
  intros Hs Hr. unfold app_start in Hs. destruct (exists_last (l := hs)) as [hd [[o x] ->]]; [intros ->; cbn in Hs; destruct (config_defs c); discriminate|].
  rewrite map_app in Hs. cbn [map snd] in Hs. apply app_inj_tail in Hs as [Hs ->].
  exists hd, [], o, hr. rewrite <- app_assoc. cbn. auto.
Qed.
Lemma start_p c hs k : app_start c hs -> p_history k hs = if String.eqb "p" k then Some [] else None.
Proof.
  unfold app_start, p_history. intros ->. rewrite fold_left_app. unfold config_defs. destruct (cf_g c); cbn [app fold_left p_step]; reflexivity.
Qed.
Lemma start_g c hs k : app_start c hs ->
  g_history k hs = match cf_g c with Some t => if String.eqb "g" k then Some (fresh_manager t, []) else None | None => None end.
Proof.
  unfold app_start, g_history, config_defs. intros Hs. destruct (cf_g c) as [t|].
  - destruct hs as [|[o1 ?] [|[o2 ?] [|[o3 ?] [|[o4 ?] [|[o5 ?] [|[o6 ?] [|]]]]]]]; try discriminate Hs. cbn [map snd app] in Hs. injection Hs as -> -> -> -> -> ->.
    cbn [fold_left g_step]. destruct (String.eqb "g" k); reflexivity.
  - destruct hs as [|[o1 ?] [|[o2 ?] [|[o3 ?] [|[o4 ?] [|[o5 ?] [|]]]]]]; try discriminate Hs. cbn [map snd app] in Hs. injection Hs as -> -> -> -> ->. reflexivity.
Qed.
Lemma start_empty c hs : app_start c hs -> forall rl, ~ present hs rl.
Proof.
  intros Hs [|k r]; cbn [present]; [intros []|]. intros [[_ [ops [H S]]]|[_ [s [a [b [ds [H [_ L]]]]]]]].
  - rewrite (start_p c hs k Hs) in H. destruct (String.eqb "p" k); [|discriminate]. injection H as <-. discriminate S.
  - rewrite (start_g c hs k Hs) in H. destruct (cf_g c); [|discriminate]. destruct (String.eqb "g" k); [|discriminate]. injection H as <-.
    unfold linked, fresh_manager in L. cbn [fst snd] in L. destruct (Nat.eqb _ 2); [destruct ds|]; discriminate L.
Qed.
Lemma app_rule_call c rl : app_rule c rl -> app_call c (CAdd rl) /\ app_call c (CRemove rl). Proof. auto. Qed.
Lemma start_plain c hs rl : app_start c hs -> file_rule c rl -> plain_rule hs rl /\ in_section hs rl <> None /\ long_enough rl.
Proof.
  intros Hs [Ha [Hl Hx]]. split; [split|].
  - exact (app_tame_call c (CAdd rl) Ha).
  - destruct Ha as [[r [-> _]]|[a [b [ds [-> [Hg _]]]]]]; [reflexivity|]. cbn [as_listed]. change (first_byte "g") with (Some "g"%char). cbn iota.
    rewrite (start_g c hs "g" Hs). destruct (cf_g c) as [t|] eqn:Eg; [|contradiction]. cbn [String.eqb Ascii.eqb Bool.eqb]. unfold fresh_manager.
    destruct (Nat.eqb_spec (rd_nargs (NewRoleDef "" t)) 2) as [E2|E2]; [|reflexivity]. now rewrite (Hx t a b ds eq_refl eq_refl E2).
  - destruct Ha as [[r [-> _]]|[a [b [ds [-> [Hg _]]]]]].
    + split; [|intros X; discriminate X]. rewrite in_section_p by reflexivity. rewrite (start_p c hs "p" Hs). discriminate.
    + split; [|intros _; cbn; lia]. rewrite in_section_g by reflexivity. rewrite (start_g c hs "g" Hs). destruct (cf_g c) as [t|]; [discriminate|contradiction].
Qed.

(** ** The calls *)
Definition filed (c : config) (x : mcall) : Prop := match x with CAdd rl | CRemove rl => file_rule c rl | _ => False end.
Lemma parts_filed c h hm : Forall (fun x => app_ecall c (snd x)) h -> model_parts h hm -> Forall (fun x => filed c (snd x)) hm.
Proof.
  intros F M. induction M as [|os x h hm hm' M1 M2 IH]; [constructor|]. inversion F as [|? ? F1 F2]; subst. apply Forall_app. split; [|now apply IH]. clear - F1 M1. cbn [snd] in F1.
  assert (Z : forall mk rs, (forall rl, file_rule c rl -> filed c (mk rl)) -> Forall (file_rule c) rs -> forall os n, Forall (fun x => filed c (snd x)) (firstn n (rule_calls os mk rs))).
  { clear. intros mk rs Hmk F. induction F as [|r rs Hr F IH]; intros os n; cbn [rule_calls]; [destruct n; constructor|].
    destruct n; cbn [firstn]; [constructor|]. constructor; [now apply Hmk|apply IH]. }
  destruct x as [y|rs|rs| | | | | | |]; cbn [app_ecall model_part] in *; try contradiction; try (subst hm; constructor).
  - destruct y; try contradiction; exact F1.
  - constructor.
  - destruct M1 as [n ->]. now apply Z.
  - destruct M1 as [n ->]. now apply Z.
Qed.
Lemma filed_app c hm : Forall (fun x : orders * mcall => filed c (snd x)) hm -> Forall (fun x => app_call c (snd x)) hm.
Proof. apply Forall_impl. intros [o x]. cbn [snd]. destruct x; cbn; try tauto; intros [H _]; exact H. Qed.
Lemma parts_good h hm : eorders h -> model_parts h hm -> good_m hm.
Proof.
  intros O M. induction M as [|os x h hm hm' M1 M2 IH]; [constructor|]. inversion O as [|? ? O1 O2]; subst. apply Forall_app. split; [|now apply IH]. cbn [fst] in O1.
  destruct x; cbn [model_part] in M1; try (subst hm; solve [constructor|constructor; [apply O1|constructor]]); destruct M1 as [n ->]; now apply firstn_good.
Qed.
Lemma start_present c hs hm : app_start c hs -> Forall (fun x => filed c (snd x)) hm -> forall rl, present (hs ++ hm) rl -> file_rule c rl.
Proof.
  intros Hs. induction hm as [|[o x] hm IH] using rev_ind; intros F rl.
  - rewrite app_nil_r. intros H. destruct (start_empty c hs Hs rl H).
  - apply Forall_app in F as [F Fx]. inversion Fx as [|? ? Fx1 _]; subst. cbn [snd] in Fx1. rewrite app_assoc.
    assert (Ag : forall r, as_listed (hs ++ hm) r = as_listed hs r).
    { intros r. apply as_listed_same. intros k Hk. unfold g_history. rewrite fold_left_app. fold (g_history k hs). rewrite (start_g c hs k Hs).
      assert (N : forall l acc, Forall (fun x : orders * mcall => filed c (snd x)) l -> option_map fst (fold_left (g_step k) l acc) = option_map fst acc).
      { clear. intros l. induction l as [|[o x] l IH]; intros acc F; [reflexivity|]. inversion F as [|? ? F1 F2]; subst. cbn [fold_left]. rewrite IH by exact F2. cbn [snd] in F1.
        destruct x; cbn in F1; try contradiction; cbn [g_step]; match goal with |- context [of_section k ?r] => destruct (of_section k r) as [[|? [|? ?]]|] end; try reflexivity; destruct acc as [[? ?]|]; reflexivity. }
      apply N. exact F. }
    destruct x as [| |r|r| | | | | | |]; cbn [filed] in Fx1; try contradiction; destruct (start_plain c hs r Hs Fx1) as [[_ Hl] [_ Lg]].
    + rewrite present_add by exact Lg. intros [H|[_ ->]]; [now apply IH|]. now rewrite Ag, Hl.
    + rewrite present_remove by exact Lg. intros [H _]. now apply IH.
Qed.

(** ** The restart *)
Lemma restart_app E c f P d0 files hs m rs0 h P2 files2 opts os os' os2 hs2 m2 rs2 : reads_as E c f ->
  app_start c hs -> good_m hs -> mexec E (NewModel E) hs = Val (m, rs0) ->
  app_start c hs2 -> good_m hs2 -> mexec E (NewModel E) hs2 = Val (m2, rs2) ->
  working P -> load_file d0 = ([], None) -> Forall (fun x => app_ecall c (snd x)) h -> eorders h -> (forall n, good_orders (os2 n)) ->
  exists e0 e rs, NewEnforcer E (file_world P d0 files) os m (ArgAdapter (AExt 0)) [OptAutosave true] = Val (inl e0) /\
    eexec E (file_world P d0 files) e0 h = Val (e, rs) /\
    exists e1 e2, let W2 := file_world P2 (the_file P d0 (f_log e)) files2 in
      NewEnforcer E W2 os' m2 (ArgAdapter (AExt 0)) opts = Val (inl e1) /\ eexec E W2 e1 [(os2, ELoad)] = Val (e2, [mkERes None None]) /\
      exists h1 h2 r1 r2, app_history c h1 /\ good_m h1 /\ mexec E (NewModel E) h1 = Val (f_model e, r1) /\
        app_history c h2 /\ good_m h2 /\ mexec E (NewModel E) h2 = Val (f_model e2, r2) /\
        (forall rl, present h1 rl <-> present h2 rl) /\ (forall rl, present h1 rl -> file_rule c rl).
Proof.
  intros R Hs Go H0 Hs2 Go2 H02 Wk Hd F O O2.
  set (W := file_world P d0 files). destruct (NewEnforcer E W os m (ArgAdapter (AExt 0)) [OptAutosave true]) as [[e0|]|] eqn:N; try discriminate N.
  pose proof N as N'. apply new_enforcer in N' as (Hw & Em & El & Ea & Eq).
  assert (Re : reachable_enforcer E W e0) by (exists os, m, (ArgAdapter (AExt 0)), [OptAutosave true], e0, [], []; auto).
  assert (Cf : enabled e0 = true /\ attached e0 /\ autosave e0 = true /\ (waiting e0 <= 0)%Z).
  { unfold NewEnforcer in N. injection N as <-. vm_compute. repeat split; try discriminate. eexists. split; reflexivity. }
  destruct Cf as (Ce & Ct & Ca & Cw).
  assert (T : tame hs) by (rewrite <- (app_nil_r hs); apply (app_tame c), start_app; [exact Hs|constructor]).
  assert (T2 : tame hs2) by (rewrite <- (app_nil_r hs2); apply (app_tame c), start_app; [exact Hs2|constructor]).
  assert (Tot : forall hs m rs hm, app_start c hs -> good_m hs -> mexec E (NewModel E) hs = Val (m, rs) ->
            Forall (fun x => filed c (snd x)) hm -> good_m hm -> exists m' rs', mexec E m hm = Val (m', rs')).
  { intros hs' m' rs' hm A1 A2 A3 A4 A5. destruct (C75_decides_by_meaning E c f (hs' ++ hm) R) as (mm & rr & X & _).
    - apply start_app; [exact A1|]. now apply filed_app.
    - apply Forall_app. now split.
    - apply mexec_app in X as (mx & ra & rb & X1 & X2 & _). rewrite A3 in X1. injection X1 as <- <-. eauto. }
  assert (H0' : mexec E (NewModel E) hs = Val (f_model e0, rs0)) by now rewrite Em.
  assert (Np : never_panics E (f_model e0) h).
  { intros hm Hm. rewrite Em. destruct (Tot hs m rs0 hm Hs Go H0 (parts_filed c h hm F Hm) (parts_good h hm O Hm)) as (? & ? & ->). discriminate. }
  assert (Ka : Forall (fun x => keeps_autosave (snd x)) h).
  { eapply Forall_impl; [|exact F]. intros [o x]. cbn [snd]. unfold keeps_autosave. destruct x; cbn [app_ecall]; intros X; first [contradiction X|split; exact Logic.I]. }
  assert (Pl : Forall (fun x => plain_call hs (snd x)) h).
  { eapply Forall_impl; [|exact F]. intros [o x]. cbn [snd]. destruct x as [y|rs|rs| | | | | | |]; cbn; try tauto.
    - destruct y; cbn; try tauto; intros X; now apply (start_plain c hs _ Hs).
    - apply Forall_impl. intros r X. now apply (start_plain c hs _ Hs).
    - apply Forall_impl. intros r X. now apply (start_plain c hs _ Hs). }
  assert (Fr : Forall (fun x => file_rules (snd x)) h).
  { eapply Forall_impl; [|exact F]. intros [o x]. cbn [snd]. destruct x as [y|rs|rs| | | | | | |]; cbn; try tauto.
    - destruct y; cbn; try tauto; intros X; apply X.
    - apply Forall_impl. intros r X. apply X.
    - apply Forall_impl. intros r X. apply X. }
  assert (Ld : load_file (the_file P d0 (f_log e0)) = ([], None)) by (rewrite El; exact Hd).
  destruct (C79_autosave_partial E P d0 files e0 hs rs0 [] h Wk Re Ea Ce Ct Go T H0' Ca Cw Eq Ld) as (e & rs & held & X1 & _ & Q & L & Ph & Lr); auto.
  { intros o rl Ho. rewrite (model_rules_present E hs o (f_model e0) rs0 Go Ho T H0'). pose proof (start_empty c hs Hs rl). cbn. tauto. }
  destruct (file_follows_exec E P d0 files hs Wk h hs e0 [] rs0) as (e' & rs' & hm & xs & held' & Y1 & _ & Y2 & Y3 & Y4 & Y5 & _); auto.
  { split; auto. }
  { eapply Forall_impl; [|exact Ka]. intros [? ?] [Z _]. exact Z. }
  { rewrite Eq. constructor. }
  { intros rl. rewrite Eq. cbn [stored fold_left]. rewrite listed_in. pose proof (start_empty c hs Hs rl). cbn. tauto. }
  fold W in X1. change (file_world P d0 files) with W in Y1. rewrite X1 in Y1. injection Y1 as <- <-.
  pose proof (parts_filed c h hm F Y2) as Fm. exists e0, e, rs. split; [reflexivity|]. split; [exact X1|].
  set (d := the_file P d0 (f_log e)) in *. set (W2 := file_world P2 d files2).
  destruct (NewEnforcer E W2 os' m2 (ArgAdapter (AExt 0)) opts) as [[e1|]|] eqn:N2; try discriminate N2.
  pose proof N2 as N2'. apply new_enforcer in N2' as (Hw2 & Em2 & El2 & Ea2 & Eq2).
  assert (H1 : mexec E (NewModel E) (hs ++ hm) = Val (f_model e, rs0 ++ xs)) by (apply mexec_app; eauto 8).
  assert (Pr : forall rl, In rl held <-> present (hs ++ hm) rl).
  { intros rl. rewrite (Lr ex_o rl ex_o_good). apply (model_rules_present E (hs ++ hm) ex_o (f_model e) _ Y3 ex_o_good Y4 H1). }
  assert (Fh : Forall (file_rule c) held).
  { apply Forall_forall. intros rl Hin. apply Pr in Hin. now apply (start_present c hs hm Hs Fm). }
  rewrite <- Em2 in H02.
  assert (Fc : forall os n, Forall (fun x => filed c (snd x)) (firstn n (rule_calls os CAdd held))).
  { clear - Fh. induction Fh as [|r l Hr Fh IH]; intros os n; cbn [rule_calls]; [destruct n; constructor|]. destruct n; cbn [firstn]; [constructor|]. constructor; [exact Hr|apply IH]. }
  destruct (load_file_rules E W2 os2 e1 0 held hs2 rs2 Hw2 Ea2) as (e2 & ys & S & A2 & Q2 & M2 & Lg & Pr2); auto.
  { cbn [W2 file_world w_load]. rewrite El2. cbn [the_file fold_left]. change (the_file P2 d []) with d. now rewrite L. }
  { eapply Forall_impl; [|exact Fh]. intros r Hr. destruct (start_plain c hs2 r Hs2 Hr) as [Z1 [Z2 _]]. now split. }
  { intros n. destruct (Tot hs2 (f_model e1) rs2 (firstn n (rule_calls os2 CAdd held)) Hs2 Go2 H02 (Fc os2 n)) as (? & ? & ->); [now apply firstn_good|discriminate]. }
  exists e1, e2. cbv zeta. split; [exact N2|]. split; [cbn [eexec]; now rewrite S|].
  exists (hs ++ hm), (hs2 ++ rule_calls os2 CAdd held), (rs0 ++ xs), (rs2 ++ ys).
  assert (Ff : Forall (fun x => filed c (snd x)) (rule_calls os2 CAdd held)) by (rewrite <- (firstn_all (rule_calls os2 CAdd held)); apply Fc).
  split; [apply start_app; [exact Hs|now apply filed_app]|]. split; [exact Y3|]. split; [exact H1|].
  split; [apply start_app; [exact Hs2|now apply filed_app]|].
  split; [apply Forall_app; split; [exact Go2|]; rewrite <- (firstn_all (rule_calls os2 CAdd held)); now apply firstn_good|].
  split; [apply mexec_app; eauto 8|]. split; [|intros rl Z; now apply (start_present c hs hm Hs Fm)].
  intros rl. rewrite Pr2, <- Pr. pose proof (start_empty c hs2 Hs2 rl). tauto.
Qed.

Lemma restart E c f P d0 files hs h P2 files2 opts os os' os2 hs2 : reads_as E c f ->
  app_start c hs -> good_m hs -> app_start c hs2 -> good_m hs2 ->
  working P -> load_file d0 = ([], None) -> Forall (fun x => app_ecall c (snd x)) h -> eorders h -> (forall n, good_orders (os2 n)) ->
  exists e e2, first_run E P d0 files hs os h e /\ second_run E P2 (the_file P d0 (f_log e)) files2 hs2 os' opts os2 e2 /\
      exists h1 h2 r1 r2, app_history c h1 /\ good_m h1 /\ mexec E (NewModel E) h1 = Val (f_model e, r1) /\
        app_history c h2 /\ good_m h2 /\ mexec E (NewModel E) h2 = Val (f_model e2, r2) /\
        (forall rl, present h1 rl <-> present h2 rl) /\ (forall rl, present h1 rl -> file_rule c rl).
Proof.
  intros R Hs G Hs2 G2 Wk Hd F O O2.
  assert (Tot : forall hs, app_start c hs -> good_m hs -> exists m rs, mexec E (NewModel E) hs = Val (m, rs)).
  { intros hs' A1 A2. destruct (C75_decides_by_meaning E c f (hs' ++ []) R) as (mm & rr & X & _); [apply start_app; [exact A1|constructor]|now rewrite app_nil_r|].
    rewrite app_nil_r in X. eauto. }
  destruct (Tot hs Hs G) as (m & rs & M). destruct (Tot hs2 Hs2 G2) as (m2 & rs2 & M2).
  destruct (restart_app E c f P d0 files hs m rs h P2 files2 opts os os' os2 hs2 m2 rs2 R Hs G M Hs2 G2 M2 Wk Hd F O O2) as (e0 & e & rr & X1 & X2 & e1 & e2 & X3 & X4 & X5).
  exists e, e2. split; [exists m, rs, e0, rr; auto|]. split; [exists m2, rs2, e1; auto|]. exact X5.
Qed.

(** ** C81

    A process with a configuration, an empty policy file and autosave changes its
    rules by any calls and ends; a second process with the same configuration
    loads the file.  No call of either fails, and afterwards the second answers
    every request as the first did at its end - for every order in which rules
    came, maps are visited and texts are written. *)
Theorem C81_access_control_list_partial :
  forall E c x xs, acl E c x xs ->
  forall P d0 files hs os h P2 files2 hs2 opts os' os2, runs P d0 hs h hs2 os2 c ->
  exists e e2, first_run E P d0 files hs os h e /\ second_run E P2 (the_file P d0 (f_log e)) files2 hs2 os' opts os2 e2 /\
    forall o o' vals, good_orders o -> good_orders o' -> List.length vals = List.length (x :: xs) -> last vals ""%string <> ""%string ->
      same_answer E o (f_model e) o' (f_model e2) (map (fun v => PVal (VStr v)) vals).
Proof.
  intros E c x xs A P d0 files hs os h P2 files2 hs2 opts os' os2 (Hs & G & Hs2 & G2 & Wk & Hd & F & O & O2).
  assert (R : reads_as E c (all_of (eq_tokens x) (map eq_tokens xs))).
  { apply all_of_reads; [apply A| |].
    - change (eq_tokens x :: map eq_tokens xs) with (map eq_tokens (x :: xs)). apply Forall_map, Forall_forall. intros y _. apply eq_atom.
    - intros e z He Hz. change (In e (map tokensToExpr (map eq_tokens (x :: xs)))) in He. rewrite eq_map in He. apply in_map_iff in He as [y [<- Hy]].
      pose proof (acl_plain _ _ _ _ A) as Pl. rewrite Forall_forall in Pl. rewrite (Pl y Hy) in Hz. destruct Hz as [<-|[]]. eauto. }
  destruct (restart E c _ P d0 files hs h P2 files2 opts os os' os2 hs2 R Hs G Hs2 G2 Wk Hd F O O2) as (e & e2 & F1 & F2 & h1 & h2 & r1 & r2 & A1 & B1 & M1 & A2 & B2 & M2 & Pr & _).
  exists e, e2. split; [exact F1|]. split; [exact F2|]. intros o o' vals Ho Ho' Lv Hl.
  destruct (C76_access_control_list E c x xs h1 A A1 B1) as (m & rs & X & D). rewrite M1 in X. injection X as <- <-. destruct (D o vals Ho Lv Hl) as [_ (b & Eb & Hb)].
  destruct (C76_access_control_list E c x xs h2 A A2 B2) as (m & rs & X & D'). rewrite M2 in X. injection X as <- <-. destruct (D' o' vals Ho' Lv Hl) as [_ (b' & Eb' & Hb')].
  exists b. split; [exact Eb|]. rewrite Eb'. rewrite Pr in Hb. destruct b, b'; auto; exfalso; intuition congruence.
Qed.
Print Assumptions C81_access_control_list_partial.

Lemma chain_same (R R' : string -> string -> Prop) : (forall x y, R x y <-> R' x y) -> forall n x y, chain R n x y <-> chain R' n x y.
Proof.
  assert (Z : forall R R' : string -> string -> Prop, (forall x y, R x y -> R' x y) -> forall n x y, chain R n x y -> chain R' n x y).
  { intros Q Q' H n x y C. induction C as [|n a b c Hab C IH]; [constructor|econstructor; eauto]. }
  intros H n x y. split; apply Z; intros; now apply H.
Qed.
Theorem C81_rbac_with_domains_partial :
  forall E, reads_tokens E dom_config dom_form -> calls E dom_args -> Forall (compares E) ["dom"; "obj"; "act"]%string ->
  forall P d0 files hs os h P2 files2 hs2 opts os' os2, runs P d0 hs h hs2 os2 dom_config ->
  exists e e2, first_run E P d0 files hs os h e /\ second_run E P2 (the_file P d0 (f_log e)) files2 hs2 os' opts os2 e2 /\
    forall o o' sub dom obj act, good_orders o -> good_orders o' -> ~ reserved dom -> act <> ""%string ->
      same_answer E o (f_model e) o' (f_model e2) [PVal (VStr sub); PVal (VStr dom); PVal (VStr obj); PVal (VStr act)].
Proof.
  intros E Rt Ca Cm P d0 files hs os h P2 files2 hs2 opts os' os2 (Hs & G & Hs2 & G2 & Wk & Hd & F & O & O2).
  assert (R : reads_as E dom_config dom_form).
  { apply all_of_reads; [exact Rt|exact dom_atoms|]. intros e z He Hz. rewrite dom_texts in He.
    destruct He as [<-|[<-|[<-|[<-|[]]]]]; vm_compute in Hz; destruct Hz as [<-|[]]; now eexists. }
  destruct (restart E dom_config _ P d0 files hs h P2 files2 opts os os' os2 hs2 R Hs G Hs2 G2 Wk Hd F O O2) as (e & e2 & F1 & F2 & h1 & h2 & r1 & r2 & A1 & B1 & M1 & A2 & B2 & M2 & Pr & _).
  exists e, e2. split; [exact F1|]. split; [exact F2|]. intros o o' sub dom obj act Ho Ho' Hr Ha.
  destruct (C77_rbac_with_domains E h1 Rt Ca Cm A1 B1) as (m & rs & X & D). rewrite M1 in X. injection X as <- <-. destruct (D o sub dom obj act Ho Hr Ha) as [_ (b & Eb & Hb)].
  destruct (C77_rbac_with_domains E h2 Rt Ca Cm A2 B2) as (m & rs & X & D'). rewrite M2 in X. injection X as <- <-. destruct (D' o' sub dom obj act Ho' Hr Ha) as [_ (b' & Eb' & Hb')].
  exists b. split; [exact Eb|]. rewrite Eb'.
  assert (S : permitted_in h1 sub dom obj act <-> permitted_in h2 sub dom obj act).
  { unfold permitted_in. split; intros [role [Hp Hc]]; exists role; (split; [now apply Pr|]); (destruct Hc as [Hc|[n [Hn Hc]]]; [now left|right; exists n; split; [exact Hn|]]);
      revert Hc; apply chain_same; intros x y; [symmetry|]; apply Pr. }
  rewrite S in Hb. destruct b, b'; auto; exfalso; intuition congruence.
Qed.
Print Assumptions C81_rbac_with_domains_partial.

(** With denials, when the rules say allow or deny. *)
Theorem C81_rbac_with_denials_partial :
  forall E, reads_tokens E deny_config deny_form -> calls E deny_args -> Forall (compares E) ["obj"; "act"]%string ->
  forall P d0 files hs os h P2 files2 hs2 opts os' os2, runs P d0 hs h hs2 os2 deny_config ->
  exists e e2, first_run E P d0 files hs os h e /\ second_run E P2 (the_file P d0 (f_log e)) files2 hs2 os' opts os2 e2 /\
    ((forall o sub obj act eft, good_orders o -> In ["p"; sub; obj; act; eft]%string (model_rules o (f_model e)) -> eft = "allow"%string \/ eft = "deny"%string) ->
     forall o o' sub obj act, good_orders o -> good_orders o' -> act <> ""%string ->
      same_answer E o (f_model e) o' (f_model e2) [PVal (VStr sub); PVal (VStr obj); PVal (VStr act)]).
Proof.
  intros E Rt Ca Cm P d0 files hs os h P2 files2 hs2 opts os' os2 (Hs & G & Hs2 & G2 & Wk & Hd & F & O & O2).
  assert (R : reads_as E deny_config deny_form).
  { apply all_of_reads; [exact Rt|exact deny_atoms|]. intros e z He Hz. rewrite deny_texts in He.
    destruct He as [<-|[<-|[<-|[]]]]; vm_compute in Hz; destruct Hz as [<-|[]]; now eexists. }
  destruct (restart E deny_config _ P d0 files hs h P2 files2 opts os os' os2 hs2 R Hs G Hs2 G2 Wk Hd F O O2) as (e & e2 & F1 & F2 & h1 & h2 & r1 & r2 & A1 & B1 & M1 & A2 & B2 & M2 & Pr & _).
  exists e, e2. split; [exact F1|]. split; [exact F2|]. intros Ad o o' sub obj act Ho Ho' Ha.
  assert (Ad1 : forall sub obj act eft, present h1 ["p"; sub; obj; act; eft]%string -> eft = "allow"%string \/ eft = "deny"%string).
  { intros s b a t Hp. apply (Ad ex_o s b a t ex_o_good). now apply (model_rules_present E h1 ex_o (f_model e) r1 B1 ex_o_good (app_tame _ _ A1) M1). }
  destruct (C78_rbac_with_denials E h1 Rt Ca Cm A1 B1 Ad1) as (m & rs & X & D). rewrite M1 in X. injection X as <- <-. destruct (D o sub obj act Ho Ha) as (b & Eb & Hb).
  assert (Ad2 : forall sub obj act eft, present h2 ["p"; sub; obj; act; eft]%string -> eft = "allow"%string \/ eft = "deny"%string).
  { intros s b0 a t Hp. apply (Ad1 s b0 a t). now apply Pr. }
  destruct (C78_rbac_with_denials E h2 Rt Ca Cm A2 B2 Ad2) as (m & rs & X & D'). rewrite M2 in X. injection X as <- <-. destruct (D' o' sub obj act Ho' Ha) as (b' & Eb' & Hb').
  exists b. split; [exact Eb|]. rewrite Eb'.
  assert (S : forall t, ruled h1 sub obj act t <-> ruled h2 sub obj act t).
  { intros t. unfold ruled. split; intros [role [Hp Hc]]; exists role; (split; [now apply Pr|]); (destruct Hc as [Hc|[n [Hn Hc]]]; [now left|right; exists n; split; [exact Hn|]]);
      revert Hc; apply chain_same; intros x y; [symmetry|]; apply Pr. }
  rewrite !S in Hb. destruct b, b'; auto; exfalso; intuition congruence.
Qed.
Print Assumptions C81_rbac_with_denials_partial.

(** ** Examples *)
Definition ex_start (c : config) : list (orders * mcall) := map (fun x => (ex_o, x)) (config_defs c ++ [CBuild]).
Lemma ex_starts c : app_start c (ex_start c) /\ good_m (ex_start c).
Proof.
  split; [unfold app_start, ex_start; rewrite map_map; apply map_id|]. apply Forall_map, Forall_forall. intros x _. apply ex_o_good.
Qed.
Ltac rule_tac := split; [call_one|split; [first [plain|plains]|intros ? ? ? ? Hg Hr; first [discriminate Hg|discriminate Hr|
    injection Hg as <-; injection Hr as <- <- <-; first [reflexivity|intros X; vm_compute in X; discriminate X]]]]
with call_one := first [left; eexists; split; [reflexivity|]; split; [split; [discriminate|repeat (apply Forall_cons; [reflexivity|]); apply Forall_nil]|reflexivity]
  |right; eexists _, _, _; split; [reflexivity|]; split; [discriminate|]; repeat (apply Forall_cons; [intros [X|X]; discriminate X|]); apply Forall_nil].
Ltac ecalls_tac := repeat (apply Forall_cons; [cbn [snd app_ecall]; first [exact Logic.I|rule_tac|repeat (apply Forall_cons; [rule_tac|]); apply Forall_nil]|]); apply Forall_nil.
(** The answers to some requests before the end of the first process and after
    the load of the second. *)
Definition two_processes (E : env) (c : config) (h : list ecall) (asks : list (list string)) : outcome (disk * list (bool * bool)) :=
  let! (m, _) := mexec E (NewModel E) (ex_start c) in
  let W := ex_fw (Some "")%string in
  match NewEnforcer E W ex_os m (ArgAdapter (AExt 0)) [OptAutosave true] with
  | Val (inl e0) =>
      let! (e, _) := eexec E W e0 (map (pair ex_os) h) in
      let d := the_file ex_fp (Some "")%string (f_log e) in let W2 := ex_fw d in
      match NewEnforcer E W2 ex_os m (ArgAdapter (AExt 0)) [] with
      | Val (inl e1) =>
          let! (e2, _) := eexec E W2 e1 [(ex_os, ELoad)] in
          let answer e vs := match Enforce E ex_rev (f_model e) (map (fun v => PVal (VStr v)) vs) with Val (_, (b, None)) => b | _ => false end in
          Val (d, map (fun vs => (answer e vs, answer e2 vs)) asks)
      | _ => Panic
      end
  | _ => Panic
  end.
Definition re_acl : list ecall :=
  [EModel (CAdd ["p"; "alice"; "data1"; "read"]); EAddRules [["p"; "bob"; "data2"; "write"]; ["p"; "carol"; "data2"; "read"]]; EModel (CRemove ["p"; "bob"; "data2"; "write"])]%string.
Definition re_dom : list ecall :=
  [EAddRules [["p"; "admin"; "domain1"; "data1"; "read"]; ["g"; "alice"; "admin"; "domain1"]; ["g"; "bob"; "admin"; "domain2"]]; ESave; EModel (CRemove ["g"; "bob"; "admin"; "domain2"])]%string.
Definition re_deny : list ecall :=
  [EAddRules [["p"; "user"; "data1"; "read"; "allow"]; ["p"; "alice"; "data1"; "read"; "deny"]; ["g"; "alice"; "user"]; ["g"; "bob"; "user"]]; EFlush]%string.
Lemma ex_oss_good n : good_orders (ex_os n).
Proof. unfold ex_os. destruct (Nat.even n); [exact ex_o_good|exact ex_rev_good]. Qed.
Ltac runs_tac c := split; [apply (ex_starts c)|]; split; [apply (ex_starts c)|]; split; [apply (ex_starts c)|]; split; [apply (ex_starts c)|];
  split; [exact ex_working|]; split; [reflexivity|]; split; [unfold re_acl, re_dom, re_deny; cbn [map]; ecalls_tac|]; split; [apply Forall_map, Forall_forall; intros ? _; exact ex_oss_good|exact ex_oss_good].
Definition lines (l : list string) : string := String.concat "" (map (fun x => x ++ nl)%string l).
Example C81_acl_ex :
  acl acl_env acl_config "sub" ["obj"; "act"]%string /\
  runs ex_fp (Some "")%string (ex_start acl_config) (map (pair ex_os) re_acl) (ex_start acl_config) ex_os acl_config /\
  two_processes acl_env acl_config re_acl [["alice"; "data1"; "read"]; ["bob"; "data2"; "write"]; ["carol"; "data2"; "read"]]%string
  = Val (Some (lines ["p, carol, data2, read"; "p, alice, data1, read"])%string, [(true, true); (false, false); (true, true)]).
Proof. split; [exact acl_is|]. split; [runs_tac acl_config|vm_compute; reflexivity]. Qed.
Example C81_dom_ex :
  reads_tokens dom_env dom_config dom_form /\ calls dom_env dom_args /\ Forall (compares dom_env) ["dom"; "obj"; "act"]%string /\
  runs ex_fp (Some "")%string (ex_start dom_config) (map (pair ex_os) re_dom) (ex_start dom_config) ex_os dom_config /\
  match two_processes dom_env dom_config re_dom [["alice"; "domain1"; "data1"; "read"]; ["bob"; "domain1"; "data1"; "read"]; ["admin"; "domain1"; "data1"; "read"]]%string with
  | Val (_, l) => l = [(true, true); (false, false); (true, true)] | Panic => False end.
Proof.
  split; [apply app_env_reads|]. split; [apply calls_dom|]. split; [repeat (apply Forall_cons; [first [apply cmp_dom|apply cmp_obj|apply cmp_act]|]); apply Forall_nil|].
  split; [runs_tac dom_config|vm_compute; reflexivity].
Qed.
Example C81_deny_ex :
  reads_tokens deny_env deny_config deny_form /\ calls deny_env deny_args /\ Forall (compares deny_env) ["obj"; "act"]%string /\
  runs ex_fp (Some "")%string (ex_start deny_config) (map (pair ex_os) re_deny) (ex_start deny_config) ex_os deny_config /\
  match two_processes deny_env deny_config re_deny [["alice"; "data1"; "read"]; ["bob"; "data1"; "read"]; ["carol"; "data1"; "read"]]%string with
  | Val (_, l) => l = [(false, false); (true, true); (false, false)] | Panic => False end.
Proof.
  split; [apply app_env_reads|]. split; [apply calls_deny|]. split; [repeat (apply Forall_cons; [first [apply cmp_obj|apply cmp_act]|]); apply Forall_nil|].
  split; [runs_tac deny_config|vm_compute; reflexivity].
Qed.

(** Without the condition on the rules the claim is false: the request of " alice",
    granted before the restart, is denied after it, and that of "alice", whom no
    rule ever mentioned, is granted. *)
Theorem C81_other_rules_refuted :
  acl acl_env acl_config "sub" ["obj"; "act"]%string /\
  two_processes acl_env acl_config [EModel (CAdd ["p"; " alice"; "data1"; "read"]%string)] [[" alice"; "data1"; "read"]; ["alice"; "data1"; "read"]]%string
  = Val (Some (lines ["p,  alice, data1, read"])%string, [(true, false); (false, true)]).
Proof. split; [exact acl_is|vm_compute; reflexivity]. Qed.
Print Assumptions C81_other_rules_refuted.
