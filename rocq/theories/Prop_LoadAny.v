(** Property C91: loading a policy file with any content. *)
From Verif Require Import GoBase GoBaseP PolicyM PolicySpec PolicyP MatcherM MatcherSpec RbacM RbacSpec DomainM DomainSpec EvalM ModelM ModelSpec ModelP ModelP2 ModelP3 ModelP4 ModelP5
  SafeSpec SafeP StorageM StorageSpec StorageP StorageP2 StorageP3 StorageP4 FileM FileSpec FileP FileWorldM PersistSpec PersistP Prop_Model Prop_Safe Prop_File Prop_Storage Prop_Persist.
Import ListNotations.

(** The model has the section of the rule, and the rule can be added to it. *)
Definition welcome (h : list (orders * mcall)) (rl : rule) : Prop := in_section h rl <> None /\ ~ bad_rule h rl.

Lemma g_none_add k h o r : g_history k (h ++ [(o, CAdd r)]) = None <-> g_history k h = None.
Proof.
  rewrite g_history_snoc. cbn [g_step]. destruct (g_history k h) as [[rm ls]|]; cbn;
    repeat match goal with |- context [match ?x with _ => _ end] => destruct x end; split; congruence.
Qed.
Lemma p_none_add k h o r : p_history k (h ++ [(o, CAdd r)]) = None <-> p_history k h = None.
Proof.
  rewrite p_history_snoc. cbn [p_step]. destruct (p_history k h); cbn;
    repeat match goal with |- context [match ?x with _ => _ end] => destruct x end; split; congruence.
Qed.
Lemma bad_add h o r rl : bad_rule (h ++ [(o, CAdd r)]) rl <-> bad_rule h rl.
Proof. destruct rl as [|k l]; [reflexivity|]. cbn. pose proof (g_none_add k h o r). tauto. Qed.
Lemma section_add h o r rl : in_section (h ++ [(o, CAdd r)]) rl = None <-> in_section h rl = None.
Proof.
  destruct rl as [|k l]; [reflexivity|]. destruct (first_cases k) as [Hp|[Hg|[Hp Hg]]].
  - rewrite !in_section_p by exact Hp. pose proof (p_none_add k h o r).
    destruct (p_history k h), (p_history k (h ++ [(o, CAdd r)])); cbn; split; try congruence; intros; exfalso; intuition congruence.
  - rewrite !in_section_g by exact Hg. pose proof (g_none_add k h o r).
    destruct (g_history k h), (g_history k (h ++ [(o, CAdd r)])), l as [|? [|? ?]]; cbn; split; try congruence; intros; exfalso; intuition congruence.
  - unfold in_section, p_key, g_key in *. destruct (first_byte k) as [[[] [] [] [] [] [] [] []]|]; try congruence; tauto.
Qed.
Lemma welcome_add h o r rl : welcome (h ++ [(o, CAdd r)]) rl <-> welcome h rl.
Proof. unfold welcome. rewrite bad_add, section_add. reflexivity. Qed.
Lemma welcome_shaped h rl : welcome h rl -> shaped rl.
Proof.
  intros [S B]. destruct rl as [|k r]; [exact (B Logic.I)|]. cbn in B |- *. split; [tauto|]. intros Hg.
  destruct (le_lt_dec 2 (List.length r)); [assumption|]. exfalso. apply B. right. split; [exact Hg|]. split; [|assumption].
  intros N. apply S. rewrite in_section_g by exact Hg. rewrite N. destruct r as [|? [|? ?]]; reflexivity.
Qed.

(** A rule of a known section is added without an error. *)
Lemma add_result E h o m rs rl m' x : good_m h -> mexec E (NewModel E) h = Val (m, rs) -> in_section h rl <> None ->
  mstep E o m (CAdd rl) = Val (m', x) -> x_err x = None.
Proof.
  intros Go H S Hm. destruct (reachable_ok E h m rs Go H) as [g [V W]]. destruct rl as [|k r]; [contradiction|]. cbn [mstep] in Hm.
  destruct (first_cases k) as [Hp|[Hg|[Hp Hg]]].
  - rewrite keyed_add in Hm by exact Hp. rewrite in_section_p in S by exact Hp. pose proof (v_phist h m g W k Hp) as Hh.
    destruct (mget k (md_pMap m)) as [i|].
    + destruct (act o m i (PAdd r)) as [[m1 b]|]; cbn [obind] in Hm; [|discriminate]. injection Hm as <- <-. reflexivity.
    + destruct (p_history k h); [discriminate|contradiction].
  - rewrite keyed_add_g in Hm by exact Hg. rewrite in_section_g in S by exact Hg. pose proof (v_ghist h m g W k Hg) as Hh.
    destruct (mget k (md_rpMap m)) as [i|].
    + destruct (act o m i (PAdd r)) as [[m1 b]|]; cbn [obind] in Hm; [|discriminate]. injection Hm as <- <-. reflexivity.
    + rewrite Hh in S. destruct r as [|? [|? ?]]; contradiction.
  - exfalso. apply S. unfold in_section, p_key, g_key in *. destruct (first_byte k) as [[[] [] [] [] [] [] [] []]|]; congruence.
Qed.

Definition names_no_section (rl : rule) : goerr := match rl with k :: _ => section_error k | [] => ErrPolicyNotFound end.

Lemma loop_any E W rs : forall os e h rs0, f_em e = [] -> good_m h -> calm E h -> mexec E (NewModel E) h = Val (f_model e, rs0) -> (forall n, good_orders (os n)) ->
  (rules_loop E W os e CAdd rs = Panic <-> exists l1 rl l2, rs = l1 ++ rl :: l2 /\ Forall (welcome h) l1 /\ bad_rule h rl) /\
  (forall e' err, rules_loop E W os e CAdd rs = Val (e', err) ->
     exists l1 l2 xs, rs = l1 ++ l2 /\ Forall (welcome h) l1 /\ mexec E (f_model e) (rule_calls os CAdd l1) = Val (f_model e', xs) /\
       e' = set_model e (f_model e') /\
       err = match l2 with [] => None | rl :: _ => Some (names_no_section rl) end /\
       (forall rl l2', l2 = rl :: l2' -> in_section h rl = None /\ ~ bad_rule h rl)).
Proof.
  induction rs as [|r rs IH]; intros os e h rs0 Hem Go C H Ho.
  - cbn [rules_loop]. split.
    + split; [discriminate|]. intros (l1 & rl & l2 & X & _). destruct l1; discriminate.
    + intros e' err X. injection X as <- <-. exists [], [], []. repeat split; try discriminate; [constructor|]. destruct e; reflexivity.
  - cbn [rules_loop]. unfold model_call. pose proof (C67_panics_exactly E h (f_model e) rs0 (os 0) (CAdd r) Go (Ho 0) C H Logic.I) as P.
    cbn [bad_call] in P. destruct (mstep E (os 0) (f_model e) (CAdd r)) as [[m1 x]|] eqn:Em; cbn [obind].
    + assert (Nb : ~ bad_rule h r) by (intros B; apply P in B; discriminate). rewrite deliver_none by exact Hem. cbn [obind].
      destruct (in_section h r) as [b|] eqn:Es.
      * assert (Wr : welcome h r) by (split; [congruence|exact Nb]).
        rewrite (add_result E h (os 0) (f_model e) rs0 r m1 x Go H (proj1 Wr) Em).
        destruct (IH (fun n => os (S n)) (set_model e m1) (h ++ [(os 0, CAdd r)]) (rs0 ++ [x])) as [IH1 IH2].
        { exact Hem. }
        { apply Forall_app. split; [exact Go|]. constructor; [apply Ho|constructor]. }
        { apply Forall_app. split; [exact C|]. constructor; [exact (welcome_shaped h r Wr)|constructor]. }
        { eapply mexec_snoc; [exact H|exact Em]. }
        { intros n. apply Ho. }
        assert (Wl : forall l, Forall (welcome (h ++ [(os 0, CAdd r)])) l <-> Forall (welcome h) l).
        { intros l. rewrite !Forall_forall. split; intros X y Hy; specialize (X y Hy); apply (welcome_add h (os 0) r y); exact X. }
        split.
        -- rewrite IH1. split.
           ++ intros (l1 & rl & l2 & -> & F & B). exists (r :: l1), rl, l2. split; [reflexivity|]. split; [constructor; [exact Wr|now apply Wl]|]. eapply bad_add; exact B.
           ++ intros (l1 & rl & l2 & X & F & B). destruct l1 as [|r1 l1]; [injection X as <- <-; contradiction|]. injection X as <- ->.
              inversion F; subst. exists l1, rl, l2. split; [reflexivity|]. split; [now apply Wl|]. now apply bad_add.
        -- intros e' err X. destruct (IH2 e' err X) as (l1 & l2 & xs & -> & F & M & Fr & Er & Nx).
           exists (r :: l1), l2, (x :: xs). split; [reflexivity|]. split; [constructor; [exact Wr|now apply Wl]|].
           split; [cbn [rule_calls mexec]; rewrite Em; cbn [obind]; cbn [f_model set_model] in M; rewrite M; reflexivity|].
           split; [rewrite Fr at 1; destruct e; reflexivity|]. split; [exact Er|].
           intros rl l2' ->. destruct (Nx rl l2' eq_refl) as [N1 N2]. split; [eapply section_add; exact N1|]. intros B. apply N2. now apply bad_add.
      * assert (Xe : m1 = f_model e /\ x_err x = Some (names_no_section r)).
        { destruct r as [|k l]; [exfalso; exact (Nb Logic.I)|]. cbn [bad_rule] in Nb.
          destruct (unknown_section E h (os 0) (f_model e) rs0 k l Go H) as [U _]; [tauto|exact Es|].
          cbn [mstep] in Em. rewrite U in Em. cbn [obind] in Em. injection Em as <- <-. split; reflexivity. }
        destruct Xe as [-> Xe]. rewrite Xe. split.
        -- split; [discriminate|]. intros (l1 & rl & l2 & X & F & B). exfalso. destruct l1 as [|r1 l1]; injection X as <- ->; [contradiction|].
           inversion F as [|? ? [S _] ?]; subst. contradiction.
        -- intros e' err X. injection X as <- <-. exists [], (r :: rs), []. split; [reflexivity|]. split; [constructor|]. split; [reflexivity|].
           split; [reflexivity|]. split; [reflexivity|]. intros rl l2' X. injection X as <- <-. split; [exact Es|exact Nb].
    + split; [|discriminate]. split; [|reflexivity]. intros _. exists [], r, rs. split; [reflexivity|]. split; [constructor|]. now apply P.
Qed.

(** What LoadPolicy of an enforcer with an adapter comes down to. *)
Lemma load_loop E W os e id : Wf e -> f_adapter e = AExt id ->
  exists e0, f_em e0 = [] /\ f_model e0 = f_model e /\
    match rules_loop E W os e0 CAdd (fst (w_load W (f_log e) id)) with
    | Panic => estep E W os e ELoad = Panic
    | Val (e1, err) => exists e' r, estep E W os e ELoad = Val (e', r) /\ f_model e' = f_model e1 /\ y_model r = None /\
        y_err r = match err with Some x => Some x | None => snd (w_load W (f_log e) id) end
    end.
Proof.
  intros Hw Ha. pose proof (wf_cur e Hw) as [sc [Hc [Hsa [Hsm Hem]]]].
  cbn [estep]. unfold LoadPolicy. change (nth_error (f_scs e) (f_sc e)) with (cur e). rewrite Hc. cbv zeta.
  set (e0 := if sc_listening sc then Disable e (f_sc e) else e) in *.
  assert (I0 : f_em e0 = [] /\ f_model e0 = f_model e /\ f_log e0 = f_log e /\ f_adapter e0 = AExt id).
  { unfold e0. destruct (sc_listening sc) eqn:El.
    - rewrite (Disable_spec e sc Hc). cbn. repeat split; [|exact Ha]. rewrite Hem. destruct (Nat.eqb (sc_em sc) (f_mid e)); cbn; rewrite ?Nat.eqb_refl; reflexivity.
    - repeat split; [exact Hem|exact Ha]. }
  destruct I0 as (I1 & I2 & I3 & I4). rewrite I4, I3. unfold load_from.
  set (e2 := set_log e0 _). exists e2. split; [exact I1|]. split; [exact I2|].
  destruct (rules_loop E W os e2 CAdd (fst (w_load W (f_log e) id))) as [[e1 err]|]; cbn [obind]; [|reflexivity].
  do 2 eexists. split; [reflexivity|]. cbn [y_model y_err]. split; [|split; reflexivity].
  destruct (sc_listening sc); [|reflexivity]. unfold Enable. destruct (nth_error (f_scs e1) (f_sc e1)) as [s|]; [|reflexivity].
  destruct (sc_listening s); [reflexivity|]. cbv zeta. unfold put_sc.
  repeat match goal with |- context [match ?x with _ => _ end] => destruct x end; reflexivity.
Qed.

(** ** C91: LoadPolicy on any policy file

    The file holds any text [text] (or is missing); [held] are the rules read
    from its lines and [bad] is the error after them, if any: a missing file, a line
    that is not csv, a line that is too long.  The model was built by any calls
    [h] of the kind of C67. *)

(** LoadPolicy panics exactly when the rules of the file start with rules the
    model takes ([welcome]), followed by one with an empty section name, or one of
    a grouping section of the model with fewer than two names. *)
Theorem C91_load_panics_exactly :
  forall E P d0 files e os h rs0 held bad, let W := file_world P d0 files in
  reachable_enforcer E W e -> f_adapter e = AExt 0 -> load_file (the_file P d0 (f_log e)) = (held, bad) ->
  (forall n, good_orders (os n)) -> good_m h -> calm E h -> mexec E (NewModel E) h = Val (f_model e, rs0) ->
  (estep E W os e ELoad = Panic <-> exists l1 rl l2, held = l1 ++ rl :: l2 /\ Forall (welcome h) l1 /\ bad_rule h rl).
Proof.
  intros E P d0 files e os h rs0 held bad W R Ha Hl Ho Go C H.
  assert (L : w_load W (f_log e) 0 = (held, as_goerr bad)) by (cbn [W file_world w_load]; now rewrite Hl).
  destruct (load_loop E W os e 0 (wf_reachable _ _ _ R) Ha) as (e0 & Em & Mo & X). rewrite L in X. cbn [fst snd] in X.
  rewrite <- Mo in H. destruct (loop_any E W held os e0 h rs0 Em Go C H Ho) as [P1 _]. rewrite <- P1.
  destruct (rules_loop E W os e0 CAdd held) as [[e1 err]|].
  - destruct X as (e' & r & -> & _). split; discriminate.
  - rewrite X. tauto.
Qed.
Print Assumptions C91_load_panics_exactly.

(** Else it ends at the first rule whose section the model does not have, with
    the error that says so, or it reads all rules and returns the error of the
    file, if any.  The rules before that point, all of them, have been added, in
    order; what waits to be saved, the adapter, the storage switch and the file are
    as before. *)
Definition no_such_section (rl : rule) : goerr :=
  match rl with
  | k :: _ => match first_byte k with Some "g"%char => ErrRMNotFound | _ => ErrPolicyNotFound end
  | [] => ErrPolicyNotFound
  end.
Theorem C91_load_result :
  forall E P d0 files e os h rs0 held bad e' r, let W := file_world P d0 files in
  reachable_enforcer E W e -> f_adapter e = AExt 0 -> load_file (the_file P d0 (f_log e)) = (held, bad) ->
  (forall n, good_orders (os n)) -> good_m h -> calm E h -> mexec E (NewModel E) h = Val (f_model e, rs0) ->
  estep E W os e ELoad = Val (e', r) ->
  exists added rest xs, held = added ++ rest /\ Forall (welcome h) added /\
    mexec E (NewModel E) (h ++ rule_calls os CAdd added) = Val (f_model e', rs0 ++ xs) /\
    match rest with
    | [] => y_err r = as_goerr bad
    | rl :: _ => in_section h rl = None /\ y_err r = Some (no_such_section rl)
    end /\
    queue e' = queue e /\ f_adapter e' = AExt 0 /\ enabled e' = enabled e /\ the_file P d0 (f_log e') = the_file P d0 (f_log e).
Proof.
  intros E P d0 files e os h rs0 held bad e' r W R Ha Hl Ho Go C H S.
  assert (L : w_load W (f_log e) 0 = (held, as_goerr bad)) by (cbn [W file_world w_load]; now rewrite Hl).
  destruct (load_loop E W os e 0 (wf_reachable _ _ _ R) Ha) as (e0 & Em & Mo & X). rewrite L in X. cbn [fst snd] in X.
  rewrite <- Mo in H. destruct (loop_any E W held os e0 h rs0 Em Go C H Ho) as [_ P2].
  destruct (rules_loop E W os e0 CAdd held) as [[e1 err]|]; [|congruence].
  destruct X as (e2 & r2 & S2 & M2 & _ & Y). rewrite S in S2. injection S2 as <- <-.
  destruct (P2 e1 err eq_refl) as (l1 & l2 & xs & -> & F & M & _ & Er & Nx). exists l1, l2, xs. split; [reflexivity|]. split; [exact F|].
  split; [apply mexec_app; rewrite M2; eauto 8|]. split.
  - destruct l2 as [|rl l2]; subst err; [exact Y|]. split; [exact (proj1 (Nx rl l2 eq_refl))|exact Y].
  - destruct (load_spec E W os e e' r (wf_reachable _ _ _ R) S) as (L1 & L2 & L3 & L4 & L5 & L6). rewrite Ha in L4, L6. destruct L6 as (? & ? & _ & Lg & _).
    split; [unfold queue, cur; now rewrite L1, L3|]. split; [exact L4|]. split; [unfold enabled, cur; now rewrite L1, L3|].
    rewrite Lg, file_snoc by reflexivity. reflexivity.
Qed.
Print Assumptions C91_load_result.

(** The rules then listed are those listed before and the rules of the file up
    to that point, if these are rules as they are listed (C79). *)
Theorem C91_rules_loaded_partial :
  forall E P d0 files e os h rs0 held bad e' r, let W := file_world P d0 files in
  reachable_enforcer E W e -> f_adapter e = AExt 0 -> load_file (the_file P d0 (f_log e)) = (held, bad) ->
  (forall n, good_orders (os n)) -> good_m h -> calm E h -> tame h -> mexec E (NewModel E) h = Val (f_model e, rs0) ->
  Forall (plain_rule h) held -> estep E W os e ELoad = Val (e', r) ->
  exists added rest, held = added ++ rest /\ (rest = [] \/ y_err r <> None) /\ Forall (fun rl => in_section h rl <> None) added /\
    (forall rl rest', rest = rl :: rest' -> in_section h rl = None) /\
    forall o rl, good_orders o -> In rl (model_rules o (f_model e')) <-> In rl (model_rules o (f_model e)) \/ In rl added.
Proof.
  intros E P d0 files e os h rs0 held bad e' r W R Ha Hl Ho Go C T H F S.
  destruct (C91_load_result E P d0 files e os h rs0 held bad e' r R Ha Hl Ho Go C H S) as (added & rest & xs & -> & Wl & M & Er & _).
  apply Forall_app in F as [F _]. exists added, rest. split; [reflexivity|].
  assert (F2 : Forall (fun rl => plain_rule h rl /\ in_section h rl <> None) added).
  { rewrite Forall_forall in *. intros y Hy. split; [now apply F|]. apply (Wl y Hy). }
  split; [destruct rest; [now left|right; destruct Er as [_ ->]; discriminate]|].
  split; [eapply Forall_impl; [|exact F2]; intros ? [_ ?]; assumption|].
  split; [intros rl rest' ->; apply Er|].
  pose proof M as M0. apply mexec_app in M as (m1 & ra & rb & M1 & M2 & _). rewrite H in M1. injection M1 as <- <-.
  destruct (adds_spec E added os h (f_model e) rs0 (f_model e') rb Ho Go T H F2 M2) as [_ B].
  intros o rl Hor. rewrite (model_rules_present E h o (f_model e) rs0 Go Hor T H).
  rewrite (model_rules_present E (h ++ rule_calls os CAdd added) o (f_model e') (rs0 ++ xs)).
  - apply B.
  - apply Forall_app. split; [exact Go|]. rewrite <- (firstn_all (rule_calls os CAdd added)). now apply firstn_good.
  - exact Hor.
  - apply Forall_app. split; [exact T|]. clear - F2. revert os. induction F2 as [|r rs [[Tr _] _] F IH]; intros os; cbn [rule_calls]; constructor; [exact Tr|apply IH].
  - exact M0.
Qed.
Print Assumptions C91_rules_loaded_partial.

(** NewEnforcer with the path of a policy file treats the file in the same way: it
    panics on the same files, returns the same error, and else the enforcer has the
    model with all rules of the file. *)
Theorem C91_new_enforcer :
  forall E P d0 files os m h rs0 path opts held bad, let W := file_world P d0 files in
  load_file (files path) = (held, bad) ->
  (forall n, good_orders (os n)) -> good_m h -> calm E h -> mexec E (NewModel E) h = Val (m, rs0) ->
  (NewEnforcer E W os m (ArgPath path) opts = Panic <-> exists l1 rl l2, held = l1 ++ rl :: l2 /\ Forall (welcome h) l1 /\ bad_rule h rl) /\
  (forall err, NewEnforcer E W os m (ArgPath path) opts = Val (inr err) ->
     (exists l1 rl l2, held = l1 ++ rl :: l2 /\ Forall (welcome h) l1 /\ in_section h rl = None /\ err = no_such_section rl) \/
     (Forall (welcome h) held /\ as_goerr bad = Some err)) /\
  (forall e, NewEnforcer E W os m (ArgPath path) opts = Val (inl e) ->
     bad = None /\ Forall (welcome h) held /\ f_log e = [] /\ queue e = [] /\ f_adapter e = ANil /\
     exists xs, mexec E (NewModel E) (h ++ rule_calls os CAdd held) = Val (f_model e, rs0 ++ xs)).
Proof.
  intros E P d0 files os m h rs0 path opts held bad W Hl Ho Go C H.
  assert (L : w_file W path = (held, as_goerr bad)) by (cbn [W file_world w_file]; now rewrite Hl).
  unfold NewEnforcer. cbv zeta. rewrite L. unfold load_from. cbn [fst snd].
  set (e0 := mkEnf m 0 [] [] 0 ANil []). destruct (loop_any E W held os e0 h rs0 eq_refl Go C H Ho) as [P1 P2].
  destruct (rules_loop E W os e0 CAdd held) as [[e1 err1]|]; cbn [obind].
  2:{ split; [split; [intros _; now apply P1|reflexivity]|]. split; intros; discriminate. }
  destruct (P2 e1 err1 eq_refl) as (l1 & l2 & xs & -> & F & M & Fr & Er & Nx).
  split.
  - split; [|intros X; apply P1 in X; discriminate X].
    destruct err1 as [x|]; cbn [snd]; [discriminate|]. destruct (as_goerr bad); discriminate.
  - destruct l2 as [|rl l2]; subst err1.
    + rewrite app_nil_r in *. destruct (as_goerr bad) as [x|] eqn:Eb.
      * split; [|intros; discriminate]. intros err X. injection X as <-. right. split; [exact F|reflexivity].
      * split; [intros; discriminate|]. intros e X. injection X as <-.
        assert (bad = None) by (destruct bad; [discriminate|reflexivity]). split; [assumption|]. split; [exact F|].
        assert (W0 : Wf (SetAdapter e1 ANil)) by (apply wf_set_adapter; right; rewrite Fr; auto).
        destruct (new_options opts (SetAdapter e1 ANil) W0) as (A1 & A2 & A3 & A4 & _). rewrite A1, A2, A3, A4. rewrite Fr.
        split; [reflexivity|]. split; [reflexivity|]. split; [reflexivity|]. exists xs. apply mexec_app. exists m, rs0, xs. split; [exact H|]. split; [exact M|reflexivity].
    + split; [|intros; discriminate]. intros err X. injection X as <-. left. exists l1, rl, l2. split; [reflexivity|]. split; [exact F|].
      split; [exact (proj1 (Nx rl l2 eq_refl))|reflexivity].
Qed.
Print Assumptions C91_new_enforcer.

(** Hence the claim that every policy file is loaded or reported is false: a line
    with a space and nothing else, or a line "g, alice", after a good line, and
    LoadPolicy and NewEnforcer panic; an empty line, a comment or a line of a section
    the model does not have does not. *)
Definition lines (ls : list string) : string := fold_right (fun l t => (l ++ String LF t)%string) ""%string ls.
Definition load_of (text : string) : outcome (option goerr * list rule) :=
  let W := ex_fw (Some text) in
  let! (e, rs) := estep ex_env W ex_os (ex_new W (ArgAdapter (AExt 0)) []) ELoad in
  Val (y_err rs, model_rules ex_o (f_model e)).
Definition new_of (text : string) : outcome (option goerr * list rule) :=
  let W := file_world ex_fp None (fun _ => Some text) in
  let! x := NewEnforcer ex_env W ex_os ex_m (ArgPath "policy.csv") [] in
  Val (match x with inr err => (Some err, []) | inl e => (None, model_rules ex_o (f_model e)) end).
Theorem C91_load_refuted :
  let good := "p, admin, data1, read"%string in
  load_of (lines [good; " "]%string) = Panic /\ load_of (lines [good; "g, alice"]%string) = Panic /\
  new_of (lines [good; " "]%string) = Panic /\ new_of (lines [good; "g, alice"]%string) = Panic /\
  load_of (lines [good; ""; "# note"; "g, alice, admin"]%string) = Val (None, [["p"; "admin"; "data1"; "read"]; ["g"; "alice"; "admin"]]%string) /\
  load_of (lines [good; "p9, alice, data2"; " "]%string) = Val (Some ErrPolicyNotFound, [["p"; "admin"; "data1"; "read"]]%string) /\
  load_of (lines [good; "g7, alice"; "g, alice, admin"]%string) = Val (Some ErrRMNotFound, [["p"; "admin"; "data1"; "read"]]%string).
Proof. vm_compute. repeat split. Qed.
Print Assumptions C91_load_refuted.

Example C91_ex :
  let text := lines ["p, admin, data1, read"; "g, alice, admin"; "g, alice"]%string in let W := ex_fw (Some text) in
  let e := ex_new W (ArgAdapter (AExt 0)) [] in
  f_adapter e = AExt 0 /\ good_m ex_setup /\ calm ex_env ex_setup /\ (exists rs, mexec ex_env (NewModel ex_env) ex_setup = Val (f_model e, rs)) /\
  load_file (the_file ex_fp (Some text) (f_log e)) = ([["p"; "admin"; "data1"; "read"]; ["g"; "alice"; "admin"]; ["g"; "alice"]]%string, None) /\
  Forall (welcome ex_setup) [["p"; "admin"; "data1"; "read"]; ["g"; "alice"; "admin"]]%string /\ bad_rule ex_setup ["g"; "alice"]%string.
Proof.
  cbv zeta. split; [vm_compute; reflexivity|]. split; [apply C40_ex|]. split.
  - repeat (apply Forall_cons; [cbn; split; [discriminate|]; intros X; try discriminate X; apply ex_texts|]). apply Forall_nil.
  - split; [eexists; vm_compute; reflexivity|]. split; [vm_compute; reflexivity|]. split.
    + repeat (apply Forall_cons; [split; [vm_compute; discriminate|vm_compute]|]); try apply Forall_nil.
      * intros [X|[X _]]; discriminate X.
      * intros [X|[_ [_ X]]]; [discriminate X|]. repeat apply le_S_n in X. inversion X.
    + right. split; [reflexivity|]. split; [vm_compute; discriminate|]. cbn. lia.
Qed.
