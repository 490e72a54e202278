(** Lemmas for C103 and C104: a model with other functions next to the model as the
    file loaded it. *)
From Verif Require Import GoBase GoBaseP DefsM PolicyM PolicySpec MatcherDefM MatcherM MatcherSpec PathM RbacM RbacSpec DomainM DomainSpec ModelM ModelSpec ModelP ModelP2 ModelP3 ModelP4 ModelP5 ModelP6 SafeSpec SafeP FunctionsSpec FunctionsP EnforcerM EnforcerSpec EnforcerP MultiSpec LogicSpec RoleAccessM RoleAccessSpec RoleAccessP UserRoleM UserRoleSpec.
From Verif Require Import Prop_Model Prop_App Prop_Multi Prop_Columns.
Local Open Scope list_scope.

(** ** Queries see the function map only *)
Section FmTwin.
  Variables (E1 E2 : env) (o : orders) (m : model) (X : smap fent) (mk : string) (j : nat).
  Hypothesis Hm : mget mk (md_mMap m) = Some j.

  Lemma fm_apply_twin x op : named_op mk op -> forall m' y e, option_apply E1 o m x op = Val (m', y, e) ->
    m' = m /\ option_apply E2 o (set_fm m X) x op = Val (set_fm m X, y, e).
  Proof.
    intros Hn m' y e H. destruct op as [s|t|i|s|dd|s|t|]; cbn [option_apply named_op] in *; try contradiction; cbn [md_mMap md_eMap set_fm].
    - destruct (String.eqb_spec s "") as [->|Hs]; [injection H as <- <- <-; auto|]. destruct Hn as [->| ->]; [congruence|]. rewrite Hm in *. injection H as <- <- <-. auto.
    - destruct (String.eqb s ""); [injection H as <- <- <-; auto|]. unfold GetRequestDef in *. cbn [md_r set_fm]. destruct (mget s (md_r m)) as [d|]; cbn [obind] in *; [|discriminate]. injection H as <- <- <-. auto.
    - injection H as <- <- <-. auto.
    - destruct (String.eqb s ""); injection H as <- <- <-; auto.
    - injection H as <- <- <-. auto.
    - injection H as <- <- <-. auto.
  Qed.
  Lemma fm_options_twin ops : Forall (named_op mk) ops -> forall x m' y e, apply_options E1 o m x ops = Val (m', y, e) ->
    m' = m /\ apply_options E2 o (set_fm m X) x ops = Val (set_fm m X, y, e).
  Proof.
    induction 1 as [|op ops Hop F IH]; intros x m' y e H; cbn [apply_options] in *; [injection H as <- <- <-; auto|].
    destruct (option_apply E1 o m x op) as [[[m1 x1] e1]|] eqn:Ea; cbn [obind] in H; [|discriminate].
    destruct (fm_apply_twin _ _ Hop _ _ _ Ea) as [-> Eb]. rewrite Eb. cbn [obind]. destruct e1; [injection H as <- <- <-; auto|]. now apply IH.
  Qed.
  Lemma fm_split_twin ps x vs : mk = "m"%string \/ In (OMatcher mk) (opts_of ps) -> mk <> ""%string ->
    Forall (named_op mk) (opts_of ps) -> splitParams E1 o m ps = Val (m, inl x, vs) -> splitParams E2 o (set_fm m X) ps = Val (set_fm m X, inl x, vs).
  Proof.
    intros Dm Nm F H. unfold splitParams, NewContext in *.
    destruct (apply_options E1 o m ctx0 (opts_of ps)) as [[[m1 x1] e1]|] eqn:Ea; cbn [obind] in H; [|discriminate].
    destruct (fm_options_twin _ F _ _ _ _ Ea) as [-> Eb]. rewrite Eb. cbn [obind]. destruct e1; [discriminate|].
    assert (Sm : c_m x1 = None -> mk = "m"%string).
    { destruct Dm as [Dm|Dm]; [auto|]. intros Hx. exfalso. clear - Ea Hx Dm F Hm Nm E2 X.
      assert (G : forall ops, Forall (named_op mk) ops -> forall x, apply_options E1 o m x ops = Val (m, x1, None) -> c_m x = None /\ ~ In (OMatcher mk) ops).
      { induction 1 as [|op ops Hop F' IH]; intros x H; cbn [apply_options] in H; [injection H as <-; split; [exact Hx|intros []]|].
        destruct (option_apply E1 o m x op) as [[[m2 x2] e2]|] eqn:Ea2; cbn [obind] in H; [|discriminate].
        destruct e2 as [e2|]; [discriminate|]. destruct (fm_apply_twin _ _ Hop _ _ _ Ea2) as [-> _]. destruct (IH _ H) as [A B].
        destruct op as [s|t|i|s|dd|s|t|]; cbn [option_apply named_op] in *; try contradiction.
        - destruct (String.eqb_spec s "") as [->|Hs].
          + injection Ea2 as <-. split; [exact A|]. intros [Y|Y]; [injection Y as <-; congruence|contradiction].
          + destruct Hop as [->| ->]; [congruence|]. rewrite Hm in Ea2. injection Ea2 as <-. discriminate.
        - destruct (String.eqb s ""); [injection Ea2 as <-|destruct (GetRequestDef m s); cbn in Ea2; [|discriminate]; injection Ea2 as <-]; (split; [exact A|intros [Y|Y]; [discriminate|contradiction]]).
        - injection Ea2 as <-. split; [exact A|intros [Y|Y]; [discriminate|contradiction]].
        - destruct (String.eqb s ""); injection Ea2 as <-; (split; [exact A|intros [Y|Y]; [discriminate|contradiction]]).
        - injection Ea2 as <-. split; [exact A|intros [Y|Y]; [discriminate|contradiction]].
        - injection Ea2 as <-. split; [exact A|intros [Y|Y]; [discriminate|contradiction]]. }
      destruct (G _ F _ Ea) as [_ Y]. contradiction. }
    destruct (match c_r x1 with Some _ => _ | None => _ end) as [[[m2 x2] e2]|] eqn:E2' in H; cbn [obind] in H; [|discriminate].
    assert (S2 : m2 = m /\ (c_m x2 = c_m x1) /\ match c_r x1 with Some _ => Val (set_fm m X, x1, None) | None => option_apply E2 o (set_fm m X) x1 (ORequest "r") end = Val (set_fm m X, x2, e2)).
    { destruct (c_r x1); [injection E2' as <- <- <-; auto|]. destruct (fm_apply_twin x1 (ORequest "r") Logic.I _ _ _ E2') as [-> Y]. split; [reflexivity|]. split; [|exact Y].
      cbn in E2'. destruct (GetRequestDef m "r"); cbn in E2'; [|discriminate]. now injection E2' as <- _. }
    destruct S2 as [-> [Ec ->]]. cbn [obind].
    destruct (match c_m x2 with Some _ => _ | None => _ end) as [[[m3 x3] e3]|] eqn:E3' in H; cbn [obind] in H; [|discriminate].
    assert (S3 : m3 = m /\ match c_m x2 with Some _ => Val (set_fm m X, x2, None) | None => option_apply E2 o (set_fm m X) x2 (OMatcher "m") end = Val (set_fm m X, x3, e3)).
    { destruct (c_m x2) eqn:Ex2; [injection E3' as <- <- <-; auto|]. refine (fm_apply_twin x2 (OMatcher "m") _ _ _ _ E3'). right. symmetry. apply Sm. congruence. }
    destruct S3 as [-> ->]. cbn [obind].
    destruct (match c_e x3 with Some _ => _ | None => _ end) as [[[m4 x4] e4]|] eqn:E4' in H; cbn [obind] in H; [|discriminate]. injection H as -> <- <-.
    assert (S4 : match c_e x3 with Some _ => Val (set_fm m X, x3, None) | None => option_apply E2 o (set_fm m X) x3 (OEffect "e") end = Val (set_fm m X, x4, e4)).
    { destruct (c_e x3); [injection E4' as <- <-; auto|]. now destruct (fm_apply_twin x3 (OEffect "e") Logic.I _ _ _ E4') as [_ Y]. }
    rewrite S4. reflexivity.
  Qed.
End FmTwin.

Lemma fm_query_twin E o m X mk rk j rd ps : mk <> ""%string -> rk <> ""%string -> mget mk (md_mMap m) = Some j -> mget rk (md_r m) = Some rd ->
  uses_matcher mk ps -> uses_request rk ps ->
  let E' := env_with E (functions o (set_fm m X)) in
  (forall r, Filter E' o m ps = Val (m, r) -> Filter E o (set_fm m X) ps = Val (set_fm m X, r)) /\
  (forall r, Enforce E' o m ps = Val (m, r) -> Enforce E o (set_fm m X) ps = Val (set_fm m X, r)).
Proof.
  intros Nm Nr Hm Hr Um Ur E'. destruct (context_named E' o m mk rk j rd ps Nm Nr Hm Hr Um Ur) as [x [Hs _]].
  pose proof (fm_split_twin E' E o m X mk j Hm ps x _ (proj2 Um) Nm (proj1 Um) Hs) as Ht. unfold Filter, Enforce, enforcer_RangeMatches. rewrite Hs, Ht. cbn [obind]. split; intros r.
  - change (RangeMatchesWithContext E o (set_fm m X) x (vals_of ps) (fun (l : list rule) (r0 : rule) => (l ++ [r0], true)) [])
      with (RangeMatchesWithContext E' o m x (vals_of ps) (fun (l : list rule) (r0 : rule) => (l ++ [r0], true)) []).
    destruct (RangeMatchesWithContext _ _ _ _ _ _ _) as [z|]; cbn [obind]; [|discriminate]. congruence.
  - change (enforce E o (set_fm m X) x (vals_of ps)) with (enforce E' o m x (vals_of ps)).
    destruct (enforce _ _ _ _ _) as [z|]; cbn [obind]; [|discriminate]. congruence.
Qed.

(** ** Rules do not look at the functions *)
Lemma act_fm o m X i a : act o (set_fm m X) i a = let! (m', b) := act o m i a in Val (set_fm m' X, b).
Proof.
  unfold act. cbn [md_objs md_rms md_mats set_fm]. destruct (nth_error (md_objs m) i) as [ob|]; [|reflexivity].
  destruct (o_body ob) as [p|rm].
  - destruct (PolicyM.pstep p a) as [[p' b] es]. destruct (notify_all (md_mats m) (o_listeners ob) es); reflexivity.
  - destruct (nth_error (md_rms m) rm) as [x|]; [|reflexivity]. destruct (act_role (o_names o) x a) as [[[x' b] es]|]; [|reflexivity]. cbn [obind].
    destruct (notify_all (md_mats m) (o_listeners ob) es); reflexivity.
Qed.
Lemma act_md_fm o m i a m' b : act o m i a = Val (m', b) -> md_fm m' = md_fm m /\ md_pMap m' = md_pMap m.
Proof.
  unfold act. destruct (nth_error (md_objs m) i) as [ob|]; [|discriminate]. destruct (o_body ob) as [p|rm].
  - destruct (PolicyM.pstep p a) as [[p' b'] es]. destruct (notify_all (md_mats m) (o_listeners ob) es); cbn [obind]; [|discriminate]. intros H. injection H as <- <-. auto.
  - destruct (nth_error (md_rms m) rm) as [x|]; [|discriminate]. destruct (act_role (o_names o) x a) as [[[x' b'] es]|]; cbn [obind]; [|discriminate].
    destruct (notify_all (md_mats m) (o_listeners ob) es); cbn [obind]; [|discriminate]. intros H. injection H as <- <-. auto.
Qed.
Definition rules_only (c : mcall) : Prop := match c with CAdd _ | CRemove _ | CClear _ => True | _ => False end.
Lemma step_fm E o m X c : rules_only c -> mstep E o (set_fm m X) c = let! (m', r) := mstep E o m c in Val (set_fm m' X, r).
Proof.
  destruct c as [| |[|k r]|[|k r]|k| | | | | |]; cbn [rules_only]; try contradiction; intros _; try reflexivity; cbn [mstep model_AddRule model_RemoveRule].
  - destruct (first_byte k) as [c|]; [|reflexivity]. destruct (Ascii.eqb c "p"); [|destruct (Ascii.eqb c "g"); [|reflexivity]]; cbn [md_pMap md_rpMap set_fm];
      (destruct (mget k _) as [i|]; [|reflexivity]); rewrite act_fm; destruct (act o m i (PAdd r)) as [[m' b]|]; reflexivity.
  - destruct (first_byte k) as [c|]; [|reflexivity]. destruct (Ascii.eqb c "p"); [|destruct (Ascii.eqb c "g"); [|reflexivity]]; cbn [md_pMap md_rpMap set_fm];
      (destruct (mget k _) as [i|]; [|reflexivity]); rewrite act_fm; destruct (act o m i (PRemove r)) as [[m' b]|]; reflexivity.
  - unfold ClearPolicy. change (GetPolicy (set_fm m X) k) with (GetPolicy m k). destruct (GetPolicy m k) as [i|]; [|reflexivity]. rewrite act_fm.
    destruct (act o m i PClear) as [[m' b]|]; reflexivity.
Qed.
Lemma step_md_fm E o m c m' r : rules_only c -> mstep E o m c = Val (m', r) -> md_fm m' = md_fm m /\ md_pMap m' = md_pMap m.
Proof.
  destruct c as [| |[|k l]|[|k l]|k| | | | | |]; cbn [rules_only]; try contradiction; intros _; cbn [mstep model_AddRule model_RemoveRule]; try discriminate.
  - destruct (first_byte k) as [c|]; [|discriminate]. destruct (Ascii.eqb c "p"); [|destruct (Ascii.eqb c "g"); [|intros H; injection H as <- <-; auto]];
      (destruct (mget k _) as [i|]; [|intros H; injection H as <- <-; auto]); (destruct (act o m i (PAdd l)) as [[m1 b]|] eqn:Ea; cbn [obind]; [|discriminate]);
      intros H; injection H as <- <-; exact (act_md_fm _ _ _ _ _ _ Ea).
  - destruct (first_byte k) as [c|]; [|discriminate]. destruct (Ascii.eqb c "p"); [|destruct (Ascii.eqb c "g"); [|intros H; injection H as <- <-; auto]];
      (destruct (mget k _) as [i|]; [|intros H; injection H as <- <-; auto]); (destruct (act o m i (PRemove l)) as [[m1 b]|] eqn:Ea; cbn [obind]; [|discriminate]);
      intros H; injection H as <- <-; exact (act_md_fm _ _ _ _ _ _ Ea).
  - unfold ClearPolicy. destruct (GetPolicy m k) as [i|]; [|intros H; injection H as <- <-; auto]. destruct (act o m i PClear) as [[m1 b]|] eqn:Ea; cbn [obind]; [|discriminate].
    intros H; injection H as <- <-; exact (act_md_fm _ _ _ _ _ _ Ea).
Qed.

Section Follow.
  Context {S : Type}.
  Variable U : manager S.

  (** [x] is [m] with other functions: [M] says what every name stands for, [T] what
      every manager was told. *)
  Record follows (ks : list string) (T : string -> option (option S * list link_call)) (M : string -> standing) (m : model) (x : umodel S) : Prop := {
    fo_m : exists X, u_m x = set_fm m X /\ forall g,
             match M g with
             | AsLoaded => mget g X = mget g (md_fm m)
             | Registered f => mget g X = Some (FFun f)
             | Nothing => mget g X = None
             | Manager => exists s, mget g (u_rms x) = Some (s, true) /\ mget g X = Some (FFun (user_function U s))
             end;
    fo_s : forall g, match T g with
             | None => mget g (u_rms x) = None
             | Some (s0, cs) => exists s, replay U s0 cs = Val s /\ mget g (u_rms x) = Some (s, match M g with Manager => true | _ => false end)
             end;
    fo_k : forall g, In g ks <-> T g <> None;
    fo_g : forall g, In g ks -> g_key g;
    fo_p : forall g, g_key g -> mget g (md_pMap m) = None
  }.
  Lemma follows_ext ks T M T' M' m x : (forall g, T g = T' g) -> (forall g, M g = M' g) -> follows ks T M m x -> follows ks T' M' m x.
  Proof.
    intros ET EM [[X [A B]] C D G P]. constructor; auto.
    - exists X. split; [exact A|]. intros g. rewrite <- EM. apply B.
    - intros g. rewrite <- EM, <- ET. apply C.
    - intros g. rewrite <- ET. apply D.
  Qed.
  Lemma replay_app s cs : forall cs', replay U s (cs ++ cs') = let! s := replay U s cs in replay U s cs'.
  Proof.
    revert s. induction cs as [|c cs IH]; intros s cs'; [reflexivity|]. cbn [app replay]. destruct (link_step U s c) as [s'|]; cbn [obind]; [apply IH|reflexivity].
  Qed.

  Lemma fo_tell ks T M m x k s0 cs s l s' live : follows ks T M m x -> T k = Some (s0, cs) -> replay U s0 cs = Val s -> mget k (u_rms x) = Some (s, live) ->
    link_step U s l = Val s' ->
    follows ks (fun g => if String.eqb k g then option_map (fun y => (fst y, snd y ++ [l])) (T g) else T g) M m (u_store U x k s' live).
  Proof.
    intros [[X [A B]] C D G P] Et Er Es El. pose proof (C k) as Ck. rewrite Et in Ck. destruct Ck as (s1 & R1 & G1). rewrite Er in R1. injection R1 as <-. rewrite Es in G1. injection G1 as G1.
    constructor; auto.
    - destruct live; cbn [u_store u_m u_rms].
      + exists (mput k (FFun (user_function U s')) X). rewrite A. split; [reflexivity|]. intros g. specialize (B g). rewrite !mget_put.
        destruct (String.eqb_spec g k) as [->|Hn].
        * destruct (M k); try discriminate. exists s'. auto.
        * destruct (M g); auto.
      + exists X. split; [exact A|]. intros g. specialize (B g). rewrite mget_put. destruct (String.eqb_spec g k) as [->|Hn]; [|exact B].
        destruct (M k); try discriminate; exact B.
    - intros g. specialize (C g). cbn [u_store u_rms]. rewrite mget_put, String.eqb_sym. destruct (String.eqb_spec g k) as [->|Hn].
      + rewrite Et. cbn [option_map fst snd]. exists s'. rewrite replay_app, Er. cbn [obind replay]. rewrite El. cbn [obind]. split; [reflexivity|]. now rewrite G1.
      + exact C.
    - intros g. rewrite D. destruct (String.eqb_spec k g) as [->|Hn]; [|reflexivity]. destruct (T g); cbn; split; congruence.
  Qed.
  Lemma fo_setrm ks T M m x k s : follows ks T M m x -> g_key k ->
    follows (k :: ks) (fun g => if String.eqb k g then Some (s, []) else T g) (fun g => if String.eqb k g then Manager else M g) m (u_store U x k s true).
  Proof.
    intros [[X [A B]] C D G P] Hk. constructor; cbn [u_store u_m u_rms]; auto.
    - exists (mput k (FFun (user_function U s)) X). rewrite A. split; [reflexivity|]. intros g. specialize (B g). rewrite !mget_put, String.eqb_sym.
      destruct (String.eqb_spec g k) as [->|Hn]; [eauto|exact B].
    - intros g. specialize (C g). rewrite mget_put, String.eqb_sym. destruct (String.eqb_spec g k) as [->|Hn]; [|exact C]. exists s. auto.
    - intros g. cbn [In]. rewrite D. destruct (String.eqb_spec k g) as [->|Hn]; [split; [discriminate|auto]|]. split; [intros [X0|X0]; [contradiction|auto]|auto].
    - intros g [->|Hg]; auto.
  Qed.
  Lemma fo_fun ks T M m x n (st : standing) X' : follows ks T M m x ->
    match st with Registered f => X' = mput n (FFun f) (md_fm (u_m x)) | Nothing => X' = mdel n (md_fm (u_m x)) | _ => False end ->
    follows ks T (fun g => if String.eqb n g then st else M g) m (mkU (set_fm (u_m x) X') (u_unlink n (u_rms x))).
  Proof.
    intros [[X [A B]] C D G P] Hst.
    assert (Ug : forall g, mget g (u_unlink n (u_rms x)) = if String.eqb n g then option_map (fun y => (fst y, false)) (mget g (u_rms x)) else mget g (u_rms x)).
    { intros g. unfold u_unlink. destruct (mget n (u_rms x)) as [[s b]|] eqn:En.
      - rewrite mget_put, String.eqb_sym. destruct (String.eqb_spec n g) as [<-|]; [now rewrite En|reflexivity].
      - destruct (String.eqb_spec n g) as [<-|]; [now rewrite En|reflexivity]. }
    constructor; cbn [u_m u_rms]; auto.
    - exists X'. split; [rewrite A; reflexivity|]. rewrite A in Hst. cbn [md_fm set_fm] in Hst. intros g. specialize (B g). rewrite Ug.
      destruct (String.eqb_spec n g) as [<-|Hn].
      + destruct st; try contradiction; rewrite Hst; [apply mget_put_eq|apply mget_del_eq].
      + assert (Eg : mget g X' = mget g X) by (destruct st; try contradiction; rewrite Hst; [apply mget_put_neq|apply mget_del_neq]; congruence).
        rewrite Eg. exact B.
    - intros g. specialize (C g). rewrite Ug. destruct (String.eqb_spec n g) as [<-|Hn]; [|exact C].
      destruct (T n) as [[s0 cs]|]; [|now rewrite C]. destruct C as (s & R & Cs). exists s. rewrite Cs. split; [exact R|]. cbn. destruct st; try contradiction; reflexivity.
  Qed.
  Lemma fo_pass E o ks T M m x c y r : follows ks T M m x -> rules_only c -> u_pass E o x c = Val (y, r) ->
    exists m', mstep E o m c = Val (m', r) /\ follows ks T M m' y.
  Proof.
    intros [[X [A B]] C D G P] Hc H. unfold u_pass in H. rewrite A, (step_fm E o m X c Hc) in H.
    destruct (mstep E o m c) as [[m' r']|] eqn:Em; cbn [obind] in H; [|discriminate]. injection H as <- <-. exists m'. split; [reflexivity|].
    destruct (step_md_fm _ _ _ _ _ _ Hc Em) as [F1 F2]. constructor; cbn [u_m u_rms]; auto.
    - exists X. split; [reflexivity|]. rewrite F1. exact B.
    - rewrite F2. exact P.
  Qed.

  Lemma follow_run E d : forall hx ks T M m x x' rs, follows ks T M m x -> extended_calls d ks hx -> uexec U E x hx = Val (x', rs) ->
    exists ks' m' rs', mexec E m (library_calls ks hx) = Val (m', rs') /\
      follows ks' (fun g => fold_left (told_step g) (map snd hx) (T g)) (fun g => fold_left (stand_step g) (map snd hx) (M g)) m' x'.
  Proof.
    induction hx as [|[o c] hx IH]; intros ks T M m x x' rs F Hx H.
    { injection H as <- <-. exists ks, m, []. auto. }
    cbn [uexec] in H. destruct (ustep U E o x c) as [[x1 r1]|] eqn:Es; cbn [obind] in H; [|discriminate].
    destruct (uexec U E x1 hx) as [[x2 rs2]|] eqn:Ex; cbn [obind] in H; [|discriminate]. injection H as <- <-.
    cbn [map snd fold_left].
    (* a step after which the library got nothing *)
    assert (Skip : forall ks1 T1 M1, follows ks1 T1 M1 m x1 -> extended_calls d ks1 hx -> library_calls ks ((o, c) :: hx) = library_calls ks1 hx ->
              (forall g, T1 g = told_step g (T g) c) -> (forall g, M1 g = stand_step g (M g) c) ->
              exists ks' m' rs', mexec E m (library_calls ks ((o, c) :: hx)) = Val (m', rs') /\
                follows ks' (fun g => fold_left (told_step g) (map snd hx) (told_step g (T g) c)) (fun g => fold_left (stand_step g) (map snd hx) (stand_step g (M g) c)) m' x2).
    { intros ks1 T1 M1 F1 X1 El Et Em. rewrite El. destruct (IH ks1 T1 M1 m x1 x2 rs2 F1 X1 Ex) as (ks' & m' & rs' & R & Fr).
      exists ks', m', rs'. split; [exact R|]. eapply follows_ext; [| |exact Fr]; intros g; cbn beta; [now rewrite Et|now rewrite Em]. }
    (* a step the library does as well *)
    assert (Both : forall c0, c = UM c0 -> rules_only c0 -> about ks c0 = false -> u_pass E o x c0 = Val (x1, r1) -> extended_calls d ks hx ->
              (forall g, told_step g (T g) c = T g) ->
              exists ks' m' rs', mexec E m (library_calls ks ((o, c) :: hx)) = Val (m', rs') /\
                follows ks' (fun g => fold_left (told_step g) (map snd hx) (told_step g (T g) c)) (fun g => fold_left (stand_step g) (map snd hx) (stand_step g (M g) c)) m' x2).
    { intros c0 -> Hr Ha Hp Hx' Ht. destruct (fo_pass E o ks T M m x c0 x1 r1 F Hr Hp) as (m1 & S1 & F1).
      destruct (IH ks T M m1 x1 x2 rs2 F1 Hx' Ex) as (ks' & m' & rs' & R & Fr). exists ks', m', (r1 :: rs').
      assert (El : library_calls ks ((o, UM c0) :: hx) = (o, c0) :: library_calls ks hx) by (destruct c0; try contradiction; cbn [library_calls]; now rewrite Ha).
      rewrite El. cbn [mexec]. rewrite S1. cbn [obind]. rewrite R. split; [reflexivity|].
      eapply follows_ext; [| |exact Fr]; intros g; cbn beta; [now rewrite Ht|]. destruct c0; try contradiction; reflexivity. }
    assert (Tk : forall k, T k = None -> mget k (u_rms x) = None) by (intros k Hk; pose proof (fo_s _ _ _ _ _ F k) as Y; now rewrite Hk in Y).
    assert (Nk : forall k, T k = None -> about ks (CClear k) = false).
    { intros k Hk. cbn. destruct (in_dec string_dec k ks) as [i|]; [|reflexivity]. apply (fo_k _ _ _ _ _ F) in i. contradiction. }
    assert (Yk : forall k, T k <> None -> about ks (CClear k) = true).
    { intros k Hk. cbn. destruct (in_dec string_dec k ks) as [i|i]; [reflexivity|]. exfalso. apply i, (fo_k _ _ _ _ _ F), Hk. }
    assert (Gk : forall k, T k <> None -> g_key k) by (intros k Hk; apply (fo_g _ _ _ _ _ F), (fo_k _ _ _ _ _ F), Hk).
    assert (Sk : forall k s0 cs, T k = Some (s0, cs) -> exists s live, replay U s0 cs = Val s /\ mget k (u_rms x) = Some (s, live)).
    { intros k s0 cs Hk. pose proof (fo_s _ _ _ _ _ F k) as Y. rewrite Hk in Y. destruct Y as (s & A & B). eauto. }
    assert (Ow : forall k, T k <> None -> u_own x k = mget k (u_rms x)) by (intros k Hk; unfold u_own; rewrite (Gk k Hk); reflexivity).
    assert (On : forall k, T k = None -> u_own x k = None) by (intros k Hk; unfold u_own; rewrite (Tk k Hk); destruct (first_byte k) as [c'|]; [destruct (Ascii.eqb c' "g")|]; reflexivity).
    assert (Kp : forall k l, (forall g, k <> g -> T g = T g) -> T k = None -> forall g, (if String.eqb k g then option_map (fun y : option S * list link_call => (fst y, snd y ++ [l])) (T g) else T g) = T g).
    { intros k l _ Hk g. destruct (String.eqb_spec k g) as [<-|]; [now rewrite Hk|reflexivity]. }
    destruct c as [c0|k s].
    2:{ injection Es as <- <-. destruct Hx as [Hk Hx]. eapply Skip; [exact (fo_setrm ks T M m x k s F Hk)|exact Hx|reflexivity| |]; intros g; reflexivity. }
    destruct c0 as [sc k v|sc k|rl|rl|k| |k|e|k y|n f|n]; cbn [extended_calls] in Hx;
      try (exfalso; exact (proj1 Hx eq_refl)).
    - destruct Hx as [Hd Hx]. destruct rl as [|k r]; [discriminate|]. destruct (T k) as [[s0 cs]|] eqn:Et.
      + destruct (Sk k s0 cs Et) as (s & live & Rs & Gs). cbn [ustep] in Es. rewrite (Ow k), Gs in Es by congruence.
        destruct s as [s|]; [|discriminate]. destruct r as [|a [|b ds]]; try discriminate.
        destruct (u_AddLink U s a b ds) as [[s' [ad er]]|] eqn:Ea; cbn [obind] in Es; [|discriminate]. injection Es as <- <-.
        eapply (Skip ks); [eapply (fo_tell ks T M m x k s0 cs (Some s) (LAdd a b ds) (Some s') live F Et Rs Gs); cbn [link_step]; now rewrite Ea|exact Hx| | |]; [|intros g; reflexivity|intros g; reflexivity].
        change (library_calls ks ((o, UM (CAdd (k :: a :: b :: ds))) :: hx)) with (if about ks (CClear k) then library_calls ks hx else (o, CAdd (k :: a :: b :: ds)) :: library_calls ks hx).
        rewrite Yk by congruence. reflexivity.
      + cbn [ustep] in Es. rewrite (On k Et) in Es. eapply Both; [reflexivity|exact Logic.I|exact (Nk k Et)|exact Es|exact Hx|].
        intros g. cbn [told_step]. destruct r as [|a [|b ds]]; try reflexivity. apply (Kp k (LAdd a b ds)); auto.
    - destruct Hx as [Hd Hx]. destruct rl as [|k r]; [discriminate|]. destruct (T k) as [[s0 cs]|] eqn:Et.
      + destruct (Sk k s0 cs Et) as (s & live & Rs & Gs). cbn [ustep] in Es. rewrite (Ow k), Gs in Es by congruence.
        destruct s as [s|]; [|discriminate]. destruct r as [|a [|b ds]]; try discriminate.
        destruct (u_DeleteLink U s a b ds) as [[s' [ad er]]|] eqn:Ea; cbn [obind] in Es; [|discriminate]. injection Es as <- <-.
        eapply (Skip ks); [eapply (fo_tell ks T M m x k s0 cs (Some s) (LDel a b ds) (Some s') live F Et Rs Gs); cbn [link_step]; now rewrite Ea|exact Hx| | |]; [|intros g; reflexivity|intros g; reflexivity].
        change (library_calls ks ((o, UM (CRemove (k :: a :: b :: ds))) :: hx)) with (if about ks (CClear k) then library_calls ks hx else (o, CRemove (k :: a :: b :: ds)) :: library_calls ks hx).
        rewrite Yk by congruence. reflexivity.
      + cbn [ustep] in Es. rewrite (On k Et) in Es. eapply Both; [reflexivity|exact Logic.I|exact (Nk k Et)|exact Es|exact Hx|].
        intros g. cbn [told_step]. destruct r as [|a [|b ds]]; try reflexivity. apply (Kp k (LDel a b ds)); auto.
    - destruct Hx as [Hd Hx]. destruct (T k) as [[s0 cs]|] eqn:Et.
      + destruct (Sk k s0 cs Et) as (s & live & Rs & Gs). destruct (fo_m _ _ _ _ _ F) as (X & A & _). cbn [ustep] in Es.
        rewrite A in Es. cbn [md_pMap set_fm] in Es. rewrite (fo_p _ _ _ _ _ F k (Gk k ltac:(congruence))), Gs in Es.
        destruct s as [s|]; [|discriminate]. destruct (u_Clear U s) as [[s' er]|] eqn:Ea; cbn [obind] in Es; [|discriminate]. injection Es as <- <-.
        eapply (Skip ks); [eapply (fo_tell ks T M m x k s0 cs (Some s) LClear (Some s') live F Et Rs Gs); cbn [link_step]; now rewrite Ea|exact Hx| | |]; [|intros g; reflexivity|intros g; reflexivity].
        change (library_calls ks ((o, UM (CClear k)) :: hx)) with (if about ks (CClear k) then library_calls ks hx else (o, CClear k) :: library_calls ks hx).
        rewrite Yk by congruence. reflexivity.
      + cbn [ustep] in Es. rewrite (Tk k Et) in Es. eapply Both; [reflexivity|exact Logic.I|exact (Nk k Et)| |exact Hx|].
        * destruct (mget k (md_pMap (u_m x))); exact Es.
        * intros g. cbn [told_step]. apply (Kp k LClear); auto.
    - cbn [ustep mstep SetFunction obind] in Es. injection Es as <- <-.
      eapply (Skip ks T); [exact (fo_fun ks T M m x n (Registered f) _ F eq_refl)|exact Hx|reflexivity| |]; intros g; reflexivity.
    - cbn [ustep mstep RemoveFunction obind] in Es. injection Es as <- <-.
      eapply (Skip ks T); [exact (fo_fun ks T M m x n Nothing _ F eq_refl)|exact Hx|reflexivity| |]; intros g; reflexivity.
  Qed.
End Follow.
