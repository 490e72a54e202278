(** Recovered panics of a model: the same results where the call returns, the
    listeners, and the rules compared with a model without matchers. *)
From Verif Require Import GoBase GoBaseP DefsM PolicyM PolicySpec PolicyP MatcherDefM MatcherM MatcherSpec MatcherP RbacM DomainM ModelM ModelSpec ModelP ModelP2 ModelP3 WideM WideSpec WideP.

(** ** The same results as without recovery *)
Lemma wevent_same x e : m_event x e = returned (w_event x e).
Proof.
  destruct e as [r|r|]; cbn [m_event w_event]; [rewrite wadd_same|rewrite wrem_same|reflexivity]; unfold returned;
    [destruct (w_add _ _ _ _) as [n [|]]|destruct (w_rem _ _ _ _) as [n [|]]]; reflexivity.
Qed.
Lemma wnotify_same ids e : forall ms, notify ms ids e = returned (w_notify ms ids e).
Proof.
  induction ids as [|i ids IH]; intros ms; cbn [notify w_notify]; [reflexivity|]. destruct (nth_error ms i) as [x|]; [|reflexivity].
  rewrite wevent_same. destruct (w_event x e) as [x' [|]]; cbn; [apply IH|reflexivity].
Qed.
Lemma wnotify_all_same ids es : forall ms, notify_all ms ids es = returned (w_notify_all ms ids es).
Proof.
  induction es as [|e es IH]; intros ms; cbn [notify_all w_notify_all]; [reflexivity|]. rewrite wnotify_same. destruct (w_notify ms ids e) as [ms' [|]]; cbn; [apply IH|reflexivity].
Qed.
Definition came_back {A B} (x : outcome (A * option B)) : outcome (A * B) := match x with Val (m, Some b) => Val (m, b) | _ => Panic end.
Lemma wact_same o m i a : act o m i a = came_back (w_act o m i a).
Proof.
  unfold act, w_act. destruct (nth_error (md_objs m) i) as [ob|]; [|reflexivity]. destruct (o_body ob) as [p|rm].
  - destruct (pstep p a) as [[p' b] es]. rewrite wnotify_all_same. destruct (w_notify_all _ _ es) as [ms [|]]; reflexivity.
  - destruct (nth_error (md_rms m) rm) as [x|]; [|reflexivity].
    assert (Z : (let! (x', b, es) := act_role (o_names o) x a in
                 let! ms := notify_all (md_mats m) (o_listeners ob) es in Val (set_mats (set_rms m (set_nth (md_rms m) rm x')) ms, b))
              = came_back (let! (x', b, es) := act_role (o_names o) x a in
                  let '(ms, ok) := w_notify_all (md_mats m) (o_listeners ob) es in
                  Val (set_mats (set_rms m (set_nth (md_rms m) rm x')) ms, if ok : bool then Some b else None))).
    { destruct (act_role (o_names o) x a) as [[[x' b] es]|]; [|reflexivity]. cbn [obind]. rewrite wnotify_all_same. destruct (w_notify_all _ _ es) as [ms [|]]; reflexivity. }
    rewrite Z. destruct a as [[|? [|? ?]]|[|? [|? ?]]|]; reflexivity.
Qed.
Lemma wbuild_same E o m key : BuildMatcher E o m key = came_back (Val (w_build_key E o m key)).
Proof.
  unfold BuildMatcher, w_build_key, w_build_def. destruct (mget key (md_m m)) as [expr|]; [|reflexivity].
  destruct (BuildMatcherFromDef E o m expr) as [[m' [j|e]]|]; reflexivity.
Qed.
Lemma wloop_same E o keys : forall m, build_loop E o m keys = came_back (Val (w_build_loop E o m keys)).
Proof.
  induction keys as [|k keys IH]; intros m; cbn [build_loop w_build_loop]; [reflexivity|]. rewrite wbuild_same.
  destruct (w_build_key E o m k) as [m' [[e|]|]]; cbn; [reflexivity|apply IH|reflexivity].
Qed.
Lemma wstep_same E o m c : mstep E o m c = came_back (w_step E o m c).
Proof.
  destruct c as [s k v|s k|rl|rl|k| |k|expr|k x|n f|n]; cbn [mstep w_step].
  - destruct (SetDef m s k v) as [[m' e]|]; reflexivity.
  - destruct (RemoveDef m s k) as [m' e]; reflexivity.
  - unfold model_AddRule, w_rule. destruct rl as [|k r]; [reflexivity|]. destruct (first_byte k) as [c|]; [|reflexivity].
    destruct (Ascii.eqb c "p"); [destruct (mget k (md_pMap m))|destruct (Ascii.eqb c "g"); [destruct (mget k (md_rpMap m))|]]; try reflexivity;
      rewrite wact_same; destruct (w_act o m _ _) as [[m' [b|]]|]; reflexivity.
  - unfold model_RemoveRule, w_rule. destruct rl as [|k r]; [reflexivity|]. destruct (first_byte k) as [c|]; [|reflexivity].
    destruct (Ascii.eqb c "p"); [destruct (mget k (md_pMap m))|destruct (Ascii.eqb c "g"); [destruct (mget k (md_rpMap m))|]]; try reflexivity;
      rewrite wact_same; destruct (w_act o m _ _) as [[m' [b|]]|]; reflexivity.
  - unfold ClearPolicy, w_clear. destruct (GetPolicy m k); [|reflexivity]. rewrite wact_same. destruct (w_act o m _ _) as [[m' [b|]]|]; reflexivity.
  - unfold BuildMatchers. rewrite wloop_same. destruct (w_build_loop E o m _) as [m' [e|]]; reflexivity.
  - rewrite wbuild_same. destruct (w_build_key E o m k) as [m' [e|]]; reflexivity.
  - unfold w_build_def. destruct (BuildMatcherFromDef E o m expr) as [[m' [j|e]]|]; reflexivity.
  - reflexivity.
  - reflexivity.
  - destruct (RemoveFunction m n); reflexivity.
Qed.

(** ** A model without its matchers *)
Definition bare (ob : pobj) : pobj := mkObj (o_body ob) [].
Definition strip (m : model) : model := set_mats (set_mMap (set_objs m (map bare (md_objs m))) []) [].
Lemma map_set_nth {A B} (f : A -> B) l : forall i x, map f (set_nth l i x) = set_nth (map f l) i (f x).
Proof. induction l as [|y l IH]; intros [|i] x; cbn; auto. now rewrite IH. Qed.
Lemma set_nth_id {A} (l : list A) : forall i x, nth_error l i = Some x -> set_nth l i x = l.
Proof. induction l as [|y l IH]; intros [|i] x H; cbn in *; [discriminate|discriminate|now injection H as ->|]. now rewrite IH. Qed.
Lemma notify_none es : forall ms, notify_all ms [] es = Val ms.
Proof. induction es as [|e es IH]; intros ms; cbn; auto. Qed.

Definition short (a : pop) : Prop := match a with PAdd [] | PAdd [_] | PRemove [] | PRemove [_] => True | _ => False end.
Lemma strip_act o m i a m1 res : w_act o m i a = Val (m1, res) ->
  (exists b, act o (strip m) i a = Val (strip m1, b)) \/
  (m1 = m /\ res = None /\ short a /\ exists rm ls, nth_error (md_objs m) i = Some (mkObj (ORole rm) ls)).
Proof.
  unfold w_act, act. intros H. assert (N : nth_error (md_objs (strip m)) i = option_map bare (nth_error (md_objs m) i)).
  { unfold strip. cbn. apply nth_error_map. }
  rewrite N. destruct (nth_error (md_objs m) i) as [ob|] eqn:Eo; [|discriminate H]. cbn [option_map bare o_body o_listeners]. destruct ob as [[p|rm] ls]; cbn [o_body o_listeners] in H.
  - left. cbn [o_body o_listeners]. destruct (pstep p a) as [[p' b] es]. destruct (w_notify_all _ _ es) as [ms ok]. injection H as <- <-. exists b. rewrite notify_none. cbn [obind].
    unfold strip. cbn. now rewrite map_set_nth.
  - assert (R : md_rms (strip m) = md_rms m) by reflexivity. cbn [o_body o_listeners]. rewrite R. destruct (nth_error (md_rms m) rm) as [x|]; [|discriminate H].
    assert (Z : forall y, y = (let! (x', b, es) := act_role (o_names o) x a in
                  let '(ms, ok) := w_notify_all (md_mats m) ls es in
                  Val (set_mats (set_rms m (set_nth (md_rms m) rm x')) ms, if ok : bool then Some b else None)) -> y = Val (m1, res) ->
         exists b, (let! (x', b, es) := act_role (o_names o) x a in
          let! ms := notify_all (md_mats (strip m)) [] es in Val (set_mats (set_rms (strip m) (set_nth (md_rms m) rm x')) ms, b)) = Val (strip m1, b)).
    { intros y -> Hy. destruct (act_role (o_names o) x a) as [[[x' b] es]|]; [|discriminate Hy]. cbn [obind] in *. destruct (w_notify_all _ _ es) as [ms ok]. injection Hy as <- <-.
      exists b. rewrite notify_none. reflexivity. }
    destruct a as [[|? [|? ?]]|[|? [|? ?]]|]; try (right; injection H as <- <-; cbn; eauto 6; fail); left; eapply Z; eauto.
Qed.

(** Calls that leave every section's list of calls alone. *)
Definition no_effect (c : mcall) : Prop :=
  (forall k acc, p_key k -> p_step k acc c = acc) /\ (forall k o acc, g_key k -> g_step k acc (o, c) = acc).
Lemma key_section k c rl : first_byte k = Some c -> (match rl with [] => True | k' :: _ => first_byte k' = None end) -> of_section k rl = None.
Proof. intros H1 H2. destruct rl as [|k' r]; [reflexivity|]. cbn. destruct (String.eqb_spec k' k) as [->|]; [congruence|reflexivity]. Qed.
Lemma rule_noop rl : (match rl with [] => True | k' :: _ => first_byte k' = None end) -> no_effect (CAdd rl) /\ no_effect (CRemove rl).
Proof.
  intros H. split; (split; [intros k acc Hk|intros k o acc Hk]); cbn; rewrite (key_section k _ rl Hk H); reflexivity.
Qed.
Lemma short_noop k r : g_key k -> short (PAdd r) -> no_effect (CAdd (k :: r)) /\ no_effect (CRemove (k :: r)).
Proof.
  intros Hk Hs. split; (split; [intros k' acc Hk'|intros k' o acc Hk']); cbn; destruct (String.eqb_spec k k') as [->|Hn]; auto;
    try (exfalso; eapply pg_key; eauto; fail); destruct r as [|? [|? ?]]; auto; destruct Hs.
Qed.
Lemma setdef_noop s v : no_effect (CSetDef s "" v).
Proof.
  split; [intros k acc Hk|intros k o acc Hk]; (destruct k as [|a k]; [discriminate Hk|]); destruct s; reflexivity.
Qed.

(** A build changes nothing but the matchers. *)
Lemma strip_build E o m expr m' r : w_build_def E o m expr = (m', r) -> strip m' = strip m.
Proof.
  unfold w_build_def, BuildMatcherFromDef. destruct (Build _ _ expr) as [root|e]; [|now intros [= <- _]]. cbv zeta.
  destruct (first_byte (GetPolicyKey root)) as [c|]; [|now intros [= <- _]]. destruct (if Ascii.eqb c "p" then _ else _) as [d|]; [|now intros [= <- _]].
  destruct (GetPolicy m (GetPolicyKey root)) as [i|]; [|now intros [= <- _]]. destruct (nth_error (md_objs m) i) as [ob|] eqn:Eo; [|now intros [= <- _]].
  destruct (NewMatcher _ _ _) as [x|]; cbn [obind]; [|now intros [= <- _]]. intros [= <- _].
  assert (Z : map bare (set_nth (md_objs m) i (mkObj (o_body ob) (o_listeners ob ++ [List.length (md_mats m)]))) = map bare (md_objs m)).
  { rewrite map_set_nth. apply set_nth_id. rewrite nth_error_map, Eo. reflexivity. }
  unfold strip. cbn. rewrite Z. reflexivity.
Qed.
Lemma strip_build_key E o m key m' r : w_build_key E o m key = (m', r) -> strip m' = strip m.
Proof.
  unfold w_build_key. destruct (mget key (md_m m)) as [expr|]; [|now intros [= <- _]]. destruct (w_build_def E o m expr) as [m1 r1] eqn:Eb. pose proof (strip_build _ _ _ _ _ _ Eb) as X.
  destruct r1 as [[j|e]|]; intros [= <- _]; auto.
Qed.
Lemma strip_build_loop E o keys : forall m m' r, w_build_loop E o m keys = (m', r) -> strip m' = strip m.
Proof.
  induction keys as [|k keys IH]; intros m m' r; cbn [w_build_loop]; [now intros [= <- _]|]. destruct (w_build_key E o m k) as [m1 r1] eqn:Eb.
  pose proof (strip_build_key _ _ _ _ _ _ Eb) as X. destruct r1 as [[e|]|]; [intros [= <- _]; auto| |intros [= <- _]; auto]. intros H. rewrite (IH _ _ _ H). exact X.
Qed.
Lemma strip_setdef m s k v : SetDef (strip m) s k v = match SetDef m s k v with Val (m', e) => Val (strip m', e) | Panic => Panic end.
Proof.
  unfold SetDef. destruct (keyPrefix s) as [c|]; [|reflexivity]. destruct (first_byte k) as [c'|]; [|reflexivity]. destruct (Ascii.eqb c' c); [|reflexivity].
  destruct s; try reflexivity; unfold strip, addPolicyDef, addRoleDef, SetRoleManager, new_obj; cbn;
    rewrite ?map_app, ?map_length; try reflexivity; destruct (Nat.eqb _ 2); cbn; rewrite ?map_app, ?map_length; reflexivity.
Qed.
Lemma strip_removedef m s k : RemoveDef (strip m) s k = (strip (fst (RemoveDef m s k)), snd (RemoveDef m s k)).
Proof. destruct s; reflexivity. Qed.

Definition builds (c : mcall) : Prop := match c with CBuild | CBuildKey _ | CAdhoc _ => True | _ => False end.
Lemma builds_noop c : builds c -> no_effect c.
Proof. destruct c; intros []; split; reflexivity. Qed.

Lemma strip_rule E o m ch rl m1 res :
  w_step E o m (call_of ch rl) = Val (m1, res) -> (forall k i, mget k (md_pMap m) = Some i -> exists p ls, nth_error (md_objs m) i = Some (mkObj (OPolicy p) ls)) ->
  (exists x, mstep E o (strip m) (call_of ch rl) = Val (strip m1, x)) \/ (strip m1 = strip m /\ res = None /\ no_effect (call_of ch rl)).
Proof.
  intros H Hp. destruct rl as [|k r].
  - right. destruct ch; cbn in H; injection H as <- <-; (split; [reflexivity|]; split; [reflexivity|]); apply (rule_noop []); exact I.
  - destruct (first_byte k) as [c|] eqn:Ek.
    2:{ right. destruct ch; cbn [call_of w_step w_rule] in H; rewrite Ek in H; injection H as <- <-; (split; [reflexivity|]; split; [reflexivity|]); apply (rule_noop (k :: r)); exact Ek. }
    destruct (Ascii.eqb c "p") eqn:Cp.
    + destruct (mget k (md_pMap m)) as [i|] eqn:Ei.
      * assert (W : exists b, w_act o m i (match ch with Adding => PAdd r | Removing => PRemove r end) = Val (m1, b)).
        { destruct ch; cbn [call_of w_step w_rule] in H; rewrite Ek, Cp, Ei in H; destruct (w_act o m i _) as [[m' b]|] eqn:Ew; cbn in H; try discriminate H; injection H as <- _; eauto. }
        destruct W as [b W]. destruct (strip_act o m i _ m1 b W) as [[b' X]|(_ & _ & _ & rm & ls & Y)].
        -- left. destruct ch; cbn [call_of mstep]; unfold model_AddRule, model_RemoveRule; rewrite Ek, Cp; change (md_pMap (strip m)) with (md_pMap m); rewrite Ei, X; eexists; reflexivity.
        -- destruct (Hp k i Ei) as (p & ls' & Z). rewrite Z in Y. discriminate Y.
      * left. destruct ch; cbn [call_of w_step w_rule mstep] in *; unfold model_AddRule, model_RemoveRule; rewrite Ek, Cp in *; change (md_pMap (strip m)) with (md_pMap m);
          rewrite Ei in *; injection H as <- _; eexists; reflexivity.
    + destruct (Ascii.eqb c "g") eqn:Cg.
      * destruct (mget k (md_rpMap m)) as [i|] eqn:Ei.
        -- assert (W : exists b, w_act o m i (match ch with Adding => PAdd r | Removing => PRemove r end) = Val (m1, b) /\ (b = None -> res = None)).
           { destruct ch; cbn [call_of w_step w_rule] in H; rewrite Ek, Cp, Cg, Ei in H; destruct (w_act o m i _) as [[m' b]|] eqn:Ew; cbn in H; try discriminate H; injection H as <- <-; exists b; (split; [reflexivity|intros ->; reflexivity]). }
           destruct W as (b & W & Hn). destruct (strip_act o m i _ m1 b W) as [[b' X]|(-> & Nb & Sh & _)].
           ++ left. destruct ch; cbn [call_of mstep]; unfold model_AddRule, model_RemoveRule; rewrite Ek, Cp, Cg; change (md_rpMap (strip m)) with (md_rpMap m); rewrite Ei, X; eexists; reflexivity.
           ++ right. split; [reflexivity|]. split; [now apply Hn|]. apply Ascii.eqb_eq in Cg. subst c.
              assert (Sh' : short (PAdd r)) by (destruct ch; exact Sh). destruct (short_noop k r Ek Sh') as [A B]. destruct ch; assumption.
        -- left. destruct ch; cbn [call_of w_step w_rule mstep] in *; unfold model_AddRule, model_RemoveRule; rewrite Ek, Cp, Cg in *; change (md_rpMap (strip m)) with (md_rpMap m);
             rewrite Ei in *; injection H as <- _; eexists; reflexivity.
      * left. destruct ch; cbn [call_of w_step w_rule mstep] in *; unfold model_AddRule, model_RemoveRule; rewrite Ek, Cp, Cg in *; injection H as <- _; eexists; reflexivity.
Qed.
Lemma strip_step E o m c m1 res : (forall k i, mget k (md_pMap m) = Some i -> exists p ls, nth_error (md_objs m) i = Some (mkObj (OPolicy p) ls)) ->
  w_step E o m c = Val (m1, res) ->
  (exists x, mstep E o (strip m) c = Val (strip m1, x)) \/ (strip m1 = strip m /\ no_effect c).
Proof.
  intros Hp H. destruct c as [s k v|s k|rl|rl|k| |k|expr|k x|n f|n].
  - cbn [w_step mstep] in *. rewrite strip_setdef. destruct (SetDef m s k v) as [[m' e]|] eqn:Es; injection H as <- <-; [left; eexists; reflexivity|right; split; [reflexivity|]].
    destruct k as [|c k]; [apply setdef_noop|]. unfold SetDef in Es. destruct (keyPrefix s); cbn in Es; [destruct (Ascii.eqb _ _)|]; discriminate Es.
  - left. cbn [w_step mstep] in *. rewrite strip_removedef. destruct (RemoveDef m s k) as [m' e]. cbn in H. injection H as <- <-. eexists; reflexivity.
  - destruct (strip_rule E o m Adding rl m1 res H Hp) as [X|(A & _ & B)]; auto.
  - destruct (strip_rule E o m Removing rl m1 res H Hp) as [X|(A & _ & B)]; auto.
  - cbn [w_step mstep] in *. unfold w_clear, ClearPolicy in *. change (GetPolicy (strip m) k) with (GetPolicy m k). destruct (GetPolicy m k) as [i|]; [|left; injection H as <- <-; eexists; reflexivity].
    destruct (w_act o m i PClear) as [[m' b]|] eqn:Ew; cbn in H; [|discriminate H]. injection H as <- <-.
    destruct (strip_act o m i _ m' b Ew) as [[b' X]|(_ & _ & [] & _)]. left. rewrite X. eexists; reflexivity.
  - right. cbn [w_step] in H. destruct (w_build_loop E o m _) as [m' r] eqn:Eb. injection H as <- <-. split; [eapply strip_build_loop; exact Eb|now apply builds_noop].
  - right. cbn [w_step] in H. destruct (w_build_key E o m k) as [m' r] eqn:Eb. injection H as <- <-. split; [eapply strip_build_key; exact Eb|now apply builds_noop].
  - right. cbn [w_step] in H. destruct (w_build_def E o m expr) as [m' r] eqn:Eb. injection H as <- <-. split; [eapply strip_build; exact Eb|now apply builds_noop].
  - left. cbn [w_step mstep obind] in *. injection H as <- <-. eexists. unfold strip, SetRoleManager, new_obj. cbn. rewrite map_app, map_length. reflexivity.
  - left. cbn [w_step mstep obind] in *. injection H as <- <-. eexists. reflexivity.
  - left. cbn [w_step mstep] in *. unfold RemoveFunction in *. change (md_fm (strip m)) with (md_fm m). destruct (mhas n (md_fm m)); cbn in H; injection H as <- <-; eexists; reflexivity.
Qed.

(** The history without the calls that have no effect. *)
Lemma strip_core m g : Core (strip m) g -> forall k i, mget k (md_pMap m) = Some i -> exists p ls, nth_error (md_objs m) i = Some (mkObj (OPolicy p) ls).
Proof.
  intros C k i Hk. destruct (v_p _ _ C k i Hk) as [_ (p & ls & H)]. unfold strip in H. cbn in H. rewrite nth_error_map in H. destruct (nth_error (md_objs m) i) as [[b l]|]; [|discriminate H].
  cbn in H. injection H as -> _. eauto.
Qed.
Lemma sim_exec E h : forall m g h0 m1 rs, good_m h -> Core (strip m) g -> Hist h0 (strip m) g -> w_exec E m h = Val (m1, rs) ->
  exists h' rs', mexec E (strip m) h' = Val (strip m1, rs') /\ (forall P : orders * mcall -> Prop, Forall P h -> Forall P h') /\
    (forall k acc, p_key k -> fold_left (p_step k) (map snd h') acc = fold_left (p_step k) (map snd h) acc) /\
    (forall k acc, g_key k -> fold_left (g_step k) h' acc = fold_left (g_step k) h acc).
Proof.
  induction h as [|[o c] h IH]; intros m g h0 m1 rs Go C Hi H; cbn [w_exec] in H.
  - injection H as <- <-. exists [], []. cbn. auto.
  - inversion Go as [|? ? Ho Gh]; subst. cbn in Ho. destruct (w_step E o m c) as [[m2 r]|] eqn:Es; cbn in H; [|discriminate H].
    destruct (w_exec E m2 h) as [[m3 rs']|] eqn:Ee; cbn in H; [|discriminate H]. injection H as <- <-.
    destruct (strip_step E o m c m2 r (strip_core m g C) Es) as [[x X]|[X [Np Ng]]].
    + destruct (step_ok E o c h0 (strip m) g (strip m2) x Ho C Hi X) as (g2 & C2 & Hi2 & _).
      destruct (IH m2 g2 _ m3 rs' Gh C2 Hi2 Ee) as (h' & xs & A & B & P & G). exists ((o, c) :: h'), (x :: xs).
      split; [cbn [mexec]; rewrite X; cbn [obind]; rewrite A; reflexivity|]. split; [intros Q HQ; inversion HQ; subst; constructor; auto|].
      split; intros k acc Hk; cbn [map snd fold_left]; auto.
    + rewrite <- X in C, Hi. destruct (IH m2 g h0 m3 rs' Gh C Hi Ee) as (h' & xs & A & B & P & G). exists h', xs. rewrite <- X. split; [exact A|].
      split; [intros Q HQ; inversion HQ; subst; auto|]. split; intros k acc Hk; cbn [map snd fold_left]; [rewrite Np by exact Hk|rewrite Ng by exact Hk]; auto.
Qed.
