(** Lemmas about one more AddRule or RemoveRule. *)
From Verif Require Import GoBase GoBaseP DefsM PolicyM PolicySpec PolicyP MatcherDefM MatcherM MatcherSpec
  RbacM RbacSpec RbacP RbacP2 RbacP3 RbacP4 Prop_Rbac DomainM DomainSpec DomainP DomainP2 DomainP5 Prop_Policy Prop_Domain
  Prop_DomainLinks ModelM ModelSpec ModelP ModelP2 ModelP3 ModelP4.
Local Notation pstep := PolicyM.pstep.

Lemma first_cases k : p_key k \/ g_key k \/ (~ p_key k /\ ~ g_key k).
Proof.
  unfold p_key, g_key. destruct (first_byte k) as [c|]; [|right; right; split; discriminate].
  destruct (ascii_dec c "p") as [->|]; [auto|]. destruct (ascii_dec c "g") as [->|]; [auto|].
  right; right. split; congruence.
Qed.
Lemma in_section_p h k r : p_key k -> in_section h (k :: r) = option_map (fun ops => set_of ops r) (p_history k h).
Proof. unfold p_key. intros H. cbn. now rewrite H. Qed.
Lemma in_section_g h k r : g_key k -> in_section h (k :: r) =
  match g_history k h, r with
  | Some s, a :: b :: ds => Some (linked s a b (kept (fst s) ds))
  | Some s, _ => Some false
  | None, _ => None
  end.
Proof. unfold g_key. intros H. cbn [in_section]. now rewrite H. Qed.
Lemma in_section_other h k r : ~ p_key k -> ~ g_key k -> in_section h (k :: r) = None.
Proof.
  unfold p_key, g_key. intros H1 H2. cbn [in_section].
  destruct (first_byte k) as [[[] [] [] [] [] [] [] []]|]; try reflexivity; exfalso; auto.
Qed.
Lemma section_error_eq k : section_error k = if match first_byte k with Some c => Ascii.eqb c "g" | None => false end then ErrRMNotFound else ErrPolicyNotFound.
Proof. unfold section_error. destruct (first_byte k) as [[[] [] [] [] [] [] [] []]|]; reflexivity. Qed.

Lemma keyed_add o m k r : p_key k ->
  model_AddRule o m (k :: r) =
  match mget k (md_pMap m) with
  | None => Val (m, false, Some ErrPolicyNotFound, [])
  | Some i => let! (m, b) := act o m i (PAdd r) in Val (m, b, None, if b : bool then [MAdded (k :: r)] else [])
  end.
Proof. unfold p_key. intros H. cbn [model_AddRule]. now rewrite H. Qed.
Lemma keyed_add_g o m k r : g_key k ->
  model_AddRule o m (k :: r) =
  match mget k (md_rpMap m) with
  | None => Val (m, false, Some ErrRMNotFound, [])
  | Some i => let! (m, b) := act o m i (PAdd r) in Val (m, b, None, if b : bool then [MAdded (k :: r)] else [])
  end.
Proof. unfold g_key. intros H. cbn [model_AddRule]. now rewrite H. Qed.
Lemma keyed_remove o m k r : p_key k ->
  model_RemoveRule o m (k :: r) =
  match mget k (md_pMap m) with
  | None => Val (m, false, Some ErrPolicyNotFound, [])
  | Some i => let! (m, b) := act o m i (PRemove r) in Val (m, b, None, if b : bool then [MRemoved (k :: r)] else [])
  end.
Proof. unfold p_key. intros H. cbn [model_RemoveRule]. now rewrite H. Qed.
Lemma keyed_remove_g o m k r : g_key k ->
  model_RemoveRule o m (k :: r) =
  match mget k (md_rpMap m) with
  | None => Val (m, false, Some ErrRMNotFound, [])
  | Some i => let! (m, b) := act o m i (PRemove r) in Val (m, b, None, if b : bool then [MRemoved (k :: r)] else [])
  end.
Proof. unfold g_key. intros H. cbn [model_RemoveRule]. now rewrite H. Qed.

Lemma unknown_section E h o m rs k r : good_m h -> mexec E (NewModel E) h = Val (m, rs) ->
  k <> ""%string -> in_section h (k :: r) = None ->
  model_AddRule o m (k :: r) = Val (m, false, Some (section_error k), []) /\
  model_RemoveRule o m (k :: r) = Val (m, false, Some (section_error k), []).
Proof.
  intros Go H Hk Hs. destruct (reachable_ok E h m rs Go H) as [g [V W]].
  destruct (first_cases k) as [Hp|[Hg|[Hp Hg]]].
  - rewrite keyed_add, keyed_remove by exact Hp. rewrite section_error_eq, Hp. cbn [Ascii.eqb].
    rewrite (in_section_p h k r Hp) in Hs. pose proof (v_phist h m g W k Hp) as Hh.
    destruct (p_history k h); [discriminate|]. destruct (mget k (md_pMap m)); [discriminate|]. split; reflexivity.
  - rewrite keyed_add_g, keyed_remove_g by exact Hg. rewrite section_error_eq, Hg.
    rewrite (in_section_g h k r Hg) in Hs. pose proof (v_ghist h m g W k Hg) as Hh.
    destruct (mget k (md_rpMap m)) as [i|].
    + destruct Hh as [rm [ls [_ Hh]]]. rewrite Hh in Hs. destruct r as [|? [|? ?]]; discriminate.
    + split; reflexivity.
  - cbn [model_AddRule model_RemoveRule]. rewrite section_error_eq. unfold p_key, g_key in *.
    destruct k as [|c k]; [congruence|]. cbn [first_byte] in *.
    destruct (Ascii.eqb_spec c "p") as [->|]; [congruence|]. destruct (Ascii.eqb_spec c "g") as [->|]; [congruence|]. split; reflexivity.
Qed.

Lemma rule_result E h o m rs rl b : good_m h -> good_orders o -> tame h -> tame_rule rl ->
  mexec E (NewModel E) h = Val (m, rs) -> in_section h rl = Some b ->
  (forall m' x e es, model_AddRule o m rl = Val (m', x, e, es) ->
     x = negb b /\ e = None /\ es = if b then [] else [MAdded rl]) /\
  (forall m' x e es, model_RemoveRule o m rl = Val (m', x, e, es) ->
     x = b /\ e = None /\ es = if b then [MRemoved rl] else []).
Proof.
  intros Go Ho T Tr H Hs. destruct (reachable_ok E h m rs Go H) as [g [V W]].
  destruct rl as [|k r]; [discriminate|]. destruct Tr as [Tp Tg].
  destruct (first_cases k) as [Hp|[Hg|[Hp Hg]]].
  - rewrite keyed_add, keyed_remove by exact Hp. rewrite (in_section_p h k r Hp) in Hs.
    pose proof (v_phist h m g W k Hp) as Hh. destruct (mget k (md_pMap m)) as [i|] eqn:Ei.
    2:{ cbn in Hh. rewrite <- Hh in Hs. discriminate. }
    destruct (p_rules_ok h o m g k i Ho T V W Hp Ei) as [ops [p [ls [Eh [Eo [Ep [Hok _]]]]]]].
    rewrite Eh in Hs. injection Hs as <-. destruct (C01_policy_set ops r Hok (Tp Hp)) as [A [B _]]. rewrite Ep in A, B.
    split; intros m' x e es Ha; apply obind_val in Ha as [[m1 b1] [Ea Ha]]; injection Ha as <- <- <- <-;
      pose proof (act_p_result o m i _ m1 b1 p ls Eo Ea) as ->; cbn [PolicyM.pstep].
    + rewrite A. destruct (set_of ops r); auto.
    + rewrite B. destruct (set_of ops r); auto.
  - rewrite keyed_add_g, keyed_remove_g by exact Hg. rewrite (in_section_g h k r Hg) in Hs.
    pose proof (v_ghist h m g W k Hg) as Hh. destruct (mget k (md_rpMap m)) as [i|] eqn:Ei.
    2:{ rewrite Hh in Hs. discriminate. }
    destruct (g_rules_ok h o m g k i Go Ho T V W Hg Ei) as [s [rm [ls [x0 [xs [Eh [Eo [Ex [Ed [A [B [C _]]]]]]]]]]]].
    rewrite Eh in Hs. specialize (Tg Hg).
    split; intros m' x e es Ha; apply obind_val in Ha as [[m1 b1] [Ea Ha]]; injection Ha as <- <- <- <-;
      destruct (act_r_result o m i _ m1 b1 rm ls x0 Eo Ex Ea) as [x' [es' Er]]; cbn [act_role] in Er;
      destruct r as [|n1 [|n2 ds]]; try discriminate; injection Hs as <-;
      destruct (role_result s (o_names o) x0 xs n1 n2 ds A B C (proj1 Ho) Tg Ed) as [[y1 R1] [y2 R2]].
    + rewrite R1 in Er. cbn [obind] in Er. injection Er as _ <- _. destruct (linked s n1 n2 _); auto.
    + rewrite R2 in Er. cbn [obind] in Er. injection Er as _ <- _. destruct (linked s n1 n2 _); auto.
  - rewrite in_section_other in Hs by assumption. discriminate.
Qed.

(** ** What one more call does to the rules that should be present *)
Lemma p_present h k r : p_key k -> present h (k :: r) <-> in_section h (k :: r) = Some true.
Proof.
  intros Hk. rewrite in_section_p by exact Hk. cbn [present]. split.
  - intros [[_ [ops [E H]]]|[Hg _]]; [|destruct (pg_key k Hk Hg)]. rewrite E. cbn. now rewrite H.
  - intros H. left. split; [exact Hk|]. destruct (p_history k h) as [ops|]; [|discriminate]. exists ops. injection H as H. auto.
Qed.
Lemma g_present h k r : g_key k -> present h (k :: r) <->
  exists s a b ds, g_history k h = Some s /\ r = a :: b :: ds /\ linked s a b ds = true.
Proof.
  intros Hk. cbn [present]. split; [|auto]. intros [[Hp _]|[_ H]]; [destruct (pg_key k Hp Hk)|exact H].
Qed.
Lemma other_present h k r : ~ p_key k -> ~ g_key k -> ~ present h (k :: r).
Proof. cbn [present]. tauto. Qed.

Lemma links_of_snoc h o c a b : links_of (h ++ [(o, c)]) a b = links_step (links_of h) c a b.
Proof. unfold links_of. now rewrite map_app, fold_left_app. Qed.
Lemma calls_in_snoc_eq ds h o c : calls_in ds (h ++ [(o, c)]) =
  if concerns ds c then calls_in ds h ++ [(o, without_domains c)] else calls_in ds h.
Proof. unfold calls_in. rewrite filter_app, map_app. cbn. destruct (concerns ds c); [reflexivity|apply app_nil_r]. Qed.

Lemma path_eqb_eq p q : path_eqb p q = true <-> p = q.
Proof. unfold path_eqb. destruct (list_eq_dec string_dec p q); split; congruence. Qed.

Lemma link_add_iff a b L a' b' : link_add a b L a' b' = true <-> L a' b' = true \/ (a' = a /\ b' = b).
Proof. unfold link_add. destruct (String.eqb_spec a' a), (String.eqb_spec b' b); cbn; intuition congruence. Qed.
Lemma link_del_iff a b L a' b' : link_del a b L a' b' = true <-> L a' b' = true /\ ~ (a' = a /\ b' = b).
Proof. unfold link_del. destruct (String.eqb_spec a' a), (String.eqb_spec b' b); cbn; intuition congruence. Qed.

Lemma linked_add x calls o a b ds a' b' ds' :
  linked (x, calls ++ [(o, DAdd a b ds)]) a' b' ds' = true <->
  linked (x, calls) a' b' ds' = true \/ (a' = a /\ b' = b /\ ds' = kept x ds).
Proof.
  unfold linked, kept; cbn [fst snd]. destruct x.
  - destruct ds' as [|d ds']; [|split; [discriminate|intros [H|[_ [_ H]]]; discriminate]].
    unfold direct_calls. rewrite map_app. cbn [map fst snd direct]. fold (direct_calls calls). rewrite links_of_snoc. cbn [links_step].
    rewrite link_add_iff. tauto.
  - rewrite calls_in_snoc_eq. unfold concerns. cbn [call_domains without_domains].
    destruct (path_eqb ds ds') eqn:E.
    + apply path_eqb_eq in E as <-. rewrite links_of_snoc. cbn [links_step]. rewrite link_add_iff. tauto.
    + split; [auto|]. intros [H|[_ [_ ->]]]; [exact H|]. unfold path_eqb in E. destruct (list_eq_dec string_dec ds ds); congruence.
Qed.
Lemma linked_del x calls o a b ds a' b' ds' :
  linked (x, calls ++ [(o, DDel a b ds)]) a' b' ds' = true <->
  linked (x, calls) a' b' ds' = true /\ ~ (a' = a /\ b' = b /\ ds' = kept x ds).
Proof.
  unfold linked, kept; cbn [fst snd]. destruct x.
  - destruct ds' as [|d ds']; [|split; [discriminate|intros [H _]; discriminate]].
    unfold direct_calls. rewrite map_app. cbn [map fst snd direct]. fold (direct_calls calls). rewrite links_of_snoc. cbn [links_step].
    rewrite link_del_iff. tauto.
  - rewrite calls_in_snoc_eq. unfold concerns. cbn [call_domains without_domains].
    destruct (path_eqb ds ds') eqn:E.
    + apply path_eqb_eq in E as <-. rewrite links_of_snoc. cbn [links_step]. rewrite link_del_iff. tauto.
    + split; [|tauto]. intros H. split; [exact H|]. intros [_ [_ ->]]. unfold path_eqb in E.
      destruct (list_eq_dec string_dec ds ds); congruence.
Qed.

Lemma set_of_snoc ops a : set_of (ops ++ [a]) = set_step (set_of ops) a.
Proof. unfold set_of. now rewrite fold_left_app. Qed.
Lemma of_section_eq k rl r : of_section k rl = Some r <-> rl = k :: r.
Proof.
  destruct rl as [|k' r']; cbn; [split; discriminate|]. destruct (String.eqb_spec k' k) as [->|N]; split; intros H; try discriminate.
  - now injection H as ->.
  - now injection H as ->.
  - injection H as -> _. now contradiction N.
Qed.
Lemma as_listed_p h k r : p_key k -> as_listed h (k :: r) = k :: r.
Proof. unfold p_key. intros H. cbn. now rewrite H. Qed.
Lemma as_listed_g h k a b ds x calls : g_key k -> g_history k h = Some (x, calls) -> as_listed h (k :: a :: b :: ds) = k :: a :: b :: kept x ds.
Proof. unfold g_key. intros H E. cbn [as_listed]. rewrite H, E. destruct x; reflexivity. Qed.

(** A grouping rule has two names at least (otherwise the call panics). *)
Definition long_enough (rl : rule) : Prop :=
  match rl with k :: r => g_key k -> 2 <= List.length r | [] => True end.

Lemma present_add h o rl rl' : long_enough rl ->
  present (h ++ [(o, CAdd rl)]) rl' <-> present h rl' \/ (in_section h rl <> None /\ rl' = as_listed h rl).
Proof.
  intros Hl. destruct rl' as [|k r]; [split; [intros []|]; intros [[]|[H E]]|].
  { destruct rl as [|k1 r1]; [now apply H|]. cbn in E. destruct (first_byte k1) as [[[] [] [] [] [] [] [] []]|]; try discriminate;
    destruct (g_history k1 h) as [[[] ?]|]; discriminate. }
  destruct (first_cases k) as [Hp|[Hg|[Hp Hg]]].
  - rewrite !p_present, !in_section_p by exact Hp. rewrite p_history_snoc. cbn [p_step].
    destruct (of_section k rl) as [r1|] eqn:Eo.
    + apply of_section_eq in Eo as ->. rewrite in_section_p, as_listed_p by exact Hp.
      destruct (p_history k h) as [ops|]; cbn [option_map]; [|split; [discriminate|intros [H|[H _]]; congruence]].
      rewrite set_of_snoc. cbn [set_step]. unfold set_add. destruct (rule_eqb_spec r r1) as [->|N]; cbn [orb].
      * split; [intros _; right; split; [discriminate|reflexivity]|reflexivity].
      * split; [auto|]. intros [H|[_ H]]; [exact H|]. congruence.
    + split; [auto|]. intros [H|[H Ek]]; [exact H|]. exfalso.
      destruct rl as [|k1 r1]; [now apply H|]. cbn [of_section] in Eo. destruct (String.eqb_spec k1 k) as [|N]; [discriminate|].
      apply N. clear - Ek. cbn in Ek. destruct (first_byte k1) as [[[] [] [] [] [] [] [] []]|]; try congruence;
        destruct (g_history k1 h) as [[[] ?]|]; congruence.
  - rewrite !g_present by exact Hg. rewrite g_history_snoc. cbn [g_step].
    destruct (of_section k rl) as [r1|] eqn:Eo.
    + apply of_section_eq in Eo as ->. cbn [long_enough] in Hl. specialize (Hl Hg).
      destruct r1 as [|a [|b ds]]; cbn in Hl; try lia. rewrite (in_section_g h k _ Hg).
      destruct (g_history k h) as [[x calls]|] eqn:Eh; cbn [option_map fst snd].
      2:{ split; [intros [s [? [? [? [H _]]]]]; discriminate|]. intros [[s [? [? [? [H _]]]]]|[H _]]; congruence. }
      rewrite (as_listed_g h k a b ds x calls Hg Eh). split.
      * intros [s [a' [b' [ds' [E1 [-> H]]]]]]. injection E1 as <-. apply linked_add in H as [H|[-> [-> ->]]].
        -- left. exists (x, calls), a', b', ds'. auto.
        -- right. split; [discriminate|reflexivity].
      * intros [[s [a' [b' [ds' [E1 [-> H]]]]]]|[_ E1]].
        -- injection E1 as <-. exists (x, calls ++ [(o_names o, DAdd a b ds)]), a', b', ds'. split; [reflexivity|]. split; [reflexivity|].
           apply linked_add. auto.
        -- injection E1 as ->. exists (x, calls ++ [(o_names o, DAdd a b ds)]), a, b, (kept x ds). split; [reflexivity|]. split; [reflexivity|].
           apply linked_add. auto.
    + split; [auto|]. intros [H|[H Ek]]; [exact H|]. exfalso.
      destruct rl as [|k1 r1]; [now apply H|]. cbn [of_section] in Eo. destruct (String.eqb_spec k1 k) as [|N]; [discriminate|].
      apply N. clear - Ek. cbn in Ek. destruct (first_byte k1) as [[[] [] [] [] [] [] [] []]|]; try congruence;
        destruct (g_history k1 h) as [[[] ?]|]; congruence.
  - split; [intros H; now apply other_present in H|]. intros [H|[H Ek]]; [now apply other_present in H|].
    exfalso. destruct rl as [|k1 r1]; [now apply H|].
    assert (k1 = k) as ->. { clear - Ek. cbn in Ek. destruct (first_byte k1) as [[[] [] [] [] [] [] [] []]|]; try congruence;
        destruct (g_history k1 h) as [[[] ?]|]; congruence. }
    apply H. now apply in_section_other.
Qed.

Lemma as_listed_key h k r : exists r', as_listed h (k :: r) = k :: r'.
Proof.
  cbn. destruct (first_byte k) as [[[] [] [] [] [] [] [] []]|]; eauto; destruct (g_history k h) as [[[] ?]|]; eauto.
Qed.

Lemma present_remove h o rl rl' : long_enough rl ->
  present (h ++ [(o, CRemove rl)]) rl' <-> present h rl' /\ rl' <> as_listed h rl.
Proof.
  intros Hl. destruct rl' as [|k r]; [split; [intros []|]; intros [[] _]|].
  assert (Other : of_section k rl = None -> k :: r <> as_listed h rl).
  { intros Eo E. destruct rl as [|k1 r1]; [discriminate|]. destruct (as_listed_key h k1 r1) as [r' Er]. rewrite Er in E.
    injection E as -> ->. cbn in Eo. rewrite String.eqb_refl in Eo. discriminate. }
  destruct (first_cases k) as [Hp|[Hg|[Hp Hg]]].
  - rewrite !p_present, !in_section_p by exact Hp. rewrite p_history_snoc. cbn [p_step].
    destruct (of_section k rl) as [r1|] eqn:Eo.
    + apply of_section_eq in Eo as ->. rewrite as_listed_p by exact Hp.
      destruct (p_history k h) as [ops|]; cbn [option_map]; [|split; [discriminate|intros [H _]; congruence]].
      rewrite set_of_snoc. cbn [set_step]. unfold set_remove. destruct (rule_eqb_spec r r1) as [->|N]; cbn [negb andb].
      * split; [discriminate|]. intros [_ H]. congruence.
      * split; [intros H; split; [exact H|congruence]|tauto].
    + split; [intros H; split; [exact H|now apply Other]|tauto].
  - rewrite !g_present by exact Hg. rewrite g_history_snoc. cbn [g_step].
    destruct (of_section k rl) as [r1|] eqn:Eo.
    + apply of_section_eq in Eo as ->. cbn [long_enough] in Hl. specialize (Hl Hg).
      destruct r1 as [|a [|b ds]]; cbn in Hl; try lia.
      destruct (g_history k h) as [[x calls]|] eqn:Eh; cbn [option_map fst snd].
      2:{ split; [intros [s [? [? [? [H _]]]]]; discriminate|]. intros [[s [? [? [? [H _]]]]] _]; congruence. }
      rewrite (as_listed_g h k a b ds x calls Hg Eh). split.
      * intros [s [a' [b' [ds' [E1 [-> H]]]]]]. injection E1 as <-. apply linked_del in H as [H N]. split.
        -- exists (x, calls), a', b', ds'. auto.
        -- intros E. injection E as -> -> ->. apply N. auto.
      * intros [[s [a' [b' [ds' [E1 [-> H]]]]]] N].
        injection E1 as <-. exists (x, calls ++ [(o_names o, DDel a b ds)]), a', b', ds'. split; [reflexivity|]. split; [reflexivity|].
        apply linked_del. split; [exact H|]. intros [-> [-> ->]]. now apply N.
    + split; [intros H; split; [exact H|now apply Other]|tauto].
  - split; [intros H; now apply other_present in H|]. intros [H _]. now apply other_present in H.
Qed.

Lemma val_long o m rl m' x e es : in_section [] rl = None \/ True ->
  (model_AddRule o m rl = Val (m', x, e, es) \/ model_RemoveRule o m rl = Val (m', x, e, es)) ->
  forall k r, rl = k :: r -> g_key k -> mget k (md_rpMap m) <> None ->
  (forall i, mget k (md_rpMap m) = Some i -> exists rm ls, nth_error (md_objs m) i = Some (mkObj (ORole rm) ls)) -> 2 <= List.length r.
Proof.
  intros _ H k r -> Hg Hd Hb. rewrite keyed_add_g, keyed_remove_g in H by exact Hg.
  destruct (mget k (md_rpMap m)) as [i|]; [|congruence]. destruct (Hb i eq_refl) as [rm [ls Eo]].
  destruct r as [|a [|b ds]]; [| |cbn; lia]; exfalso; unfold act in H; rewrite Eo in H; cbn [o_body] in H;
    destruct (nth_error (md_rms m) rm); destruct H as [H|H]; discriminate.
Qed.

Lemma mexec_snoc E m0 h o c m rs m' x : mexec E m0 h = Val (m, rs) -> mstep E o m c = Val (m', x) ->
  mexec E m0 (h ++ [(o, c)]) = Val (m', rs ++ [x]).
Proof.
  revert m0 rs. induction h as [|[o1 c1] h IH]; intros m0 rs H Hs; cbn [app mexec] in *.
  - injection H as <- <-. rewrite Hs. reflexivity.
  - apply obind_val in H as [[m1 r1] [E1 H]]. apply obind_val in H as [[m2 rs2] [E2 H]]. injection H as <- <-.
    rewrite E1. cbn [obind]. rewrite (IH _ _ E2 Hs). reflexivity.
Qed.
Lemma mexec_snoc_inv E m0 h o c m' rs : mexec E m0 (h ++ [(o, c)]) = Val (m', rs) ->
  exists m rs' x, mexec E m0 h = Val (m, rs') /\ mstep E o m c = Val (m', x) /\ rs = rs' ++ [x].
Proof.
  revert m0 rs. induction h as [|[o1 c1] h IH]; intros m0 rs H; cbn [app mexec] in *.
  - apply obind_val in H as [[m1 r1] [E1 H]]. cbn in H. injection H as <- <-. exists m0, [], r1. auto.
  - apply obind_val in H as [[m1 r1] [E1 H]]. apply obind_val in H as [[m2 rs2] [E2 H]]. injection H as <- <-.
    destruct (IH _ _ E2) as [m [rs' [x [A [B ->]]]]]. exists m, (r1 :: rs'), x. rewrite E1. cbn [obind]. rewrite A. auto.
Qed.

Lemma good_m_snoc h o c : good_m h -> good_orders o -> good_m (h ++ [(o, c)]).
Proof. intros H Ho. apply Forall_app. split; [exact H|]. repeat constructor; apply Ho. Qed.
Lemma tame_snoc h o c : tame h -> tame_call c -> tame (h ++ [(o, c)]).
Proof. intros H Ho. apply Forall_app. split; [exact H|]. constructor; [exact Ho|constructor]. Qed.

Lemma step_long E h o m rs c rl m' x : good_m h -> mexec E (NewModel E) h = Val (m, rs) ->
  c = CAdd rl \/ c = CRemove rl -> in_section h rl <> None -> mstep E o m c = Val (m', x) -> long_enough rl.
Proof.
  intros Go H Hc Hs Hm. destruct rl as [|k r]; [exact I|]. intros Hg. destruct (reachable_ok E h m rs Go H) as [g [V W]].
  pose proof (v_ghist h m g W k Hg) as Hh. rewrite (in_section_g h k r Hg) in Hs.
  destruct (mget k (md_rpMap m)) as [i|] eqn:Ei; [|rewrite Hh in Hs; congruence].
  assert (Hv : exists b e es, model_AddRule o m (k :: r) = Val (m', b, e, es) \/ model_RemoveRule o m (k :: r) = Val (m', b, e, es)).
  { destruct Hc as [-> | ->]; cbn [mstep] in Hm; apply obind_val in Hm as [[[[m1 b] e] es] [E1 E2]]; injection E2 as <- <-; eauto. }
  destruct Hv as [b [e [es Hv]]].
  eapply (val_long o m (k :: r) m' b e es (or_intror I) Hv k r eq_refl Hg); [congruence|].
  intros j Hj. exact (v_r m g V k j Hj).
Qed.

Lemma in_section_listed h rl b : long_enough rl -> in_section h rl = Some b -> present h (as_listed h rl) <-> b = true.
Proof.
  intros Hl H. destruct rl as [|k r]; [discriminate|]. destruct (first_cases k) as [Hp|[Hg|[Hp Hg]]].
  - rewrite as_listed_p, p_present, H by exact Hp. split; congruence.
  - specialize (Hl Hg). rewrite (in_section_g h k r Hg) in H. destruct (g_history k h) as [[x calls]|] eqn:Eh; [|discriminate].
    destruct r as [|a [|b' ds]]; cbn in Hl; try lia. injection H as <-. cbn [fst].
    rewrite (as_listed_g h k a b' ds x calls Hg Eh), g_present by exact Hg. split.
    + intros [s [a1 [b1 [ds1 [E1 [E2 Hk]]]]]]. rewrite Eh in E1. injection E1 as <-. injection E2 as <- <- <-. exact Hk.
    + intros Hk. exists (x, calls), a, b', (kept x ds). auto.
  - rewrite in_section_other in H by assumption. discriminate.
Qed.

(** ** Replaying the events of a model *)
Lemma present_same h h' : (forall k, p_key k -> p_history k h' = p_history k h) -> (forall k, g_key k -> g_history k h' = g_history k h) ->
  forall rl, present h' rl <-> present h rl.
Proof.
  intros Hp Hg [|k r]; [reflexivity|]. cbn [present]. split.
  - intros [[K H]|[K H]]; [rewrite (Hp k K) in H|rewrite (Hg k K) in H]; tauto.
  - intros [[K H]|[K H]]; [rewrite <- (Hp k K) in H|rewrite <- (Hg k K) in H]; tauto.
Qed.

Lemma unknown_history h o c rl : c = CAdd rl \/ c = CRemove rl -> in_section h rl = None ->
  (forall k, p_key k -> p_history k (h ++ [(o, c)]) = p_history k h) /\
  (forall k, g_key k -> g_history k (h ++ [(o, c)]) = g_history k h).
Proof.
  intros Hc Hn. split; intros k Hk.
  - rewrite p_history_snoc. destruct Hc as [-> | ->]; cbn [p_step]; (destruct (of_section k rl) as [r|] eqn:Eo; [|reflexivity]);
      apply of_section_eq in Eo as ->; rewrite in_section_p in Hn by exact Hk; destruct (p_history k h); [discriminate|reflexivity|discriminate|reflexivity].
  - rewrite g_history_snoc. destruct Hc as [-> | ->]; cbn [g_step]; (destruct (of_section k rl) as [r|] eqn:Eo; [|reflexivity]);
      apply of_section_eq in Eo as ->; rewrite in_section_g in Hn by exact Hk;
      (destruct (g_history k h) as [s|]; [destruct r as [|? [|? ?]]; discriminate|]); destruct r as [|? [|? ?]]; reflexivity.
Qed.
Lemma quiet_history h o c : rule_call c -> (forall rl, c <> CAdd rl /\ c <> CRemove rl) ->
  (forall k, p_key k -> p_history k (h ++ [(o, c)]) = p_history k h) /\
  (forall k, g_key k -> g_history k (h ++ [(o, c)]) = g_history k h).
Proof.
  intros Hc Hn. split; intros k Hk; [rewrite p_history_snoc|rewrite g_history_snoc];
  (destruct c as [s| s | r | r | | | | | | |]; cbn in *; try destruct s; try contradiction; try reflexivity; exfalso; destruct (Hn r); congruence).
Qed.
Lemma quiet_events E o m c m' x : rule_call c -> (forall rl, c <> CAdd rl /\ c <> CRemove rl) -> mstep E o m c = Val (m', x) -> x_events x = [].
Proof.
  intros Hc Hn H. destruct c; cbn [mstep] in H; try (exfalso; destruct (Hn r); congruence).
  all: try (apply obind_val in H as [[? ?] [_ H]]); try (injection H as _ <-; reflexivity).
  destruct s; cbn in H; injection H as _ <-; reflexivity.
Qed.

(** The kind of a grouping section does not change. *)
Lemma as_listed_same h h' rl : (forall k, g_key k -> option_map fst (g_history k h') = option_map fst (g_history k h)) ->
  as_listed h' rl = as_listed h rl.
Proof.
  intros H. destruct rl as [|k r]; [reflexivity|]. destruct (first_cases k) as [Hp|[Hg|[Hp Hg]]].
  - now rewrite !as_listed_p.
  - specialize (H k Hg). cbn [as_listed]. rewrite Hg. destruct (g_history k h') as [[x c]|], (g_history k h) as [[y d]|]; cbn in H; try discriminate; [|reflexivity].
    injection H as ->. destruct y; reflexivity.
  - unfold p_key, g_key in *. cbn. destruct (first_byte k) as [[[] [] [] [] [] [] [] []]|]; try reflexivity; congruence.
Qed.
Lemma kinds_step h o c : rule_call c -> forall k, g_key k -> option_map fst (g_history k (h ++ [(o, c)])) = option_map fst (g_history k h).
Proof.
  intros Hc k Hk. rewrite g_history_snoc. destruct c; cbn [g_step rule_call] in *; try destruct s; try contradiction; try reflexivity;
  (destruct (of_section k r) as [[|a [|b ds]]|]; try reflexivity; destruct (g_history k h) as [[x cs]|]; reflexivity).
Qed.
Lemma kinds_exec hs hr : Forall (fun c => rule_call (snd c)) hr ->
  forall k, g_key k -> option_map fst (g_history k (hs ++ hr)) = option_map fst (g_history k hs).
Proof.
  induction hr as [|[o c] hr IH] using rev_ind; intros F k Hk; [now rewrite app_nil_r|].
  apply Forall_app in F as [F Fc]. inversion Fc as [|? ? Hc _]; subst. rewrite app_assoc, kinds_step; auto.
Qed.

Lemma mexec_app E m0 h1 h2 m rs : mexec E m0 (h1 ++ h2) = Val (m, rs) <->
  exists m1 rs1 rs2, mexec E m0 h1 = Val (m1, rs1) /\ mexec E m1 h2 = Val (m, rs2) /\ rs = rs1 ++ rs2.
Proof.
  revert m0 rs. induction h1 as [|[o c] h1 IH]; intros m0 rs; cbn [app mexec].
  - split; [intros H; exists m0, [], rs; auto|]. intros [m1 [rs1 [rs2 [H1 [H2 ->]]]]]. injection H1 as <- <-. exact H2.
  - split.
    + intros H. apply obind_val in H as [[m1 r1] [E1 H]]. apply obind_val in H as [[m2 rs2] [E2 H]]. injection H as <- <-.
      apply IH in E2 as [m3 [rs3 [rs4 [A [B ->]]]]]. exists m3, (r1 :: rs3), rs4. rewrite E1. cbn [obind]. rewrite A. auto.
    + intros [m1 [rs1 [rs2 [H1 [H2 ->]]]]]. apply obind_val in H1 as [[m2 r2] [E1 H1]]. apply obind_val in H1 as [[m3 rs3] [E2 H1]].
      injection H1 as <- <-. rewrite E1. cbn [obind]. rewrite (proj2 (IH m2 (rs3 ++ rs2))); [reflexivity|]. eauto 6.
Qed.

Lemma call_cases c : (exists r, c = CAdd r) \/ (exists r, c = CRemove r) \/ (forall rl, c <> CAdd rl /\ c <> CRemove rl).
Proof. destruct c; try (right; right; intros; split; discriminate); eauto. Qed.

Lemma replay_model E hs hr m0 rs0 S0 : good_m (hs ++ hr) -> tame (hs ++ hr) -> Forall (fun c => rule_call (snd c)) hr ->
  (forall rl, S0 rl = true <-> present hs rl) -> mexec E (NewModel E) hs = Val (m0, rs0) -> forall m rs, mexec E m0 hr = Val (m, rs) ->
  forall rl, fold_left event_step (map (event_rule (as_listed hs)) (flat_map x_events rs)) S0 rl = true <-> present (hs ++ hr) rl.
Proof.
  intros Go T F N H0. induction hr as [|[o c] hr IH] using rev_ind; intros m rs H rl.
  - cbn in H. injection H as <- <-. rewrite app_nil_r. apply N.
  - apply mexec_snoc_inv in H as [m1 [rs1 [x [H1 [Hs ->]]]]].
    rewrite app_assoc in Go, T |- *. apply Forall_app in Go as [Go Goc]. apply Forall_app in T as [T Tc].
    apply Forall_app in F as [F Fc]. inversion Goc as [|? ? Ho _]; subst. inversion Tc as [|? ? Hc _]; subst. inversion Fc as [|? ? Hr _]; subst.
    cbn [fst snd] in *. specialize (IH Go T F m1 rs1 H1).
    assert (H2 : mexec E (NewModel E) (hs ++ hr) = Val (m1, rs0 ++ rs1)) by (apply mexec_app; eauto 8).
    rewrite flat_map_app, map_app, fold_left_app. cbn [flat_map]. rewrite app_nil_r.
    set (S := fold_left event_step (map (event_rule (as_listed hs)) (flat_map x_events rs1)) S0) in *.
    assert (Same : forall r, as_listed (hs ++ hr) r = as_listed hs r).
    { intros r. apply as_listed_same. now apply kinds_exec. }
    assert (Q : forall r0, c = CAdd r0 \/ c = CRemove r0 -> in_section (hs ++ hr) r0 = None -> x_events x = [] /\ (forall rl, present ((hs ++ hr) ++ [(o, c)]) rl <-> present (hs ++ hr) rl)).
    { intros r0 Hc0 Hn. split.
      - destruct r0 as [|k r]; [destruct Hc0 as [-> | ->]; discriminate|].
        destruct (String.eqb_spec k "") as [->|Hk]; [destruct Hc0 as [-> | ->]; discriminate|].
        destruct (unknown_section E (hs ++ hr) o m1 (rs0 ++ rs1) k r Go H2 Hk Hn) as [A B].
        destruct Hc0 as [-> | ->]; cbn [mstep] in Hs; rewrite ?A, ?B in Hs; cbn in Hs; now injection Hs as _ <-.
      - destruct (unknown_history (hs ++ hr) o c r0 Hc0 Hn) as [A B]. now apply present_same. }
    destruct (call_cases c) as [[r0 Ec]|[[r0 Ec]|Hn]].
    + destruct (in_section (hs ++ hr) r0) as [b|] eqn:Eb.
      2:{ destruct (Q r0 (or_introl Ec) Eb) as [-> P]. rewrite P. exact (IH rl). }
      subst c. pose proof (step_long E _ o m1 _ _ r0 m x Go H2 (or_introl eq_refl) ltac:(congruence) Hs) as Hl.
      rewrite (present_add _ o r0 rl Hl), Eb, Same, <- IH. cbn [mstep] in Hs.
      apply obind_val in Hs as [[[[m2 b1] e] es] [Ea Hs]]. injection Hs as <- <-. cbn [x_events].
      destruct (proj1 (rule_result E _ o m1 _ r0 b Go Ho T Hc H2 Eb) _ _ _ _ Ea) as [_ [_ ->]].
      pose proof (in_section_listed _ r0 b Hl Eb) as Hb. rewrite Same, <- IH in Hb.
      destruct b; cbn [map fold_left].
      * split; [auto|]. intros [P|[_ ->]]; [exact P|]. now apply Hb.
      * cbn [event_rule event_step]. unfold set_add. destruct (rule_eqb_spec rl (as_listed hs r0)) as [->|Nr]; cbn [orb].
        -- split; [intros _; right; split; [discriminate|reflexivity]|reflexivity].
        -- split; [auto|]. intros [P|[_ P]]; [exact P|contradiction].
    + destruct (in_section (hs ++ hr) r0) as [b|] eqn:Eb.
      2:{ destruct (Q r0 (or_intror Ec) Eb) as [-> P]. rewrite P. exact (IH rl). }
      subst c. pose proof (step_long E _ o m1 _ _ r0 m x Go H2 (or_intror eq_refl) ltac:(congruence) Hs) as Hl.
      rewrite (present_remove _ o r0 rl Hl), Same, <- IH. cbn [mstep] in Hs.
      apply obind_val in Hs as [[[[m2 b1] e] es] [Ea Hs]]. injection Hs as <- <-. cbn [x_events].
      destruct (proj2 (rule_result E _ o m1 _ r0 b Go Ho T Hc H2 Eb) _ _ _ _ Ea) as [_ [_ ->]].
      pose proof (in_section_listed _ r0 b Hl Eb) as Hb. rewrite Same, <- IH in Hb.
      destruct b; cbn [map fold_left].
      * cbn [event_rule event_step]. unfold set_remove. destruct (rule_eqb_spec rl (as_listed hs r0)) as [->|Nr]; cbn [negb andb].
        -- split; [discriminate|]. intros [_ P]. now contradiction P.
        -- split; [auto|tauto].
      * split; [|tauto]. intros P. split; [exact P|]. intros ->. apply Hb in P. discriminate.
    + rewrite (quiet_events E o m1 c m x Hr Hn Hs). cbn [map fold_left]. rewrite IH.
      destruct (quiet_history (hs ++ hr) o c Hr Hn) as [A B]. symmetry. now apply present_same.
Qed.
