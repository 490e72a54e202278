(** Property C109: policies written by the user. *)
From Verif Require Import GoBase GoBaseP DefsM PolicyM PolicySpec PolicyP MatcherDefM MatcherM MatcherSpec
  RbacM RbacSpec DomainM DomainSpec EvalM ModelM ModelSpec ModelP ModelP2 ModelP3 ModelP4 ModelP5 ModelP6 Prop_Model Prop_ModelDefs
  EnforcerM EnforcerSpec SettersM SettersSpec Prop_Setters UserPolicyM UserPolicySpec UserPolicyP.
Local Notation pstep := PolicyM.pstep.

Lemma put_same {S} (f : nat -> option S) i s : put_state f i s i = Some s.
Proof. unfold put_state. now rewrite Nat.eqb_refl. Qed.
Lemma put_other {S} (f : nat -> option S) i s j : j <> i -> put_state f i s j = f j.
Proof. unfold put_state. destruct (Nat.eqb_spec j i); congruence. Qed.

Section C109.
  Context {S A : Type} (U : upolicy S A) (E : env).

  Lemma become_user um k i s s' es um' : user_policy um k = Some (i, s) -> u_become U um i s' es = Val um' ->
    user_policy um' k = Some (i, s') /\
    (forall k', mget k' (md_pMap (um_m um)) <> Some i -> user_policy um' k' = user_policy um k') /\
    (forall j, j <> i -> body (um_m um') j = body (um_m um) j) /\ md_pMap (um_m um') = md_pMap (um_m um).
  Proof.
    intros Hu Hb. destruct (user_state _ _ _ _ Hu) as [Hk Hs]. apply become_spec in Hb as [b [ls [ms [Ho [_ ->]]]]].
    split; [|split; [|split; [|reflexivity]]].
    - unfold user_policy. cbn [um_m um_state with_rules md_pMap set_mats set_objs]. rewrite Hk, put_same. reflexivity.
    - intros k' Hne. unfold user_policy. cbn [um_m um_state with_rules md_pMap set_mats set_objs].
      destruct (mget k' (md_pMap (um_m um))) as [j|]; [|reflexivity]. rewrite put_other by congruence. reflexivity.
    - intros j Hne. unfold body. cbn [um_m with_rules md_objs set_mats set_objs]. rewrite nth_set_nth by exact (nth_lt _ _ _ Ho).
      destruct (Nat.eqb_spec j i); [contradiction|reflexivity].
  Qed.

  (** ** C109: the model passes on what a user-written policy decides

      AddRule and RemoveRule on a section with a user-written policy return what
      that policy returns, and the model announces the rule exactly when the
      answer is true, even beside an error.  ClearPolicy returns the policy's
      error and announces nothing.  The calls change the state of that policy, as
      it says, and of no other.  Whatever the policy does. *)
  Definition only_changes (um um' : umodel S) (k : string) (s' : S) : Prop :=
    (exists i, user_policy um' k = Some (i, s')) /\
    forall k', mget k' (md_pMap (um_m um)) <> mget k (md_pMap (um_m um)) -> user_policy um' k' = user_policy um k'.

  Theorem C109_answers :
    forall o um k i s, user_policy um k = Some (i, s) ->
      (forall r um' x, p_key k -> ustep U E o um (UCall (CAdd (k :: r))) = Val (um', x) ->
         exists s' b e es, u_AddRule U s r = Val (s', b, e, es) /\
           ur_res x = mkRes b e (if b then [MAdded (k :: r)] else []) /\ only_changes um um' k s') /\
      (forall r um' x, p_key k -> ustep U E o um (UCall (CRemove (k :: r))) = Val (um', x) ->
         exists s' b e es, u_RemoveRule U s r = Val (s', b, e, es) /\
           ur_res x = mkRes b e (if b then [MRemoved (k :: r)] else []) /\ only_changes um um' k s') /\
      (forall um' x, ustep U E o um (UCall (CClear k)) = Val (um', x) ->
         exists s' e es, u_Clear U s = Val (s', e, es) /\ ur_res x = mkRes true e [] /\ only_changes um um' k s').
  Proof.
    intros o um k i s Hu.
    assert (Ro : p_key k -> rule_on um k = Some (i, s)) by (intros K; unfold rule_on; rewrite K; exact Hu).
    assert (Oc : forall s' es um', u_become U um i s' es = Val um' -> only_changes um um' k s').
    { intros s' es um' Hb. destruct (become_user _ _ _ _ _ _ _ Hu Hb) as [X [Y _]]. split; [eauto|]. intros k' Hne. apply Y.
      destruct (user_state _ _ _ _ Hu) as [Hk _]. congruence. }
    split; [|split].
    - intros r um' x K H. cbn [ustep] in H. rewrite (Ro K) in H. apply obind_val in H as [[[[s' b] e] es] [Ha H]].
      apply obind_val in H as [um1 [Hb H]]. injection H as <- <-. exists s', b, e, es. cbn [ur_res]. eauto.
    - intros r um' x K H. cbn [ustep] in H. rewrite (Ro K) in H. apply obind_val in H as [[[[s' b] e] es] [Ha H]].
      apply obind_val in H as [um1 [Hb H]]. injection H as <- <-. exists s', b, e, es. cbn [ur_res]. eauto.
    - intros um' x H. cbn [ustep] in H. rewrite Hu in H. apply obind_val in H as [[[s' e] es] [Ha H]].
      apply obind_val in H as [um1 [Hb H]]. injection H as <- <-. exists s', e, es. cbn [ur_res]. eauto.
  Qed.

  (** A role policy with the key of a policy section comes from SetRoleManager. *)
  Definition no_manager (k : string) (h : list (orders * ucall S A)) : Prop :=
    Forall (fun oc => forall x, snd oc <> UCall (CSetRM k x)) h.
  Lemma free_exec h k : p_key k -> no_manager k h -> forall um um' xs, uexec U E um h = Val (um', xs) ->
    mget k (md_rpMap (um_m um)) = None -> mget k (md_rpMap (um_m um')) = None.
  Proof.
    intros K. induction h as [|[o c] h IH]; intros N um um' xs H F; cbn [uexec] in H; [now injection H as <- _|].
    apply obind_val in H as [[um1 x] [H1 H]]. apply obind_val in H as [[um2 xs'] [H2 H]]. injection H as <- _.
    apply Forall_cons_iff in N as [Nc N]. cbn [snd] in Nc. apply (IH N _ _ _ H2). clear IH H2.
    assert (B : forall i s es um', u_become U um i s es = Val um' -> mget k (md_rpMap (um_m um')) = None).
    { intros i s es um3 Hb. apply become_spec in Hb as [b [ls [ms [_ [_ ->]]]]]. exact F. }
    apply ustep_cases in H1. inversion H1; subst; eauto.
    destruct (mget k (md_rpMap (um_m (mkUM m (um_state um))))) as [i|] eqn:Ei; [|reflexivity]. cbn [um_m] in Ei.
    destruct (step_rp _ _ _ _ _ _ H0) as [_ R]. destruct (R _ _ Ei) as [X|(_ & _ & [X|[y ->]])]; [congruence|exfalso; exact (pg_key _ K X)|].
    exfalso. exact (Nc y eq_refl).
  Qed.

  (** RangeRules and GetPolicy show of such a section what the policy's Range
      gives, whatever the policy announced. *)
  Theorem C109_listing :
    forall h um xs o k i s,
      good_orders o -> uexec U E (NewUModel E) h = Val (um, xs) -> user_policy um k = Some (i, s) ->
      GetPolicy (um_m um) k = Some i /\ obj_rules o (um_m um) i = o_rules o (u_Range U s) /\
      (p_key k -> no_manager k h -> forall r, In (k :: r) (model_rules o (um_m um)) <-> In r (u_Range U s)).
  Proof.
    intros h um xs o k i s Ho H Hu. pose proof (exec_sync U E _ _ _ _ (sync_new U E) H) as Y.
    destruct (user_state _ _ _ _ Hu) as [Hk Hs]. pose proof (y_body U _ Y _ _ Hs) as Hb.
    assert (Er : obj_rules o (um_m um) i = o_rules o (u_Range U s)).
    { unfold body in Hb. destruct (nth_error (md_objs (um_m um)) i) as [[b ls]|] eqn:Eo; [|discriminate]. cbn in Hb. injection Hb as ->.
      unfold obj_rules, obj_Range. rewrite Eo. cbn [o_body]. unfold Range. rewrite (range_vals_collect (fun r => r)). cbn.
      rewrite map_id, listing_mvals. reflexivity. }
    split; [unfold GetPolicy; now rewrite Hk|]. split; [exact Er|]. intros K N r.
    pose proof (free_exec h k K N _ _ _ H eq_refl) as F. rewrite model_rules_eq, in_app_iff, !in_section_rules by exact Ho. split.
    - intros [[k' [r' [i' [[= <- <-] [Ei Hr]]]]]|[k' [r' [i' [[= <- <-] [Ei Hr]]]]]]; [|congruence].
      rewrite Hk in Ei. injection Ei as <-. rewrite Er in Hr. destruct Ho as [_ [Ho _]]. exact (Permutation_in _ (Ho _) Hr).
    - intros Hr. left. exists k, r, i. split; [reflexivity|]. split; [exact Hk|]. rewrite Er. destruct Ho as [_ [Ho _]].
      exact (Permutation_in _ (Permutation_sym (Ho _)) Hr).
  Qed.

  (** ** An outspoken policy is as good as a built-in one

      When the policies announce what they change, the model is in the state that
      the plain history leads to: the same rules, matchers, managers and
      definitions, so that all further calls and all questions have the same
      answers. *)
  Theorem C109_same_state :
    forall h um xs,
      outspoken U -> ugood h -> u_defined U h -> uexec U E (NewUModel E) h = Val (um, xs) ->
      good_m (plain_history U h xs) /\
      exists ys, mexec E (NewModel E) (plain_history U h xs) = Val (um_m um, ys).
  Proof.
    intros h um xs O G D H. destruct (plain_exec U E h O um xs G D H) as [A1 [A2 _]]. auto.
  Qed.

  Lemma plain_app h1 xs1 h2 xs2 : List.length xs1 = List.length h1 ->
    exists hp, plain_history U (h1 ++ h2) (xs1 ++ xs2) = plain_history U h1 xs1 ++ hp /\
      forall pk mk, Forall (fun oc => u_leaves_alone pk mk (snd oc)) h2 -> Forall (fun oc => leaves_alone pk mk (snd oc)) hp.
  Proof.
    intros L. unfold plain_history at 1.
    assert (C : combine (h1 ++ h2) (xs1 ++ xs2) = combine h1 xs1 ++ combine h2 xs2).
    { revert xs1 L. induction h1 as [|a h1 IH]; intros [|x xs1] L; cbn in *; try discriminate; [reflexivity|]. f_equal. apply IH. congruence. }
    rewrite C, fold_left_app. fold (plain_history U h1 xs1). generalize (plain_history U h1 xs1) as seen. clear C L.
    revert xs2. induction h2 as [|[o c] h2 IH]; intros xs2 seen.
    - exists []. cbn. rewrite app_nil_r. split; [reflexivity|constructor].
    - destruct xs2 as [|x xs2]; [exists []; cbn; rewrite app_nil_r; split; [reflexivity|constructor]|].
      cbn [combine fold_left fst snd]. destruct (IH xs2 (seen ++ plain_call U seen (o, c) x)) as [hp [-> F]].
      exists (plain_call U seen (o, c) x ++ hp). split; [now rewrite <- app_assoc|]. intros pk mk Fh.
      apply Forall_cons_iff in Fh as [Fc Fh]. cbn [snd] in Fc. apply Forall_app. split; [|exact (F _ _ Fh)].
      assert (P : forall key es, Forall (fun oc : orders * mcall => leaves_alone pk mk (snd oc)) (map (fun e => (o, pop_call key (event_op e))) es)).
      { intros key es. apply Forall_map, Forall_forall. intros e _. destruct e; exact I. }
      destruct c as [c|k s|k a]; cbn [plain_call].
      + destruct (ur_told x) as [es|]; [apply P|]. constructor; [exact Fc|constructor].
      + destruct (def_text P_SEC k seen) as [v|]; [|constructor]. constructor; [exact Fc|]. apply Forall_map, Forall_forall.
        intros a _. destruct a; exact I.
      + destruct (ur_told x) as [es|]; [apply P|constructor].
  Qed.

  (** Matchers.  A matcher that is built on a section with an outspoken policy
      follows it from then on: it is one that was built from the definition in
      force and has since received changes ([lives], the hypothesis of the theorems
      C10 to C13 in Prop_Matcher.v) after which the rules present are exactly those
      that the policy's Range gives.  So what those theorems say of a built-in
      policy they say of this one. *)
  Theorem C109_matchers_follow_partial :
    forall ha o c hb mk um xs um1 xs1 expr root i s,
      let h := ha ++ (o, UCall c) :: hb in
      outspoken U -> ugood h -> u_defined U h -> c = CBuild \/ c = CBuildKey mk ->
      uexec U E (NewUModel E) h = Val (um, xs) -> tame (plain_history U h xs) ->
      uexec U E (NewUModel E) ha = Val (um1, xs1) ->
      x_err (ur_res (nth (List.length ha) xs (mkURes (mkRes true None []) None))) = None ->
      key_of M_SEC mk -> def_text M_SEC mk (model_calls ha) = Some expr ->
      Build (e_grow E) (e_parse E (mkeys (md_fm (um_m um1)))) expr = inl root -> p_key (GetPolicyKey root) ->
      Forall (fun oc => u_leaves_alone (GetPolicyKey root) mk (snd oc)) hb ->
      user_policy um (GetPolicyKey root) = Some (i, s) ->
      exists ptext h1 h2 j y,
        def_text P_SEC (GetPolicyKey root) (model_calls ha) = Some ptext /\
        mget mk (md_mMap (um_m um)) = Some j /\ nth_error (md_mats (um_m um)) j = Some y /\
        lives (NewPolicyDef (GetPolicyKey root) ptext) root h1 h2 y /\ Forall (op_ok comma_free) (h1 ++ h2) /\
        forall r, set_of (h1 ++ h2) r = true <-> In r (u_Range U s).
  Proof.
    intros ha o c hb mk um xs um1 xs1 expr root i s h O G D Hc H T Ha Hx Km Hm HB Hp F Hu. unfold h in *. clear h.
    destruct (plain_exec U E _ O um xs G D H) as [[ys Hy] [Gp [Dt Ap]]].
    apply uexec_app in H as [um1' [xs1' [xs2 [H1 [H2 ->]]]]]. rewrite Ha in H1. injection H1 as <- <-.
    pose proof (uexec_len U E _ _ _ _ Ha) as La.
    cbn [uexec] in H2. apply obind_val in H2 as [[um2 x] [Hs H2]]. apply obind_val in H2 as [[um3 xs3] [H3 H2]]. injection H2 as -> <-.
    rewrite app_nth2, La, Nat.sub_diag in Hx by lia. cbn [nth] in Hx.
    assert (Ga : ugood ha) by (apply Forall_app in G as [G _]; exact G).
    destruct (plain_exec U E _ O um1 xs1 Ga (defined_prefix U _ _ D) Ha) as [[ya Hya] [Gpa [Dta Apa]]].
    (* the building step *)
    assert (Hs' : exists x', mstep E o (um_m um1) c = Val (um_m um2, x') /\ x = mkURes x' None).
    { apply ustep_cases in Hs. destruct Hc as [-> | ->]; inversion Hs; subst; cbn [um_m]; eauto. }
    destruct Hs' as [x' [Hst ->]]. cbn [ur_res] in Hx.
    change ((o, UCall c) :: hb) with ([(o, UCall c)] ++ hb) in *. change (mkURes x' None :: xs3) with ([mkURes x' None] ++ xs3) in *.
    rewrite !app_assoc in *.
    assert (La1 : List.length (xs1 ++ [mkURes x' None]) = List.length (ha ++ [(o, UCall c : ucall S A)])) by (rewrite !app_length, La; reflexivity).
    destruct (plain_app (ha ++ [(o, UCall c)]) (xs1 ++ [mkURes x' None]) hb xs3 La1) as [hp [Ehp Fp]]. specialize (Fp _ _ F).
    rewrite (plain_snoc U ha xs1 (o, UCall c) (mkURes x' None) La) in Ehp. cbn [plain_call ur_told] in Ehp.
    set (pa := plain_history U ha xs1) in *. rewrite Ehp in *. 
    apply Forall_app in Gp as [Gp1 Gp2]. apply Forall_app in Gp1 as [_ Gpo]. apply Forall_inv in Gpo. cbn [fst] in Gpo.
    pose proof Hy as Hy0. apply mexec_app in Hy as [mb [yb [yc [Hyb [Hyc ->]]]]].
    assert (mb = um_m um2). { rewrite (mexec_snoc _ _ _ _ _ _ _ _ _ Hya Hst) in Hyb. injection Hyb as <- _. reflexivity. } subst mb.
    destruct (matcher_lives E pa o c hp mk (um_m um1) ya (um_m um2) x' (um_m um) yc expr root Gpa Gpo Gp2 Hc Hya Hst Hx Hyc Km)
      as [ptext [ops [j [y [P1 [P2 [P3 [P4 P5]]]]]]]]; [rewrite Dta; exact Hm|exact HB|exact Hp|exact Fp|].
    exists ptext, ops, (p_calls (GetPolicyKey root) hp), j, y. rewrite <- Dta. split; [exact P1|]. split; [exact P3|]. split; [exact P4|]. split; [exact P5|].
    (* the rules present *)
    set (pk := GetPolicyKey root) in *.
    assert (Hh : p_history pk (pa ++ [(o, c)]) = Some ops).
    { rewrite p_history_snoc, P2. destruct Hc as [-> | ->]; reflexivity. }
    destruct (p_history_more pk mk (pa ++ [(o, c)]) hp ops Fp Hh) as [Q1 _].
    assert (Gall : good_m ((pa ++ [(o, c)]) ++ hp)).
    { apply Forall_app. split; [apply Forall_app; split; [exact Gpa|repeat constructor; apply Gpo]|exact Gp2]. }
    destruct (reachable_ok E _ _ _ Gall Hy0) as [g [V W]].
    destruct (user_state _ _ _ _ Hu) as [Hk Hss].
    assert (Y : USync U um). { eapply exec_sync; [|exact H3]. eapply step_sync; [|exact Hs]. eapply exec_sync; [apply sync_new|exact Ha]. }
    destruct (p_rules_ok _ o _ g pk i Gpo T V W Hp Hk) as [ops' [p [ls [R1 [R2 [R3 [R4 [_ R5]]]]]]]].
    rewrite Q1 in R1. injection R1 as <-. split; [exact R4|]. intros r. rewrite <- R5.
    assert (Er : obj_rules o (um_m um) i = o_rules o (u_Range U s)).
    { pose proof (y_body U _ Y _ _ Hss) as Hb. unfold body in Hb. rewrite R2 in Hb. cbn in Hb. injection Hb as ->.
      unfold obj_rules, obj_Range. rewrite R2. cbn [o_body]. unfold Range. rewrite (range_vals_collect (fun r => r)). cbn.
      rewrite map_id, listing_mvals. reflexivity. }
    rewrite Er. destruct Gpo as [_ [Ho _]]. split; intros X; [exact (Permutation_in _ (Ho _) X)|exact (Permutation_in _ (Permutation_sym (Ho _)) X)].
  Qed.
End C109.
Print Assumptions C109_answers.
Print Assumptions C109_listing.
Print Assumptions C109_same_state.
Print Assumptions C109_matchers_follow_partial.

(** ** Examples: policies that keep a list *)
Definition known (r : rule) (l : list rule) : bool := existsb (String.eqb (Hash r)) (map Hash l).
Fixpoint without (r : rule) (l : list rule) : list rule :=
  match l with
  | [] => []
  | x :: l' => if rule_eqb x r then l' else x :: without r l'
  end.
Lemma known_spec r l : known r l = false -> ~ In (Hash r) (map Hash l).
Proof.
  unfold known. intros H X. assert (existsb (String.eqb (Hash r)) (map Hash l) = true); [|congruence].
  apply existsb_exists. exists (Hash r). split; [exact X|apply String.eqb_refl].
Qed.
Lemma without_tells r l : existsb (fun x => rule_eqb x r) l = true -> tells l [EvtRemoved r] (without r l).
Proof.
  intros H. assert (X : exists l1 l2, l = l1 ++ r :: l2 /\ without r l = l1 ++ l2).
  { induction l as [|x l IH]; cbn in *; [discriminate|]. destruct (rule_eqb_spec x r) as [->|Hne].
    - exists [], l. auto.
    - cbn in H. destruct (IH H) as [l1 [l2 [-> Hw]]]. exists (x :: l1), l2. cbn. rewrite Hw. auto. }
  destruct X as [l1 [l2 [E1 E2]]]. rewrite E2. rewrite E1. constructor. constructor.
Qed.

(** Rules expire: the owner takes rules back.  Adding a rule for "all" adds one
    for each of two objects.  With [loud] the policy announces its changes, and
    with [frank] it admits them to the caller. *)
Definition add_one (r : rule) (l : list rule) : list rule * list event := if known r l then (l, []) else (l ++ [r], [EvtAdded r]).
Definition leases (loud frank : bool) : upolicy (list rule) rule := {|
  u_AddRule := fun l r =>
    let (l', es) := match r with
                    | [u; v] => if String.eqb v "all" then
                                  let (l1, e1) := add_one [u; "data1"]%string l in
                                  let (l2, e2) := add_one [u; "data2"]%string l1 in (l2, e1 ++ e2)
                                else add_one r l
                    | _ => add_one r l
                    end in
    Val (l', frank && negb (Nat.eqb (List.length l') (List.length l)), None, if loud then es else []);
  u_RemoveRule := fun l r =>
    let b := existsb (fun x => rule_eqb x r) l in
    Val (if b then without r l else l, frank && b, None, if loud && b then [EvtRemoved r] else []);
  u_Clear := fun _ => Val ([], None, if loud then [EvtCleared] else []);
  u_Own := fun l r =>
    let b := existsb (fun x => rule_eqb x r) l in
    Val (if b then without r l else l, if loud && b then [EvtRemoved r] else []);
  u_Range := fun l => l
|}.
Lemma add_tells r l : tells l (snd (add_one r l)) (fst (add_one r l)).
Proof. unfold add_one. destruct (known r l) eqn:E; [constructor|]. cbn. constructor; [now apply known_spec|constructor]. Qed.
Lemma tells_app l es l1 es' l' : tells l es l1 -> tells l1 es' l' -> tells l (es ++ es') l'.
Proof. induction 1; intros H'; cbn; [exact H'|constructor; auto|constructor; auto|constructor; auto]. Qed.
Lemma leases_outspoken frank : outspoken (leases true frank).
Proof.
  constructor; cbn [leases u_AddRule u_RemoveRule u_Clear u_Own u_Range].
  - intros l r l' b e es. pose proof (add_tells r l) as T.
    assert (P : forall q : list rule * list event, tells l (snd q) (fst q) ->
      (let (l', es) := q in Val (l', frank && negb (Nat.eqb (List.length l') (List.length l)), @None goerr, es)) = Val (l', b, e, es) -> tells l es l').
    { intros [q1 q2] Ht [= <- _ _ <-]. exact Ht. }
    apply P. destruct r as [|u [|v [|w r]]]; try exact T. 
    destruct (String.eqb v "all"); [|exact T].
    pose proof (add_tells [u; "data1"]%string l) as T1. destruct (add_one [u; "data1"]%string l) as [l1 e1].
    pose proof (add_tells [u; "data2"]%string l1) as T2. destruct (add_one [u; "data2"]%string l1) as [l2 e2]. exact (tells_app _ _ _ _ _ T1 T2).
  - intros l r l' b e es. cbn [andb]. destruct (existsb (fun x => rule_eqb x r) l) eqn:Eb; intros [= <- _ _ <-]; [now apply without_tells|constructor].
  - intros l l' e es [= <- _ <-]. constructor. constructor.
  - intros l r l' es. cbn [andb]. destruct (existsb (fun x => rule_eqb x r) l) eqn:Eb; intros [= <- <-]; [now apply without_tells|constructor].
Qed.

Definition lease_setup : list (orders * ucall (list rule) rule) :=
  [(ex_o, UCall (CSetDef R_SEC "r" "sub, obj")); (ex_o, UCall (CSetDef P_SEC "p" "sub, obj")); (ex_o, UCall (CSetDef M_SEC "m" basic_text));
   (ex_o, USetPolicy "p" [["bob"; "data1"]]); (ex_o, UCall CBuild)]%string.
Definition lease_use : list (orders * ucall (list rule) rule) :=
  [(ex_rev, UCall (CAdd ["p"; "alice"; "all"])); (ex_o, UOwnCall "p" ["bob"; "data1"]); (ex_o, UCall (CRemove ["p"; "alice"; "data2"]))]%string.
Definition lease_h := lease_setup ++ lease_use.

Lemma lease_defined loud frank : u_defined (leases loud frank) lease_h.
Proof.
  intros h1 o k s h2 H. unfold lease_h, lease_setup, lease_use in H. cbn [app] in H.
  do 8 (destruct h1 as [|? h1];
    [first [discriminate H | injection H as <- <- <- <-; split; [reflexivity|]; split; [vm_compute; discriminate|]; cbn; repeat constructor; cbn; intuition]
    |injection H as <- H]). destruct h1; discriminate H.
Qed.
Lemma lease_good : ugood lease_h.
Proof. repeat constructor; try apply ex_o_good; apply ex_rev_good. Qed.

(** One call adds two rules, a rule expires, another is removed through the
    model; the rules, and what the matcher reports, are those of the policy. *)
Example C109_ex :
  let U := leases true true in
  outspoken U /\ ugood lease_h /\ u_defined U lease_h /\
  exists um xs i, uexec U ex_env (NewUModel ex_env) lease_h = Val (um, xs) /\
    user_policy um "p" = Some (i, [["alice"; "data1"]]) /\ model_rules ex_o (um_m um) = [["p"; "alice"; "data1"]] /\
    matches_of ex_env ex_o (um_m um) "m" "r" alice = Val ([["p"; "alice"; "data1"]], None) /\
    matches_of ex_env ex_o (um_m um) "m" "r" [VStr "bob"; VStr "data1"] = Val ([], None) /\
    map x_events (map ur_res xs) = [[]; []; []; []; []; [MAdded ["p"; "alice"; "all"]]; []; [MRemoved ["p"; "alice"; "data2"]]] /\
    map snd (plain_history U lease_h xs) =
      [CSetDef R_SEC "r" "sub, obj"; CSetDef P_SEC "p" "sub, obj"; CSetDef M_SEC "m" basic_text;
       CSetDef P_SEC "p" "sub, obj"; CAdd ["p"; "bob"; "data1"]; CBuild;
       CAdd ["p"; "alice"; "data1"]; CAdd ["p"; "alice"; "data2"]; CRemove ["p"; "bob"; "data1"]; CRemove ["p"; "alice"; "data2"]].
Proof.
  cbv zeta. split; [apply leases_outspoken|]. split; [apply lease_good|]. split; [apply lease_defined|].
  eexists _, _, _. split; [vm_compute; reflexivity|]. repeat split; vm_compute; reflexivity.
Qed.

(** The hypotheses of the theorem on matchers hold of that history. *)
Example C109_follow_ex :
  let U := leases true true in
  let ha := firstn 4 lease_setup in
  lease_h = ha ++ (ex_o, UCall CBuild) :: lease_use /\
  exists um xs um1 xs1 root i s,
    uexec U ex_env (NewUModel ex_env) lease_h = Val (um, xs) /\ tame (plain_history U lease_h xs) /\
    uexec U ex_env (NewUModel ex_env) ha = Val (um1, xs1) /\
    x_err (ur_res (nth (List.length ha) xs (mkURes (mkRes true None []) None))) = None /\
    def_text M_SEC "m" (model_calls ha) = Some basic_text /\
    Build (e_grow ex_env) (e_parse ex_env (mkeys (md_fm (um_m um1)))) basic_text = inl root /\ GetPolicyKey root = "p"%string /\
    Forall (fun oc => u_leaves_alone "p" "m" (snd oc)) lease_use /\ user_policy um "p" = Some (i, s).
Proof.
  cbv zeta. split; [reflexivity|]. eexists _, _, _, _, _, _, _. split; [vm_compute; reflexivity|].
  split.
  { match goal with |- tame ?l => let l' := eval vm_compute in l in change l with l' end. tame_tac. }
  split; [vm_compute; reflexivity|]. split; [vm_compute; reflexivity|]. split; [vm_compute; reflexivity|].
  split; [vm_compute; reflexivity|]. split; [vm_compute; reflexivity|].
  split; [repeat constructor|vm_compute; reflexivity].
Qed.

(** ** What does not hold of every policy

    A policy that announces nothing is listed with its rules, but a matcher that
    was built before never learns of them: decisions ignore rules that were added,
    and go on using rules that were removed. *)
Theorem C109_silent_refuted :
  let U := leases false true in
  ugood lease_h /\ u_defined U lease_h /\
  exists um xs, uexec U ex_env (NewUModel ex_env) lease_h = Val (um, xs) /\
    model_rules ex_o (um_m um) = [["p"; "alice"; "data1"]] /\
    matches_of ex_env ex_o (um_m um) "m" "r" alice = Val ([], None) /\
    matches_of ex_env ex_o (um_m um) "m" "r" [VStr "bob"; VStr "data1"] = Val ([["p"; "bob"; "data1"]], None).
Proof.
  cbv zeta. split; [apply lease_good|]. split; [apply lease_defined|].
  eexists _, _. split; [vm_compute; reflexivity|]. repeat split; vm_compute; reflexivity.
Qed.
Print Assumptions C109_silent_refuted.

(** A policy that announces its changes to its listeners but answers false is
    followed by the matchers; the model announces nothing, so that no storage hears
    of the changes.  Neither does it of what the owner does, nor of the rules the
    policy made of the one it was given. *)
Theorem C109_announced_refuted :
  let U := leases true false in
  outspoken U /\ ugood lease_h /\ u_defined U lease_h /\
  exists um xs, uexec U ex_env (NewUModel ex_env) lease_h = Val (um, xs) /\
    model_rules ex_o (um_m um) = [["p"; "alice"; "data1"]] /\
    matches_of ex_env ex_o (um_m um) "m" "r" alice = Val ([["p"; "alice"; "data1"]], None) /\
    flat_map x_events (map ur_res xs) = [].
Proof.
  cbv zeta. split; [apply leases_outspoken|]. split; [apply lease_good|]. split; [apply lease_defined|].
  eexists _, _. split; [vm_compute; reflexivity|]. repeat split; vm_compute; reflexivity.
Qed.
Print Assumptions C109_announced_refuted.
