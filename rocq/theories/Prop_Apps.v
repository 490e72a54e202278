(** Properties C76 to C78: what access control lists, RBAC with domains and RBAC
    with denials decide, from rules to Enforce. *)
From Verif Require Import GoBase GoBaseP DefsM DefsP PolicyM PolicySpec PolicyP EffectorM MatcherDefM MatcherDefSpec MatcherDefP MatcherM MatcherSpec MatcherP MatcherP2
  RbacM RbacSpec DomainM DomainSpec EvalM ModelM ModelSpec ModelP ModelP2 ModelP3 ModelP4 ModelP5 ModelP6 EnforcerM EnforcerSpec EnforcerP
  SafeSpec SafeP FunctionsSpec FunctionsP AppSpec AppsSpec.
From Verif Require Import Prop_Effect Prop_Defs Prop_Matcher Prop_Model Prop_Enforce Prop_Query Prop_Functions Prop_App.
Local Open Scope list_scope.

(** ** Conjunctions *)
Lemma all_of_snoc t ts a : all_of t (ts ++ [a]) = FAnd (all_of t ts) (FAtom a).
Proof. unfold all_of. now rewrite fold_left_app. Qed.
Lemma all_of_conds t ts : conds (all_of t ts) = map tokensToExpr (t :: ts).
Proof.
  induction ts as [|a ts IH] using rev_ind; [reflexivity|]. rewrite all_of_snoc. cbn [conds]. rewrite IH. cbn [map]. rewrite map_app. reflexivity.
Qed.
Lemma all_of_lasts t ts : lasts (all_of t ts) = [tokensToExpr (last ts t)].
Proof. induction ts as [|a ts IH] using rev_ind; [reflexivity|]. rewrite all_of_snoc. cbn [lasts]. now rewrite last_last. Qed.
Lemma all_of_sem val t ts : sem val (all_of t ts) = forallb val (map tokensToExpr (t :: ts)).
Proof.
  induction ts as [|a ts IH] using rev_ind; [cbn; now rewrite andb_true_r|]. rewrite all_of_snoc. cbn [sem]. rewrite IH. cbn [map].
  rewrite map_app. cbn [map forallb]. rewrite forallb_app. cbn. now rewrite andb_true_r, andb_assoc.
Qed.
Lemma all_of_shape t ts : is_or (all_of t ts) = false /\ has_or (all_of t ts) = false /\ faithful (all_of t ts) = true /\
  parsed (all_of t ts) /\ alternatives (all_of t ts) = 1 /\ and_narrow (all_of t ts) = true.
Proof.
  induction ts as [|a ts IH] using rev_ind; [cbn; auto 10|]. rewrite all_of_snoc. destruct IH as (A & B & C & D & F & G).
  cbn. rewrite A, B, C, F, G. cbn. auto 10.
Qed.
Lemma all_of_atoms t ts : Forall atom_ok (t :: ts) -> atoms_ok (all_of t ts).
Proof.
  induction ts as [|a ts IH] using rev_ind; intros F; [exact (Forall_inv F)|]. rewrite all_of_snoc. cbn [atoms_ok].
  change (t :: ts ++ [a]) with ((t :: ts) ++ [a]) in F. apply Forall_app in F as [F1 F2]. split; [apply IH; exact F1|exact (Forall_inv F2)].
Qed.
Lemma all_of_reads E c t ts : reads_tokens E c (all_of t ts) -> Forall atom_ok (t :: ts) ->
  (forall e x, In e (map tokensToExpr (t :: ts)) -> In x (p_args e) -> exists y, x = ("p_" ++ y)%string) -> reads_as E c (all_of t ts).
Proof.
  intros [R1 R2] A S. destruct (all_of_shape t ts) as (_ & _ & Fa & P & Al & An). constructor; auto.
  - now apply all_of_atoms.
  - unfold two_way. now rewrite Al, An.
  - intros e x. rewrite all_of_conds. apply S.
Qed.

(** ** Atoms *)
Definition atom_check (ts : list token) : bool :=
  negb (match ts with t :: _ => kind_eqb (t_kind t) KClause | [] => true end) && Z.eqb (level ts) 0 &&
  forallb (fun n => Z.leb 0 (level (firstn n ts))) (seq 0 (S (List.length ts))) &&
  forallb (fun t => negb (kind_eqb (t_kind t) KLogicalOp)) ts.
Lemma atom_checked ts : atom_check ts = true -> atom_ok ts.
Proof.
  unfold atom_check. rewrite !andb_true_iff. intros [[[H1 H2] H3] H4]. apply Z.eqb_eq in H2.
  rewrite forallb_forall in H3, H4. constructor.
  - intros ->. discriminate.
  - exact H2.
  - intros a b ->. specialize (H3 (List.length a)). rewrite firstn_app, Nat.sub_diag, firstn_all in H3. cbn [firstn] in H3. rewrite app_nil_r in H3.
    apply Z.leb_le, H3, in_seq. rewrite app_length. lia.
  - intros a t b -> Hk. specialize (H4 t). rewrite Hk in H4. cbn in H4. discriminate H4. apply in_or_app. right. now left.
  - intros t ts' -> Hk. rewrite Hk in H1. discriminate.
Qed.
Lemma eq_atom x : atom_ok (eq_tokens x).
Proof. apply atom_checked. reflexivity. Qed.
Lemma str_assoc (a b c : string) : ((a ++ b) ++ c = a ++ b ++ c)%string.
Proof. induction a as [|d a IH]; [reflexivity|]. cbn. now rewrite IH. Qed.
Lemma str_nil (a : string) : (a ++ "" = a)%string.
Proof. induction a as [|d a IH]; [reflexivity|]. cbn. now rewrite IH. Qed.
Lemma eq_expr x : tokensToExpr (eq_tokens x) = eq_text x.
Proof. unfold eq_tokens, eq_text. cbn. rewrite !str_nil. reflexivity. Qed.

(** ** The rules of an application fit its policy section *)
Lemma app_fits c h r : app_history c h -> present h ("p"%string :: r) -> fits c r.
Proof.
  intros (hd & hr1 & ob & hr2 & -> & Hd & H1 & H2) [[_ [ops [Ho Hr]]]|[X _]]; [|discriminate X].
  destruct (ap_more c hr1 H1 []) as [h1 [A1 B1]]. destruct (ap_more c hr2 H2 h1) as [h2 [A2 B2]].
  unfold p_history in Ho. rewrite !map_app, !fold_left_app, Hd in Ho. cbn [map fold_left snd p_step] in Ho.
  assert (X : fold_left (p_step "p") (config_defs c) None = Some []) by (unfold config_defs; destruct (cf_g c); reflexivity).
  rewrite X, A1 in Ho. cbn [app] in Ho. rewrite A2 in Ho. injection Ho as <-.
  eapply (set_of_ok (fits c)); [|exact Hr]. apply Forall_app. split; assumption.
Qed.

(** ** Values of columns *)
Lemma col_rule c (r : list string) n y : NoDup (columns (cf_p c)) -> List.length r = List.length (ad_args (cf_pd c)) -> nth_error (columns (cf_p c)) n = Some y ->
  GetParameter (cf_pd c) r ("p_" ++ y)%string = nth_error r n.
Proof.
  intros N L H. unfold cf_pd in *. pose proof (GetParameter_nth "p" (cf_p c) r n y N H) as X. cbv zeta in X.
  change ("p" ++ "_" ++ y)%string with ("p_" ++ y)%string in X. change NewArgDef with NewPolicyDef in X. rewrite X, L, Nat.ltb_irrefl. reflexivity.
Qed.
Lemma col_request c (vs : list value) n y : NoDup (columns (cf_r c)) -> List.length vs = List.length (ad_args (cf_rd c)) -> nth_error (columns (cf_r c)) n = Some y ->
  GetParameter (cf_rd c) vs ("r_" ++ y)%string = nth_error vs n.
Proof.
  intros N L H. unfold cf_rd in *. pose proof (GetParameter_nth "r" (cf_r c) vs n y N H) as X. cbv zeta in X.
  change ("r" ++ "_" ++ y)%string with ("r_" ++ y)%string in X. change NewArgDef with NewRequestDef in X. rewrite X, L, Nat.ltb_irrefl. reflexivity.
Qed.
Lemma get_p c (r : rule) rd vs n y a : NoDup (columns (cf_p c)) -> List.length r = List.length (ad_args (cf_pd c)) ->
  nth_error (columns (cf_p c)) n = Some y -> nth_error r n = Some a -> ParamGet (cf_pd c) r rd vs ("p_" ++ y)%string = Val (Some (VStr a)).
Proof. intros N L H V. change ("p_" ++ y)%string with (String "p" ("_" ++ y)%string). cbn [ParamGet Ascii.eqb Bool.eqb orb].
  change (String "p" ("_" ++ y)%string) with ("p_" ++ y)%string. now rewrite (col_rule c r n y N L H), V. Qed.
Lemma get_r c pd (r : rule) (vals : list string) n y a : NoDup (columns (cf_r c)) -> List.length vals = List.length (ad_args (cf_rd c)) ->
  nth_error (columns (cf_r c)) n = Some y -> nth_error vals n = Some a -> ParamGet pd r (cf_rd c) (map VStr vals) ("r_" ++ y)%string = Val (Some (VStr a)).
Proof. intros N L H V. change ("r_" ++ y)%string with (String "r" ("_" ++ y)%string). cbn [ParamGet Ascii.eqb Bool.eqb orb].
  change (String "r" ("_" ++ y)%string) with ("r_" ++ y)%string. rewrite (col_request c (map VStr vals) n y N) by (try assumption; now rewrite map_length).
  f_equal. now apply map_nth_error. Qed.
Lemma eq_value E c F (r : rule) (vals : list string) y np nr a b : compares E y -> NoDup (columns (cf_p c)) -> NoDup (columns (cf_r c)) ->
  List.length r = List.length (ad_args (cf_pd c)) -> List.length vals = List.length (ad_args (cf_rd c)) ->
  nth_error (columns (cf_p c)) np = Some y -> nth_error (columns (cf_r c)) nr = Some y -> nth_error vals nr = Some a -> nth_error r np = Some b ->
  ev (e_eval E F) (eq_text y) (ParamGet (cf_pd c) r (cf_rd c) (map VStr vals)) = Val (inl (VBool (String.eqb a b))).
Proof.
  intros C Np Nr Lr Lv Hp Hr Ha Hb. destruct (C F) as (_ & _ & Ev). apply Ev; [eapply get_r; eauto|eapply get_p; eauto].
Qed.

(** ** C76: access control lists

    Any number of distinct columns, the same in requests and rules, compared one by
    one; every history of rules with a value without a comma for every column,
    around the build; every order of map visits.  A request of strings whose last
    value is not empty is allowed exactly when the rule with those values is
    present, and Filter reports that rule only. *)
Lemma request_vals (vals : list string) : map PVal (map VStr vals) = map (fun v => PVal (VStr v)) vals.
Proof. now rewrite map_map. Qed.
Lemma eq_map xs : map tokensToExpr (map eq_tokens xs) = map eq_text xs.
Proof. rewrite map_map. apply map_ext. apply eq_expr. Qed.
Lemma last_nth {A} (l : list A) n d : List.length l = S n -> nth_error l n = Some (last l d).
Proof.
  revert n. induction l as [|a l IH]; intros n L; [discriminate|]. injection L as L. destruct l as [|b l].
  - cbn in L. subst n. reflexivity.
  - destruct n as [|n]; [discriminate L|]. cbn [nth_error]. rewrite (IH n L). reflexivity.
Qed.

Lemma nth_ext_opt {A} (l l' : list A) : (forall n, nth_error l n = nth_error l' n) -> l = l'.
Proof.
  revert l'. induction l as [|a l IH]; intros [|b l'] H; [reflexivity|discriminate (H 0)|discriminate (H 0)|].
  pose proof (H 0) as X. injection X as ->. f_equal. apply IH. intros n. exact (H (S n)).
Qed.

Theorem C76_access_control_list :
  forall E c x xs h,
    acl E c x xs -> app_history c h -> good_m h ->
    exists m rs, mexec E (NewModel E) h = Val (m, rs) /\
      forall o vals, good_orders o -> List.length vals = List.length (x :: xs) -> last vals ""%string <> ""%string ->
        (exists ms, Filter E o m (map (fun v => PVal (VStr v)) vals) = Val (m, (ms, None)) /\
           forall y, In y ms <-> y = "p"%string :: vals /\ present h y) /\
        exists b, Enforce E o m (map (fun v => PVal (VStr v)) vals) = Val (m, (b, None)) /\
          (b = true <-> present h ("p"%string :: vals)).
Proof.
  intros E c x xs h A Ah G. set (f := all_of (eq_tokens x) (map eq_tokens xs)).
  assert (Tx : map tokensToExpr (eq_tokens x :: map eq_tokens xs) = map eq_text (x :: xs)) by exact (eq_map (x :: xs)).
  assert (Pl : forall y, In y (x :: xs) -> p_args (eq_text y) = [("p_" ++ y)%string]).
  { pose proof (acl_plain _ _ _ _ A) as X. rewrite Forall_forall in X. exact X. }
  assert (R : reads_as E c f).
  { apply all_of_reads; [apply A| |].
    - change (eq_tokens x :: map eq_tokens xs) with (map eq_tokens (x :: xs)). apply Forall_map, Forall_forall. intros y _. apply eq_atom.
    - intros e z He Hz. rewrite Tx in He. apply in_map_iff in He as [y [<- Hy]]. rewrite (Pl y Hy) in Hz. destruct Hz as [<-|[]]. eauto. }
  destruct (C75_decides_by_meaning E c f h R Ah G) as (m & rs & Hm & D). exists m, rs. split; [exact Hm|].
  intros o vals Go Lv Hl. rewrite <- request_vals.
  assert (Lp : List.length (ad_args (cf_pd c)) = List.length (x :: xs)) by (change (ad_args (cf_pd c)) with (columns (cf_p c)); now rewrite (acl_p _ _ _ _ A)).
  assert (Lr : List.length (ad_args (cf_rd c)) = List.length (x :: xs)) by (change (ad_args (cf_rd c)) with (columns (cf_r c)); now rewrite (acl_r _ _ _ _ A)).
  assert (Np : NoDup (columns (cf_p c))) by (rewrite (acl_p _ _ _ _ A); apply A).
  assert (Nr : NoDup (columns (cf_r c))) by (rewrite (acl_r _ _ _ _ A); apply A).
  set (F := functions o m) in *.
  assert (Cm : forall y, In y (x :: xs) -> compares E y) by (apply Forall_forall; apply A).
  assert (Val_of : forall r n y a b, List.length r = List.length (x :: xs) -> nth_error (x :: xs) n = Some y -> nth_error vals n = Some a -> nth_error r n = Some b ->
            ev (e_eval E F) (eq_text y) (ParamGet (cf_pd c) r (cf_rd c) (map VStr vals)) = Val (inl (VBool (String.eqb a b)))).
  { intros r n y a b L Hy Ha Hb. eapply (eq_value E c F r vals y n n); try eassumption; try congruence.
    - apply Cm. eapply nth_error_In; eauto.
    - now rewrite (acl_p _ _ _ _ A).
    - now rewrite (acl_r _ _ _ _ A). }
  assert (At : forall (l : list string) n y, List.length l = List.length (x :: xs) -> nth_error (x :: xs) n = Some y -> exists a, nth_error l n = Some a).
  { intros l n y L Hy. destruct (nth_error l n) eqn:X; [eauto|]. apply nth_error_None in X. assert (n < List.length (x :: xs)) by (apply nth_error_Some; congruence). lia. }
  assert (An : answerable E c f F h (map VStr vals)).
  { apply (answerable_plain _ _ _ _ _ _ Ah).
    - intros e He. unfold f in He. rewrite all_of_conds, Tx in He. apply in_map_iff in He as [y [<- Hy]].
      destruct (Cm y Hy F) as (Pa & Na & _). split; [exact Na|]. intros r L. rewrite Lp in L.
      destruct (In_nth_error _ _ Hy) as [n Hn]. destruct (At r n y L Hn) as [b Hb]. destruct (At vals n y Lv Hn) as [a Ha]. split.
      + intros z Hz. rewrite (Pl y Hy) in Hz. destruct Hz as [<-|[]]. rewrite (col_rule c r n y Np) by (rewrite ?(acl_p _ _ _ _ A); congruence). congruence.
      + split; [exact Pa|]. rewrite (Val_of r n y a b L Hn Ha Hb). eauto.
    - intros e He. unfold f in He. rewrite all_of_lasts in He. destruct He as [<-|[]].
      assert (Ly : tokensToExpr (last (map eq_tokens xs) (eq_tokens x)) = eq_text (last xs x)).
      { rewrite <- eq_expr. f_equal. clear. revert x. induction xs as [|y xs IH]; intros x; [reflexivity|]. cbn [map last]. destruct xs; [reflexivity|]. apply (IH x). }
      rewrite Ly. assert (Hn : nth_error (x :: xs) (List.length xs) = Some (last xs x)).
      { rewrite (last_nth (x :: xs) (List.length xs) x eq_refl). f_equal. destruct xs; reflexivity. }
      assert (Lb : List.length (blank (cf_pd c)) = List.length (x :: xs)) by (unfold blank; now rewrite repeat_length).
      assert (Hb : nth_error (blank (cf_pd c)) (List.length xs) = Some ""%string).
      { destruct (At (blank (cf_pd c)) _ _ Lb Hn) as [b Hb]. rewrite Hb. apply nth_error_In, repeat_spec in Hb. now subst b. }
      unfold holds. rewrite (Val_of _ _ _ (last vals ""%string) ""%string Lb Hn (last_nth vals (List.length xs) ""%string Lv) Hb).
      destruct (String.eqb_spec (last vals ""%string) ""); [contradiction|reflexivity]. }
  assert (Me : forall r, List.length r = List.length (x :: xs) -> (meaning E c f F (map VStr vals) r = true <-> r = vals)).
  { intros r L. unfold meaning, f. rewrite all_of_sem, Tx, forallb_forall. split.
    - intros H. apply nth_ext_opt. intros n. destruct (nth_error (x :: xs) n) as [y|] eqn:Hn.
      + destruct (At r n y L Hn) as [b Hb]. destruct (At vals n y Lv Hn) as [a Ha].
        specialize (H (eq_text y) (in_map _ _ _ (nth_error_In _ _ Hn))). unfold holds in H. rewrite (Val_of r n y a b L Hn Ha Hb) in H.
        destruct (String.eqb_spec a b) as [Eab|]; [|discriminate]. congruence.
      + apply nth_error_None in Hn. transitivity (@None string); [|symmetry]; apply nth_error_None; lia.
    - intros -> e He. apply in_map_iff in He as [y [<- Hy]]. destruct (In_nth_error _ _ Hy) as [n Hn]. destruct (At vals n y Lv Hn) as [a Ha].
      unfold holds. rewrite (Val_of vals n y a a Lv Hn Ha Ha), String.eqb_refl. reflexivity. }
  assert (Ft : forall r, present h ("p"%string :: r) -> List.length r = List.length (x :: xs)).
  { intros r Hr. rewrite <- Lp. now apply (app_fits c h r Ah). }
  destruct (D o (map VStr vals) Go An) as ((ms & HF & Hms) & Hal & _). split.
  - exists ms. split; [exact HF|]. intros y. rewrite Hms. split.
    + intros [r [-> [Hp Hr]]]. split; [|exact Hp]. f_equal. now apply Me, Hr; apply Ft.
    + intros [-> Hp]. exists vals. split; [reflexivity|]. split; [exact Hp|]. now apply Me.
  - destruct (Hal (acl_e _ _ _ _ A)) as [b [HE Hb]]. exists b. split; [exact HE|]. rewrite Hb. split.
    + intros [r [Hp [Hr _]]]. apply Me in Hr; [|now apply Ft]. now subst r.
    + intros Hp. exists vals. split; [exact Hp|]. split; [now apply Me|]. apply C23_no_effect_column.
      change (split_char "," (no_spaces (cf_p c))) with (columns (cf_p c)). rewrite (acl_p _ _ _ _ A). apply A.
Qed.
Print Assumptions C76_access_control_list.

(** ** Applications with a grouping section *)
Lemma app_tame c h : app_history c h -> tame h.
Proof. intros (hd & hr1 & ob & hr2 & -> & Hd & H1 & H2). now apply (a_tame c). Qed.
Lemma app_role E c h t : app_history c h -> cf_g c = Some t -> fn_source E "g" h = Some FRole.
Proof. intros (hd & hr1 & ob & hr2 & -> & Hd & H1 & H2) Hg. rewrite (a_fn' E c) by assumption. unfold config_defs. rewrite Hg. reflexivity. Qed.
Lemma app_links c h x : app_history c h ->
  (forall o1 o2 o3 o4 o5, exists r p e m t, config_defs c = [r; p; CSetDef G_SEC "g"%string t; e; m] /\
     fold_left (g_step "g") [(o1, r); (o2, p); (o3, CSetDef G_SEC "g"%string t); (o4, e); (o5, m)] None = Some (x, [])) ->
  exists calls, g_history "g" h = Some (x, calls).
Proof.
  intros (hd & hr1 & ob & hr2 & -> & Hd & H1 & H2) X. unfold g_history. rewrite !fold_left_app.
  assert (Y : fold_left (g_step "g") hd None = Some (x, [])).
  { destruct (X ob ob ob ob ob) as (r & p & e & m & t & Ed & _). rewrite Ed in Hd.
    destruct hd as [|[o1 ?] [|[o2 ?] [|[o3 ?] [|[o4 ?] [|[o5 ?] [|]]]]]]; try discriminate Hd. cbn [map snd] in Hd. injection Hd as -> -> -> -> ->.
    destruct (X o1 o2 o3 o4 o5) as (r' & p' & e' & m' & t' & Ed' & Y). rewrite Ed in Ed'. injection Ed' as <- <- <- <- <-. exact Y. }
  rewrite Y. destruct (ag_more c hr1 H1 x []) as [l1 ->]. cbn [fold_left g_step]. now apply (ag_more c).
Qed.

(** ** C77: RBAC with domains

    Every history of rules around the build and every order of map visits; requests
    with a non-empty action and a domain that is not a reserved name (C33).  Enforce
    allows exactly the requests some role of the subject in that domain is granted;
    Filter reports the rules that grant them. *)
Lemma dom_atoms : Forall atom_ok [call_tokens dom_args; eq_tokens "dom"; eq_tokens "obj"; eq_tokens "act"].
Proof. repeat (apply Forall_cons; [apply atom_checked; vm_compute; reflexivity|]). apply Forall_nil. Qed.
Definition c_gd : string := "g(r_sub, p_sub, r_dom)".
Lemma dom_texts : map tokensToExpr [call_tokens dom_args; eq_tokens "dom"; eq_tokens "obj"; eq_tokens "act"] =
  [c_gd; eq_text "dom"; eq_text "obj"; eq_text "act"].
Proof. vm_compute. reflexivity. Qed.
Definition has_role_in (h : list (orders * mcall)) (dom sub role : string) : Prop :=
  sub = role \/ exists n, 1 <= n <= 7 /\ chain (fun x y => present h ["g"; x; y; dom]%string) n sub role.

Theorem C77_rbac_with_domains :
  forall E h,
    reads_tokens E dom_config dom_form -> calls E dom_args -> Forall (compares E) ["dom"; "obj"; "act"]%string ->
    app_history dom_config h -> good_m h ->
    exists m rs, mexec E (NewModel E) h = Val (m, rs) /\
      forall o sub dom obj act, good_orders o -> ~ reserved dom -> act <> ""%string ->
        let ps := [PVal (VStr sub); PVal (VStr dom); PVal (VStr obj); PVal (VStr act)] in
        (exists ms, Filter E o m ps = Val (m, (ms, None)) /\
           forall y, In y ms <-> present h y /\ exists role, y = ["p"; role; dom; obj; act]%string /\
             (sub = role \/ exists n, 1 <= n <= 7 /\ chain (fun x y => present h ["g"; x; y; dom]%string) n sub role)) /\
        exists b, Enforce E o m ps = Val (m, (b, None)) /\ (b = true <-> permitted_in h sub dom obj act).
Proof.
  intros E h Rt Ca Cm Ah G. set (f := dom_form). set (c := dom_config) in *.
  assert (R : reads_as E c f).
  { apply all_of_reads; [exact Rt|exact dom_atoms|]. intros e z He Hz. rewrite dom_texts in He.
    destruct He as [<-|[<-|[<-|[<-|[]]]]]; vm_compute in Hz; destruct Hz as [<-|[]]; now eexists. }
  destruct (C75_decides_by_meaning E c f h R Ah G) as (m & rs & Hm & D). exists m, rs. split; [exact Hm|].
  intros o sub dom obj act Go Hd Ha ps. set (F := functions o m) in *. set (vs := map VStr [sub; dom; obj; act]).
  assert (Hg : exists cs, g_history "g" h = Some (IDom (NewDomainManager 10), cs)).
  { apply (app_links c h); [exact Ah|]. intros o1 o2 o3 o4 o5. eexists _, _, _, _, _. split; reflexivity. }
  destruct Hg as [cs Hg].
  destruct (C66_domain_function E h m rs o "g" cs [dom] G Go (app_tame c h Ah) Hm eq_refl (app_role E c h _ Ah eq_refl) Hg) as [fg [Fg Hfg]].
  { constructor; [exact Hd|constructor]. }
  assert (Vg : forall b, exists v, fg [VStr sub; VStr b; VStr dom] = Val (inl (VBool v)) /\ (v = true <-> has_role_in h dom sub b)).
  { intros b. destruct (Hfg sub b) as [v [A B]]. exists v. split; [exact A|]. rewrite B. unfold has_role_in. cbn [List.length].
    split; (intros [X|[n X]]; [now left|right; exists n]); [destruct X as (X1 & X2 & X3); split; [lia|exact X3]|destruct X as [X1 X3]; repeat split; try lia; exact X3]. }
  destruct (Ca F fg Fg) as (Pg & Ng & Eg). change (tokensToExpr (call_tokens dom_args)) with c_gd in *.
  assert (Cd : compares E "dom") by exact (Forall_inv Cm).
  assert (Co : compares E "obj") by exact (Forall_inv (Forall_inv_tail Cm)).
  assert (Ct : compares E "act") by exact (Forall_inv (Forall_inv_tail (Forall_inv_tail Cm))).
  destruct (Cd F) as (Pd & Nd & Ed). destruct (Co F) as (Po & No & Eo). destruct (Ct F) as (Pt & Nt & Et).
  assert (Vr : forall a d b t, ev (e_eval E F) c_gd (ParamGet (cf_pd c) [a; d; b; t] (cf_rd c) vs) = fg [VStr sub; VStr a; VStr dom])
    by (intros; apply Eg; repeat constructor).
  assert (Vd : forall a d b t, ev (e_eval E F) (eq_text "dom") (ParamGet (cf_pd c) [a; d; b; t] (cf_rd c) vs) = Val (inl (VBool (String.eqb dom d))))
    by (intros; apply Ed; reflexivity).
  assert (Vo : forall a d b t, ev (e_eval E F) (eq_text "obj") (ParamGet (cf_pd c) [a; d; b; t] (cf_rd c) vs) = Val (inl (VBool (String.eqb obj b))))
    by (intros; apply Eo; reflexivity).
  assert (Vt : forall a d b t, ev (e_eval E F) (eq_text "act") (ParamGet (cf_pd c) [a; d; b; t] (cf_rd c) vs) = Val (inl (VBool (String.eqb act t))))
    by (intros; apply Et; reflexivity).
  assert (Four : forall r : rule, List.length r = List.length (ad_args (cf_pd c)) -> exists a d b t, r = [a; d; b; t]).
  { intros r L. change (List.length (ad_args (cf_pd c))) with 4 in L. destruct r as [|a [|d [|b [|t [|]]]]]; try discriminate. eauto. }
  assert (An : answerable E c f F h vs).
  { apply (answerable_plain _ _ _ _ _ _ Ah).
    - intros e He. unfold f, dom_form in He. rewrite all_of_conds, dom_texts in He.
      split; [destruct He as [<-|[<-|[<-|[<-|[]]]]]; assumption|]. intros r L. destruct (Four r L) as (a & d & b & t & ->). split.
      + intros z Hz. destruct He as [<-|[<-|[<-|[<-|[]]]]]; vm_compute in Hz; destruct Hz as [<-|[]]; discriminate.
      + destruct He as [<-|[<-|[<-|[<-|[]]]]]; (split; [assumption|]);
          [rewrite Vr; destruct (Vg a) as [v [-> _]]|rewrite Vd|rewrite Vo|rewrite Vt]; eauto.
    - intros e He. unfold f, dom_form in He. rewrite all_of_lasts in He. destruct He as [<-|[]].
      change (tokensToExpr (last [eq_tokens "dom"; eq_tokens "obj"; eq_tokens "act"] (call_tokens dom_args))) with (eq_text "act").
      unfold holds. change (blank (cf_pd c)) with [""; ""; ""; ""]%string. rewrite Vt. destruct (String.eqb_spec act ""); [contradiction|reflexivity]. }
  assert (Me : forall a d b t, meaning E c f F vs [a; d; b; t] = true <-> has_role_in h dom sub a /\ d = dom /\ b = obj /\ t = act).
  { intros a d b t. unfold meaning, f, dom_form. rewrite all_of_sem, dom_texts. cbn [forallb]. unfold holds. rewrite Vr, Vd, Vo, Vt.
    destruct (Vg a) as [v [-> Hv]]. rewrite <- Hv.
    destruct v, (String.eqb_spec dom d), (String.eqb_spec obj b), (String.eqb_spec act t); cbn; intuition congruence. }
  assert (Ft : forall r, present h ("p"%string :: r) -> exists a d b t, r = [a; d; b; t]) by (intros r Hr; now apply Four, (app_fits c h r Ah)).
  destruct (D o vs Go An) as ((ms & HF & Hms) & Hal & _). change (map PVal vs) with ps in *. split.
  - exists ms. split; [exact HF|]. intros y. rewrite Hms. split.
    + intros [r [-> [Hp Hr]]]. destruct (Ft r Hp) as (a & d & b & t & ->). apply Me in Hr as [Hr [-> [-> ->]]]. split; [exact Hp|]. exists a. split; [reflexivity|exact Hr].
    + intros [Hp [role [-> Hr]]]. exists [role; dom; obj; act]. split; [reflexivity|]. split; [exact Hp|]. now apply Me.
  - destruct (Hal eq_refl) as [b [HE Hb]]. exists b. split; [exact HE|]. rewrite Hb. split.
    + intros [r [Hp [Hr _]]]. destruct (Ft r Hp) as (a & d & b0 & t & ->). apply Me in Hr as [Hr [-> [-> ->]]]. exists a. split; [exact Hp|exact Hr].
    + intros [role [Hp Hr]]. exists [role; dom; obj; act]. split; [exact Hp|]. split; [now apply Me|]. reflexivity.
Qed.
Print Assumptions C77_rbac_with_domains.

(** ** C78: RBAC with denials

    Rules carry the effect in a fourth column; every present rule says allow or
    deny.  A request is allowed exactly when some role of the subject is allowed and
    none is denied: a denial wins whatever the order of the rules. *)
Lemma deny_atoms : Forall atom_ok [call_tokens deny_args; eq_tokens "obj"; eq_tokens "act"].
Proof. repeat (apply Forall_cons; [apply atom_checked; vm_compute; reflexivity|]). apply Forall_nil. Qed.
Definition c_g2 : string := "g(r_sub, p_sub)".
Lemma deny_texts : map tokensToExpr [call_tokens deny_args; eq_tokens "obj"; eq_tokens "act"] = [c_g2; eq_text "obj"; eq_text "act"].
Proof. vm_compute. reflexivity. Qed.
Definition has_role_of (h : list (orders * mcall)) (sub role : string) : Prop :=
  sub = role \/ exists n, 1 <= n <= 9 /\ chain (fun x y => present h ["g"; x; y]%string) n sub role.

Theorem C78_rbac_with_denials :
  forall E h,
    reads_tokens E deny_config deny_form -> calls E deny_args -> Forall (compares E) ["obj"; "act"]%string ->
    app_history deny_config h -> good_m h ->
    (forall sub obj act eft, present h ["p"; sub; obj; act; eft]%string -> eft = "allow"%string \/ eft = "deny"%string) ->
    exists m rs, mexec E (NewModel E) h = Val (m, rs) /\
      forall o sub obj act, good_orders o -> act <> ""%string ->
        exists b, Enforce E o m [PVal (VStr sub); PVal (VStr obj); PVal (VStr act)] = Val (m, (b, None)) /\
          (b = true <-> ruled h sub obj act "allow" /\ ~ ruled h sub obj act "deny").
Proof.
  intros E h Rt Ca Cm Ah G Ad. set (f := deny_form). set (c := deny_config) in *.
  assert (R : reads_as E c f).
  { apply all_of_reads; [exact Rt|exact deny_atoms|]. intros e z He Hz. rewrite deny_texts in He.
    destruct He as [<-|[<-|[<-|[]]]]; vm_compute in Hz; destruct Hz as [<-|[]]; now eexists. }
  destruct (C75_decides_by_meaning E c f h R Ah G) as (m & rs & Hm & D). exists m, rs. split; [exact Hm|].
  intros o sub obj act Go Ha. set (F := functions o m) in *. set (vs := map VStr [sub; obj; act]).
  assert (Hg : exists cs, g_history "g" h = Some (IRole (NewRoleManager 10), cs)).
  { apply (app_links c h); [exact Ah|]. intros o1 o2 o3 o4 o5. eexists _, _, _, _, _. split; reflexivity. }
  destruct Hg as [cs Hg].
  destruct (C66_role_function E h m rs o "g" cs G Go (app_tame c h Ah) Hm eq_refl (app_role E c h _ Ah eq_refl) Hg) as [fg [Fg Hfg]].
  assert (Vg : forall b, exists v, fg [VStr sub; VStr b] = Val (inl (VBool v)) /\ (v = true <-> has_role_of h sub b)) by (intros b; apply (Hfg sub b [])).
  destruct (Ca F fg Fg) as (Pg & Ng & Eg). change (tokensToExpr (call_tokens deny_args)) with c_g2 in *.
  assert (Co : compares E "obj") by exact (Forall_inv Cm).
  assert (Ct : compares E "act") by exact (Forall_inv (Forall_inv_tail Cm)).
  destruct (Co F) as (Po & No & Eo). destruct (Ct F) as (Pt & Nt & Et).
  assert (Vr : forall a b t e, ev (e_eval E F) c_g2 (ParamGet (cf_pd c) [a; b; t; e] (cf_rd c) vs) = fg [VStr sub; VStr a])
    by (intros; apply Eg; repeat constructor).
  assert (Vo : forall a b t e, ev (e_eval E F) (eq_text "obj") (ParamGet (cf_pd c) [a; b; t; e] (cf_rd c) vs) = Val (inl (VBool (String.eqb obj b))))
    by (intros; apply Eo; reflexivity).
  assert (Vt : forall a b t e, ev (e_eval E F) (eq_text "act") (ParamGet (cf_pd c) [a; b; t; e] (cf_rd c) vs) = Val (inl (VBool (String.eqb act t))))
    by (intros; apply Et; reflexivity).
  assert (Four : forall r : rule, List.length r = List.length (ad_args (cf_pd c)) -> exists a b t e, r = [a; b; t; e]).
  { intros r L. change (List.length (ad_args (cf_pd c))) with 4 in L. destruct r as [|a [|d [|b [|t [|]]]]]; try discriminate. eauto. }
  assert (An : answerable E c f F h vs).
  { apply (answerable_plain _ _ _ _ _ _ Ah).
    - intros e He. unfold f, deny_form in He. rewrite all_of_conds, deny_texts in He.
      split; [destruct He as [<-|[<-|[<-|[]]]]; assumption|]. intros r L. destruct (Four r L) as (a & d & b & t & ->). split.
      + intros z Hz. destruct He as [<-|[<-|[<-|[]]]]; vm_compute in Hz; destruct Hz as [<-|[]]; discriminate.
      + destruct He as [<-|[<-|[<-|[]]]]; (split; [assumption|]); [rewrite Vr; destruct (Vg a) as [v [-> _]]|rewrite Vo|rewrite Vt]; eauto.
    - intros e He. unfold f, deny_form in He. rewrite all_of_lasts in He. destruct He as [<-|[]].
      change (tokensToExpr (last [eq_tokens "obj"; eq_tokens "act"] (call_tokens deny_args))) with (eq_text "act").
      unfold holds. change (blank (cf_pd c)) with [""; ""; ""; ""]%string. rewrite Vt. destruct (String.eqb_spec act ""); [contradiction|reflexivity]. }
  assert (Me : forall a b t e, meaning E c f F vs [a; b; t; e] = true <-> has_role_of h sub a /\ b = obj /\ t = act).
  { intros a b t e. unfold meaning, f, deny_form. rewrite all_of_sem, deny_texts. cbn [forallb]. unfold holds. rewrite Vr, Vo, Vt.
    destruct (Vg a) as [v [-> Hv]]. rewrite <- Hv. destruct v, (String.eqb_spec obj b), (String.eqb_spec act t); cbn; intuition congruence. }
  assert (Ft : forall r, present h ("p"%string :: r) -> exists a b t e, r = [a; b; t; e]) by (intros r Hr; now apply Four, (app_fits c h r Ah)).
  assert (Ef : forall a b t e, GetEft (cf_pd c) ["p"; a; b; t; e]%string = effect_of_text e).
  { intros a b t e. apply (C23_effect_column_partial "p" "sub, obj, act, eft" [a; b; t; e] 3); try reflexivity.
    unfold distinct_args. vm_compute. repeat constructor; cbn; intuition discriminate. }
  assert (Mt : forall ef e, effect_of_text e = ef -> (forall e', e' = "allow"%string \/ e' = "deny"%string -> effect_of_text e' = ef -> e' = e) ->
            matched E c f F h vs ef <-> ruled h sub obj act e).
  { intros ef e He Hu. split.
    - intros [r [Hp [Hr He']]]. destruct (Ft r Hp) as (a & b & t & e' & ->). apply Me in Hr as [Hr [-> ->]]. rewrite Ef in He'.
      rewrite (Hu e' (Ad _ _ _ _ Hp) He') in Hp. exists a. split; [exact Hp|exact Hr].
    - intros [role [Hp Hr]]. exists [role; obj; act; e]. split; [exact Hp|]. split; [now apply Me|]. now rewrite Ef. }
  destruct (D o vs Go An) as (_ & _ & _ & Hal). destruct (Hal eq_refl) as [b [HE Hb]].
  { intros [r [Hp [_ He']]]. destruct (Ft r Hp) as (a & b & t & e' & ->). rewrite Ef in He'. destruct (Ad _ _ _ _ Hp) as [-> | ->]; discriminate. }
  assert (Ma : matched E c f F h vs Allow <-> ruled h sub obj act "allow") by (apply Mt; [reflexivity|]; intros e' [-> | ->]; cbn; congruence).
  assert (Md : matched E c f F h vs Deny <-> ruled h sub obj act "deny") by (apply Mt; [reflexivity|]; intros e' [-> | ->]; cbn; congruence).
  exists b. split; [exact HE|]. rewrite Hb. cbv zeta. fold F. rewrite <- Ma, <- Md. reflexivity.
Qed.
Print Assumptions C78_rbac_with_denials.

(** ** Evaluators that read these matchers, and histories *)
Definition app_env (c : config) (f : form) : env :=
  mkEnv (fun n => n)
    (fun fns s => if String.eqb s (arg_replace (cf_m c)) then
                    match cf_g c with
                    | Some _ => if in_dec string_dec "g"%string fns then Some (written f) else None
                    | None => Some (written f)
                    end
                  else None)
    (fun fs => mini (match fs "g"%string with Some f => [("g"%string, f)] | None => [] end)) [].
Lemma app_env_reads c f : reads_tokens (app_env c f) c f.
Proof.
  split; intros fns; cbn [e_parse app_env]; rewrite String.eqb_refl.
  - intros Hg _. destruct (cf_g c); [|reflexivity]. destruct (in_dec string_dec "g"%string fns) as [|n]; [reflexivity|]. destruct n. now apply Hg.
  - destruct (cf_g c); [|now left]. destruct (in_dec string_dec "g"%string fns); auto.
Qed.
Ltac cmp_tac := intros F; split; [reflexivity|]; split;
  [intros get get' A B; cbn; match goal with |- context [get ?x] => rewrite ?(A x), ?(B x) by (try discriminate; now left) end;
   repeat match goal with |- context [get ?x] => first [rewrite (A x) by (now left)|rewrite (B x) by discriminate] end; reflexivity
  |intros get a b Ha Hb; cbn in Ha, Hb |- *; rewrite Ha, Hb; reflexivity].
Lemma cmp_sub c f : compares (app_env c f) "sub". Proof. cmp_tac. Qed.
Lemma cmp_dom c f : compares (app_env c f) "dom". Proof. cmp_tac. Qed.
Lemma cmp_obj c f : compares (app_env c f) "obj". Proof. cmp_tac. Qed.
Lemma cmp_act c f : compares (app_env c f) "act". Proof. cmp_tac. Qed.
Lemma calls_dom c f : calls (app_env c f) dom_args.
Proof.
  intros F g Hg. cbn [e_eval app_env]. rewrite Hg. split; [reflexivity|]. split.
  - intros get get' A B. cbn. rewrite (A "p_sub"%string), (B "r_sub"%string), (B "r_dom"%string) by (try discriminate; now left). reflexivity.
  - intros get vs H. unfold dom_args in H. inversion H as [|? v1 ? l1 G1 H1]; subst. inversion H1 as [|? v2 ? l2 G2 H2]; subst.
    inversion H2 as [|? v3 ? l3 G3 H3]; subst. inversion H3; subst. cbn. now rewrite G1, G2, G3.
Qed.
Lemma calls_deny c f : calls (app_env c f) deny_args.
Proof.
  intros F g Hg. cbn [e_eval app_env]. rewrite Hg. split; [reflexivity|]. split.
  - intros get get' A B. cbn. rewrite (A "p_sub"%string), (B "r_sub"%string) by (try discriminate; now left). reflexivity.
  - intros get vs H. unfold deny_args in H. inversion H as [|? v1 ? l1 G1 H1]; subst. inversion H1 as [|? v2 ? l2 G2 H2]; subst.
    inversion H2; subst. cbn. now rewrite G1, G2.
Qed.
Definition app_setup (c : config) : list (orders * mcall) := map (fun x => (ex_o, x)) (config_defs c).
Definition app_h (c : config) (l1 l2 : list mcall) : list (orders * mcall) :=
  app_setup c ++ map (fun x => (ex_rev, x)) l1 ++ (ex_rev, CBuild) :: map (fun x => (ex_o, x)) l2.
Lemma app_h_good c l1 l2 : good_m (app_h c l1 l2).
Proof.
  unfold good_m, app_h, app_setup. apply Forall_app. split; [|apply Forall_app; split; [|constructor; [apply ex_rev_good|]]];
    apply Forall_map, Forall_forall; intros x _; first [apply ex_o_good|apply ex_rev_good].
Qed.
Lemma app_h_app c l1 l2 : Forall (app_call c) l1 -> Forall (app_call c) l2 -> app_history c (app_h c l1 l2).
Proof.
  intros F1 F2. exists (app_setup c), (map (fun x => (ex_rev, x)) l1), ex_rev, (map (fun x => (ex_o, x)) l2).
  split; [reflexivity|]. split; [|split; apply Forall_map; assumption]. unfold app_setup. rewrite map_map. apply map_id.
Qed.
Definition ask (E : env) (h : list (orders * mcall)) (vals : list string) : outcome (bool * option goerr) :=
  let! (m, _) := mexec E (NewModel E) h in let! (_, r) := Enforce E ex_rev m (map (fun v => PVal (VStr v)) vals) in Val r.
Ltac call_tac := repeat (apply Forall_cons; [cbn; first
  [left; eexists; split; [reflexivity|]; split; [split; [discriminate|repeat (apply Forall_cons; [reflexivity|]); apply Forall_nil]|reflexivity]
  |right; eexists _, _, _; split; [reflexivity|]; split; [discriminate|]; repeat (apply Forall_cons; [intros [X|X]; discriminate X|]); apply Forall_nil
  |now left|now right]|]); apply Forall_nil.

(** An access control list of three columns: alice reads data1; bob's right is
    added and revoked. *)
Definition acl_config : config :=
  mkCfg "sub, obj, act" "sub, obj, act" None "some(where (p.eft == allow))" "r.sub == p.sub && r.obj == p.obj && r.act == p.act".
Definition acl_form : form := all_of (eq_tokens "sub") (map eq_tokens ["obj"; "act"]%string).
Definition acl_env : env := app_env acl_config acl_form.
Definition acl_h : list (orders * mcall) := app_h acl_config
  [CAdd ["p"; "alice"; "data1"; "read"]; CAdd ["p"; "bob"; "data2"; "write"]]%string
  [CAdd ["p"; "carol"; "data2"; "read"]; CRemove ["p"; "bob"; "data2"; "write"]]%string.
Lemma acl_is : acl acl_env acl_config "sub" ["obj"; "act"]%string.
Proof.
  constructor; try reflexivity.
  - repeat constructor; cbn; intuition discriminate.
  - cbn. intuition discriminate.
  - repeat constructor.
  - apply app_env_reads.
  - repeat (apply Forall_cons; [first [apply cmp_sub|apply cmp_obj|apply cmp_act]|]); apply Forall_nil.
Qed.
Example C76_ex :
  acl acl_env acl_config "sub" ["obj"; "act"]%string /\ app_history acl_config acl_h /\ good_m acl_h /\
  ask acl_env acl_h ["alice"; "data1"; "read"]%string = Val (true, None) /\ ask acl_env acl_h ["carol"; "data2"; "read"]%string = Val (true, None) /\
  ask acl_env acl_h ["bob"; "data2"; "write"]%string = Val (false, None) /\ ask acl_env acl_h ["alice"; "data2"; "read"]%string = Val (false, None).
Proof.
  split; [exact acl_is|]. split; [apply app_h_app; call_tac|]. split; [apply app_h_good|]. repeat split; vm_compute; reflexivity.
Qed.

(** RBAC with domains: alice is an admin in domain1 through the role manager. *)
Definition dom_env : env := app_env dom_config dom_form.
Definition dom_h : list (orders * mcall) := app_h dom_config
  [CAdd ["p"; "admin"; "domain1"; "data1"; "read"]; CAdd ["p"; "admin"; "domain2"; "data2"; "read"]; CAdd ["g"; "alice"; "manager"; "domain1"]]%string
  [CAdd ["g"; "manager"; "admin"; "domain1"]; CAdd ["g"; "bob"; "admin"; "domain2"]]%string.
Example C77_ex :
  reads_tokens dom_env dom_config dom_form /\ calls dom_env dom_args /\ Forall (compares dom_env) ["dom"; "obj"; "act"]%string /\
  app_history dom_config dom_h /\ good_m dom_h /\ ~ reserved "domain1" /\
  ask dom_env dom_h ["alice"; "domain1"; "data1"; "read"]%string = Val (true, None) /\
  ask dom_env dom_h ["alice"; "domain2"; "data2"; "read"]%string = Val (false, None) /\
  ask dom_env dom_h ["bob"; "domain2"; "data2"; "read"]%string = Val (true, None).
Proof.
  split; [apply app_env_reads|]. split; [apply calls_dom|]. split; [repeat (apply Forall_cons; [first [apply cmp_dom|apply cmp_obj|apply cmp_act]|]); apply Forall_nil|].
  split; [apply app_h_app; call_tac|]. split; [apply app_h_good|]. split; [intros [X|X]; discriminate X|]. repeat split; vm_compute; reflexivity.
Qed.

(** RBAC with denials: admins may write data1, alice is an admin but denied. *)
Definition deny_env : env := app_env deny_config deny_form.
Definition deny_h : list (orders * mcall) := app_h deny_config
  [CAdd ["p"; "admin"; "data1"; "write"; "allow"]; CAdd ["g"; "alice"; "admin"]]%string
  [CAdd ["p"; "alice"; "data1"; "write"; "deny"]; CAdd ["g"; "bob"; "admin"]]%string.
Example C78_ex :
  reads_tokens deny_env deny_config deny_form /\ calls deny_env deny_args /\ Forall (compares deny_env) ["obj"; "act"]%string /\
  app_history deny_config deny_h /\ good_m deny_h /\
  (forall sub obj act eft, present deny_h ["p"; sub; obj; act; eft]%string -> eft = "allow"%string \/ eft = "deny"%string) /\
  ask deny_env deny_h ["alice"; "data1"; "write"]%string = Val (false, None) /\
  ask deny_env deny_h ["bob"; "data1"; "write"]%string = Val (true, None) /\
  ask deny_env deny_h ["carol"; "data1"; "write"]%string = Val (false, None).
Proof.
  split; [apply app_env_reads|]. split; [apply calls_deny|]. split; [repeat (apply Forall_cons; [first [apply cmp_obj|apply cmp_act]|]); apply Forall_nil|].
  assert (A : app_history deny_config deny_h) by (apply app_h_app; call_tac).
  split; [exact A|]. split; [apply app_h_good|]. split; [|repeat split; vm_compute; reflexivity].
  intros sub obj act eft [[_ [ops [Ho Hr]]]|[X _]]; [|discriminate X]. vm_compute in Ho. injection Ho as <-.
  refine (set_of_ok (fun r => last r ""%string = "allow"%string \/ last r ""%string = "deny"%string) _ _ _ Hr).
  repeat (apply Forall_cons; [cbn; auto|]). apply Forall_nil.
Qed.

(** The same application with a matcher of two alternatives. *)
Definition or_config : config :=
  mkCfg "sub, obj, act" "sub, obj, act" None "some(where (p.eft == allow))"
        "r.sub == p.sub && r.act == p.act || r.obj == p.obj && r.act == p.act".
Definition or_form : form :=
  FOr (FAnd (FAtom (eq_tokens "sub")) (FAtom (eq_tokens "act"))) (FAnd (FAtom (eq_tokens "obj")) (FAtom (eq_tokens "act"))).
Definition or_env : env := app_env or_config or_form.
Definition or_h : list (orders * mcall) := app_h or_config
  [CAdd ["p"; "alice"; "data1"; "read"]; CAdd ["p"; "bob"; "data2"; "write"]]%string
  [CAdd ["p"; "carol"; "data2"; "read"]; CRemove ["p"; "bob"; "data2"; "write"]]%string.
Lemma or_reads : reads_as or_env or_config or_form.
Proof.
  destruct (app_env_reads or_config or_form) as [R1 R2]. constructor; auto; try reflexivity.
  - cbn [atoms_ok or_form]. repeat split; apply eq_atom.
  - cbn. tauto.
  - intros e x He Hx. vm_compute in He. repeat (destruct He as [<-|He]; [vm_compute in Hx; destruct Hx as [<-|[]]; now eexists|]). destruct He.
Qed.
Lemma or_answers F h vals : app_history or_config h -> List.length vals = 3 -> last vals ""%string <> ""%string -> answerable or_env or_config or_form F h (map VStr vals).
Proof.
  destruct vals as [|s [|ob [|a [|]]]]; try discriminate. intros Ah _ Ha. cbn in Ha.
  assert (V : forall y n u v (r : rule), In (y, n) [("sub", 0); ("obj", 1); ("act", 2)]%string -> List.length r = 3 ->
            nth_error [s; ob; a] n = Some u -> nth_error r n = Some v ->
            ev (e_eval or_env F) (eq_text y) (ParamGet (cf_pd or_config) r (cf_rd or_config) (map VStr [s; ob; a])) = Val (inl (VBool (String.eqb u v)))).
  { intros y n u v r Hy L Hu Hv. destruct Hy as [Hy|[Hy|[Hy|[]]]]; injection Hy as <- <-;
      (eapply eq_value; [first [apply cmp_sub|apply cmp_obj|apply cmp_act]| | |exact L|reflexivity| | |exact Hu|exact Hv]; try reflexivity;
       repeat constructor; cbn; intuition discriminate). }
  apply (answerable_plain _ _ _ _ _ _ Ah).
  - intros e He. change (conds or_form) with [eq_text "sub"; eq_text "act"; eq_text "obj"; eq_text "act"] in He. split.
    + destruct He as [<-|[<-|[<-|[<-|[]]]]]; first [apply (cmp_sub or_config or_form F)|apply (cmp_obj or_config or_form F)|apply (cmp_act or_config or_form F)].
    + intros r L. change (List.length (ad_args (cf_pd or_config))) with 3 in L. destruct r as [|x [|y [|z [|]]]]; try discriminate.
      split; [destruct He as [<-|[<-|[<-|[<-|[]]]]]; intros q Hq; vm_compute in Hq; destruct Hq as [<-|[]]; discriminate|].
      destruct He as [<-|[<-|[<-|[<-|[]]]]]; (split; [reflexivity|]); eexists.
      * apply (V "sub"%string 0); cbn; auto.
      * apply (V "act"%string 2); cbn; auto.
      * apply (V "obj"%string 1); cbn; auto.
      * apply (V "act"%string 2); cbn; auto.
  - intros e He. change (lasts or_form) with [eq_text "act"; eq_text "act"] in He.
    assert (e = eq_text "act") as -> by (destruct He as [<-|[<-|[]]]; reflexivity).
    unfold holds. rewrite (V "act"%string 2 a ""%string) by (cbn; auto). destruct (String.eqb_spec a ""); [contradiction|reflexivity].
Qed.
Example C75_ex :
  reads_as or_env or_config or_form /\ app_history or_config or_h /\ good_m or_h /\
  (forall F, answerable or_env or_config or_form F or_h (map VStr ["alice"; "data2"; "read"]%string)) /\
  ask or_env or_h ["alice"; "data9"; "read"]%string = Val (true, None) /\ ask or_env or_h ["dave"; "data2"; "read"]%string = Val (true, None) /\
  ask or_env or_h ["bob"; "data9"; "write"]%string = Val (false, None) /\ ask or_env or_h ["dave"; "data2"; "write"]%string = Val (false, None).
Proof.
  split; [exact or_reads|]. split; [apply app_h_app; call_tac|]. split; [apply app_h_good|].
  split; [intros F; apply or_answers; [apply app_h_app; call_tac|reflexivity|discriminate]|]. repeat split; vm_compute; reflexivity.
Qed.
