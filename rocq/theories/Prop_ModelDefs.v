(** Properties C54, C56 and C57: the definitions of a model, and C10/C13 for the
    matchers a model has built. *)
From Verif Require Import GoBase GoBaseP DefsM DefsP PolicyM PolicySpec PolicyP MatcherDefM MatcherM MatcherSpec
  RbacM RbacSpec DomainM DomainSpec Prop_Rbac EvalM ModelM ModelSpec ModelP ModelP2 ModelP3 ModelP4 ModelP5 ModelP6 Prop_Model.
From Coq Require Import Sorted.

(** ** C54: printing and reading definitions *)

Lemma no_spaces_app a b : no_spaces (a ++ b) = (no_spaces a ++ no_spaces b)%string.
Proof.
  induction a as [|c a IH]; [reflexivity|]. cbn [append no_spaces]. rewrite IH. now destruct (Ascii.eqb c " ").
Qed.
Lemma no_spaces_free s : has_char " " s = false -> no_spaces s = s.
Proof.
  induction s as [|c s IH]; [reflexivity|]. cbn [has_char no_spaces]. rewrite (Ascii.eqb_sym " " c).
  destruct (Ascii.eqb c " "); [discriminate|]. intros H. now rewrite IH.
Qed.
Lemma free_no_spaces s : has_char " " (no_spaces s) = false.
Proof.
  induction s as [|c s IH]; [reflexivity|]. cbn [no_spaces]. destruct (Ascii.eqb c " ") eqn:E; [exact IH|].
  cbn [has_char]. now rewrite Ascii.eqb_sym, E.
Qed.
Lemma has_char_split c d s x : has_char c s = false -> In x (split_char d s) -> has_char c x = false.
Proof.
  revert x. induction s as [|e s IH]; intros x H Hx; [destruct Hx as [<-|[]]; reflexivity|].
  cbn [has_char] in H. cbn [split_char] in Hx. destruct (Ascii.eqb c e) eqn:H1; [discriminate|]. destruct (Ascii.eqb d e).
  - destruct Hx as [<-|Hx]; [reflexivity|auto].
  - destruct (split_char d s) as [|y l]; [destruct Hx as [<-|[]]; cbn [has_char]; now rewrite H1|].
    destruct Hx as [<-|Hx]; [cbn [has_char]; rewrite H1; apply IH; [exact H|now left]|apply IH; [exact H|now right]].
Qed.
Lemma no_spaces_join l : Forall (fun x => has_char " " x = false) l -> no_spaces (join ", " l) = join "," l.
Proof.
  induction 1 as [|x l Hx H IH]; [reflexivity|]. cbn [join]. destruct l as [|y l]; [now apply no_spaces_free|].
  rewrite !no_spaces_app, IH, (no_spaces_free x Hx). reflexivity.
Qed.

Lemma args_back s : split_char "," (no_spaces (join ", " (split_char "," (no_spaces s)))) = split_char "," (no_spaces s).
Proof.
  rewrite no_spaces_join.
  - now rewrite join_split.
  - apply Forall_forall. intros x. apply has_char_split, free_no_spaces.
Qed.

(** Every definition text, of every section: what the definition prints after
    its key is a text that reads as the same definition. *)
Theorem C54_definitions :
  forall k v : string,
    (exists t, argdef_String (NewRequestDef k v) = (k ++ " = " ++ t)%string /\ NewRequestDef k t = NewRequestDef k v) /\
    (exists t, argdef_String (NewPolicyDef k v) = (k ++ " = " ++ t)%string /\ NewPolicyDef k t = NewPolicyDef k v) /\
    (exists t, roledef_String (NewRoleDef k v) = (k ++ " = " ++ t)%string /\ NewRoleDef k t = NewRoleDef k v) /\
    (exists t, effdef_String (NewEffectDef k v) = (k ++ " = " ++ t)%string /\ NewEffectDef k t = NewEffectDef k v) /\
    matcherdef_String k v = (k ++ " = " ++ v)%string.
Proof.
  intros k v.
  assert (A : exists t, argdef_String (NewArgDef k v) = (k ++ " = " ++ t)%string /\ NewArgDef k t = NewArgDef k v).
  { exists (join ", " (split_char "," (no_spaces v))). split; [reflexivity|]. unfold NewArgDef. now rewrite args_back. }
  split; [exact A|]. split; [exact A|]. split; [|split; [|reflexivity]].
  - exists (join "," (repeat "_"%string (rd_nargs (NewRoleDef k v)))). split; [reflexivity|]. unfold NewRoleDef. cbn [rd_nargs]. f_equal.
    set (n := List.length (split_char "," v)). assert (Hn : n <> 0).
    { unfold n. pose proof (split_char_nonempty "," v). destruct (split_char "," v); [congruence|discriminate]. }
    rewrite split_join; [apply repeat_length|destruct n; [congruence|discriminate]|].
    apply Forall_forall. intros x Hx. apply repeat_spec in Hx as ->. reflexivity.
  - exists (no_spaces v). split; [reflexivity|]. unfold NewEffectDef. now rewrite (no_spaces_free _ (free_no_spaces v)).
Qed.
Print Assumptions C54_definitions.

Example C54_definitions_ex :
  argdef_String (NewPolicyDef "p" "sub,obj ,  act") = "p = sub, obj, act"%string /\
  roledef_String (NewRoleDef "g" "_, _ , _") = "g = _,_,_"%string.
Proof. vm_compute. auto. Qed.

(** *** The text of a model *)
Lemma insert_perm k l : Permutation (insert_key k l) (k :: l).
Proof.
  induction l as [|x l IH]; cbn; [reflexivity|]. destruct (String.leb k x); [reflexivity|]. rewrite IH. apply perm_swap.
Qed.
Lemma sort_perm l : Permutation (sort_keys l) l.
Proof. induction l as [|x l IH]; cbn; [reflexivity|]. rewrite insert_perm. now constructor. Qed.

Lemma leb_false k x : String.leb k x = false -> String.compare x k = Lt.
Proof.
  unfold String.leb. intros H. rewrite String.compare_antisym. destruct (String.compare k x); try discriminate. reflexivity.
Qed.
Lemma leb_true k x : String.leb k x = true -> k <> x -> String.compare k x = Lt.
Proof.
  unfold String.leb. intros H N. destruct (String.compare k x) eqn:E; try discriminate; [|reflexivity].
  apply String.compare_eq_iff in E. contradiction.
Qed.
Definition before (a b : string) : Prop := String.compare a b = Lt.
Lemma insert_sorted k l : Sorted before l -> ~ In k l -> Sorted before (insert_key k l).
Proof.
  induction 1 as [|x l H IH Hd]; intros N; cbn; [repeat constructor|].
  destruct (String.leb k x) eqn:E.
  - constructor; [now constructor|]. constructor. apply leb_true; [exact E|]. intros ->. apply N. now left.
  - constructor; [apply IH; intros C; apply N; now right|]. destruct l as [|y l]; cbn; [constructor; now apply leb_false|].
    destruct (String.leb k y); constructor; [now apply leb_false|]. now inversion Hd.
Qed.
Lemma sort_sorted l : NoDup l -> Sorted before (sort_keys l).
Proof.
  induction 1 as [|x l Hx N IH]; cbn; [constructor|]. apply insert_sorted; [exact IH|].
  intros C. apply Hx. eapply Permutation_in; [apply sort_perm|exact C].
Qed.

Lemma lines_concat (line : string -> string) l :
  fold_right (fun k s => (line k ++ newline ++ s)%string) ""%string l = String.concat "" (map (fun k => (line k ++ nl)%string) l).
Proof.
  assert (App : forall a b c : string, ((a ++ b) ++ c)%string = (a ++ b ++ c)%string).
  { intros a b c. induction a as [|x a IH]; cbn; congruence. }
  assert (Nil : forall a : string, (a ++ "")%string = a) by (induction a as [|x a IH]; cbn; congruence).
  induction l as [|k l IH]; cbn [fold_right map]; [reflexivity|]. rewrite IH. cbn [String.concat].
  destruct (map (fun k0 => (line k0 ++ nl)%string) l) as [|y l'] eqn:El.
  - destruct l; [|discriminate]. cbn [fold_right map] in *. reflexivity.
  - rewrite App. reflexivity.
Qed.

Lemma map_ext_eq (f g : string -> string) l : (forall k, In k l -> f k = g k) -> map f l = map g l.
Proof. intros H. induction l as [|x l IH]; cbn; [reflexivity|]. rewrite (H x) by now left. rewrite IH; [reflexivity|]. intros k Hk. apply H. now right. Qed.

Lemma sec_key_in h m s k : Defs h m -> In k (sec_keys m s) <-> key_of s k /\ def_text s k h <> None.
Proof.
  intros D. assert (G : forall {V} (mp : smap V), In k (mkeys mp) <-> mget k mp <> None).
  { intros V mp. split.
    - intros Hin C. rewrite mget_None in C. contradiction.
    - intros H. destruct (mget k mp) as [v|] eqn:E; [|congruence]. eapply DomainP5.mget_key; eauto. }
  split.
  - intros H. pose proof (f_keys _ _ D s k H) as K. split; [exact K|].
    destruct s; cbn [sec_keys] in H; try (apply G in H);
      [rewrite (f_r _ _ D k K) in H|rewrite (f_p _ _ D k K) in H|rewrite (f_g _ _ D k K) in H|rewrite (f_e _ _ D k K) in H|rewrite (f_m _ _ D k K) in H|destruct H];
      destruct (def_text _ k h); cbn in *; congruence.
  - intros [K H]. destruct s; cbn [sec_keys]; try (apply G);
      [rewrite (f_r _ _ D k K)|rewrite (f_p _ _ D k K)|rewrite (f_g _ _ D k K)|rewrite (f_e _ _ D k K)|rewrite (f_m _ _ D k K)|destruct K as [c [K _]]; discriminate K];
      destruct (def_text _ k h); cbn; congruence.
Qed.

Lemma get_def h m s k : Defs h m -> key_of s k -> GetDef m s k = option_map (shown s k) (def_text s k h).
Proof.
  intros D K. destruct s; cbn [GetDef];
    [rewrite (f_r _ _ D k K)|rewrite (f_p _ _ D k K)|rewrite (f_g _ _ D k K)|rewrite (f_e _ _ D k K)|rewrite (f_m _ _ D k K)|destruct K as [c [K _]]; discriminate K];
    destruct (def_text _ k h); reflexivity.
Qed.

Lemma section_ok h m s name : Defs h m ->
  section_String name (sec_keys m s) (def_line m s) = section_text s name (sort_keys (sec_keys m s)) (def_shown h s).
Proof.
  intros D. unfold section_String, section_text. pose proof (sort_perm (sec_keys m s)) as P.
  destruct (sec_keys m s) as [|k0 l] eqn:Ek; [reflexivity|].
  destruct (sort_keys (k0 :: l)) as [|k1 l1] eqn:Es; [apply Permutation_nil_cons in P as []|].
  rewrite lines_concat. rewrite (map_ext_eq (fun k => (def_line m s k ++ nl)%string) (fun k => (def_shown h s k ++ nl)%string)); [reflexivity|].
  intros k Hk. f_equal. assert (Hin : In k (sec_keys m s)) by (rewrite Ek; eapply Permutation_in; eauto).
  apply (sec_key_in h m s k D) in Hin as [K _]. unfold def_line, def_shown. rewrite (get_def h m s k D K).
  destruct (def_text s k h); reflexivity.
Qed.

(** Model.String, after any history of calls: every definition that is in force,
    and no other, under the header of its section and in key order. *)
Theorem C54_model_text :
  forall E h m rs, mexec E (NewModel E) h = Val (m, rs) ->
    exists ks : sec -> list string,
      (forall s, Sorted before (ks s)) /\
      (forall s k, In k (ks s) <-> key_of s k /\ def_text s k h <> None) /\
      model_String m = model_text h ks.
Proof.
  intros E h m rs H. pose proof (defs_exec E h m rs H) as D. exists (fun s => sort_keys (sec_keys m s)).
  split; [intros s; apply sort_sorted, (f_nd _ _ D)|]. split.
  - intros s k. rewrite <- (sec_key_in h m s k D). split; apply Permutation_in; [apply sort_perm|apply Permutation_sym, sort_perm].
  - unfold model_String, model_text, sections. cbn [fold_right]. rewrite !(section_ok h m) by exact D.
    assert (Nil : forall a : string, (a ++ "")%string = a) by (induction a as [|x a IH]; cbn; congruence). now rewrite Nil.
Qed.
Print Assumptions C54_model_text.

Example C54_model_ex :
  match mexec ex_env (NewModel ex_env) ex_h with
  | Val (m, _) => model_String m
  | Panic => ""%string
  end = ("[request_definition]" ++ nl ++ "r = sub, obj, act" ++ nl ++ nl ++ "[policy_definition]" ++ nl ++ "p = sub, obj, act" ++ nl ++
         "p2 = sub, obj" ++ nl ++ nl ++ "[role_definition]" ++ nl ++ "g = _,_" ++ nl ++ "g2 = _,_,_" ++ nl ++ nl ++
         "[matchers]" ++ nl ++ "m = g(r.sub, p.sub) && r.obj == p.obj && r.act == p.act" ++ nl ++ nl)%string.
Proof. vm_compute. reflexivity. Qed.

(** ** C56: SetDef and RemoveDef *)

(** The definition in force is the last one set and not removed: a call changes
    the definition it names and no other, and no other kind of call changes any.
    (GetDef is compared by what the definition prints.) *)
Theorem C56_definitions :
  forall E h m rs s k, mexec E (NewModel E) h = Val (m, rs) -> key_of s k ->
    GetDef m s k = option_map (shown s k) (def_text s k h).
Proof. intros E h m rs s k H K. eapply get_def; eauto. eapply defs_exec; eauto. Qed.
Print Assumptions C56_definitions.

(** A key that does not begin with the letter of its section, and an unknown
    section, are refused with an error and without effect; the empty key is an
    index panic. *)
Theorem C56_bad_key :
  forall m s k v, k <> ""%string -> ~ key_of s k -> exists e, SetDef m s k v = Val (m, Some e).
Proof.
  intros m s k v Hk K. unfold SetDef. destruct (keyPrefix s) as [c|] eqn:Es; [|eauto].
  destruct k as [|c' k]; [congruence|]. cbn [first_byte]. destruct (Ascii.eqb_spec c' c) as [->|]; [|eauto].
  exfalso. apply K. exists c. auto.
Qed.
Print Assumptions C56_bad_key.
Theorem C56_empty_key_panics : forall m s v, keyPrefix s <> None -> SetDef m s "" v = Panic.
Proof. intros m s v H. unfold SetDef. destruct (keyPrefix s); [reflexivity|congruence]. Qed.
Print Assumptions C56_empty_key_panics.

Example C56_ex :
  let h := [(ex_o, CSetDef P_SEC "p" "sub, obj"); (ex_o, CSetDef P_SEC "p2" "sub"); (ex_o, CSetDef P_SEC "p" "a, b, c"); (ex_o, CRemoveDef P_SEC "p2")]%string in
  key_of P_SEC "p" /\ def_text P_SEC "p" h = Some "a, b, c"%string /\ def_text P_SEC "p2" h = None /\
  (let! (m, _) := mexec ex_env (NewModel ex_env) h in Val (GetDef m P_SEC "p", GetDef m P_SEC "p2")) = Val (Some "p = a, b, c"%string, None).
Proof. cbv zeta. split; [exists "p"%char; auto|]. vm_compute. auto. Qed.

(** The second half of C56 is false: after "p" is defined again (which drops its
    rules) or removed, the configured matcher still reports the old rules, and
    does not report a rule added since. *)
Definition matches_of (E : env) (o : orders) (m : model) (mk rk : string) (rvals : list value) : outcome (list rule * option goerr) :=
  match mget mk (md_mMap m), mget rk (md_r m) with
  | Some j, Some rDef => model_RangeMatches E o m j rDef rvals (fun l r => (l ++ [r], true)) []
  | _, _ => Panic
  end.
Definition alice : list value := [VStr "alice"; VStr "data1"].
Definition stale_h : list (orders * mcall) :=
  [(ex_o, CSetDef R_SEC "r" "sub, obj"); (ex_o, CSetDef P_SEC "p" "sub, obj"); (ex_o, CSetDef M_SEC "m" basic_text);
   (ex_o, CAdd ["p"; "alice"; "data1"]); (ex_o, CBuild)]%string.
Theorem C56_matchers_current_refuted :
  good_m stale_h /\ tame stale_h /\
  (exists m rs, mexec ex_env (NewModel ex_env) (stale_h ++ [(ex_o, CSetDef P_SEC "p" "sub, obj")]) = Val (m, rs) /\
     model_rules ex_o m = [] /\ matches_of ex_env ex_o m "m" "r" alice = Val ([["p"; "alice"; "data1"]], None)) /\
  (exists m rs, mexec ex_env (NewModel ex_env) (stale_h ++ [(ex_o, CRemoveDef P_SEC "p")]) = Val (m, rs) /\
     model_rules ex_o m = [] /\ matches_of ex_env ex_o m "m" "r" alice = Val ([["p"; "alice"; "data1"]], None)) /\
  (exists m rs, mexec ex_env (NewModel ex_env)
       (stale_h ++ [(ex_o, CRemove ["p"; "alice"; "data1"]); (ex_o, CSetDef P_SEC "p" "sub, obj"); (ex_o, CAdd ["p"; "alice"; "data1"])]) = Val (m, rs) /\
     model_rules ex_o m = [["p"; "alice"; "data1"]] /\ matches_of ex_env ex_o m "m" "r" alice = Val ([], None))%string.
Proof.
  split; [repeat constructor; apply ex_o_good|]. split; [tame_tac|].
  split; [|split]; (eexists _, _; split; [vm_compute; reflexivity|]; split; vm_compute; reflexivity).
Qed.
Print Assumptions C56_matchers_current_refuted.

(** It holds from the next BuildMatchers or BuildMatcher on, until the section
    is defined again or removed.  The matcher then is one that was built from the
    definition in force and the rules present at that time, and has received
    every later change of the section: [lives], the hypothesis of the theorems
    about matchers in Prop_Matcher.v (C10 to C13). *)
Theorem C56_matchers_current_partial :
  forall E ha o c hb mk m1 rs1 m2 x m rs expr root,
    good_m ha -> good_orders o -> good_m hb -> c = CBuild \/ c = CBuildKey mk ->
    mexec E (NewModel E) ha = Val (m1, rs1) -> mstep E o m1 c = Val (m2, x) -> x_err x = None -> mexec E m2 hb = Val (m, rs) ->
    key_of M_SEC mk -> def_text M_SEC mk ha = Some expr ->
    Build (e_grow E) (e_parse E (mkeys (md_fm m1))) expr = inl root -> p_key (GetPolicyKey root) ->
    Forall (fun oc => leaves_alone (GetPolicyKey root) mk (snd oc)) hb ->
    exists ptext ops j y,
      def_text P_SEC (GetPolicyKey root) ha = Some ptext /\ p_history (GetPolicyKey root) ha = Some ops /\
      mget mk (md_mMap m) = Some j /\ nth_error (md_mats m) j = Some y /\
      lives (NewPolicyDef (GetPolicyKey root) ptext) root ops (p_calls (GetPolicyKey root) hb) y.
Proof. exact matcher_lives. Qed.
Print Assumptions C56_matchers_current_partial.

Example C56_current_ex :
  let ha := stale_h ++ [(ex_o, CSetDef P_SEC "p" "sub, obj"); (ex_o, CAdd ["p"; "bob"; "data1"])]%string in
  let hb := [(ex_o, CAdd ["p"; "alice"; "data1"]); (ex_o, CSetDef P_SEC "p2" "sub")]%string in
  good_m ha /\ good_m hb /\ key_of M_SEC "m" /\ def_text M_SEC "m" ha = Some basic_text /\
  Forall (fun oc => leaves_alone "p" "m" (snd oc)) hb /\
  (exists m1 rs1 m2 x m rs root, mexec ex_env (NewModel ex_env) ha = Val (m1, rs1) /\ mstep ex_env ex_o m1 CBuild = Val (m2, x) /\
     x_err x = None /\ mexec ex_env m2 hb = Val (m, rs) /\
     Build (e_grow ex_env) (e_parse ex_env (mkeys (md_fm m1))) basic_text = inl root /\ GetPolicyKey root = "p"%string /\
     matches_of ex_env ex_o m "m" "r" alice = Val ([["p"; "alice"; "data1"]], None))%string.
Proof.
  cbv zeta. split; [repeat constructor; apply ex_o_good|]. split; [repeat constructor; apply ex_o_good|].
  split; [exists "m"%char; auto|]. split; [reflexivity|]. split; [repeat constructor; discriminate|].
  eexists _, _, _, _, _, _, _. split; [vm_compute; reflexivity|]. split; [vm_compute; reflexivity|].
  split; [vm_compute; reflexivity|]. split; [vm_compute; reflexivity|]. split; [vm_compute; reflexivity|].
  split; vm_compute; reflexivity.
Qed.

(** ** C57: unknown names *)

(** False: an unknown request definition and an unknown role manager are
    panics.  Exactly which calls panic, after any history: *)
Theorem C57_unknown_refuted :
  forall E h m rs, mexec E (NewModel E) h = Val (m, rs) -> forall k, key_of R_SEC k ->
    (GetRequestDef m k = Panic <-> def_text R_SEC k h = None).
Proof.
  intros E h m rs H k K. pose proof (defs_exec E h m rs H) as D. unfold GetRequestDef. rewrite (f_r _ _ D k K).
  destruct (def_text R_SEC k h); cbn; split; congruence.
Qed.
Print Assumptions C57_unknown_refuted.
Theorem C57_role_manager_refuted :
  forall E h m rs, good_m h -> mexec E (NewModel E) h = Val (m, rs) -> forall k, g_key k ->
    (model_GetRoleManager m k = Panic <-> g_history k h = None).
Proof.
  intros E h m rs Go H k K. destruct (reachable_ok E h m rs Go H) as [g [V W]]. unfold model_GetRoleManager.
  pose proof (v_ghist h m g W k K) as Hg. destruct (mget k (md_rpMap m)) as [i|].
  - destruct Hg as [rm [ls [-> Hg]]]. split; [discriminate|congruence].
  - tauto.
Qed.
Print Assumptions C57_role_manager_refuted.

Example C57_ex :
  def_text R_SEC "r2" ex_h = None /\ key_of R_SEC "r2" /\ g_history "g9" ex_h = None /\ g_key "g9".
Proof. split; [vm_compute; reflexivity|]. split; [exists "r"%char; auto|]. split; vm_compute; reflexivity. Qed.

(** Other unknown names are reported: matchers, rule sections (C06), ClearPolicy. *)
Theorem C57_reported_partial :
  forall E h o m rs, good_m h -> mexec E (NewModel E) h = Val (m, rs) -> forall k,
    (key_of M_SEC k -> def_text M_SEC k h = None -> mstep E o m (CBuildKey k) = Val (m, mkRes true (Some ErrMatcherNotFound) [])) /\
    (p_key k -> def_text P_SEC k h = None -> mget k (md_rpMap m) = None -> mstep E o m (CClear k) = Val (m, mkRes true (Some ErrPolicyNotFound) [])).
Proof.
  intros E h o m rs Go H k. pose proof (defs_exec E h m rs H) as D. destruct (reachable_ok E h m rs Go H) as [g [V W]]. split.
  - intros K Hn. cbn [mstep]. unfold BuildMatcher. rewrite (f_m _ _ D k K), Hn. reflexivity.
  - intros K Hn Hr. apply p_defined in Hn; [|exact K]. pose proof (v_phist h m g W k K) as Hp. rewrite Hn in Hp.
    cbn [mstep]. unfold ClearPolicy, GetPolicy. destruct (mget k (md_pMap m)); [discriminate|]. rewrite Hr. reflexivity.
Qed.
Print Assumptions C57_reported_partial.
