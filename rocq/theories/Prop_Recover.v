(** C112: a role manager whose matching function panics, in a program that
    recovers. *)
From Verif Require Import GoBase GoBaseP PolicyM CacheM CacheSpec PathM RbacM RbacSpec RbacP RbacP2 RbacP3 RbacP4
  RecoverM RecoverSpec RecoverP RecoverP2 RecoverP3 RecoverP4 Prop_Rbac.

(** ** Which calls panic *)
Theorem C112_panics :
  forall (bad : string -> bool) (m : imatcher) (level : Z) (h : list (order * rcall)) rm xs,
    good h -> (forall n, In n (mentioned h) -> plain n) ->
    q_exec (fun _ p => bad p) (newRoleManagerWithMatchingFunc level (Some m)) h = (rm, xs) ->
    map panicked xs = expected_panics (IsPattern m) bad (Match m) [] h.
Proof.
  intros bad m level h rm xs Hg Hn E.
  refine (exec_panics bad m h no_links [] _ rm xs (inv_start _ _ _ level) _ Hg Hn E).
  intros n. cbn. tauto.
Qed.
Print Assumptions C112_panics.

(** Once a malformed pattern was named in AddLink or DeleteLink, every ordinary
    name that was not mentioned before makes its first call panic, and the same
    call made again returns. *)
Definition first_name (c : rcall) (n : string) : Prop :=
  c = RRoles n \/ c = RUsers n \/ exists b ds, c = RAdd n b ds \/ c = RDel n b ds.
Definition links_call (c : rcall) : Prop :=
  exists a b ds, c = RAdd a b ds \/ c = RDel a b ds.

Section Poison.
  Context (isp bad : string -> bool) (matches : string -> string -> bool).
  Notation after := (names_after isp bad matches).

  Definition spoilt (K : list string) : Prop := exists p, In p K /\ isp p = true /\ bad p = true.

  Lemma look_keeps K n x : In x K -> In x (fst (look isp bad K n)).
  Proof. unfold look. destruct (sin n K); cbn; auto. Qed.
  Lemma look_has K n : In n (fst (look isp bad K n)).
  Proof. unfold look. destruct (sin n K) eqn:E; cbn; [now apply sin_In|auto]. Qed.
  Lemma look2_keeps K a b x : In x K -> In x (fst (look2 isp bad K a b)).
  Proof.
    intros H. unfold look2. pose proof (look_keeps K a x H) as H1.
    destruct (look isp bad K a) as [k p]. cbn in H1. destruct p; [exact H1|now apply look_keeps].
  Qed.
  Lemma after_keeps K c x : c <> RClear -> In x K -> In x (fst (after K c)).
  Proof.
    intros Hc H. destruct c as [a b ds|a b ds|a b|a|a|]; cbn [names_after]; [now apply look2_keeps..| | | |contradiction].
    - destruct (String.eqb a b); [exact H|]. destruct (bad b); [exact H|]. destruct (matches a b); [exact H|].
      pose proof (look2_keeps K a b x H) as H1. destruct (look2 isp bad K a b) as [k p]. cbn in *. now destruct p.
    - pose proof (look_keeps K a x H) as H1. destruct (look isp bad K a) as [k p]. cbn in *. now destruct p.
    - pose proof (look_keeps K a x H) as H1. destruct (look isp bad K a) as [k p]. cbn in *. now destruct p.
  Qed.
  Lemma look_only K n x : In x (fst (look isp bad K n)) -> x = n \/ In x K.
  Proof. unfold look. destruct (sin n K); cbn; intuition. Qed.
  Lemma look2_only K a b x : In x (fst (look2 isp bad K a b)) -> In x [a; b] \/ In x K.
  Proof.
    unfold look2. pose proof (look_only K a) as H1. destruct (look isp bad K a) as [k p]. cbn in *. destruct p; cbn.
    - intros H. apply H1 in H. intuition.
    - intros H. apply look_only in H as [->|H]; [auto|]. apply H1 in H. intuition.
  Qed.
  Lemma after_only K c x : In x (fst (after K c)) -> In x (call_names c) \/ In x K.
  Proof.
    destruct c as [a b ds|a b ds|a b|a|a|]; cbn [names_after call_names].
    - apply look2_only. - apply look2_only.
    - destruct (String.eqb a b); [auto|]. destruct (bad b); [auto|]. destruct (matches a b); [auto|].
      pose proof (look2_only K a b x) as H1. destruct (look2 isp bad K a b) as [k p]. cbn in *. destruct p; cbn in *; auto.
    - pose proof (look_only K a x) as H1. destruct (look isp bad K a) as [k p]. cbn in *. destruct p; intuition.
    - pose proof (look_only K a x) as H1. destruct (look isp bad K a) as [k p]. cbn in *. destruct p; intuition.
    - intros [].
  Qed.

  Lemma look2_spoils K a b p : In p [a; b] -> isp p = true -> bad p = true -> spoilt (fst (look2 isp bad K a b)).
  Proof.
    intros Hp H1 H2. unfold look2. destruct (look isp bad K a) as [k q] eqn:E.
    assert (Ha : In a k) by (pose proof (look_has K a) as X; now rewrite E in X).
    destruct q; cbn [fst].
    - destruct Hp as [<-|[<-|[]]]; [now exists a|].
      assert (X : panics_on isp bad K a = true /\ k = a :: K).
      { unfold look in E. destruct (sin a K); injection E as <- E; [discriminate|auto]. }
      destruct X as [X ->]. unfold panics_on in X. destruct (isp a) eqn:Ea.
      + apply andb_true_iff in X as [X _]. exists a. cbn; auto.
      + apply existsb_exists in X as [p [Hp X]]. apply andb_true_iff in X as [X1 X2]. exists p. cbn; auto.
    - destruct Hp as [<-|[<-|[]]].
      + exists a. split; [now apply look_keeps|auto].
      + exists b. split; [apply look_has|auto].
  Qed.

  Fixpoint names_end (K : list string) (h : list (order * rcall)) : list string :=
    match h with [] => K | (_, c) :: h' => names_end (fst (after K c)) h' end.
  Lemma names_end_app K h1 h2 : names_end K (h1 ++ h2) = names_end (names_end K h1) h2.
  Proof. revert K. induction h1 as [|[o c] h1 IH]; intros K; cbn; auto. Qed.
  Lemma expected_app K h1 h2 :
    expected_panics isp bad matches K (h1 ++ h2) =
    expected_panics isp bad matches K h1 ++ expected_panics isp bad matches (names_end K h1) h2.
  Proof.
    revert K. induction h1 as [|[o c] h1 IH]; intros K; cbn; [reflexivity|].
    destruct (after K c) as [k p]. cbn. now rewrite IH.
  Qed.
  Lemma names_end_keeps h : forall K x, Forall (fun c => snd c <> RClear) h -> In x K -> In x (names_end K h).
  Proof.
    induction h as [|[o c] h IH]; intros K x Hf H; cbn; [exact H|]. inversion Hf; subst. apply IH; [assumption|].
    now apply after_keeps.
  Qed.
  Lemma names_end_only h : forall K x, In x (names_end K h) -> In x (mentioned h) \/ In x K.
  Proof.
    induction h as [|[o c] h IH]; intros K x; cbn; [auto|]. intros H. apply IH in H as [H|H].
    - left. apply in_or_app. now right.
    - apply after_only in H as [H|H]; [left; apply in_or_app; now left|now right].
  Qed.

  Lemma spoilt_first K c n : spoilt K -> first_name c n -> ~ In n K -> isp n = false ->
    snd (after K c) = true.
  Proof.
    intros [p [Hp [H1 H2]]] Hc Hn Hi.
    assert (E : look isp bad K n = (n :: K, true)).
    { unfold look. rewrite (proj2 (sin_false n K) Hn). f_equal. unfold panics_on. rewrite Hi.
      apply existsb_exists. exists p. split; [exact Hp|]. now rewrite H1, H2. }
    destruct Hc as [->|[->|[b [ds [->| ->]]]]]; cbn [names_after]; unfold look2; rewrite E; reflexivity.
  Qed.
  Lemma again_returns K c n : ~ In n K -> isp n = false -> c = RRoles n \/ c = RUsers n ->
    spoilt K -> snd (after (fst (after K c)) c) = false.
  Proof.
    intros Hn Hi Hc [p [Hp [H1 H2]]].
    assert (E : look isp bad K n = (n :: K, true)).
    { unfold look. rewrite (proj2 (sin_false n K) Hn). f_equal. unfold panics_on. rewrite Hi.
      apply existsb_exists. exists p. split; [exact Hp|]. now rewrite H1, H2. }
    assert (E2 : look isp bad (n :: K) n = (n :: K, false)).
    { unfold look. rewrite (proj2 (sin_In n (n :: K))) by now left. reflexivity. }
    destruct Hc as [->| ->]; cbn [names_after]; rewrite E; cbn [fst]; rewrite E2; reflexivity.
  Qed.

  (** Without malformed names nothing panics. *)
  Lemma clean_after K c : (forall n, In n K -> bad n = false) -> (forall n, In n (call_names c) -> bad n = false) ->
    snd (after K c) = false.
  Proof.
    assert (HL : forall K n, (forall n, In n K -> bad n = false) -> bad n = false ->
                   snd (look isp bad K n) = false /\ forall x, In x (fst (look isp bad K n)) -> bad x = false).
    { intros K0 n HK Hn. split.
      - unfold look. destruct (sin n K0); [reflexivity|]. cbn. unfold panics_on. rewrite Hn. destruct (isp n); [reflexivity|].
        destruct (existsb _ K0) eqn:E; [|reflexivity]. apply existsb_exists in E as [p [Hp E]].
        rewrite (HK p Hp), andb_false_r in E. discriminate.
      - intros x Hx. apply look_only in Hx as [->|Hx]; auto. }
    assert (HL2 : forall K a b, (forall n, In n K -> bad n = false) -> bad a = false -> bad b = false ->
                   snd (look2 isp bad K a b) = false).
    { intros K' a b HK Ha Hb. unfold look2. destruct (HL K' a HK Ha) as [P S].
      destruct (look isp bad K' a) as [k p]. cbn in *. subst p. now apply HL. }
    intros HK Hc. destruct c as [a b ds|a b ds|a b|a|a|]; cbn [names_after call_names] in *.
    - apply HL2; [exact HK|apply Hc; cbn; auto..]. - apply HL2; [exact HK|apply Hc; cbn; auto..].
    - destruct (String.eqb a b); [reflexivity|]. rewrite (Hc b) by (cbn; auto). destruct (matches a b); [reflexivity|].
      pose proof (HL2 K a b HK ltac:(apply Hc; cbn; auto) ltac:(apply Hc; cbn; auto)) as P. destruct (look2 isp bad K a b) as [k p]. exact P.
    - destruct (HL K a HK ltac:(apply Hc; cbn; auto)) as [P _]. destruct (look isp bad K a) as [k p]. exact P.
    - destruct (HL K a HK ltac:(apply Hc; cbn; auto)) as [P _]. destruct (look isp bad K a) as [k p]. exact P.
    - reflexivity.
  Qed.
  Lemma clean_history h : forall K, (forall n, In n K -> bad n = false) ->
    (forall n, In n (mentioned h) -> bad n = false) ->
    expected_panics isp bad matches K h = map (fun _ => false) h.
  Proof.
    induction h as [|[o c] h IH]; intros K HK Hh; cbn [expected_panics map]; [reflexivity|].
    assert (Hc : forall n, In n (call_names c) -> bad n = false) by (intros; apply Hh; cbn; apply in_or_app; now left).
    pose proof (clean_after K c HK Hc) as P. pose proof (after_only K c) as O.
    destruct (after K c) as [k p]. cbn in P, O. subst p. f_equal. apply IH.
    - intros n Hn. apply O in Hn as [Hn|Hn]; auto.
    - intros n Hn. apply Hh. cbn. apply in_or_app. now right.
  Qed.
End Poison.

Lemma mentioned_app h1 h2 : mentioned (h1 ++ h2) = mentioned h1 ++ mentioned h2.
Proof. unfold mentioned. apply flat_map_app. Qed.

Lemma last_panic (xs : list (option answer)) l b x :
  map panicked (xs ++ [x]) = l ++ [b] -> panicked x = b.
Proof. rewrite map_app. cbn. intros H. apply app_inj_tail in H. tauto. Qed.

Theorem C112_poisoned :
  forall (bad : string -> bool) (m : imatcher) (level : Z) (h1 h2 : list (order * rcall)) o c p n o1 c1 rm xs rm1 x,
    let h := h1 ++ (o, c) :: h2 in
    good h -> good_order o1 -> (forall s, In s (mentioned (h ++ [(o1, c1)])) -> plain s) ->
    links_call c -> In p (call_names c) -> IsPattern m p = true -> bad p = true ->
    Forall (fun c => snd c <> RClear) h2 ->
    first_name c1 n -> IsPattern m n = false -> ~ In n (mentioned h) ->
    q_exec (fun _ p => bad p) (newRoleManagerWithMatchingFunc level (Some m)) h = (rm, xs) ->
    q_step (fun _ p => bad p) o1 rm c1 = (rm1, x) ->
    x = None /\
    (c1 = RRoles n \/ c1 = RUsers n ->
       forall o2 rm2 y, good_order o2 -> q_step (fun _ p => bad p) o2 rm1 c1 = (rm2, y) -> y <> None).
Proof.
  intros bad m level h1 h2 o c p n o1 c1 rm xs rm1 x h Hg Ho1 Hp Hc Hin Hpat Hbad Hf Hfn Hnp Hnew E Es.
  set (K := names_end (IsPattern m) bad (Match m) [] h).
  assert (Sp : spoilt (IsPattern m) bad K).
  { unfold K, h. rewrite names_end_app. cbn [names_end].
    assert (S0 : spoilt (IsPattern m) bad (fst (names_after (IsPattern m) bad (Match m)
                   (names_end (IsPattern m) bad (Match m) [] h1) c))).
    { destruct Hc as [a [b [ds [->| ->]]]]; cbn [names_after call_names] in *; now apply (look2_spoils _ _ _ _ _ p). }
    destruct S0 as [q [Hq HQ]]. exists q. split; [now apply names_end_keeps|exact HQ]. }
  assert (Nk : ~ In n K).
  { intros X. apply names_end_only in X as [X|[]]. contradiction. }
  assert (Run : forall o2 rm2 y, good_order o2 -> q_step (fun _ p => bad p) o2 rm1 c1 = (rm2, y) ->
            map panicked ((xs ++ [x]) ++ [y]) =
            expected_panics (IsPattern m) bad (Match m) [] (h ++ [(o1, c1); (o2, c1)])).
  { intros o2 rm2 y Ho2 E2. apply (C112_panics bad m level _ rm2).
    - unfold good in *. rewrite Forall_app. split; [exact Hg|]. repeat constructor; assumption.
    - intros s Hs. apply Hp. rewrite mentioned_app in *. apply in_app_iff in Hs as [Hs|Hs]; apply in_or_app; [now left|right].
      cbn in Hs |- *. rewrite app_nil_r in *. apply in_app_iff in Hs as [Hs|Hs]; exact Hs.
    - rewrite q_exec_app, E. cbn [q_exec]. rewrite Es, E2, <- app_assoc. reflexivity. }
  destruct (q_step (fun _ p => bad p) o1 rm1 c1) as [rm3 z] eqn:E3.
  assert (P1 : panicked x = true).
  { pose proof (Run o1 rm3 z Ho1 E3) as R. rewrite expected_app in R. fold K in R. cbn [expected_panics] in R.
    pose proof (spoilt_first (IsPattern m) bad (Match m) K c1 n Sp Hfn Nk Hnp) as S1.
    destruct (names_after (IsPattern m) bad (Match m) K c1) as [k1 p1]. cbn in S1. subst p1.
    destruct (names_after (IsPattern m) bad (Match m) k1 c1) as [k2 p2].
    rewrite map_app, map_app in R. cbn in R.
    replace (expected_panics (IsPattern m) bad (Match m) [] h ++ [true; p2])
      with ((expected_panics (IsPattern m) bad (Match m) [] h ++ [true]) ++ [p2]) in R by now rewrite <- app_assoc.
    apply app_inj_tail in R as [R _]. apply app_inj_tail in R as [_ R]. exact R. }
  split; [now destruct x|].
  intros Hq o2 rm2 y Ho2 E2. pose proof (Run o2 rm2 y Ho2 E2) as R.
  rewrite expected_app in R. fold K in R. cbn [expected_panics] in R.
  pose proof (again_returns (IsPattern m) bad (Match m) K c1 n Nk Hnp Hq Sp) as S2.
  destruct (names_after (IsPattern m) bad (Match m) K c1) as [k1 p1]. cbn in S2.
  destruct (names_after (IsPattern m) bad (Match m) k1 c1) as [k2 p2]. cbn in S2. subst p2.
  rewrite map_app in R. cbn in R.
  replace (expected_panics (IsPattern m) bad (Match m) [] h ++ [p1; false])
    with ((expected_panics (IsPattern m) bad (Match m) [] h ++ [p1]) ++ [false]) in R by now rewrite <- app_assoc.
  apply app_inj_tail in R as [_ R]. intros ->. discriminate.
Qed.
Print Assumptions C112_poisoned.

(** While no malformed name is mentioned, nothing panics and every call does
    what it does with a total matching function. *)
Theorem C112_clean :
  forall (bad : string -> bool) (m : imatcher) (level : Z) (h : list (order * rcall)),
    good h -> (forall n, In n (mentioned h) -> plain n) -> (forall n, In n (mentioned h) -> bad n = false) ->
    exists rm xs, q_exec (fun _ p => bad p) (newRoleManagerWithMatchingFunc level (Some m)) h = (rm, map Some xs) /\
      rexec (newRoleManagerWithMatchingFunc level (Some m)) h = Val (rm, xs).
Proof.
  intros bad m level h Hg Hn Hb.
  destruct (q_exec (fun _ p => bad p) (newRoleManagerWithMatchingFunc level (Some m)) h) as [rm ys] eqn:E.
  pose proof (C112_panics bad m level h rm ys Hg Hn E) as P.
  rewrite clean_history in P; [|intros n []|exact Hb].
  assert (G : exists xs, ys = map Some xs).
  { assert (Q : Forall (fun y => panicked y = false) ys).
    { clear -P. revert h P. induction ys as [|y ys IH]; intros h P; [constructor|].
      destruct h as [|c h]; [discriminate|]. cbn in P. injection P as P1 P2. constructor; [exact P1|]. eapply IH, P2. }
    clear -Q. induction Q as [|y ys Hy Q IH]; [now exists []|]. destruct IH as [xs ->].
    destruct y as [v|]; [|discriminate]. now exists (v :: xs). }
  destruct G as [xs ->]. exists rm, xs. split; [reflexivity|]. eapply q_exec_val, E.
Qed.
Print Assumptions C112_clean.

(** ** What the manager holds after recovered panics *)

Lemma reached_q (fails : string -> string -> bool) (m : imatcher) (F : Prop) level h rm xs :
  good h -> (forall n, In n (mentioned h) -> plain n) -> (F -> Forall (fun c => unflagged (snd c)) h) ->
  q_exec fails (newRoleManagerWithMatchingFunc level (Some m)) h = (rm, xs) ->
  inv fails m F (returned_links h xs) rm /\ rm_level rm = level.
Proof.
  intros Hg Hn HF E. destruct (q_exec_inv fails m F h no_links _ rm xs (inv_start _ _ _ level) Hg Hn HF E) as [A [B _]].
  split; [exact A|exact B].
Qed.

(** The links are those of the calls that returned: a panicking AddLink or
    DeleteLink changes none, whatever the matching function panics on. *)
Theorem C112_links :
  forall (fails : string -> string -> bool) (m : imatcher) (level : Z) (h : list (order * rcall)) rm xs ord a b,
    good h -> good_order ord -> (forall n, In n (mentioned h) -> plain n) -> plain a -> plain b ->
    Forall (fun c => unflagged (snd c)) h ->
    q_exec fails (newRoleManagerWithMatchingFunc level (Some m)) h = (rm, xs) ->
    (forall r, In r (listed ord rm) <-> exists u v, r = [u; v] /\ returned_links h xs u v = true) /\
    (forall ds rm' x, q_step fails ord rm (RAdd a b ds) = (rm', Some x) -> x = ABool (negb (returned_links h xs a b))) /\
    (forall ds rm' x, q_step fails ord rm (RDel a b ds) = (rm', Some x) -> x = ABool (returned_links h xs a b)).
Proof.
  intros fails m level h rm xs ord a b Hg Ho Hn Ha Hb Hu E.
  destruct (reached_q fails m True level h rm xs Hg Hn (fun _ => Hu) E) as [I _].
  destruct (reached_q fails m False level h rm xs Hg Hn ltac:(intros []) E) as [J _].
  assert (Hab : forall n, In n [a; b] -> plain n) by (intros n [<-|[<-|[]]]; assumption).
  split; [|split].
  - intros r. unfold listed, rm_Range. rewrite rangeLinks_all, fold_snoc. cbn. apply (listed_inv _ _ _ _ _ _ Ho I Logic.I).
  - intros ds rm' x Es. destruct (q_step_inv _ _ _ _ _ _ (RAdd a b ds) _ _ Ho J Hab ltac:(intros []) Es) as [_ [_ [H _]]].
    eapply H; reflexivity.
  - intros ds rm' x Es. destruct (q_step_inv _ _ _ _ _ _ (RDel a b ds) _ _ Ho J Hab ltac:(intros []) Es) as [_ [_ [_ H]]].
    eapply H; reflexivity.
Qed.
Print Assumptions C112_links.

(** Answers err on the safe side: a granted link, a listed role or a listed user
    is justified by the links of the calls that returned. *)
Theorem C112_justified :
  forall (fails : string -> string -> bool) (m : imatcher) (level : Z) (h : list (order * rcall)) rm xs ord a b rm',
    good h -> good_order ord -> (forall n, In n (mentioned h) -> plain n) -> plain a -> plain b ->
    q_exec fails (newRoleManagerWithMatchingFunc level (Some m)) h = (rm, xs) ->
    let step := RbacSpec.pstep m (returned_links h xs) every_name in
    (q_step fails ord rm (RHas a b) = (rm', Some (ABool true)) ->
       exists k x, RbacSpec.chain step k a x /\ hits (Some m) x b /\ (k = 0 \/ (Z.of_nat k < level)%Z)) /\
    (forall l, q_step fails ord rm (RRoles a) = (rm', Some (ANames l)) -> forall r, In r l -> step a r) /\
    (forall l, q_step fails ord rm (RUsers a) = (rm', Some (ANames l)) -> forall u, In u l -> step u a).
Proof.
  intros fails m level h rm xs ord a b rm' Hg Ho Hn Ha Hb E step.
  destruct (reached_q fails m False level h rm xs Hg Hn ltac:(intros []) E) as [I El].
  split; [|split].
  - rewrite <- El. now apply (HasLink_sound fails m False).
  - intros l H. eapply (GetRoles_sound fails m False); eauto.
  - intros l H. eapply (GetUsers_sound fails m False); eauto.
Qed.
Print Assumptions C112_justified.

(** ** The full claim is false: after a recovered panic a call can return a
    wrong answer.  The name bob is stored before it is matched, so the second
    HasLink finds it unmatched. *)
Definition re_match (s p : string) : bool := String.eqb p ".*" || String.eqb s p.
Definition re : imatcher := NewPrefixMatcher "re:" re_match.
Definition re_bad (p : string) : bool := String.eqb p "re:(".

Definition ex_poison : list (order * rcall) :=
  [(fwd, RAdd "re:.*" "admin" []); (fwd, RAdd "re:(" "staff" []); (bwd, RHas "bob" "admin")]%string.

Lemma good_poison : good ex_poison /\ (forall n, In n (mentioned ex_poison) -> plain n).
Proof.
  split; [repeat constructor; first [apply good_fwd|apply good_bwd]|].
  intros n H. cbn in H. repeat (destruct H as [<-|H]; [vm_compute; reflexivity|]). destruct H.
Qed.

Theorem C112_answers_refuted :
  ~ (forall (fails : string -> string -> bool) (m : imatcher) (level : Z) (h : list (order * rcall)) rm xs ord a b rm' r,
       good h -> good_order ord -> (forall n, In n (mentioned h) -> plain n) -> plain a -> plain b -> (2 <= level)%Z ->
       q_exec fails (newRoleManagerWithMatchingFunc level (Some m)) h = (rm, xs) ->
       RbacSpec.pstep m (returned_links h xs) no_names a b ->
       q_step fails ord rm (RHas a b) = (rm', Some (ABool r)) -> r = true).
Proof.
  intros H.
  destruct (q_exec (fun _ p => re_bad p) (newRoleManagerWithMatchingFunc 10 (Some re)) ex_poison) as [rm xs] eqn:E.
  assert (X : xs = [Some (ABool true); None; None]).
  { pose proof (f_equal snd E) as F. cbn [snd] in F. rewrite <- F. vm_compute. reflexivity. }
  destruct (q_step (fun _ p => re_bad p) fwd rm (RHas "bob" "admin")) as [rm' r] eqn:Es.
  assert (R : r = Some (ABool false)).
  { pose proof (f_equal fst E) as F. cbn [fst] in F. pose proof (f_equal snd Es) as G. cbn [snd] in G.
    rewrite <- G, <- F. vm_compute. reflexivity. }
  subst r. destruct good_poison as [G1 G2].
  enough (false = true) by discriminate.
  apply (H _ re 10%Z ex_poison rm xs fwd "bob"%string "admin"%string rm' false G1 good_fwd G2
           eq_refl eq_refl ltac:(lia) E); [|exact Es].
  subst xs. apply (step_from_pattern _ _ _ _ _ "re:.*"%string); [|vm_compute; reflexivity].
  split; [discriminate|]. split; vm_compute; reflexivity.
Qed.
Print Assumptions C112_answers_refuted.

Example C112_ex :
  good ex_poison /\ (forall n, In n (mentioned ex_poison) -> plain n) /\
  map panicked (snd (q_exec (fun _ p => re_bad p) (newRoleManagerWithMatchingFunc 10 (Some re)) ex_poison)) =
  [false; true; true] /\
  expected_panics (IsPattern re) re_bad (Match re) [] ex_poison = [false; true; true].
Proof. destruct good_poison as [A B]. split; [exact A|]. split; [exact B|]. split; vm_compute; reflexivity. Qed.

(** ** SetMatcher *)

(** A SetMatcher that panics while the links are added again leaves a part of
    them; one that returns keeps them all. *)
Theorem C112_rebuild_partial :
  forall (fails fails2 : string -> string -> bool) (m m2 : imatcher) (level : Z) (h : list (order * rcall)) rm xs
         ord ord2 rm' r,
    good h -> good_order ord -> good_order ord2 -> (forall n, In n (mentioned h) -> plain n) ->
    Forall (fun c => unflagged (snd c)) h ->
    q_exec fails (newRoleManagerWithMatchingFunc level (Some m)) h = (rm, xs) ->
    q_SetMatcher fails2 ord rm (Some m2) = (rm', r) ->
    (forall l, In l (listed ord2 rm') -> In l (listed ord2 rm)) /\
    (r <> None -> forall l, In l (listed ord2 rm) -> In l (listed ord2 rm')).
Proof.
  intros fails fails2 m m2 level h rm xs ord ord2 rm' r Hg Ho Ho2 Hn Hu E Es.
  destruct (reached_q fails m True level h rm xs Hg Hn (fun _ => Hu) E) as [I _].
  unfold q_SetMatcher in Es. cbn [rm_all] in Es.
  set (ls := all_links ord (rm_all rm)) in *.
  assert (Hls : forall l, In l ls <-> exists u v, l = [u; v] /\ returned_links h xs u v = true)
    by exact (listed_inv _ _ _ _ _ _ Ho I Logic.I).
  assert (Hpl : forall l, In l ls -> exists a b, l = [a; b] /\ plain a /\ plain b).
  { intros l Hl. apply Hls in Hl as [u [v [-> Huv]]]. exists u, v. split; [reflexivity|].
    apply (i_links _ _ _ _ _ I) in Huv. destruct (core_rl_known _ _ (i_core _ _ _ _ _ I) _ _ Huv) as [A B].
    split; eapply i_ok; eauto. }
  destruct (q_links_inv fails2 m2 True ord ls no_links _ rm' r Ho (inv_start fails2 m2 True (rm_level rm)) Hpl Es)
    as [done [rest [El [Hr I2]]]].
  assert (Hfold : forall done L u v, (forall l, In l done -> exists a b, l = [a; b]) ->
            fold_left (fun L l => link_add (hd ""%string l) (hd ""%string (tl l)) L) done L u v = true <->
            In [u; v] done \/ L u v = true).
  { clear. induction done as [|l done IH]; intros L u v Hd; cbn [fold_left]; [cbn; tauto|].
    rewrite IH by (intros x Hx; apply Hd; now right). destruct (Hd l ltac:(now left)) as [a [b ->]]. cbn [hd tl].
    unfold link_add. rewrite orb_true_iff, andb_true_iff, !String.eqb_eq. cbn [In]. split.
    - intros [H|[[-> ->]|H]]; auto.
    - intros [[H|H]|H]; auto. injection H as -> ->. auto. }
  assert (Hd : forall l, In l done -> exists a b, l = [a; b]).
  { intros l Hl. destruct (Hpl l) as [a [b [-> _]]]; [rewrite El; apply in_or_app; now left|eauto]. }
  assert (L1 : forall l, In l (listed ord2 rm) <-> In l ls).
  { intros l. unfold listed, rm_Range. rewrite rangeLinks_all, fold_snoc. cbn.
    rewrite (listed_inv _ _ _ _ _ _ Ho2 I Logic.I l), Hls. reflexivity. }
  assert (L2 : forall l, In l (listed ord2 rm') <-> In l done).
  { intros l. unfold listed, rm_Range. rewrite rangeLinks_all, fold_snoc. cbn.
    rewrite (listed_inv _ _ _ _ _ _ Ho2 I2 Logic.I l). split.
    - intros [u [v [-> H]]]. apply Hfold in H as [H|H]; [exact H|discriminate|exact Hd].
    - intros H. destruct (Hd l H) as [u [v ->]]. exists u, v. split; [reflexivity|]. apply Hfold; [exact Hd|now left]. }
  split.
  - intros l H. apply L2 in H. apply L1. rewrite El. apply in_or_app. now left.
  - intros Hn0 l H. apply L2. apply L1 in H. rewrite El in H.
    destruct r as [[]|]; [|contradiction]. rewrite (Hr eq_refl), app_nil_r in H. exact H.
Qed.
Print Assumptions C112_rebuild_partial.

Definition ex_links : list (order * rcall) :=
  [(fwd, RAdd "re:(" "staff" []); (fwd, RAdd "alice" "admin" [])]%string.
Definition plain_names : imatcher := NewMatcher (fun _ => false) (fun _ _ => false).

Theorem C112_rebuild_refuted :
  ~ (forall (fails fails2 : string -> string -> bool) (m m2 : imatcher) (level : Z) (h : list (order * rcall)) rm xs
            ord rm' r,
       good h -> good_order ord -> (forall n, In n (mentioned h) -> plain n) ->
       Forall (fun c => unflagged (snd c)) h ->
       q_exec fails (newRoleManagerWithMatchingFunc level (Some m)) h = (rm, xs) ->
       q_SetMatcher fails2 ord rm (Some m2) = (rm', r) ->
       forall l, In l (listed ord rm) -> In l (listed ord rm')).
Proof.
  intros H.
  destruct (q_exec (fun _ _ => false) (newRoleManagerWithMatchingFunc 10 (Some plain_names)) ex_links) as [rm xs] eqn:E.
  destruct (q_SetMatcher (fun _ p => re_bad p) fwd rm (Some re)) as [rm' r] eqn:Es.
  pose proof (f_equal fst E) as F. cbn [fst] in F. pose proof (f_equal fst Es) as G. cbn [fst] in G.
  assert (A : In ["alice"; "admin"]%string (listed fwd rm)).
  { rewrite <- F. vm_compute. tauto. }
  assert (B : listed fwd rm' = []).
  { rewrite <- G, <- F. vm_compute. reflexivity. }
  assert (C : In ["alice"; "admin"]%string (listed fwd rm')).
  { refine (H _ _ _ _ _ ex_links rm xs fwd rm' r _ good_fwd _ _ E Es _ A).
    - repeat constructor; apply good_fwd.
    - intros n Hn. cbn in Hn. repeat (destruct Hn as [<-|Hn]; [vm_compute; reflexivity|]). destruct Hn.
    - repeat constructor. }
  rewrite B in C. destruct C.
Qed.
Print Assumptions C112_rebuild_refuted.

(** The hypotheses of C112_poisoned are met: after AddLink("re:(", "staff") the
    first GetRoles("carol") panics and the second returns. *)
Example C112_poisoned_ex :
  let h := [(fwd, RAdd "re:.*" "admin" []); (fwd, RAdd "re:(" "staff" []); (fwd, RAdd "alice" "admin" [])]%string in
  good h /\ (forall s, In s (mentioned (h ++ [(fwd, RRoles "carol"%string)])) -> plain s) /\
  links_call (RAdd "re:(" "staff" []) /\ IsPattern re "re:(" = true /\ re_bad "re:(" = true /\
  first_name (RRoles "carol") "carol" /\ IsPattern re "carol" = false /\ ~ In "carol"%string (mentioned h) /\
  map panicked (snd (q_exec (fun _ p => re_bad p) (newRoleManagerWithMatchingFunc 10 (Some re))
                       (h ++ [(fwd, RRoles "carol"); (fwd, RRoles "carol")]%string))) = [false; true; true; true; false].
Proof.
  cbv zeta. split; [repeat constructor; apply good_fwd|]. split.
  { intros n H. cbn in H. repeat (destruct H as [<-|H]; [vm_compute; reflexivity|]). destruct H. }
  split; [now exists "re:("%string, "staff"%string, []; left|]. do 2 (split; [vm_compute; reflexivity|]).
  split; [now left|]. split; [vm_compute; reflexivity|]. split; [|vm_compute; reflexivity].
  cbn. intros H. repeat (destruct H as [H|H]; [discriminate|]). destruct H.
Qed.

(** Before the SetMatcher of C112_rebuild_refuted both links are listed. *)
Example C112_rebuild_ex :
  let rm := fst (q_exec (fun _ _ => false) (newRoleManagerWithMatchingFunc 10 (Some plain_names)) ex_links) in
  listed fwd rm = [["re:("; "staff"]; ["alice"; "admin"]]%string /\
  snd (q_SetMatcher (fun _ p => re_bad p) fwd rm (Some re)) = None /\
  snd (q_SetMatcher (fun _ _ => false) fwd rm (Some re)) = Some tt.
Proof. vm_compute. repeat split; reflexivity. Qed.
