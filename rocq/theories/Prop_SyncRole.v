(** Properties C85 and C86: calls on a role manager that run at the same time. *)
From Coq Require Import Lia.
From Verif Require Import GoBase GoBaseP RbacSpec PathM SyncRoleM SyncRoleSpec SyncRoleP.
Local Open Scope string_scope. Local Open Scope list_scope.

(** ** From phase to phase *)
Lemma start_inv m L K ops level : represents m L K -> tidy K ops -> Inv L K ops level m (map (start None) ops).
Proof.
  intros R HT. assert (HLK := fun a b => rep_in m L K a b R).
  assert (RK : forall n, K n = true -> real K ops n = true) by (intros n H; unfold real; now rewrite H).
  constructor.
  - constructor.
    + apply (r_match _ _ _ R).
    + intros n H. rewrite (r_known _ _ _ R) in H. now apply mhas_true in H.
    + apply (r_name _ _ _ R).
    + intros r f k v H. destruct (r_vals _ _ _ R _ _ _ _ H) as [A [B [C D]]]. auto.
    + intros a b H. apply andb_true_iff in H as [H _]. now rewrite (r_pres _ _ _ R), (r_presU _ _ _ R).
    + intros a b. rewrite (r_pres _ _ _ R). unfold sometime. intros ->. reflexivity.
    + intros a b. rewrite (r_presU _ _ _ R). unfold sometime. intros ->. reflexivity.
  - now rewrite map_length.
  - intros i p o Hp Ho. rewrite nth_error_map, Ho in Hp. injection Hp as <-.
    destruct o as [a b|a b|a b|a|a]; cbn [start match_set]; try (cbn; repeat (split; [reflexivity|]); split; [constructor|discriminate]).
    destruct (String.eqb_spec a b) as [->|N]; cbn [orb].
    + cbn. split; [|exact I]. unfold answer_fits. rewrite Ho. split; [reflexivity|]. intros _. now left.
    + cbn. repeat (split; [reflexivity|]). split; [constructor|]. intros x y [= <- <-]. exact N.
  - intros a b _. rewrite (r_pres _ _ _ R), (r_presU _ _ _ R). auto.
  - intros a b _. rewrite (r_pres _ _ _ R), (r_presU _ _ _ R). auto.
  - intros a b _. rewrite (r_pres _ _ _ R), (r_presU _ _ _ R). auto.
  - intros a b _. rewrite (r_pres _ _ _ R). auto.
  - intros a b _. rewrite (r_pres _ _ _ R). auto.
  - intros n Hn Hr. exfalso. apply orb_false_iff in Hn as [Hn _]. rewrite (r_known _ _ _ R) in Hn. now apply mhas_false in Hn.
Qed.
Lemma run_inv L K ops level : tidy K ops -> (forall a b, L a b = true -> K a = true /\ K b = true) ->
  forall sched m ts m' ts', Inv L K ops level m ts -> run None level (m, ts) sched = Val (m', ts') -> Inv L K ops level m' ts'.
Proof.
  intros HT HLK. induction sched as [|[i ch] sched IH]; intros m ts m' ts' HI; cbn [run]; [intros [= <- <-]; exact HI|].
  cbn [fst snd]. destruct (nth_error ts i) as [p|] eqn:E; [|now apply IH].
  destruct (tstep None level ch m p) as [[m1 p1]|] eqn:Es; cbn [obind]; [|discriminate]. apply IH. eapply inv_step; eauto.
Qed.
Lemma end_inv L K ops level m ys : tidy K ops -> (forall a b, L a b = true -> K a = true /\ K b = true) ->
  Inv L K ops level m (map PDone ys) ->
  represents m (phase_links L ops) (real K ops) /\ List.length ys = List.length ops /\
  forall i y, nth_error ys i = Some y -> answer_fits level L ops i y.
Proof.
  intros HT HLK HI. pose proof (i_base _ _ _ _ _ _ HI) as B.
  assert (Len : List.length ys = List.length ops) by (rewrite <- (i_len _ _ _ _ _ _ HI); now rewrite map_length).
  assert (D : forall i o, nth_error ops i = Some o -> exists y, nth_error ys i = Some y /\ T L K ops level i o m (PDone y)).
  { intros i o Ho. destruct (nth_error ys i) as [y|] eqn:Ey.
    - exists y. split; [reflexivity|]. apply (i_T _ _ _ _ _ _ HI); [|exact Ho]. now rewrite nth_error_map, Ey.
    - exfalso. apply nth_error_None in Ey. rewrite Len in Ey. apply nth_error_None in Ey. congruence. }
  assert (NoMid : forall (o : rop), ~ exists i p, nth_error ops i = Some o /\ nth_error (map PDone ys) i = Some p /\ mid p = true).
  { intros o [i [p [_ [Hp Hm]]]]. rewrite nth_error_map in Hp. destruct (nth_error ys i); [|discriminate]. injection Hp as <-. discriminate. }
  assert (PA : forall a b, adds ops a b = true -> pres m a b = true).
  { intros a b Ha. apply adds_in in Ha. apply In_nth_error in Ha as [i Hi]. destruct (D _ _ Hi) as [y [_ [_ [_ [_ X]]]]]. exact X. }
  assert (PD : forall a b, dels ops a b = true -> pres m a b = false).
  { intros a b Ha. apply dels_in in Ha. apply In_nth_error in Ha as [i Hi]. destruct (D _ _ Hi) as [y [_ [_ [_ [_ X]]]]]. exact X. }
  split; [|split; [exact Len|]].
  - constructor.
    + apply (b_match _ _ _ _ B).
    + intros n. unfold real. destruct (K n) eqn:Kn; cbn [orb].
      * symmetry. apply mhas_true. now apply (b_known _ _ _ _ B).
      * destruct (updated ops n) eqn:Un; symmetry.
        -- apply mhas_true. apply updated_in in Un as [i [o [Ho [Hu Hm]]]]. destruct (D _ _ Ho) as [y [_ [_ X]]]. apply sin_In in Hm.
           destruct o; try discriminate Hu; destruct X as [X1 [X2 _]]; destruct Hm as [<-|[<-|[]]]; assumption.
        -- apply mhas_false. destruct (mget n (m_all m)) eqn:E; [|reflexivity]. exfalso.
           assert (Hn : real K ops n = false) by (unfold real; now rewrite Kn, Un).
           destruct (i_temp _ _ _ _ _ _ HI n Hn) as [i [p [Hp X]]]; [congruence|]. rewrite nth_error_map in Hp. destruct (nth_error ys i); [|discriminate]. injection Hp as <-. exact X.
    + apply (b_name _ _ _ _ B).
    + apply (b_vals _ _ _ _ B).
    + intros a b. unfold phase_links. destruct (dels ops a b) eqn:De; [rewrite andb_false_r; now apply PD|]. rewrite andb_true_r.
      destruct (adds ops a b) eqn:Ad; [rewrite orb_true_r; now apply PA|]. rewrite orb_false_r. destruct (L a b) eqn:El.
      * apply (b_lo _ _ _ _ B). unfold throughout. now rewrite El, De.
      * destruct (pres m a b) eqn:P; [|reflexivity]. apply (b_hi _ _ _ _ B) in P. unfold sometime in P. now rewrite El, Ad in P.
    + intros a b. unfold phase_links. destruct (dels ops a b) eqn:De.
      * rewrite andb_false_r. destruct (presU m b a) eqn:P; [|reflexivity]. exfalso.
        destruct (i_del _ _ _ _ _ _ HI _ _ De P) as [X|X]; [rewrite PD in X by exact De; discriminate|now apply NoMid in X].
      * rewrite andb_true_r. destruct (adds ops a b) eqn:Ad.
        -- rewrite orb_true_r. destruct (i_add _ _ _ _ _ _ HI _ _ Ad (PA _ _ Ad)) as [X|X]; [exact X|now apply NoMid in X].
        -- rewrite orb_false_r. destruct (L a b) eqn:El.
           ++ apply (b_lo _ _ _ _ B). unfold throughout. now rewrite El, De.
           ++ destruct (presU m b a) eqn:P; [|reflexivity]. apply (b_hiU _ _ _ _ B) in P. unfold sometime in P. now rewrite El, Ad in P.
  - intros i y Hy. destruct (nth_error ops i) as [o|] eqn:Ho.
    + destruct (D _ _ Ho) as [y' [E [X _]]]. congruence.
    + exfalso. apply nth_error_None in Ho. rewrite <- Len in Ho. apply nth_error_None in Ho. congruence.
Qed.
Lemma phase_ok m L K ops level sched m' ys : represents m L K -> tidy K ops -> phase_runs None level m ops sched m' ys ->
  represents m' (phase_links L ops) (real K ops) /\ List.length ys = List.length ops /\
  forall i y, nth_error ys i = Some y -> answer_fits level L ops i y.
Proof.
  intros R HT [ts [Hr Hf]]. red in Hf. subst ts. assert (HLK := fun a b => rep_in m L K a b R).
  eapply end_inv; eauto. eapply run_inv; [exact HT|exact HLK| |exact Hr]. now apply start_inv.
Qed.
Lemma links_snoc h ops : links_after (h ++ [ops]) = phase_links (links_after h) ops.
Proof. unfold links_after. now rewrite fold_left_app. Qed.
Lemma known_snoc h ops n : known_after (h ++ [ops]) n = known_after h n || updated ops n.
Proof. unfold known_after. rewrite existsb_app. cbn. now rewrite orb_false_r. Qed.
Lemma tidy_ext K K' ops : (forall n, K n = K' n) -> tidy K ops -> tidy K' ops.
Proof. intros E [H1 H2]. split; [exact H1|]. intros n Hn. apply H2. now rewrite E. Qed.
Lemma all_tidy_ext h : forall K K', (forall n, K n = K' n) -> all_tidy K h -> all_tidy K' h.
Proof.
  induction h as [|ops h IH]; intros K K' E; cbn; [auto|]. intros [H1 H2]. split; [eapply tidy_ext; eauto|]. eapply IH; [|exact H2]. intros n. cbn. now rewrite E.
Qed.
Lemma all_tidy_app h1 : forall K h2, all_tidy K (h1 ++ h2) <-> all_tidy K h1 /\ all_tidy (fun n => K n || known_after h1 n) h2.
Proof.
  induction h1 as [|ops h1 IH]; intros K h2; cbn.
  - split; [intros H; split; [exact I|]|intros [_ H]]; eapply all_tidy_ext; [|exact H|..|exact H]; intros n; cbn; now rewrite orb_false_r.
  - rewrite IH. rewrite and_assoc. split; intros [H1 [H2 H3]]; (split; [exact H1|split; [exact H2|]]); eapply all_tidy_ext; [|exact H3| |exact H3]; intros n; cbn; now rewrite orb_assoc.
Qed.
Lemma all_tidy_snoc h ops : all_tidy no_names (h ++ [ops]) <-> all_tidy no_names h /\ tidy (known_after h) ops.
Proof.
  rewrite all_tidy_app. cbn. split; [intros [H1 [H2 _]]|intros [H1 H2]]; (split; [exact H1|]); [|split; [|exact I]]; eapply tidy_ext; [|exact H2| |exact H2]; reflexivity.
Qed.
Lemma phases_ok level h m yss : phases_run None level mem0 h m yss -> all_tidy no_names h ->
  represents m (links_after h) (known_after h) /\ List.length yss = List.length h /\
  forall i ops ys, nth_error h i = Some ops -> nth_error yss i = Some ys ->
    List.length ys = List.length ops /\ forall j y, nth_error ys j = Some y -> answer_fits level (links_after (firstn i h)) ops j y.
Proof.
  intros H. induction H as [|h m1 yss ops sched m2 ys H IH H1]; intros HT.
  - split; [exact rep_mem0|]. split; [reflexivity|]. intros [|i] ops ys; discriminate.
  - apply all_tidy_snoc in HT as [HT1 HT2]. destruct (IH HT1) as [R [Len A]].
    destruct (phase_ok _ _ _ _ _ _ _ _ R HT2 H1) as [R' [Len' A']].
    split; [|split].
    + eapply rep_ext; [exact R'|intros a b; now rewrite links_snoc|]. intros n. rewrite known_snoc. reflexivity.
    + rewrite !app_length. cbn. lia.
    + intros i o y Hi Hy. destruct (Nat.lt_ge_cases i (List.length h)) as [Hl|Hl].
      * rewrite nth_error_app1 in Hi by exact Hl. rewrite nth_error_app1 in Hy by lia. rewrite firstn_app. replace (i - List.length h) with 0 by lia.
        cbn. rewrite app_nil_r. now apply A.
      * rewrite nth_error_app2 in Hi by exact Hl. rewrite nth_error_app2 in Hy by lia. rewrite Len in Hy.
        destruct (i - List.length h) as [|k] eqn:Ek; [|destruct k; discriminate]. cbn in Hi, Hy. injection Hi as <-. injection Hy as <-.
        assert (i = List.length h) by lia. subst i. rewrite firstn_app, Nat.sub_diag, firstn_all. cbn. rewrite app_nil_r. auto.
Qed.

(** Phases of calls that keep out of each other's way (SyncRoleSpec.tidy), without
    a role matcher, under any interleaving: every answer fits the links of its
    phase.  HasLink is true if the link holds throughout the phase and only if it
    holds with what the phase adds; AddLink and DeleteLink answer as if alone when
    no other call of the phase updates the same link; the links after a phase,
    seen by the next, are those before it with what it added and without what it
    deleted. *)
Theorem C85_concurrent_calls_partial :
  forall level h m yss,
    phases_run None level mem0 h m yss -> all_tidy no_names h ->
    forall i ops ys, nth_error h i = Some ops -> nth_error yss i = Some ys ->
      List.length ys = List.length ops /\
      forall j y, nth_error ys j = Some y -> answer_fits level (links_after (firstn i h)) ops j y.
Proof. intros level h m yss H HT. now apply (phases_ok level h m yss). Qed.
Print Assumptions C85_concurrent_calls_partial.

(** Of the calls that add (delete) one and the same link, one says that it did. *)
Theorem C85_someone_did_partial :
  forall level h m yss,
    phases_run None level mem0 h m yss -> all_tidy no_names h ->
    forall i ops ys a b, nth_error h i = Some ops -> nth_error yss i = Some ys ->
      (adds ops a b = true -> links_after (firstn i h) a b = false ->
         exists j, nth_error ops j = Some (OAdd a b) /\ nth_error ys j = Some (YBool true)) /\
      (dels ops a b = true -> links_after (firstn i h) a b = true ->
         exists j, nth_error ops j = Some (ODel a b) /\ nth_error ys j = Some (YBool true)).
Proof.
  intros level h m yss H HT i ops ys a b Hi Hy.
  assert (S : forall (g : list (list rop)) m0 zss, phases_run None level mem0 g m0 zss -> all_tidy no_names g ->
     nth_error g i = Some ops -> nth_error zss i = Some ys -> exists m1 ops' ys' sched m2, represents m1 (links_after (firstn i g)) (known_after (firstn i g)) /\
       ops' = ops /\ ys' = ys /\ tidy (known_after (firstn i g)) ops /\ phase_runs None level m1 ops' sched m2 ys').
  { clear. intros g m0 zss H. induction H as [|h m1 yss o sched m2 y H IH H1]; intros HT Hi Hy; [destruct i; discriminate|].
    apply all_tidy_snoc in HT as [HT1 HT2]. destruct (phases_ok _ _ _ _ H HT1) as [R [Len _]].
    destruct (Nat.lt_ge_cases i (List.length h)) as [Hl|Hl].
    - rewrite nth_error_app1 in Hi by exact Hl. rewrite nth_error_app1 in Hy by lia. rewrite firstn_app. replace (i - List.length h) with 0 by lia.
      cbn. rewrite app_nil_r. auto.
    - rewrite nth_error_app2 in Hi by exact Hl. rewrite nth_error_app2 in Hy by lia. rewrite Len in Hy.
      destruct (i - List.length h) as [|k] eqn:Ek; [|destruct k; discriminate]. cbn in Hi, Hy. injection Hi as <-. injection Hy as <-.
      assert (i = List.length h) by lia. subst i. rewrite firstn_app, Nat.sub_diag, firstn_all. cbn. rewrite app_nil_r. exists m1, o, y, sched, m2. auto. }
  destruct (S _ _ _ H HT Hi Hy) as [m1 [ops' [ys' [sched [m2 [R [-> [-> [HT2 HP]]]]]]]]]. clear S.
  destruct (phase_ok _ _ _ _ _ _ _ _ R HT2 HP) as [R' _]. destruct HP as [ts [Hr Hf]]. red in Hf. subst ts.
  assert (HI : Inv (links_after (firstn i h)) (known_after (firstn i h)) ops level m2 (map PDone ys)).
  { eapply run_inv; [exact HT2|intros x y; eapply rep_in; exact R| |exact Hr]. now apply start_inv. }
  assert (W : forall o, (exists j p, nth_error ops j = Some o /\ nth_error (map PDone ys) j = Some p /\ won p = true) ->
              exists j, nth_error ops j = Some o /\ nth_error ys j = Some (YBool true)).
  { intros o [j [p [E1 [E2 E3]]]]. exists j. split; [exact E1|]. rewrite nth_error_map in E2. destruct (nth_error ys j) as [y|]; [|discriminate]. injection E2 as <-.
    destruct y as [[|]|]; try discriminate. reflexivity. }
  split; intros Ho Hl; apply W.
  - destruct (i_win _ _ _ _ _ _ HI a b Ho) as [X|X]; [|congruence|exact X].
    rewrite (r_pres _ _ _ R'). unfold phase_links. rewrite Ho. destruct (dels ops a b) eqn:De; [|now rewrite orb_true_r].
    apply (proj1 HT2) in Ho. congruence.
  - destruct (i_lose _ _ _ _ _ _ HI a b Ho) as [X|X]; [|congruence|exact X]. rewrite (r_pres _ _ _ R'). unfold phase_links. rewrite Ho. now rewrite andb_false_r.
Qed.
Print Assumptions C85_someone_did_partial.

(** ** Every call can return, and none panics *)
Section Ends.
  Variable level : nat.
  Definition MB (m : mem) : Prop := forall r, fget m r FMatched = [] /\ fget m r FMatchedBy = [].
  Definition is_link (f : fld) : bool := match f with FRoles | FUsers => true | _ => false end.
  Fixpoint calm (p : pc) : Prop :=
    match p with
    | PPat _ _ _ _ _ | PMatch _ _ _ _ _ _ _ | PLoadPat _ _ _ => False
    | PSet l k => Forall (fun x => is_link (snd (fst (fst x))) = true) l /\ calm k
    | PUnset l k => Forall (fun x => is_link (snd (fst x)) = true) l /\ calm k
    | PRem f _ _ _ _ _ => is_link f = false
    | _ => True
    end.
  Lemma MB_upd m r f g : is_link f = true -> MB m -> MB (fupd m r f g).
  Proof.
    intros Hf H r'. rewrite !fget_fupd_other by (right; intros ->; discriminate). apply H.
  Qed.
  Lemma MB_heap m m' : m_heap m' = m_heap m -> MB m -> MB m'.
  Proof. intros E H r. unfold fget. rewrite E. apply H. Qed.
  Lemma enter_calm l t rs cl : calm (enter l t rs cl).
  Proof. destruct l, rs; exact I. Qed.
  Lemma next_calm o gs rest : calm (next_got level o gs rest).
  Proof. destruct rest; [|exact I]. destruct o, gs as [|? [|? ?]]; try exact I; apply enter_calm. Qed.
  Lemma calm_step ch m p : MB m -> calm p -> exists m' p', tstep None level ch m p = Val (m', p') /\ MB m' /\ calm p'.
  Proof.
    intros HM HC. destruct p as [o gs n rest|o gs n rest| | | |l k|l k|add u r|l t todo next cl|fs acc k cl|cl y|n r cl y|f n r open cl y|n cl y|y]; try contradiction HC; cbn [tstep].
    - eexists _, _. split; [reflexivity|]. split; [exact HM|]. destruct (mget n (m_all m)); [apply next_calm|exact I].
    - eexists _, _. split; [reflexivity|]. split; [|apply next_calm]. intros r. unfold fget. cbn [m_heap].
      destruct (nth_error (m_heap m ++ _) r) as [o'|] eqn:E; [|auto]. destruct (Nat.lt_ge_cases r (List.length (m_heap m))) as [Hl|Hl].
      + rewrite nth_error_app1 in E by exact Hl. specialize (HM r). unfold fget in HM. now rewrite E in HM.
      + rewrite nth_error_app2 in E by exact Hl. destruct (r - _) as [|k]; [|destruct k; discriminate]. injection E as <-. auto.
    - destruct l as [|[[[r f] n] v] l]; [eexists _, _; split; [reflexivity|split; [exact HM|apply HC]]|]. destruct HC as [HF HC]. inversion HF; subst.
      eexists _, _. split; [reflexivity|]. split; [apply MB_upd; assumption|]. destruct l; [exact HC|]. now split.
    - destruct l as [|[[r f] n] l]; [eexists _, _; split; [reflexivity|split; [exact HM|apply HC]]|]. destruct HC as [HF HC]. inversion HF; subst.
      eexists _, _. split; [reflexivity|]. split; [apply MB_upd; assumption|]. destruct l; [exact HC|]. now split.
    - destruct (Bool.eqb _ _); [eexists _, _; split; [reflexivity|split; [exact HM|exact I]]|].
      destruct add; (eexists _, _; split; [reflexivity|]; split; [exact HM|]; split; [repeat constructor|exact I]).
    - destruct todo as [|kv todo]; [eexists _, _; split; [reflexivity|split; [exact HM|apply enter_calm]]|].
      destruct ch; [|eexists _, _; split; [reflexivity|split; [exact HM|exact I]]].
      destruct (mget _ _); [|eexists _, _; split; [reflexivity|split; [exact HM|exact I]]].
      destruct (_ || _); (eexists _, _; split; [reflexivity|split; [exact HM|exact I]]).
    - destruct fs as [|[f r b|f r b must visited] fs].
      + eexists _, _. split; [reflexivity|]. split; [exact HM|]. destruct k; exact I.
      + eexists _, _. split; [reflexivity|]. split; [exact HM|exact I].
      + destruct ch as [x|].
        * destruct (may_visit _ _ _); [|eexists _, _; split; [reflexivity|split; [exact HM|exact I]]].
          destruct (mget _ _); (eexists _, _; split; [reflexivity|split; [exact HM|]]); [destruct b|]; exact I.
        * destruct (may_end _ _ _); (eexists _, _; split; [reflexivity|split; [exact HM|exact I]]).
    - destruct cl; (eexists _, _; split; [reflexivity|split; [exact HM|]]); [exact I|]. destruct (mget _ _); exact I.
    - eexists _, _. split; [reflexivity|]. split; [now apply (MB_heap m)|reflexivity].
    - assert (E : fget m r f = []) by (destruct f; try discriminate HC; apply HM). rewrite E.
      destruct open as [[must visited]|]; [|eexists _, _; split; [reflexivity|split; [exact HM|exact HC]]]. destruct ch.
      + cbn. eexists _, _. split; [reflexivity|split; [exact HM|exact HC]].
      + destruct (may_end _ _ _); (eexists _, _; split; [reflexivity|split; [exact HM|]]); [|exact HC]. destruct f; try discriminate HC; cbn; auto; reflexivity.
    - eexists _, _. split; [reflexivity|]. split; [now apply (MB_heap m)|exact I].
    - eexists _, _. split; [reflexivity|split; [exact HM|exact I]].
  Qed.
  Lemma upd_forall {A} (P : A -> Prop) (l : list A) : forall i f, Forall P l -> (forall x, nth_error l i = Some x -> P (f x)) -> Forall P (upd_at l i f).
  Proof.
    induction l as [|x l IH]; intros [|i] f H Hx; cbn; auto; inversion H; subst; constructor; auto.
  Qed.
  Lemma calm_run sched : forall m ts, MB m -> Forall calm ts -> exists m' ts', run None level (m, ts) sched = Val (m', ts') /\ MB m' /\ Forall calm ts'.
  Proof.
    induction sched as [|[i ch] sched IH]; intros m ts HM HC; cbn [run]; [eauto|]. cbn [fst snd]. destruct (nth_error ts i) as [p|] eqn:E; [|auto].
    assert (Hp : calm p) by (eapply Forall_forall; [exact HC|eapply nth_error_In; eauto]).
    destruct (calm_step ch m p HM Hp) as [m' [p' [Es [HM' HC']]]]. rewrite Es. cbn [obind]. apply IH; [exact HM'|]. now apply upd_forall.
  Qed.

  (** A call that runs alone. *)
  Inductive ends (m : mem) (p : pc) : Prop :=
  | ends_done y : p = PDone y -> ends m p
  | ends_step ch m' p' : tstep None level ch m p = Val (m', p') -> ends m' p' -> ends m p.
  Ltac go ch := eapply (ends_step _ _ ch); [reflexivity|].
  Lemma may_end_all keys : may_end keys keys keys = true.
  Proof. apply forallb_forall. intros x Hx. apply orb_true_iff. right. now apply sin_In. Qed.

  Lemma ends_rem m f n r open cl y : MB m -> is_link f = false -> (forall m, MB m -> ends m (PPatDel n cl y)) -> ends m (PRem f n r open cl y).
  Proof.
    intros HM Hf P. destruct (HM r) as [E1 E2].
    assert (X : forall f, fget m r f = [] -> ends m (match f with FMatched => PRem FMatchedBy n r None cl y | _ => PPatDel n cl y end) -> forall open, ends m (PRem f n r open cl y)).
    { intros f0 Ef Hk open0. assert (O : forall must visited, ends m (PRem f0 n r (Some (must, visited)) cl y)).
      { intros must visited. eapply (ends_step _ _ None); [|exact Hk]. cbn [tstep]. rewrite Ef. replace (may_end must visited (mkeys [])) with true; [reflexivity|].
        symmetry. apply forallb_forall. reflexivity. }
      destruct open0 as [[must visited]|]; [apply O|]. go (@None string). apply O. }
    destruct f; try discriminate Hf; [apply (X FMatched E1)|now apply (X FMatchedBy E2), P]. apply (X FMatchedBy E2). now apply P.
  Qed.
  Lemma ends_clean cl y : forall m, MB m -> ends m (PClean cl y).
  Proof.
    induction cl as [|n cl IH]; intros m HM; [go (@None string); eapply ends_done; reflexivity|].
    assert (P : forall m, MB m -> ends m (PPatDel n cl y)) by (intros m0 H0; go (@None string); apply IH; now apply (MB_heap m0)).
    eapply (ends_step _ _ None); [reflexivity|]. destruct (mget n (m_all m)) as [r|]; [|now apply P].
    go (@None string). apply ends_rem; [now apply (MB_heap m)|reflexivity|exact P].
  Qed.

  Lemma ends_open m f r b fs k cl : (forall acc, ends m (PRange fs acc k cl)) ->
    (forall g v must visited, b = BInner g -> (forall acc, ends m (PRange (FrOpen f r b must visited :: fs) acc k cl)) ->
       forall acc, ends m (PRange (FrNew g v BCollect :: FrOpen f r b must visited :: fs) acc k cl)) ->
    forall must visited acc, ends m (PRange (FrOpen f r b must visited :: fs) acc k cl).
  Proof.
    intros Hk Hi must0 visited0 acc. set (keys := mkeys (fget m r f)).
    assert (G : forall todo must visited acc, (forall x, In x keys -> In x todo \/ In x visited) -> (forall x, In x todo -> In x keys) -> ends m (PRange (FrOpen f r b must visited :: fs) acc k cl)).
    { induction todo as [|x todo IH]; intros must visited acc0 H1 H2.
      - eapply (ends_step _ _ None); [|apply (Hk acc0)]. cbn [tstep]. replace (may_end must visited (mkeys (fget m r f))) with true; [reflexivity|].
        symmetry. apply forallb_forall. intros x Hx. destruct (sin x (mkeys (fget m r f))) eqn:E; [|reflexivity]. cbn. apply sin_In in E. apply sin_In. destruct (H1 x E) as [[]|X]; exact X.
      - destruct (sin x visited) eqn:Ev.
        + apply IH; [|intros y Hy; apply H2; now right]. intros y Hy. destruct (H1 y Hy) as [[->|X]|X]; auto. right. now apply sin_In.
        + assert (Hx : In x keys) by (apply H2; now left). destruct (mget x (fget m r f)) as [v|] eqn:Em.
          2:{ exfalso. apply mget_None in Em. contradiction. }
          assert (N : forall acc1, ends m (PRange (FrOpen f r b must (x :: visited) :: fs) acc1 k cl)).
          { intros acc1. apply IH; [|intros y Hy; apply H2; now right]. intros y Hy. destruct (H1 y Hy) as [[->|X]|X]; cbn; auto. }
          eapply (ends_step _ _ (Some x)); [cbn [tstep]; unfold may_visit; fold keys; rewrite (proj2 (sin_In x keys) Hx), Ev, Em; cbn [negb andb]; reflexivity|].
          destruct b as [|g] eqn:Eb; [apply N|]. now apply Hi. }
    apply (G keys); auto.
  Qed.
  Lemma ends_new m f r b fs k cl : (forall must visited acc, ends m (PRange (FrOpen f r b must visited :: fs) acc k cl)) ->
    forall acc, ends m (PRange (FrNew f r b :: fs) acc k cl).
  Proof. intros H acc. go (@None string). apply H. Qed.
  Lemma ends_range m k cl : (forall acc, ends m (PRange [] acc k cl)) -> forall fs acc, ends m (PRange fs acc k cl).
  Proof.
    intros H.
    assert (C : forall g v fs, (forall acc, ends m (PRange fs acc k cl)) -> forall acc, ends m (PRange (FrNew g v BCollect :: fs) acc k cl)).
    { intros g v fs Hk. apply ends_new. apply ends_open; [exact Hk|discriminate]. }
    induction fs as [|[f r b|f r b must visited] fs IH]; [exact H| |].
    - apply ends_new. apply ends_open; [exact IH|]. intros; now apply C.
    - apply ends_open; [exact IH|]. intros; now apply C.
  Qed.
  Lemma mdel_shorter k (v : nat) (todo : smap nat) : mget k todo = Some v -> List.length (mdel k todo) < List.length todo.
  Proof.
    induction todo as [|[k' v'] todo IH]; cbn; [discriminate|]. destruct (String.eqb_spec k k') as [->|N]; cbn.
    - intros _. assert (X : List.length (mdel k' todo) <= List.length todo); [|lia]. clear. induction todo as [|[a b] todo IH]; cbn; [lia|]. destruct (String.eqb k' a); cbn; lia.
    - intros H. apply IH in H. lia.
  Qed.
  Lemma ends_level m t cl : MB m -> forall l todo next, ends m (PLevel l t todo next cl).
  Proof.
    intros HM. induction l as [l IHl] using (well_founded_induction Nat.lt_wf_0).
    assert (G : forall n todo next, List.length todo <= n -> ends m (PLevel l t todo next cl)).
    { induction n as [|n IHn]; intros todo next Hn.
      - destruct todo; [|cbn in Hn; lia]. go (@None string). destruct l, next; try (now apply ends_clean). apply IHl. lia.
      - destruct todo as [|[k v] todo]; [go (@None string); destruct l, next; try (now apply ends_clean); apply IHl; lia|].
        assert (Ek : mget k ((k, v) :: todo) = Some v) by (cbn; now rewrite String.eqb_refl).
        remember ((k, v) :: todo) as td eqn:Etd. destruct (String.eqb t (name_at m v)) eqn:E.
        + eapply (ends_step _ _ (Some k)); [cbn [tstep]; rewrite Ek, E; rewrite Etd; reflexivity|]. now apply ends_clean.
        + eapply (ends_step _ _ (Some k)); [cbn [tstep]; rewrite Ek, E; cbn [orb match_set]; rewrite Etd at 1; reflexivity|].
          apply ends_range. intros acc. go (@None string). apply IHn. apply mdel_shorter in Ek. lia. }
    intros todo next. now apply (G (List.length todo)).
  Qed.
  Lemma ends_has m add u r : ends m (PHasRole add u r).
  Proof.
    assert (D : forall m b, ends m (PDone (YBool b))) by (intros; eapply ends_done; reflexivity).
    destruct (Bool.eqb add (mhas (name_at m r) (fget m u FRoles))) eqn:Eb.
    - eapply (ends_step _ _ None); [cbn [tstep]; rewrite Eb; reflexivity|]. apply D.
    - destruct add; (eapply (ends_step _ _ None); [cbn [tstep]; rewrite Eb; reflexivity|]; go (@None string); go (@None string); apply D).
  Qed.
  Lemma ends_got m o gs : MB m -> ends m (after_got level o gs).
  Proof.
    intros HM. assert (E : forall l t rs cl, ends m (enter l t rs cl)) by (intros [|l] t [|x rs] cl; try (now apply ends_clean); now apply ends_level).
    assert (D : forall m b, ends m (PDone (YBool b))) by (intros; eapply ends_done; reflexivity).
    assert (P := ends_has m).
    assert (R : forall f r cl, ends m (PRange (range_frames f r) [] KNames cl)).
    { intros f r cl. apply ends_range. intros acc. go (@None string). now apply ends_clean. }
    destruct o, gs as [|g [|g' gs]]; cbn [after_got]; auto.
  Qed.
  Lemma ends_load o rest : forall m gs n, MB m -> ends m (PLoad o gs n rest).
  Proof.
    induction rest as [|n' rest IH]; intros m gs n HM.
    - assert (S : forall m1 g, MB m1 -> ends m1 (next_got level o (gs ++ [g]) [])) by (intros; now apply ends_got).
      eapply (ends_step _ _ None); [reflexivity|]. destruct (mget n (m_all m)); [now apply S|].
      destruct (calm_step None m (PStore o gs n []) HM Logic.I) as [m' [p' [E [HM' _]]]]. eapply ends_step; [exact E|]. cbn [tstep] in E. injection E as <- <-. now apply S.
    - eapply (ends_step _ _ None); [reflexivity|]. destruct (mget n (m_all m)); [now apply IH|].
      destruct (calm_step None m (PStore o gs n (n' :: rest)) HM Logic.I) as [m' [p' [E [HM' _]]]]. eapply ends_step; [exact E|]. cbn [tstep] in E. injection E as <- <-. now apply IH.
  Qed.
  Lemma ends_store m o gs n rest : MB m -> ends m (PStore o gs n rest).
  Proof.
    intros HM. destruct (calm_step None m (PStore o gs n rest) HM Logic.I) as [m' [p' [E [HM' _]]]]. eapply ends_step; [exact E|]. cbn [tstep matching] in E. injection E as <- <-.
    destruct rest; [now apply ends_got|now apply ends_load].
  Qed.
  Lemma ends_calm p : forall m, MB m -> calm p -> ends m p.
  Proof.
    assert (CL := ends_clean).
    assert (PD : forall n cl y m, MB m -> ends m (PPatDel n cl y)) by (intros n cl y m H0; go (@None string); apply CL; now apply (MB_heap m)).
    induction p as [o gs n rest|o gs n rest| | | |l k IH|l k IH|add u r|l t todo next cl|fs acc k cl|cl y|n r cl y|f n r open cl y|n cl y|y]; intros m HM HC; try contradiction HC.
    - now apply ends_load.
    - now apply ends_store.
    - revert m HM HC. induction l as [|x l IHl]; intros m HM HC; [go (@None string); apply IH; [exact HM|apply HC]|].
      destruct (calm_step None m _ HM HC) as [m' [p' [E [HM' HC']]]]. eapply ends_step; [exact E|]. cbn [tstep] in E. destruct x as [[[r f] n] v]. injection E as <- <-.
      destruct l; [now apply IH|now apply IHl].
    - revert m HM HC. induction l as [|x l IHl]; intros m HM HC; [go (@None string); apply IH; [exact HM|apply HC]|].
      destruct (calm_step None m _ HM HC) as [m' [p' [E [HM' HC']]]]. eapply ends_step; [exact E|]. cbn [tstep] in E. destruct x as [[r f] n]. injection E as <- <-.
      destruct l; [now apply IH|now apply IHl].
    - now apply ends_has.
    - now apply ends_level.
    - apply ends_range. intros acc'. go (@None string). destruct k; [now apply ends_level|now apply CL].
    - now apply CL.
    - go (@None string). apply ends_rem; [now apply (MB_heap m)|reflexivity|apply PD].
    - apply ends_rem; auto.
    - now apply PD.
    - eapply ends_done. reflexivity.
  Qed.
  Lemma run_app sched1 : forall s sched2, run None level s (sched1 ++ sched2) = (let! s' := run None level s sched1 in run None level s' sched2).
  Proof.
    induction sched1 as [|[i ch] sched1 IH]; intros s sched2; cbn [run app obind]; [reflexivity|].
    destruct (nth_error (snd s) i) as [p|]; [|apply IH]. destruct (tstep None level ch (fst s) p) as [[m' p']|]; cbn [obind]; [apply IH|reflexivity].
  Qed.
  Lemma upd_here {A} (l1 : list A) x l2 f : upd_at (l1 ++ x :: l2) (List.length l1) f = l1 ++ f x :: l2.
  Proof. induction l1 as [|y l1 IH]; cbn; [reflexivity|]. now rewrite IH. Qed.
  Lemma ends_run m p : ends m p -> MB m -> calm p -> forall l1 l2, exists sched m' y, run None level (m, l1 ++ p :: l2) sched = Val (m', l1 ++ PDone y :: l2) /\ MB m'.
  Proof.
    intros H. induction H as [m p y ->|m p ch m' p' E H IH]; intros HM HC l1 l2; [exists [], m, y; auto|].
    destruct (calm_step ch m p HM HC) as [m1 [p1 [E1 [HM1 HC1]]]]. rewrite E in E1. injection E1 as <- <-.
    destruct (IH HM1 HC1 l1 l2) as [sched [m2 [y [Hr Hm]]]]. exists ((List.length l1, ch) :: sched), m2, y. split; [|exact Hm].
    cbn [run fst snd]. rewrite nth_error_app2, Nat.sub_diag by lia. cbn [nth_error]. rewrite E. cbn [obind]. rewrite upd_here. exact Hr.
  Qed.
  Lemma all_end ts : forall m ys, MB m -> Forall calm ts -> exists sched m' ys', run None level (m, map PDone ys ++ ts) sched = Val (m', map PDone ys').
  Proof.
    induction ts as [|p ts IH]; intros m ys HM HC; [exists [], m, ys; now rewrite app_nil_r|]. inversion HC; subst.
    destruct (ends_run m p (ends_calm p m HM H1) HM H1 (map PDone ys) ts) as [s1 [m1 [y [Hr Hm]]]].
    destruct (IH m1 (ys ++ [y]) Hm H2) as [s2 [m2 [ys2 Hr2]]]. exists (s1 ++ s2), m2, ys2. rewrite run_app, Hr. cbn [obind]. rewrite map_app, <- app_assoc in Hr2. exact Hr2.
  Qed.
  Lemma start_calm o : calm (start None o).
  Proof. destruct o as [a b|a b|a b|a|a]; cbn; try exact Logic.I. destruct (_ || _); exact Logic.I. Qed.
  Lemma starts_calm ops : Forall calm (map (start None) ops).
  Proof. apply Forall_forall. intros p Hp. apply in_map_iff in Hp as [o [<- _]]. apply start_calm. Qed.
  Lemma MB_phases h m yss : phases_run None level mem0 h m yss -> MB m.
  Proof.
    intros H. induction H as [|h m1 yss ops sched m2 ys H IH [ts [Hr Hf]]]; [intros [|r]; split; reflexivity|].
    destruct (calm_run sched m1 _ IH (starts_calm ops)) as [m' [ts' [E [HM _]]]]. rewrite Hr in E. now injection E as -> _.
  Qed.
End Ends.

(** Any calls, tidy or not, without a matcher: under no schedule does one of them
    panic, and wherever they stand they can all be run to their end. *)
Theorem C85_calls_return :
  forall level h m yss ops sched,
    phases_run None level mem0 h m yss ->
    exists m' ts, run None level (m, map (start None) ops) sched = Val (m', ts) /\
      exists sched' m'' ys, run None level (m', ts) sched' = Val (m'', map PDone ys).
Proof.
  intros level h m yss ops sched H. destruct (calm_run level sched m _ (MB_phases level h m yss H) (starts_calm ops)) as [m' [ts [E [HM HC]]]].
  exists m', ts. split; [exact E|]. exact (all_end level ts m' [] HM HC).
Qed.
Print Assumptions C85_calls_return.

(** ** What goes wrong when calls get in each other's way

    For the examples: the schedule that gives the goroutines their turns in the
    given order, with choices that let them go on. *)
Definition unvisited (now visited : list string) : option string := find (fun k => negb (sin k visited)) now.
Definition choice (m : mem) (p : pc) : option string :=
  match p with
  | PMatch _ _ _ _ _ pat (Some (_, visited)) => unvisited (if pat then mkeys (m_all m) else m_pats m) visited
  | PLevel _ _ ((k, _) :: _) _ _ => Some k
  | PRange (FrOpen f r _ _ visited :: _) _ _ _ => unvisited (mkeys (fget m r f)) visited
  | PRem f _ r (Some (_, visited)) _ _ => unvisited (mkeys (fget m r f)) visited
  | _ => None
  end.
Fixpoint turns (M : option imatcher) (level : nat) (s : config) (is : list nat) : list (nat * option string) :=
  match is with
  | [] => []
  | i :: is' =>
      match nth_error (snd s) i with
      | None => []
      | Some p =>
          let ch := choice (fst s) p in
          (i, ch) :: match tstep M level ch (fst s) p with
                     | Val (m, p') => turns M level (m, upd_at (snd s) i (fun _ => p')) is'
                     | Panic => []
                     end
      end
  end.

Fixpoint done (ts : list pc) : option (list ans) :=
  match ts with
  | [] => Some []
  | PDone y :: ts' => match done ts' with Some ys => Some (y :: ys) | None => None end
  | _ => None
  end.
Fixpoint exec (M : option imatcher) (level : nat) (m : mem) (h : list (list rop * list nat)) : option (mem * list (list ans)) :=
  match h with
  | [] => Some (m, [])
  | (ops, is) :: h' =>
      let ts := map (start M) ops in
      match run M level (m, ts) (turns M level (m, ts) is) with
      | Panic => None
      | Val (m', ts') =>
          match done ts', exec M level m' h' with
          | Some ys, Some (m'', yss) => Some (m'', ys :: yss)
          | _, _ => None
          end
      end
  end.
Lemma done_ok ts : forall ys, done ts = Some ys -> finished ts ys.
Proof.
  unfold finished. induction ts as [|p ts IH]; intros ys; cbn; [now intros [= <-]|]. destruct p; try discriminate.
  destruct (done ts) as [zs|]; [|discriminate]. intros [= <-]. cbn. f_equal. now apply IH.
Qed.
Lemma exec_ok M level m0 h2 : forall h1 m1 yss1 m2 yss2, phases_run M level m0 h1 m1 yss1 -> exec M level m1 h2 = Some (m2, yss2) ->
  phases_run M level m0 (h1 ++ map fst h2) m2 (yss1 ++ yss2).
Proof.
  induction h2 as [|[ops is] h2 IH]; intros h1 m1 yss1 m2 yss2 H; cbn [exec map fst].
  - intros [= <- <-]. now rewrite !app_nil_r.
  - destruct (run _ _ _ _) as [[m' ts']|] eqn:Er; [|discriminate]. destruct (done ts') as [ys|] eqn:Ed; [|discriminate].
    destruct (exec M level m' h2) as [[m'' yss]|] eqn:Ee; [|discriminate]. intros [= <- <-].
    change (ops :: map fst h2) with ([ops] ++ map fst h2). change (ys :: yss) with ([ys] ++ yss). rewrite !app_assoc.
    eapply IH; [|exact Ee]. econstructor; [exact H|]. exists ts'. split; [exact Er|now apply done_ok].
Qed.
Lemma exec_from M level h m yss : exec M level mem0 h = Some (m, yss) -> phases_run M level mem0 (map fst h) m yss.
Proof. intros H. apply (exec_ok M level mem0 h [] mem0 [] m yss); [constructor|exact H]. Qed.

(** HasLink and AddLink with a name that is new: HasLink creates the name for the
    time of the call, AddLink uses it and answers true, HasLink removes it again.
    The link is lost. *)
Theorem C85_concurrent_calls_refuted :
  exists m, phases_run None 10 mem0
    [[OHas "alice" "admin"; OAdd "alice" "admin"]; [OHas "alice" "admin"]] m
    [[YBool true; YBool true]; [YBool false]].
Proof.
  eexists. apply (exec_from None 10 [([OHas "alice" "admin"; OAdd "alice" "admin"], repeat 0 2 ++ repeat 1 6 ++ repeat 0 60); ([OHas "alice" "admin"], repeat 0 60)]).
  vm_compute. reflexivity.
Qed.
Print Assumptions C85_concurrent_calls_refuted.
(** Two AddLinks with the same new name: both answer true, one link is lost. *)
Theorem C85_two_adds_refuted :
  exists m, phases_run None 10 mem0
    [[OAdd "alice" "admin"; OAdd "alice" "reader"]; [OHas "alice" "reader"; OHas "alice" "admin"; OUsers "admin"]] m
    [[YBool true; YBool true]; [YBool true; YBool false; YNames ["alice"]]].
Proof.
  eexists. apply (exec_from None 10 [([OAdd "alice" "admin"; OAdd "alice" "reader"], repeat 0 1 ++ repeat 1 1 ++ repeat 0 10 ++ repeat 1 10);
    ([OHas "alice" "reader"; OHas "alice" "admin"; OUsers "admin"], repeat 0 60 ++ repeat 1 60 ++ repeat 2 60)]).
  vm_compute. reflexivity.
Qed.
Print Assumptions C85_two_adds_refuted.
(** AddLink and DeleteLink of the same link: afterwards the user has the role, but
    the role does not have the user. *)
Theorem C85_add_delete_refuted :
  exists m, phases_run None 10 mem0
    [[OAdd "alice" "admin"]; [ODel "alice" "admin"; OAdd "alice" "admin"]; [ORoles "alice"; OUsers "admin"]] m
    [[YBool true]; [YBool true; YBool true]; [YNames ["admin"]; YNames []]].
Proof.
  eexists. apply (exec_from None 10 [([OAdd "alice" "admin"], repeat 0 10); ([ODel "alice" "admin"; OAdd "alice" "admin"], repeat 0 4 ++ repeat 1 6 ++ repeat 0 2);
    ([ORoles "alice"; OUsers "admin"], repeat 0 60 ++ repeat 1 60)]).
  vm_compute. reflexivity.
Qed.
Print Assumptions C85_add_delete_refuted.

(** ** Queries only *)
Lemma no_adds ops : (forall o, In o ops -> updates o = false) -> forall a b, adds ops a b = false /\ dels ops a b = false.
Proof.
  intros H a b. split; [destruct (adds ops a b) eqn:E|destruct (dels ops a b) eqn:E]; auto; exfalso.
  - apply adds_in, H in E. discriminate.
  - apply dels_in, H in E. discriminate.
Qed.
Lemma queries_tidy K ops : (forall o, In o ops -> updates o = false) -> tidy K ops.
Proof. intros H. split; [intros a b; rewrite (proj1 (no_adds ops H a b)); discriminate|]. intros n _. left. auto. Qed.
Lemma chain_ext (E E' : string -> string -> Prop) n a b : (forall x y, E x y -> E' x y) -> chain E n a b -> chain E' n a b.
Proof. intros H C. induction C; econstructor; eauto. Qed.
Lemma inherits_ext level L L' a b : (forall x y, L x y = L' x y) -> inherits level L a b -> inherits level L' a b.
Proof. intros E [->|[n [Hn C]]]; [now left|]. right. exists n. split; [exact Hn|]. eapply chain_ext; [|exact C]. intros x y. unfold edge. now rewrite E. Qed.

(** The answers of queries without a matcher, by the links [L]. *)
Definition exact_answer (level : nat) (L : linkset) (o : rop) (y : ans) : Prop :=
  match o, y with
  | OHas a b, YBool x => x = true <-> inherits level L a b
  | ORoles a, YNames l => NoDup l /\ forall b, In b l <-> L a b = true
  | OUsers a, YNames l => NoDup l /\ forall b, In b l <-> L b a = true
  | _, _ => False
  end.
(** Queries that run at the same time, after calls that were made one at a time:
    each answers exactly as the links say, whatever the interleaving. *)
Theorem C86_queries_at_once_partial :
  forall level calls m yss ops sched m' ys,
    phases_run None level mem0 (map (fun o => [o]) calls) m yss ->
    (forall o, In o ops -> updates o = false) ->
    phase_runs None level m ops sched m' ys ->
    Forall2 (exact_answer level (links_after (map (fun o => [o]) calls))) ops ys.
Proof.
  intros level calls m yss ops sched m' ys H HQ HP.
  assert (TS : forall cs K, all_tidy K (map (fun o => [o]) cs)).
  { induction cs as [|c cs IH]; intros K; cbn [map all_tidy]; [exact I|]. split; [|apply IH]. split.
    - intros a b. unfold adds, dels. cbn. destruct c; cbn; intros E; try discriminate; reflexivity.
    - intros n _. right. intros [|i] [|j] oi oj Hi Hj; try reflexivity; exfalso; [destruct j|destruct i|destruct i]; discriminate. }
  destruct (phases_ok _ _ _ _ H (TS calls no_names)) as [R _]. set (L := links_after _) in *.
  destruct (phase_ok _ _ _ _ _ _ _ _ R (queries_tidy _ _ HQ) HP) as [_ [Len A]].
  assert (ET : forall a b, throughout L ops a b = L a b) by (intros; unfold throughout; rewrite (proj2 (no_adds ops HQ a b)); apply andb_true_r).
  assert (ES : forall a b, sometime L ops a b = L a b) by (intros; unfold sometime; rewrite (proj1 (no_adds ops HQ a b)); apply orb_false_r).
  clear - HQ Len A ET ES.
  assert (P : forall i o y, nth_error ops i = Some o -> nth_error ys i = Some y -> exact_answer level L o y).
  { intros i o y Ho Hy. specialize (A i y Hy). unfold answer_fits in A. rewrite Ho in A. pose proof (HQ o (nth_error_In _ _ Ho)) as Q.
    destruct o, y; try discriminate Q; try contradiction A; cbn.
    - destruct A as [A1 A2]. split; intros X; [eapply inherits_ext; [|now apply A2]; exact ES|]. apply A1. eapply inherits_ext; [|exact X]. intros; now rewrite ET.
    - destruct A as [A1 A2]. split; [exact A1|]. intros b. destruct (A2 b) as [A3 A4]. rewrite ET in A3. rewrite ES in A4. now split.
    - destruct A as [A1 A2]. split; [exact A1|]. intros b. destruct (A2 b) as [A3 A4]. rewrite ET in A3. rewrite ES in A4. now split. }
  clear - Len P. revert ys Len P. induction ops as [|o ops IH]; intros [|y ys] Len P; try discriminate; constructor.
  - exact (P 0 o y eq_refl eq_refl).
  - apply IH; [cbn in Len; lia|]. intros i o' y' Ho Hy. exact (P (S i) o' y' Ho Hy).
Qed.
Print Assumptions C86_queries_at_once_partial.

(** With a matcher the property is false: each of the two queries answers when it
    runs alone, but at the same time one of them may find a pattern in
    [patternRoles] that the other has just taken out of [allRoles]: a panic. *)
Theorem C86_queries_at_once_refuted :
  (exists m, phases_run (Some PathMatcher) 10 mem0 [[ORoles "p/*"]; [ORoles "p/1"]] m [[YNames []]; [YNames []]]) /\
  (exists sched, run (Some PathMatcher) 10 (mem0, map (start (Some PathMatcher)) [ORoles "p/*"; ORoles "p/1"]) sched = Panic).
Proof.
  split.
  - eexists. apply (exec_from (Some PathMatcher) 10 [([ORoles "p/*"], repeat 0 60); ([ORoles "p/1"], repeat 0 60)]). vm_compute. reflexivity.
  - exists (turns (Some PathMatcher) 10 (mem0, map (start (Some PathMatcher)) [ORoles "p/*"; ORoles "p/1"]) (repeat 0 15 ++ repeat 1 5)). vm_compute. reflexivity.
Qed.
Print Assumptions C86_queries_at_once_refuted.

(** ** The hypotheses are met *)
Definition ex_h : list (list rop * list nat) :=
  [([OAdd "alice" "admin"; OAdd "bob" "reader"; OHas "carol" "guest"], List.concat (repeat [0; 1; 2] 30));
   ([OAdd "admin" "reader"; OHas "alice" "reader"; ODel "bob" "reader"; OUsers "reader"; OAdd "admin" "reader"], List.concat (repeat [1; 0; 3; 2; 4] 40));
   ([OHas "alice" "reader"; OHas "bob" "reader"; ORoles "alice"; OUsers "reader"], List.concat (repeat [0; 1; 2; 3] 40))].
Definition tidyb (K : nameset) (ops : list rop) : bool :=
  forallb (fun o => match o with OAdd a b => negb (dels ops a b) | _ => true end) ops &&
  forallb (fun n => K n || negb (updated ops n) || Nat.leb (List.length (filter (mentions n) ops)) 1) (flat_map op_names ops).
Lemma count_one {A} (f : A -> bool) (l : list A) : List.length (filter f l) <= 1 -> forall i j x y,
  nth_error l i = Some x -> nth_error l j = Some y -> f x = true -> f y = true -> i = j.
Proof.
  induction l as [|z l IH]; intros H i j x y Hi Hj Fx Fy; [destruct i; discriminate|].
  assert (N : forall i x, nth_error l i = Some x -> f x = true -> 1 <= List.length (filter f l)).
  { intros i0 x0 E Fe. assert (X : In x0 (filter f l)) by (apply filter_In; split; [eapply nth_error_In; eauto|exact Fe]). destruct (filter f l); [destruct X|cbn; lia]. }
  destruct i as [|i], j as [|j]; cbn in *; try reflexivity.
  - injection Hi as ->. rewrite Fx in H. cbn in H. apply N in Hj; [lia|exact Fy].
  - injection Hj as ->. rewrite Fy in H. cbn in H. apply N in Hi; [lia|exact Fx].
  - f_equal. eapply IH; eauto. destruct (f z); cbn in H; lia.
Qed.
Lemma tidyb_ok K ops : tidyb K ops = true -> tidy K ops.
Proof.
  intros H. apply andb_true_iff in H as [H1 H2]. rewrite forallb_forall in H1, H2. split.
  - intros a b Ha. apply adds_in in Ha. specialize (H1 _ Ha). cbn in H1. now apply negb_true_iff in H1.
  - intros n Hn. destruct (sin n (flat_map op_names ops)) eqn:E.
    + apply sin_In in E. specialize (H2 _ E). rewrite Hn in H2. cbn in H2. apply orb_true_iff in H2 as [H2|H2].
      * left. intros o Ho Hm. apply negb_true_iff in H2. destruct (updates o) eqn:U; [|reflexivity].
        assert (X : updated ops n = true) by (apply existsb_exists; exists o; rewrite U, Hm; auto). congruence.
      * right. apply Nat.leb_le in H2. intros i j oi oj Hi Hj Mi Mj. exact (count_one _ _ H2 _ _ _ _ Hi Hj Mi Mj).
    + right. intros i j oi oj Hi _ Mi _. exfalso. apply sin_false in E. apply E. apply in_flat_map. exists oi. split; [eapply nth_error_In; eauto|now apply sin_In].
Qed.
Fixpoint all_tidyb (K : nameset) (h : list (list rop)) : bool :=
  match h with
  | [] => true
  | ops :: h' => tidyb K ops && all_tidyb (fun n => K n || updated ops n) h'
  end.
Lemma all_tidyb_ok h : forall K, all_tidyb K h = true -> all_tidy K h.
Proof. induction h as [|ops h IH]; intros K; cbn; [auto|]. intros H. apply andb_true_iff in H as [H1 H2]. split; [now apply tidyb_ok|auto]. Qed.
Example C85_ex_runs : exists m, phases_run None 10 mem0 (map fst ex_h) m
    [[YBool true; YBool true; YBool false];
     [YBool true; YBool true; YBool true; YNames ["bob"]; YBool true];
     [YBool true; YBool false; YNames ["admin"]; YNames ["admin"]]].
Proof. eexists. apply exec_from. vm_compute. reflexivity. Qed.
Example C85_ex_tidy : all_tidy no_names (map fst ex_h).
Proof. apply all_tidyb_ok. vm_compute. reflexivity. Qed.
(** What the theorem says about the second phase: alice inherits reader only by
    the link that is being added, so HasLink may answer either way; bob may or may
    not be seen among the users; in the third phase all answers are settled. *)
Example C85_ex_before : links_after (firstn 1 (map fst ex_h)) "bob" "reader" = true /\ links_after (firstn 1 (map fst ex_h)) "admin" "reader" = false /\
  links_after (firstn 2 (map fst ex_h)) "bob" "reader" = false /\ links_after (firstn 2 (map fst ex_h)) "admin" "reader" = true.
Proof. repeat split; vm_compute; reflexivity. Qed.
Definition ex_calls : list rop := [OAdd "alice" "admin"; OAdd "admin" "reader"; OAdd "bob" "reader"; ODel "bob" "reader"; OHas "alice" "reader"].
Definition ex_queries : list rop := [OHas "alice" "reader"; OHas "bob" "reader"; ORoles "alice"; OUsers "reader"; OHas "x" "y"; ORoles "x"].
Example C86_ex : exists m yss m2 sched,
  phases_run None 10 mem0 (map (fun o => [o]) ex_calls) m yss /\
  (forall o, In o ex_queries -> updates o = false) /\
  phase_runs None 10 m ex_queries sched m2 [YBool true; YBool false; YNames ["admin"]; YNames ["admin"]; YBool false; YNames []].
Proof.
  destruct (exec None 10 mem0 (map (fun o => ([o], repeat 0 60)) ex_calls)) as [[m yss]|] eqn:E; [|vm_compute in E; discriminate].
  exists m, yss. eexists. exists (turns None 10 (m, map (start None) ex_queries) (List.concat (repeat [0; 1; 2; 3; 4; 5] 60))). split; [|split].
  - apply exec_from in E. rewrite map_map in E. exact E.
  - intros o [<-|[<-|[<-|[<-|[<-|[<-|[]]]]]]]; reflexivity.
  - vm_compute in E. injection E as <- <-. eexists. split; [vm_compute; reflexivity|reflexivity].
Qed.
