(** Property C93: calls on a domain manager that run at the same time. *)
From Coq Require Import Lia.
From Verif Require RbacM.
From Verif Require Import GoBase GoBaseP RbacSpec PathM DomainM DomainSpec SyncRoleM SyncRoleSpec SyncRoleP SyncDomainM SyncDomainSpec Prop_SyncRole SyncDomainP.
Local Open Scope string_scope. Local Open Scope list_scope.

(** ** From phase to phase *)
Lemma orderly_snoc h ops : orderly (h ++ [ops]) ->
  orderly h /\ plain_names ops /\ one_opens h ops /\ forall ds, tidy (known_after (map (in_domain ds) h)) (in_domain ds ops).
Proof.
  intros [H1 [H2 H3]]. split; [split; [|split]|split; [|split]].
  - intros o Ho. apply H1. apply in_or_app. now left.
  - intros i o Hi. assert (Hl : i < List.length h) by (apply nth_error_Some; congruence).
    specialize (H2 i o). rewrite nth_error_app1 in H2 by exact Hl. specialize (H2 Hi). rewrite firstn_app in H2.
    replace (i - List.length h) with 0 in H2 by lia. cbn in H2. now rewrite app_nil_r in H2.
  - intros ds. specialize (H3 ds). rewrite map_app in H3. now apply all_tidy_snoc in H3.
  - apply H1. apply in_or_app. right. now left.
  - specialize (H2 (List.length h) ops). rewrite nth_error_app2, Nat.sub_diag in H2 by lia. specialize (H2 eq_refl).
    rewrite firstn_app, Nat.sub_diag, firstn_all in H2. cbn in H2. now rewrite app_nil_r in H2.
  - intros ds. specialize (H3 ds). rewrite map_app in H3. now apply all_tidy_snoc in H3.
Qed.
Lemma phases_good level h d yss : dphases_run (dmem0 level) h d yss -> orderly h ->
  good level h d /\ List.length yss = List.length h /\
  forall i ops ys, nth_error h i = Some ops -> nth_error yss i = Some ys ->
    List.length ys = List.length ops /\ forall j y, nth_error ys j = Some y -> domain_answer level (firstn i h) ops j y.
Proof.
  intros H. induction H as [|h d1 yss ops sched d2 ys H IH H1]; intros HO.
  - split; [apply good0|]. split; [reflexivity|]. intros [|i] ops ys; discriminate.
  - apply orderly_snoc in HO as [HO1 [HP [HO2 HT]]]. destruct (IH HO1) as [Q [Len A]].
    destruct (phase_good _ _ _ _ _ _ _ Q HP HO2 HT H1) as [Q' [Len' A']].
    split; [exact Q'|]. split; [rewrite !app_length; cbn; lia|].
    intros i o y Hi Hy. destruct (Nat.lt_ge_cases i (List.length h)) as [Hl|Hl].
    + rewrite nth_error_app1 in Hi by exact Hl. rewrite nth_error_app1 in Hy by lia. rewrite firstn_app. replace (i - List.length h) with 0 by lia.
      cbn. rewrite app_nil_r. now apply A.
    + rewrite nth_error_app2 in Hi by exact Hl. rewrite nth_error_app2 in Hy by lia. rewrite Len in Hy.
      destruct (i - List.length h) as [|k] eqn:Ek; [|destruct k; discriminate]. cbn in Hi, Hy. injection Hi as <-. injection Hy as <-.
      assert (i = List.length h) by lia. subst i. rewrite firstn_app, Nat.sub_diag, firstn_all. cbn. rewrite app_nil_r. auto.
Qed.

(** Phases of calls on a domain manager without matchers, under any interleaving:
    when a domain that is new is updated by one call of its phase only, and the
    calls of each domain keep out of each other's way, then every answer fits the
    links of its own domain, as on a role manager (C85); what the calls of other
    domains do plays no part. *)
Theorem C93_domain_calls_partial :
  forall level h d yss,
    dphases_run (dmem0 level) h d yss -> orderly h ->
    forall i ops ys, nth_error h i = Some ops -> nth_error yss i = Some ys ->
      List.length ys = List.length ops /\
      forall j y, nth_error ys j = Some y -> domain_answer level (firstn i h) ops j y.
Proof. intros level h d yss H HO. exact (proj2 (proj2 (phases_good level h d yss H HO))). Qed.
Print Assumptions C93_domain_calls_partial.

(** Queries that run at the same time, in any domains, old and new: each answers
    exactly what the links of its domain say. *)
Lemma queries_open h ops : (forall o ds, In (o, ds) ops -> updates o = false) -> one_opens h ops.
Proof.
  intros H. assert (X : forall P, one_update P ops) by (intros P i j oi oj ds es Hi _ Hu; apply nth_error_In, H in Hi; congruence). split; auto.
Qed.
Theorem C93_queries_at_once_partial :
  forall level h d yss ops sched d' ys,
    dphases_run (dmem0 level) h d yss -> orderly h ->
    plain_names ops -> (forall o ds, In (o, ds) ops -> updates o = false) ->
    dphase_runs d ops sched d' ys ->
    Forall2 (fun c y => exact_answer (level - S (List.length (snd c))) (links_after (map (in_domain (snd c)) h)) (fst c) y) ops ys.
Proof.
  intros level h d yss ops sched d' ys H HO HP HQ Hr. destruct (phases_good _ _ _ _ H HO) as [Q _].
  assert (HQd : forall ds o, In o (in_domain ds ops) -> updates o = false) by (intros ds o Ho; apply in_domain_in in Ho; eauto).
  destruct (phase_good _ _ _ _ _ _ _ Q HP (queries_open _ _ HQ) (fun ds => queries_tidy _ _ (HQd ds)) Hr) as [_ [Len A]].
  assert (P : forall i c y, nth_error ops i = Some c -> nth_error ys i = Some y ->
     exact_answer (level - S (List.length (snd c))) (links_after (map (in_domain (snd c)) h)) (fst c) y).
  { intros i [o ds] y Hc Hy. specialize (A i y Hy). unfold domain_answer in A. rewrite Hc in A. cbn [fst snd]. set (L := links_after _) in *.
    assert (ET : forall a b, throughout L (in_domain ds ops) a b = L a b) by (intros; unfold throughout; rewrite (proj2 (no_adds _ (HQd ds) a b)); apply andb_true_r).
    assert (ES : forall a b, sometime L (in_domain ds ops) a b = L a b) by (intros; unfold sometime; rewrite (proj1 (no_adds _ (HQd ds) a b)); apply orb_false_r).
    assert (Eo : nth_error (in_domain ds ops) (List.length (in_domain ds (firstn i ops))) = Some o).
    { rewrite in_domain_count, in_domain_pick, nth_error_map. pose proof (proj2 (dmask_nth ds ops i (o, ds) Hc) eq_refl) as Hm.
      exact (f_equal (option_map fst) (eq_trans (pick_nth (dmask ds ops) ops i Hm) Hc)). }
    unfold answer_fits in A. rewrite Eo in A. pose proof (HQ o ds (nth_error_In _ _ Hc)) as U.
    destruct o, y; try discriminate U; try contradiction A; cbn.
    - destruct A as [A1 A2]. split; intros X; [eapply inherits_ext; [|now apply A2]; exact ES|]. apply A1. eapply inherits_ext; [|exact X]. intros; now rewrite ET.
    - destruct A as [A1 A2]. split; [exact A1|]. intros b. destruct (A2 b) as [A3 A4]. rewrite ET in A3. rewrite ES in A4. now split.
    - destruct A as [A1 A2]. split; [exact A1|]. intros b. destruct (A2 b) as [A3 A4]. rewrite ET in A3. rewrite ES in A4. now split. }
  clear - Len P. revert ys Len P. induction ops as [|o ops IH]; intros [|y ys] Len P; try discriminate; constructor.
  - exact (P 0 o y eq_refl eq_refl).
  - apply IH; [cbn in Len; lia|]. intros i o' y' Ho Hy. exact (P (S i) o' y' Ho Hy).
Qed.
Print Assumptions C93_queries_at_once_partial.

(** Calls made one at a time are orderly: whatever the domains. *)
Theorem C93_one_at_a_time :
  forall calls, plain_names calls -> orderly (map (fun c => [c]) calls).
Proof.
  intros calls HP. split; [|split].
  - intros ops Ho. apply in_map_iff in Ho as [c [<- Hc]]. intros o ds [->|[]]. exact (HP o ds Hc).
  - intros i ops Hi. rewrite nth_error_map in Hi. destruct (nth_error calls i) as [c|]; [|discriminate]. injection Hi as <-.
    assert (X : forall P, one_update P [c]).
    { intros P a b oi oj ds es Ha Hb _ _ _ _. destruct a as [|[|a]], b as [|[|b]]; try discriminate; reflexivity. }
    split; auto.
  - intros ds. rewrite map_map. generalize no_names. induction calls as [|c cs IH]; intros K; cbn [map all_tidy]; [exact I|].
    split; [|apply IH; intros o es Ho; apply (HP o es); now right]. unfold in_domain. cbn [filter]. destruct (same_domain (snd c) ds); cbn [map].
    + split.
      * intros a b. unfold adds, dels. cbn. destruct (fst c); cbn; intros E; try discriminate; reflexivity.
      * intros n _. right. intros [|i] [|j] oi oj Hi Hj; try reflexivity; exfalso; [destruct j|destruct i|destruct i]; discriminate.
    + split; [discriminate|]. intros n _. left. intros o [].
Qed.
Print Assumptions C93_one_at_a_time.

(** ** Every call can return, and none panics *)
Definition dsafe (d : dmem) : Prop :=
  (forall r, MB (role_mem d r)) /\ forall x r, mget defaultDomain (dom_map d x) = Some r -> r < List.length (d_roles d).
Definition tsafe (d : dmem) (t : dpc) : Prop :=
  match t with QLoad _ _ rest | QStore _ _ rest => plain rest | QRun r p => r < List.length (d_roles d) /\ calm p end.
Lemma MB0 : MB mem0. Proof. intros [|r]; split; reflexivity. Qed.
Lemma dom_map_after d x k v lr roles y k' r : mget k' (dom_map (mkDMem (dom_put d x k v ++ lr) roles) y) = Some r ->
  (k' = k /\ r = v) \/ mget k' (dom_map d y) = Some r \/ exists lm, In lm lr /\ mget k' (snd lm) = Some r.
Proof.
  unfold dom_map, dom_put. cbn [d_doms]. destruct (Nat.lt_ge_cases y (List.length (d_doms d))) as [Hy|Hy].
  - rewrite nth_error_app1 by (now rewrite upd_length). rewrite nth_upd. destruct (Nat.eqb x y); [|auto].
    destruct (nth_error (d_doms d) y) as [[l m]|]; cbn; [|discriminate]. destruct (string_dec k' k) as [->|N].
    + rewrite mget_put_eq. intros [= <-]. auto.
    + rewrite mget_put_neq by exact N. auto.
  - rewrite nth_error_app2 by (now rewrite upd_length). rewrite upd_length. destruct (nth_error lr (y - List.length (d_doms d))) as [[l m]|] eqn:E; [|discriminate].
    intros H. right. right. exists (l, m). split; [eapply nth_error_In; eauto|exact H].
Qed.
Lemma MB_app d l doms : (forall r, MB (role_mem d r)) -> forall r, MB (role_mem (mkDMem doms (d_roles d ++ [(l, mem0)])) r).
Proof. intros H r. destruct (Nat.le_gt_cases r (List.length (d_roles d))); [rewrite role_app by assumption; apply H|rewrite role_app_gt by assumption; apply H]. Qed.
Lemma dsafe_step ch d t : dsafe d -> tsafe d t -> exists d' t', dstep ch d t = Val (d', t') /\ dsafe d' /\ tsafe d' t' /\ List.length (d_roles d) <= List.length (d_roles d').
Proof.
  intros [HM HB] HT. destruct t as [o x rest|o x rest|r p]; cbn [dstep tsafe] in *.
  - destruct rest as [|k rest].
    + destruct (mget defaultDomain (dom_map d x)) as [v|] eqn:E.
      * eexists _, _. split; [reflexivity|]. split; [now split|]. split; [|auto]. split; [exact (HB _ _ E)|apply start_calm].
      * destruct (stores o).
        -- eexists _, _. split; [reflexivity|]. split; [now split|]. split; [exact HT|auto].
        -- eexists _, _. split; [reflexivity|]. cbn [d_roles]. rewrite app_length. cbn. split; [split; [now apply MB_app|]|split; [split; [rewrite app_length; cbn; lia|apply start_calm]|lia]].
           intros y r H. cbn [d_roles]. rewrite app_length. apply HB in H. lia.
    + destruct (mget k (dom_map d x)) as [v|] eqn:E.
      * eexists _, _. split; [reflexivity|]. split; [now split|]. split; [|auto]. intros H. apply HT. now right.
      * destruct (stores o).
        -- eexists _, _. split; [reflexivity|]. split; [now split|]. split; [exact HT|auto].
        -- eexists _, _. split; [reflexivity|]. cbn [d_roles]. rewrite app_length. cbn [List.length tsafe]. split; [split; [now apply MB_app|]|split; [split; [cbn [d_roles]; rewrite app_length; cbn; lia|apply start_calm]|lia]].
           intros y r H. cbn [d_roles]. rewrite app_length. apply HB in H. lia.
  - destruct rest as [|k rest].
    + eexists _, _. split; [reflexivity|]. split; [split; [now apply MB_app|]|].
      * intros y r H. cbn [d_roles]. rewrite app_length. cbn [List.length]. rewrite <- (app_nil_r (dom_put _ _ _ _)) in H. apply dom_map_after in H as [[_ ->]|[H|[lm [[] _]]]]; [lia|].
        apply HB in H. lia.
      * cbn [d_roles tsafe]. rewrite app_length. cbn. split; [split; [lia|apply start_calm]|lia].
    + eexists _, _. split; [reflexivity|]. split; [split; [exact HM|]|].
      * intros y r H. cbn [d_roles]. apply dom_map_after in H as [[E _]|[H|[lm [[<-|[]] H]]]]; [|now apply HB in H|discriminate].
        exfalso. apply HT. left. now symmetry.
      * split; [|auto]. intros H. apply HT. now right.
  - destruct HT as [Hr Hp]. destruct (calm_step (role_level d r) ch (role_mem d r) p (HM r) Hp) as [m' [p' [E [HM' HC']]]]. rewrite E. cbn [obind].
    eexists _, _. split; [reflexivity|]. cbn [d_roles tsafe]. rewrite upd_length. split; [|auto]. split.
    + intros r'. unfold role_mem. cbn [d_roles]. rewrite nth_upd. destruct (Nat.eqb_spec r r') as [<-|N]; [|exact (HM r')].
      destruct (nth_error (d_roles d) r) as [[l m]|] eqn:En; [exact HM'|apply MB0].
    + intros x r' H. cbn [d_roles]. rewrite upd_length. exact (HB _ _ H).
Qed.
Lemma tsafe_grow d d' t : List.length (d_roles d) <= List.length (d_roles d') -> tsafe d t -> tsafe d' t.
Proof. intros H. destruct t; cbn; auto. intros [H1 H2]. split; [lia|exact H2]. Qed.
Lemma dsafe_run sched : forall d ts, dsafe d -> Forall (tsafe d) ts -> exists d' ts', drun (d, ts) sched = Val (d', ts') /\ dsafe d' /\ Forall (tsafe d') ts'.
Proof.
  induction sched as [|[i ch] sched IH]; intros d ts HD HT; cbn [drun fst snd]; [eauto|]. destruct (nth_error ts i) as [t|] eqn:E; [|auto].
  assert (Ht : tsafe d t) by (eapply Forall_forall; [exact HT|eapply nth_error_In; eauto]).
  destruct (dsafe_step ch d t HD Ht) as [d' [t' [Es [HD' [HT' Hl]]]]]. rewrite Es. cbn [obind]. apply IH; [exact HD'|].
  apply upd_forall; [|auto]. eapply Forall_impl; [|exact HT]. intros t0. now apply tsafe_grow.
Qed.
Inductive dends (d : dmem) (t : dpc) : Prop :=
| dends_done r y : t = QRun r (PDone y) -> dends d t
| dends_step ch d' t' : dstep ch d t = Val (d', t') -> dends d' t' -> dends d t.
Lemma dends_run d t : dends d t -> dsafe d -> tsafe d t -> forall l1 l2, Forall (tsafe d) l2 ->
  exists sched d' r y, drun (d, l1 ++ t :: l2) sched = Val (d', l1 ++ QRun r (PDone y) :: l2) /\ dsafe d' /\ Forall (tsafe d') l2.
Proof.
  intros H. induction H as [d t r y ->|d t ch d' t' E H IH]; intros HD HT l1 l2 HL; [exists [], d, r, y; auto|].
  destruct (dsafe_step ch d t HD HT) as [d1 [t1 [E1 [HD1 [HT1 Hl]]]]]. rewrite E in E1. injection E1 as <- <-.
  destruct (IH HD1 HT1 l1 l2) as [sched [d2 [r [y [Hr Hm]]]]]; [eapply Forall_impl; [|exact HL]; intros t0; now apply tsafe_grow|].
  exists ((List.length l1, ch) :: sched), d2, r, y. split; [|exact Hm].
  cbn [drun fst snd]. rewrite nth_error_app2, Nat.sub_diag by lia. cbn [nth_error]. rewrite E. cbn [obind]. rewrite upd_here. exact Hr.
Qed.
Lemma drun_app sched1 : forall s sched2, drun s (sched1 ++ sched2) = (let! s' := drun s sched1 in drun s' sched2).
Proof.
  induction sched1 as [|[i ch] sched1 IH]; intros s sched2; cbn [drun app obind]; [reflexivity|].
  destruct (nth_error (snd s) i) as [p|]; [|apply IH]. destruct (dstep ch (fst s) p) as [[m' p']|]; cbn [obind]; [apply IH|reflexivity].
Qed.
(** A call that runs alone: first to its role manager, then there. *)
Lemma dends_runs r : forall p d, ends (role_level d r) (role_mem d r) p -> r < List.length (d_roles d) -> dends d (QRun r p).
Proof.
  intros p d H. remember (role_mem d r) as m eqn:Em. remember (role_level d r) as l eqn:El. revert d Em El.
  induction H as [m p y ->|m p ch m' p' E H IH]; intros d -> -> Hr; [eapply dends_done; reflexivity|].
  eapply dends_step; [cbn [dstep]; rewrite E; reflexivity|]. apply IH; [..|cbn [d_roles]; now rewrite upd_length].
  - unfold role_mem. cbn [d_roles]. rewrite nth_upd, Nat.eqb_refl. destruct (nth_error (d_roles d) r) eqn:En; [reflexivity|]. apply nth_error_None in En. lia.
  - unfold role_level. cbn [d_roles]. rewrite nth_upd, Nat.eqb_refl. now destruct (nth_error (d_roles d) r) as [[l0 m0]|].
Qed.
Lemma dends_safe d t : dsafe d -> tsafe d t -> dends d t.
Proof.
  assert (R : forall d r p, dsafe d -> tsafe d (QRun r p) -> dends d (QRun r p)).
  { intros d0 r p [HM _] [Hr Hp]. apply dends_runs; [|exact Hr]. now apply ends_calm. }
  assert (L : forall n rest, List.length rest = n -> forall d o x, dsafe d -> plain rest -> dends d (QLoad o x rest) /\ dends d (QStore o x rest)).
  { induction n as [n IH] using (well_founded_induction Nat.lt_wf_0). intros rest Hn d0 o x HD HP.
    assert (St : dends d0 (QStore o x rest)).
    { destruct (dsafe_step None d0 (QStore o x rest) HD HP) as [d' [t' [Es [HD' [HT' _]]]]]. eapply dends_step; [exact Es|]. destruct rest as [|k rest]; cbn [dstep] in Es; injection Es as <- <-.
      - now apply R.
      - eapply (proj1 (IH (List.length rest) ltac:(cbn in Hn; lia) rest eq_refl _ o _ HD' HT')). }
    split; [|exact St].
    destruct (dsafe_step None d0 (QLoad o x rest) HD HP) as [d' [t' [Es [HD' [HT' _]]]]]. eapply dends_step; [exact Es|].
    destruct t' as [o' x' rest'|o' x' rest'|r p]; [| |now apply R].
    - cbn [dstep] in Es. destruct rest as [|k rest]; (destruct (mget _ (dom_map d0 x)) as [v|]; [|destruct (stores o)]); try discriminate Es. injection Es as <- <- <- <-.
      exact (proj1 (IH (List.length rest) ltac:(cbn in Hn; lia) rest eq_refl _ o v HD' HT')).
    - cbn [dstep] in Es. destruct rest as [|k rest]; (destruct (mget _ (dom_map d0 x)) as [v|]; [|destruct (stores o)]); try discriminate Es; injection Es as <- <- <- <-; exact St. }
  intros HD HT. destruct t as [o x rest|o x rest|r p]; [| |now apply R]; now apply (L (List.length rest)).
Qed.
Lemma dall_end ts : forall d done ys, dsafe d -> Forall (tsafe d) ts -> dfinished done ys ->
  exists sched d' ts' ys', drun (d, done ++ ts) sched = Val (d', ts') /\ dfinished ts' ys'.
Proof.
  induction ts as [|t ts IH]; intros d done ys HD HC HF; [exists [], d, done, ys; rewrite app_nil_r; auto|]. inversion HC; subst.
  destruct (dends_run d t (dends_safe d t HD H1) HD H1 done ts H2) as [s1 [d1 [r [y [Hr [Hm HT]]]]]].
  destruct (IH d1 (done ++ [QRun r (PDone y)]) (ys ++ [y]) Hm HT) as [s2 [d2 [ts' [ys' [Hr2 Hf2]]]]].
  { apply Forall2_app; [exact HF|]. constructor; [eauto|constructor]. }
  exists (s1 ++ s2), d2, ts', ys'. split; [|exact Hf2]. rewrite drun_app, Hr. cbn [obind]. rewrite <- app_assoc in Hr2. exact Hr2.
Qed.
Lemma starts_safe d ops : plain_names ops -> Forall (tsafe d) (map dstart ops).
Proof. intros H. apply Forall_forall. intros t Ht. apply in_map_iff in Ht as [[o ds] [<- Hc]]. cbn. apply unreserved_plain. exact (H _ _ Hc). Qed.
Lemma dsafe_phases level h d yss : dphases_run (dmem0 level) h d yss -> (forall ops, In ops h -> plain_names ops) -> dsafe d.
Proof.
  intros H. induction H as [|h d1 yss ops sched d2 ys H IH [ts [Hr Hf]]]; intros HP.
  - split; [intros [|r]; apply MB0|]. intros [|[|x]] r E; discriminate.
  - destruct (dsafe_run sched d1 (map dstart ops)) as [d' [ts' [E [HD _]]]].
    + apply IH. intros o Ho. apply HP. apply in_or_app. now left.
    + apply starts_safe. apply HP. apply in_or_app. right. now left.
    + rewrite Hr in E. now injection E as -> _.
Qed.
(** Any calls in any domains, without matchers: under no schedule does one of them
    panic, and wherever they stand they can all be run to their end. *)
Theorem C93_calls_return :
  forall level h d yss ops sched,
    dphases_run (dmem0 level) h d yss -> (forall ops', In ops' h -> plain_names ops') -> plain_names ops ->
    exists d' ts, drun (d, map dstart ops) sched = Val (d', ts) /\
      exists sched' d'' ts' ys, drun (d', ts) sched' = Val (d'', ts') /\ dfinished ts' ys.
Proof.
  intros level h d yss ops sched H HP HP'. destruct (dsafe_run sched d (map dstart ops) (dsafe_phases _ _ _ _ H HP) (starts_safe d ops HP')) as [d' [ts [E [HD HC]]]].
  exists d', ts. split; [exact E|]. apply (dall_end ts d' [] []); [exact HD|exact HC|constructor].
Qed.
Print Assumptions C93_calls_return.

(** ** What goes wrong when two calls open a domain *)
Definition dchoice (d : dmem) (t : dpc) : option string := match t with QRun r p => choice (role_mem d r) p | _ => None end.
Fixpoint dturns (s : dconfig) (is : list nat) : list (nat * option string) :=
  match is with
  | [] => []
  | i :: is' =>
      match nth_error (snd s) i with
      | None => []
      | Some t =>
          let ch := dchoice (fst s) t in
          (i, ch) :: match dstep ch (fst s) t with
                     | Val (d, t') => dturns (d, upd_at (snd s) i (fun _ => t')) is'
                     | Panic => []
                     end
      end
  end.
Fixpoint ddone (ts : list dpc) : option (list ans) :=
  match ts with
  | [] => Some []
  | QRun _ (PDone y) :: ts' => match ddone ts' with Some ys => Some (y :: ys) | None => None end
  | _ => None
  end.
Fixpoint dexec (d : dmem) (h : list (list dcall * list nat)) : option (dmem * list (list ans)) :=
  match h with
  | [] => Some (d, [])
  | (ops, is) :: h' =>
      let ts := map dstart ops in
      match drun (d, ts) (dturns (d, ts) is) with
      | Panic => None
      | Val (d', ts') =>
          match ddone ts', dexec d' h' with
          | Some ys, Some (d'', yss) => Some (d'', ys :: yss)
          | _, _ => None
          end
      end
  end.
Lemma ddone_ok ts : forall ys, ddone ts = Some ys -> dfinished ts ys.
Proof.
  unfold dfinished. induction ts as [|t ts IH]; intros ys; cbn; [intros [= <-]; constructor|]. destruct t as [| |r p]; try discriminate. destruct p; try discriminate.
  destruct (ddone ts) as [zs|]; [|discriminate]. intros [= <-]. constructor; [eauto|auto].
Qed.
Lemma dexec_ok d0 h2 : forall h1 d1 yss1 d2 yss2, dphases_run d0 h1 d1 yss1 -> dexec d1 h2 = Some (d2, yss2) -> dphases_run d0 (h1 ++ map fst h2) d2 (yss1 ++ yss2).
Proof.
  induction h2 as [|[ops is] h2 IH]; intros h1 d1 yss1 d2 yss2 H; cbn [dexec map fst].
  - intros [= <- <-]. now rewrite !app_nil_r.
  - destruct (drun _ _) as [[d' ts']|] eqn:Er; [|discriminate]. destruct (ddone ts') as [ys|] eqn:Ed; [|discriminate].
    destruct (dexec d' h2) as [[d'' yss]|] eqn:Ee; [|discriminate]. intros [= <- <-].
    change (ops :: map fst h2) with ([ops] ++ map fst h2). change (ys :: yss) with ([ys] ++ yss). rewrite !app_assoc.
    eapply IH; [|exact Ee]. econstructor; [exact H|]. exists ts'. split; [exact Er|now apply ddone_ok].
Qed.
Lemma dexec_from level h d yss : dexec (dmem0 level) h = Some (d, yss) -> dphases_run (dmem0 level) (map fst h) d yss.
Proof. intros H. apply (dexec_ok (dmem0 level) h [] (dmem0 level) [] d yss); [constructor|exact H]. Qed.

(** Two AddLinks at the same time, of different users, into a domain that is new:
    both answer true, and one of the links is lost. *)
Theorem C93_new_domain_refuted :
  exists d, dphases_run (dmem0 10)
    [[(OAdd "alice" "admin", ["tenant1"]); (OAdd "bob" "reader", ["tenant1"])];
     [(OHas "alice" "admin", ["tenant1"]); (OHas "bob" "reader", ["tenant1"])]] d
    [[YBool true; YBool true]; [YBool false; YBool true]].
Proof.
  eexists. apply (dexec_from 10 [([(OAdd "alice" "admin", ["tenant1"]); (OAdd "bob" "reader", ["tenant1"])], repeat 0 1 ++ repeat 1 1 ++ repeat 0 40 ++ repeat 1 40);
    ([(OHas "alice" "admin", ["tenant1"]); (OHas "bob" "reader", ["tenant1"])], repeat 0 60 ++ repeat 1 60)]).
  vm_compute. reflexivity.
Qed.
Print Assumptions C93_new_domain_refuted.
(** So do AddLinks into two different domains whose common domain is new. *)
Theorem C93_new_parent_refuted :
  exists d, dphases_run (dmem0 10)
    [[(OAdd "alice" "admin", ["eu"; "tenant1"]); (OAdd "bob" "reader", ["eu"; "tenant2"])];
     [(OHas "alice" "admin", ["eu"; "tenant1"]); (OHas "bob" "reader", ["eu"; "tenant2"])]] d
    [[YBool true; YBool true]; [YBool false; YBool true]].
Proof.
  eexists. apply (dexec_from 10 [([(OAdd "alice" "admin", ["eu"; "tenant1"]); (OAdd "bob" "reader", ["eu"; "tenant2"])], repeat 0 1 ++ repeat 1 1 ++ repeat 0 40 ++ repeat 1 40);
    ([(OHas "alice" "admin", ["eu"; "tenant1"]); (OHas "bob" "reader", ["eu"; "tenant2"])], repeat 0 60 ++ repeat 1 60)]).
  vm_compute. reflexivity.
Qed.
Print Assumptions C93_new_parent_refuted.

(** ** The hypotheses are met *)
Definition dex_h : list (list dcall * list nat) :=
  [([(OAdd "alice" "admin", ["tenant1"]); (OAdd "alice" "reader", ["tenant2"]); (OHas "alice" "admin", ["tenant3"])], List.concat (repeat [0; 1; 2] 40));
   ([(OAdd "bob" "reader", ["tenant1"]); (OHas "alice" "reader", ["tenant2"]); (OAdd "admin" "reader", ["tenant2"]); (ODel "alice" "reader", ["tenant2"]); (OHas "carol" "x", ["tenant3"])],
      List.concat (repeat [1; 0; 3; 2; 4] 60));
   ([(OHas "alice" "admin", ["tenant1"]); (OHas "alice" "reader", ["tenant2"]); (OUsers "reader", ["tenant2"]); (ORoles "bob", ["tenant1"])], List.concat (repeat [0; 1; 2; 3] 60))].
Example C93_ex_runs : exists d, dphases_run (dmem0 10) (map fst dex_h) d
    [[YBool true; YBool true; YBool false];
     [YBool true; YBool false; YBool true; YBool true; YBool false];
     [YBool true; YBool false; YNames ["admin"]; YNames ["reader"]]].
Proof. eexists. apply dexec_from. vm_compute. reflexivity. Qed.
Fixpoint prefixes (ds : list string) : list (list string) := match ds with [] => [[]] | k :: ds' => [] :: map (cons k) (prefixes ds') end.
Fixpoint belowb (p ds : list string) : bool := match p, ds with [], _ => true | k :: p', k' :: ds' => String.eqb k k' && belowb p' ds' | _, _ => false end.
Definition updatesb (h : list (list dcall)) (f : list string -> bool) : bool := existsb (existsb (fun c : dcall => updates (fst c) && f (snd c))) h.
Definition compat (h : list (list dcall)) (c c' : dcall) : bool :=
  negb (updates (fst c) && updates (fst c')) ||
  (negb (same_domain (snd c) (snd c')) || updatesb h (fun ds => same_domain ds (snd c))) &&
  forallb (fun p => match p with [] => true | _ => negb (belowb p (snd c')) || updatesb h (belowb p) end) (prefixes (snd c)).
Fixpoint pairsb {A} (f : A -> A -> bool) (l : list A) : bool := match l with [] => true | x :: l' => forallb (fun y => f x y && f y x) l' && pairsb f l' end.
Definition reservedb (k : string) : bool := String.eqb k defaultDomain || String.eqb k RbacM.REDUNDANT_ROLE.
Definition orderlyb (h : list (list dcall)) : bool :=
  forallb (forallb (fun c : dcall => forallb (fun k => negb (reservedb k)) (snd c))) h &&
  forallb (fun i => match nth_error h i with Some ops => pairsb (compat (firstn i h)) ops | None => true end) (seq 0 (List.length h)) &&
  forallb (fun ds => all_tidyb no_names (map (in_domain ds) h)) (map snd (List.concat h)).
Lemma prefixes_ok p rest : In p (prefixes (p ++ rest)).
Proof. induction p as [|k p IH]; cbn; [destruct rest; now left|]. right. now apply in_map. Qed.
Lemma belowb_ok p : forall ds, belowb p ds = true <-> below p ds.
Proof.
  induction p as [|k p IH]; intros ds; cbn.
  - split; [intros _; now exists ds|reflexivity].
  - destruct ds as [|k' ds]; [split; [discriminate|intros [rest E]; discriminate]|]. rewrite andb_true_iff, String.eqb_eq, IH. split.
    + intros [-> [rest ->]]. now exists rest.
    + intros [rest E]. injection E as -> ->. split; [reflexivity|now exists rest].
Qed.
Lemma updatesb_ok h f : updatesb h f = true -> exists ds, f ds = true /\ updates_in h ds.
Proof.
  intros H. apply existsb_exists in H as [ops [H1 H2]]. apply existsb_exists in H2 as [[o ds] [H3 H4]]. apply andb_true_iff in H4 as [H4 H5].
  exists ds. split; [exact H5|]. exists ops, o. auto.
Qed.
Lemma pairsb_ok {A} (f : A -> A -> bool) l : pairsb f l = true -> forall i j x y, nth_error l i = Some x -> nth_error l j = Some y -> i <> j -> f x y = true.
Proof.
  induction l as [|z l IH]; intros H i j x y Hi Hj N; [destruct i; discriminate|]. cbn in H. apply andb_true_iff in H as [H1 H2]. rewrite forallb_forall in H1.
  destruct i as [|i], j as [|j]; cbn in Hi, Hj; [congruence| | |apply (IH H2 i j); auto].
  - injection Hi as ->. apply nth_error_In, H1 in Hj. now apply andb_true_iff in Hj.
  - injection Hj as ->. apply nth_error_In, H1 in Hi. now apply andb_true_iff in Hi.
Qed.
Lemma orderlyb_ok h : orderlyb h = true -> orderly h.
Proof.
  intros H. apply andb_true_iff in H as [H H3]. apply andb_true_iff in H as [H1 H2]. rewrite forallb_forall in H1, H2, H3. split; [|split].
  - intros ops Ho o ds Hc. specialize (H1 _ Ho). rewrite forallb_forall in H1. specialize (H1 _ Hc). cbn in H1. rewrite forallb_forall in H1.
    apply Forall_forall. intros k Hk. specialize (H1 _ Hk). apply negb_true_iff in H1. unfold reservedb in H1. apply orb_false_iff in H1 as [X1 X2].
    apply String.eqb_neq in X1, X2. unfold reserved. intros [E|E]; congruence.
  - intros i ops Hi. specialize (H2 i). rewrite Hi in H2. assert (Hp : pairsb (compat (firstn i h)) ops = true).
    { apply H2. apply in_seq. cbn. split; [lia|]. apply nth_error_Some. congruence. }
    assert (C : forall a b oa ob ds es, nth_error ops a = Some (oa, ds) -> nth_error ops b = Some (ob, es) -> updates oa = true -> updates ob = true -> a <> b ->
      (ds = es -> updates_in (firstn i h) ds) /\ forall p, p <> [] -> below p ds -> below p es -> updates_below (firstn i h) p).
    { intros a b oa ob ds es Ha Hb Ua Ub N. pose proof (pairsb_ok _ _ Hp _ _ _ _ Ha Hb N) as X. unfold compat in X. cbn [fst snd] in X. rewrite Ua, Ub in X. cbn [andb negb orb] in X.
      apply andb_true_iff in X as [X1 X2]. split.
      - intros <-. rewrite (proj2 (same_domain_true ds ds) eq_refl) in X1. cbn in X1. apply updatesb_ok in X1 as [ds' [E X1]]. apply same_domain_true in E. now subst.
      - intros p Hp0 Bd Be. rewrite forallb_forall in X2. destruct Bd as [rest ->]. specialize (X2 _ (prefixes_ok p rest)). destruct p as [|k p]; [contradiction|].
        rewrite (proj2 (belowb_ok (k :: p) es) Be) in X2. cbn [negb orb] in X2. apply updatesb_ok in X2 as [ds' [E X2]]. exists ds'. split; [now apply belowb_ok|exact X2]. }
    split.
    + intros ds Hn a b oa ob ds1 es1 Ha Hb Ua Ub -> ->. destruct (Nat.eq_dec a b) as [E|N]; [exact E|]. exfalso. apply Hn. exact (proj1 (C _ _ _ _ _ _ Ha Hb Ua Ub N) eq_refl).
    + intros p Hp0 Hn a b oa ob ds1 es1 Ha Hb Ua Ub B1 B2. destruct (Nat.eq_dec a b) as [E|N]; [exact E|]. exfalso. apply Hn.
      exact (proj2 (C _ _ _ _ _ _ Ha Hb Ua Ub N) p Hp0 B1 B2).
  - intros ds. destruct (in_dec (list_eq_dec string_dec) ds (map snd (List.concat h))) as [Hi|Hn]; [apply all_tidyb_ok; now apply H3|].
    assert (E : forall g K, (forall ops, In ops g -> in_domain ds ops = []) -> all_tidy K (map (in_domain ds) g)).
    { induction g as [|ops g IH]; intros K Hg; cbn [map all_tidy]; [exact I|]. rewrite (Hg ops) by (now left). split; [|apply IH; intros o Ho; apply Hg; now right].
      split; [discriminate|]. intros n _. left. intros o []. }
    apply E. intros ops Ho. destruct (in_domain ds ops) as [|o l] eqn:El; [reflexivity|]. exfalso. apply Hn. apply in_map_iff. exists (o, ds). split; [reflexivity|].
    apply in_concat. exists ops. split; [exact Ho|]. apply in_domain_in. rewrite El. now left.
Qed.
Example C93_ex_orderly : orderly (map fst dex_h).
Proof. apply orderlyb_ok. vm_compute. reflexivity. Qed.
(** The example has two updates at once in a domain that is not new. *)
Example C93_ex_says : links_after (map (in_domain ["tenant2"]) (firstn 2 (map fst dex_h))) "admin" "reader" = true /\
  links_after (map (in_domain ["tenant2"]) (firstn 2 (map fst dex_h))) "alice" "reader" = false /\
  links_after (map (in_domain ["tenant1"]) (firstn 2 (map fst dex_h))) "admin" "reader" = false.
Proof. repeat split; vm_compute; reflexivity. Qed.
