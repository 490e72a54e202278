(** Queries that run at the same time on a role manager with a matcher (C116). *)
From Coq Require Import Lia.
From Verif Require Import GoBase GoBaseP PathM RbacSpec SyncRoleM SyncRoleSpec SyncRoleP SyncPatSpec SyncPatP Prop_SyncRole.
Local Open Scope list_scope.
Local Open Scope string_scope.

Lemma links_snoc h ops : links_after (h ++ [ops])%list = phase_links (links_after h) ops.
Proof. unfold links_after. rewrite fold_left_app. reflexivity. Qed.
Lemma known_snoc h ops n : known_after (h ++ [ops])%list n = (known_after h n || updated ops n)%bool.
Proof. unfold known_after. rewrite existsb_app. cbn. now rewrite orb_false_r. Qed.
Lemma known_in h n : known_after h n = true -> In n (flat_map op_names (List.concat h)).
Proof.
  unfold known_after. intros H. apply existsb_exists in H as (ops & Hi & H). unfold updated in H. apply existsb_exists in H as (o & Ho & H).
  apply andb_true_iff in H as [_ H]. apply sin_In in H. apply in_flat_map. exists o. split; [|exact H]. apply in_concat. eauto.
Qed.
Lemma prep_mem0 mm : prep mm mem0 no_links (known_after []).
Proof.
  assert (E : forall r f, fget mem0 r f = []) by (intros r f; unfold fget; cbn; now destruct r).
  constructor; try reflexivity; try (intros; cbn; split; [discriminate|intros (X & _); discriminate]).
  - constructor; [discriminate|]. intros r f k v. rewrite E. discriminate.
  - intros n. cbn. split; [contradiction|intros [X _]; discriminate].
Qed.
Lemma phases_last M level m0 h ops m yss : phases_run M level m0 (h ++ [ops])%list m yss ->
  exists m1 yss1 sched ys, phases_run M level m0 h m1 yss1 /\ phase_runs M level m1 ops sched m ys /\ yss = (yss1 ++ [ys])%list.
Proof.
  intros H. inversion H as [E|h' m1 yss1 ops' sched m2 ys H1 H2 E]; subst; [destruct h; discriminate|].
  apply app_inj_tail in E as [-> ->]. eauto 8.
Qed.
Lemma calm_init h ops : calm_phases (h ++ [ops])%list ->
  calm_phases h /\ ((exists o, ops = [o]) \/ (forall o, In o ops -> updates o = false /\ about_known (known_after h) o)).
Proof.
  intros H. split.
  - intros i ops' E. assert (Hi : i < List.length h) by (apply nth_error_Some; congruence). specialize (H i ops'). rewrite nth_error_app1 in H by exact Hi.
    specialize (H E). rewrite firstn_app in H. replace (i - List.length h) with 0 in H by lia. cbn in H. now rewrite app_nil_r in H.
  - specialize (H (List.length h) ops). rewrite nth_error_app2, Nat.sub_diag in H by lia. specialize (H eq_refl).
    now rewrite firstn_app, Nat.sub_diag, firstn_all, app_nil_r in H.
Qed.
Lemma pstep_ext mm L K K' a b : (forall n, K n = K' n) -> pstep mm L K a b -> pstep mm L K' a b.
Proof. intros E [H|p H1 H2 H3|p H1 H2]; [now constructor 1|econstructor 2; eauto; now rewrite <- E|econstructor 3; eauto]. Qed.
Lemma answer_ext mm level L K K' o y : (forall n, K n = K' n) -> pattern_answer mm level L K o y -> pattern_answer mm level L K' o y.
Proof.
  intros E. assert (E' : forall n, K' n = K n) by auto.
  assert (S : forall a b, pstep mm L K a b <-> pstep mm L K' a b) by (intros a b; split; now apply pstep_ext).
  assert (T : forall n a b, chain (pstep mm L K) n a b <-> chain (pstep mm L K') n a b).
  { intros n a b. split; intros H; induction H; try constructor; econstructor; try eassumption; now apply S. }
  destruct o as [a b|a b|a b|a|a], y as [x|l]; cbn; auto.
  - intros ->. split; (intros [H|(n & z & H1 & H2 & H3)]; [now left|right; exists n, z; split; [exact H1|]; split; [now apply T|exact H3]]).
  - intros H b. rewrite H. apply S.
  - intros H b. now rewrite H, E, S.
Qed.
(** A call that runs alone. *)
Lemma one_call mm level m L K o : prep mm m L K ->
  (forall p q, during K o p = true -> during K o q = true -> IsPattern mm q = true -> ~ covers mm p q) ->
  forall sched, exists m' p, run (Some mm) level (m, [start (Some mm) o]) sched = Val (m', [p]) /\
    (exists sched' m'' y, run (Some mm) level (m', [p]) sched' = Val (m'', [PDone y])) /\
    forall y, p = PDone y -> pattern_answer mm level L (during K o) o y /\ prep mm m' (phase_links L [o]) (fun n => K n || (updates o && sin n (op_names o)))%bool.
Proof.
  intros P Ap sched. assert (LK : forall a b, L a b = true -> K a = true /\ K b = true) by (intros a b; now apply (prep_links mm m L K)).
  assert (D : (exists a b, o = OHas a b /\ start (Some mm) o = PDone (YBool true) /\ hits (Some mm) a b) \/ forall a b, o = OHas a b -> ~ hits (Some mm) a b).
  { destruct o as [a b|a b|a b|a|a]; try (right; intros; discriminate). cbn [start]. rewrite (String.eqb_sym a b).
    destruct (String.eqb b a || match_set (Some mm) a b)%bool eqn:E; [left|right].
    - exists a, b. split; [reflexivity|]. split; [reflexivity|]. now apply hits_dec.
    - intros x z [= <- <-] H. apply hits_dec in H. congruence. }
  destruct D as [(a & b & -> & E & Hh)|NH].
  - assert (R : forall sched, run (Some mm) level (m, [PDone (YBool true)]) sched = Val (m, [PDone (YBool true)])).
    { clear. induction sched as [|[[|i] ch] sched IH]; cbn; [reflexivity| |]; [exact IH|]. destruct i; exact IH. }
    exists m, (PDone (YBool true)). rewrite E. split; [apply R|]. split; [exists [], m, (YBool true); reflexivity|].
    intros y [= <-]. split; [cbn; tauto|]. apply (prep_ext _ _ _ _ _ _ P); [|intros n; cbn; now rewrite orb_false_r].
    intros x z. unfold phase_links, adds, dels. cbn. now rewrite orb_false_r, andb_true_r.
  - destruct (run_u mm level L K o LK NH Ap sched m _ (start_u mm level L K o NH m P)) as (m' & p & E & Q). exists m', p. split; [exact E|]. split.
    + apply uends_run. now apply (uends_all mm level L K o LK NH Ap).
    + intros y ->. exact Q.
Qed.
(** Queries about known names. *)
Lemma queries mm level m L K ops : prep mm m L K -> (forall o, In o ops -> updates o = false /\ about_known K o) ->
  forall sched, exists ts, run (Some mm) level (m, map (start (Some mm)) ops) sched = Val (m, ts) /\
    (forall i y, nth_error ts i = Some (PDone y) -> exists o, nth_error ops i = Some o /\ pattern_answer mm level L K o y) /\
    List.length ts = List.length ops /\
    exists sched' ys, run (Some mm) level (m, ts) sched' = Val (m, map PDone ys).
Proof.
  intros P Ho sched.
  assert (Q : Forall2 (qinv mm level m L K) ops (map (start (Some mm)) ops)).
  { clear -P Ho. induction ops as [|o ops IH]; cbn; constructor; [|apply IH; intros o' Ho'; apply Ho; now right].
    destruct (Ho o (or_introl eq_refl)) as [U Kn]. apply start_q; auto. }
  destruct (run_q mm level m L K P sched _ _ Q) as (ts & E & F). exists ts. split; [exact E|]. split; [|split].
  - intros i y Hi. assert (G : forall i p, nth_error ts i = Some p -> exists o, nth_error ops i = Some o /\ qinv mm level m L K o p).
    { clear -F. induction F as [|o p ops ts Q F IH]; intros [|i] p'; cbn; try discriminate; [intros [= <-]; eauto|apply IH]. }
    destruct (G i _ Hi) as (o & Eo & Q'). exists o. split; [exact Eo|]. apply Q'.
  - clear -F. induction F; cbn; auto.
  - exact (SyncPatP.all_end mm level m L K P ops ts F []).
Qed.
Lemma queries_change_nothing L ops : (forall o, In o ops -> updates o = false) -> (forall a b, phase_links L ops a b = L a b) /\ forall n, updated ops n = false.
Proof.
  intros H.
  assert (G : (forall a b, adds ops a b = false /\ dels ops a b = false) /\ forall n, updated ops n = false).
  { induction ops as [|o ops IH]; [split; [split|]; reflexivity|]. destruct IH as [I1 I2]; [intros o' Ho'; apply H; now right|].
    specialize (H o (or_introl eq_refl)). split; [intros a b; destruct (I1 a b) as [J1 J2]|intros n; specialize (I2 n)]; unfold adds, dels, updated in *; cbn.
    - rewrite J1, J2. destruct o; try discriminate H; split; reflexivity.
    - now rewrite H, I2. }
  destruct G as [G1 G2]. split; [|exact G2]. intros a b. unfold phase_links. destruct (G1 a b) as [-> ->]. now rewrite orb_false_r, andb_true_r.
Qed.
Lemma apart_init mm h ops : patterns_apart mm (flat_map op_names (List.concat (h ++ [ops])%list)) -> patterns_apart mm (flat_map op_names (List.concat h)).
Proof. intros Ap p q Hp Hq. apply Ap; rewrite concat_app, flat_map_app; apply in_app_iff; now left. Qed.
Lemma apart_during mm h o : patterns_apart mm (flat_map op_names (List.concat (h ++ [[o]])%list)) ->
  forall p q, during (known_after h) o p = true -> during (known_after h) o q = true -> IsPattern mm q = true -> ~ covers mm p q.
Proof.
  intros Ap.
  assert (X : forall p, during (known_after h) o p = true -> In p (flat_map op_names (List.concat (h ++ [[o]])%list))).
  { intros p Hp. rewrite concat_app, flat_map_app. apply in_app_iff. apply orb_true_iff in Hp as [Hp|Hp]; [left; now apply known_in|right; cbn; rewrite app_nil_r; now apply sin_In]. }
  intros p q Hp Hq. apply Ap; now apply X.
Qed.
Lemma history mm level : forall h m yss, phases_run (Some mm) level mem0 h m yss -> calm_phases h -> patterns_apart mm (flat_map op_names (List.concat h)) ->
  prep mm m (links_after h) (known_after h) /\ List.length yss = List.length h /\
  forall i ops, nth_error h i = Some ops -> exists ys, nth_error yss i = Some ys /\
    Forall2 (fun o y => pattern_answer mm level (links_after (firstn i h)) (during (known_after (firstn i h)) o) o y) ops ys.
Proof.
  induction h as [|ops h IH] using rev_ind; intros m yss H Ak Ap.
  - inversion H as [E|h' m1 yss1 ops' sched m2 ys H1 H2 E]; subst; [|destruct h'; discriminate]. split; [apply prep_mem0|]. split; [reflexivity|]. intros [|i]; discriminate.
  - apply phases_last in H as (m1 & yss1 & sched & ys & H1 & (ts & Hr & Hf) & ->). apply calm_init in Ak as [Ak1 Ak2].
    destruct (IH m1 yss1 H1 Ak1 (apart_init _ _ _ Ap)) as (P & Len & Ans).
    assert (D : prep mm m (links_after (h ++ [ops])%list) (known_after (h ++ [ops])%list) /\
      Forall2 (fun o y => pattern_answer mm level (links_after h) (during (known_after h) o) o y) ops ys).
    { destruct Ak2 as [[o ->]|Ak2].
      - cbn [map] in Hr. destruct (one_call mm level m1 _ _ o P (apart_during _ _ _ Ap)) with (sched := sched) as (m' & p & E & _ & D).
        rewrite Hr in E. injection E as -> ->. unfold finished in Hf. destruct ys as [|y [|? ?]]; try discriminate Hf. injection Hf as ->. destruct (D y eq_refl) as [D1 D2].
        split; [|constructor; [exact D1|constructor]]. rewrite links_snoc. apply (prep_ext _ _ _ _ _ _ D2); [reflexivity|]. intros n. rewrite known_snoc. unfold updated, mentions. cbn. now rewrite orb_false_r.
      - destruct (queries mm level m1 _ _ ops P Ak2 sched) as (ts' & E & D & Ln & _). rewrite Hr in E. injection E as -> <-. split.
        + destruct (queries_change_nothing (links_after h) ops) as [Q1 Q2]; [intros o Ho; now apply Ak2|].
          rewrite links_snoc. apply (prep_ext _ _ _ _ _ _ P); [intros a b; now rewrite Q1|]. intros n. now rewrite known_snoc, Q2, orb_false_r.
        + unfold finished in Hf. subst ts. rewrite map_length in Ln.
          assert (D' : forall i y, nth_error ys i = Some y -> exists o, nth_error ops i = Some o /\ pattern_answer mm level (links_after h) (during (known_after h) o) o y).
          { intros i y Hy. destruct (D i y) as (o & Eo & Q); [now apply map_nth_error|]. exists o. split; [exact Eo|]. apply (answer_ext _ _ _ (known_after h)); [|exact Q].
            apply nth_error_In in Eo. destruct (Ak2 o Eo) as [U Kn]. intros n. unfold during. destruct (sin n (op_names o)) eqn:En; [|now rewrite orb_false_r].
            apply sin_In in En. rewrite orb_true_r. now apply Kn. }
          clear -Ln D'. revert ys Ln D'. induction ops as [|o ops IH]; intros [|y ys] Ln D'; try discriminate Ln; constructor.
          * destruct (D' 0 y eq_refl) as (o' & Eo & Q). injection Eo as <-. exact Q.
          * apply IH; [now injection Ln|]. intros i z Hz. exact (D' (S i) z Hz). }
    destruct D as [D1 D2]. split; [exact D1|]. split; [now rewrite !app_length, Len|].
    intros i ops' Hi. destruct (Nat.lt_ge_cases i (List.length h)) as [Hl|Hl].
    + rewrite nth_error_app1 in Hi by exact Hl. destruct (Ans i ops' Hi) as (ys' & A1 & A2). exists ys'. split; [rewrite nth_error_app1; [exact A1|lia]|].
      rewrite firstn_app. replace (i - List.length h) with 0 by lia. cbn. now rewrite app_nil_r.
    + rewrite nth_error_app2 in Hi by exact Hl. destruct (i - List.length h) as [|k] eqn:Ei; [|destruct k; discriminate]. injection Hi as <-. assert (i = List.length h) as -> by lia.
      exists ys. split; [rewrite nth_error_app2, Len, Nat.sub_diag by lia; reflexivity|]. rewrite firstn_app, Nat.sub_diag, firstn_all. cbn. now rewrite app_nil_r.
Qed.

(** ** Queries at the same time

    A role manager with any matcher whose patterns do not stand for patterns, after
    phases each of which was one call (also a query about new names), or queries
    about known names at the same time.  Then any number of HasLink, GetRoles and
    GetUsers calls about known names run at the same time.  Under no schedule does
    one of them panic or change anything; each that has returned gave the exact
    answer; wherever they stand they can all be run to their end. *)
Theorem C116_queries_at_once_partial :
  forall mm level h m yss ops sched,
    phases_run (Some mm) level mem0 h m yss ->
    calm_phases h ->
    patterns_apart mm (flat_map op_names (List.concat h)) ->
    let L := links_after h in
    let K := known_after h in
    (forall o, In o ops -> updates o = false /\ about_known K o) ->
    exists ts, run (Some mm) level (m, map (start (Some mm)) ops) sched = Val (m, ts) /\
      (forall i y, nth_error ts i = Some (PDone y) ->
         exists o, nth_error ops i = Some o /\ pattern_answer mm level L K o y) /\
      exists sched' ys, run (Some mm) level (m, ts) sched' = Val (m, map PDone ys).
Proof.
  intros mm level h m yss ops sched H Ak Ap L K Ho. destruct (history mm level h m yss H Ak Ap) as (P & _ & _).
  destruct (queries mm level m L K ops P Ho sched) as (ts & E & D & _ & F). eauto.
Qed.
Print Assumptions C116_queries_at_once_partial.

(** ** All phases

    Every answer of every phase is exact for the links and names at the beginning
    of the phase, whatever order the Ranges visit keys in and however queries of a
    phase interleave.  While a query runs, the names it mentions count as known,
    whether they are or not; afterwards those that were not are forgotten. *)
Theorem C116_phases_partial :
  forall mm level h m yss,
    phases_run (Some mm) level mem0 h m yss ->
    calm_phases h ->
    patterns_apart mm (flat_map op_names (List.concat h)) ->
    List.length yss = List.length h /\
    forall i ops, nth_error h i = Some ops ->
      exists ys, nth_error yss i = Some ys /\
        Forall2 (fun o y => pattern_answer mm level (links_after (firstn i h)) (during (known_after (firstn i h)) o) o y) ops ys.
Proof. intros. now apply (history mm level h m yss). Qed.
Print Assumptions C116_phases_partial.
(** And the next call, under any schedule, does not panic and can be run to its
    end from wherever it stands. *)
Theorem C116_next_call_returns_partial :
  forall mm level h m yss o sched,
    phases_run (Some mm) level mem0 h m yss ->
    calm_phases h ->
    patterns_apart mm (flat_map op_names (List.concat (h ++ [[o]])%list)) ->
    exists m' p, run (Some mm) level (m, [start (Some mm) o]) sched = Val (m', [p]) /\
      exists sched' m'' y, run (Some mm) level (m', [p]) sched' = Val (m'', [PDone y]).
Proof.
  intros mm level h m yss o sched H Ak Ap.
  destruct (history mm level h m yss H Ak (apart_init _ _ _ Ap)) as (P & _ & _). destruct (one_call mm level m _ _ o P (apart_during _ _ _ Ap)) with (sched := sched) as (m' & p & E & R & _). eauto.
Qed.
Print Assumptions C116_next_call_returns_partial.

(** ** What goes wrong with other names

    A name that only a query mentions exists while that query runs: a GetUsers that
    runs at the same time, about a known name, lists it if a pattern covers it.
    (C86_queries_at_once_refuted: two such queries may also panic.) *)
Theorem C116_unknown_names_refuted :
  (exists m, phases_run (Some PathMatcher) 10 mem0 [[OAdd "/p/*" "pg"]; [OUsers "pg"]; [ORoles "/p/1"]; [OUsers "pg"]] m
     [[YBool true]; [YNames ["/p/*"]]; [YNames ["pg"]]; [YNames ["/p/*"]]]) /\
  (exists m, phases_run (Some PathMatcher) 10 mem0 [[OAdd "/p/*" "pg"]; [OUsers "pg"; ORoles "/p/1"]] m
     [[YBool true]; [YNames ["/p/*"; "/p/1"]; YNames ["pg"]]]).
Proof.
  split.
  - eexists. apply (exec_from (Some PathMatcher) 10 [([OAdd "/p/*" "pg"], repeat 0 60); ([OUsers "pg"], repeat 0 60); ([ORoles "/p/1"], repeat 0 60); ([OUsers "pg"], repeat 0 60)]). vm_compute. reflexivity.
  - eexists. apply (exec_from (Some PathMatcher) 10 [([OAdd "/p/*" "pg"], repeat 0 60); ([OUsers "pg"; ORoles "/p/1"], (repeat 1 7 ++ repeat 0 60 ++ repeat 1 60)%list)]). vm_compute. reflexivity.
Qed.
Print Assumptions C116_unknown_names_refuted.

(** ** The hypotheses are met *)
Definition pat_phases : list (list rop) :=
  [[OAdd "alice" "/p/*"]; [OAdd "/p/1" "reader"]; [OAdd "/p/*" "pg"]; [OAdd "bob" "/p/1"]; [ODel "bob" "/p/1"]; [OHas "alice" "reader"; ORoles "/p/1"; OUsers "reader"];
   [OHas "alice" "/p/7"]; [ORoles "/p/7"]; [OUsers "/q/*"]; [OAdd "reader" "guest"]].
Definition pat_queries : list rop := [OHas "alice" "guest"; OHas "bob" "pg"; ORoles "alice"; OUsers "pg"; OHas "/p/1" "pg"; ORoles "/p/1"].
Definition apartb (mm : imatcher) (names : list string) : bool :=
  forallb (fun p => forallb (fun q => negb (IsPattern mm q) || String.eqb p q || negb (IsPattern mm p && Match mm q p)) names) names.
Lemma apartb_ok mm names : apartb mm names = true -> patterns_apart mm names.
Proof.
  unfold apartb. rewrite forallb_forall. intros H p q Hp Hq Pq (N & Pp & M). specialize (H p Hp). rewrite forallb_forall in H. specialize (H q Hq).
  rewrite Pq, Pp, M, (proj2 (String.eqb_neq p q) N) in H. discriminate.
Qed.
Example C116_ex : exists m yss m2 sched,
  phases_run (Some PathMatcher) 10 mem0 pat_phases m yss /\
  calm_phases pat_phases /\
  patterns_apart PathMatcher (flat_map op_names (List.concat pat_phases)) /\
  (forall o, In o pat_queries -> updates o = false /\ about_known (known_after pat_phases) o) /\
  nth_error yss 5 = Some [YBool true; YNames ["reader"; "pg"]; YNames ["/p/1"]] /\
  nth_error yss 7 = Some [YNames ["pg"]] /\
  phase_runs (Some PathMatcher) 10 m pat_queries sched m2
    [YBool true; YBool false; YNames ["/p/*"; "/p/1"]; YNames ["/p/*"; "/p/1"]; YBool true; YNames ["reader"; "pg"]].
Proof.
  destruct (exec (Some PathMatcher) 10 mem0 (map (fun ops => (ops, List.concat (repeat (seq 0 (List.length ops)) 90))) pat_phases)) as [[m yss]|] eqn:E; [|vm_compute in E; discriminate].
  exists m, yss. eexists. exists (turns (Some PathMatcher) 10 (m, map (start (Some PathMatcher)) pat_queries) (List.concat (repeat [0; 1; 2; 3; 4; 5] 90))). repeat (split; [shelve|]).
  - vm_compute in E. injection E as <- <-. eexists. split; [vm_compute; reflexivity|reflexivity].
  Unshelve.
  + apply exec_from in E. rewrite map_map in E. exact E.
  + intros i ops Hi. do 5 (destruct i as [|i]; [injection Hi as <-; left; eexists; reflexivity|]). destruct i as [|i].
    * right. injection Hi as <-. intros o Ho. repeat (destruct Ho as [<-|Ho]; [split; [reflexivity|]; intros _ n Hn; repeat (destruct Hn as [<-|Hn]; [vm_compute; reflexivity|]); destruct Hn|]). destruct Ho.
    * do 4 (destruct i as [|i]; [injection Hi as <-; left; eexists; reflexivity|]). destruct i; discriminate Hi.
  + apply apartb_ok. vm_compute. reflexivity.
  + intros o Ho. split.
    * repeat (destruct Ho as [<-|Ho]; [reflexivity|]). destruct Ho.
    * intros _ n Hn. repeat (destruct Ho as [<-|Ho]; [repeat (destruct Hn as [<-|Hn]; [vm_compute; reflexivity|]); destruct Hn|]). destruct Ho.
  + vm_compute in E. injection E as <- <-. reflexivity.
  + vm_compute in E. injection E as <- <-. reflexivity.
Qed.
