(** Property C117: listeners that change rules in turn. *)
From Coq Require Import Lia Permutation.
From Verif Require Import GoBase GoBaseP PolicyM PolicySpec MatcherM ModelM ModelSpec ModelP ModelP4 ModelP5 StorageM StorageSpec StorageP StorageP2 StorageP3
  SafeSpec PersistP ReactM ReactSpec ReactP Prop_Model Prop_Safe Prop_Storage.
Local Open Scope list_scope.

(** ** C117 *)

Lemma start_told n i : nth i (repeat (@nil operation) n) [] = [].
Proof. revert i. induction n as [|n IH]; intros [|i]; cbn; auto. Qed.

(** Whatever listeners do, the calls that were made - by the program and by the
    listeners, in the order in which they took effect - are one ordinary history of the
    model, with the same answers and the same model after it. *)
Theorem C117_one_history :
  forall E os ls m cs n s, lsteps E os ls n (lstart (List.length ls) m cs) = Val s ->
  mexec E m (map fst (l_made s)) = Val (l_model s, map snd (l_made s)).
Proof.
  intros E os ls m cs n s H. refine (lsteps_ind E os ls (flat E m) _ n _ s _ H).
  - intros s1 s2. apply flat_step.
  - reflexivity.
Qed.
Print Assumptions C117_one_history.

(** The program makes all its calls, in its order, whatever listeners do and also if they
    panic; other calls in between are those of listeners. *)
Theorem C117_program_goes_on :
  forall E os ls m cs n s, lsteps E os ls n (lstart (List.length ls) m cs) = Val s -> returned s ->
  among cs (calls_made s) /\ (Forall (only_makes (fun _ => False)) ls -> calls_made s = cs).
Proof.
  intros E os ls m cs n s H R.
  assert (O : program ls cs s).
  { refine (lsteps_ind E os ls (program ls cs) _ n _ s _ H); [intros s1 s2; now apply program_step|]. exists []. split; [split; [constructor|reflexivity]|]. right. exists [], cs. repeat split. constructor. }
  destruct O as (did & A & [[_ ->]|(k & rest & X & _)]); [exact A|]. unfold returned in R. rewrite R in X. destruct k; discriminate X.
Qed.
Print Assumptions C117_program_goes_on.

(** If no listener panics: when everything has returned, every listener was told of every
    change, and of each once - also of the changes that listeners made. *)
Theorem C117_every_change_once :
  forall E os ls m cs n s i, Forall never_fails ls ->
  lsteps E os ls n (lstart (List.length ls) m cs) = Val s -> i < List.length ls -> returned s ->
  Permutation (changes_made s) (told_to i s).
Proof.
  intros E os ls m cs n s i NF H Hi R.
  assert (O : once ls s).
  { refine (lsteps_ind E os ls (once ls) _ n _ s _ H); [intros s1 s2; now apply once_step|]. split; [apply repeat_length|]. intros j Hj. unfold told_to. cbn [lstart l_told]. rewrite start_told. constructor. }
  destruct O as [_ O]. specialize (O i Hi). unfold returned in R. rewrite R in O. cbn in O. now rewrite app_nil_r in O.
Qed.
Print Assumptions C117_every_change_once.

(** Also if listeners panic, at every moment: what a listener was told are changes that
    were made, each told at most once. *)
Theorem C117_at_most_once :
  forall E os ls m cs n s i, lsteps E os ls n (lstart (List.length ls) m cs) = Val s -> i < List.length ls ->
  exists untold, Permutation (changes_made s) (told_to i s ++ untold).
Proof.
  intros E os ls m cs n s i H Hi.
  assert (O : at_most ls i s).
  { refine (lsteps_ind E os ls (at_most ls i) _ n _ s _ H); [intros s1 s2; now apply at_most_step|]. split; [apply repeat_length|]. exists []. unfold told_to. cbn [lstart l_told]. rewrite start_told. constructor. }
  destruct O as [_ [lost O]]. eauto.
Qed.
Print Assumptions C117_at_most_once.

(** A listener before which only quiet listeners are registered is told of the changes
    in their order, whatever it and the later listeners do, also if they panic and the
    program recovers.  While calls are still
    running at most the last change is missing. *)
Theorem C117_in_order :
  forall E os ls m cs n s i, lsteps E os ls n (lstart (List.length ls) m cs) = Val s -> i < List.length ls ->
  (forall j L, j < i -> nth_error ls j = Some L -> quiet L) ->
  (exists late, changes_made s = told_to i s ++ late /\ List.length late <= 1) /\
  (returned s -> changes_made s = told_to i s).
Proof.
  intros E os ls m cs n s i H Hi Q.
  assert (O : in_order ls i s).
  { refine (lsteps_ind E os ls (in_order ls i) _ n _ s _ H); [intros s1 s2; now apply in_order_step|]. split; [apply repeat_length|]. unfold told_to. cbn [lstart l_told l_stack]. rewrite start_told. split; [reflexivity|]. now left. }
  destruct O as (_ & C & S). split.
  - exists (waiting i (l_stack s)). split; [exact C|].
    destruct S as [->|[(op & j & k & -> & W)|(j & told & op & ans & op' & j' & k & -> & _ & W)]]; [cbn; lia| |]; cbn [waiting flat_map waits app]; fold (waiting i k); rewrite W, app_nil_r; destruct (Nat.leb _ i); cbn; lia.
  - unfold returned. intros R. rewrite R in C. cbn in C. now rewrite app_nil_r in C.
Qed.
Print Assumptions C117_in_order.

(** A listener that, like storage, replays what it is told ends up with the rules of the
    model, when only quiet listeners are registered before it, or when no listener panics
    and listeners react only by changing rules of a higher rank than the rule they were
    told of. *)
Theorem C117_replica_partial :
  forall E hs m rs0 o os ls cs n s s0 i,
  good_m hs -> tame hs -> mexec E (NewModel E) hs = Val (m, rs0) -> good_orders o -> (forall n, good_orders (os n)) ->
  (forall rl, s0 rl = true <-> In rl (model_rules o m)) ->
  Forall (plain_change hs) cs -> Forall (only_makes (plain_change hs)) ls ->
  (forall j L, j < i -> nth_error ls j = Some L -> quiet L) \/ (Forall never_fails ls /\ exists rank, Forall (ranked rank) ls) ->
  lsteps E os ls n (lstart (List.length ls) m cs) = Val s -> i < List.length ls -> returned s ->
  forall o' rl, good_orders o' -> (fold_left apply_op (told_to i s) s0 rl = true <-> In rl (model_rules o' (l_model s))).
Proof.
  intros E hs m rs0 o os ls cs n s s0 i Go T H0 Ho Hos S0 Pc Pl Hq H Hi R o' rl Ho'.
  assert (F := C117_one_history _ _ _ _ _ _ _ H).
  assert (Pl' : Forall (fun c => plain_m hs (snd c)) (map fst (l_made s)) /\ good_m (map fst (l_made s)) /\ Forall (fun f => match f with FrMain cs => Forall (plain_change hs) cs | _ => True end) (l_stack s)).
  { refine (lsteps_ind E os ls (fun s => Forall (fun c => plain_m hs (snd c)) (map fst (l_made s)) /\ good_m (map fst (l_made s)) /\ Forall (fun f => match f with FrMain cs => Forall (plain_change hs) cs | _ => True end) (l_stack s)) _ n _ s _ H).
    - intros s1 s2 (P1 & P2 & P3) X. apply step_cases in X as [->|[(f & k & Es & -> & Hf)|[(op & j & L & k & Es & El & ->)|[(f & c & k & f' & m' & r & Es & X & -> & Hf)|(j & told & op & ans & L & k & Es & El & Ff & ->)]]]]; [auto| | | |]; cbn [l_made l_stack]; rewrite Es in P3; inversion P3 as [|? ? P4 P5]; subst.
      + auto.
      + repeat split; auto.
      + rewrite map_app. cbn [map fst].
        assert (D : plain_change hs c /\ match f' with FrMain cs => Forall (plain_change hs) cs | _ => True end).
        { destruct f; [contradiction| |]; [destruct Hf as [(L & El & Ec) ->]|destruct Hf as (cs' & -> & ->)].
          - split; [|exact I]. rewrite Forall_forall in Pl. exact (Pl L (nth_error_In _ _ El) _ _ _ _ _ Ec).
          - now inversion P4. }
        destruct D as [D1 D2]. split; [apply Forall_app; split; [exact P1|constructor; [exact D1|constructor]]|]. split; [apply Forall_app; split; [exact P2|constructor; [apply Hos|constructor]]|].
        apply Forall_app. split; [|constructor; assumption]. apply Forall_map, Forall_forall. intros; exact I.
      + split; [exact P1|]. split; [exact P2|]. now apply unwind_Forall.
    - split; [constructor|]. split; [constructor|]. cbn. auto. }
  destruct Pl' as (P1 & P2 & _).
  assert (Go' : good_m (hs ++ map fst (l_made s))) by (apply Forall_app; now split).
  assert (HS : forall rl, s0 rl = true <-> present hs rl) by (intros x; rewrite S0; eapply model_rules_present; eauto).
  pose proof (plain_replay E hs (map fst (l_made s)) m rs0 (l_model s) (map snd (l_made s)) s0 Go' T P1 HS H0 F rl) as X.
  rewrite (model_rules_present E (hs ++ map fst (l_made s)) o' (l_model s) (rs0 ++ map snd (l_made s)) Go' Ho'), <- X.
  - assert (Y : fold_left apply_op (told_to i s) s0 rl = fold_left apply_op (announced (map snd (l_made s))) s0 rl); [|now rewrite Y].
    change (announced (map snd (l_made s))) with (changes_made s).
    destruct Hq as [Q|[NF [rank Q]]].
    + destruct (C117_in_order _ _ _ _ _ _ _ i H Hi Q) as [_ Z]. now rewrite (Z R).
    + assert (O : by_rule ls rank i s).
      { refine (lsteps_ind E os ls (by_rule ls rank i) _ n _ s _ H); [intros s1 s2; now apply by_rule_step|]. split; [apply repeat_length|]. split; [reflexivity|]. intros r. unfold told_to. cbn [lstart l_told l_stack]. now rewrite start_told. }
      destruct O as (_ & _ & O). specialize (O rl). unfold returned in R. rewrite R in O. cbn [waiting flat_map] in O. cbn [on filter] in O. rewrite app_nil_r in O.
      rewrite (fold_on rl (told_to i s)), (fold_on rl (changes_made s)). now rewrite O.
  - apply Forall_app. split; [exact T|]. eapply Forall_impl; [|exact P1]. intros [oo c] P. eapply plain_m_tame; eauto.
  - apply mexec_app. exists m, rs0, (map snd (l_made s)). auto.
Qed.
Print Assumptions C117_replica_partial.

(** Listeners that react only by changing rules of a higher rank, each at most [K] times
    to a change, with ranks up to [B], let every program return (or fail), also if listeners panic. *)
Theorem C117_returns :
  forall E os ls rank B K m cs,
  Forall (ranked rank) ls -> (forall r, rank r <= B) ->
  Forall (fun L : listener => forall told op ans m, K <= List.length ans -> L told op ans m = Done) ls ->
  exists n, match lsteps E os ls n (lstart (List.length ls) m cs) with Val s => returned s | Panic => True end.
Proof.
  intros E os ls rank B K m cs Hr Hb Hf. destruct (main_returns E os ls rank B K Hr Hb Hf cs (lstart (List.length ls) m cs) eq_refl) as [n Hn]. exists n. destruct (lsteps E os ls n _) as [s|]; [|exact I]. now destruct Hn.
Qed.
Print Assumptions C117_returns.

(** *** Examples *)

(** A listener that takes back every rule it is told was added. *)
Definition veto : listener := fun _ op ans _ => match op, ans with (OpAdd, r), [] => Calls (CRemove r) | _, _ => Done end.
(** A listener that takes back every change. *)
Definition undo : listener := fun _ op ans _ => match op, ans with (OpAdd, r), [] => Calls (CRemove r) | (OpRemove, r), [] => Calls (CAdd r) | _, _ => Done end.
Definition r1 : rule := ["p"; "admin"; "data1"; "read"]%string.
Definition g1 : rule := ["g"; "alice"; "admin"]%string.
(** A listener that takes the permission of a role away with its only member. *)
Definition cascade : listener := fun _ op ans _ =>
  match op, ans with (OpRemove, r), [] => if rule_eqb r g1 then Calls (CRemove r1) else Done | _, _ => Done end.
(** A listener that panics when it is told of an addition. *)
Definition refuse : listener := fun _ op _ _ => match op with (OpAdd, _) => Fails | _ => Done end.

(** The replica of a listener that is registered after one that takes changes back: it is
    told of the removal first, and keeps a rule that the model does not have. *)
Theorem C117_veto_refuted :
  exists s, lsteps ex_env ex_os [veto; storage] 20 (lstart 2 ex_m [CAdd r1]) = Val s /\ returned s /\
    changes_made s = [(OpAdd, r1); (OpRemove, r1)] /\ told_to 1 s = [(OpRemove, r1); (OpAdd, r1)] /\
    model_rules ex_o (l_model s) = [] /\ fold_left apply_op (told_to 1 s) (fun _ => false) r1 = true.
Proof.
  assert (Y : (let! s := lsteps ex_env ex_os [veto; storage] 20 (lstart 2 ex_m [CAdd r1]) in
    Val (l_stack s, changes_made s, told_to 1 s, model_rules ex_o (l_model s), fold_left apply_op (told_to 1 s) (fun _ => false) r1))
    = Val ([], [(OpAdd, r1); (OpRemove, r1)], [(OpRemove, r1); (OpAdd, r1)], [], true)) by (vm_compute; reflexivity).
  destruct (lsteps ex_env ex_os [veto; storage] 20 (lstart 2 ex_m [CAdd r1])) as [s|]; [|discriminate Y]. cbn [obind] in Y. exists s. injection Y as Y1 Y2 Y3 Y4 Y5. unfold returned. auto 10.
Qed.
Print Assumptions C117_veto_refuted.

(** Registered the other way round, the same listeners are fine. *)
Example C117_veto_second_ex :
  (let! s := lsteps ex_env ex_os [storage; veto] 20 (lstart 2 ex_m [CAdd r1]) in
   Val (told_to 0 s, told_to 1 s, model_rules ex_o (l_model s), l_stack s))
  = Val ([(OpAdd, r1); (OpRemove, r1)], [(OpAdd, r1); (OpRemove, r1)], [], []).
Proof. vm_compute. reflexivity. Qed.

(** The replica of a listener that is registered after one that panics: it is not told of
    a rule that the model has.  Registered before, it is. *)
Theorem C117_panic_refuted :
  (exists s, lsteps ex_env ex_os [refuse; storage] 20 (lstart 2 ex_m [CAdd r1; CAdd g1; CRemove g1]) = Val s /\ returned s /\
    changes_made s = [(OpAdd, r1); (OpAdd, g1); (OpRemove, g1)] /\ told_to 1 s = [(OpRemove, g1)] /\
    model_rules ex_o (l_model s) = [r1] /\ fold_left apply_op (told_to 1 s) (fun _ => false) r1 = false) /\
  (exists s, lsteps ex_env ex_os [storage; refuse] 20 (lstart 2 ex_m [CAdd r1; CAdd g1; CRemove g1]) = Val s /\ returned s /\
    told_to 0 s = [(OpAdd, r1); (OpAdd, g1); (OpRemove, g1)]).
Proof.
  assert (Y : (let! s := lsteps ex_env ex_os [refuse; storage] 20 (lstart 2 ex_m [CAdd r1; CAdd g1; CRemove g1]) in
    Val (l_stack s, changes_made s, told_to 1 s, model_rules ex_o (l_model s), fold_left apply_op (told_to 1 s) (fun _ => false) r1))
    = Val ([], [(OpAdd, r1); (OpAdd, g1); (OpRemove, g1)], [(OpRemove, g1)], [r1], false)) by (vm_compute; reflexivity).
  assert (Z : (let! s := lsteps ex_env ex_os [storage; refuse] 20 (lstart 2 ex_m [CAdd r1; CAdd g1; CRemove g1]) in Val (l_stack s, told_to 0 s))
    = Val ([], [(OpAdd, r1); (OpAdd, g1); (OpRemove, g1)])) by (vm_compute; reflexivity).
  split.
  - destruct (lsteps ex_env ex_os [refuse; storage] 20 (lstart 2 ex_m [CAdd r1; CAdd g1; CRemove g1])) as [s|]; [|discriminate Y]. cbn [obind] in Y. exists s. injection Y as Y1 Y2 Y3 Y4 Y5. unfold returned. auto 10.
  - destruct (lsteps ex_env ex_os [storage; refuse] 20 (lstart 2 ex_m [CAdd r1; CAdd g1; CRemove g1])) as [s|]; [|discriminate Z]. cbn [obind] in Z. exists s. injection Z as Z1 Z2. unfold returned. auto.
Qed.
Print Assumptions C117_panic_refuted.

(** A call with a listener that takes back every change never returns. *)
Definition undone (h : list (orders * mcall)) (m : model) : Prop :=
  good_m h /\ tame h /\ calm ex_env h /\ (exists rs, mexec ex_env (NewModel ex_env) h = Val (m, rs)) /\ in_section h r1 <> None.
Lemma undo_turn h m c : undone h m -> c = CAdd r1 /\ ~ In r1 (model_rules ex_o m) \/ c = CRemove r1 /\ In r1 (model_rules ex_o m) ->
  exists m' x op, mstep ex_env ex_o m c = Val (m', x) /\ undone (h ++ [(ex_o, c)]) m' /\ map op_of (x_events x) = [op] /\
    (op = (OpAdd, r1) /\ In r1 (model_rules ex_o m') \/ op = (OpRemove, r1) /\ ~ In r1 (model_rules ex_o m')).
Proof.
  intros (Go & T & C & (rs & H) & Sec) Hc. assert (Tr : tame_rule r1) by (unfold r1; tame_rule_tac).
  assert (L : as_listed h r1 = r1) by reflexivity.
  assert (Go' : good_m (h ++ [(ex_o, c)])) by (apply Forall_app; split; [exact Go|constructor; [exact ex_o_good|constructor]]).
  assert (C' : calm ex_env (h ++ [(ex_o, c)])).
  { apply Forall_app. split; [exact C|constructor; [|constructor]]. destruct Hc as [[-> _]|[-> _]]; cbn [snd calm_call]; unfold r1, shaped; (split; [discriminate|]); intros G; discriminate G. }
  assert (T' : tame (h ++ [(ex_o, c)])) by (apply Forall_app; split; [exact T|constructor; [|constructor]]; destruct Hc as [[-> _]|[-> _]]; exact Tr).
  destruct (C67_no_panic_partial ex_env _ Go' C') as (m' & rs' & X). assert (X' := X). apply mexec_app in X as (m1 & xs & ys & X1 & X2 & X3). rewrite H in X1. injection X1 as <- <-.
  cbn [mexec] in X2. apply obind_val in X2 as [[m2 x] [X2 X4]]. injection X4 as <- _. exists m2, x.
  assert (U : undone (h ++ [(ex_o, c)]) m2).
  { split; [exact Go'|]. split; [exact T'|]. split; [exact C'|]. split; [eauto|]. apply section_kept; [|exact Sec]. destruct Hc as [[-> _]|[-> _]]; exact I. }
  destruct Hc as [[-> N]|[-> P]].
  - destruct (C01_model_add _ _ _ _ _ _ _ _ Go ex_o_good T Tr H Sec X2 ex_o ex_o_good) as (_ & B & Ev & R). rewrite L in *. rewrite (proj2 B N) in Ev. exists (OpAdd, r1).
    rewrite Ev. split; [exact X2|]. split; [exact U|]. split; [reflexivity|]. left. split; [reflexivity|]. apply R. now right.
  - destruct (C01_model_remove _ _ _ _ _ _ _ _ Go ex_o_good T Tr H Sec X2 ex_o ex_o_good) as (_ & B & Ev & R). rewrite L in *. rewrite (proj2 B P) in Ev. exists (OpRemove, r1).
    rewrite Ev. split; [exact X2|]. split; [exact U|]. split; [reflexivity|]. right. split; [reflexivity|]. intros Y. apply R in Y. now destruct Y.
Qed.
Definition undoing (s : lstate) : Prop :=
  exists h op k, undone h (l_model s) /\ (l_stack s = FrTell op 0 :: k \/ exists told, l_stack s = FrRun 0 told op [] :: k) /\
    (op = (OpAdd, r1) /\ In r1 (model_rules ex_o (l_model s)) \/ op = (OpRemove, r1) /\ ~ In r1 (model_rules ex_o (l_model s))).
Lemma undoing_step s : undoing s -> exists s', lstep ex_env (fun _ => ex_o) [undo] s = Val s' /\ undoing s'.
Proof.
  intros (h & op & k & U & [Hs|[told Hs]] & Hop); unfold lstep; rewrite Hs; cbn [nth_error].
  - eexists. split; [reflexivity|]. exists h, op. cbn [l_model l_stack]. eexists. split; [exact U|]. split; [right; eauto|exact Hop].
  - assert (D : exists c, undo told op [] (l_model s) = Calls c /\ (c = CAdd r1 /\ ~ In r1 (model_rules ex_o (l_model s)) \/ c = CRemove r1 /\ In r1 (model_rules ex_o (l_model s)))).
    { destruct Hop as [[-> P]|[-> N]]; cbn [undo]; eauto. }
    destruct D as (c & -> & Hc). destruct (undo_turn h (l_model s) c U Hc) as (m' & x & op' & X & U' & Ev & Hop'). unfold make. rewrite X. cbn [obind]. eexists. split; [reflexivity|].
    exists (h ++ [(ex_o, c)]), op'. cbn [l_model l_stack]. rewrite <- (map_map op_of (fun op => FrTell op 0)), Ev. cbn [map app]. eexists. split; [exact U'|]. split; [left; reflexivity|exact Hop'].
Qed.
Theorem C117_endless_refuted :
  forall n, exists s, lsteps ex_env (fun _ => ex_o) [undo] n (lstart 1 ex_m [CAdd r1]) = Val s /\ ~ returned s.
Proof.
  assert (U0 : undone ex_setup ex_m).
  { split; [exact (proj1 (proj1 (Forall_app _ _ _) ex_good))|]. split; [exact (proj1 (proj1 (Forall_app _ _ _) ex_tame))|]. destruct C67_ex as [Cx _].
    split; [exact (proj1 (proj1 (Forall_app _ _ _) Cx))|]. split; [|vm_compute; discriminate]. unfold ex_m.
    destruct (mexec ex_env (NewModel ex_env) ex_setup) as [[m rs]|] eqn:M; [eauto|]. exfalso.
    assert (Y : match mexec ex_env (NewModel ex_env) ex_setup with Val _ => true | Panic => false end = true) by (vm_compute; reflexivity). rewrite M in Y. discriminate. }
  assert (N0 : ~ In r1 (model_rules ex_o ex_m)) by (replace (model_rules ex_o ex_m) with (@nil rule) by (vm_compute; reflexivity); intros []).
  destruct (undo_turn ex_setup ex_m (CAdd r1) U0 (or_introl (conj eq_refl N0))) as (m' & x & op & X & U' & Ev & Hop).
  assert (G : forall n s, undoing s -> exists s', lsteps ex_env (fun _ => ex_o) [undo] n s = Val s' /\ undoing s').
  { induction n as [|n IH]; intros s Hs; [exists s; split; [reflexivity|exact Hs]|]. destruct (undoing_step s Hs) as (s1 & S1 & U1). cbn [lsteps]. rewrite S1. exact (IH s1 U1). }
  assert (R : forall s, undoing s -> ~ returned s) by (unfold returned; intros s (h & o & k & _ & [Hs|[told Hs]] & _); rewrite Hs; discriminate).
  intros [|n]; [exists (lstart 1 ex_m [CAdd r1]); split; [reflexivity|discriminate]|].
  cbn [lsteps]. unfold lstep at 1. cbn [lstart l_stack]. unfold make. cbn [lstart l_model l_told l_made]. rewrite X. cbn [obind].
  match goal with |- exists s, lsteps _ _ _ _ ?s1 = _ /\ _ => destruct (G n s1) as (s & S1 & S2) end; [|exists s; split; [exact S1|now apply R]].
  exists (ex_setup ++ [(ex_o, CAdd r1)]), op. cbn [l_model l_stack]. rewrite <- (map_map op_of (fun op => FrTell op 0)), Ev. cbn [map app]. eexists. split; [exact U'|]. split; [left; reflexivity|exact Hop].
Qed.
Print Assumptions C117_endless_refuted.

(** The hypotheses of C117_replica_partial and C117_returns are met by a listener that
    reacts, with storage registered after it. *)
Definition ranks (r : rule) : nat := if rule_eqb r g1 then 0 else 1.
Definition react_calls : list mcall := [CAdd r1; CAdd g1; CRemove g1].
Example C117_ex :
  good_m ex_setup /\ tame ex_setup /\ (forall n, good_orders (ex_os n)) /\ model_rules ex_o ex_m = [] /\
  Forall (plain_change ex_setup) react_calls /\ Forall (only_makes (plain_change ex_setup)) [cascade; storage] /\
  Forall never_fails [cascade; storage] /\ Forall (ranked ranks) [cascade; storage] /\ (forall r, ranks r <= 1) /\
  Forall (fun L : listener => forall told op ans m, 1 <= List.length ans -> L told op ans m = Done) [cascade; storage] /\
  (let! s := lsteps ex_env ex_os [cascade; storage] 40 (lstart 2 ex_m react_calls) in
   Val (l_stack s, changes_made s, told_to 0 s, told_to 1 s, model_rules ex_o (l_model s)))
  = Val ([], [(OpAdd, r1); (OpAdd, g1); (OpRemove, g1); (OpRemove, r1)], [(OpAdd, r1); (OpAdd, g1); (OpRemove, g1); (OpRemove, r1)],
         [(OpAdd, r1); (OpAdd, g1); (OpRemove, r1); (OpRemove, g1)], []).
Proof.
  assert (Pr : plain_rule ex_setup r1) by (split; [unfold r1; tame_rule_tac|reflexivity]).
  assert (Pg : plain_rule ex_setup g1) by (split; [unfold g1; tame_rule_tac|vm_compute; reflexivity]).
  assert (Cs : forall told op ans m c, cascade told op ans m = Calls c -> ans = [] /\ snd op = g1 /\ c = CRemove r1).
  { intros told [[|] r] [|a ans] m c; cbn; try discriminate. unfold rule_eqb. destruct (rule_eq_dec r g1); [|discriminate]. intros [= <-]. auto. }
  split; [exact (proj1 (proj1 (Forall_app _ _ _) ex_good))|]. split; [exact (proj1 (proj1 (Forall_app _ _ _) ex_tame))|]. split; [intros n; unfold ex_os; destruct (Nat.even n); [exact ex_o_good|exact ex_rev_good]|]. split; [vm_compute; reflexivity|].
  split; [apply Forall_cons; [exact Pr|apply Forall_cons; [exact Pg|apply Forall_cons; [exact Pg|apply Forall_nil]]]|].
  split; [constructor; [|constructor; [discriminate|constructor]]; intros told op ans m c H; destruct (Cs _ _ _ _ _ H) as (_ & _ & ->); exact Pr|].
  split; [constructor; [|constructor; [discriminate|constructor]]; intros told [[|] r] [|a ans] m; cbn; try discriminate; destruct (rule_eqb r g1); discriminate|].
  split; [constructor; [|constructor; [discriminate|constructor]]; intros told op ans m c H; destruct (Cs _ _ _ _ _ H) as (_ & Eo & ->); intros r [Hr|Hr]; [discriminate Hr|injection Hr as <-; rewrite Eo; vm_compute; auto]|].
  split; [intros r; unfold ranks; destruct (rule_eqb r g1); auto|].
  split; [constructor; [|constructor; [reflexivity|constructor]]; intros told op [|a ans] m H; [inversion H|destruct op as [[|] r]; reflexivity]|].
  vm_compute. reflexivity.
Qed.
