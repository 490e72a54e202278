(** Lemmas about the storage controller and the storage side of the enforcer. *)
From Verif Require Import GoBase GoBaseP PolicyM PolicySpec MatcherM ModelM ModelSpec ModelP4 ModelP5 StorageM StorageSpec.

(** ** The heap of controllers *)
Lemma nth_upd {A} (l : list A) i (x : A) : forall y, nth_error l i = Some y -> forall j, nth_error (upd l i x) j = if Nat.eqb j i then Some x else nth_error l j.
Proof.
  unfold upd. revert i. induction l as [|a l IH]; intros i y H j; [destruct i; discriminate|].
  destruct i as [|i]; cbn in *; [destruct j; reflexivity|]. destruct j as [|j]; cbn; [reflexivity|]. eapply IH; eauto.
Qed.
Lemma upd_upd {A} (l : list A) i (x y : A) : forall z, nth_error l i = Some z -> upd (upd l i x) i y = upd l i y.
Proof.
  unfold upd. revert i. induction l as [|a l IH]; intros i z H; [destruct i; discriminate|].
  destruct i as [|i]; cbn in *; [reflexivity|]. f_equal. eapply IH; eauto.
Qed.
Lemma upd_same {A} (l : list A) i (x : A) : nth_error l i = Some x -> upd l i x = l.
Proof.
  unfold upd. revert i. induction l as [|a l IH]; intros i H; [destruct i; discriminate|].
  destruct i as [|i]; cbn in *; [congruence|]. f_equal. auto.
Qed.

Arguments upd : simpl never.

Definition same_set_up (sc sc' : controller) : Prop :=
  sc_em sc' = sc_em sc /\ sc_adapter sc' = sc_adapter sc /\ sc_listening sc' = sc_listening sc.

(** ** Flush *)
Lemma accepted_app id a b : accepted id (a ++ b) = accepted id a ++ accepted id b.
Proof. unfold accepted. apply flat_map_app. Qed.

Lemma run_single W id op log : run W (AExt id) op log = (log ++ [mkEntry id (single op) (w_answer W log id (single op))], w_answer W log id (single op)).
Proof. destruct op as [[|] r]; reflexivity. Qed.
Lemma runBatch_batch W id o rs log : runBatch W (AExt id) o rs log = (log ++ [mkEntry id (batch (o, rs)) (w_answer W log id (batch (o, rs)))], w_answer W log id (batch (o, rs))).
Proof. destruct o; reflexivity. Qed.
Lemma changes_single op : changes (single op) = [op].
Proof. destruct op as [[|] r]; reflexivity. Qed.
Lemma changes_batch o rs : changes (batch (o, rs)) = map (pair o) rs.
Proof. destruct o; reflexivity. Qed.
Lemma opcode_eqb_spec a b : reflect (a = b) (opcode_eqb a b).
Proof. destruct a, b; constructor; congruence. Qed.

(** What a flush does, whatever the adapter answers: an accepted part, then
    either nothing is left or one refused call. *)
Lemma flush_spec W id : forall q log log' q' err, flush W (AExt id) log q = (log', q', err) ->
  exists done, Forall (fun op => True) done /\
    match err with
    | None => q = done /\ q' = [] /\ log' = log ++ map (fun op => mkEntry id (single op) None) done
    | Some e => exists x, q = done ++ x :: q' /\ log' = log ++ map (fun op => mkEntry id (single op) None) done ++ [mkEntry id (single x) (Some e)]
    end.
Proof.
  induction q as [|op q IH]; intros log log' q' err H; cbn [flush] in H.
  - injection H as <- <- <-. exists []. cbn. rewrite app_nil_r. auto.
  - rewrite run_single in H. destruct (w_answer W log id (single op)) as [e|].
    + injection H as <- <- <-. exists []. split; [constructor|]. exists op. auto.
    + apply IH in H as [done [_ H]]. exists (op :: done). split; [apply Forall_forall; auto|]. destruct err as [e|].
      * destruct H as [x [-> ->]]. exists x. split; [reflexivity|]. cbn [map app]. now rewrite <- app_assoc.
      * destruct H as [-> [-> ->]]. cbn [map app]. rewrite <- app_assoc. auto.
Qed.

Lemma ungroup_app a b : ungroup (a ++ b) = ungroup a ++ ungroup b.
Proof. apply flat_map_app. Qed.

(** The same for batches: the queue splits into its maximal runs. *)
Lemma batch_spec W id : forall q log cur rules log' q' err, rules <> [] -> batch_loop W (AExt id) log cur rules q = (log', q', err) ->
  exists rs gs, runs (map (pair cur) rules ++ q) ((cur, rules ++ rs) :: gs) /\
    match err with
    | None => q' = [] /\ log' = log ++ map (fun g => mkEntry id (batch g) None) ((cur, rules ++ rs) :: gs)
    | Some e => exists done x rest, (cur, rules ++ rs) :: gs = done ++ x :: rest /\ q' = tl (ungroup rest) /\
                  log' = log ++ map (fun g => mkEntry id (batch g) None) done ++ [mkEntry id (batch x) (Some e)]
    end.
Proof.
  induction q as [|[o r] q IH]; intros log cur rules log' q' err Hr H; cbn [batch_loop] in H.
  - destruct rules as [|r0 rules]; [congruence|]. rewrite runBatch_batch in H.
    assert (R : runs (map (pair cur) (r0 :: rules) ++ []) [(cur, (r0 :: rules) ++ [])]).
    { rewrite !app_nil_r. split; [cbn; now rewrite app_nil_r|split; [repeat constructor; discriminate|exact I]]. }
    exists [], []. split; [exact R|]. rewrite !app_nil_r.
    destruct (w_answer W log id (batch (cur, r0 :: rules))) as [e|]; injection H as <- <- <-.
    + exists [], (cur, r0 :: rules), []. split; [reflexivity|]. split; reflexivity.
    + split; reflexivity.
  - destruct (opcode_eqb_spec cur o) as [<-|No].
    + apply IH in H as [rs [gs [R H]]]; [|now destruct rules]. exists (r :: rs), gs.
      rewrite map_app in R. cbn [map] in R. rewrite <- !app_assoc in H. rewrite <- (app_assoc _ _ q), <- (app_assoc rules) in R.
      split; [exact R|exact H].
    + rewrite runBatch_batch in H. destruct (w_answer W log id (batch (cur, rules))) as [e|] eqn:Ea.
      * injection H as <- <- <-.
        (* the rest of the queue has runs as well *)
        assert (G : forall q o rules, rules <> [] -> exists rs gs, runs (map (pair o) rules ++ q) ((o, rules ++ rs) :: gs)).
        { clear. induction q as [|[o' r'] q IH]; intros o rules Hr.
          - exists [], []. rewrite !app_nil_r. split; [cbn; now rewrite app_nil_r|split; [repeat constructor; exact Hr|exact I]].
          - destruct (opcode_eqb_spec o o') as [<-|No].
            + destruct (IH o (rules ++ [r'])) as [rs [gs R]]; [now destruct rules|]. exists (r' :: rs), gs.
              rewrite map_app in R. cbn [map] in R. rewrite <- (app_assoc _ _ q), <- (app_assoc rules) in R. exact R.
            + destruct (IH o' [r']) as [rs [gs [R1 [R2 R3]]]]; [discriminate|]. exists [], ((o', [r'] ++ rs) :: gs). rewrite app_nil_r.
              split; [|split; [constructor; [exact Hr|exact R2]|split; [exact No|exact R3]]].
              cbn [map] in R1. cbn [app] in R1. cbn [app]. rewrite <- R1. reflexivity. }
        destruct (G q o [r]) as [rs [gs [R1 [R2 R3]]]]; [discriminate|]. exists [], ((o, [r] ++ rs) :: gs). rewrite app_nil_r. split.
        { split; [|split; [constructor; [exact Hr|exact R2]|split; [exact No|exact R3]]].
          cbn [map app] in R1. change (map (pair cur) rules ++ ungroup ((o, [r] ++ rs) :: gs) = map (pair cur) rules ++ (o, r) :: q). now rewrite <- R1. }
        exists [], (cur, rules), ((o, [r] ++ rs) :: gs). split; [reflexivity|]. split; [|reflexivity].
        cbn [map app] in R1. cbn [app]. rewrite R1. reflexivity.
      * apply IH in H as [rs [gs [[R1 [R2 R3]] H]]]; [|discriminate]. exists [], ((o, [r] ++ rs) :: gs). rewrite app_nil_r. split.
        { split; [|split; [constructor; [exact Hr|exact R2]|split; [exact No|exact R3]]].
          cbn [map app] in R1. change (map (pair cur) rules ++ ungroup ((o, [r] ++ rs) :: gs) = map (pair cur) rules ++ (o, r) :: q). now rewrite <- R1. }
        destruct err as [e|].
        -- destruct H as [done [x [rest [H1 [-> ->]]]]]. exists ((cur, rules) :: done), x, rest.
           split; [cbn [app] in *; now rewrite H1|]. split; [reflexivity|]. cbn [map app]. now rewrite <- app_assoc.
        -- destruct H as [-> ->]. split; [reflexivity|]. cbn [map]. now rewrite <- app_assoc.
Qed.

Lemma batchFlush_spec W id q log log' q' err : batchFlush W (AExt id) log q = (log', q', err) ->
  exists gs, runs q gs /\
    match err with
    | None => q' = [] /\ log' = log ++ map (fun g => mkEntry id (batch g) None) gs
    | Some e => exists done x rest, gs = done ++ x :: rest /\ q' = tl (ungroup rest) /\
                  log' = log ++ map (fun g => mkEntry id (batch g) None) done ++ [mkEntry id (batch x) (Some e)]
    end.
Proof.
  destruct q as [|[o r] q]; cbn [batchFlush batch_loop].
  - intros H. injection H as <- <- <-. exists []. split; [repeat split; constructor|]. cbn. now rewrite app_nil_r.
  - destruct (opcode_eqb_spec o o) as [_|N]; [|congruence]. cbn [app]. intros H.
    apply batch_spec in H as [rs [gs [R H]]]; [|discriminate]. exists ((o, [r] ++ rs) :: gs). cbn [map app] in R. auto.
Qed.

Lemma accepted_singles id done : accepted id (map (fun op => mkEntry id (single op) None) done) = done.
Proof.
  induction done as [|op l IH]; [reflexivity|]. cbn [map]. unfold accepted in *. cbn [flat_map en_id en_err en_call].
  rewrite Nat.eqb_refl, changes_single, IH. reflexivity.
Qed.
Lemma accepted_batches id gs : accepted id (map (fun g => mkEntry id (batch g) None) gs) = ungroup gs.
Proof.
  induction gs as [|[o rs] l IH]; [reflexivity|]. cbn [map]. unfold accepted in *. cbn [flat_map en_id en_err en_call].
  rewrite Nat.eqb_refl, changes_batch, IH. reflexivity.
Qed.

Lemma flush_ok W id : (forall log c, w_answer W log id c = None) -> forall q log,
  flush W (AExt id) log q = (log ++ map (fun op => mkEntry id (single op) None) q, [], None).
Proof.
  intros A. induction q as [|op q IH]; intros log; cbn [flush map]; [now rewrite app_nil_r|].
  rewrite run_single, A, IH, <- app_assoc. reflexivity.
Qed.
Lemma batch_ok W id : (forall log c, w_answer W log id c = None) -> forall q log cur rules log' q' err,
  batch_loop W (AExt id) log cur rules q = (log', q', err) -> err = None.
Proof.
  intros A. induction q as [|[o r] q IH]; intros log cur rules log' q' err H; cbn [batch_loop] in H.
  - destruct rules; [congruence|]. rewrite runBatch_batch, A in H. congruence.
  - destruct (opcode_eqb cur o); [eauto|]. rewrite runBatch_batch, A in H. eauto.
Qed.

Definition all_of (id : nat) (es : list entry) : Prop := Forall (fun en => en_id en = id) es.

(** Flush with an adapter that does not fail. *)
Lemma Flush_ok W id sc log : accepts W id -> sc_adapter sc = AExt id ->
  exists es, Flush W sc log = (with_q sc [] 0, log ++ es, None) /\ all_of id es /\ accepted id es = sc_q sc /\
    Forall (fun en => en_err en = None /\ changes (en_call en) <> []) es.
Proof.
  intros [K A] Ha. unfold Flush. rewrite Ha. cbn [kind_of]. destruct (w_kind W id) eqn:Ek; [| |congruence].
  - destruct (batchFlush W (AExt id) log (sc_q sc)) as [[log' q'] err] eqn:Eb.
    assert (err = None) as ->.
    { unfold batchFlush in Eb. destruct (sc_q sc) as [|[o r] q]; eapply batch_ok in Eb; eauto. }
    apply batchFlush_spec in Eb as [gs [[R1 [R2 R3]] [-> ->]]].
    exists (map (fun g => mkEntry id (batch g) None) gs). split; [reflexivity|]. split; [apply Forall_map, Forall_forall; reflexivity|].
    split; [now rewrite accepted_batches|]. apply Forall_map. eapply Forall_impl; [|exact R2]. intros [o rs] Hg. cbn [snd] in Hg. cbn [en_err en_call].
    split; [reflexivity|]. rewrite changes_batch. destruct rs; [congruence|discriminate].
  - rewrite flush_ok by exact A. eexists. split; [reflexivity|]. split; [apply Forall_map, Forall_forall; reflexivity|].
    split; [apply accepted_singles|]. apply Forall_map, Forall_forall. intros op _. cbn [en_err en_call]. rewrite changes_single. split; [reflexivity|discriminate].
Qed.

(** ** Delivery of events *)
Fixpoint feed (W : world) (sc : controller) (log : list entry) (ops : list operation) : outcome (controller * list entry) :=
  match ops with
  | [] => Val (sc, log)
  | op :: ops' => let! (sc, log) := addOp W sc log op in feed W sc log ops'
  end.

Lemma put_nth e i sc sc0 : nth_error (f_scs e) i = Some sc0 -> put_sc e i sc = set_scs e (upd (f_scs e) i sc).
Proof. intros H. unfold put_sc. now rewrite H. Qed.

Lemma deliver_none W e evs : f_em e = [] -> deliver W e evs = Val e.
Proof. intros H. induction evs as [|ev evs IH]; cbn; [reflexivity|]. rewrite H. exact IH. Qed.

Lemma deliver_one W e i : f_em e = [i] -> forall sc, nth_error (f_scs e) i = Some sc -> forall evs,
  deliver W e evs = let! (sc', log') := feed W sc (f_log e) (map op_of evs) in Val (set_log (set_scs e (upd (f_scs e) i sc')) log').
Proof.
  intros Hem sc Hsc evs. revert e sc Hem Hsc. induction evs as [|ev evs IH]; intros e sc Hem Hsc; cbn [deliver map feed obind].
  - destruct e as [m mid em scs c a l]. unfold set_log, set_scs. cbn in *. now rewrite (upd_same _ _ _ Hsc).
  - rewrite Hem. cbn [deliver_to]. rewrite Hsc. destruct (addOp W sc (f_log e) (op_of ev)) as [[sc1 log1]|]; [|reflexivity]. cbn [obind].
    rewrite (put_nth _ _ _ _ Hsc). set (e1 := set_log (set_scs e (upd (f_scs e) i sc1)) log1).
    assert (H1 : nth_error (f_scs e1) i = Some sc1).
    { cbn. rewrite (nth_upd _ _ _ _ Hsc), Nat.eqb_refl. reflexivity. }
    rewrite (IH e1 sc1 Hem H1). destruct (feed W sc1 (f_log e1) (map op_of evs)) as [[sc2 log2]|] eqn:Ef; cbn in Ef |- *; rewrite Ef; [|reflexivity].
    cbn. unfold e1, set_log, set_scs. cbn. now rewrite (upd_upd _ _ _ _ _ Hsc).
Qed.

(** Everything fed to a controller of a willing adapter is accepted by it or
    still queued, in order. *)
Lemma addOp_ok W id sc log op : accepts W id -> sc_adapter sc = AExt id ->
  exists sc' es, addOp W sc log op = Val (sc', log ++ es) /\ same_set_up sc sc' /\ sc_autosave sc' = sc_autosave sc /\ all_of id es /\
    accepted id es ++ sc_q sc' = sc_q sc ++ [op] /\ Forall (fun en => en_err en = None /\ changes (en_call en) <> []) es.
Proof.
  intros A Ha. unfold addOp. cbn [sc_autosave with_q].
  assert (B : forall sc1 : controller, same_set_up sc sc1 -> sc_autosave sc1 = sc_autosave sc -> sc_q sc1 = sc_q sc ++ [op] ->
    exists sc' es, Val (sc1, log) = Val (sc', log ++ es) /\ same_set_up sc sc' /\ sc_autosave sc' = sc_autosave sc /\ all_of id es /\
    accepted id es ++ sc_q sc' = sc_q sc ++ [op] /\ Forall (fun en => en_err en = None /\ changes (en_call en) <> []) es).
  { intros sc1 S1 S2 S3. exists sc1, []. rewrite app_nil_r. split; [reflexivity|]. split; [exact S1|]. split; [exact S2|].
    split; [constructor|]. split; [exact S3|constructor]. }
  destruct (sc_autosave sc) eqn:Eauto.
  - cbn [sc_wait with_q sc_q].
    destruct (sc_wait sc - 1 <=? 0)%Z.
    + set (sc1 := with_q _ _ _). destruct (Flush_ok W id sc1 log A Ha) as [es [-> [H1 [H2 H3]]]].
      exists (with_q sc1 [] 0), es. split; [reflexivity|]. split; [repeat split|]. split; [exact Eauto|]. split; [exact H1|].
      split; [|exact H3]. cbn. rewrite app_nil_r. exact H2.
    + apply B; [repeat split|exact Eauto|reflexivity].
  - apply B; [repeat split|exact Eauto|reflexivity].
Qed.

Lemma feed_ok W id : accepts W id -> forall ops sc log, sc_adapter sc = AExt id ->
  exists sc' es, feed W sc log ops = Val (sc', log ++ es) /\ same_set_up sc sc' /\ sc_autosave sc' = sc_autosave sc /\ all_of id es /\
    accepted id es ++ sc_q sc' = sc_q sc ++ ops /\ Forall (fun en => en_err en = None /\ changes (en_call en) <> []) es.
Proof.
  intros A. induction ops as [|op ops IH]; intros sc log Ha; cbn [feed].
  - exists sc, []. rewrite !app_nil_r. split; [reflexivity|]. split; [repeat split|]. split; [reflexivity|]. split; [constructor|]. split; [reflexivity|constructor].
  - destruct (addOp_ok W id sc log op A Ha) as [sc1 [es1 [-> [S1 [S2 [A1 [Q1 F1]]]]]]]. cbn [obind].
    destruct (IH sc1 (log ++ es1)) as [sc2 [es2 [-> [T1 [T2 [A2 [Q2 F2]]]]]]]; [destruct S1 as [? [-> ?]]; exact Ha|].
    exists sc2, (es1 ++ es2). rewrite app_assoc. split; [reflexivity|].
    split; [destruct S1 as [S3 [S4 S5]]; unfold same_set_up in *; rewrite S3, S4, S5 in T1; exact T1|]. split; [congruence|]. split; [apply Forall_app; auto|].
    split; [|apply Forall_app; auto]. rewrite accepted_app, <- app_assoc, Q2, app_assoc, Q1, <- app_assoc. reflexivity.
Qed.

(** ** The reachable states of an enforcer *)
Record Wf (e : enforcer) : Prop := mkWf {
  wf_cur : exists sc, cur e = Some sc /\ sc_adapter sc = f_adapter e /\ sc_em sc <= f_mid e /\
             f_em e = (if sc_listening sc && Nat.eqb (sc_em sc) (f_mid e) then [f_sc e] else [])
}.

Lemma filter_self i : filter (fun j => negb (Nat.eqb j i)) [i] = [].
Proof. cbn. now rewrite Nat.eqb_refl. Qed.

Lemma cur_put e sc sc0 : cur e = Some sc0 -> cur (set_scs e (upd (f_scs e) (f_sc e) sc)) = Some sc.
Proof. intros H. unfold cur in *. cbn. now rewrite (nth_upd _ _ _ _ H), Nat.eqb_refl. Qed.

Lemma Enable_spec e sc : cur e = Some sc ->
  Enable e (f_sc e) =
    if sc_listening sc then e
    else set_em (set_scs e (upd (f_scs e) (f_sc e) (listen sc true))) (if Nat.eqb (sc_em sc) (f_mid e) then f_em e ++ [f_sc e] else f_em e).
Proof.
  intros H. unfold Enable. unfold cur in H. rewrite H. destruct (sc_listening sc); [reflexivity|]. rewrite (put_nth _ _ _ _ H). cbn [f_mid set_scs f_em].
  destruct (Nat.eqb (sc_em sc) (f_mid e)); reflexivity.
Qed.
Lemma Disable_spec e sc : cur e = Some sc ->
  Disable e (f_sc e) =
    set_em (set_scs e (upd (f_scs e) (f_sc e) (listen sc false))) (if Nat.eqb (sc_em sc) (f_mid e) then filter (fun j => negb (Nat.eqb j (f_sc e))) (f_em e) else f_em e).
Proof.
  intros H. unfold Disable. unfold cur in H. rewrite H. rewrite (put_nth _ _ _ _ H). cbn [f_mid set_scs f_em].
  destruct (Nat.eqb (sc_em sc) (f_mid e)); reflexivity.
Qed.

Lemma wf_enable e : Wf e -> Wf (Enable e (f_sc e)).
Proof.
  intros [[sc [H [Ha [Hm Hem]]]]]. rewrite (Enable_spec e sc H). destruct (sc_listening sc) eqn:El; [constructor; exists sc; rewrite El; auto|].
  constructor. exists (listen sc true). split; [exact (cur_put e _ _ H)|]. split; [exact Ha|]. split; [exact Hm|].
  cbn. rewrite Hem. cbn. destruct (Nat.eqb (sc_em sc) (f_mid e)); reflexivity.
Qed.
Lemma wf_disable e : Wf e -> Wf (Disable e (f_sc e)).
Proof.
  intros [[sc [H [Ha [Hm Hem]]]]]. rewrite (Disable_spec e sc H).
  constructor. exists (listen sc false). split; [exact (cur_put e _ _ H)|]. split; [exact Ha|]. split; [exact Hm|].
  cbn. rewrite Hem. destruct (Nat.eqb (sc_em sc) (f_mid e)); destruct (sc_listening sc); cbn; rewrite ?Nat.eqb_refl; reflexivity.
Qed.

Lemma nth_new {A} (l : list A) x : nth_error (l ++ [x]) (List.length l) = Some x.
Proof. rewrite nth_error_app2 by lia. now rewrite Nat.sub_diag. Qed.
Lemma upd_new {A} (l : list A) x y : upd (l ++ [x]) (List.length l) y = l ++ [y].
Proof.
  unfold upd. rewrite firstn_app, Nat.sub_diag, firstn_O, app_nil_r, firstn_all2 by lia.
  rewrite skipn_all2; [reflexivity|]. rewrite app_length. cbn. lia.
Qed.

(** SetAdapter, from a good state or from the fresh one. *)
Lemma set_adapter_spec e a : Wf e \/ (f_scs e = [] /\ f_em e = []) ->
  exists scs, SetAdapter e a = mkEnf (f_model e) (f_mid e) [List.length scs] (scs ++ [mkSc (autosave e) (f_mid e) a [] 0 true]) (List.length scs) a (f_log e) /\
    List.length scs = List.length (f_scs e).
Proof.
  intros H. unfold SetAdapter. destruct H as [[[sc [H [Ha [Hm Hem]]]]]|[Hs Hem]].
  - change (nth_error (f_scs e) (f_sc e)) with (cur e). unfold autosave. rewrite H. rewrite (Disable_spec e sc H).
    set (e1 := set_em _ _). assert (E1 : f_em e1 = []).
    { cbn. rewrite Hem. destruct (Nat.eqb (sc_em sc) (f_mid e)); destruct (sc_listening sc); cbn; rewrite ?Nat.eqb_refl; reflexivity. }
    exists (f_scs e1). split.
    + unfold Enable. cbn [f_scs set_scs]. rewrite nth_new. cbn [sc_listening]. unfold put_sc. cbn [f_scs set_scs]. rewrite nth_new, upd_new.
      cbn [sc_em]. cbn [f_mid set_scs]. rewrite Nat.eqb_refl. cbn [f_em set_scs set_em f_model f_mid f_scs f_log]. rewrite E1. reflexivity.
    + cbn. unfold cur in H. assert (L : f_sc e < List.length (f_scs e)) by (apply nth_error_Some; congruence).
      unfold upd. rewrite app_length. cbn [List.length]. rewrite firstn_length, skipn_length. lia.
  - destruct e as [m mid em scs i a0 l]. cbn [f_scs f_em] in Hs, Hem. subst scs em. unfold autosave, cur. cbn [f_scs f_sc].
    assert (N : nth_error ([] : list controller) i = None) by now destruct i.
    rewrite N. exists []. split; [|reflexivity]. cbn. unfold Enable. cbn. rewrite Nat.eqb_refl. reflexivity.
Qed.

Lemma wf_set_adapter e a : Wf e \/ (f_scs e = [] /\ f_em e = []) -> Wf (SetAdapter e a).
Proof.
  intros H. destruct (set_adapter_spec e a H) as [scs [-> _]]. constructor. eexists. unfold cur. cbn [f_scs f_sc]. rewrite nth_new.
  split; [reflexivity|]. cbn. rewrite Nat.eqb_refl. auto.
Qed.

(** What changing the model's rules does to the storage side. *)
Lemma model_call_spec E W o e c e' x : Wf e -> model_call E W o e c = Val (e', x) ->
  exists sc sc' log', cur e = Some sc /\ mstep E o (f_model e) c = Val (f_model e', x) /\
    e' = mkEnf (f_model e') (f_mid e) (f_em e) (upd (f_scs e) (f_sc e) sc') (f_sc e) (f_adapter e) log' /\
    ((f_em e = [f_sc e] /\ feed W sc (f_log e) (map op_of (x_events x)) = Val (sc', log')) \/ (f_em e = [] /\ sc' = sc /\ log' = f_log e)).
Proof.
  intros [[sc [H [Ha [Hm Hem]]]]] Hc. unfold model_call in Hc. apply obind_val in Hc as [[m x1] [Hs Hc]]. apply obind_val in Hc as [e1 [Hd Hc]].
  injection Hc as <- <-. assert (D : f_em e = [f_sc e] \/ f_em e = []) by (rewrite Hem; destruct (_ && _); auto).
  exists sc. destruct D as [D|D].
  - rewrite (deliver_one W (set_model e m) (f_sc e) D sc H) in Hd. apply obind_val in Hd as [[sc' log'] [Hf Hd]]. injection Hd as <-.
    exists sc', log'. split; [exact H|]. split; [exact Hs|]. split; [reflexivity|]. left. auto.
  - rewrite deliver_none in Hd by exact D. injection Hd as <-. exists sc, (f_log e). split; [exact H|]. split; [exact Hs|].
    split; [unfold cur in H; rewrite (upd_same _ _ _ H); reflexivity|]. right. auto.
Qed.

Lemma addOp_set_up W sc log op sc' log' : addOp W sc log op = Val (sc', log') -> same_set_up sc sc' /\ sc_autosave sc' = sc_autosave sc.
Proof.
  unfold addOp. cbn [sc_autosave with_q]. destruct (sc_autosave sc) eqn:Ea; cbn [sc_wait with_q].
  - destruct (_ <=? 0)%Z; [|intros H; injection H as <- <-; repeat split; exact Ea]. unfold Flush. destruct (match kind_of _ _ with KBatch => _ | KSimple => _ | KNone => _ end) as [[l q] [e|]]; [discriminate|].
    intros H. injection H as <- <-. repeat split. exact Ea.
  - intros H; injection H as <- <-; repeat split; exact Ea.
Qed.
Lemma feed_set_up W ops : forall sc log sc' log', feed W sc log ops = Val (sc', log') -> same_set_up sc sc' /\ sc_autosave sc' = sc_autosave sc.
Proof.
  induction ops as [|op ops IH]; intros sc log sc' log' H; cbn [feed] in H; [injection H as <- <-; repeat split|].
  apply obind_val in H as [[sc1 log1] [H1 H]]. apply addOp_set_up in H1 as [[A1 [A2 A3]] A4]. apply IH in H as [[B1 [B2 B3]] B4].
  unfold same_set_up. rewrite B1, B2, B3, B4. auto.
Qed.

Lemma wf_frame e m scs log sc sc' : Wf e -> cur e = Some sc -> nth_error scs (f_sc e) = Some sc' -> same_set_up sc sc' ->
  Wf (mkEnf m (f_mid e) (f_em e) scs (f_sc e) (f_adapter e) log).
Proof.
  intros [[sc0 [H [Ha [Hm Hem]]]]] H1 H2 [S1 [S2 S3]]. rewrite H1 in H. injection H as <-. constructor. exists sc'. unfold cur. cbn.
  rewrite S1, S2, S3. auto.
Qed.

Lemma wf_model_call E W o e c e' x : Wf e -> model_call E W o e c = Val (e', x) -> Wf e'.
Proof.
  intros Hw Hc. destruct (model_call_spec E W o e c e' x Hw Hc) as [sc [sc' [log' [H [_ [-> D]]]]]].
  assert (S : same_set_up sc sc').
  { destruct D as [[_ D]|[_ [-> _]]]; [now apply feed_set_up in D as [D _]|repeat split]. }
  apply (wf_frame e (f_model e') _ log' sc sc'); auto. unfold cur in H. now rewrite (nth_upd _ _ _ _ H), Nat.eqb_refl.
Qed.

Lemma wf_rules_loop E W mk rs : forall os e e' err, Wf e -> rules_loop E W os e mk rs = Val (e', err) -> Wf e'.
Proof.
  induction rs as [|r rs IH]; intros os e e' err Hw H; cbn [rules_loop] in H; [injection H as <- <-; exact Hw|].
  apply obind_val in H as [[e1 x] [H1 H]]. apply wf_model_call in H1; [|exact Hw]. destruct (x_err x); [injection H as <- <-; exact H1|eauto].
Qed.

Lemma wf_put e sc sc' : Wf e -> cur e = Some sc -> same_set_up sc sc' -> Wf (put_sc e (f_sc e) sc').
Proof.
  intros Hw H S. rewrite (put_nth _ _ _ _ H). unfold set_scs. eapply wf_frame; eauto. unfold cur in H. now rewrite (nth_upd _ _ _ _ H), Nat.eqb_refl.
Qed.
Lemma wf_log e l : Wf e -> Wf (set_log e l).
Proof. intros [H]. constructor. exact H. Qed.

Lemma Flush_set_up W sc log sc' log' err : Flush W sc log = (sc', log', err) -> same_set_up sc sc' /\ sc_autosave sc' = sc_autosave sc.
Proof.
  unfold Flush. destruct (match kind_of _ _ with KBatch => _ | KSimple => _ | KNone => _ end) as [[l q] e].
  intros H. injection H as <- <- <-. repeat split.
Qed.

Lemma loop_sc E W mk rs : forall os e e' err, Wf e -> rules_loop E W os e mk rs = Val (e', err) ->
  f_sc e' = f_sc e /\ f_mid e' = f_mid e /\ f_em e' = f_em e /\ f_adapter e' = f_adapter e.
Proof.
  induction rs as [|r rs IH]; intros os e e' err Hw H; cbn [rules_loop] in H; [injection H as <- <-; auto|].
  apply obind_val in H as [[e1 x] [H1 H]]. pose proof (wf_model_call _ _ _ _ _ _ _ Hw H1) as W1.
  destruct (model_call_spec _ _ _ _ _ _ _ Hw H1) as [sc [sc' [log' [_ [_ [E1 _]]]]]].
  assert (S : f_sc e1 = f_sc e /\ f_mid e1 = f_mid e /\ f_em e1 = f_em e /\ f_adapter e1 = f_adapter e) by (rewrite E1; auto).
  destruct (x_err x); [injection H as <- <-; exact S|]. apply IH in H; [|exact W1]. destruct S as [<- [<- [<- <-]]]. exact H.
Qed.

Lemma wf_step E W os e c e' r : Wf e -> estep E W os e c = Val (e', r) -> Wf e'.
Proof.
  intros Hw H. pose proof (wf_cur e Hw) as [sc [Hc [Ha [Hm Hem]]]].
  assert (R : forall mk rs err, rules_call E W os e mk rs = Val (e', err) -> Wf e').
  { intros mk rs err Hr. unfold rules_call in Hr. change (nth_error (f_scs e) (f_sc e)) with (cur e) in Hr. rewrite Hc in Hr.
    destruct (sc_autosave sc); [|eapply wf_rules_loop; eauto].
    apply obind_val in Hr as [[e1 err1] [H1 Hr]]. assert (W1 : Wf e1).
    { eapply wf_rules_loop; [|exact H1]. eapply wf_put; eauto. repeat split. }
    change (nth_error (f_scs e1) (f_sc e1)) with (cur e1) in Hr. destruct (cur e1) as [sc1|] eqn:Hc1; [|discriminate].
    destruct (Flush W (set_autosave sc1 true) (f_log e1)) as [[sc2 log2] [x|]] eqn:Ef; [discriminate|]. injection Hr as <- <-.
    apply Flush_set_up in Ef as [S _]. apply wf_log. eapply wf_put; eauto. }
  destruct c as [c|rs|rs| | | |a|op|i|m]; cbn [estep] in H.
  - apply obind_val in H as [[e1 x] [H1 H]]. injection H as <- <-. eapply wf_model_call; eauto.
  - apply obind_val in H as [[e1 err] [H1 H]]. injection H as <- <-. eauto.
  - apply obind_val in H as [[e1 err] [H1 H]]. injection H as <- <-. eauto.
  - change (nth_error (f_scs e) (f_sc e)) with (cur e) in H. rewrite Hc in H. destruct (Flush W sc (f_log e)) as [[sc1 log1] err] eqn:Ef.
    injection H as <- <-. apply Flush_set_up in Ef as [S _]. apply wf_log. eapply wf_put; eauto.
  - apply obind_val in H as [[e1 err] [H1 H]]. injection H as <- <-. unfold SavePolicy in H1.
    destruct (f_adapter e); [discriminate| |]; destruct (ask _ _ _ _) as [l x]; injection H1 as <- <-; now apply wf_log.
  - apply obind_val in H as [[e1 err] [H1 H]]. injection H as <- <-. unfold LoadPolicy in H1.
    change (nth_error (f_scs e) (f_sc e)) with (cur e) in H1. rewrite Hc in H1. cbv zeta in H1.
    set (e0 := if sc_listening sc then Disable e (f_sc e) else e) in *.
    assert (W0 : Wf e0) by (unfold e0; destruct (sc_listening sc); [now apply wf_disable|exact Hw]).
    apply obind_val in H1 as [[e2 err2] [H1 H2]]. injection H2 as <- <-.
    assert (W2 : Wf e2).
    { destruct (f_adapter e0); [discriminate|injection H1 as <- <-; exact W0|].
      unfold load_from in H1. apply obind_val in H1 as [[e3 err3] [H3 H1]]. injection H1 as <- <-.
      eapply wf_rules_loop; [|exact H3]. now apply wf_log. }
    destruct (sc_listening sc); [now apply wf_enable|exact W2].
  - injection H as <- <-. apply wf_set_adapter. now left.
  - injection H as <- <-. destruct op as [b|[|]]; cbn [SetOption]; [|now apply wf_enable|now apply wf_disable].
    change (nth_error (f_scs e) (f_sc e)) with (cur e). rewrite Hc. eapply wf_put; eauto. repeat split.
  - change (nth_error (f_scs e) (f_sc e)) with (cur e) in H. rewrite Hc in H. injection H as <- <-. eapply wf_put; eauto. repeat split.
  - injection H as <- <-. constructor. exists sc. split; [exact Hc|]. split; [exact Ha|]. split; [cbn; lia|]. cbn.
    destruct (Nat.eqb_spec (sc_em sc) (S (f_mid e))); [lia|]. now rewrite andb_false_r.
Qed.

Lemma wf_exec E W h : forall e e' rs, Wf e -> eexec E W e h = Val (e', rs) -> Wf e'.
Proof.
  induction h as [|[os c] h IH]; intros e e' rs Hw H; cbn [eexec] in H; [injection H as <- <-; exact Hw|].
  apply obind_val in H as [[e1 r1] [H1 H]]. apply obind_val in H as [[e2 rs2] [H2 H]]. injection H as <- <-. eapply IH; [|exact H2]. eapply wf_step; eauto.
Qed.

Lemma wf_option e op : Wf e -> Wf (SetOption e op).
Proof.
  intros Hw. pose proof (wf_cur e Hw) as [sc [Hc _]]. destruct op as [b|[|]]; cbn [SetOption]; [|now apply wf_enable|now apply wf_disable].
  change (nth_error (f_scs e) (f_sc e)) with (cur e). rewrite Hc. eapply wf_put; eauto. repeat split.
Qed.
Lemma wf_options opts : forall e, Wf e -> Wf (fold_left SetOption opts e).
Proof. induction opts as [|op opts IH]; intros e H; cbn; [exact H|]. apply IH. now apply wf_option. Qed.

Lemma wf_reachable E W e : reachable_enforcer E W e -> Wf e.
Proof.
  intros [os [m [arg [opts [e0 [h [rs [H0 H]]]]]]]]. eapply wf_exec; [|exact H]. clear H. unfold NewEnforcer in H0. cbv zeta in H0. destruct arg as [path|a|].
  - apply obind_val in H0 as [[e1 err] [H1 H0]]. destruct err; [discriminate|]. injection H0 as <-. apply wf_options, wf_set_adapter. right.
    unfold load_from in H1. apply obind_val in H1 as [[e2 err2] [H1 H2]]. injection H2 as -> _.
    assert (G : forall rs os e e' err, f_scs e = [] /\ f_em e = [] -> rules_loop E W os e CAdd rs = Val (e', err) -> f_scs e' = [] /\ f_em e' = []).
    { clear. induction rs as [|r rs IH]; intros os e e' err He H; cbn [rules_loop] in H; [injection H as <- <-; exact He|].
      apply obind_val in H as [[e1 x] [H1 H]]. unfold model_call in H1. apply obind_val in H1 as [[m y] [_ H1]]. apply obind_val in H1 as [e2 [H2 H1]].
      rewrite deliver_none in H2 by apply He. injection H2 as <-. injection H1 as <- <-. destruct (x_err y); [injection H as <- <-; exact He|].
      eapply IH; [|exact H]. exact He. }
    eapply G; [|exact H1]. auto.
  - injection H0 as <-. apply wf_options, wf_set_adapter. right. auto.
  - injection H0 as <-. apply (wf_options (OptStorage false :: opts)), wf_set_adapter. right. auto.
Qed.
