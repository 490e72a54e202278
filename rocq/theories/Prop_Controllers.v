(** Property C108: several storage controllers on one model. *)
From Verif Require Import GoBase GoBaseP DefsM PolicyM PolicySpec MatcherM RbacM DomainM EvalM ModelM ModelSpec ModelP4 ModelP5
  StorageM StorageSpec StorageP StorageP2 StorageP3 StorageP4 ControllersM ControllersSpec ControllersP Prop_Model Prop_Storage.

(** ** C108: Every storage controller passes on what it was told

    In any state and over any history of calls - on the enforcer, on its model, on
    the controllers it has used and on any number of further ones -, let adapter
    [id] belong to one controller only and not fail; the other adapters may do
    anything that does not end in a panic.  What adapter [id] has accepted, followed
    by what its controller still holds, is what the controller held before followed
    by the changes the model announced while it was listening, in order. *)
Theorem C108_each_controller :
  forall E W i id e h e' rs,
  reachable_controllers E W e -> accepts W id -> i < List.length (f_scs e) -> Forall (fun c => one_model (snd c)) h ->
  kexec E W e h = Val (e', rs) -> sole i id e' ->
  exists hm ops es, khears E W i e h e' hm ops /\ f_log e' = f_log e ++ es /\ accepted id es ++ pending i e' = pending i e ++ ops.
Proof.
  intros E W i id e h e' rs R A L O H S. destruct (each_exec E W i id A h e e' rs (reachable_wf _ _ _ R) L O H S) as (_ & _ & X). exact X.
Qed.
Print Assumptions C108_each_controller.

(** A controller's Flush delivers all it holds, whether or not the enforcer still
    uses it, and nothing of the other controllers. *)
Theorem C108_flush :
  forall E W i id e os sc, accepts W id -> nth_error (f_scs e) i = Some sc -> sc_adapter sc = AExt id ->
  exists e' es, kstep E W os e (KFlush i) = Val (e', mkERes None None) /\ f_log e' = f_log e ++ es /\
    flushed W (AExt id) (pending i e) es /\ accepted id es = pending i e /\ pending i e' = [] /\
    (forall j, j <> i -> nth_error (f_scs e') j = nth_error (f_scs e) j) /\ f_model e' = f_model e /\ f_sc e' = f_sc e.
Proof.
  intros E W i id e os sc A Hi Ha. cbn [kstep]. rewrite Hi. destruct (Flush_ok W id sc (f_log e) A Ha) as [es [F1 [F2 [F3 F4]]]]. rewrite F1.
  destruct (Flush_flushed _ _ _ _ _ F1) as [_ [es2 [L Fl]]]. apply app_inv_head in L. subst es2. rewrite Ha in Fl.
  exists (set_log (put_sc e i (with_q sc [] 0)) (f_log e ++ es)), es. split; [reflexivity|]. rewrite (put_nth _ _ _ _ Hi). cbn [f_log set_log f_model f_sc set_scs f_scs].
  split; [reflexivity|]. unfold pending. cbn [f_scs set_log set_scs]. rewrite Hi, (nth_upd _ _ _ _ Hi), Nat.eqb_refl. split; [exact Fl|]. split; [exact F3|]. split; [reflexivity|]. split; [|auto].
  intros j N. rewrite (nth_upd _ _ _ _ Hi). apply Nat.eqb_neq in N. now rewrite N.
Qed.
Print Assumptions C108_flush.

(** SetAdapter loses nothing: the changes the old controller held at that time are
    held by it or accepted by the old adapter at any later time, each once and in
    order, unless the user enables the old controller again - and nothing else
    reaches the old adapter. *)
Theorem C108_replaced :
  forall E W id e a os0 r h e1 e2 rs,
  reachable_controllers E W e -> accepts W id -> kstep E W os0 e (KEnf (ESetAdapter a)) = Val (e1, r) ->
  Forall (fun c => one_model (snd c) /\ snd c <> KEnable (f_sc e)) h -> kexec E W e1 h = Val (e2, rs) -> sole (f_sc e) id e2 ->
  exists es, f_log e2 = f_log e ++ es /\ accepted id es ++ pending (f_sc e) e2 = pending (f_sc e) e.
Proof.
  intros E W id e a os0 r h e1 e2 rs R A H1 O H2 S. pose proof (reachable_wf _ _ _ R) as K. pose proof (k_cur _ K) as L.
  cbn [kstep estep] in H1. injection H1 as <- <-. destruct (set_adapter_ok e a (k_e _ K)) as (K1 & M1 & L1 & S1 & J1 & So). cbv zeta in *.
  assert (L' : f_sc e < List.length (f_scs (SetAdapter e a))) by (pose proof (k_cur _ K1); lia).
  assert (O' : Forall (fun c => one_model (snd c)) h) by (eapply Forall_impl; [|exact O]; intros x [X _]; exact X).
  destruct (each_exec E W (f_sc e) id A h _ e2 rs K1 L' O' H2 S) as (_ & _ & hm & ops & es & Hh & Lg & Q).
  assert (D : hearing (f_sc e) (SetAdapter e a) = false).
  { rewrite set_adapter_new. destruct (nth_error (f_scs e) (f_sc e)) as [sc|] eqn:Ec; [|apply nth_error_None in Ec; lia].
    destruct (disable_spec e (f_sc e) (k_e _ K)) as (C & D & Qh). set (b := sc_autosave sc). destruct (new_spec (Disable e (f_sc e)) a b D) as (_ & _ & _ & _ & _ & _ & J2 & _). cbv zeta in *.
    change (hearing (f_sc e) (with_cur ?x ?y ?z)) with (hearing (f_sc e) x). rewrite (proj1 (J2 (f_sc e) ltac:(rewrite (calm_length _ _ C); exact L))), Qh, Nat.eqb_refl. reflexivity. }
  pose proof (deaf_exec E W (f_sc e) h _ e2 hm ops K1 L' O D ltac:(lia) Hh) as ->. rewrite app_nil_r in Q. exists es. rewrite Lg, L1. split; [reflexivity|]. rewrite Q. apply (J1 (f_sc e) L).
Qed.
Print Assumptions C108_replaced.

(** ** Replicas

    A controller that listens all the time keeps its storage in step with the model:
    if the storage held the model's rules up to the pending changes, it does so
    after any history - rule changes, loads from another adapter, flushes and
    switches of the other controllers, new controllers, and SetAdapter or
    LoadPolicy if the controller is not the enforcer's. *)
Theorem C108_replica_partial :
  forall E W i id e hs m0rs s0 o h e' rs,
  reachable_controllers E W e -> accepts W id -> i < List.length (f_scs e) -> sole i id e' -> hearing i e = true ->
  good_m hs -> tame hs -> mexec E (NewModel E) hs = Val (f_model e, m0rs) -> good_orders o ->
  (forall rl, fold_left apply_op (pending i e) s0 rl = true <-> In rl (model_rules o (f_model e))) ->
  Forall (fun c => keeps_hearing i (f_sc e) (snd c)) h -> Forall (fun c => k_plain W hs (snd c)) h -> Forall (fun c => forall n, good_orders (fst c n)) h ->
  kexec E W e h = Val (e', rs) ->
  exists es, f_log e' = f_log e ++ es /\
    forall o' rl, good_orders o' -> (fold_left apply_op (pending i e') (stored id s0 es) rl = true <-> In rl (model_rules o' (f_model e'))).
Proof.
  intros E W i id e hs m0rs s0 o h e' rs R A L S Hh Go T H0 Ho S0 K P O H.
  assert (F0 : k_follows i id s0 [] e hs) by (intros rl; cbn [stored fold_left]; rewrite S0; eapply model_rules_present; eauto).
  destruct (replica_exec E W i id hs s0 (f_sc e) A h e e' rs hs [] m0rs) as (hm & xs & es & M1 & M2 & M3 & M4 & M5 & M6); auto; [eapply reachable_wf; eauto|].
  exists es. split; [exact M5|]. intros o' rl Ho'. rewrite (model_rules_present E (hs ++ hm) o' (f_model e') (m0rs ++ xs)); auto. apply mexec_app. eauto 8.
Qed.
Print Assumptions C108_replica_partial.

(** Two such controllers with nothing pending: two storages with the same rules. *)
Theorem C108_replicas_agree_partial :
  forall E W i j id id2 e hs m0rs s0 s2 o h e' rs,
  reachable_controllers E W e -> accepts W id -> accepts W id2 -> i < List.length (f_scs e) -> j < List.length (f_scs e) ->
  sole i id e' -> sole j id2 e' -> hearing i e = true -> hearing j e = true ->
  good_m hs -> tame hs -> mexec E (NewModel E) hs = Val (f_model e, m0rs) -> good_orders o ->
  (forall rl, fold_left apply_op (pending i e) s0 rl = true <-> In rl (model_rules o (f_model e))) ->
  (forall rl, fold_left apply_op (pending j e) s2 rl = true <-> In rl (model_rules o (f_model e))) ->
  Forall (fun c => keeps_hearing i (f_sc e) (snd c) /\ keeps_hearing j (f_sc e) (snd c)) h -> Forall (fun c => k_plain W hs (snd c)) h ->
  Forall (fun c => forall n, good_orders (fst c n)) h -> kexec E W e h = Val (e', rs) -> pending i e' = [] -> pending j e' = [] ->
  exists es, f_log e' = f_log e ++ es /\ (forall rl, stored id s0 es rl = stored id2 s2 es rl) /\
    forall o' rl, good_orders o' -> (stored id s0 es rl = true <-> In rl (model_rules o' (f_model e'))).
Proof.
  intros E W i j id id2 e hs m0rs s0 s2 o h e' rs R A A2 L L2 S S2 Hh Hh2 Go T H0 Ho S0 S02 K P O H Pi Pj.
  destruct (C108_replica_partial E W i id e hs m0rs s0 o h e' rs) as (es & E1 & X1); auto; [eapply Forall_impl; [|exact K]; intros x [X Y]; assumption|].
  destruct (C108_replica_partial E W j id2 e hs m0rs s2 o h e' rs) as (es2 & E2 & X2); auto; [eapply Forall_impl; [|exact K]; intros x [X Y]; assumption|].
  rewrite E1 in E2. apply app_inv_head in E2. subst es2. rewrite Pi in X1. rewrite Pj in X2. cbn [fold_left] in *. exists es. split; [exact E1|]. split; [|exact X1].
  intros rl. specialize (X1 o rl Ho). specialize (X2 o rl Ho). destruct (stored id s0 es rl), (stored id2 s2 es rl); try reflexivity; [symmetry; apply X2, X1; reflexivity|apply X1, X2; reflexivity].
Qed.
Print Assumptions C108_replicas_agree_partial.

(** When a change is passed on: a controller that was flushed and given the settings
    of EnableAutosave or DisableAutosave ([b]) and AddWait ([n]) holds the changes of
    the model; with autosave it passes them on with the [n]-th one and each further
    one at once, without autosave it holds them all. *)
Theorem C108_timing :
  forall E W i id e os1 os2 os3 b n (h : list ((nat -> orders) * mcall)) e' rs,
  reachable_controllers E W e -> accepts W id -> sole i id e -> hearing i e = true ->
  kexec E W e ([(os1, KFlush i); (os2, KAutosave i b); (os3, KWait i n)] ++ map (fun c => (fst c, KEnf (EModel (snd c)))) h) = Val (e', rs) ->
  exists xs, mexec E (f_model e) (map (fun c => (fst c 0, snd c)) h) = Val (f_model e', xs) /\
    pending i e' = if b && (n <=? Z.of_nat (List.length (announced xs)))%Z then [] else announced xs.
Proof.
  intros E W i id e os1 os2 os3 b n h e' rs R A [[sc [S1 S2]] _] Hh H. pose proof (reachable_wf _ _ _ R) as K.
  cbn [app kexec kstep] in H. rewrite S1 in H. destruct (Flush_ok W id sc (f_log e) A S2) as (es & F & _). rewrite F in H. cbn [obind] in H.
  set (sc1 := with_q sc [] 0) in H. set (e1 := set_log (put_sc e i sc1) (f_log e ++ es)) in H.
  assert (N1 : nth_error (f_scs e1) i = Some sc1) by (unfold e1; cbn [set_log f_scs]; rewrite (put_nth _ _ _ _ S1); cbn [f_scs set_scs]; now rewrite (nth_upd _ _ _ _ S1), Nat.eqb_refl).
  rewrite N1 in H. cbn [obind] in H. set (sc2 := set_autosave sc1 b) in H. set (e2 := put_sc e1 i sc2) in H.
  assert (N2 : nth_error (f_scs e2) i = Some sc2) by (unfold e2; rewrite (put_nth _ _ _ _ N1); cbn [f_scs set_scs]; now rewrite (nth_upd _ _ _ _ N1), Nat.eqb_refl).
  rewrite N2 in H. cbn [obind] in H. set (sc3 := AddWait sc2 n) in H. set (e3 := put_sc e2 i sc3) in H.
  assert (N3 : nth_error (f_scs e3) i = Some sc3) by (unfold e3; rewrite (put_nth _ _ _ _ N2); cbn [f_scs set_scs]; now rewrite (nth_upd _ _ _ _ N2), Nat.eqb_refl).
  assert (Fr : frame e e3).
  { eapply frame_trans; [eapply frame_trans; [eapply frame_trans; [exact (frame_put e i sc sc1 S1 ltac:(repeat split))|apply frame_log]|exact (frame_put e1 i sc1 sc2 N1 ltac:(repeat split))]|].
    exact (frame_put e2 i sc2 sc3 N2 ltac:(repeat split)). }
  assert (M3 : f_model e3 = f_model e) by (unfold e3, e2, e1; rewrite (proj1 (put_model _ _ _)), (proj1 (put_model _ _ _)); cbn [set_log f_model]; apply put_model).
  assert (T : timed_at i b n id [] e3).
  { exists sc3. split; [exact N3|]. split; [reflexivity|]. split; [exact S2|]. destruct b; [|reflexivity]. cbn [sc3 sc2 sc1 AddWait set_autosave with_q sc_wait sc_q List.length].
    destruct (Z.lt_ge_cases 0 n); [left|right]; (split; [lia|split; [reflexivity|lia]]). }
  destruct (kexec E W e3 (map (fun c => (fst c, KEnf (EModel (snd c)))) h)) as [[e4 rs4]|] eqn:X; [|discriminate H]. cbn [obind] in H. injection H as <- _.
  destruct (timed_exec E W id i b n A h e3 e4 rs4 [] (frame_wf _ _ Fr K) ltac:(now rewrite (frame_hearing _ _ i Fr)) T X) as (xs & Mx & sc4 & N4 & T4). rewrite M3 in Mx.
  exists xs. split; [exact Mx|]. unfold pending. rewrite N4. destruct T4 as (_ & _ & T4). cbn [app] in T4. destruct b; cbn [andb]; [|exact T4].
  destruct T4 as [(X1 & X2 & X3)|(X1 & X2 & X3)]; destruct (Z.leb_spec n (Z.of_nat (List.length (announced xs)))); try lia; assumption.
Qed.
Print Assumptions C108_timing.

(** ** Examples *)
Definition kx_end (o : outcome (enforcer * list eresult)) : enforcer := match o with Val (e, _) => e | Panic => mkEnf ex_m 0 [] [] 0 ANil [] end.
Definition kx_run (W : world) (arg : aarg) (opts : list eoption) (h : list kcall) : enforcer := kx_end (kexec ex_env W (ex_new W arg opts) (map (pair ex_os) h)).
Definition kx_ok (W : world) (arg : aarg) (opts : list eoption) (h : list kcall) : bool :=
  match NewEnforcer ex_env W ex_os ex_m arg opts with
  | Val (inl e) => match kexec ex_env W e (map (pair ex_os) h) with Val _ => true | Panic => false end
  | _ => false
  end.
Lemma kx_reachable W arg opts h : kx_ok W arg opts h = true -> reachable_controllers ex_env W (kx_run W arg opts h).
Proof.
  unfold kx_ok, kx_run, ex_new. destruct (NewEnforcer ex_env W ex_os ex_m arg opts) as [[e0|]|] eqn:N; try discriminate.
  destruct (kexec ex_env W e0 (map (pair ex_os) h)) as [[e rs]|] eqn:X; [|discriminate]. intros _. exists ex_os, ex_m, arg, opts, e0, (map (pair ex_os) h), rs. auto.
Qed.

(** An enforcer with a batch adapter (1) and a second controller with a simple one (0). *)
Definition kx_start : enforcer := kx_run ex_w (ArgAdapter (AExt 1)) [] [KNew (AExt 0) true].
(** Changes reach both storages; then the enforcer loads from a third adapter. *)
Definition kx_calls : list kcall :=
  [KEnf (EModel (CAdd ["p"; "a"; "b"; "c"])); KEnf (EAddRules [["p"; "u"; "v"; "w"]; ["g"; "x"; "y"]]); KEnf EFlush; KEnf (EModel (CRemove ["p"; "a"; "b"; "c"]));
   KEnf (ESetAdapter (AExt 5)); KEnf (EModel (CAdd ["p"; "q"; "r"; "s"])); KFlush 0; KEnf ELoad]%string.
Definition kx_final : enforcer := kx_end (kexec ex_env ex_w kx_start (map (pair ex_os) kx_calls)).

Lemma kx_exec W e h : match kexec ex_env W e h with Val _ => true | Panic => false end = true -> exists rs, kexec ex_env W e h = Val (kx_end (kexec ex_env W e h), rs).
Proof. destruct (kexec ex_env W e h) as [[e' rs]|]; [|discriminate]. intros _. exists rs. reflexivity. Qed.
Lemma kx_sole e : map sc_adapter (f_scs e) = [AExt 1; AExt 0; AExt 5] -> forall i id, nth_error [AExt 1; AExt 0; AExt 5] i = Some (AExt id) -> (i = 0 \/ i = 1) -> sole i id e.
Proof.
  intros M i id N D. assert (Q : forall j sc, nth_error (f_scs e) j = Some sc -> nth_error [AExt 1; AExt 0; AExt 5] j = Some (sc_adapter sc)) by (intros j sc Hj; rewrite <- M; now apply map_nth_error).
  split.
  - assert (L : i < List.length (f_scs e)) by (rewrite <- (map_length sc_adapter), M; cbn; lia). destruct (nth_error (f_scs e) i) as [sc|] eqn:Ei; [|apply nth_error_None in Ei; lia].
    exists sc. split; [reflexivity|]. pose proof (Q i sc Ei). congruence.
  - intros j sc Hj Ha. pose proof (Q j sc Hj) as X. rewrite Ha in X. destruct D as [-> | ->]; cbn in N; injection N as <-; destruct j as [|[|[|j]]]; cbn in X; try reflexivity; try discriminate; destruct j; discriminate.
Qed.
(** The premises of C108 hold for both controllers of the example; controller 1
    hears all changes, also those of LoadPolicy, and passes them on at once,
    controller 0 is replaced in the middle. *)
Example C108_ex :
  reachable_controllers ex_env ex_w kx_start /\ accepts ex_w 0 /\ accepts ex_w 1 /\ List.length (f_scs kx_start) = 2 /\
  hearing 0 kx_start = true /\ hearing 1 kx_start = true /\ f_sc kx_start = 0 /\
  Forall (fun c => one_model (snd c) /\ keeps_hearing 1 (f_sc kx_start) (snd c)) (map (pair ex_os) kx_calls) /\
  (exists rs, kexec ex_env ex_w kx_start (map (pair ex_os) kx_calls) = Val (kx_final, rs)) /\ sole 1 0 kx_final /\ sole 0 1 kx_final /\
  pending 1 kx_final = [] /\ pending 0 kx_final = [] /\
  accepted 0 (f_log kx_final) = [(OpAdd, ["p"; "a"; "b"; "c"]); (OpAdd, ["p"; "u"; "v"; "w"]); (OpAdd, ["g"; "x"; "y"]); (OpRemove, ["p"; "a"; "b"; "c"]);
     (OpAdd, ["p"; "q"; "r"; "s"]); (OpAdd, ["p"; "admin"; "data1"; "read"]); (OpAdd, ["g"; "alice"; "admin"])]%string /\
  accepted 1 (f_log kx_final) = [(OpAdd, ["p"; "a"; "b"; "c"]); (OpAdd, ["p"; "u"; "v"; "w"]); (OpAdd, ["g"; "x"; "y"]); (OpRemove, ["p"; "a"; "b"; "c"])]%string.
Proof.
  split; [apply kx_reachable; vm_compute; reflexivity|]. split; [split; [discriminate|reflexivity]|]. split; [split; [discriminate|reflexivity]|].
  assert (Sc : f_sc kx_start = 0) by (vm_compute; reflexivity).
  do 4 (split; [vm_compute; reflexivity|]). split; [rewrite Sc; repeat constructor; cbn; lia|]. split.
  { apply kx_exec. vm_compute. reflexivity. }
  assert (M : map sc_adapter (f_scs kx_final) = [AExt 1; AExt 0; AExt 5]) by (vm_compute; reflexivity).
  split; [apply (kx_sole kx_final M 1 0 eq_refl); auto|]. split; [apply (kx_sole kx_final M 0 1 eq_refl); auto|]. repeat split; vm_compute; reflexivity.
Qed.
(** So do the premises about the model and the rules; at the end controller 1's
    adapter holds the model's rules. *)
Example C108_ex_replica :
  (exists rs, mexec ex_env (NewModel ex_env) ex_setup = Val (f_model kx_start, rs)) /\ good_m ex_setup /\ tame ex_setup /\
  pending 1 kx_start = [] /\ model_rules ex_o (f_model kx_start) = [] /\ Forall (fun c => k_plain ex_w ex_setup (snd c)) (map (pair ex_os) kx_calls) /\
  model_rules ex_o (f_model kx_final) = [["p"; "u"; "v"; "w"]; ["p"; "q"; "r"; "s"]; ["p"; "admin"; "data1"; "read"]; ["g"; "x"; "y"]; ["g"; "alice"; "admin"]]%string /\
  map (stored 0 (fun _ => false) (f_log kx_final)) ([["p"; "u"; "v"; "w"]; ["p"; "q"; "r"; "s"]; ["p"; "admin"; "data1"; "read"]; ["g"; "x"; "y"]; ["g"; "alice"; "admin"]; ["p"; "a"; "b"; "c"]]%string)
    = [true; true; true; true; true; false].
Proof.
  split.
  { assert (X : f_model kx_start = ex_m) by reflexivity. rewrite X. unfold ex_m.
    assert (Y : match mexec ex_env (NewModel ex_env) ex_setup with Val _ => true | Panic => false end = true) by (vm_compute; reflexivity). destruct (mexec ex_env (NewModel ex_env) ex_setup) as [[m rs]|]; [eauto|discriminate]. }
  split; [repeat constructor; apply ex_o_good || apply ex_rev_good|]. split; [unfold ex_setup; tame_tac|]. split; [vm_compute; reflexivity|]. split; [vm_compute; reflexivity|].
  split; [|split; vm_compute; reflexivity]. unfold kx_calls. cbn [map]. repeat (apply Forall_cons; [cbn [snd k_plain plain_call]|]); try apply Forall_nil; try exact I.
  all: try (split; [tame_rule_tac|vm_compute; reflexivity]).
  - intros log id. change (fst (w_load ex_w log id)) with ex_load. unfold ex_load. repeat (apply Forall_cons; [split; [tame_rule_tac|vm_compute; reflexivity]|]). apply Forall_nil.
Qed.

(** Autosave after three changes: a change of the model, one that is none, and two
    more. *)
Definition kx_three : list mcall := [CAdd ["p"; "a"; "b"; "c"]; CAdd ["p"; "a"; "b"; "c"]; CRemove ["p"; "a"; "b"; "c"]; CAdd ["g"; "x"; "y"]]%string.
Example C108_ex_timing :
  let run b n k := pending 1 (kx_end (kexec ex_env ex_w kx_start ([(ex_os, KFlush 1); (ex_os, KAutosave 1 b); (ex_os, KWait 1 n)] ++ map (fun c => (ex_os, KEnf (EModel c))) (firstn k kx_three)))) in
  sole 1 0 kx_start /\ hearing 1 kx_start = true /\
  map (run true 3%Z) [1; 2; 3; 4] = [[(OpAdd, ["p"; "a"; "b"; "c"])]; [(OpAdd, ["p"; "a"; "b"; "c"])]; [(OpAdd, ["p"; "a"; "b"; "c"]); (OpRemove, ["p"; "a"; "b"; "c"])]; []]%string /\
  run true 0%Z 1 = [] /\ List.length (run false 0%Z 4) = 3.
Proof.
  intros run. split.
  - assert (M : map sc_adapter (f_scs kx_start) = [AExt 1; AExt 0]) by (vm_compute; reflexivity). revert M. generalize (kx_start). clear. intros e M. split.
    + assert (L : 1 < List.length (f_scs e)) by (rewrite <- (map_length sc_adapter), M; cbn; lia). destruct (nth_error (f_scs e) 1) as [sc|] eqn:Ei; [|apply nth_error_None in Ei; lia].
      exists sc. split; [reflexivity|]. apply (map_nth_error sc_adapter) in Ei. rewrite M in Ei. cbn in Ei. congruence.
    + intros j sc Hj Ha. apply (map_nth_error sc_adapter) in Hj. rewrite M, Ha in Hj. destruct j as [|[|[|j]]]; cbn in Hj; congruence.
  - split; [vm_compute; reflexivity|]. split; [vm_compute; reflexivity|]. split; vm_compute; reflexivity.
Qed.

(** ** What is false

    A controller's failing adapter is everybody's: the enforcer's own adapter takes
    the change, and yet AddRule panics, because a second controller with autosave
    flushes in the same call.  The rule is in the model and in one storage. *)
Definition kx_bad : world := mkWorld ex_kind (fun _ id _ => if Nat.eqb id 0 then Some ErrAdapter else None) (fun _ _ => (ex_load, None)) (fun _ => (ex_load, None)).
Theorem C108_failing_replica_refuted :
  exists e, reachable_controllers ex_env kx_bad e /\ accepts kx_bad 1 /\ f_adapter e = AExt 1 /\ hearing 0 e = true /\ f_sc e = 0 /\
    (exists e' r, kstep ex_env kx_bad ex_os e (KDisable 1) = Val (e', r) /\ exists e'' r', kstep ex_env kx_bad ex_os e' (KEnf (EModel (CAdd ["p"; "a"; "b"; "c"]%string))) = Val (e'', r')) /\
    kstep ex_env kx_bad ex_os e (KEnf (EModel (CAdd ["p"; "a"; "b"; "c"]%string))) = Panic.
Proof.
  exists (kx_run kx_bad (ArgAdapter (AExt 1)) [OptAutosave true] [KNew (AExt 0) true]). split; [apply kx_reachable; vm_compute; reflexivity|]. split; [split; [discriminate|reflexivity]|].
  split; [vm_compute; reflexivity|]. split; [vm_compute; reflexivity|]. split; [vm_compute; reflexivity|]. split; [|vm_compute; reflexivity].
  eexists _, _. split; [reflexivity|].
  assert (Y : match kstep ex_env kx_bad ex_os (Disable (kx_run kx_bad (ArgAdapter (AExt 1)) [OptAutosave true] [KNew (AExt 0) true]) 1) (KEnf (EModel (CAdd ["p"; "a"; "b"; "c"]%string))) with Val _ => true | Panic => false end = true) by (vm_compute; reflexivity).
  destruct (kstep _ _ _ _ _) as [[e' r]|]; [eauto|discriminate].
Qed.
Print Assumptions C108_failing_replica_refuted.

(** Two controllers with one adapter ask it for every change twice. *)
Theorem C108_shared_adapter_refuted :
  exists e e' r, reachable_controllers ex_env ex_w e /\ accepts ex_w 0 /\ f_log e = [] /\ pending 0 e = [] /\ pending 1 e = [] /\
    kstep ex_env ex_w ex_os e (KEnf (EModel (CAdd ["p"; "a"; "b"; "c"]%string))) = Val (e', r) /\ pending 0 e' = [] /\ pending 1 e' = [] /\
    accepted 0 (f_log e') = [(OpAdd, ["p"; "a"; "b"; "c"]); (OpAdd, ["p"; "a"; "b"; "c"])]%string.
Proof.
  set (e := kx_run ex_w (ArgAdapter (AExt 0)) [OptAutosave true] [KNew (AExt 0) true]).
  assert (Y : match kstep ex_env ex_w ex_os e (KEnf (EModel (CAdd ["p"; "a"; "b"; "c"]%string))) with Val (e', _) => (pending 0 e', pending 1 e', accepted 0 (f_log e')) | Panic => ([], [], []) end
     = ([], [], [(OpAdd, ["p"; "a"; "b"; "c"]); (OpAdd, ["p"; "a"; "b"; "c"])]%string)) by (vm_compute; reflexivity).
  destruct (kstep ex_env ex_w ex_os e (KEnf (EModel (CAdd ["p"; "a"; "b"; "c"]%string)))) as [[e' r]|] eqn:H; [|discriminate]. injection Y as Y1 Y2 Y3.
  exists e, e', r. split; [apply kx_reachable; vm_compute; reflexivity|]. split; [split; [discriminate|reflexivity]|]. do 3 (split; [vm_compute; reflexivity|]). auto.
Qed.
Print Assumptions C108_shared_adapter_refuted.
