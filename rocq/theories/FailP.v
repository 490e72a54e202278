(** Lemmas about programs that recover from storage failures. *)
From Verif Require Import GoBase GoBaseP PolicyM PolicySpec MatcherM RbacM DomainM ModelM ModelSpec ModelP4 ModelP5 StorageM StorageSpec StorageP StorageP2 StorageP3 StorageP4 FailM FailSpec.
Import ListNotations.
Local Open Scope list_scope.

(** ** moved *)
Lemma moved_app k id q es l q' a : moved k id q es l q' -> moved k id (q ++ a) es l (q' ++ a).
Proof.
  induction 1 as [q|c q es l q' H1 H IH|c err d q es l q' H1 H2 H3 H IH|rs err q es l q' H IH]; rewrite <- ?app_assoc; try (constructor; auto; fail).
Qed.
Lemma moved_trans k id q es l q1 : moved k id q es l q1 -> forall es2 l2 q2, moved k id q1 es2 l2 q2 -> moved k id q (es ++ es2) (l ++ l2) q2.
Proof.
  induction 1 as [q|c q es l q' H1 H IH|c err d q es l q' H1 H2 H3 H IH|rs err q es l q' H IH]; intros es2 l2 q2 H9; cbn [app]; rewrite <- ?app_assoc; try (constructor; auto; fail). exact H9.
Qed.
Lemma moved_suffix k id q es l q' : moved k id q es l q' -> exists p, q = p ++ q'.
Proof.
  induction 1 as [q|c q es l q' H1 H [p ->]|c err d q es l q' H1 H2 H3 H [p ->]|rs err q es l q' H IH]; [now exists []| | |exact IH].
  - exists (changes c ++ p). now rewrite app_assoc.
  - exists (changes c ++ d ++ p). now rewrite <- !app_assoc.
Qed.
Lemma moved_singles k id done q : moved k id (done ++ q) (map (fun op => mkEntry id (single op) None) done) [] q.
Proof.
  induction done as [|op done IH]; cbn [map app]; [constructor|].
  assert (X : op :: done ++ q = changes (single op) ++ (done ++ q)) by now rewrite changes_single.
  rewrite X. constructor; [rewrite changes_single; discriminate|exact IH].
Qed.
Lemma moved_batches k id done q : Forall (fun g => snd g <> []) done -> moved k id (ungroup done ++ q) (map (fun g => mkEntry id (batch g) None) done) [] q.
Proof.
  induction 1 as [|[o rs] done Hg H IH]; cbn [map ungroup flat_map app]; [constructor|]. cbn [fst snd] in *. rewrite <- app_assoc, <- changes_batch.
  constructor; [rewrite changes_batch; destruct rs; [congruence|discriminate]|exact IH].
Qed.

Definition fine (es : list entry) : Prop := Forall (fun en => en_err en = None) es.
Definition no_save (es : list entry) : Prop := Forall (fun en => changes (en_call en) <> []) es.
(** Why a flush fails. *)
Definition failed (W : world) (id : nat) (es : list entry) (err : goerr) : Prop :=
  (w_kind W id = KNone /\ es = [] /\ err = ErrInvalidAdapter) \/
  (exists es0 c, es = es0 ++ [mkEntry id c (Some err)] /\ fine es0).

Lemma fine_map {A} id (f : A -> acall) (xs : list A) : fine (map (fun x => mkEntry id (f x) None) xs).
Proof. apply Forall_map, Forall_forall. reflexivity. Qed.
Lemma no_save_singles id done e : no_save (map (fun op => mkEntry id (single op) e) done).
Proof. apply Forall_map, Forall_forall. intros op _. cbn. rewrite changes_single. discriminate. Qed.
Lemma no_save_batches id done : Forall (fun g : opcode * list rule => snd g <> []) done -> no_save (map (fun g => mkEntry id (batch g) None) done).
Proof. intros H. apply Forall_map. eapply Forall_impl; [|exact H]. intros [o [|r rs]] Hg; cbn in *; [congruence|]. destruct o; discriminate. Qed.

Lemma alternating_next a x rest : alternating (a ++ x :: rest) -> match rest with [] => True | y :: _ => fst x <> fst y end.
Proof.
  induction a as [|g a IH]; intros H.
  - cbn [app] in H. destruct rest; [exact Logic.I|]. exact (proj1 H).
  - apply IH. cbn [app] in H. destruct (a ++ x :: rest) eqn:E; [destruct a; discriminate|]. exact (proj2 H).
Qed.

Lemma Flush_moved W id sc log sc' log' err : sc_adapter sc = AExt id -> Flush W sc log = (sc', log', err) ->
  exists es l, log' = log ++ es /\ moved (w_kind W id) id (sc_q sc) es l (sc_q sc') /\ sc' = with_q sc (sc_q sc') 0 /\ no_save es /\
    match err with None => fine es /\ l = [] /\ sc_q sc' = [] | Some x => failed W id es x end.
Proof.
  intros Ha H. unfold Flush in H. rewrite Ha in H. cbn [kind_of] in H. destruct (w_kind W id) eqn:K.
  - destruct (batchFlush W (AExt id) log (sc_q sc)) as [[lg q] er] eqn:B. injection H as <- <- <-. cbn [with_q sc_q].
    destruct (batchFlush_spec _ _ _ _ _ _ _ B) as [gs [[R1 [R2 R3]] D]]. destruct er as [x|].
    + destruct D as [done [g [rest [-> [-> ->]]]]]. apply Forall_app in R2 as [R2 R4]. apply Forall_cons_iff in R4 as [R4 R5].
      pose proof (alternating_next _ _ _ R3) as Nx.
      eexists _, (changes (batch g) ++ firstn 1 (ungroup rest) ++ []). split; [reflexivity|]. split; [|split; [reflexivity|split]].
      * rewrite <- R1, ungroup_app. cbn [ungroup flat_map]. apply (moved_trans _ _ _ _ [] _ (moved_batches _ _ _ _ R2)).
        destruct g as [o rs]. cbn [fst snd] in *.
        assert (X : map (pair o) rs ++ ungroup rest = changes (batch (o, rs)) ++ firstn 1 (ungroup rest) ++ tl (ungroup rest)).
        { rewrite changes_batch. f_equal. destruct (ungroup rest); reflexivity. }
        unfold ungroup in X. unfold ungroup. rewrite X. constructor; [rewrite changes_batch; destruct rs; [congruence|discriminate]|congruence| |constructor].
        destruct rest as [|[o' rs'] rest]; [left; reflexivity|]. right. split; [reflexivity|]. apply Forall_inv in R5. cbn [fst snd] in R5, Nx.
        destruct rs' as [|r' rs']; [congruence|]. exists (o', r'). split; [reflexivity|]. rewrite changes_batch. apply Forall_map, Forall_forall. intros y _. exact Nx.
      * apply Forall_app. split; [now apply no_save_batches|]. constructor; [|constructor]. destruct g as [o rs]. cbn [en_call]. rewrite changes_batch. cbn [snd] in R4. destruct rs; [congruence|discriminate].
      * right. eexists _, _. split; [reflexivity|]. apply (fine_map id batch).
    + destruct D as [-> ->]. eexists _, []. split; [reflexivity|]. split; [|split; [reflexivity|split; [now apply no_save_batches|split; [apply (fine_map id batch)|auto]]]].
      rewrite <- R1, <- (app_nil_r (ungroup gs)). now apply moved_batches.
  - destruct (flush W (AExt id) log (sc_q sc)) as [[lg q] er] eqn:B. injection H as <- <- <-. cbn [with_q sc_q].
    destruct (flush_spec _ _ _ _ _ _ _ B) as [done [_ D]]. destruct er as [x|].
    + destruct D as [op [-> ->]]. eexists _, (changes (single op) ++ [] ++ []). split; [reflexivity|]. split; [|split; [reflexivity|split]].
      * apply (moved_trans _ _ _ _ [] _ (moved_singles _ _ done _)). assert (X : op :: q = changes (single op) ++ [] ++ q) by now rewrite changes_single.
        rewrite X. constructor; [rewrite changes_single; discriminate|eauto|now left|constructor].
      * apply Forall_app. split; [apply no_save_singles|]. constructor; [|constructor]. cbn [en_call]. rewrite changes_single. discriminate.
      * right. eexists _, _. split; [reflexivity|]. apply (fine_map id single).
    + destruct D as [-> [-> ->]]. eexists _, []. split; [reflexivity|]. split; [|split; [reflexivity|split; [apply no_save_singles|split; [apply (fine_map id single)|auto]]]].
      rewrite <- (app_nil_r done) at 1. apply moved_singles.
  - injection H as <- <- <-. exists [], []. rewrite app_nil_r. split; [reflexivity|]. split; [constructor|]. split; [reflexivity|]. split; [constructor|]. left. auto.
Qed.

Lemma f_addOp_moved W id sc log op sc' log' err : sc_adapter sc = AExt id -> f_addOp W sc log op = (sc', log', err) ->
  exists es l, log' = log ++ es /\ moved (w_kind W id) id (sc_q sc ++ [op]) es l (sc_q sc') /\ same_set_up sc sc' /\ sc_autosave sc' = sc_autosave sc /\ no_save es /\
    match err with None => fine es /\ l = [] | Some x => sc_autosave sc = true /\ failed W id es x end.
Proof.
  intros Ha H. unfold f_addOp in H. cbn [sc_autosave with_q sc_wait sc_q] in H. destruct (sc_autosave sc) eqn:Es; [destruct (sc_wait sc - 1 <=? 0)%Z|].
  - apply (Flush_moved W id) in H as [es [l [-> [M [X [N D]]]]]]; [|exact Ha]. exists es, l. split; [reflexivity|]. split; [exact M|].
    rewrite X. split; [repeat split|]. split; [exact Es|]. split; [exact N|]. destruct err; [auto|]. destruct D as (D1 & D2 & _). auto.
  - injection H as <- <- <-. exists [], []. rewrite app_nil_r. split; [reflexivity|]. split; [constructor|]. split; [repeat split|]. split; [exact Es|]. repeat split; constructor.
  - injection H as <- <- <-. exists [], []. rewrite app_nil_r. split; [reflexivity|]. split; [constructor|]. split; [repeat split|]. split; [exact Es|]. repeat split; constructor.
Qed.

(** ** Calls on the model *)
Lemma one_event E o m c m' x : mstep E o m c = Val (m', x) -> x_events x = [] \/ exists ev, x_events x = [ev].
Proof.
  intros H. destruct c; cbn [mstep] in H.
  1: { apply obind_val in H as [[? ?] [_ H]]. injection H as _ <-. auto. }
  1: { destruct (RemoveDef _ _ _).  injection H as _ <-. auto. }
  1: { apply obind_val in H as [[[[m1 b] e] es] [Ha H]]. injection H as _ <-. cbn [x_events]. destruct (add_events _ _ _ _ _ _ _ Ha) as [-> | ->]; eauto. }
  1: { apply obind_val in H as [[[[m1 b] e] es] [Ha H]]. injection H as _ <-. cbn [x_events]. destruct (remove_events _ _ _ _ _ _ _ Ha) as [-> | ->]; eauto. }
  all: try (apply obind_val in H as [[? ?] [_ H]]); try (injection H as _ <-; auto; fail).
Qed.

Definition put (e : enforcer) (m : model) (sc : controller) (log : list entry) : enforcer :=
  mkEnf m (f_mid e) (f_em e) (upd (f_scs e) (f_sc e) sc) (f_sc e) (f_adapter e) log.
Lemma put_cur e m sc0 sc log : cur e = Some sc0 -> cur (put e m sc log) = Some sc.
Proof. intros H. unfold cur, put. cbn. unfold cur in H. now rewrite (nth_upd _ _ _ _ H), Nat.eqb_refl. Qed.
Lemma put_queue e m sc0 sc log : cur e = Some sc0 -> queue (put e m sc log) = sc_q sc.
Proof. intros H. unfold queue. now rewrite (put_cur e m sc0 sc log H). Qed.
Lemma put_put e m sc log m' sc' log' sc0 : cur e = Some sc0 -> put (put e m sc log) m' sc' log' = put e m' sc' log'.
Proof. intros H. unfold put. cbn. unfold cur in H. now rewrite (upd_upd _ _ _ _ _ H). Qed.
Lemma put_self e sc : cur e = Some sc -> put e (f_model e) sc (f_log e) = e.
Proof. intros H. unfold put. unfold cur in H. rewrite (upd_same _ _ _ H). now destruct e. Qed.
Lemma put_storing id e m sc0 sc log : storing id e -> cur e = Some sc0 -> same_set_up sc0 sc -> storing id (put e m sc log).
Proof. intros St H S. eapply storing_frame; eauto. unfold cur in H. now rewrite (nth_upd _ _ _ _ H), Nat.eqb_refl. Qed.
Lemma set_put e sc0 sc log : cur e = Some sc0 -> set_log (put_sc e (f_sc e) sc) log = put e (f_model e) sc log.
Proof. intros H. rewrite (put_nth _ _ _ _ H). reflexivity. Qed.

Lemma f_model_spec E W id o e c sc m x : storing id e -> cur e = Some sc -> mstep E o (f_model e) c = Val (m, x) ->
  exists sc' es l p, f_model_call E W o e c = Val (put e m sc' (f_log e ++ es), match p with None => inl x | Some err => inr err end) /\
    moved (w_kind W id) id (sc_q sc ++ announced [x]) es l (sc_q sc') /\ same_set_up sc sc' /\ sc_autosave sc' = sc_autosave sc /\ no_save es /\
    match p with None => fine es /\ l = [] | Some err => sc_autosave sc = true /\ failed W id es err end /\
    (sc_autosave sc = false -> p = None /\ es = [] /\ sc' = with_q sc (sc_q sc ++ announced [x]) (sc_wait sc)).
Proof.
  intros St Hc Hs. pose proof (storing_em id e St) as Em. pose proof St as [Hw [Ha _]]. pose proof (wf_cur e Hw) as [sc0 [Hc0 [Hsa _]]]. rewrite Hc in Hc0. injection Hc0 as <-.
  unfold f_model_call. rewrite Hs. cbn [obind]. rewrite announced_ops. cbn [flat_map]. rewrite app_nil_r.
  destruct (one_event _ _ _ _ _ _ Hs) as [-> | [ev ->]]; cbn [f_deliver map].
  - exists sc, [], [], None. rewrite !app_nil_r.
    split; [do 2 f_equal; rewrite <- (put_self e sc Hc) at 1; reflexivity|]. split; [constructor|]. split; [repeat split|]. split; [reflexivity|]. split; [constructor|].
    split; [split; constructor|]. intros _. split; [reflexivity|]. split; [reflexivity|]. destruct sc; reflexivity.
  - cbn [set_model f_em]. rewrite Em. cbn [f_deliver_to set_model f_scs f_log]. change (nth_error (f_scs e) (f_sc e)) with (cur e). rewrite Hc.
    destruct (f_addOp W sc (f_log e) (op_of ev)) as [[sc1 log1] p] eqn:F.
    assert (Z : sc_autosave sc = false -> p = None /\ log1 = f_log e /\ sc1 = with_q sc (sc_q sc ++ [op_of ev]) (sc_wait sc)).
    { intros Es. unfold f_addOp in F. cbn [sc_autosave with_q] in F. rewrite Es in F. injection F as <- <- <-. auto. }
    destruct (f_addOp_moved W id _ _ _ _ _ _ (eq_trans Hsa Ha) F) as [es [l [-> [M [S1 [S2 [N D]]]]]]].
    exists sc1, es, l, p.
    assert (P1 : set_log (put_sc (set_model e m) (f_sc e) sc1) (f_log e ++ es) = put e m sc1 (f_log e ++ es)).
    { rewrite (put_nth (set_model e m) _ _ sc Hc). reflexivity. }
    split; [destruct p; cbv beta iota; rewrite P1; reflexivity|]. split; [exact M|]. split; [exact S1|]. split; [exact S2|]. split; [exact N|]. split; [exact D|].
    intros Es. destruct (Z Es) as (Z1 & Z2 & Z3). split; [exact Z1|]. split; [|exact Z3].
    rewrite <- (app_nil_r (f_log e)) in Z2 at 2. now apply app_inv_head in Z2.
Qed.

Lemma f_loop_spec E W id mk : forall rs os e sc, storing id e -> cur e = Some sc -> sc_autosave sc = false ->
  match rules_on E os (f_model e) mk rs with
  | Panic => f_rules_loop E W os e mk rs = Panic
  | Val (m, err) => exists n xs, mexec E (f_model e) (firstn n (rule_calls os mk rs)) = Val (m, xs) /\
      f_rules_loop E W os e mk rs = Val (put e m (with_q sc (sc_q sc ++ announced xs) (sc_wait sc)) (f_log e), inl err)
  end.
Proof.
  induction rs as [|r rs IH]; intros os e sc St Hc Es; cbn [rules_on f_rules_loop rule_calls].
  - exists 0, []. split; [reflexivity|]. cbn. rewrite app_nil_r. do 2 f_equal. symmetry.
    assert (X : with_q sc (sc_q sc) (sc_wait sc) = sc) by now destruct sc. rewrite X. now apply put_self.
  - destruct (mstep E (os 0) (f_model e) (mk r)) as [[m x]|] eqn:Hs; [|cbn [obind]; unfold f_model_call; rewrite Hs; reflexivity]. cbn [obind].
    destruct (f_model_spec E W id (os 0) e (mk r) sc m x St Hc Hs) as (sc1 & es & l & p & F & _ & S1 & _ & _ & _ & Z).
    destruct (Z Es) as (-> & -> & ->). rewrite app_nil_r in F. rewrite F. cbn [obind]. clear Z F.
    set (sc1 := with_q sc (sc_q sc ++ announced [x]) (sc_wait sc)) in *. set (e1 := put e m sc1 (f_log e)).
    destruct (x_err x) as [err|] eqn:Ex.
    + exists 1, [x]. cbn [firstn]. split; [cbn [mexec]; rewrite Hs; reflexivity|]. reflexivity.
    + assert (C1 : cur e1 = Some sc1) by exact (put_cur _ _ _ _ _ Hc).
      specialize (IH (fun n => os (S n)) e1 sc1 (put_storing _ _ _ _ _ _ St Hc S1) C1 Es). change (f_model e1) with m in IH.
      destruct (rules_on E (fun n => os (S n)) m mk rs) as [[m2 err]|]; [|exact IH].
      destruct IH as (n & xs & M & L). exists (S n), (x :: xs). cbn [firstn mexec]. rewrite Hs. cbn [obind]. rewrite M. cbn [obind]. split; [reflexivity|].
      rewrite L. unfold e1. rewrite (put_put _ _ _ _ _ _ _ _ Hc). cbn [f_log put sc1 sc_q sc_wait with_q].
      change (announced (x :: xs)) with (announced ([x] ++ xs)). rewrite announced_app, <- app_assoc. reflexivity.
Qed.

Lemma f_rules_spec E W id os mk rs e sc : storing id e -> cur e = Some sc ->
  match rules_on E os (f_model e) mk rs with
  | Panic => f_rules_call E W os e mk rs = Panic
  | Val (m, err) => exists n xs sc' es l p, mexec E (f_model e) (firstn n (rule_calls os mk rs)) = Val (m, xs) /\
      f_rules_call E W os e mk rs = Val (put e m sc' (f_log e ++ es), match p with None => inl err | Some z => inr z end) /\
      moved (w_kind W id) id (sc_q sc ++ announced xs) es l (sc_q sc') /\ same_set_up sc sc' /\ sc_autosave sc' = sc_autosave sc /\ no_save es /\
      match p with None => fine es /\ l = [] | Some z => sc_autosave sc = true /\ failed W id es z end
  end.
Proof.
  intros St Hc. pose proof St as [Hw [Ha _]]. pose proof (wf_cur e Hw) as [sc0 [Hc0 [Hsa _]]]. rewrite Hc in Hc0. injection Hc0 as <-.
  unfold f_rules_call. change (nth_error (f_scs e) (f_sc e)) with (cur e). rewrite Hc. destruct (sc_autosave sc) eqn:Es.
  - set (scf := set_autosave sc false).
    assert (P0 : put_sc e (f_sc e) scf = put e (f_model e) scf (f_log e)) by (rewrite (put_nth _ _ _ _ Hc); reflexivity). rewrite P0.
    set (e0 := put e (f_model e) scf (f_log e)).
    assert (C0 : cur e0 = Some scf) by exact (put_cur _ _ _ _ _ Hc).
    assert (St0 : storing id e0) by (eapply put_storing; eauto; repeat split).
    pose proof (f_loop_spec E W id mk rs os e0 scf St0 C0 eq_refl) as L. change (f_model e0) with (f_model e) in L.
    destruct (rules_on E os (f_model e) mk rs) as [[m err]|]; [|rewrite L; reflexivity].
    destruct L as (n & xs & M & L). rewrite L. cbn [obind]. unfold e0. rewrite (put_put _ _ _ _ _ _ _ _ Hc).
    set (sc1 := with_q scf (sc_q scf ++ announced xs) (sc_wait scf)). set (e1 := put e m sc1 (f_log (put e (f_model e) scf (f_log e)))).
    assert (C1 : nth_error (f_scs e1) (f_sc e1) = Some sc1) by exact (put_cur _ m _ sc1 _ Hc). rewrite C1.
    destruct (Flush W (set_autosave sc1 true) (f_log e1)) as [[sc2 log2] p] eqn:F.
    assert (Ha1 : sc_adapter (set_autosave sc1 true) = AExt id) by (cbn; congruence).
    destruct (Flush_moved W id _ _ _ _ _ Ha1 F) as [es [l [-> [Mv [X [N D]]]]]].
    exists n, xs, sc2, es, l, p. split; [exact M|].
    assert (P1 : set_log (put_sc e1 (f_sc e1) sc2) (f_log e1 ++ es) = put e m sc2 (f_log e ++ es)).
    { rewrite (put_nth e1 _ _ _ C1). unfold e1, put, set_log, set_scs. cbn. unfold cur in Hc. now rewrite (upd_upd _ _ _ _ _ Hc). }
    split; [destruct p; rewrite P1; reflexivity|]. split; [exact Mv|]. rewrite X. split; [repeat split|]. split; [cbn; reflexivity|]. split; [exact N|]. destruct p; [auto|].
    destruct D as (D1 & D2 & _). auto.
  - pose proof (f_loop_spec E W id mk rs os e sc St Hc Es) as L.
    destruct (rules_on E os (f_model e) mk rs) as [[m err]|]; [|exact L].
    destruct L as (n & xs & M & L). exists n, xs, (with_q sc (sc_q sc ++ announced xs) (sc_wait sc)), [], [], None. rewrite app_nil_r.
    split; [exact M|]. split; [exact L|]. split; [constructor|]. split; [repeat split|]. split; [exact Es|]. repeat split; constructor.
Qed.

(** ** One call *)
Definition step_ok (E : env) (W : world) (id : nat) (os : nat -> orders) (e : enforcer) (c : ecall) (m : model) (y : eresult) (e' : enforcer) (x : eresult + goerr) : Prop :=
  exists hm ys es l, f_model e' = m /\ answer_of c x y /\ model_part os c hm /\ mexec E (f_model e) hm = Val (m, ys) /\ storing id e' /\
    f_log e' = f_log e ++ es /\ moved (w_kind W id) id (queue e ++ announced ys) es l (queue e') /\
    (c <> ESave -> no_save es) /\
    (c = ESave -> queue e' = queue e /\ exists err, x = inl (mkERes err None) /\ es = [mkEntry id (CSavePolicy (model_rules (os 0) (f_model e))) err]) /\
    (changes_rules c -> match x with inl _ => fine es /\ l = [] | inr err => autosave e = true /\ failed W id es err end).

Lemma f_step_spec E W id os e c : storing id e -> keeps_storage c ->
  match on_step E os (f_model e) c with
  | Panic => f_step E W os e c = Panic
  | Val (m, y) => exists e' x, f_step E W os e c = Val (e', x) /\ step_ok E W id os e c m y e' x
  end.
Proof.
  intros St K. pose proof St as [Hw [Ha _]]. pose proof (wf_cur e Hw) as [sc [Hc [Hsa _]]].
  assert (Qe : queue e = sc_q sc) by (unfold queue; now rewrite Hc). assert (Ae : autosave e = sc_autosave sc) by (unfold autosave; now rewrite Hc).
  assert (R : forall mk rs, match rules_on E os (f_model e) mk rs with
    | Panic => f_rules_call E W os e mk rs = Panic
    | Val (m, err) => exists e' x, f_rules_call E W os e mk rs = Val (e', x) /\ exists n ys es l, f_model e' = m /\ (forall err', x = inl err' -> err' = err) /\
        mexec E (f_model e) (firstn n (rule_calls os mk rs)) = Val (m, ys) /\ storing id e' /\
        f_log e' = f_log e ++ es /\ moved (w_kind W id) id (queue e ++ announced ys) es l (queue e') /\ no_save es /\
        match x with inl _ => fine es /\ l = [] | inr err => autosave e = true /\ failed W id es err end
    end).
  { intros mk rs. pose proof (f_rules_spec E W id os mk rs e sc St Hc) as L. destruct (rules_on E os (f_model e) mk rs) as [[m err]|]; [|exact L].
    destruct L as (n & xs & sc' & es & l & p & M & F & Mv & S1 & _ & N & D). rewrite F. eexists _, _. split; [reflexivity|].
    exists n, xs, es, l. split; [reflexivity|]. split; [destruct p; congruence|]. split; [exact M|]. split; [eapply put_storing; eauto|]. split; [reflexivity|].
    rewrite (put_queue _ _ _ _ _ Hc), Qe. split; [exact Mv|]. split; [exact N|]. rewrite Ae. destruct p; auto. }
  destruct c as [c|rs|rs| | | |a|op|i|m]; cbn [on_step f_step keeps_storage] in *; try destruct K.
  - destruct (mstep E (os 0) (f_model e) c) as [[m x]|] eqn:Hs; cbn [obind]; [|unfold f_model_call; rewrite Hs; reflexivity].
    destruct (f_model_spec E W id (os 0) e c sc m x St Hc Hs) as (sc1 & es & l & p & F & Mv & S1 & _ & N & D & _). rewrite F. cbn [obind].
    eexists _, _. split; [reflexivity|]. exists [(os 0, c)], [x], es, l. split; [reflexivity|]. split; [destruct p; cbn; auto|]. split; [reflexivity|].
    split; [cbn [mexec]; rewrite Hs; reflexivity|]. split; [eapply put_storing; eauto|]. split; [reflexivity|]. rewrite (put_queue _ _ _ _ _ Hc), Qe. split; [exact Mv|].
    split; [auto|]. split; [discriminate|]. intros _. rewrite Ae. destruct p; auto.
  - specialize (R CAdd rs). destruct (rules_on E os (f_model e) CAdd rs) as [[m err]|]; cbn [obind]; [|rewrite R; reflexivity].
    destruct R as (e' & x & F & n & ys & es & l & R1 & R2 & R3 & R4 & R5 & R6 & R7 & R8). rewrite F. cbn [obind]. eexists _, _. split; [reflexivity|].
    exists (firstn n (rule_calls os CAdd rs)), ys, es, l. split; [exact R1|]. split; [destruct x as [er|]; cbn; [now rewrite (R2 er eq_refl)|auto]|]. split; [now exists n|].
    split; [exact R3|]. split; [exact R4|]. split; [exact R5|]. split; [exact R6|]. split; [auto|]. split; [discriminate|]. intros _. destruct x; exact R8.
  - specialize (R CRemove rs). destruct (rules_on E os (f_model e) CRemove rs) as [[m err]|]; cbn [obind]; [|rewrite R; reflexivity].
    destruct R as (e' & x & F & n & ys & es & l & R1 & R2 & R3 & R4 & R5 & R6 & R7 & R8). rewrite F. cbn [obind]. eexists _, _. split; [reflexivity|].
    exists (firstn n (rule_calls os CRemove rs)), ys, es, l. split; [exact R1|]. split; [destruct x as [er|]; cbn; [now rewrite (R2 er eq_refl)|auto]|]. split; [now exists n|].
    split; [exact R3|]. split; [exact R4|]. split; [exact R5|]. split; [exact R6|]. split; [auto|]. split; [discriminate|]. intros _. destruct x; exact R8.
  - cbn [estep]. change (nth_error (f_scs e) (f_sc e)) with (cur e). rewrite Hc. destruct (Flush W sc (f_log e)) as [[sc1 log1] p] eqn:F. cbn [obind].
    destruct (Flush_moved W id _ _ _ _ _ (eq_trans Hsa Ha) F) as [es [l [-> [Mv [X [N D]]]]]].
    eexists _, _. split; [reflexivity|]. rewrite (set_put _ _ _ _ Hc). exists [], [], es, l. split; [reflexivity|]. split; [cbn; eauto|]. split; [reflexivity|]. split; [reflexivity|].
    split; [eapply put_storing; eauto; rewrite X; repeat split|]. split; [reflexivity|]. rewrite (put_queue _ _ _ _ _ Hc), Qe, app_nil_r. split; [exact Mv|]. split; [auto|]. split; [discriminate|]. intros [].
  - cbn [estep]. unfold SavePolicy. rewrite Ha. cbn [ask obind]. eexists _, _. split; [reflexivity|].
    exists [], [], [mkEntry id (CSavePolicy (model_rules (os 0) (f_model e))) (w_answer W (f_log e) id (CSavePolicy (model_rules (os 0) (f_model e))))], [].
    split; [reflexivity|]. split; [cbn; eauto|]. split; [reflexivity|]. split; [reflexivity|].
    split; [unfold set_log; destruct St as [[Wc] St2]; split; [constructor; exact Wc|exact St2]|]. split; [reflexivity|]. rewrite app_nil_r.
    split; [repeat constructor|]. split; [congruence|]. split; [intros _; split; [reflexivity|eauto]|intros []].
  - destruct op as [b|b]; [|destruct K]. cbn [estep SetOption obind]. change (nth_error (f_scs e) (f_sc e)) with (cur e). rewrite Hc, (put_nth _ _ _ _ Hc).
    eexists _, _. split; [reflexivity|]. change (set_scs e (upd (f_scs e) (f_sc e) (set_autosave sc b))) with (put e (f_model e) (set_autosave sc b) (f_log e)).
    exists [], [], [], []. split; [reflexivity|]. split; [cbn; eauto|]. split; [reflexivity|]. split; [reflexivity|]. split; [eapply put_storing; eauto; repeat split|].
    split; [cbn; now rewrite app_nil_r|]. rewrite (put_queue _ _ _ _ _ Hc), Qe, app_nil_r. split; [constructor|]. split; [constructor|]. split; [discriminate|intros []].
  - cbn [estep]. change (nth_error (f_scs e) (f_sc e)) with (cur e). rewrite Hc, (put_nth _ _ _ _ Hc). cbn [obind].
    eexists _, _. split; [reflexivity|]. change (set_scs e (upd (f_scs e) (f_sc e) (AddWait sc i))) with (put e (f_model e) (AddWait sc i) (f_log e)).
    exists [], [], [], []. split; [reflexivity|]. split; [cbn; eauto|]. split; [reflexivity|]. split; [reflexivity|]. split; [eapply put_storing; eauto; repeat split|].
    split; [cbn; now rewrite app_nil_r|]. rewrite (put_queue _ _ _ _ _ Hc), Qe, app_nil_r. split; [constructor|]. split; [constructor|]. split; [discriminate|intros []].
Qed.

Lemma f_exec_spec E W id : forall h e, storing id e -> Forall (fun c => keeps_storage (snd c)) h ->
  match on_model E (f_model e) h with
  | Panic => f_exec E W e h = Panic
  | Val (m, ys) => exists e' xs, f_exec E W e h = Val (e', xs) /\ f_model e' = m /\
      Forall2 (fun c xy => answer_of (snd c) (fst xy) (snd xy)) h (combine xs ys) /\ List.length xs = List.length h /\ List.length ys = List.length h /\ storing id e' /\
      exists hm rs es l, model_parts h hm /\ mexec E (f_model e) hm = Val (m, rs) /\ f_log e' = f_log e ++ es /\
        moved (w_kind W id) id (queue e ++ announced rs) es l (queue e')
  end.
Proof.
  induction h as [|[os c] h IH]; intros e St K; cbn [on_model f_exec].
  - exists e, []. split; [reflexivity|]. split; [reflexivity|]. split; [constructor|]. split; [reflexivity|]. split; [reflexivity|]. split; [exact St|].
    exists [], [], [], []. rewrite !app_nil_r. split; [constructor|]. split; [reflexivity|]. split; [reflexivity|constructor].
  - apply Forall_cons_iff in K as [K1 K]. cbn [snd] in K1. pose proof (f_step_spec E W id os e c St K1) as S.
    destruct (on_step E os (f_model e) c) as [[m y]|]; cbn [obind]; [|rewrite S; reflexivity].
    destruct S as (e1 & x & F & hm & rs & es & l & <- & An & Mp & M & St1 & Lg & Mv & _). rewrite F. cbn [obind].
    specialize (IH e1 St1 K). destruct (on_model E (f_model e1) h) as [[m2 ys]|]; cbn [obind]; [|rewrite IH; reflexivity].
    destruct IH as (e2 & xs & F2 & E2 & An2 & L1 & L2 & St2 & hm2 & rs2 & es2 & l2 & Mp2 & M2 & Lg2 & Mv2). rewrite F2. cbn [obind].
    eexists _, _. split; [reflexivity|]. split; [exact E2|]. split; [cbn [combine]; constructor; [exact An|exact An2]|]. split; [cbn; congruence|]. split; [cbn; congruence|].
    split; [exact St2|]. exists (hm ++ hm2), (rs ++ rs2), (es ++ es2), (l ++ l2). split; [constructor; auto|]. split; [apply mexec_app; eauto 8|].
    split; [rewrite Lg2, Lg, <- app_assoc; reflexivity|]. rewrite announced_app, app_assoc. eapply moved_trans; [|exact Mv2]. now apply moved_app.
Qed.
