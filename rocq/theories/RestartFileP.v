(** Lemmas: models set up from a file whose rules come from storage, and processes
    that load them. *)
From Coq Require Import Permutation.
From Verif Require Import BuiltinM GoBase GoBaseP DefsM PolicyM PolicySpec PolicyP EffectorM MatcherDefM MatcherDefSpec MatcherM RbacM RbacSpec DomainM DomainSpec ModelM ModelSpec ModelP ModelP4 ModelP5
  EnforcerM EnforcerSpec StorageM StorageSpec StorageP StorageP2 StorageP3 StorageP4 FileM FileSpec FileP FileWorldM PersistSpec PersistP AppSpec AppsSpec RestartSpec MultiSpec LogicSpec RestartFileSpec.
From Verif Require Import Prop_Effect Prop_File Prop_Model Prop_Storage Prop_Persist Prop_App Prop_Apps Prop_Restart Prop_Multi Prop_Columns Prop_Logic Prop_Monotone Prop_LogicMono.
Import ListNotations.
Local Open Scope list_scope.

Section Kept.
Context {Q : rule -> Prop}.

(** ** The set-up *)
Lemma fstart_split d hs : file_start d hs -> exists hd o, hs = hd ++ [(o, CBuild)] /\ map snd hd = set_all d.
Proof.
  unfold file_start. intros Hs. destruct (exists_last (l := hs)) as [hd [[o x] ->]]; [intros ->; cbn in Hs; destruct (set_all d); discriminate|].
  rewrite map_app in Hs. cbn [map snd] in Hs. apply app_inj_tail in Hs as [Hs ->]. eauto.
Qed.
Lemma fstart_file d hs hr : file_start d hs -> Forall (fun x => file_call d (snd x)) hr -> file_history d (hs ++ hr).
Proof.
  intros Hs Hr. destruct (fstart_split d hs Hs) as (hd & o & -> & Hd). exists hd, [], o, hr. rewrite <- app_assoc. cbn. auto.
Qed.
Lemma fstart_empty d hs : file_start d hs -> forall rl, ~ present hs rl.
Proof.
  intros Hs. destruct (fstart_split d hs Hs) as (hd & o & -> & Hd). intros [|k r]; [intros []|].
  intros [[_ (ops & H & S)]|[_ (s & a & b & ds & H & _ & L)]].
  - assert (Z : forall (d : deflist) acc, (acc = None \/ acc = Some []) -> fold_left (p_step k) (set_all d) acc = None \/ fold_left (p_step k) (set_all d) acc = Some []).
    { clear. induction d as [|[[s k'] t] d IH]; intros acc A; [exact A|]. cbn [set_all map fst snd fold_left]. apply IH. cbn [p_step]. destruct s; auto. destruct (String.eqb k' k); auto. }
    unfold p_history in H. rewrite map_app, fold_left_app, Hd in H. cbn [map snd fold_left p_step] in H.
    destruct (Z d None (or_introl eq_refl)) as [Y|Y]; rewrite Y in H; [discriminate|]. injection H as <-. discriminate S.
  - assert (Z : forall (d : deflist) (hd : list (orders * mcall)) acc, map snd hd = set_all d -> (acc = None \/ exists t, acc = Some (fresh_manager t, [])) ->
              fold_left (g_step k) hd acc = None \/ exists t, fold_left (g_step k) hd acc = Some (fresh_manager t, [])).
    { clear. induction d as [|[[s k'] t] d IH]; intros [|[o c] hd] acc Hd A; try discriminate Hd; [exact A|]. cbn [set_all map fst snd] in Hd. injection Hd as -> Hd. cbn [fold_left].
      apply IH; [exact Hd|]. cbn [g_step]. destruct s; auto. destruct (String.eqb k' k); eauto. }
    unfold g_history in H. rewrite fold_left_app in H. cbn [fold_left g_step] in H. destruct (Z d hd None Hd (or_introl eq_refl)) as [Y|[t Y]]; rewrite Y in H; [discriminate|]. injection H as <-.
    unfold linked, fresh_manager in L. cbn [fst snd] in L. destruct (Nat.eqb _ 2); [destruct ds|]; discriminate L.
Qed.
Lemma fstart_links d hs gk gt : well_formed d -> file_start d hs -> In (G_SEC, gk, gt) d -> exists cs, g_history gk hs = Some (fresh_manager gt, cs).
Proof. intros W Hs Hi. apply (file_links d hs gk gt W); [|exact Hi]. rewrite <- (app_nil_r hs). apply fstart_file; [exact Hs|constructor]. Qed.
Lemma fstart_tame d hs : well_formed d -> file_start d hs -> tame hs.
Proof.
  intros W Hs. destruct (fstart_split d hs Hs) as (hd & o & -> & Hd).
  pose proof (o_tame d hd [] [] o W Hd) as T. cbn [app] in T. apply T; constructor.
Qed.
Lemma fstart_plain d hs rl : well_formed d -> file_start d hs -> kept_by Q d rl -> plain_rule hs rl /\ in_section hs rl <> None /\ long_enough rl.
Proof.
  intros W Hs [Ha [Hl Hx]]. split; [split|].
  - exact (file_tame_call d (CAdd rl) (proj2 W) Ha).
  - destruct Ha as [(k & t & r & -> & Hi & _)|(k & t & a & b & ds & -> & Hi & _)]; [apply as_listed_p; exact (p_byte _ _ _ (proj2 W) Hi)|].
    destruct (fstart_links d hs k t W Hs Hi) as [cs Hc]. rewrite (as_listed_g hs k a b ds (fresh_manager t) cs (g_byte _ _ _ (proj2 W) Hi) Hc). unfold fresh_manager, kept.
    destruct (Nat.eqb_spec (rd_nargs (NewRoleDef "" t)) 2) as [E2|E2]; [|reflexivity]. now rewrite (Hx k t a b ds Hi eq_refl E2).
  - split; [|exact (file_long d rl W Ha)]. destruct Ha as [(k & t & r & -> & Hi & _)|(k & t & a & b & ds & -> & Hi & _)].
    + rewrite in_section_p by exact (p_byte _ _ _ (proj2 W) Hi). destruct (fstart_split d hs Hs) as (hd & o & -> & Hd).
      unfold p_history. rewrite map_app, fold_left_app, Hd. cbn [map snd fold_left p_step]. rewrite (p_defs k t d None Hi). discriminate.
    + rewrite in_section_g by exact (g_byte _ _ _ (proj2 W) Hi). destruct (fstart_links d hs k t W Hs Hi) as [cs ->]. discriminate.
Qed.

(** ** The calls *)
Definition kept_call (d : deflist) (x : mcall) : Prop := match x with CAdd rl | CRemove rl => kept_by Q d rl | _ => False end.
Lemma kept_calls d mk os rs : (forall rl, kept_by Q d rl -> kept_call d (mk rl)) -> Forall (kept_by Q d) rs -> Forall (fun x => kept_call d (snd x)) (rule_calls os mk rs).
Proof. intros Hk F. revert os. induction F as [|r l Hr F IH]; intros os; cbn [rule_calls]; constructor; auto. now apply Hk. Qed.
Lemma made_kept d h : Forall (fun x => file_ecall_by Q d (snd x)) h -> Forall (fun x => kept_call d (snd x)) (calls_made h).
Proof.
  induction 1 as [|[os x] h F1 F IH]; [constructor|]. cbn [calls_made flat_map]. apply Forall_app. split; [|exact IH]. cbn [fst snd] in *.
  destruct x as [y|rs|rs| | | | | | |]; cbn [file_ecall_by] in F1; try contradiction; try constructor; try (destruct y; try contradiction; exact F1); try constructor; apply kept_calls; auto.
Qed.
Lemma kept_firstn d (l : list (orders * mcall)) n : Forall (fun x => kept_call d (snd x)) l -> Forall (fun x => kept_call d (snd x)) (firstn n l).
Proof. intros F. rewrite <- (firstn_skipn n l) in F. now apply Forall_app in F. Qed.
Lemma parts_kept d h hm : Forall (fun x => file_ecall_by Q d (snd x)) h -> model_parts h hm -> Forall (fun x => kept_call d (snd x)) hm.
Proof.
  intros F M. induction M as [|os x h hm hm' M1 M2 IH]; [constructor|]. apply Forall_cons_iff in F as [F1 F2]. apply Forall_app. split; [|now apply IH]. clear - F1 M1. cbn [snd] in F1.
  destruct x as [y|rs|rs| | | | | | |]; cbn [file_ecall_by model_part] in *; try contradiction; try (subst hm; constructor).
  - destruct y; try contradiction; exact F1.
  - constructor.
  - destruct M1 as [n ->]. apply kept_firstn, kept_calls; auto.
  - destruct M1 as [n ->]. apply kept_firstn, kept_calls; auto.
Qed.
Lemma rule_calls_good mk os rs : (forall n, good_orders (os n)) -> good_m (rule_calls os mk rs).
Proof. revert os. induction rs as [|r rs IH]; intros os H; cbn [rule_calls]; [constructor|]. constructor; [exact (H 0)|]. apply IH. intros n. apply (H (S n)). Qed.
Lemma made_good h : eorders h -> good_m (calls_made h).
Proof.
  induction 1 as [|[os x] h F1 F IH]; [constructor|]. cbn [calls_made flat_map]. apply Forall_app. split; [|exact IH]. cbn [fst snd] in *.
  destruct x; try constructor; try exact (F1 0); try constructor; now apply rule_calls_good.
Qed.
Lemma kept_file d hm : Forall (fun x : orders * mcall => kept_call d (snd x)) hm -> Forall (fun x => file_call d (snd x)) hm.
Proof. apply Forall_impl. intros [o x]. cbn [snd]. destruct x; cbn; try tauto; intros [H _]; exact H. Qed.
Lemma kept_adds d os held : Forall (kept_by Q d) held -> forall n, Forall (fun x => kept_call d (snd x)) (firstn n (rule_calls os CAdd held)).
Proof. intros F. revert os. induction F as [|r l Hr F IH]; intros os n; cbn [rule_calls]; [destruct n; constructor|]. destruct n; cbn [firstn]; [constructor|]. constructor; [exact Hr|apply IH]. Qed.
Lemma kept_alladds d os held : Forall (kept_by Q d) held -> Forall (fun x => kept_call d (snd x)) (rule_calls os CAdd held).
Proof. intros F. rewrite <- (firstn_all (rule_calls os CAdd held)). now apply kept_adds. Qed.
Lemma kept_listed d hs hm r : Forall (fun x => kept_call d (snd x)) hm -> as_listed (hs ++ hm) r = as_listed hs r.
Proof.
  intros F. apply as_listed_same. intros k Hk. unfold g_history. rewrite fold_left_app. fold (g_history k hs). generalize (g_history k hs).
  induction F as [|[o x] l F1 F IH]; intros acc; [reflexivity|]. cbn [fold_left]. rewrite IH. cbn [snd] in F1.
  destruct x; cbn in F1; try contradiction; cbn [g_step]; match goal with |- context [of_section k ?r] => destruct (of_section k r) as [[|? [|? ?]]|] end; try reflexivity; destruct acc as [[? ?]|]; reflexivity.
Qed.
(** Rules that are present were added. *)
Lemma kept_present d hs hm : well_formed d -> file_start d hs -> Forall (fun x => kept_call d (snd x)) hm -> forall rl, present (hs ++ hm) rl -> kept_by Q d rl /\ In (CAdd rl) (map snd hm).
Proof.
  intros W Hs. induction hm as [|[o x] hm IH] using rev_ind; intros F rl.
  - rewrite app_nil_r. intros H. destruct (fstart_empty d hs Hs rl H).
  - apply Forall_app in F as [F Fx]. apply Forall_inv in Fx. cbn [snd] in Fx. rewrite app_assoc.
    assert (Ag : forall r, as_listed (hs ++ hm) r = as_listed hs r) by (intros r; exact (kept_listed d hs hm r F)).
    rewrite map_app. destruct x as [| |r|r| | | | | | |]; cbn [kept_call] in Fx; try contradiction; destruct (fstart_plain d hs r W Hs Fx) as [[_ Hl] [_ Lg]].
    + rewrite present_add by exact Lg. intros [H|[_ ->]]; [destruct (IH F rl H) as [A B]; split; [exact A|]; apply in_or_app; now left|]. rewrite Ag, Hl. split; [exact Fx|]. apply in_or_app. right. now left.
    + rewrite present_remove by exact Lg. intros [H _]. destruct (IH F rl H) as [A B]. split; [exact A|]. apply in_or_app. now left.
Qed.
Lemma in_adds os held rl : In (CAdd rl) (map snd (rule_calls os CAdd held)) <-> In rl held.
Proof.
  revert os. induction held as [|r held IH]; intros os; cbn [rule_calls map]; [reflexivity|]. cbn [snd In]. rewrite IH.
  split; (intros [H|H]; [left; congruence|now right]).
Qed.
Lemma adds_good os held : (forall n, good_orders (os n)) -> good_m (rule_calls os CAdd held).
Proof. intros H. rewrite <- (firstn_all (rule_calls os CAdd held)). now apply firstn_good. Qed.

(** ** No call returns an error *)
Lemma kept_section d hs hx rl : well_formed d -> file_start d hs -> Forall (fun x => kept_call d (snd x)) hx -> kept_by Q d rl -> in_section (hs ++ hx) rl <> None.
Proof.
  intros W Hs F Hr. pose proof (kept_file d hx F) as Ff. destruct Hr as [Ha _]. destruct Ha as [(k & t & r & -> & Hi & _)|(k & t & a & b & ds & -> & Hi & _)].
  - pose proof (p_byte _ _ _ (proj2 W) Hi) as Kp. rewrite in_section_p by exact Kp. destruct (fstart_split d hs Hs) as (hd & o & -> & Hd).
    unfold p_history. rewrite !map_app, !fold_left_app, Hd. cbn [map snd fold_left p_step]. rewrite (p_defs k t d None Hi).
    destruct (fp_more d k hx (proj2 W) Kp Ff []) as [l' [-> _]]. discriminate.
  - rewrite in_section_g by exact (g_byte _ _ _ (proj2 W) Hi). destruct (file_links d (hs ++ hx) k t W (fstart_file d hs hx Hs Ff) Hi) as [cs ->]. discriminate.
Qed.
Lemma results_fine E d hs m rs0 hx m' xs : well_formed d -> file_start d hs -> good_m hs -> mexec E (NewModel E) hs = Val (m, rs0) ->
  Forall (fun x => kept_call d (snd x)) hx -> good_m hx -> mexec E m hx = Val (m', xs) -> all_ok xs.
Proof.
  intros W Hs G M. revert m' xs. induction hx as [|[o x] hx IH] using rev_ind; intros m' xs F Gx X; [cbn in X; injection X as <- <-; constructor|].
  apply Forall_app in F as [F Fx]. apply Forall_inv in Fx. cbn [snd] in Fx. apply Forall_app in Gx as [Gx Go]. apply Forall_inv in Go. cbn [fst] in Go.
  apply mexec_app in X as (m1 & xa & xb & X1 & X2 & ->). pose proof (IH m1 xa F Gx X1) as I1. apply Forall_app. split; [exact I1|].
  cbn [mexec] in X2. destruct (mstep E o m1 x) as [[m2 y]|] eqn:S; [|discriminate X2]. cbn [obind] in X2. injection X2 as <- <-.
  assert (H1 : mexec E (NewModel E) (hs ++ hx) = Val (m1, rs0 ++ xa)) by (apply mexec_app; eauto 8).
  assert (G1 : good_m (hs ++ hx)) by (apply Forall_app; now split).
  assert (T1 : tame (hs ++ hx)).
  { apply Forall_app. split; [exact (fstart_tame d hs W Hs)|]. eapply Forall_impl; [|exact (kept_file d _ F)]. intros [? z] Z. exact (file_tame_call d z (proj2 W) Z). }
  constructor; [|constructor]. destruct x as [| |r|r| | | | | | |]; cbn [kept_call] in Fx; try contradiction; pose proof (kept_section d hs hx r W Hs F Fx) as Sx;
    pose proof (file_tame_call d (CAdd r) (proj2 W) (proj1 Fx)) as Tr.
  - exact (proj1 (C01_model_add E _ o m1 _ r m2 y G1 Go T1 Tr H1 Sx S o Go)).
  - exact (proj1 (C01_model_remove E _ o m1 _ r m2 y G1 Go T1 Tr H1 Sx S o Go)).
Qed.
Lemma exact_exec E d W0 id hs m rs0 : well_formed d -> file_start d hs -> good_m hs -> mexec E (NewModel E) hs = Val (m, rs0) -> accepts W0 id -> forall h hx xs e e' rs,
  storing id e -> Forall (fun x => kept_call d (snd x)) hx -> good_m hx -> mexec E m hx = Val (f_model e, xs) ->
  Forall (fun x => file_ecall_by Q d (snd x)) h -> eorders h -> eexec E W0 e h = Val (e', rs) ->
  (exists ys, mexec E m (hx ++ calls_made h) = Val (f_model e', ys)) /\ Forall (fun r => y_err r = None) rs.
Proof.
  intros W Hs G M A. induction h as [|[os c] h IH]; intros hx xs e e' rs St F Gx X Fh O H.
  - cbn in H. injection H as <- <-. cbn [calls_made flat_map]. rewrite app_nil_r. eauto.
  - cbn [eexec] in H. destruct (estep E W0 os e c) as [[e1 r]|] eqn:S; [|discriminate H]. cbn [obind] in H. destruct (eexec E W0 e1 h) as [[e2 rs2]|] eqn:S2; [|discriminate H]. cbn [obind] in H. injection H as <- <-.
    apply Forall_cons_iff in Fh as [F1 Fh]. apply Forall_cons_iff in O as [O1 O]. cbn [fst snd] in F1, O1.
    assert (K : keeps_storage c) by (destruct c; cbn in F1; first [contradiction F1|exact Logic.I]).
    destruct (conserve_step E W0 id os e c e1 r A St K S) as (hm & _ & ys & C1 & C2 & St1 & _).
    assert (Sp : calls_made ((os, c) :: h) = calls_made [(os, c)] ++ calls_made h) by (unfold calls_made; cbn [flat_map]; now rewrite app_nil_r). rewrite Sp. clear Sp.
    assert (Z : (exists ys, mexec E (f_model e) (calls_made [(os, c)]) = Val (f_model e1, ys)) /\ y_err r = None).
    { pose proof St as [Hw [Ha _]].
      assert (B : forall mk rs e1 err, (forall rl, kept_by Q d rl -> kept_call d (mk rl)) -> Forall (kept_by Q d) rs -> rules_call E W0 os e mk rs = Val (e1, err) ->
                (exists ys, mexec E (f_model e) (rule_calls os mk rs) = Val (f_model e1, ys)) /\ err = None).
      { clear - W Hs G M X F Gx Hw O1. intros mk rs e1 err Hk Fr H. destruct (rules_call_spec _ _ _ _ _ _ _ _ Hw H) as (ys & _ & _ & _ & [n [U V]] & _).
        assert (Ok : all_ok (xs ++ ys)).
        { eapply (results_fine E d hs m rs0 (hx ++ firstn n (rule_calls os mk rs)) (f_model e1)); eauto.
          - apply Forall_app. split; [exact F|]. apply kept_firstn. now apply kept_calls.
          - apply Forall_app. split; [exact Gx|]. now apply firstn_good.
          - apply mexec_app. eauto 8. }
        apply Forall_app in Ok as [_ Ok]. destruct err as [y|].
        - destruct V as (x0 & xl & -> & _ & V). apply Forall_app in Ok as [_ Ok]. apply Forall_inv in Ok. congruence.
        - destruct V as [V _]. rewrite V in U. eauto. }
      destruct c as [y|l|l| | | | | | |]; cbn [file_ecall_by] in F1; try contradiction; cbn [calls_made flat_map fst snd]; rewrite ?app_nil_r; cbn [model_part] in C1.
      - subst hm. split; [eauto|]. cbn [estep] in S. apply obind_val in S as [[e3 x] [S3 S]]. injection S as <- <-. cbn [y_err].
        destruct (model_call_spec _ _ _ _ _ _ _ Hw S3) as (_ & _ & _ & _ & Sx & _).
        assert (Ok : all_ok (xs ++ [x])).
        { eapply (results_fine E d hs m rs0 (hx ++ [(os 0, y)]) (f_model e3)); eauto.
          - apply Forall_app. split; [exact F|]. constructor; [|constructor]. destruct y; try contradiction; exact F1.
          - apply Forall_app. split; [exact Gx|]. constructor; [exact (O1 0)|constructor].
          - apply mexec_app. exists (f_model e), xs, [x]. split; [exact X|]. split; [|reflexivity]. cbn [mexec]. now rewrite Sx. }
        apply Forall_app in Ok as [_ Ok]. exact (Forall_inv Ok).
      - cbn [estep] in S. apply obind_val in S as [[e3 err] [S3 S]]. injection S as <- <-. apply (B CAdd l e3 err); auto.
      - cbn [estep] in S. apply obind_val in S as [[e3 err] [S3 S]]. injection S as <- <-. apply (B CRemove l e3 err); auto.
      - subst hm. split; [eauto|]. cbn [estep] in S. pose proof (wf_cur e Hw) as [sc [Hc [Hsa _]]]. unfold StorageSpec.cur in Hc. rewrite Hc in S.
        destruct (Flush_ok W0 id sc (f_log e) A) as [es [Fl _]]; [congruence|]. rewrite Fl in S. injection S as <- <-. reflexivity.
      - subst hm. split; [eauto|]. cbn [estep] in S. unfold StorageM.SavePolicy in S. rewrite Ha in S. unfold StorageM.ask in S. rewrite (proj2 A) in S. cbn in S. injection S as <- <-. reflexivity. }
    destruct Z as [[zs Z] Er]. destruct (IH (hx ++ calls_made [(os, c)]) (xs ++ zs) e1 e2 rs2) as [[ws Hw] Fr]; auto.
    + apply Forall_app. split; [exact F|]. apply made_kept. constructor; [exact F1|constructor].
    + apply Forall_app. split; [exact Gx|]. apply made_good. constructor; [exact O1|constructor].
    + apply mexec_app. eauto 8.
    + rewrite <- app_assoc in Hw. eauto.
Qed.

(** ** One process *)
Lemma run_file E d R hs hm : well_formed d -> readings E d R -> file_start d hs -> good_m hs -> Forall (fun x => kept_call d (snd x)) hm -> good_m hm ->
  exists m rs m' rs', mexec E (NewModel E) hs = Val (m, rs) /\ mexec E m hm = Val (m', rs').
Proof.
  intros W U Hs G F G'. destruct (C92_logical_meaning_partial E d R (hs ++ hm) W U) as (mm & rr & X & _).
  - apply fstart_file; [exact Hs|]. now apply kept_file.
  - apply Forall_app. now split.
  - apply mexec_app in X as (mx & ra & rb & X1 & X2 & _). eauto 8.
Qed.

Lemma load_starts E d R W2 id os m2 rs2 hs2 opts os2 held : well_formed d -> readings E d R -> file_start d hs2 -> good_m hs2 -> (forall n, good_orders (os2 n)) ->
  mexec E (NewModel E) hs2 = Val (m2, rs2) -> w_load W2 [] id = (held, None) -> Forall (kept_by Q d) held ->
  exists e1 e2 ys, NewEnforcer E W2 os m2 (ArgAdapter (AExt id)) opts = Val (inl e1) /\ estep E W2 os2 e1 ELoad = Val (e2, mkERes None None) /\
    f_adapter e2 = AExt id /\ queue e2 = [] /\ mexec E m2 (rule_calls os2 CAdd held) = Val (f_model e2, ys) /\ f_log e2 = [mkEntry id CLoadPolicy None] /\
    enabled e2 = enabled e1 /\ (attached e1 -> attached e2) /\ autosave e2 = autosave e1 /\ waiting e2 = waiting e1 /\
    forall rl, present (hs2 ++ rule_calls os2 CAdd held) rl <-> In rl held.
Proof.
  intros W U Hs G O M Ld Fh.
  destruct (NewEnforcer E W2 os m2 (ArgAdapter (AExt id)) opts) as [[e1|]|] eqn:N; try discriminate N.
  pose proof N as N'. apply new_enforcer in N' as (Hw & Em & El & Ea & Eq). rewrite <- Em in M.
  destruct (load_file_rules E W2 os2 e1 id held hs2 rs2 Hw Ea) as (e2 & ys & S & A2 & Q2 & M2 & Lg & Pr2); auto.
  { now rewrite El. }
  { exact (fstart_tame d hs2 W Hs). }
  { eapply Forall_impl; [|exact Fh]. intros r Hr. destruct (fstart_plain d hs2 r W Hs Hr) as [Z1 [Z2 _]]. now split. }
  { intros n. destruct (run_file E d R hs2 (firstn n (rule_calls os2 CAdd held)) W U Hs G (kept_adds d os2 held Fh n)) as (m & rs & m' & rs' & X1 & X2); [now apply firstn_good|].
    rewrite M in X1. injection X1 as <- <-. rewrite X2. discriminate. }
  destruct (load_spec E W2 os2 e1 e2 _ Hw S) as (L1 & L2 & L3 & L4 & L5 & _).
  assert (Cu : StorageSpec.cur e2 = StorageSpec.cur e1) by (unfold StorageSpec.cur; now rewrite L1, L3).
  exists e1, e2, ys. split; [reflexivity|]. split; [exact S|]. split; [congruence|]. split; [congruence|]. split; [now rewrite <- Em|]. split; [rewrite Lg, El; reflexivity|].
  unfold enabled, attached, autosave, waiting. rewrite Cu, L5. split; [reflexivity|]. split; [auto|]. split; [reflexivity|]. split; [reflexivity|].
  intros rl. rewrite Pr2. pose proof (fstart_empty d hs2 Hs rl). tauto.
Qed.

Lemma kept_step d hs hx o x : well_formed d -> file_start d hs -> Forall (fun x => kept_call d (snd x)) hx -> kept_call d x -> forall rl,
  present (hs ++ hx ++ [(o, x)]) rl <-> match x with CAdd r => present (hs ++ hx) rl \/ rl = r | CRemove r => present (hs ++ hx) rl /\ rl <> r | _ => False end.
Proof.
  intros W Hs F Fx rl. rewrite app_assoc. destruct x as [| |r|r| | | | | | |]; cbn [kept_call] in Fx; try contradiction; destruct (fstart_plain d hs r W Hs Fx) as [[_ Hl] [_ Lg]];
    pose proof (kept_section d hs hx r W Hs F Fx) as Sx; pose proof (kept_listed d hs hx r F) as Ag.
  - rewrite present_add by exact Lg. rewrite Ag, Hl. tauto.
  - rewrite present_remove by exact Lg. rewrite Ag, Hl. tauto.
Qed.
Lemma kept_ext d hs hs' hx : well_formed d -> file_start d hs -> file_start d hs' -> Forall (fun x => kept_call d (snd x)) hx -> forall a a',
  Forall (fun x => kept_call d (snd x)) a -> Forall (fun x => kept_call d (snd x)) a' -> (forall rl, present (hs ++ a) rl <-> present (hs' ++ a') rl) ->
  forall rl, present (hs ++ a ++ hx) rl <-> present (hs' ++ a' ++ hx) rl.
Proof.
  intros W Hs Hs'. induction hx as [|[o x] hx IH] using rev_ind; intros F a a' Fa Fa' Eq rl; [now rewrite !app_nil_r|].
  apply Forall_app in F as [F Fx]. apply Forall_inv in Fx. cbn [snd] in Fx.
  rewrite (app_assoc a), (app_assoc a'). 
  assert (Fb : Forall (fun x => kept_call d (snd x)) (a ++ hx)) by (apply Forall_app; now split). assert (Fb' : Forall (fun x => kept_call d (snd x)) (a' ++ hx)) by (apply Forall_app; now split).
  rewrite (kept_step d hs (a ++ hx) o x W Hs Fb Fx), (kept_step d hs' (a' ++ hx) o x W Hs' Fb' Fx). pose proof (IH F a a' Fa Fa' Eq rl) as I. destruct x; cbn in Fx; try contradiction; tauto.
Qed.
Lemma adds_present d hs os held : well_formed d -> file_start d hs -> Forall (kept_by Q d) held -> forall rl, present (hs ++ rule_calls os CAdd held) rl <-> In rl held.
Proof.
  intros W Hs F. assert (Z : forall os hx, Forall (fun x => kept_call d (snd x)) hx -> forall rl, present (hs ++ hx ++ rule_calls os CAdd held) rl <-> present (hs ++ hx) rl \/ In rl held).
  { clear os. induction F as [|r l Hr F IH]; intros os hx Fx rl; cbn [rule_calls In]; [rewrite app_nil_r; tauto|].
    replace (hx ++ (os 0, CAdd r) :: rule_calls (fun n => os (S n)) CAdd l) with ((hx ++ [(os 0, CAdd r)]) ++ rule_calls (fun n => os (S n)) CAdd l) by (rewrite <- app_assoc; reflexivity).
    rewrite IH by (apply Forall_app; split; [exact Fx|constructor; [exact Hr|constructor]]). rewrite (kept_step d hs hx (os 0) (CAdd r) W Hs Fx Hr). intuition congruence. }
  intros rl. pose proof (Z os [] (Forall_nil _) rl) as Y. cbn [app] in Y. rewrite app_nil_r in Y. rewrite Y. pose proof (fstart_empty d hs Hs rl). tauto.
Qed.
(** ** The later process *)
Lemma later_process E d R W2 id hs2 opts os' os2 held' h1 hx hs m1 r1 : well_formed d -> readings E d R ->
  file_start d hs2 -> good_m hs2 -> (forall n, good_orders (os2 n)) -> w_load W2 [] id = (held', None) -> Forall (kept_by Q d) held' ->
  file_start d hs -> h1 = hs ++ hx -> Forall (fun x => kept_call d (snd x)) hx -> good_m h1 -> mexec E (NewModel E) h1 = Val (m1, r1) -> (forall rl, In rl held' <-> present h1 rl) ->
  exists e2, started_from E W2 id hs2 os' opts os2 e2 /\
    (forall o o' rl, good_orders o -> good_orders o' -> In rl (model_rules o m1) <-> In rl (model_rules o' (f_model e2))) /\ same_decisions E d R h1 m1 (f_model e2).
Proof.
  intros W U Hs2 G2 O2 Wl Fh' Hs Eh Kh G1 M1 Pr.
  assert (F1 : file_history d h1) by (rewrite Eh; apply fstart_file; [exact Hs|now apply kept_file]).
  assert (T1 : tame h1).
  { rewrite Eh. apply Forall_app. split; [exact (fstart_tame d hs W Hs)|]. eapply Forall_impl; [|exact (kept_file d _ Kh)]. intros [? z] Z. exact (file_tame_call d z (proj2 W) Z). }
  assert (Lst : forall o rl, good_orders o -> In rl (model_rules o m1) <-> present h1 rl) by (intros o rl Ho; exact (model_rules_present E h1 o m1 _ G1 Ho T1 M1 rl)).
  destruct (run_file E d R hs2 [] W U Hs2 G2) as (m2 & rs2 & _ & _ & M2 & _); [constructor|constructor|].
  destruct (load_starts E d R W2 id os' m2 rs2 hs2 opts os2 held' W U Hs2 G2 O2 M2 Wl Fh') as (e1 & e2 & ys & N2 & S2 & _ & _ & Ml & _ & _ & _ & _ & _ & Pr2).
  set (h2 := hs2 ++ rule_calls os2 CAdd held') in *.
  exists e2. split; [exists m2, rs2, e1; split; [exact M2|]; split; [exact N2|]; cbn [eexec]; now rewrite S2|].
  pose proof (kept_alladds d os2 held' Fh') as Fl.
  assert (F2 : file_history d h2) by (apply fstart_file; [exact Hs2|now apply kept_file]).
  assert (G2' : good_m h2) by (apply Forall_app; split; [exact G2|now apply adds_good]).
  assert (T2 : tame h2).
  { apply Forall_app. split; [exact (fstart_tame d hs2 W Hs2)|]. eapply Forall_impl; [|exact (kept_file d _ Fl)]. intros [o x] X. exact (file_tame_call d x (proj2 W) X). }
  assert (M2' : mexec E (NewModel E) h2 = Val (f_model e2, rs2 ++ ys)) by (apply mexec_app; eauto 8).
  assert (Eq : forall rl, present h1 rl <-> present h2 rl) by (intros rl; now rewrite (Pr2 rl), (Pr rl)).
  split. { intros o o' rl Ho Ho'. rewrite (Lst o rl Ho), Eq. symmetry. exact (model_rules_present E h2 o' (f_model e2) _ G2' Ho' T2 M2' rl). }
  destruct (C101_same_rules_same_decisions_partial E d R h1 h2 W U F1 F2 G1 G2' Eq) as (ma & ra & mb & rb & Ea & Eb & D). rewrite M1 in Ea. injection Ea as <- <-. rewrite M2' in Eb. injection Eb as <- <-.
  intros mk rk pk rt pt f Lo o o' ps vals Ho Ho' Um Ur Vp Lv Ca La.
  apply (D mk rk pk rt pt f Lo o o' ps vals Ho Ho' Um Ur Vp Lv Ca); [|exact La].
  intros x g args us Ht [Hx|[Hx Hy]] Hu.
  - apply (Ca x g args us Ht); [left|exact Hu]. unfold added_to in *. unfold h2 in Hx. rewrite map_app in Hx. apply in_app_or in Hx as [Hx|Hx].
    + exfalso. unfold file_start in Hs2. rewrite Hs2 in Hx. apply in_app_or in Hx as [Hx|[Hx|[]]]; [|discriminate Hx]. unfold set_all in Hx. apply in_map_iff in Hx as [? [Hx _]]. discriminate Hx.
    + apply in_adds in Hx. apply Pr in Hx. rewrite Eh in Hx. apply (kept_present d hs _ W Hs Kh) in Hx as [_ Hx]. rewrite Eh, map_app. apply in_or_app. now right.
  - apply (Ca x g args us Ht); [right|exact Hu]. split; [exact Hx|]. destruct Hy as [Hy|Hy]; [now left|right]. intros r' Hr. apply (Hy r'). now apply Eq.
Qed.

End Kept.
