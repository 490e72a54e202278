(** * C114: programs that recover from the panics of rule changes *)
From Verif Require Import GoBase GoBaseP DefsM PolicyM PolicySpec PolicyP MatcherDefM MatcherM MatcherSpec MatcherP RbacM DomainM ModelM ModelSpec ModelP ModelP2 ModelP3 ModelP4 ModelP5 EffectorM EnforcerM EvalM Prop_Model WideM WideSpec WideP WideP2 WideP3.

(** Calls that return are those of the model without recovery, with the same
    results; the others panic there. *)
Theorem C114_same_calls :
  forall E o m c, (forall m' x, w_step E o m c = Val (m', Some x) <-> mstep E o m c = Val (m', x)) /\
    (forall m', w_step E o m c = Val (m', None) -> mstep E o m c = Panic).
Proof.
  intros E o m c. rewrite (wstep_same E o m c). destruct (w_step E o m c) as [[m1 [x1|]]|]; cbn; (split; [intros m' x|intros m']); [split| |split| |split|]; intros H; try discriminate H; try reflexivity; injection H as <- <-; reflexivity.
Qed.
Print Assumptions C114_same_calls.

(** ** Reached models *)
Lemma range_strip {S} o m sm (fn : S -> rule -> S * bool) st : range_section o (strip m) sm fn st = range_section o m sm fn st.
Proof.
  unfold range_section. revert st. generalize (o_names o (mkeys sm)). intros l. induction l as [|k l IH]; intros st; [reflexivity|]. cbn [fold_left]. rewrite IH. f_equal.
  destruct (mget k sm) as [i|]; [|reflexivity]. unfold obj_Range, strip. cbn. rewrite nth_error_map. destruct (nth_error (md_objs m) i) as [[[p|rm] ls]|]; reflexivity.
Qed.
Lemma rules_strip o m : model_rules o (strip m) = model_rules o m.
Proof. unfold model_rules, RangeRules. rewrite !range_strip. reflexivity. Qed.
Lemma wide_reached E h m rs : good_m h -> tame h -> w_exec E (NewModel E) h = Val (m, rs) ->
  exists h' rs' g, mexec E (NewModel E) h' = Val (strip m, rs') /\ good_m h' /\ tame h' /\ (forall rl, present h' rl <-> present h rl) /\
    (forall k, p_key k -> p_history k h' = p_history k h) /\ Core (strip m) g /\ Hist h' (strip m) g /\ LisM m.
Proof.
  intros Go T H. destruct (core_new E) as [g0 [C0 H0]]. assert (S : strip (NewModel E) = NewModel E) by reflexivity.
  destruct (sim_exec E h (NewModel E) g0 [] m rs Go) as (h' & rs' & A & B & P & G); [now rewrite S|now rewrite S|exact H|]. rewrite S in A.
  pose proof (B _ Go) as Go'. pose proof (B _ T) as T'. destruct (reachable_ok E h' (strip m) rs' Go' A) as [g [C Hi]].
  exists h', rs', g. split; [exact A|]. split; [exact Go'|]. split; [exact T'|].
  assert (Ph : forall k, p_key k -> p_history k h' = p_history k h) by (intros k Hk; apply P, Hk).
  assert (Gh : forall k, g_key k -> g_history k h' = g_history k h) by (intros k Hk; apply G, Hk).
  split; [|split; [exact Ph|]; split; [exact C|]; split; [exact Hi|]; eapply lis_exec; [exact Go|apply lis_start|exact H]].
  intros [|k r]; [reflexivity|]. cbn [present]. split; (intros [[Hk X]|[Hk X]]; [left; split; [exact Hk|]|right; split; [exact Hk|]]);
    [rewrite <- Ph|rewrite <- Gh|rewrite Ph|rewrite Gh]; assumption.
Qed.

(** After any history of calls, some of which panicked, the model lists the rules
    as if all of them had returned. *)
Theorem C114_rules :
  forall E h m rs, good_m h -> tame h -> w_exec E (NewModel E) h = Val (m, rs) ->
  forall o, good_orders o -> NoDup (model_rules o m) /\ forall rl, In rl (model_rules o m) <-> present h rl.
Proof.
  intros E h m rs Go T H o Ho. destruct (wide_reached E h m rs Go T H) as (h' & rs' & g & A & Go' & T' & Pr & _).
  destruct (model_listing E h' o (strip m) rs' Go' Ho T' A) as [N L]. rewrite rules_strip in *. split; [exact N|]. intros rl. now rewrite L.
Qed.
Print Assumptions C114_rules.

Lemma wexec_snoc E h : forall m0 m rs o c m' res, w_exec E m0 h = Val (m, rs) -> w_step E o m c = Val (m', res) -> w_exec E m0 (h ++ [(o, c)]) = Val (m', rs ++ [res]).
Proof.
  induction h as [|[o0 c0] h IH]; intros m0 m rs o c m' res H S; cbn [w_exec app] in *.
  - injection H as -> <-. rewrite S. reflexivity.
  - destruct (w_step E o0 m0 c0) as [[m2 x]|]; cbn [obind] in *; [|discriminate H]. destruct (w_exec E m2 h) as [[m3 rs3]|] eqn:Ee; cbn [obind] in H; [|discriminate H]. injection H as -> <-.
    rewrite (IH m2 m rs3 o c m' res Ee S). reflexivity.
Qed.

(** ** One change of a policy section *)
Definition pop_of (ch : WideSpec.change) (r : rule) : pop := match ch with Adding => PAdd r | Removing => PRemove r end.
Definition announced (ch : WideSpec.change) (rl : rule) : mevent := match ch with Adding => MAdded rl | Removing => MRemoved rl end.
Lemma w_rule_act E o m ch k r i : p_key k -> mget k (md_pMap m) = Some i ->
  w_step E o m (call_of ch (k :: r)) = (let! (m', b) := w_act o m i (pop_of ch r) in
    Val (m', option_map (fun b : bool => mkRes b None (if b then [announced ch (k :: r)] else [])) b)).
Proof. intros Hk Hi. unfold p_key in Hk. destruct ch; cbn [call_of w_step w_rule]; rewrite Hk, Hi; reflexivity. Qed.
Lemma matchers_at m k i p ls : mget k (md_pMap m) = Some i -> nth_error (md_objs m) i = Some (mkObj (OPolicy p) ls) -> matchers_of m k = at_ (md_mats m) ls.
Proof. intros Hi Ho. unfold matchers_of. now rewrite Hi, Ho. Qed.
Lemma wide_split l : (exists x, In x l /\ narrow (m_tree x) = false) -> exists l1 b l2, first_wide l l1 b l2.
Proof.
  intros [x [Hx Hw]]. induction l as [|y l IH]; [destruct Hx|]. destruct (narrow (m_tree y)) eqn:Ny.
  - destruct Hx as [->|Hx]; [congruence|]. destruct (IH Hx) as (l1 & b & l2 & -> & N & W). exists (y :: l1), b, l2. split; [reflexivity|]. split; [now constructor|exact W].
  - exists [], y, l. split; [reflexivity|]. split; [constructor|exact Ny].
Qed.
Lemma all_return e l : Forall (fun x => narrow (m_tree x) = true) l -> forallb (fun x => snd (w_event x e)) l = true.
Proof. intros F. apply forallb_forall. intros x Hx. rewrite Forall_forall in F. apply narrow_returns. now apply F. Qed.
Lemma wadd_event_wide x r : narrow (m_tree x) = false -> snd (w_event x (EvtAdded r)) = false.
Proof. intros W. cbn. pose proof (wadd_narrow (m_def x) r (m_tree x) (m_root x)) as Y. destruct (w_add _ _ _ _). cbn in *. congruence. Qed.
Lemma stuck_event x r : stuck_on x r -> snd (w_event x (EvtRemoved r)) = false.
Proof. unfold stuck_on, stuck. intros W. cbn. destruct (w_rem _ _ _ _). exact W. Qed.

(** Everything about one change. *)
Lemma change_spec E h m rs ch k r o : good_m h -> tame h -> w_exec E (NewModel E) h = Val (m, rs) -> p_key k -> p_history k h <> None -> comma_free r -> good_orders o ->
  exists m' res i p ls, w_step E o m (call_of ch (k :: r)) = Val (m', res) /\
    mget k (md_pMap m) = Some i /\ nth_error (md_objs m) i = Some (mkObj (OPolicy p) ls) /\ NoDup ls /\ Forall (fun j => j < List.length (md_mats m)) ls /\
    (forall o1, good_orders o1 -> In (k :: r) (model_rules o1 m) <-> In r (mvals p)) /\
    let e := event_of ch r in
    let would := match ch with Adding => ~ In r (mvals p) | Removing => In r (mvals p) end in
    md_pMap m' = md_pMap m /\
    ((would /\ exists ok p', w_notify (md_mats m) ls e = (md_mats m', ok) /\ md_objs m' = set_nth (md_objs m) i (mkObj (OPolicy p') ls) /\
      res = if ok then Some (mkRes true None [announced ch (k :: r)]) else None) \/
     (~ would /\ m' = m /\ res = Some (mkRes false None []))).
Proof.
  intros Go T H Hk Hd Hr Ho. destruct (wide_reached E h m rs Go T H) as (h' & rs' & g & A & Go' & T' & Pr & Ph & C & Hi & L).
  pose proof (v_phist _ _ _ Hi k Hk) as Hh. rewrite Ph in Hh by exact Hk. change (md_pMap (strip m)) with (md_pMap m) in Hh.
  destruct (mget k (md_pMap m)) as [i|] eqn:Ei; [|cbn in Hh; congruence]. cbn in Hh.
  destruct (p_rules_ok h' o (strip m) g k i Ho T' C Hi Hk Ei) as (ops & p & ls0 & Eh & Eo & Ep & Fo & Nd & Lr).
  assert (Eo' : exists ls, nth_error (md_objs m) i = Some (mkObj (OPolicy p) ls)).
  { unfold strip in Eo. cbn in Eo. rewrite nth_error_map in Eo. destruct (nth_error (md_objs m) i) as [[b l]|]; [|discriminate Eo]. cbn in Eo. injection Eo as -> _. eauto. }
  destruct Eo' as [ls Eo']. destruct (li_ok _ _ L i _ Eo') as [Nl Fl]. cbn in Nl, Fl.
  pose proof (repr_exec comma_free comma_free_inj ops NewPolicy set_empty p (snd (pexec NewPolicy ops)) (repr_nil comma_free) Fo) as Rp.
  assert (Rp' : repr comma_free p (set_of ops)) by (apply Rp; rewrite <- Ep; now destruct (pexec NewPolicy ops)). clear Rp.
  pose proof (repr_mget_iff comma_free comma_free_inj p (set_of ops) r Rp' Hr) as Mg.
  assert (In_iff : In r (mvals p) <-> set_of ops r = true).
  { rewrite keyed_In_vals by apply Rp'. apply Rp'. exact Hr. }
  assert (Li : forall o1, good_orders o1 -> In (k :: r) (model_rules o1 m) <-> In r (mvals p)).
  { intros o1 Ho1. destruct (C114_rules E h m rs Go T H o1 Ho1) as [_ X]. rewrite X, In_iff. cbn [present]. rewrite Ph in Eh by exact Hk. split.
    - intros [[_ (ops' & Y & Z)]|[Hg _]]; [|exfalso; eapply pg_key; eauto]. rewrite Eh in Y. injection Y as <-. exact Z.
    - intros Z. left. split; [exact Hk|]. eauto. }
  rewrite (w_rule_act E o m ch k r i Hk Ei). unfold w_act. rewrite Eo'. cbn [o_body o_listeners].
  destruct ch; cbn [pop_of event_of announced pstep]; unfold AddRule, RemoveRule; rewrite Mg; destruct (set_of ops r) eqn:Es; cbn [w_notify_all].
  - exists m, (Some (mkRes false None [])), i, p, ls. cbn [obind option_map]. rewrite (set_nth_id _ _ _ Eo').
    split; [now destruct m|]. split; [first [exact Ei|reflexivity]|]. split; [exact Eo'|]. split; [exact Nl|]. split; [exact Fl|]. split; [exact Li|]. cbv zeta. split; [reflexivity|]. right. rewrite In_iff. auto.
  - destruct (w_notify (md_mats m) ls (EvtAdded r)) as [ms ok] eqn:En.
    exists (set_mats (set_objs m (set_nth (md_objs m) i (mkObj (OPolicy (mput (Hash r) r p)) ls))) ms), (if ok then Some (mkRes true None [MAdded (k :: r)]) else None), i, p, ls.
    split; [destruct ok; reflexivity|]. split; [first [exact Ei|reflexivity]|]. split; [exact Eo'|]. split; [exact Nl|]. split; [exact Fl|]. split; [exact Li|]. cbv zeta. split; [reflexivity|]. left. rewrite In_iff.
    split; [congruence|]. exists ok, (mput (Hash r) r p). auto.
  - destruct (w_notify (md_mats m) ls (EvtRemoved r)) as [ms ok] eqn:En.
    exists (set_mats (set_objs m (set_nth (md_objs m) i (mkObj (OPolicy (mdel (Hash r) p)) ls))) ms), (if ok then Some (mkRes true None [MRemoved (k :: r)]) else None), i, p, ls.
    split; [destruct ok; reflexivity|]. split; [first [exact Ei|reflexivity]|]. split; [exact Eo'|]. split; [exact Nl|]. split; [exact Fl|]. split; [exact Li|]. cbv zeta. split; [reflexivity|]. left. rewrite In_iff.
    split; [reflexivity|]. exists ok, (mdel (Hash r) p). auto.
  - exists m, (Some (mkRes false None [])), i, p, ls. cbn [obind option_map]. rewrite (set_nth_id _ _ _ Eo').
    split; [now destruct m|]. split; [first [exact Ei|reflexivity]|]. split; [exact Eo'|]. split; [exact Nl|]. split; [exact Fl|]. split; [exact Li|]. cbv zeta. split; [reflexivity|]. right. rewrite In_iff. auto.
Qed.

(** The first wide matcher does not let a change pass. *)
Lemma first_stops m i p ls ch r l1 b l2 : LisM m -> nth_error (md_objs m) i = Some (mkObj (OPolicy p) ls) -> first_wide (at_ (md_mats m) ls) l1 b l2 ->
  match ch with Adding => ~ In r (mvals p) | Removing => In r (mvals p) end -> snd (w_event b (event_of ch r)) = false.
Proof.
  intros L Eo Fw Wd. destruct ch; cbn [event_of]; [apply wadd_event_wide; apply Fw|]. apply stuck_event. apply (li_stuck _ _ L i p ls l1 b l2 Eo Fw r Wd).
Qed.

(** A call that would change a section panics if and only if one of the matchers
    built on the section has three or more alternatives at some point.  A call
    that returns answers as always; whether it returns or panics, the list of
    rules is changed. *)
Theorem C114_panics_iff :
  forall E h m rs ch k r o o1, good_m h -> tame h -> w_exec E (NewModel E) h = Val (m, rs) -> good_orders o -> good_orders o1 ->
  p_key k -> p_history k h <> None -> comma_free r ->
  exists m' res, w_step E o m (call_of ch (k :: r)) = Val (m', res) /\
    (res = None <-> obstructed m k /\ would_change ch (k :: r) (model_rules o1 m)) /\
    (forall x, res = Some x -> x_err x = None /\ (x_bool x = true <-> would_change ch (k :: r) (model_rules o1 m)) /\
       x_events x = (if x_bool x then [announced ch (k :: r)] else [])) /\
    (forall rl, In rl (model_rules o1 m') <-> changed ch (k :: r) (model_rules o1 m) rl).
Proof.
  intros E h m rs ch k r o o1 Go T H Ho Ho1 Hk Hd Hr.
  destruct (wide_reached E h m rs Go T H) as (h' & rs' & g & A & Go' & T' & Pr & Ph & C & Hi & L).
  destruct (change_spec E h m rs ch k r o Go T H Hk Hd Hr Ho) as (m' & res & i & p & ls & S & Ei & Eo & Nl & Fl & Li & Hc). cbv zeta in Hc. destruct Hc as [_ Hc].
  assert (Wi : would_change ch (k :: r) (model_rules o1 m) <-> match ch with Adding => ~ In r (mvals p) | Removing => In r (mvals p) end).
  { destruct ch; cbn; rewrite (Li o1 Ho1); reflexivity. }
  exists m', res. split; [exact S|].
  assert (Ob : obstructed m k <-> exists x, In x (at_ (md_mats m) ls) /\ narrow (m_tree x) = false) by (unfold obstructed; rewrite (matchers_at m k i p ls Ei Eo); reflexivity).
  split; [|split].
  - rewrite Wi, Ob. destruct Hc as [(Wd & ok & p' & Nt & _ & ->)|(Wd & _ & ->)]; [|split; [discriminate|intros [_ X]; contradiction]].
    destruct (wnotify_spec _ _ _ _ _ Nl Fl Nt) as (_ & _ & _ & Hok). split.
    + intros Hn. split; [|exact Wd]. destruct ok; [discriminate Hn|]. destruct (existsb (fun x => negb (narrow (m_tree x))) (at_ (md_mats m) ls)) eqn:Ex.
      * apply existsb_exists in Ex as [x [Hx Nx]]. exists x. split; [exact Hx|]. now apply negb_true_iff in Nx.
      * exfalso. rewrite all_return in Hok; [discriminate Hok|]. apply Forall_forall. intros x Hx. destruct (narrow (m_tree x)) eqn:Nx; [reflexivity|].
        assert (Y : existsb (fun x => negb (narrow (m_tree x))) (at_ (md_mats m) ls) = true) by (apply existsb_exists; exists x; rewrite Nx; auto). congruence.
    + intros [Hw _]. destruct (wide_split _ Hw) as (l1 & b & l2 & Fw). pose proof (first_stops m i p ls ch r l1 b l2 L Eo Fw Wd) as St. destruct Fw as [Ea _].
      destruct ok; [|reflexivity]. symmetry in Hok. rewrite forallb_forall in Hok. rewrite Hok in St; [discriminate St|]. rewrite Ea. apply in_or_app. right. now left.
  - intros x ->. rewrite Wi. destruct Hc as [(Wd & ok & p' & Nt & _ & Hx)|(Wd & _ & Hx)].
    + destruct ok; [|discriminate Hx]. injection Hx as ->. cbn. tauto.
    + injection Hx as ->. cbn. split; [reflexivity|]. split; [|reflexivity]. split; [discriminate|contradiction].
  - assert (H2 : w_exec E (NewModel E) (h ++ [(o, call_of ch (k :: r))]) = Val (m', rs ++ [res])).
    { eapply wexec_snoc; eauto. }
    assert (G2 : good_m (h ++ [(o, call_of ch (k :: r))])) by (apply Forall_app; split; [exact Go|constructor; [exact Ho|constructor]]).
    assert (T2 : tame (h ++ [(o, call_of ch (k :: r))])).
    { apply Forall_app. split; [exact T|]. constructor; [|constructor]. destruct ch; cbn; (split; [auto|intros Hg; exfalso; eapply pg_key; eauto]). }
    intros rl. rewrite (proj2 (C114_rules E _ m' _ G2 T2 H2 o1 Ho1) rl).
    assert (P0 : forall rl, In rl (model_rules o1 m) <-> present h rl) by (apply (C114_rules E h m rs Go T H o1 Ho1)).
    assert (Z : present (h ++ [(o, call_of ch (k :: r))]) rl <-> changed ch (k :: r) (model_rules o1 m) rl).
    { assert (Cg : changed ch (k :: r) (model_rules o1 m) rl <-> match ch with Adding => present h rl \/ rl = k :: r | Removing => present h rl /\ rl <> k :: r end) by (destruct ch; cbn; rewrite P0; reflexivity).
      rewrite Cg. clear Cg. destruct rl as [|k' r']; [destruct ch; cbn; intuition congruence|]. cbn [present].
      destruct (p_history k h) as [ops|] eqn:Eh; [|congruence].
      destruct (String.eqb_spec k' k) as [->|Hne].
      - assert (N1 : p_history k (h ++ [(o, call_of ch (k :: r))]) = Some (ops ++ [pop_of ch r])).
        { rewrite p_history_snoc, Eh. destruct ch; cbn; rewrite String.eqb_refl; reflexivity. }
        assert (Sx : set_of (ops ++ [pop_of ch r]) r' = true <-> match ch with Adding => set_of ops r' = true \/ r' = r | Removing => set_of ops r' = true /\ r' <> r end).
        { unfold set_of. rewrite fold_left_app. cbn [fold_left]. destruct ch; cbn [pop_of set_step]; unfold set_add, set_remove; destruct (rule_eqb_spec r' r) as [->|Hn]; cbn; intuition congruence. }
        assert (Ex : forall l, (exists ops', Some l = Some ops' /\ set_of ops' r' = true) <-> set_of l r' = true) by (intros l; split; [intros (q & Q & Y); now injection Q as ->|eauto]).
        rewrite N1, Eh. pose proof (Ex ops) as E1. pose proof (Ex (ops ++ [pop_of ch r])) as E2. assert (Ng : g_key k -> False) by (intros; eapply pg_key; eauto).
        assert (Kr : k :: r' = k :: r <-> r' = r) by (split; congruence). destruct ch; rewrite E1, E2, Sx, Kr; tauto.
      - assert (N1 : p_key k' -> p_history k' (h ++ [(o, call_of ch (k :: r))]) = p_history k' h).
        { intros _. rewrite p_history_snoc. destruct ch; cbn; destruct (String.eqb_spec k k'); congruence. }
        assert (N2 : g_history k' (h ++ [(o, call_of ch (k :: r))]) = g_history k' h).
        { rewrite g_history_snoc. destruct ch; cbn; destruct (String.eqb_spec k k'); congruence. }
        rewrite N2. assert (Q : (p_key k' /\ exists ops0, p_history k' (h ++ [(o, call_of ch (k :: r))]) = Some ops0 /\ set_of ops0 r' = true) <-> (p_key k' /\ exists ops0, p_history k' h = Some ops0 /\ set_of ops0 r' = true)).
        { split; intros [K X]; (split; [exact K|]); [rewrite <- N1 by exact K|rewrite N1 by exact K]; exact X. }
        rewrite Q. assert (Kr : k' :: r' <> k :: r) by congruence. destruct ch; tauto. }
    exact Z.
Qed.
Print Assumptions C114_panics_iff.

(** Of the matchers built on the section, those before the first with three
    alternatives hear of the change, those after it do not. *)
Lemma hears_val e x : narrow (m_tree x) = true -> m_event x e = Val (hears e x).
Proof. intros N. rewrite wevent_same. unfold returned, hears. now rewrite narrow_returns. Qed.
Theorem C114_who_is_told :
  forall E h m rs ch k r o, good_m h -> tame h -> w_exec E (NewModel E) h = Val (m, rs) -> good_orders o ->
  p_key k -> p_history k h <> None -> comma_free r -> would_change ch (k :: r) (model_rules o m) ->
  exists m' res, w_step E o m (call_of ch (k :: r)) = Val (m', res) /\
    (forall l1 b l2, matchers_of m k = l1 ++ b :: l2 -> Forall (fun x => narrow (m_tree x) = true) l1 -> narrow (m_tree b) = false ->
       exists l1' b', matchers_of m' k = l1' ++ b' :: l2 /\ Forall2 (fun x x' => m_event x (event_of ch r) = Val x') l1 l1' /\ m_tree b' = m_tree b /\ m_def b' = m_def b) /\
    (Forall (fun x => narrow (m_tree x) = true) (matchers_of m k) -> Forall2 (fun x x' => m_event x (event_of ch r) = Val x') (matchers_of m k) (matchers_of m' k)) /\
    (forall k', k' <> k -> matchers_of m' k' = matchers_of m k').
Proof.
  intros E h m rs ch k r o Go T H Ho Hk Hd Hr Wd0.
  destruct (wide_reached E h m rs Go T H) as (h' & rs' & g & A & Go' & T' & Pr & Ph & C & Hi & L).
  destruct (change_spec E h m rs ch k r o Go T H Hk Hd Hr Ho) as (m' & res & i & p & ls & S & Ei & Eo & Nl & Fl & Li & Hc). cbv zeta in Hc. destruct Hc as [Pm Hc].
  assert (Wi : would_change ch (k :: r) (model_rules o m) <-> match ch with Adding => ~ In r (mvals p) | Removing => In r (mvals p) end).
  { destruct ch; cbn; rewrite (Li o Ho); reflexivity. }
  apply Wi in Wd0. destruct Hc as [(Wd & ok & p' & Nt & Eo2 & _)|(Wd & _)]; [|contradiction]. pose proof (nth_lt _ _ _ Eo) as Lt.
  destruct (wnotify_spec _ _ _ _ _ Nl Fl Nt) as (_ & Ot & Ht & _).
  assert (Ei2 : mget k (md_pMap m') = Some i) by now rewrite Pm.
  assert (Eo3 : nth_error (md_objs m') i = Some (mkObj (OPolicy p') ls)) by (rewrite Eo2, nth_set_nth, Nat.eqb_refl by exact Lt; reflexivity).
  exists m', res. split; [exact S|]. rewrite (matchers_at m k i p ls Ei Eo), (matchers_at m' k i p' ls Ei2 Eo3), Ht. split; [|split].
  - intros l1 b l2 Es N W. assert (Fw : first_wide (at_ (md_mats m) ls) l1 b l2) by (split; auto). pose proof (first_stops m i p ls ch r l1 b l2 L Eo Fw Wd) as St.
    exists (map (hears (event_of ch r)) l1), (hears (event_of ch r) b). rewrite Es, heard_split.
    + cbn [heard]. rewrite St. split; [reflexivity|]. split; [|apply hears_tree]. clear - N. induction N; cbn; constructor; auto. now apply hears_val.
    + eapply Forall_impl; [|exact N]. intros x Hx. now apply narrow_returns.
  - clear. intros N. induction N as [|x l Hx N IH]; cbn; [constructor|]. rewrite narrow_returns by exact Hx. constructor; [now apply hears_val|exact IH].
  - intros k' Hne. unfold matchers_of. rewrite Pm. destruct (mget k' (md_pMap m)) as [i'|] eqn:Ei'; [|reflexivity].
    assert (Hii : i' <> i) by (intros ->; apply Hne; eapply (v_pinj _ _ C); eauto). rewrite Eo2, nth_set_nth by exact Lt. destruct (Nat.eqb_spec i' i) as [|_]; [contradiction|].
    destruct (nth_error (md_objs m) i') as [ob'|] eqn:Eo'; [|reflexivity]. apply (at_ext (md_mats m) (md_mats m')). intros j Hj. apply Ot. intros Hj'. apply Hii. eapply (li_dis _ _ L); eauto.
Qed.
Print Assumptions C114_who_is_told.

(** ** The same change again *)
Theorem C114_again :
  forall E h m rs ch k r o o', good_m h -> tame h -> w_exec E (NewModel E) h = Val (m, rs) -> good_orders o -> good_orders o' ->
  p_key k -> p_history k h <> None -> comma_free r ->
  forall m' res, w_step E o m (call_of ch (k :: r)) = Val (m', res) ->
  w_step E o' m' (call_of ch (k :: r)) = Val (m', Some (mkRes false None [])).
Proof.
  intros E h m rs ch k r o o' Go T H Ho Ho' Hk Hd Hr m' res S.
  assert (G2 : good_m (h ++ [(o, call_of ch (k :: r))])) by (apply Forall_app; split; [exact Go|constructor; [exact Ho|constructor]]).
  assert (T2 : tame (h ++ [(o, call_of ch (k :: r))])).
  { apply Forall_app. split; [exact T|]. constructor; [|constructor]. destruct ch; cbn; (split; [auto|intros Hg; exfalso; eapply pg_key; eauto]). }
  assert (H2 : w_exec E (NewModel E) (h ++ [(o, call_of ch (k :: r))]) = Val (m', rs ++ [res])) by (eapply wexec_snoc; eauto).
  assert (D2 : p_history k (h ++ [(o, call_of ch (k :: r))]) <> None).
  { rewrite p_history_snoc. destruct (p_history k h) as [ops|]; [|congruence]. destruct ch; cbn; rewrite String.eqb_refl; discriminate. }
  destruct (change_spec E _ m' _ ch k r o' G2 T2 H2 Hk D2 Hr Ho') as (m2 & res2 & i & p & ls & S2 & Ei & Eo & _ & _ & Li & Hc). cbv zeta in Hc. destruct Hc as [_ Hc].
  destruct (C114_panics_iff E h m rs ch k r o o Go T H Ho Ho Hk Hd Hr) as (m1 & res1 & S1 & _ & _ & Ch). rewrite S in S1. injection S1 as <- <-.
  destruct Hc as [(Wd & _)|(Wd & -> & ->)]; [|exact S2]. exfalso. specialize (Ch (k :: r)). rewrite (Li o Ho) in Ch. destruct ch; cbn in *; tauto.
Qed.
Print Assumptions C114_again.

(** ** Obstructions stay *)
Lemma notify_trees e ids : forall ms ms' ok, w_notify ms ids e = (ms', ok) -> forall j, option_map m_tree (nth_error ms' j) = option_map m_tree (nth_error ms j).
Proof.
  induction ids as [|i ids IH]; intros ms ms' ok H j; cbn [w_notify] in H; [injection H as <- _; reflexivity|].
  destruct (nth_error ms i) as [x|] eqn:Ei; [|injection H as <- _; reflexivity].
  assert (G : option_map m_tree (nth_error (set_nth ms i (fst (w_event x e))) j) = option_map m_tree (nth_error ms j)).
  { rewrite nth_set_nth by (eapply nth_lt; eauto). destruct (Nat.eqb_spec j i) as [->|_]; [|reflexivity]. rewrite Ei. cbn. f_equal. apply hears_tree. }
  destruct (w_event x e) as [x' [|]]; cbn [fst] in G; [rewrite (IH _ _ _ H j); exact G|injection H as <- _; exact G].
Qed.
Lemma notify_all_trees ids es : forall ms ms' ok, w_notify_all ms ids es = (ms', ok) -> forall j, option_map m_tree (nth_error ms' j) = option_map m_tree (nth_error ms j).
Proof.
  induction es as [|e es IH]; intros ms ms' ok H j; cbn [w_notify_all] in H; [injection H as <- _; reflexivity|].
  destruct (w_notify ms ids e) as [ms1 [|]] eqn:En; [rewrite (IH _ _ _ H j); eapply notify_trees; eauto|injection H as <- _; eapply notify_trees; eauto].
Qed.
(** What one call does to the objects and trees of a model. *)
Definition grows (m m' : model) : Prop :=
  (forall i ob, nth_error (md_objs m) i = Some ob -> exists ob' ex, nth_error (md_objs m') i = Some ob' /\ o_listeners ob' = o_listeners ob ++ ex) /\
  (forall j x, nth_error (md_mats m) j = Some x -> exists x', nth_error (md_mats m') j = Some x' /\ m_tree x' = m_tree x).
Lemma grows_refl m m' : md_objs m' = md_objs m -> md_mats m' = md_mats m -> grows m m'.
Proof. intros A B. split; [intros i ob H; exists ob, []; rewrite A, app_nil_r; auto|intros j x H; exists x; rewrite B; auto]. Qed.
Lemma grows_trans a b c : grows a b -> grows b c -> grows a c.
Proof.
  intros [A1 A2] [B1 B2]. split.
  - intros i ob H. destruct (A1 i ob H) as (ob1 & e1 & H1 & L1). destruct (B1 i ob1 H1) as (ob2 & e2 & H2 & L2). exists ob2, (e1 ++ e2). rewrite L2, L1, app_assoc. auto.
  - intros j x H. destruct (A2 j x H) as (x1 & H1 & L1). destruct (B2 j x1 H1) as (x2 & H2 & L2). exists x2. split; congruence.
Qed.
Lemma grows_alloc m b m' i : new_obj m b = (m', i) -> grows m m'.
Proof.
  intros H. injection H as <- _. split; cbn; [|intros j x Hj; eauto]. intros i0 ob Hi. exists ob, []. rewrite app_nil_r. split; [|reflexivity]. rewrite nth_error_app1; [exact Hi|]. eapply nth_lt; eauto.
Qed.
Lemma grows_set m i b b1 ls ms ok es : nth_error (md_objs m) i = Some (mkObj b ls) -> w_notify_all (md_mats m) ls es = (ms, ok) ->
  grows m (set_mats (set_objs m (set_nth (md_objs m) i (mkObj b1 ls))) ms).
Proof.
  intros Ei Hn. pose proof (nth_lt _ _ _ Ei) as Lt. split; cbn.
  - intros k ob Hk. rewrite nth_set_nth by exact Lt. destruct (Nat.eqb_spec k i) as [->|_]; [|exists ob, []; rewrite app_nil_r; auto].
    rewrite Ei in Hk. injection Hk as <-. exists (mkObj b1 ls), []. rewrite app_nil_r. auto.
  - intros j x Hj. pose proof (notify_all_trees ls es _ _ _ Hn j) as Y. rewrite Hj in Y. cbn in Y. destruct (nth_error ms j) as [x'|]; [|discriminate Y]. injection Y as Y. eauto.
Qed.
Lemma grows_act o m i c m' b : w_act o m i c = Val (m', b) -> grows m m' /\ md_pMap m' = md_pMap m.
Proof.
  unfold w_act. intros H. destruct (nth_error (md_objs m) i) as [[bd ls]|] eqn:Ei; [|discriminate H]. cbn [o_body o_listeners] in H.
  destruct bd as [p|rm].
  - destruct (pstep p c) as [[p' b1] es]. destruct (w_notify_all (md_mats m) ls es) as [ms ok] eqn:En. injection H as <- _. split; [eapply grows_set; eauto|reflexivity].
  - destruct (nth_error (md_rms m) rm) as [x|]; [|discriminate H].
    assert (G : (let! (x', b, es) := act_role (o_names o) x c in let '(ms, ok) := w_notify_all (md_mats m) ls es in
      Val (set_mats (set_rms m (set_nth (md_rms m) rm x')) ms, if ok : bool then Some b else None)) = Val (m', b) -> grows m m' /\ md_pMap m' = md_pMap m).
    { clear H. intros H. destruct (act_role _ _ _) as [[[im' b1] es]|] eqn:Ea; cbn [obind] in H; [|discriminate H].
      destruct (w_notify_all (md_mats m) ls es) as [ms ok] eqn:En. injection H as <- _. split; [|reflexivity].
      destruct (grows_set m i _ (OPolicy NewPolicy) ls ms ok es Ei En) as [_ G2]. split; [|exact G2]. intros k ob Hk. exists ob, []. rewrite app_nil_r. auto. }
    assert (R : grows m m /\ md_pMap m = md_pMap m) by (split; [now apply grows_refl|reflexivity]).
    destruct c as [[|a [|a2 r]]|[|a [|a2 r]]|]; try (injection H as <- _; exact R); exact (G H).
Qed.
Lemma grows_build E o m expr m' r : w_build_def E o m expr = (m', r) -> grows m m' /\ md_pMap m' = md_pMap m.
Proof.
  assert (R : grows m m /\ md_pMap m = md_pMap m) by (split; [now apply grows_refl|reflexivity]).
  unfold w_build_def, BuildMatcherFromDef. destruct (Build _ _ expr) as [root|e]; [|now intros [= <- _]]. cbv zeta.
  destruct (first_byte (GetPolicyKey root)) as [c|]; [|now intros [= <- _]]. destruct (if Ascii.eqb c "p" then _ else _) as [d|]; [|now intros [= <- _]].
  destruct (GetPolicy m (GetPolicyKey root)) as [i|]; [|now intros [= <- _]]. destruct (nth_error (md_objs m) i) as [ob|] eqn:Eo; [|now intros [= <- _]].
  destruct (NewMatcher d (obj_rules o m i) root) as [x|] eqn:En; cbn [obind]; [|now intros [= <- _]]. intros [= <- _]. split; [|reflexivity]. split; cbn.
  - intros k ob' Hk. rewrite nth_set_nth by (eapply nth_lt; eauto). destruct (Nat.eqb_spec k i) as [->|_]; [|exists ob', []; rewrite app_nil_r; auto]. rewrite Eo in Hk. injection Hk as <-. eexists _, _. split; reflexivity.
  - intros j y Hj. exists y. split; [|reflexivity]. rewrite nth_error_app1; [exact Hj|]. eapply nth_lt; eauto.
Qed.
Lemma grows_build_key E o m key m' r : w_build_key E o m key = (m', r) -> grows m m' /\ md_pMap m' = md_pMap m.
Proof.
  unfold w_build_key. destruct (mget key (md_m m)) as [expr|]; [|intros [= <- _]; split; [now apply grows_refl|reflexivity]]. destruct (w_build_def E o m expr) as [m1 r1] eqn:Eb. pose proof (grows_build _ _ _ _ _ _ Eb) as X.
  destruct r1 as [[j|e]|]; intros [= <- _]; auto.
Qed.
Lemma grows_build_loop E o keys : forall m m' r, w_build_loop E o m keys = (m', r) -> grows m m' /\ md_pMap m' = md_pMap m.
Proof.
  induction keys as [|k keys IH]; intros m m' r; cbn [w_build_loop]; [intros [= <- _]; split; [now apply grows_refl|reflexivity]|]. destruct (w_build_key E o m k) as [m1 r1] eqn:Eb.
  pose proof (grows_build_key _ _ _ _ _ _ Eb) as X. destruct r1 as [[e|]|]; [intros [= <- _]; auto| |intros [= <- _]; auto]. intros H. destruct (IH _ _ _ H) as [Y Z]. destruct X as [X1 X2]. split; [eapply grows_trans; eauto|congruence].
Qed.
Lemma grows_rule o m mk ev rl m' r : w_rule o m mk ev rl = Val (m', r) -> grows m m' /\ md_pMap m' = md_pMap m.
Proof.
  assert (R : grows m m /\ md_pMap m = md_pMap m) by (split; [now apply grows_refl|reflexivity]). unfold w_rule. intros H.
  destruct rl as [|k q]; [injection H as <- <-; exact R|]. destruct (first_byte k); [|injection H as <- <-; exact R].
  destruct (Ascii.eqb _ "p"); [destruct (mget k (md_pMap m))|destruct (Ascii.eqb _ "g"); [destruct (mget k (md_rpMap m))|]]; try (injection H as <- <-; exact R);
    destruct (w_act o m _ _) as [[m1 b]|] eqn:Ew; cbn in H; try discriminate H; injection H as <- <-; eapply grows_act; eauto.
Qed.
Lemma grows_step E o m c m' res k : w_step E o m c = Val (m', res) -> ~ redefines k c -> grows m m' /\ mget k (md_pMap m') = mget k (md_pMap m).
Proof.
  assert (R : grows m m /\ mget k (md_pMap m) = mget k (md_pMap m)) by (split; [now apply grows_refl|reflexivity]).
  intros H Nr. destruct c as [s k0 v|s k0|rl|rl|k0| |k0|expr|k0 x|n f|n]; cbn [w_step redefines] in *.
  - unfold SetDef in H. destruct (keyPrefix s) as [c|]; [|injection H as <- <-; exact R]. destruct (first_byte k0) as [c'|]; [|injection H as <- <-; exact R].
    destruct (Ascii.eqb c' c); injection H as <- <-; [|exact R]. destruct s; try exact R; unfold addPolicyDef, addRoleDef, SetRoleManager;
      (split; [match goal with |- context [new_obj ?m0 ?b] => destruct (new_obj m0 b) as [m2 i] eqn:En; exact (grows_alloc _ _ _ _ En) end|]).
    + unfold new_obj. cbn. rewrite mget_put_neq by congruence. reflexivity.
    + reflexivity.
  - cbn [mstep] in H. destruct s; cbn in H; injection H as <- <-; try (split; [now apply grows_refl|reflexivity]).
    split; [now apply grows_refl|]. cbn. rewrite mget_del_neq by congruence. reflexivity.
  - apply grows_rule in H as [A B]. rewrite B. auto.
  - apply grows_rule in H as [A B]. rewrite B. auto.
  - unfold w_clear in H. destruct (GetPolicy m k0) as [i|]; [|injection H as <- <-; exact R]. destruct (w_act o m i PClear) as [[m1 b]|] eqn:Ew; cbn in H; [|discriminate H]. injection H as <- <-.
    destruct (grows_act _ _ _ _ _ _ Ew) as [A B]. rewrite B. auto.
  - destruct (w_build_loop E o m _) as [m1 r] eqn:Eb. injection H as <- <-. destruct (grows_build_loop _ _ _ _ _ _ Eb) as [A B]. rewrite B. auto.
  - destruct (w_build_key E o m k0) as [m1 r] eqn:Eb. injection H as <- <-. destruct (grows_build_key _ _ _ _ _ _ Eb) as [A B]. rewrite B. auto.
  - destruct (w_build_def E o m expr) as [m1 r] eqn:Eb. injection H as <- <-. destruct (grows_build _ _ _ _ _ _ Eb) as [A B]. rewrite B. auto.
  - cbn [mstep obind] in H. injection H as <- <-. unfold SetRoleManager. split; [|reflexivity]. match goal with |- context [new_obj ?m0 ?b] => destruct (new_obj m0 b) as [m2 i] eqn:En; exact (grows_alloc _ _ _ _ En) end.
  - cbn [mstep obind] in H. injection H as <- <-. split; [now apply grows_refl|reflexivity].
  - cbn [mstep] in H. unfold RemoveFunction in H. destruct (mhas n (md_fm m)); cbn in H; injection H as <- <-; split; try reflexivity; now apply grows_refl.
Qed.

(** A section stays obstructed until it is defined again or removed: clearing it,
    removing the definition of the matcher or building others does not help. *)
Theorem C114_stays :
  forall E o m c m' res k, w_step E o m c = Val (m', res) -> obstructed m k -> ~ redefines k c -> obstructed m' k.
Proof.
  intros E o m c m' res k S [x [Hx Hw]] Nr. destruct (grows_step E o m c m' res k S Nr) as [[G1 G2] P]. unfold obstructed, matchers_of in *. rewrite P.
  destruct (mget k (md_pMap m)) as [i|]; [|destruct Hx]. destruct (nth_error (md_objs m) i) as [ob|] eqn:Eo; [|destruct Hx]. destruct (G1 i ob Eo) as (ob' & ex & -> & ->).
  apply in_flat_map in Hx as [j [Hj Hx]]. destruct (nth_error (md_mats m) j) as [y|] eqn:Ey; [|destruct Hx]. destruct Hx as [->|[]]. destruct (G2 j x Ey) as (x' & Hx' & Tx).
  exists x'. split; [|congruence]. apply in_flat_map. exists j. split; [apply in_or_app; auto|]. rewrite Hx'. now left.
Qed.
Print Assumptions C114_stays.
(** A new definition of the section helps. *)
Theorem C114_redefined :
  forall E o m k v m' res, p_key k -> w_step E o m (CSetDef P_SEC k v) = Val (m', res) -> matchers_of m' k = [] /\ ~ obstructed m' k.
Proof.
  intros E o m k v m' res Hk S. enough (X : matchers_of m' k = []) by (split; [exact X|]; intros [x [Hx _]]; rewrite X in Hx; exact Hx).
  cbn [w_step] in S. unfold SetDef in S. cbn [keyPrefix] in S. unfold p_key in Hk. rewrite Hk in S. cbn in S. injection S as <- _. unfold matchers_of. cbn. rewrite mget_put_eq.
  rewrite nth_error_app2, Nat.sub_diag by lia. reflexivity.
Qed.
Print Assumptions C114_redefined.

(** A matcher whose building panics leaves the model as it was.  When BuildMatchers
    panics, the matchers before the one at fault were built, as if asked for one by one,
    and nothing else happened. *)
Theorem C114_failed_build :
  forall E o m m',
    (forall k, w_step E o m (CBuildKey k) = Val (m', None) -> m' = m) /\
    (forall e, w_step E o m (CAdhoc e) = Val (m', None) -> m' = m) /\
    (w_step E o m CBuild = Val (m', None) ->
       exists l1 k l2 rs, o_names o (mkeys (md_m m)) = l1 ++ k :: l2 /\
         mexec E m (map (fun k => (o, CBuildKey k)) l1) = Val (m', rs) /\ Forall (fun x => x_err x = None) rs /\
         mstep E o m' (CBuildKey k) = Panic).
Proof.
  intros E o m m'.
  assert (K : forall m m' k, w_step E o m (CBuildKey k) = Val (m', None) -> m' = m).
  { intros m0 m1 k. cbn [w_step]. unfold w_build_key, w_build_def. destruct (mget k (md_m m0)) as [e|]; [|intros X; discriminate X].
    destruct (BuildMatcherFromDef E o m0 e) as [[m2 [j|er]]|]; cbn; intros X; try discriminate X. now injection X. }
  split; [apply K|]. split.
  - intros e. cbn [w_step]. unfold w_build_def. destruct (BuildMatcherFromDef E o m e) as [[m2 [j|er]]|]; cbn; intros X; try discriminate X. now injection X.
  - cbn [w_step]. generalize (o_names o (mkeys (md_m m))). intros l. revert m. induction l as [|k l IH]; intros m; cbn [w_build_loop]; [intros X; discriminate X|].
    pose proof (K m) as Km. pose proof (proj1 (C114_same_calls E o m (CBuildKey k))) as Sm. pose proof (proj2 (C114_same_calls E o m (CBuildKey k))) as Pm. cbn [w_step] in Km, Sm, Pm.
    specialize (Km m' k). cbn [w_step] in Km. destruct (w_build_key E o m k) as [m1 [[er|]|]]; cbn in *.
    + intros X. discriminate X.
    + intros X. destruct (IH m1 X) as (l1 & k' & l2 & rs & -> & H1 & H2 & H3). exists (k :: l1), k', l2, (mkRes true None [] :: rs).
      split; [reflexivity|]. split; [|split; [constructor; [reflexivity|exact H2]|exact H3]]. cbn [map mexec].
      change (mstep E o m (CBuildKey k)) with (let! (m, e) := BuildMatcher E o m k in Val (m, mkRes true e [])). rewrite (proj1 (Sm _ _) eq_refl). cbn [obind]. rewrite H1. reflexivity.
    + intros X. injection X as ->. specialize (Km eq_refl). subst m. exists [], k, l, []. split; [reflexivity|]. split; [reflexivity|]. split; [constructor|]. exact (Pm _ eq_refl).
Qed.
Print Assumptions C114_failed_build.

(** ** What a recovered panic can do to decisions *)
Definition wide_text : string := "r.sub == p.sub || r.obj == p.obj || r.act == p.act".
Definition wide_env : env :=
  mkEnv (fun n => n)
    (fun _ s =>
       if String.eqb s "r_sub == p_sub || r_obj == p_obj || r_act == p_act" then
         Some [mkTok KOther "r_sub == p_sub"; mkTok KLogicalOp "||"; mkTok KOther "r_obj == p_obj"; mkTok KLogicalOp "||"; mkTok KOther "r_act == p_act"]
       else e_parse ex_env [] s)%string
    (fun fs => mini []) [].
Definition wide_setup : list (orders * mcall) :=
  [(ex_o, CSetDef R_SEC "r" "sub, obj, act"); (ex_o, CSetDef P_SEC "p" "sub, obj, act"); (ex_o, CSetDef E_SEC "e" "some(where (p.eft == allow))");
   (ex_o, CSetDef M_SEC "m" basic_text); (ex_o, CSetDef M_SEC "m2" wide_text); (ex_o, CBuildKey "m2")]%string.
Definition wide_rule : rule := ["p"; "alice"; "data1"; "read"]%string.
Definition wide_h : list (orders * mcall) := wide_setup ++ [(ex_o, CAdd wide_rule); (ex_rev, CBuildKey "m"%string)].
Definition wide_m : model := match w_exec wide_env (NewModel wide_env) wide_h with Val (m, _) => m | Panic => NewModel wide_env end.
Definition wide_ask : list param := map (fun v => PVal (VStr v)) ["alice"; "data1"; "read"]%string.
Definition decides (E : env) (m : model) (ps : list param) : outcome (bool * option goerr) := let! (_, d) := Enforce E ex_o m ps in Val d.

Lemma wide_good : good_m (wide_h ++ [(ex_o, CRemove wide_rule)]).
Proof. repeat (apply Forall_cons; [first [exact ex_o_good|exact ex_rev_good]|]). apply Forall_nil. Qed.
Lemma wide_tame : tame (wide_h ++ [(ex_o, CRemove wide_rule)]).
Proof. unfold wide_h, wide_setup, wide_rule. cbn [app]. tame_tac. Qed.

(** Refuted: decisions do not follow the listed rules once a program has recovered
    from such a panic.  Alice's rule is removed by a call that panics because of
    matcher m2; no rule is listed any more, and Enforce with the other matcher, m,
    which has no alternatives at all, still grants her request. *)
Theorem C114_revoked_rule_refuted :
  exists E h m rs, good_m h /\ tame h /\ w_exec E (NewModel E) h = Val (m, rs) /\
    (forall o, good_orders o -> model_rules o m = []) /\ decides E m wide_ask = Val (true, None).
Proof.
  assert (X : exists m rs, w_exec wide_env (NewModel wide_env) (wide_h ++ [(ex_o, CRemove wide_rule)]) = Val (m, rs) /\ model_rules ex_o m = [] /\ decides wide_env m wide_ask = Val (true, None)).
  { destruct (w_exec wide_env (NewModel wide_env) (wide_h ++ [(ex_o, CRemove wide_rule)])) as [[m rs]|] eqn:Ew.
    - exists m, rs. split; [reflexivity|].
      assert (Y : (let! (m, _) := w_exec wide_env (NewModel wide_env) (wide_h ++ [(ex_o, CRemove wide_rule)]) in let! d := decides wide_env m wide_ask in Val (model_rules ex_o m, d)) = Val ([], (true, None))) by (vm_compute; reflexivity).
      rewrite Ew in Y. cbn [obind] in Y. destruct (decides wide_env m wide_ask) as [d|]; cbn [obind] in Y; [|discriminate Y]. injection Y as Y1 Y2. rewrite Y1, Y2. auto.
    - exfalso. assert (Y : (match w_exec wide_env (NewModel wide_env) (wide_h ++ [(ex_o, CRemove wide_rule)]) with Val _ => true | Panic => false end) = true) by (vm_compute; reflexivity).
      rewrite Ew in Y. discriminate Y. }
  destruct X as (m & rs & Hw & Hr & Hd). exists wide_env, (wide_h ++ [(ex_o, CRemove wide_rule)]), m, rs. split; [exact wide_good|]. split; [exact wide_tame|]. split; [exact Hw|]. split; [|exact Hd].
  intros o Go. destruct (C114_rules _ _ _ _ wide_good wide_tame Hw o Go) as [_ A]. destruct (C114_rules _ _ _ _ wide_good wide_tame Hw ex_o ex_o_good) as [_ B].
  destruct (model_rules o m) as [|q l]; [reflexivity|]. exfalso. assert (Q : In q (model_rules ex_o m)) by (apply B, A; now left). rewrite Hr in Q. exact Q.
Qed.
Print Assumptions C114_revoked_rule_refuted.

(** The state before that removal meets the hypotheses of the theorems above: the
    section is obstructed by the first of its two matchers, the rule is listed
    although the call that added it panicked, and a removal panics. *)
Example C114_ex :
  p_key "p" /\ p_history "p" wide_h <> None /\ map (fun x => narrow (m_tree x)) (matchers_of wide_m "p") = [false; true] /\
  model_rules ex_rev wide_m = [wide_rule] /\
  (exists m', w_step wide_env ex_o wide_m (call_of Removing wide_rule) = Val (m', None)) /\
  (exists m', w_step wide_env ex_o wide_m (call_of Adding wide_rule) = Val (m', Some (mkRes false None []))).
Proof.
  split; [reflexivity|]. split; [vm_compute; discriminate|]. split; [vm_compute; reflexivity|]. split; [vm_compute; reflexivity|].
  split; eexists; vm_compute; reflexivity.
Qed.
