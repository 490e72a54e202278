(** Which matchers hear of a change, and which changes panic. *)
From Verif Require Import GoBase GoBaseP DefsM PolicyM PolicySpec PolicyP MatcherDefM MatcherM MatcherSpec MatcherP RbacM DomainM ModelM ModelSpec ModelP ModelP2 ModelP3 WideM WideSpec WideP WideP2.

(** The matchers at some positions. *)
Definition at_ (ms : list matcher) (ids : list nat) : list matcher := flat_map (fun j => match nth_error ms j with Some x => [x] | None => [] end) ids.
Lemma at_other ms j x ids : ~ In j ids -> j < List.length ms -> at_ (set_nth ms j x) ids = at_ ms ids.
Proof.
  intros Hn Hj. induction ids as [|i ids IH]; [reflexivity|]. cbn. rewrite nth_set_nth by exact Hj. cbn in Hn. destruct (Nat.eqb_spec i j) as [->|_]; [tauto|]. f_equal. apply IH. tauto.
Qed.
Lemma at_ext ms ms' ids : (forall j, In j ids -> nth_error ms' j = nth_error ms j) -> at_ ms' ids = at_ ms ids.
Proof. induction ids as [|i ids IH]; intros H; [reflexivity|]. cbn. rewrite H by (now left). f_equal. apply IH. intros j Hj. apply H. now right. Qed.
Lemma at_app ms a b : at_ ms (a ++ b) = at_ ms a ++ at_ ms b.
Proof. apply flat_map_app. Qed.

(** The matchers after an event was delivered to them in turn. *)
Definition hears (e : event) (x : matcher) : matcher := fst (w_event x e).
Fixpoint heard (e : event) (l : list matcher) : list matcher :=
  match l with
  | [] => []
  | x :: l' => if snd (w_event x e) then hears e x :: heard e l' else hears e x :: l'
  end.
Lemma wnotify_spec e ids : forall ms ms' ok, NoDup ids -> Forall (fun j => j < List.length ms) ids -> w_notify ms ids e = (ms', ok) ->
  List.length ms' = List.length ms /\ (forall j, ~ In j ids -> nth_error ms' j = nth_error ms j) /\
  at_ ms' ids = heard e (at_ ms ids) /\ ok = forallb (fun x => snd (w_event x e)) (at_ ms ids).
Proof.
  induction ids as [|i ids IH]; intros ms ms' ok Nd Fo H; cbn [w_notify] in H; [injection H as <- <-; auto|].
  inversion Nd as [|? ? Hi Nd']; subst. inversion Fo as [|? ? Li Fo']; subst.
  destruct (nth_error ms i) as [x|] eqn:Ei; [|apply nth_error_None in Ei; lia].
  assert (A : at_ ms (i :: ids) = x :: at_ ms ids) by (cbn; now rewrite Ei). rewrite A. cbn [heard forallb].
  assert (Hx : forall y, at_ (set_nth ms i y) ids = at_ ms ids) by (intros y; now apply at_other).
  unfold hears. destruct (w_event x e) as [x' [|]] eqn:Ew; cbn [fst snd].
  - destruct (IH (set_nth ms i x') ms' ok Nd') as (L & O & T & K); [now rewrite set_nth_length|exact H|]. rewrite set_nth_length in L. rewrite Hx in T, K.
    split; [exact L|]. split; [intros j Hj; cbn in Hj; rewrite O by tauto; rewrite nth_set_nth by exact Li; destruct (Nat.eqb_spec j i) as [->|_]; [tauto|reflexivity]|].
    split; [|exact K]. cbn. rewrite O, nth_set_nth, Nat.eqb_refl by assumption. cbn. f_equal. exact T.
  - injection H as <- <-. rewrite set_nth_length. split; [reflexivity|]. split; [intros j Hj; cbn in Hj; rewrite nth_set_nth by exact Li; destruct (Nat.eqb_spec j i) as [->|_]; [tauto|reflexivity]|].
    split; [|reflexivity]. cbn. rewrite nth_set_nth, Nat.eqb_refl by exact Li. cbn. f_equal. apply Hx.
Qed.
Lemma hears_tree e x : m_tree (hears e x) = m_tree x /\ m_def (hears e x) = m_def x.
Proof. unfold hears. destruct e; cbn; [destruct (w_add _ _ _ _)|destruct (w_rem _ _ _ _)|]; auto. Qed.
Lemma heard_trees e l : map m_tree (heard e l) = map m_tree l.
Proof. induction l as [|x l IH]; cbn; [reflexivity|]. destruct (snd (w_event x e)); cbn; rewrite (proj1 (hears_tree e x)); congruence. Qed.
Lemma heard_split e l1 b l2 : Forall (fun x => snd (w_event x e) = true) l1 -> heard e (l1 ++ b :: l2) = map (hears e) l1 ++ heard e (b :: l2).
Proof. induction 1 as [|x l1 Hx _ IH]; [reflexivity|]. cbn [app heard map]. rewrite Hx. cbn [app]. now rewrite IH. Qed.
Lemma narrow_returns e x : narrow (m_tree x) = true -> snd (w_event x e) = true.
Proof.
  intros H. destruct e as [r|r|]; cbn.
  - pose proof (wadd_narrow (m_def x) r (m_tree x) (m_root x)) as Y. destruct (w_add _ _ _ _). cbn in *. congruence.
  - pose proof (wrem_narrow (m_def x) r (m_tree x) (m_root x) H) as Y. destruct (w_rem _ _ _ _). exact Y.
  - reflexivity.
Qed.

(** ** The invariant *)
Definition first_wide (l l1 : list matcher) (b : matcher) (l2 : list matcher) : Prop :=
  l = l1 ++ b :: l2 /\ Forall (fun x => narrow (m_tree x) = true) l1 /\ narrow (m_tree b) = false.
Definition stuck_on (b : matcher) (r : rule) : Prop := stuck (m_def b) r (m_tree b) (m_root b).
Record Lis (objs : list pobj) (ms : list matcher) : Prop := mkLis {
  li_ok : forall i ob, nth_error objs i = Some ob -> NoDup (o_listeners ob) /\ Forall (fun j => j < List.length ms) (o_listeners ob);
  li_dis : forall i i' ob ob' j, nth_error objs i = Some ob -> nth_error objs i' = Some ob' -> In j (o_listeners ob) -> In j (o_listeners ob') -> i = i';
  li_stuck : forall i p ls l1 b l2, nth_error objs i = Some (mkObj (OPolicy p) ls) -> first_wide (at_ ms ls) l1 b l2 -> forall r, In r (mvals p) -> stuck_on b r
}.
Lemma first_unique l l1 b l2 l1' b' l2' : first_wide l l1 b l2 -> first_wide l l1' b' l2' -> l1 = l1' /\ b = b' /\ l2 = l2'.
Proof.
  intros [-> [N W]] [E [N' W']]. revert l1' N' E. induction N as [|x l1 Hx N IH]; intros l1' N' E.
  - destruct N' as [|y l1' Hy N']; cbn in E; [injection E as <- <-; auto|]. injection E as <- _. congruence.
  - destruct N' as [|y l1' Hy N']; cbn in E; [injection E as <- _; congruence|]. injection E as <- E. destruct (IH l1' N' E) as (-> & -> & ->). auto.
Qed.
(** The first wide matcher stays the first when an event is delivered. *)
Lemma first_heard e l l1 b l2 : first_wide (heard e l) l1 b l2 -> exists k1 c k2, first_wide l k1 c k2 /\ b = hears e c.
Proof.
  revert l1 b l2. induction l as [|x l IH]; intros l1 b l2 [E [N W]]; [destruct l1; discriminate E|]. destruct (narrow (m_tree x)) eqn:Nx.
  - cbn in E. rewrite (narrow_returns e x Nx) in E. destruct N as [|y l1 Hy N]; cbn in E; injection E as E1 E2.
    + subst b. rewrite (proj1 (hears_tree e x)) in W. congruence.
    + destruct (IH l1 b l2) as (k1 & c & k2 & [-> [A B]] & D); [split; auto|]. exists (x :: k1), c, k2. split; [split; [reflexivity|split; [now constructor|exact B]]|exact D].
  - exists [], x, l. split; [split; [reflexivity|split; [constructor|exact Nx]]|]. cbn in E.
    assert (Hh : exists t, heard e (x :: l) = hears e x :: t) by (cbn; destruct (snd (w_event x e)); eauto). destruct Hh as [t Ht]. cbn in Ht. rewrite Ht in E.
    destruct N as [|y l1 Hy N]; cbn in E; injection E as E1 _; [auto|]. subst y. rewrite (proj1 (hears_tree e x)) in Hy. congruence.
Qed.
Definition follows_event (e : event) (p p' : policy) : Prop :=
  match e with
  | EvtAdded r => forall q, In q (mvals p') -> q = r \/ In q (mvals p)
  | EvtRemoved _ => forall q, In q (mvals p') -> In q (mvals p)
  | EvtCleared => mvals p' = []
  end.
Lemma lis_event objs ms i b ls e ms' ok b' : Lis objs ms -> nth_error objs i = Some (mkObj b ls) -> w_notify ms ls e = (ms', ok) ->
  (forall p', b' = OPolicy p' -> exists p, b = OPolicy p /\ follows_event e p p') ->
  Lis (set_nth objs i (mkObj b' ls)) ms'.
Proof.
  intros [L1 L2 L3] Hi Hn Hb. pose proof (nth_lt _ _ _ Hi) as Li. destruct (L1 i _ Hi) as [Nd Fo]. cbn in Nd, Fo.
  destruct (wnotify_spec e ls ms ms' ok Nd Fo Hn) as (Ln & Ot & Ht & _).
  assert (Z : forall k ob, nth_error (set_nth objs i (mkObj b' ls)) k = Some ob -> exists ob0, nth_error objs k = Some ob0 /\ o_listeners ob0 = o_listeners ob).
  { intros k ob Hk. rewrite nth_set_nth in Hk by exact Li. destruct (Nat.eqb_spec k i) as [->|_]; [injection Hk as <-; exists (mkObj b ls); auto|eauto]. }
  constructor.
  - intros k ob Hk. destruct (Z k ob Hk) as (ob0 & A & <-). rewrite Ln. now apply (L1 k ob0).
  - intros k k' ob ob' j Hk Hk' Ij Ij'. destruct (Z k ob Hk) as (ob0 & A & B). destruct (Z k' ob' Hk') as (ob1 & C & D). rewrite <- B in Ij. rewrite <- D in Ij'. eapply L2; eauto.
  - intros k p' ls' l1 x l2 Hk Fw r Hr. rewrite nth_set_nth in Hk by exact Li. destruct (Nat.eqb_spec k i) as [->|Hne].
    + injection Hk as -> <-. destruct (Hb p' eq_refl) as (p & -> & Fe). rewrite Ht in Fw. destruct (first_heard e _ _ _ _ Fw) as (k1 & c & k2 & Fc & ->).
      pose proof (L3 i p ls k1 c k2 Hi Fc) as St. unfold stuck_on in *. rewrite (proj1 (hears_tree e c)), (proj2 (hears_tree e c)). destruct Fc as [_ [_ Wc]].
      unfold hears. destruct e as [q|q|]; cbn [w_event follows_event] in *.
      * pose proof (stuck_new (m_def c) q (m_tree c) (m_root c) Wc) as Sn. pose proof (fun rr => stuck_add (m_def c) rr q (m_tree c) (m_root c)) as Sa.
        destruct (w_add (m_def c) q (m_tree c) (m_root c)) as [n okn]. cbn [fst m_root] in *. destruct (Fe r Hr) as [->|Ho]; [exact Sn|]. apply Sa, St, Ho.
      * pose proof (fun rr => stuck_rem (m_def c) rr q (m_tree c) (m_root c)) as Sa.
        destruct (w_rem (m_def c) q (m_tree c) (m_root c)) as [n okn]. cbn [fst m_root] in *. apply Sa, St, Fe, Hr.
      * rewrite Fe in Hr. destruct Hr.
    + apply (L3 k p' ls' l1 x l2 Hk); [|exact Hr]. rewrite <- (at_ext ms ms' ls'); [exact Fw|]. intros j Hj. apply Ot. intros Hj'. apply Hne. eapply L2; eauto.
Qed.
Lemma lis_none objs ms i b ls b' : Lis objs ms -> nth_error objs i = Some (mkObj b ls) ->
  (forall p', b' = OPolicy p' -> exists p, b = OPolicy p /\ p' = p) -> Lis (set_nth objs i (mkObj b' ls)) ms.
Proof.
  intros [L1 L2 L3] Hi Hb. pose proof (nth_lt _ _ _ Hi) as Li.
  assert (Z : forall k ob, nth_error (set_nth objs i (mkObj b' ls)) k = Some ob -> exists ob0, nth_error objs k = Some ob0 /\ o_listeners ob0 = o_listeners ob).
  { intros k ob Hk. rewrite nth_set_nth in Hk by exact Li. destruct (Nat.eqb_spec k i) as [->|_]; [injection Hk as <-; exists (mkObj b ls); auto|eauto]. }
  constructor.
  - intros k ob Hk. destruct (Z k ob Hk) as (ob0 & A & <-). now apply (L1 k ob0).
  - intros k k' ob ob' j Hk Hk' Ij Ij'. destruct (Z k ob Hk) as (ob0 & A & B). destruct (Z k' ob' Hk') as (ob1 & C & D). rewrite <- B in Ij. rewrite <- D in Ij'. eapply L2; eauto.
  - intros k p' ls' l1 x l2 Hk Fw r Hr. rewrite nth_set_nth in Hk by exact Li. destruct (Nat.eqb_spec k i) as [->|Hne]; [|eapply L3; eauto].
    injection Hk as -> <-. destruct (Hb p' eq_refl) as (p & -> & ->). eapply L3; eauto.
Qed.
Lemma mvals_mput {V} k (v : V) m q : In q (mvals (mput k v m)) -> q = v \/ In q (mvals m).
Proof.
  unfold mvals. induction m as [|[k' v'] m IH]; cbn; [intros [<-|[]]; auto|]. destruct (String.eqb k k'); cbn; intros [<-|H]; auto. destruct (IH H); auto.
Qed.
Lemma mvals_mdel {V} k (m : smap V) q : In q (mvals (mdel k m)) -> In q (mvals m).
Proof. unfold mvals. induction m as [|[k' v'] m IH]; cbn; [tauto|]. destruct (String.eqb k k'); cbn; intros H; [auto|destruct H; auto]. Qed.
Lemma pstep_events p a p' b es : pstep p a = (p', b, es) -> (es = [] /\ p' = p /\ b = false) \/ exists e, es = [e] /\ follows_event e p p' /\ b = true.
Proof.
  destruct a as [r|r|]; cbn; unfold AddRule, RemoveRule.
  - destruct (mget (Hash r) p); intros [= <- <- <-]; [auto|right]. exists (EvtAdded r). split; [reflexivity|]. split; [|reflexivity]. intros q Hq. now apply mvals_mput in Hq.
  - destruct (mget (Hash r) p); intros [= <- <- <-]; [right|auto]. exists (EvtRemoved r). split; [reflexivity|]. split; [|reflexivity]. intros q Hq. now apply mvals_mdel in Hq.
  - intros [= <- <- <-]. right. exists EvtCleared. repeat split.
Qed.
Lemma act_role_events ord x a x' b es : act_role ord x a = Val (x', b, es) -> es = [] \/ exists e, es = [e].
Proof.
  destruct a as [[|n1 [|n2 ds]]|[|n1 [|n2 ds]]|]; cbn [act_role]; try discriminate.
  - destruct (i_Add ord x n1 n2 ds) as [[y [|]]|]; cbn [obind]; intros H; try discriminate H; injection H as <- <- <-; eauto.
  - destruct (i_Del ord x n1 n2 ds) as [[y [|]]|]; cbn [obind]; intros H; try discriminate H; injection H as <- <- <-; eauto.
  - intros H. injection H as <- <- <-. auto.
Qed.
Definition LisM (m : model) : Prop := Lis (md_objs m) (md_mats m).
Lemma lis_act o m i a m1 res : LisM m -> w_act o m i a = Val (m1, res) -> LisM m1.
Proof.
  unfold LisM, w_act. intros L H. destruct (nth_error (md_objs m) i) as [ob|] eqn:Eo; [|discriminate H]. destruct ob as [[p|rm] ls]; cbn [o_body o_listeners] in H.
  - destruct (pstep p a) as [[p' b] es] eqn:Ep. destruct (pstep_events _ _ _ _ _ Ep) as [(-> & -> & _)|(e & -> & Fe & _)]; cbn [w_notify_all] in H.
    + injection H as <- <-. cbn. eapply lis_none; [exact L|exact Eo|]. intros p' [= <-]. eauto.
    + destruct (w_notify (md_mats m) ls e) as [ms ok] eqn:En. assert (Hm : m1 = set_mats (set_objs m (set_nth (md_objs m) i (mkObj (OPolicy p') ls))) ms) by (destruct ok; injection H; auto).
      subst m1. cbn. eapply lis_event; [exact L|exact Eo|exact En|]. intros q [= <-]. eauto.
  - destruct (nth_error (md_rms m) rm) as [x|]; [|discriminate H].
    assert (Z : forall y, y = (let! (x', b, es) := act_role (o_names o) x a in
                  let '(ms, ok) := w_notify_all (md_mats m) ls es in
                  Val (set_mats (set_rms m (set_nth (md_rms m) rm x')) ms, if ok : bool then Some b else None)) -> y = Val (m1, res) -> Lis (md_objs m1) (md_mats m1)).
    { intros y -> Hy. destruct (act_role (o_names o) x a) as [[[x' b] es]|] eqn:Ea; [|discriminate Hy]. cbn [obind] in Hy.
      destruct (act_role_events _ _ _ _ _ _ Ea) as [->|[e ->]]; cbn [w_notify_all] in Hy; [injection Hy as <- <-; exact L|].
      destruct (w_notify (md_mats m) ls e) as [ms ok] eqn:En. assert (Hm : m1 = set_mats (set_rms m (set_nth (md_rms m) rm x')) ms) by (destruct ok; injection Hy; auto).
      subst m1. cbn. rewrite <- (set_nth_id (md_objs m) i (mkObj (ORole rm) ls) Eo). eapply lis_event; [exact L|exact Eo|exact En|]. intros q Hq. discriminate Hq. }
    destruct a as [[|? [|? ?]]|[|? [|? ?]]|]; try (injection H as <- <-; exact L); eapply Z; eauto.
Qed.
Lemma lis_new objs ms b : Lis objs ms -> Lis (objs ++ [mkObj b []]) ms.
Proof.
  intros [L1 L2 L3].
  assert (Z : forall k ob, nth_error (objs ++ [mkObj b []]) k = Some ob -> nth_error objs k = Some ob \/ o_listeners ob = []).
  { intros k ob Hk. rewrite nth_snoc in Hk. destruct (Nat.eqb k _); [injection Hk as <-; now right|now left]. }
  constructor.
  - intros k ob Hk. destruct (Z k ob Hk) as [A| ->]; [now apply (L1 k)|split; constructor].
  - intros k k' ob ob' j Hk Hk' Ij Ij'. destruct (Z k ob Hk) as [A|A]; [|rewrite A in Ij; destruct Ij]. destruct (Z k' ob' Hk') as [B|B]; [|rewrite B in Ij'; destruct Ij']. eapply L2; eauto.
  - intros k p ls l1 x l2 Hk Fw r Hr. destruct (Z k _ Hk) as [A|A]; [eapply L3; eauto|]. cbn in A. subst ls. destruct Fw as [E _]. destruct l1; discriminate E.
Qed.
Lemma NewMatcher_wide d l s x : NewMatcher d l s = Val x -> narrow s = false -> l = [].
Proof.
  destruct l as [|r l]; [reflexivity|]. unfold NewMatcher. cbn [map m_events m_event m_def m_tree m_root]. intros H Hw. exfalso.
  pose proof (proj1 (add_narrow d r s empty_root)) as X. destruct (addRuleHelper d r s empty_root) as [n|]; [|discriminate H]. rewrite X in Hw by discriminate. discriminate Hw.
Qed.
Lemma lis_build E o m expr m' r : good_orders o -> LisM m -> w_build_def E o m expr = (m', r) -> LisM m'.
Proof.
  intros Go L. unfold w_build_def, BuildMatcherFromDef. destruct (Build _ _ expr) as [root|e]; [|now intros [= <- _]]. cbv zeta.
  destruct (first_byte (GetPolicyKey root)) as [c|]; [|now intros [= <- _]]. destruct (if Ascii.eqb c "p" then _ else _) as [d|]; [|now intros [= <- _]].
  destruct (GetPolicy m (GetPolicyKey root)) as [i|]; [|now intros [= <- _]]. destruct (nth_error (md_objs m) i) as [ob|] eqn:Eo; [|now intros [= <- _]].
  destruct (NewMatcher d (obj_rules o m i) root) as [x|] eqn:En; cbn [obind]; [|now intros [= <- _]]. intros [= <- _]. unfold LisM in *. cbn. pose proof (nth_lt _ _ _ Eo) as Li.
  destruct L as [L1 L2 L3]. set (j0 := List.length (md_mats m)). set (objs' := set_nth (md_objs m) i _).
  assert (Fr : forall k ob', nth_error (md_objs m) k = Some ob' -> ~ In j0 (o_listeners ob')).
  { intros k ob' Hk Hi. destruct (L1 k ob' Hk) as [_ F]. rewrite Forall_forall in F. specialize (F _ Hi). unfold j0 in F. lia. }
  assert (Z : forall k ob', nth_error objs' k = Some ob' -> exists ob0, nth_error (md_objs m) k = Some ob0 /\ o_body ob0 = o_body ob' /\
      ((k <> i /\ ob' = ob0) \/ (k = i /\ o_listeners ob' = o_listeners ob0 ++ [j0]))).
  { intros k ob' Hk. unfold objs' in Hk. rewrite nth_set_nth in Hk by exact Li. destruct (Nat.eqb_spec k i) as [->|Hne]; [injection Hk as <-; exists ob; auto|eauto 8]. }
  assert (Lv : forall k ob' j, nth_error objs' k = Some ob' -> In j (o_listeners ob') -> (k = i /\ j = j0) \/ exists ob0, nth_error (md_objs m) k = Some ob0 /\ In j (o_listeners ob0)).
  { intros k ob' j Hk Hj. destruct (Z k ob' Hk) as (ob0 & A & _ & [[_ ->]|[-> D]]); [eauto|]. rewrite D in Hj. apply in_app_or in Hj as [Hj|[<-|[]]]; eauto. }
  assert (Ax : forall ls, Forall (fun j => j < List.length (md_mats m)) ls -> at_ (md_mats m ++ [x]) ls = at_ (md_mats m) ls).
  { intros ls F. rewrite Forall_forall in F. apply at_ext. intros j Hj. apply nth_error_app1. now apply F. }
  constructor.
  - intros k ob' Hk. rewrite app_length. cbn [List.length]. destruct (Z k ob' Hk) as (ob0 & A & _ & [[_ ->]|[-> D]]).
    + destruct (L1 k ob0 A) as [N F]. split; [exact N|]. eapply Forall_impl; [|exact F]. cbn. intros; lia.
    + destruct (L1 i ob0 A) as [N F]. rewrite D. split; [apply NoDup_snoc; [now apply (Fr i)|exact N]|]. apply Forall_app. split; [eapply Forall_impl; [|exact F]; cbn; intros; lia|]. constructor; [unfold j0; lia|constructor].
  - intros k k' oa oc j Hk Hk' Ij Ij'. destruct (Lv k oa j Hk Ij) as [[-> ->]|(ob0 & A & B)]; destruct (Lv k' oc _ Hk' Ij') as [[-> U]|(ob1 & C & D)]; auto.
    + destruct (Fr k' ob1 C D).
    + subst j. destruct (Fr k ob0 A B).
    + eapply L2; eauto.
  - intros k p ls l1 y l2 Hk Fw rr Hr. destruct (Z k _ Hk) as (ob0 & A & Bo & [[_ <-]|[-> D]]).
    + apply (L3 k p ls l1 y l2 A); [|exact Hr]. rewrite <- Ax; [exact Fw|]. now destruct (L1 k _ A).
    + cbn [o_body o_listeners] in Bo, D. subst ls. rewrite Eo in A. injection A as <-. rewrite at_app, Ax in Fw by (now destruct (L1 i _ Eo)). cbn [at_ flat_map] in Fw.
      unfold j0 in Fw. rewrite nth_error_app2, Nat.sub_diag in Fw by lia. cbn in Fw. destruct ob as [bd ls0]. cbn [o_body o_listeners] in *. subst bd.
      destruct Fw as [Es [N W]]. destruct l2 as [|z l2] using rev_ind.
      * apply app_inj_tail in Es as [Es <-]. destruct (NewMatcher_def _ _ _ _ En) as [_ Et]. rewrite Et in W. pose proof (NewMatcher_wide _ _ _ _ En W) as Em.
        rewrite (obj_rules_policy o m i p ls0 Eo) in Em. destruct Go as [_ [Gp _]]. pose proof (Gp (mvals p)) as Pm. rewrite Em in Pm. apply Permutation_nil in Pm. rewrite Pm in Hr. destruct Hr.
      * apply (L3 i p ls0 l1 y l2 Eo); [|exact Hr]. split; [|auto]. rewrite app_comm_cons, app_assoc in Es. now apply app_inj_tail in Es as [-> _].
Qed.
Lemma lis_build_key E o m key m' r : good_orders o -> LisM m -> w_build_key E o m key = (m', r) -> LisM m'.
Proof.
  intros Go L. unfold w_build_key. destruct (mget key (md_m m)) as [expr|]; [|now intros [= <- _]]. destruct (w_build_def E o m expr) as [m1 r1] eqn:Eb. pose proof (lis_build _ _ _ _ _ _ Go L Eb) as X.
  destruct r1 as [[j|e]|]; intros [= <- _]; auto.
Qed.
Lemma lis_build_loop E o keys : good_orders o -> forall m m' r, LisM m -> w_build_loop E o m keys = (m', r) -> LisM m'.
Proof.
  intros Go. induction keys as [|k keys IH]; intros m m' r L; cbn [w_build_loop]; [now intros [= <- _]|]. destruct (w_build_key E o m k) as [m1 r1] eqn:Eb.
  pose proof (lis_build_key _ _ _ _ _ _ Go L Eb) as X. destruct r1 as [[e|]|]; [intros [= <- _]; auto| |intros [= <- _]; auto]. apply IH; exact X.
Qed.
Lemma lis_step E o m c m1 res : good_orders o -> LisM m -> w_step E o m c = Val (m1, res) -> LisM m1.
Proof.
  intros Go L H. destruct c as [s k v|s k|rl|rl|k| |k|expr|k x|n f|n]; cbn [w_step] in H.
  - unfold SetDef in H. destruct (keyPrefix s) as [c|]; [|injection H as <- <-; exact L]. destruct (first_byte k) as [c'|]; [|injection H as <- <-; exact L].
    destruct (Ascii.eqb c' c); injection H as <- <-; [|exact L]. destruct s; try exact L; unfold LisM, addPolicyDef, addRoleDef, SetRoleManager, new_obj; cbn;
      now apply lis_new.
  - cbn [mstep] in H. destruct s; cbn in H; injection H as <- <-; exact L.
  - unfold w_rule in H. destruct rl as [|k r]; [injection H as <- <-; exact L|]. destruct (first_byte k); [|injection H as <- <-; exact L].
    destruct (Ascii.eqb _ "p"); [destruct (mget k (md_pMap m))|destruct (Ascii.eqb _ "g"); [destruct (mget k (md_rpMap m))|]]; try (injection H as <- <-; exact L);
      destruct (w_act o m _ _) as [[m' b]|] eqn:Ew; cbn in H; try discriminate H; injection H as <- <-; eapply lis_act; eauto.
  - unfold w_rule in H. destruct rl as [|k r]; [injection H as <- <-; exact L|]. destruct (first_byte k); [|injection H as <- <-; exact L].
    destruct (Ascii.eqb _ "p"); [destruct (mget k (md_pMap m))|destruct (Ascii.eqb _ "g"); [destruct (mget k (md_rpMap m))|]]; try (injection H as <- <-; exact L);
      destruct (w_act o m _ _) as [[m' b]|] eqn:Ew; cbn in H; try discriminate H; injection H as <- <-; eapply lis_act; eauto.
  - unfold w_clear in H. destruct (GetPolicy m k) as [i|]; [|injection H as <- <-; exact L]. destruct (w_act o m i PClear) as [[m' b]|] eqn:Ew; cbn in H; [|discriminate H]. injection H as <- <-. eapply lis_act; eauto.
  - destruct (w_build_loop E o m _) as [m' r] eqn:Eb. injection H as <- <-. eapply lis_build_loop; eauto.
  - destruct (w_build_key E o m k) as [m' r] eqn:Eb. injection H as <- <-. eapply lis_build_key; eauto.
  - destruct (w_build_def E o m expr) as [m' r] eqn:Eb. injection H as <- <-. eapply lis_build; eauto.
  - cbn [mstep obind] in H. injection H as <- <-. unfold LisM, SetRoleManager, new_obj. cbn. now apply lis_new.
  - cbn [mstep obind] in H. injection H as <- <-. exact L.
  - cbn [mstep] in H. unfold RemoveFunction in H. destruct (mhas n (md_fm m)); cbn in H; injection H as <- <-; exact L.
Qed.
Lemma lis_exec E h : forall m m1 rs, good_m h -> LisM m -> w_exec E m h = Val (m1, rs) -> LisM m1.
Proof.
  induction h as [|[o c] h IH]; intros m m1 rs Go L H; cbn [w_exec] in H; [injection H as <- <-; exact L|]. inversion Go as [|? ? Ho Gh]; subst. cbn in Ho.
  destruct (w_step E o m c) as [[m2 r]|] eqn:Es; cbn in H; [|discriminate H]. destruct (w_exec E m2 h) as [[m3 rs']|] eqn:Ee; cbn in H; [|discriminate H]. injection H as <- <-.
  apply (IH m2 m3 rs' Gh); [eapply lis_step; eauto|exact Ee].
Qed.
Lemma lis_start E : LisM (NewModel E).
Proof. unfold LisM. cbn. constructor; intros i; destruct i; discriminate. Qed.
