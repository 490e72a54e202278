(** Lemmas about managers with domains whose matchers are set and changed. *)
From Verif Require Import GoBase GoBaseP PolicyM CacheM CacheSpec PathM RbacM RbacSpec RbacP RbacP2 RbacP3 RbacP4 RbacP5 PatternsM PatternsSpec
  DomainM DomainSpec DomainP DomainP2 DomainP3 DomainP4 DomainP5.
From Verif Require Import Prop_Rbac Prop_Patterns Prop_Domain DomainP6.
From Verif Require Import DefsM ModelM ModelSpec MultiSpec LogicSpec RoleAccessM RoleAccessSpec DomainPatternSpec.
Local Open Scope list_scope.

(** ** Without domain matcher *)
Record tree (m : option imatcher) (N : string -> Prop) (level : Z) (L : list string -> linkset) (x : irm) : Prop := mkTree {
  t_tok : tok m x level;
  t_nk : nk x;
  t_at : forall p, match lookup p x with
                   | Some rm => pok N rm (L p) /\ rm_matcher rm = m /\ rm_level rm = (level - 1 - Z.of_nat (List.length p))%Z
                   | None => forall u v, L p u v = false
                   end
}.

Lemma pok_ext N rm (L L' : linkset) : pok N rm L -> (forall u v, L u v = L' u v) -> pok N rm L'.
Proof. intros [[K H] F] E. split; [|exact F]. exists K. eapply wholds_ext; [exact H| |reflexivity]. intros a b. now rewrite E. Qed.

Lemma tree_current m N level L x p : tree m N level L x ->
  let rm := current m level p x in pok N rm (L p) /\ rm_matcher rm = m /\ rm_level rm = (level - 1 - Z.of_nat (List.length p))%Z.
Proof.
  intros T. pose proof (t_at _ _ _ _ _ T p) as H. unfold current. destruct (lookup p x) as [rm|]; [exact H|]. cbn zeta. split; [|split; reflexivity].
  apply (pok_ext _ _ no_links); [|intros u v; now rewrite H]. split; [exists no_names; apply wholds_start|]. intros u. reflexivity.
Qed.

Lemma tree_step m N level L ord c x : names_ok m N -> good_order ord ->
  (match call_domains c with Some ds => unreserved ds | None => True end) ->
  (forall n, In n (call_names (without_domains c)) -> N n) -> tree m N level L x ->
  exists x' a, dstep ord x c = Val (x', a) /\
    tree m N level (fun p => if concerns p c then links_step (L p) (without_domains c) else L p) x'.
Proof.
  intros HN Ho Hu Hn T. unfold concerns. destruct (call_domains c) as [ds|] eqn:Ec.
  - pose proof (t_tok _ _ _ _ _ T) as Tk. rewrite (dstep_at m level ord x c ds Tk Ec).
    pose proof (at_spec (leaf ord c) (stores c) m (fuel x ds) ds x level Tk ltac:(unfold fuel; lia)) as Hat.
    rewrite (place_unreserved ds Hu) in Hat. cbn [fst snd] in Hat.
    destruct (tree_current _ _ _ _ _ ds T) as (P & Em & El). set (cu := current m level ds x) in *.
    assert (El' : leaf ord c [] cu = rstep ord cu (without_domains c)) by (destruct c; reflexivity).
    destruct (pok_step N cu (L ds) ord (PCall (without_domains c))) as (rm' & a & Es & P' & Em' & Ev'); [now rewrite Em|exact Ho| |exact P|].
    { split; [destruct c; exact Logic.I || reflexivity|exact Hn]. }
    cbn [pat_step] in Es. rewrite El', Es in Hat. destruct Hat as (x' & Ea & Tx & Hl). exists x', a. split; [exact Ea|]. constructor.
    + exact Tx.
    + eapply nk_at; [apply (t_nk _ _ _ _ _ T)|exact Ea].
    + intros q. rewrite Hl. destruct (path_eqb q ds) eqn:Eq; cbn [andb].
      * apply path_eqb_true in Eq. rewrite Eq, path_eqb_refl. destruct (stores c || is_some (lookup ds x)) eqn:Est.
        -- split; [exact P'|]. split; [now rewrite Em', Em|]. now rewrite Ev'.
        -- apply orb_false_iff in Est as [Es1 Es2]. pose proof (t_at _ _ _ _ _ T ds) as H. destruct (lookup ds x); [discriminate|]. intros u v.
           destruct c; cbn in Es1; try discriminate; cbn; try apply H.
      * assert (path_eqb ds q = false) as ->. { destruct (path_eqb ds q) eqn:E2; [|reflexivity]. apply path_eqb_true in E2. rewrite E2, path_eqb_refl in Eq. discriminate. }
        apply (t_at _ _ _ _ _ T).
  - destruct c; try discriminate. cbn [dstep]. pose proof (t_tok _ _ _ _ _ T) as Tk. inversion Tk as [d H1 H2 H3 H4]; subst. cbn [i_Clear].
    do 2 eexists. split; [reflexivity|]. constructor.
    + apply (tok_dom (d_matcher d) (dm_Clear d)); cbn; auto; discriminate.
    + constructor; cbn; [constructor|discriminate].
    + intros p. rewrite (lookup_clear (d_matcher d) d (d_level d) p Tk). reflexivity.
Qed.

Lemma tree_set m N level L ord m2 x : names_ok m2 N -> good_order ord -> tree m N level L x ->
  exists x', i_SetMatcher ord x m2 = Val x' /\ tree m2 N level L x'.
Proof.
  intros HN Ho [Tk Nk At].
  assert (S : forall p rm, lookup p x = Some rm -> exists rm', rm_SetMatcher ord rm m2 = Val rm' /\ pok N rm' (L p) /\ rm_matcher rm' = m2 /\ rm_level rm' = rm_level rm).
  { intros p rm Hp. specialize (At p). rewrite Hp in At. destruct At as [[[K P] F] _].
    destruct (SetMatcher_wholds N N rm (L p) K ord m2 Ho P F HN) as (rm' & K' & A & B & _ & C & D & E); [|exists rm'; split; [exact A|split; [split; eauto|auto]]].
    intros a b Hl. destruct (wholds_link_known _ _ _ _ _ _ P Hl) as [Ka Kb]. split; now apply (wh_N _ _ _ _ P). }
  destruct (setm_tree m m2 ord x level Tk Nk) as (x' & Ex & Tx & Hx); [intros p rm Hp; destruct (S p rm Hp) as (rm' & A & _); eauto|].
  exists x'. split; [exact Ex|]. constructor; [exact Tx| |].
  - clear - Ex Nk. revert x' Ex. assert (G : forall x, nk x -> forall x', i_SetMatcher ord x m2 = Val x' -> nk x'); [|intros; eapply G; eauto].
    clear. induction 1 as [rm|d Nd Nc IH]; intros x' E; [cbn in E; destruct (rm_SetMatcher ord rm m2); cbn in E; [|discriminate]; injection E as <-; constructor|].
    rewrite SetMatcher_dom in E. destruct (on_all _ (d_map d)) as [l|] eqn:Ea; cbn [obind] in E; [|discriminate]. injection E as <-.
    assert (G : forall l0 l1, on_all (fun v => i_SetMatcher ord v m2) l0 = Val l1 -> mkeys l1 = mkeys l0 /\
       forall k v, mget k l1 = Some v -> exists v0, mget k l0 = Some v0 /\ i_SetMatcher ord v0 m2 = Val v).
    { clear. induction l0 as [|[k0 v0] l0 IH]; intros l1 E; cbn [on_all] in E; [injection E as <-; split; [reflexivity|discriminate]|].
      destruct (i_SetMatcher ord v0 m2) as [v1|] eqn:E1; cbn [obind] in E; [|discriminate].
      destruct (on_all _ l0) as [l2|]; cbn [obind] in E; [|discriminate]. injection E as <-. destruct (IH l2 eq_refl) as [A B].
      split; [exact (f_equal (cons k0) A)|]. intros k v. cbn [mget]. destruct (String.eqb k k0); [intros [= <-]; eauto|apply B]. }
    destruct (G _ _ Ea) as [Ek Hl]. constructor; cbn [d_map]; [now rewrite Ek|]. intros k v Hv. destruct (Hl _ _ Hv) as (v0 & E0 & E1). exact (IH _ _ E0 _ E1).
  - intros p. specialize (Hx p). specialize (At p). destruct (lookup p x) as [rm|] eqn:Hp.
    + destruct Hx as (rm' & A & B). rewrite B. destruct (S p rm Hp) as (rm2 & A2 & P & Q & R). rewrite A in A2. injection A2 as <-. split; [exact P|]. split; [exact Q|]. rewrite R. apply At.
    + rewrite Hx. exact At.
Qed.

Lemma flat_tree_step m N level L ord c x x' a : tree m N level L x -> flat m level x ->
  (match call_domains c with Some ds => unreserved ds | None => True end) -> one_domain_each c ->
  dstep ord x c = Val (x', a) -> flat m level x'.
Proof. intros T F U O E. eapply flat_step; [apply (t_tok _ _ _ _ _ T)|exact F|exact O|exact U|exact E]. Qed.

Lemma calls_in_cons p o c l : calls_in p ((o, c) :: l) = (if concerns p c then [(o, without_domains c)] else []) ++ calls_in p l.
Proof. unfold calls_in. cbn [filter snd]. destruct (concerns p c); reflexivity. Qed.

Lemma tree_ext m N level L L' x : tree m N level L x -> (forall p u v, L p u v = L' p u v) -> tree m N level L' x.
Proof.
  intros [A B C] E. constructor; auto. intros p. specialize (C p). destruct (lookup p x) as [rm|].
  - destruct C as (C1 & C2). split; [|exact C2]. eapply pok_ext; [exact C1|]. apply E.
  - intros u v. rewrite <- E. apply C.
Qed.

(** Calls and role matchers. *)
Lemma tree_exec (N : string -> Prop) level l : forall m L x,
  (forall mm, mm = m \/ In (PSet mm) (map snd (pcalls l)) -> names_ok mm N) ->
  Forall (fun c => good_order (fst c)) l -> Forall (fun c => early_call (snd c)) l ->
  (forall n, In n (pnames (pcalls l)) -> N n) -> tree m N level L x ->
  exists x' ys, role_exec x l = Val (x', ys) /\
    tree (fold_left pmatcher_step (map snd (pcalls l)) m) N level (fun p => fold_left links_step (map snd (calls_in p (dcalls l))) (L p)) x' /\
    (Forall (fun c => one_each (snd c)) l -> flat m level x -> flat (fold_left pmatcher_step (map snd (pcalls l)) m) level x').
Proof.
  induction l as [|[o c] l IH]; intros m L x HN Hg He Hn T.
  - exists x, []. split; [reflexivity|]. split; [exact T|]. intros _ F. exact F.
  - apply Forall_cons_iff in Hg as [Ho Hg]. apply Forall_cons_iff in He as [Hc He]. cbn [fst snd] in Ho, Hc.
    destruct c as [c|m2|]; cbn [early_call] in Hc; [| |contradiction].
    + destruct (tree_step m N level L o c x (HN _ (or_introl eq_refl)) Ho Hc) as (x1 & a & E1 & T1); [|exact T|].
      { intros n Hi. apply Hn. cbn [pcalls flat_map snd fst as_pcall map app pnames]. apply in_or_app. left. destruct c; exact Hi. }
      destruct (IH m (fun p => if concerns p c then links_step (L p) (without_domains c) else L p) x1) as (x2 & ys & E2 & T2 & F2); [|exact Hg|exact He| |exact T1|].
      { intros mm [->|Hi]; apply HN; [now left|right; right; exact Hi]. }
      { intros n Hi. apply Hn. cbn [pcalls flat_map snd fst as_pcall map app pnames]. apply in_or_app. now right. }
      exists x2. eexists. split; [cbn [role_exec role_step]; rewrite E1; cbn [obind]; rewrite E2; reflexivity|]. split.
      * eapply tree_ext; [exact T2|]. intros p u v. cbn [dcalls flat_map snd fst app]. fold (dcalls l). rewrite calls_in_cons. destruct (concerns p c); reflexivity.
      * intros O F. apply Forall_cons_iff in O as [O1 O2]. apply F2; [exact O2|]. exact (flat_tree_step m N level L o c x x1 a T F Hc O1 E1).
    + assert (HN2 : names_ok m2 N) by (apply HN; right; now left).
      destruct (tree_set m N level L o m2 x HN2 Ho T) as (x1 & E1 & T1).
      destruct (IH m2 L x1) as (x2 & ys & E2 & T2 & F2); [|exact Hg|exact He| |exact T1|].
      { intros mm [->|Hi]; [exact HN2|]. apply HN. right. now right. }
      { intros n Hi. apply Hn. exact Hi. }
      exists x2. eexists. split; [cbn [role_exec role_step]; rewrite E1; cbn [obind]; rewrite E2; reflexivity|]. split; [exact T2|].
      intros O F. apply Forall_cons_iff in O as [_ O2]. apply F2; [exact O2|]. exact (proj1 (flat_set _ _ _ _ _ _ F E1 (t_nk _ _ _ _ _ T))).
Qed.

Lemma tree_start N level : tree None N level (fun _ => no_links) (domains_with level None None).
Proof. constructor; [apply tok_start|constructor; cbn; [constructor|discriminate]|]. intros p. unfold domains_with. rewrite lookup_empty. reflexivity. Qed.
Lemma flat_start level : flat None level (domains_with level None None).
Proof. eexists. split; [reflexivity|]. cbn. repeat split; auto. discriminate. Qed.

(** The answer of HasLink. *)
Lemma chain_nstep m (L : linkset) (R : string -> string -> Prop) : (forall u v, L u v = true <-> R u v) ->
  forall n a y, chain (ustep m L) n a y <-> chain (nstep m R) n a y.
Proof.
  intros H n. assert (S : forall u v, ustep m L u v <-> nstep m R u v).
  { intros u v. unfold ustep, nstep. split; intros [p [A B]]; exists p; (split; [now apply H|exact B]). }
  intros a y. apply chain_iff with (Q := fun _ => True); auto.
Qed.

Lemma tree_has m N level L x ord a b ds (R : string -> string -> Prop) : names_ok m N -> good_order ord -> unreserved ds -> N a -> N b -> tree m N level L x ->
  ordinary_name m a -> (forall u v, L ds u v = true <-> R u v) -> (forall u v, R u v -> ordinary_name m v) ->
  exists x' r, i_Has ord x a b ds = Val (x', r) /\
    (r = true <-> hits m a b \/ exists n y, (Z.of_nat n < level - 1 - Z.of_nat (List.length ds))%Z /\ chain (nstep m R) n a y /\ hits m y b).
Proof.
  intros HN Ho Hu Na Nb T Oa HL HO. destruct (tree_current _ _ _ _ _ ds T) as ([[K P] _] & Em & El). pose proof (t_tok _ _ _ _ _ T) as Tk.
  destruct (HasLink_wholds N (current m level ds x) (L ds) K ord a b) as (rm' & r & Er & Hr); auto.
  - now rewrite Em.
  - rewrite Em. now apply ordinary_pat.
  - intros u v Hl. rewrite Em. apply ordinary_pat. apply (HO u v). now apply HL.
  - pose proof (at_spec (leaf ord (DHas a b ds)) false m (fuel x ds) ds x level Tk ltac:(unfold fuel; lia)) as Hat.
    rewrite (place_unreserved ds Hu) in Hat. cbn [fst snd leaf without_domains rstep] in Hat. rewrite Er in Hat. cbn [obind] in Hat.
    destruct Hat as (x' & Ea & _). pose proof (dstep_at m level ord x (DHas a b ds) ds Tk eq_refl) as Ed. cbn [dstep stores] in Ed.
    rewrite Ea in Ed. destruct (i_Has ord x a b ds) as [[x2 r2]|]; cbn [obind] in Ed; [|discriminate]. injection Ed as -> ->.
    exists x', r. split; [reflexivity|]. rewrite Hr, Em, El.
    split; (intros [H|[n [y (A & B & C)]]]; [now left|right; exists n, y; split; [exact A|split; [|exact C]]]); now apply (chain_nstep m (L ds) R HL).
Qed.

(** ** The domain matcher *)
Lemma tree_links m N level L x ord u v ds : good_order ord -> tree m N level L x ->
  In (u, v, ds) (i_links ord x) <-> L ds u v = true.
Proof.
  intros Ho T. rewrite (in_i_links m ord x level Ho (t_tok _ _ _ _ _ T)). pose proof (t_at _ _ _ _ _ T ds) as H. destruct (lookup ds x) as [rm|].
  - destruct H as [[[K P] F] _]. split.
    + intros [rm' [E Hi]]. injection E as <-. apply (in_all_links _ _ _ Ho) in Hi as [a [b [Ei [Hi _]]]]. injection Ei as <- <-. now apply (wh_links _ _ _ _ P).
    + intros Hl. exists rm. split; [reflexivity|]. apply (in_all_links _ _ _ Ho). exists u, v. split; [reflexivity|]. split; [now apply (wh_links _ _ _ _ P)|]. rewrite F. easy.
  - split; [intros [rm' [E _]]; discriminate|]. intros Hl. rewrite H in Hl. discriminate.
Qed.
Lemma tree_in_N m (N : string -> Prop) level L x u v ds : tree m N level L x -> L ds u v = true -> N u /\ N v.
Proof.
  intros T Hl. destruct (tree_current _ _ _ _ _ ds T) as ([[K P] _] & _). destruct (wholds_link_known _ _ _ _ _ _ P Hl) as [Ka Kb]. split; now apply (wh_N _ _ _ _ P).
Qed.

Lemma exec_RC l : Forall (fun c => exists dc, snd c = RC dc) l -> forall x, role_exec x l = dexec x (dcalls l).
Proof.
  induction 1 as [|[o c] l [d Hd] F IH]; intros x; [reflexivity|]. cbn [snd] in Hd. subst c. cbn [dcalls flat_map snd fst app role_exec role_step dexec]. fold (dcalls l).
  destruct (dstep o x d) as [[x1 a]|]; cbn [obind]; [|reflexivity]. now rewrite IH.
Qed.
Lemma exec_app l1 : forall x l2, role_exec x (l1 ++ l2) = obind (role_exec x l1) (fun r => obind (role_exec (fst r) l2) (fun s => Val (fst s, snd r ++ snd s))).
Proof.
  induction l1 as [|[o c] l1 IH]; intros x l2; cbn [role_exec app obind fst snd].
  - destruct (role_exec x l2) as [[y ys]|]; reflexivity.
  - destruct (role_step o x c) as [[x1 a]|]; cbn [obind]; [|reflexivity]. rewrite IH. destruct (role_exec x1 l1) as [[x2 as2]|]; cbn [obind fst snd]; [|reflexivity].
    destruct (role_exec x2 l2) as [[x3 as3]|]; reflexivity.
Qed.
Lemma link_was_added ds h a b : links_of (calls_in ds h) a b = true -> exists o, In (o, DAdd a b ds) h.
Proof.
  assert (G : forall l L x y, fold_left links_step l L x y = true -> L x y = true \/ exists es, In (RAdd x y es) l).
  { clear. induction l as [|c l IH]; intros L x y H; cbn in H; [now left|].
    destruct (IH _ _ _ H) as [Hs|[es Hi]]; [|right; exists es; now right].
    destruct c as [u v es|u v es|u v|u|u|]; cbn in Hs; auto; unfold link_add, link_del, no_links in Hs.
    - apply orb_prop in Hs as [Hs|Hs]; [|auto]. apply andb_prop in Hs as [H1 H2]. apply String.eqb_eq in H1, H2. subst. right. exists es. now left.
    - apply andb_prop in Hs as [_ Hs]. auto.
    - discriminate. }
  intros H. apply G in H as [H|[es H]]; [discriminate|].
  apply in_map_iff in H as [[o c] [E H]]. cbn in E. subst c. unfold calls_in in H.
  apply in_map_iff in H as [[o' c'] [E H]]. apply filter_In in H as [H Hc]. cbn in E, Hc. injection E as -> E.
  destruct c'; cbn in E; try discriminate. injection E as -> -> <-. unfold concerns in Hc. cbn in Hc.
  apply path_eqb_true in Hc. subst. now exists o.
Qed.
Lemma in_dcalls o c l : In (o, c) (dcalls l) <-> In (o, RC c) l.
Proof.
  unfold dcalls. rewrite in_flat_map. split.
  - intros [[o' c'] [Hi H]]. destruct c' as [c'| |]; cbn in H; [|contradiction..]. destruct H as [H|[]]. injection H as <- <-. exact Hi.
  - intros H. exists (o, RC c). split; [exact H|now left].
Qed.
Lemma in_pnames o c l n : In (o, RC c) l -> In n (call_names (without_domains c)) -> In n (pnames (pcalls l)).
Proof.
  intros Hi Hn. unfold pnames. apply in_flat_map. exists (o, PCall (direct c)). split.
  - unfold pcalls. apply in_flat_map. exists (o, RC c). split; [exact Hi|now left].
  - cbn [snd]. destruct c; exact Hn.
Qed.

Lemma dm_run (N : string -> Prop) level l1 o dm l2 (ns : list string) :
  let l := l1 ++ (o, RCSetDomainMatcher (Some dm)) :: l2 in let m := pmatcher_of (pcalls l1) in
  (forall mm, mm = None \/ In (PSet mm) (map snd (pcalls l1)) -> names_ok mm N) ->
  names_ok m N -> Forall (fun c => good_order (fst c)) l ->
  Forall (fun c => early_call (snd c)) l1 -> Forall (fun c => one_each (snd c)) l1 ->
  Forall (fun c => exists dc, snd c = RC dc /\ add_only dm dc) l2 ->
  (forall n, In n (pnames (pcalls l)) -> N n) ->
  IsPattern dm defaultDomain = false -> names_apart dm ns -> (forall k, In k (domains_of (dcalls l)) -> In k ns) ->
  exists x xs, role_exec (domains_with level None None) l = Val (x, xs) /\
    forall ord a b d, good_order ord -> In d ns -> IsPattern dm d = false -> N a -> N b -> ordinary_name m a ->
      let R u v := exists k, (links_of (calls_in [k] (dcalls l1)) u v = true \/ added_link (dcalls l2) u v k) /\ (k = d \/ RbacSpec.covers dm k d) in
      (forall u v, R u v -> ordinary_name m v) ->
      exists x' r, i_Has ord x a b [d] = Val (x', r) /\
        (r = true <-> hits m a b \/ exists n y, (Z.of_nat n < level - 2)%Z /\ chain (nstep m R) n a y /\ hits m y b).
Proof.
  intros l m HN HNm Hg He H1 H2 Hn Hdef (G1 & G2 & G3) Hns.
  unfold l in Hg. apply Forall_app in Hg as [Hg1 Hg2]. apply Forall_cons_iff in Hg2 as [Ho Hg2]. cbn [fst] in Ho.
  assert (Hn1 : forall n, In n (pnames (pcalls l1)) -> N n).
  { intros n Hi. apply Hn. unfold l, pcalls, pnames. rewrite flat_map_app, flat_map_app. apply in_or_app. now left. }
  destruct (tree_exec N level l1 None (fun _ => no_links) _ HN Hg1 He Hn1 (tree_start N level)) as (x & ys & Ex & T & F). fold m in T, F. specialize (F H1 (flat_start level)).
  change (fold_left pmatcher_step (map snd (pcalls l1)) None) with m in T, F.
  set (L := fun p => links_of (calls_in p (dcalls l1))). change (tree m N level L x) in T.
  destruct (set_dm dm level Hdef m N HNm o x Ho F (t_nk _ _ _ _ _ T)) as (ls & Hls & Es).
  { intros u w ds Hi. apply (tree_links m N level L x o u w ds Ho T) in Hi. exact (tree_in_N _ _ _ _ _ _ _ _ T Hi). }
  set (hA := map (fun '(u, v, ds) => (o, DAdd u v ds)) ls : list (order * dcall)).
  assert (Hin : forall u v ds, In (u, v, ds) ls <-> L ds u v = true) by (intros; rewrite Hls; now apply (tree_links m N level)).
  assert (Hsh : forall u v ds, In (u, v, ds) ls -> exists k, ds = [k] /\ In k ns /\ N u /\ N v).
  { intros u v ds H. apply Hin in H. pose proof (tree_in_N _ _ _ _ _ _ _ _ T H) as Hv. apply link_was_added in H as [o' H].
    apply in_dcalls in H. pose proof (proj1 (Forall_forall _ _) H1 _ H) as O. cbn in O. destruct O as [k ->]. exists k. split; [reflexivity|]. split; [|exact Hv].
    apply Hns. unfold domains_of. apply in_flat_map. exists (o', DAdd u v [k]). split; [|now left]. apply in_dcalls. unfold l. apply in_or_app. now left. }
  assert (Rc2 : Forall (fun c => exists dc, snd c = RC dc) l2) by (eapply Forall_impl; [|exact H2]; intros c [dc [A _]]; now exists dc).
  assert (I2 : forall o' c', In (o', c') (dcalls l2) -> good_order o' /\ add_only dm c' /\ In (o', RC c') l).
  { intros o' c' Hi. apply in_dcalls in Hi. split; [exact (proj1 (Forall_forall _ _) Hg2 _ Hi)|]. destruct (proj1 (Forall_forall _ _) H2 _ Hi) as [dc [A B]]. cbn in A. injection A as ->.
    split; [exact B|]. unfold l. apply in_or_app. right. now right. }
  destruct (hist_inv dm level Hdef m N HNm (fun n => In n ns) G1 (proj1 (Forall_forall _ _) G2) G3 (hA ++ dcalls l2) [] [] [] (NewLRUCache 100)) as (mp & pats & cc & xs & Er & _ & HI & Hu).
  - apply Forall_app. split; apply Forall_forall.
    + intros c Hc. apply in_map_iff in Hc as [[[u v] ds] [<- _]]. exact Ho.
    + intros [o' c'] Hc. exact (proj1 (I2 _ _ Hc)).
  - apply Forall_app. split; apply Forall_forall.
    + intros c Hc. apply in_map_iff in Hc as [[[u v] ds] [<- Hc]]. destruct (Hsh _ _ _ Hc) as [k [-> _]]. exact I.
    + intros [o' c'] Hc. exact (proj1 (proj2 (I2 _ _ Hc))).
  - intros k Hk. unfold domains_of in Hk. rewrite flat_map_app in Hk. apply in_app_iff in Hk as [Hk|Hk]; apply in_flat_map in Hk as [[o' c'] [Hc Hk]].
    + apply in_map_iff in Hc as [[[u v] ds] [E Hc]]. injection E as <- <-. destruct (Hsh _ _ _ Hc) as [k' [-> [Hk' _]]]. cbn in Hk. destruct Hk as [<-|[]]. exact Hk'.
    + apply Hns. unfold domains_of. apply in_flat_map. exists (o', c'). split; [|exact Hk]. apply in_dcalls. exact (proj2 (proj2 (I2 _ _ Hc))).
  - intros n Hi. unfold mentioned_d in Hi. rewrite flat_map_app in Hi. apply in_app_iff in Hi as [Hi|Hi]; apply in_flat_map in Hi as [[o' c'] [Hc Hi]].
    + apply in_map_iff in Hc as [[[u v] ds] [E Hc]]. injection E as <- <-. destruct (Hsh _ _ _ Hc) as [k' [_ [_ [A B]]]]. cbn in Hi. destruct Hi as [<-|[<-|[]]]; assumption.
    + apply Hn. exact (in_pnames _ _ _ _ (proj2 (proj2 (I2 _ _ Hc))) Hi).
  - intros a b k [o' []].
  - apply Inv_start.
  - change (IDom (root dm level m [] [] (NewLRUCache 100))) with (domains_with level m (Some dm)) in Er. cbn [app] in HI, Hu.
    rewrite dexec_app in Er. destruct (dexec (domains_with level m (Some dm)) hA) as [[y yr]|] eqn:Ey; cbn [obind] in Er; [|discriminate].
    destruct (dexec y (dcalls l2)) as [[w ws]|] eqn:Ew; cbn [obind] in Er; [|discriminate]. injection Er as -> _.
    do 2 eexists. split.
    + unfold l. rewrite exec_app, Ex. cbn [obind fst snd role_exec role_step]. rewrite Es, (adds_exec o ls _ _ _ Ey). cbn [obind]. rewrite exec_RC by exact Rc2. rewrite Ew. reflexivity.
    + intros ord a b d Ho' Hd Hi Na Nb Oa R Or.
      assert (HR : forall u v, effective dm (hA ++ dcalls l2) d u v <-> R u v).
      { intros u v. unfold effective, R, added_link. split; intros [k [Hk Hc]]; exists k; (split; [|exact Hc]).
        - destruct Hk as [o' Hk]. apply in_app_iff in Hk as [Hk|Hk]; [left|right; now exists o'].
          apply in_map_iff in Hk as [[[u' v'] ds] [Ek Hk]]. injection Ek as _ -> -> ->. now apply Hin.
        - destruct Hk as [Hk|[o' Hk]].
          + exists o. apply in_or_app. left. apply in_map_iff. exists (u, v, [k]). split; [reflexivity|now apply Hin].
          + exists o'. apply in_or_app. now right. }
      assert (Hq : leafq level m N (fun rm => rstep ord rm (RHas a b))).
      { apply (leafq_rstep level m N HNm); [exact Ho'| |exact Logic.I]. intros n [<-|[<-|[]]]; assumption. }
      destruct (query_ok dm level Hdef m N HNm (fun n => In n ns) G1 (proj1 (Forall_forall _ _) G2) G3 (fun rm => rstep ord rm (RHas a b)) _ _ _ _ ord d (i_depth (IDom (root dm level m mp pats cc)) + 1) Ho' HI Hu Hd Hi Hq)
        as (c' & mp' & pats' & rm & rm' & ans & Eq & _ & Lf & Ea).
      pose proof (dstep_query ord (IDom (root dm level m mp pats cc)) (DHas a b [d]) [d] Logic.I eq_refl) as Ed. cbn [dstep without_domains] in Ed.
      assert (Ef : fuel (IDom (root dm level m mp pats cc)) [d] = S (S (i_depth (IDom (root dm level m mp pats cc)) + 1))) by (unfold fuel; cbn [List.length]; lia).
      rewrite Ef, Eq in Ed. destruct (i_Has ord _ a b [d]) as [[x2 r2]|]; cbn [obind] in Ed; [|discriminate]. injection Ed as -> Ed.
      destruct Lf as [[L0 [K0 [Hh HL0]]] Em El].
      destruct (HasLink_wholds N rm L0 K0 ord a b) as (rm2 & r & Er & Hr); auto.
      * now rewrite Em.
      * rewrite Em. now apply ordinary_pat.
      * intros u v Hl. rewrite Em. apply ordinary_pat. apply (Or u v). apply HR. now apply HL0.
      * cbn [rstep] in Ea. rewrite Er in Ea. cbn [obind] in Ea. injection Ea as _ Ea. rewrite <- Ea in Ed. injection Ed as ->.
        do 2 eexists. split; [reflexivity|]. rewrite Hr, Em, El.
        assert (HL : forall u v, L0 u v = true <-> R u v) by (intros u v; rewrite HL0; apply HR).
        split; (intros [H|[n [z (A & B & C)]]]; [now left|right; exists n, z; split; [exact A|split; [|exact C]]]); now apply (chain_nstep m L0 R HL).
Qed.
