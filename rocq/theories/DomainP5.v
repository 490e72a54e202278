(** Lemmas for enumerating the links of a manager with domains. *)
From Verif Require Import GoBase GoBaseP PolicyM CacheM PathM RbacM RbacSpec RbacP RbacP2 RbacP3 RbacP4
  DomainM DomainSpec DomainP DomainP2 Prop_Rbac.

Definition under (key : string) (l : list link) : list link :=
  let domains := if String.eqb key defaultDomain then [] else [key] in
  map (fun '(a, b, ds) => (a, b, domains ++ ds)) l.

Lemma i_links_dom ord d : i_links ord (IDom d) =
  flat_map (fun k => match mget k (d_map d) with Some v => under k (i_links ord v) | None => [] end)
           (ord (mkeys (d_map d))).
Proof.
  cbn [i_links].
  match goal with |- context [mkeys (?f (d_map d))] => set (subs := f) end.
  assert (K : forall l, mkeys (subs l) = mkeys l).
  { induction l as [|[k v] l IH]; [reflexivity|]. exact (f_equal (cons k) IH). }
  assert (G : forall k l, mget k (subs l) = option_map (fun v => under k (i_links ord v)) (mget k l)).
  { intros k l. induction l as [|[k' v] l IH]; [reflexivity|]. cbn [mget]. unfold subs at 1. cbn [mget]. fold subs. destruct (String.eqb_spec k k') as [->|]; [reflexivity|exact IH]. }
  rewrite K. apply flat_map_ext. intros k. rewrite G. destruct (mget k (d_map d)); reflexivity.
Qed.

Lemma in_order ord (l : list string) x : good_order ord -> In x (ord l) <-> In x l.
Proof. intros Ho. split; apply Permutation_in; [|symmetry]; apply Ho. Qed.

Lemma mget_key {V} k (l : smap V) v : mget k l = Some v -> In k (mkeys l).
Proof.
  induction l as [|[k' w] l IH]; cbn; [discriminate|]. destruct (String.eqb_spec k k') as [->|]; [now left|right; auto].
Qed.

Lemma in_role_links ord rm a b ds : good_order ord ->
  In (a, b, ds) (i_links ord (IRole rm)) <-> ds = [] /\ In [a; b] (all_links ord (rm_all rm)).
Proof.
  intros Ho. cbn [i_links]. rewrite in_flat_map. split.
  - intros [r [Hr H]]. pose proof Hr as Hr'. apply (in_all_links _ _ _ Ho) in Hr' as [u [v [-> _]]].
    destruct H as [H|[]]. injection H as <- <- <-. auto.
  - intros [-> H]. exists [a; b]. split; [exact H|now left].
Qed.

Lemma in_under k l a b ds : In (a, b, ds) (under k l) <->
  if String.eqb k defaultDomain then In (a, b, ds) l else exists ds', ds = k :: ds' /\ In (a, b, ds') l.
Proof.
  unfold under. rewrite in_map_iff. destruct (String.eqb k defaultDomain); cbn [app].
  - split; [intros [[[x y] z] [E H]]; now injection E as <- <- <-|]. intros H. now exists (a, b, ds).
  - split.
    + intros [[[x y] z] [E H]]. injection E as <- <- <-. eauto.
    + intros [ds' [-> H]]. now exists (a, b, ds').
Qed.

Lemma in_i_links m ord x level : good_order ord -> tok m x level -> forall a b ds,
  In (a, b, ds) (i_links ord x) <-> exists rm, lookup ds x = Some rm /\ In [a; b] (all_links ord (rm_all rm)).
Proof.
  intros Ho. induction 1 as [d H1 H2 H3 H4 IH]. intros a b ds. rewrite i_links_dom, in_flat_map. split.
  - intros [k [_ H]]. destruct (mget k (d_map d)) as [v|] eqn:E; [|destruct H]. apply in_under in H.
    destruct (String.eqb_spec k defaultDomain) as [->|Hk].
    + destruct (H3 _ E) as [rm ->]. apply in_role_links in H as [-> H]; [|exact Ho]. exists rm. cbn. rewrite E. auto.
    + destruct H as [ds' [-> H]]. apply (IH k v Hk E) in H as [rm [L H]]. exists rm. cbn.
      destruct (String.eqb_spec k defaultDomain); [contradiction|]. rewrite E. auto.
  - intros [rm [L H]]. destruct ds as [|k ds]; cbn in L.
    + destruct (mget defaultDomain (d_map d)) as [v|] eqn:E; [|discriminate]. destruct v as [rm'|]; [|discriminate].
      injection L as ->. exists defaultDomain. rewrite E. split; [apply (in_order ord _ _ Ho); eapply mget_key; eauto|].
      apply in_under. cbn. apply in_role_links; auto.
    + destruct (String.eqb_spec k defaultDomain) as [|Hk]; [discriminate|].
      destruct (mget k (d_map d)) as [v|] eqn:E; [|discriminate]. exists k. rewrite E.
      split; [apply (in_order ord _ _ Ho); eapply mget_key; eauto|]. apply in_under.
      destruct (String.eqb_spec k defaultDomain); [contradiction|]. exists ds. split; [reflexivity|].
      apply (IH k v Hk E). eauto.
Qed.

(** No map has two entries for a key. *)
Inductive nk : irm -> Prop :=
| nk_role rm : nk (IRole rm)
| nk_dom d : NoDup (mkeys (d_map d)) -> (forall k x, mget k (d_map d) = Some x -> nk x) -> nk (IDom d).

Lemma nk_new d k : nk (new_manager d k).
Proof. unfold new_manager. destruct (negb _); [|constructor]. constructor; cbn; [constructor|discriminate]. Qed.

Lemma nk_at {A} (f : list string -> rolemgr -> outcome (rolemgr * A)) store n : forall x ds x' a,
  nk x -> i_at f store n x ds = Val (x', a) -> nk x'.
Proof.
  induction n as [|n IH]; intros x ds x' a H E.
  - destruct x as [rm|d]; cbn in E; [|discriminate]. destruct (f ds rm) as [[rm' a']|]; cbn in E; [|discriminate].
    injection E as <- <-. constructor.
  - destruct x as [rm|d].
    + cbn in E. destruct (f ds rm) as [[rm' a']|]; cbn in E; [|discriminate]. injection E as <- <-. constructor.
    + rewrite i_at_step in E. destruct (getDomain ds) as [domain sub].
      destruct (i_at f store n _ sub) as [[rm a']|] eqn:Er; cbn [obind] in E; [|discriminate]. injection E as <- <-.
      inversion H as [|d' N C]; subst.
      assert (nk rm).
      { eapply IH; [|exact Er]. destruct (mget domain (d_map d)) as [v|] eqn:Ev; [now apply (C domain)|apply nk_new]. }
      unfold close. destruct (store || mhas domain (d_map d)); [|exact H]. constructor; cbn [d_with_map d_map].
      * now apply NoDup_mput.
      * intros k y. rewrite mget_put. destruct (String.eqb k domain); [intros [= <-]; assumption|apply C].
Qed.

Lemma nk_step m level ord x c x' a : tok m x level -> nk x -> dstep ord x c = Val (x', a) -> nk x'.
Proof.
  intros T H E. destruct (call_domains c) as [ds|] eqn:Ec.
  - rewrite (dstep_at m level ord x c ds T Ec) in E. eapply nk_at; eauto.
  - destruct c; try discriminate. cbn in E. injection E as <- <-. destruct x; cbn; constructor; cbn; [constructor|discriminate].
Qed.

Lemma NoDup_flat2 {A B} (f : A -> list B) l : NoDup l -> (forall a, In a l -> NoDup (f a)) ->
  (forall a b x, In x (f a) -> In x (f b) -> a = b) -> NoDup (flat_map f l).
Proof.
  intros N Hf Hd. induction N as [|a l Ha N IH]; cbn; [constructor|].
  assert (G : forall l1 l2 : list B, NoDup l1 -> NoDup l2 -> (forall x, In x l1 -> ~ In x l2) -> NoDup (l1 ++ l2)).
  { induction 1 as [|x l1 Hx H1 IH1]; intros H2 Hdis; cbn; [exact H2|]. constructor.
    - rewrite in_app_iff. intros [H|H]; [contradiction|]. apply (Hdis x); [now left|exact H].
    - apply IH1; [exact H2|]. intros y Hy. apply Hdis. now right. }
  apply G; [apply Hf; now left|apply IH; intros b Hb; apply Hf; now right|].
  intros x H1 H2. apply in_flat_map in H2 as [b [Hb H2]]. rewrite (Hd _ _ _ H1 H2) in Ha. contradiction.
Qed.

Lemma NoDup_i_links m ord x level : good_order ord -> tok m x level -> nk x ->
  (forall p rm, lookup p x = Some rm -> core (rm_all rm) (rm_patterns rm)) -> NoDup (i_links ord x).
Proof.
  intros Ho. induction 1 as [d H1 H2 H3 H4 IH]. intros N C. rewrite i_links_dom. inversion N as [|d' Nd Nc]; subst.
  apply NoDup_flat2.
  - eapply Permutation_NoDup; [symmetry; apply Ho|exact Nd].
  - intros k _. destruct (mget k (d_map d)) as [v|] eqn:E; [|constructor].
    assert (Nv : NoDup (i_links ord v)).
    { destruct (string_dec k defaultDomain) as [->|Hk].
      - destruct (H3 _ E) as [rm ->]. cbn [i_links].
        assert (Cr : core (rm_all rm) (rm_patterns rm)) by (apply (C []); cbn; now rewrite E).
        pose proof (NoDup_all_links ord _ _ Ho Cr) as Nl.
        assert (Sh : forall r, In r (all_links ord (rm_all rm)) -> exists u w, r = [u; w]).
        { intros r Hr. apply (in_all_links _ _ _ Ho) in Hr as [u [w [-> _]]]. eauto. }
        induction Nl as [|r l Hr Nl IHl]; cbn; [constructor|].
        destruct (Sh r) as [u [w ->]]; [now left|]. cbn. constructor; [|apply IHl; intros r' Hr'; apply Sh; now right].
        intros Hi. apply in_flat_map in Hi as [r' [Hr' Hi]]. destruct (Sh r') as [u' [w' ->]]; [now right|].
        destruct Hi as [Hi|[]]. injection Hi as -> ->. contradiction.
      - apply (IH k v Hk E); [now apply (Nc k)|]. intros p rm L. apply (C (k :: p)). cbn.
        destruct (String.eqb_spec k defaultDomain); [contradiction|]. now rewrite E. }
    unfold under. apply FinFun.Injective_map_NoDup; [|exact Nv].
    intros [[a1 b1] d1] [[a2 b2] d2] Q. injection Q as -> -> Q. apply app_inv_head in Q. now subst.
  - intros k1 k2 [[a b] ds] I1 I2.
    destruct (mget k1 (d_map d)) as [v1|] eqn:E1; [|destruct I1]. destruct (mget k2 (d_map d)) as [v2|] eqn:E2; [|destruct I2].
    apply in_under in I1. apply in_under in I2.
    destruct (String.eqb_spec k1 defaultDomain) as [->|Hk1], (String.eqb_spec k2 defaultDomain) as [->|Hk2].
    + reflexivity.
    + destruct I2 as [ds' [-> _]]. destruct (H3 _ E1) as [rm ->]. apply in_role_links in I1 as [I1 _]; [discriminate|exact Ho].
    + destruct I1 as [ds' [-> _]]. destruct (H3 _ E2) as [rm ->]. apply in_role_links in I2 as [I2 _]; [discriminate|exact Ho].
    + destruct I1 as [d1 [-> _]], I2 as [d2 [E _]]. now injection E as -> _.
Qed.

(** After a history. *)
Lemma nk_exec level h : forall x R x' xs, rel None level x R -> good_d h -> nk x -> dexec x h = Val (x', xs) -> nk x'.
Proof.
  induction h as [|[o c] h IH]; intros x R x' xs HR Hg H E; cbn [dexec] in E; [now injection E as <- _|].
  inversion Hg as [|? ? Ho Hg']; subst.
  destruct (dstep_rel None level o x R c HR Ho) as [x1 [R1 [a [E1 [_ [HR1 _]]]]]]; [intros n _; exact I|].
  rewrite E1 in E. cbn [obind] in E. destruct (dexec x1 h) as [[x2 xs2]|] eqn:E2; cbn [obind] in E; [|discriminate].
  injection E as <- <-. eapply IH; eauto. eapply nk_step; [apply (r_tok _ _ _ _ HR)|exact H|exact E1].
Qed.

Lemma unflagged_calls p h : ordinary h -> Forall (fun c => unflagged (snd c)) (calls_in p h).
Proof.
  intros _. unfold calls_in. apply Forall_forall. intros [o c] H. apply in_map_iff in H as [[o' c'] [E _]].
  cbn in E. injection E as _ <-. destruct c'; exact I || reflexivity.
Qed.

Lemma good_calls p h : good_d h -> good (calls_in p h).
Proof.
  unfold good_d, good, calls_in. rewrite !Forall_forall. intros H [o c] Hi. apply in_map_iff in Hi as [[o' c'] [E Hi]].
  apply filter_In in Hi as [Hi _]. cbn in E. injection E as -> _. exact (H _ Hi).
Qed.

Lemma domain_listing level h ord : good_d h -> ordinary h -> good_order ord ->
  exists x xs, dexec (domains_with level None None) h = Val (x, xs) /\ NoDup (i_links ord x) /\
    forall a b ds, In (a, b, ds) (i_links ord x) <-> links_of (calls_in ds h) a b = true.
Proof.
  intros Hg Hor Ho.
  destruct (dexec_rel None level h _ _ (rel_start None level) Hg) as [x [R [xs [E1 [E2 [HR [Hl _]]]]]]]; [intros n _; exact I|].
  exists x, xs. split; [exact E1|].
  pose proof (r_tok _ _ _ _ HR) as T.
  assert (Rp : forall p, holds (fun _ => True) (R p) (links_of (calls_in p h)) (names_of (calls_in p h)) /\ no_flags (rm_all (R p))).
  { intros p. pose proof (fexec_place p h _ _ _ E2) as E3. rewrite (calls_at_in p h Hor) in E3.
    unfold fresh in E3. set (lv := (level - 1 - Z.of_nat (Datatypes.length p))%Z) in *.
    destruct (holds_exec (fun _ => True) (calls_in p h) (NewRoleManager lv) no_links no_names all_allowed (good_calls p h Hg)
                      (holds_start _ lv None) (fun _ _ => I)) as [rm [ys [F1 [F2 _]]]].
    change (NewRoleManager lv) with (newRoleManagerWithMatchingFunc lv None) in F1. rewrite F1 in E3. injection E3 as -> _.
    split; [exact F2|].
    eapply (no_flags_exec (fun _ => True) (calls_in p h) (NewRoleManager lv));
      [apply all_allowed|apply good_calls; exact Hg|apply (holds_start _ lv None)|auto|apply unflagged_calls; exact Hor|intros u; reflexivity|exact F1]. }
  assert (S : forall p rm, lookup p x = Some rm -> rm_all rm = rm_all (R p) /\ rm_patterns rm = rm_patterns (R p)).
  { intros p rm L. pose proof (r_same _ _ _ _ HR p) as [c Hc]. unfold current in Hc. rewrite L in Hc. rewrite Hc. auto. }
  split.
  - eapply (NoDup_i_links None ord x level Ho T).
    + eapply nk_exec; [apply (rel_start None level)|exact Hg| |exact E1]. constructor; cbn; [constructor|discriminate].
    + intros p rm L. destruct (S p rm L) as [-> ->]. apply (w_core _ (h_wf _ _ _ _ (proj1 (Rp p)))).
  - intros a b ds. rewrite (in_i_links None ord x level Ho T). destruct (Rp ds) as [Hh Hf]. split.
    + intros [rm [L H]]. destruct (S ds rm L) as [Ea _]. rewrite Ea in H. apply (in_all_links _ _ _ Ho) in H as [u [v [E [H _]]]].
      injection E as <- <-. now apply (h_links _ _ _ _ Hh).
    + intros H. apply (h_links _ _ _ _ Hh) in H. destruct (lookup ds x) as [rm|] eqn:L.
      * exists rm. split; [reflexivity|]. destruct (S ds rm L) as [-> _]. apply (in_all_links _ _ _ Ho).
        exists a, b. split; [reflexivity|]. split; [exact H|]. rewrite Hf. easy.
      * exfalso. pose proof (r_same _ _ _ _ HR ds) as [c Hc]. unfold current in Hc. rewrite L in Hc. rewrite Hc in H. cbn in H. exact H.
Qed.
