(** Lemmas about the policy model. *)
From Verif Require Import GoBase GoBaseP PolicyM PolicySpec.

(** ** Hash *)
Lemma Hash_inj r r' : comma_free r -> comma_free r' -> Hash r = Hash r' -> r = r'.
Proof.
  intros [Hn Hc] [Hn' Hc'] H. unfold Hash in H.
  rewrite <- (split_join "," r Hn Hc), <- (split_join "," r' Hn' Hc').
  change (String "," "") with ",". now rewrite H.
Qed.

Definition inj_on (ok : rule -> Prop) : Prop :=
  forall r r', ok r -> ok r' -> Hash r = Hash r' -> r = r'.

Lemma comma_free_inj : inj_on comma_free.
Proof. intros r r'. apply Hash_inj. Qed.

(** ** Invariant of the rule map *)
Definition keyed (p : policy) : Prop :=
  NoDup (mkeys p) /\ forall k r, In (k, r) p -> k = Hash r.

Lemma keyed_nil : keyed [].
Proof. split; [constructor|easy]. Qed.

Lemma In_mput_inv {V} k v k' v' (m : smap V) :
  In (k', v') (mput k v m) -> (k' = k /\ v' = v) \/ In (k', v') m.
Proof.
  induction m as [|[k1 v1] m IH]; cbn.
  - intros [H|[]]. injection H as <- <-. now left.
  - destruct (String.eqb_spec k k1) as [->|Hn]; cbn.
    + intros [H|H]; [injection H as <- <-; now left|right; now right].
    + intros [H|H]; [right; now left|]. destruct (IH H) as [?|?]; [now left|right; now right].
Qed.

Lemma In_mdel_inv {V} k k' v' (m : smap V) : In (k', v') (mdel k m) -> k' <> k /\ In (k', v') m.
Proof.
  induction m as [|[k1 v1] m IH]; cbn; [easy|].
  destruct (String.eqb_spec k k1) as [->|Hn]; cbn.
  - intros H. destruct (IH H). tauto.
  - intros [H|H].
    + injection H as <- <-. split; [congruence|now left].
    + destruct (IH H). tauto.
Qed.

Lemma keyed_AddRule p r p' b e : keyed p -> AddRule p r = (p', b, e) -> keyed p'.
Proof.
  intros [Hnd Hk]. unfold AddRule. destruct (mget (Hash r) p) as [rr|] eqn:E; intros H; injection H as <- <- <-.
  - now split.
  - split; [now apply NoDup_mput|]. intros k r0 Hin.
    apply In_mput_inv in Hin as [[-> ->]|Hin]; [reflexivity|now apply Hk].
Qed.

Lemma keyed_RemoveRule p r p' b e : keyed p -> RemoveRule p r = (p', b, e) -> keyed p'.
Proof.
  intros [Hnd Hk]. unfold RemoveRule. destruct (mget (Hash r) p) as [rr|] eqn:E; intros H; injection H as <- <- <-.
  - split; [now apply NoDup_mdel|]. intros k r0 Hin.
    apply In_mdel_inv in Hin as [_ Hin]. now apply Hk.
  - now split.
Qed.

Lemma keyed_pstep p o p' b e : keyed p -> pstep p o = (p', b, e) -> keyed p'.
Proof.
  intros Hk. destruct o as [r|r|]; cbn.
  - now apply keyed_AddRule.
  - now apply keyed_RemoveRule.
  - intros H; injection H as <- _ _. apply keyed_nil.
Qed.

Lemma keyed_mget p r k : keyed p -> mget k p = Some r -> k = Hash r.
Proof. intros [_ Hk] H. apply Hk. now apply mget_In. Qed.

Lemma keyed_In_vals p r : keyed p -> (In r (mvals p) <-> mget (Hash r) p = Some r).
Proof.
  intros [Hnd Hk]. unfold mvals. rewrite in_map_iff. split.
  - intros [[k r0] [Heq Hin]]. cbn in Heq. subst r0.
    rewrite <- (Hk _ _ Hin). now apply In_mget.
  - intros H. apply mget_In in H. now exists (Hash r, r).
Qed.

Lemma keyed_NoDup_vals p : keyed p -> NoDup (mvals p).
Proof.
  intros [Hnd Hk]. unfold mvals. unfold mkeys in Hnd.
  induction p as [|[k r] p IH]; cbn in *; [constructor|].
  inversion Hnd as [|? ? Hni Hnd']; subst. constructor.
  - intros Hin. apply in_map_iff in Hin as [[k' r'] [Heq Hin]]. cbn in Heq. subst r'.
    apply Hni. rewrite (Hk k r (or_introl eq_refl)), <- (Hk k' r (or_intror Hin)).
    apply in_map_iff. now exists (k', r).
  - apply IH; [exact Hnd'|]. intros; apply Hk; now right.
Qed.

(** ** Abstraction relation: the map represents a set of rules from [ok]. *)
Section Repr.
  Variable ok : rule -> Prop.
  Hypothesis Hinj : inj_on ok.

  Definition repr (p : policy) (s : rset) : Prop :=
    keyed p /\ Forall ok (mvals p) /\
    forall r, ok r -> (mget (Hash r) p = Some r <-> s r = true).

  Lemma repr_nil : repr [] set_empty.
  Proof. split; [apply keyed_nil|split; [constructor|intros; cbn; split; discriminate]]. Qed.

  Lemma repr_mget p s r r0 :
    repr p s -> ok r -> mget (Hash r) p = Some r0 -> r0 = r.
  Proof.
    intros [Hk [Hok _]] Hr H.
    assert (Hin : In r0 (mvals p)) by (apply mget_In in H; apply in_map_iff; now exists (Hash r, r0)).
    rewrite Forall_forall in Hok.
    apply Hinj; [now apply Hok|exact Hr|]. symmetry. now apply (keyed_mget p).
  Qed.

  Lemma repr_mget_iff p s r :
    repr p s -> ok r -> mget (Hash r) p = if s r then Some r else None.
  Proof.
    intros Hrep Hr. pose proof Hrep as [_ [_ Hs]]. specialize (Hs r Hr).
    destruct (mget (Hash r) p) as [r0|] eqn:E.
    - assert (r0 = r) by (eapply repr_mget; eauto). subst r0.
      now rewrite (proj1 Hs eq_refl).
    - destruct (s r); [|reflexivity]. now rewrite (proj2 Hs eq_refl) in *.
  Qed.

  Lemma mvals_mput_Forall (P : rule -> Prop) k r (p : policy) :
    Forall P (mvals p) -> P r -> Forall P (mvals (mput k r p)).
  Proof.
    intros H Hr. rewrite Forall_forall in *. intros x Hx.
    apply in_map_iff in Hx as [[k' r'] [Heq Hin]]. cbn in Heq; subst r'.
    apply In_mput_inv in Hin as [[_ ->]|Hin]; [exact Hr|].
    apply H. apply in_map_iff. now exists (k', x).
  Qed.

  Lemma mvals_mdel_Forall (P : rule -> Prop) k (p : policy) :
    Forall P (mvals p) -> Forall P (mvals (mdel k p)).
  Proof.
    intros H. rewrite Forall_forall in *. intros x Hx.
    apply in_map_iff in Hx as [[k' r'] [Heq Hin]]. cbn in Heq; subst r'.
    apply In_mdel_inv in Hin as [_ Hin]. apply H. apply in_map_iff. now exists (k', x).
  Qed.

  Lemma repr_step p s o p' b e :
    repr p s -> op_ok ok o -> pstep p o = (p', b, e) ->
    repr p' (set_step s o) /\
    repr p' (fold_left replay_step e s) /\
    (match o with PAdd r => b = negb (s r) | PRemove r => b = s r | PClear => b = true end).
  Proof.
    intros Hrep Hok Hst. pose proof Hrep as [Hk [Hall Hs]].
    pose proof (keyed_pstep _ _ _ _ _ Hk Hst) as Hk'.
    destruct o as [r|r|]; cbn in Hok, Hst.
    - unfold AddRule in Hst. pose proof (repr_mget_iff p s r Hrep Hok) as Hg.
      rewrite Hg in Hst. destruct (s r) eqn:Esr; injection Hst as <- <- <-.
      + assert (Hrep' : repr p (set_add r s)).
        { split; [exact Hk|split; [exact Hall|]]. intros x Hx. unfold set_add.
          destruct (rule_eqb_spec x r) as [->|]; cbn; [rewrite (Hs r Hok), Esr; tauto|now apply Hs]. }
        split; [exact Hrep'|split; [exact Hrep|reflexivity]].
      + assert (Hrep' : repr (mput (Hash r) r p) (set_add r s)).
        { split; [exact Hk'|split; [now apply mvals_mput_Forall|]]. intros x Hx. unfold set_add.
          rewrite mget_put. destruct (String.eqb_spec (Hash x) (Hash r)) as [Heq|Hne].
          - apply Hinj in Heq; [|assumption..]. subst x.
            destruct (rule_eqb_spec r r); [cbn; tauto|congruence].
          - destruct (rule_eqb_spec x r); [congruence|]. cbn. now apply Hs. }
        split; [exact Hrep'|split; [exact Hrep'|reflexivity]].
    - unfold RemoveRule in Hst. pose proof (repr_mget_iff p s r Hrep Hok) as Hg.
      rewrite Hg in Hst. destruct (s r) eqn:Esr; injection Hst as <- <- <-.
      + assert (Hrep' : repr (mdel (Hash r) p) (set_remove r s)).
        { split; [exact Hk'|split; [now apply mvals_mdel_Forall|]]. intros x Hx. unfold set_remove.
          rewrite mget_del. destruct (String.eqb_spec (Hash x) (Hash r)) as [Heq|Hne].
          - apply Hinj in Heq; [|assumption..]. subst x.
            destruct (rule_eqb_spec r r); [cbn; split; discriminate|congruence].
          - destruct (rule_eqb_spec x r); [congruence|]. cbn. now apply Hs. }
        split; [exact Hrep'|split; [exact Hrep'|reflexivity]].
      + assert (Hrep' : repr p (set_remove r s)).
        { split; [exact Hk|split; [exact Hall|]]. intros x Hx. unfold set_remove.
          destruct (rule_eqb_spec x r) as [->|]; cbn; [|now apply Hs].
          rewrite (Hs r Hok), Esr. tauto. }
        split; [exact Hrep'|split; [exact Hrep|reflexivity]].
    - injection Hst as <- <- <-. split; [|split; [|reflexivity]]; apply repr_nil.
  Qed.

  Lemma repr_ext p s s' : (forall r, ok r -> s r = s' r) -> repr p s -> repr p s'.
  Proof. intros He [Hk [Ha Hs]]. split; [|split]; [assumption..|]. intros r Hr. now rewrite <- He, Hs. Qed.

  Lemma set_step_ext o s s' :
    (forall r, ok r -> s r = s' r) -> forall r, ok r -> set_step s o r = set_step s' o r.
  Proof.
    intros He r Hr. destruct o; cbn; [unfold set_add|unfold set_remove|]; now rewrite ?He.
  Qed.

  Lemma repr_exec h : forall p s p' es,
    repr p s -> Forall (op_ok ok) h -> pexec p h = (p', es) ->
    repr p' (fold_left set_step h s) /\
    (forall s0, (forall r, ok r -> s0 r = s r) -> repr p' (fold_left replay_step es s0)).
  Proof.
    induction h as [|o h IH]; intros p s p' es Hrep Hok H; cbn in H.
    - injection H as <- <-. cbn. split; [exact Hrep|]. intros s0 He. eapply repr_ext; [|exact Hrep].
      intros; symmetry; now apply He.
    - destruct (pstep p o) as [[p1 b] e] eqn:E1.
      destruct (pexec p1 h) as [p2 e2] eqn:E2. injection H as <- <-.
      inversion Hok as [|? ? Ho Hh]; subst.
      destruct (repr_step _ _ _ _ _ _ Hrep Ho E1) as [H1 [H2 _]].
      destruct (IH _ _ _ _ H1 Hh E2) as [H3 H4]. split; [exact H3|].
      intros s0 He. rewrite fold_left_app. apply H4.
      intros r Hr.
      assert (Hx : repr p1 (fold_left replay_step e s0)).
      { (* the events of one step, replayed from an equivalent set *)
        eapply repr_ext; [|exact H2]. intros x Hx.
        clear -He Hx. revert s0 s He. induction e as [|ev e IHe]; intros s0 s He; cbn.
        - symmetry; now apply He.
        - apply IHe. intros y Hy. destruct ev; cbn; unfold set_add, set_remove; now rewrite ?He. }
      destruct Hx as [_ [_ Hx]]. destruct H1 as [_ [_ H1]].
      specialize (Hx r Hr). specialize (H1 r Hr).
      destruct (fold_left replay_step e s0 r), (set_step s o r); try reflexivity;
        destruct Hx, H1; intuition congruence.
  Qed.

  Lemma repr_enumerates p s : repr p s -> enumerates (mvals p) s ok.
  Proof.
    intros [Hk [Hall Hs]]. split; [now apply keyed_NoDup_vals|].
    intros r Hr. rewrite keyed_In_vals by exact Hk. now apply Hs.
  Qed.
End Repr.

Lemma keyed_exec h : forall p p' es, keyed p -> pexec p h = (p', es) -> keyed p'.
Proof.
  induction h as [|o h IH]; intros p p' es Hk H; cbn in H.
  - now injection H as <- _.
  - destruct (pstep p o) as [[p1 b] e] eqn:E1. destruct (pexec p1 h) as [p2 e2] eqn:E2.
    injection H as <- _. eapply IH; [|exact E2]. eapply keyed_pstep; eauto.
Qed.

(** ** Range *)
Lemma range_vals_all {S} (fn : S -> rule -> S) l st :
  range_vals (fun s r => (fn s r, true)) st l = (fold_left fn l st, true).
Proof. revert st. induction l; intros; cbn; [reflexivity|apply IHl]. Qed.

Lemma fold_snoc l (acc : list rule) : fold_left (fun a r => a ++ [r]) l acc = acc ++ l.
Proof.
  revert acc. induction l as [|x l IH]; intros acc; cbn.
  - now rewrite app_nil_r.
  - rewrite IH, <- app_assoc. reflexivity.
Qed.

(** The callback is applied to a prefix of the rules and stops right after the
    first [false]. *)
Lemma range_vals_prefix {S} (fn : S -> rule -> S * bool) l st :
  exists n, n <= List.length l /\
    fst (range_vals fn st l) = fold_left (fun s r => fst (fn s r)) (firstn n l) st /\
    (snd (range_vals fn st l) = true -> n = List.length l).
Proof.
  revert st. induction l as [|r l IH]; intros st; cbn.
  - exists 0. cbn. auto.
  - destruct (fn st r) as [st' b] eqn:E. destruct b.
    + destruct (IH st') as [n [Hn [H1 H2]]]. exists (Datatypes.S n). cbn. rewrite E. cbn.
      split; [lia|]. split; [exact H1|]. intros H. f_equal. auto.
    + exists 1. cbn. rewrite E. cbn. split; [lia|]. split; [reflexivity|discriminate].
Qed.

(** ** GetDistinct *)
Lemma project_spec cs r vs : project cs r = Val vs <-> columns_of r cs vs.
Proof.
  unfold columns_of. revert vs. induction cs as [|c cs IH]; intros vs; cbn.
  - split; [intros H; injection H as <-; constructor|intros H; inversion H; reflexivity].
  - destruct (nth_error r c) as [v|] eqn:E.
    + destruct (project cs r) as [ws|]; cbn.
      * split; intros H.
        -- injection H as <-. constructor; [exact E|now apply IH].
        -- inversion H as [|? v' ? ws' H1 H2]; subst. rewrite E in H1. injection H1 as ->.
           apply IH in H2. injection H2 as ->. reflexivity.
      * split; [discriminate|]. intros H. inversion H as [|? v' ? ws' H1 H2]; subst.
        apply IH in H2. discriminate.
    + split; [discriminate|]. intros H; inversion H; subst. congruence.
Qed.

Lemma distinct_loop_spec cs l : forall res res',
  distinct_loop cs l res = Val res' -> keyed res ->
  keyed res' /\
  (forall v, In v (mvals res') -> In v (mvals res) \/ exists r, In r l /\ project cs r = Val v) /\
  (forall k, (exists v, In v (mvals res) /\ Hash v = k) \/
             (exists r v, In r l /\ project cs r = Val v /\ Hash v = k) ->
             exists v, In v (mvals res') /\ Hash v = k).
Proof.
  induction l as [|r l IH]; intros res res' H Hk; cbn in H.
  - injection H as <-. split; [exact Hk|]. split; [auto|].
    intros k [Hx|[r [v [[] _]]]]. exact Hx.
  - destruct (project cs r) as [vs|] eqn:E; cbn in H; [|discriminate].
    assert (Hk1 : keyed (mput (Hash vs) vs res)).
    { destruct Hk as [Hnd Hk]. split; [now apply NoDup_mput|].
      intros k x Hin. apply In_mput_inv in Hin as [[-> ->]|Hin]; auto. }
    destruct (IH _ _ H Hk1) as [Hk' [Hsub Hsup]]. split; [exact Hk'|]. split.
    + intros v Hv. destruct (Hsub v Hv) as [Hin|[r0 [Hin Hp]]].
      * unfold mvals in Hin. apply in_map_iff in Hin as [[k x] [Heq Hin]]. cbn in Heq; subst x.
        apply In_mput_inv in Hin as [[_ ->]|Hin].
        -- right. exists r. split; [now left|exact E].
        -- left. apply in_map_iff. now exists (k, v).
      * right. exists r0. split; [now right|exact Hp].
    + intros k Hor. apply Hsup.
      assert (Hself : exists v, In v (mvals (mput (Hash vs) vs res)) /\ Hash v = Hash vs).
      { exists vs. split; [|reflexivity]. rewrite keyed_In_vals by exact Hk1. apply mget_put_eq. }
      destruct Hor as [[v [Hin Hh]]|[r0 [v [[->|Hin] [Hp Hh]]]]].
      * destruct (string_dec k (Hash vs)) as [->|Hne]; [now left|].
        left. exists v. split; [|exact Hh].
        rewrite keyed_In_vals by exact Hk1. rewrite mget_put_neq by congruence.
        rewrite <- keyed_In_vals by exact Hk. exact Hin.
      * left. rewrite E in Hp. injection Hp as ->. rewrite <- Hh. exact Hself.
      * right. exists r0, v. auto.
Qed.

Lemma distinct_loop_panic cs l : forall res,
  distinct_loop cs l res = Panic <-> exists r, In r l /\ project cs r = Panic.
Proof.
  induction l as [|r l IH]; intros res; cbn.
  - split; [discriminate|]. intros [r [[] _]].
  - destruct (project cs r) as [vs|] eqn:E; cbn.
    + rewrite IH. split; intros [r0 [H1 H2]]; [exists r0; tauto|].
      destruct H1 as [->|H1]; [congruence|]. exists r0; tauto.
    + split; [|reflexivity]. intros _. exists r. split; [now left|exact E].
Qed.

Lemma project_panic cs r : project cs r = Panic <-> exists c, In c cs /\ List.length r <= c.
Proof.
  induction cs as [|c cs IH]; cbn; [split; [discriminate|intros [? [[] _]]]|].
  destruct (nth_error r c) as [v|] eqn:E.
  - assert (Hlt : c < List.length r) by (apply nth_error_Some; congruence).
    destruct (project cs r); cbn.
    + split; [discriminate|]. intros [c' [[->|H] Hl]]; [lia|].
      assert (H0 : @Val rule a = Panic) by (apply IH; eauto). discriminate.
    + split; [|reflexivity]. intros _. destruct (proj1 IH eq_refl) as [c' [H1 H2]]. eauto.
  - split; [|reflexivity]. intros _. exists c. split; [now left|]. now apply nth_error_None.
Qed.

(** util.Join2D, a helper for reports: one text per rule, in order. *)
Lemma Join2D_map elems sep : Join2D elems sep = map (join sep) elems.
Proof.
  unfold Join2D. assert (G : forall acc, fold_left (fun res elem => res ++ [join sep elem]) elems acc = acc ++ map (join sep) elems).
  { induction elems as [|e elems IH]; intros acc; cbn; [now rewrite app_nil_r|]. rewrite IH, <- app_assoc. reflexivity. }
  apply G.
Qed.
