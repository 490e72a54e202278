(** Property C58: stored rules and the caller's slices. *)
From Verif Require Import GoBase GoBaseP DefsM PolicyM MatcherDefM MatcherM MatcherP EvalM AliasM AliasSpec.

Definition omap {A B} (f : A -> B) (o : outcome A) : outcome B := match o with Val x => Val (f x) | Panic => Panic end.

(** ** Maps *)
Section Maps.
  Context {A B : Type} (f : A -> B).
  Definition mmap (m : smap A) : smap B := map (fun kn => (fst kn, f (snd kn))) m.
  Lemma mget_mmap k m : mget k (mmap m) = option_map f (mget k m).
  Proof. unfold mmap. induction m as [|[k' v] m IH]; cbn; [reflexivity|]. destruct (String.eqb k k'); auto. Qed.
  Lemma mput_mmap k v m : mmap (mput k v m) = mput k (f v) (mmap m).
  Proof. unfold mmap. induction m as [|[k' w] m IH]; cbn; [reflexivity|]. destruct (String.eqb k k'); cbn; [reflexivity|now rewrite IH]. Qed.
  Lemma mdel_mmap k m : mmap (mdel k m) = mdel k (mmap m).
  Proof. unfold mmap. induction m as [|[k' w] m IH]; cbn; [reflexivity|]. destruct (String.eqb k k'); cbn; [exact IH|now rewrite IH]. Qed.
  Lemma mkeys_mmap m : mkeys (mmap m) = mkeys m.
  Proof. unfold mkeys, mmap. rewrite map_map. now apply map_ext. Qed.
End Maps.

(** ** Reading a tree of references *)
Section AnodeInd.
  Variable P : anode -> Prop.
  Hypothesis Hn : forall r c0 c1, Forall (fun kn => P (snd kn)) c0 -> Forall (fun kn => P (snd kn)) c1 -> P (ANode r c0 c1).
  Fixpoint anode_ind2 (n : anode) : P n :=
    match n with
    | ANode r c0 c1 =>
        let go := fix go (l : list (string * anode)) : Forall (fun kn => P (snd kn)) l :=
          match l with [] => Forall_nil _ | kn :: l' => Forall_cons kn (anode_ind2 (snd kn)) (go l') end in
        Hn r c0 c1 (go c0) (go c1)
    end.
End AnodeInd.

Section Seen.
  Variable H : heap.
  Lemma child_seen n i : child (seen H n) i = omap (mmap (seen H)) (achild n i).
  Proof. destruct n as [r c0 c1], i as [|[|i]]; reflexivity. Qed.
  Lemma set_seen n i m : seen H (aset_child n i m) = set_child (seen H n) i (mmap (seen H) m).
  Proof. destruct n as [r c0 c1], i as [|[|i]]; reflexivity. Qed.
  Lemma new_seen a v : slice H (Some a) = v -> seen H (ANode (Some a) [] []) = NewMatcherNode v.
  Proof. intros <-. reflexivity. Qed.
  Lemma add_seen d v a s : slice H (Some a) = v -> forall n, addRuleHelper d v s (seen H n) = omap (seen H) (aadd d v a s n).
  Proof.
    intros Hv. induction s as [e cs IH] using stage_ind2. intros n. cbn [addRuleHelper aadd]. generalize 0 as i. revert n.
    induction IH as [|c cs Hc _ IHcs]; intros n i; [reflexivity|]. rewrite child_seen. destruct (achild n i) as [m|]; [|reflexivity]. cbn [omap obind].
    destruct (IsLeafNode c); cbn [obind].
    - replace (mput (stage_key d c v) (NewMatcherNode v) (mmap (seen H) m)) with (mmap (seen H) (mput (stage_key d c v) (ANode (Some a) [] []) m))
        by (now rewrite mput_mmap, (new_seen a v Hv)).
      rewrite <- set_seen. apply IHcs.
    - replace (GetOrCreate (mmap (seen H) m) (stage_key d c v) v) with (seen H match mget (stage_key d c v) m with Some n0 => n0 | None => ANode (Some a) [] [] end)
        by (unfold GetOrCreate; rewrite mget_mmap; destruct (mget _ m); [reflexivity|apply (new_seen a v Hv)]).
      rewrite Hc. destruct (aadd d v a c _) as [n'|]; [|reflexivity]. cbn [omap obind]. rewrite <- mput_mmap, <- set_seen. apply IHcs.
  Qed.
  Lemma remove_seen d v s : forall n, removeRuleHelper d v s (seen H n) = omap (seen H) (aremove d v s n).
  Proof.
    induction s as [e cs IH] using stage_ind2. intros n. cbn [removeRuleHelper aremove]. generalize 0 as i. revert n.
    induction IH as [|c cs Hc _ IHcs]; intros n i; [reflexivity|]. rewrite child_seen. destruct (achild n i) as [m|]; [|reflexivity]. cbn [omap obind].
    destruct (IsLeafNode c); cbn [obind].
    - rewrite <- mdel_mmap, <- set_seen. apply IHcs.
    - rewrite mget_mmap. destruct (mget (stage_key d c v) m) as [n1|]; cbn [option_map].
      + rewrite Hc. destruct (aremove d v c n1) as [n'|]; [|reflexivity]. cbn [omap obind]. rewrite <- mput_mmap, <- set_seen. apply IHcs.
      + cbn [obind]. rewrite <- set_seen. apply IHcs.
  Qed.
End Seen.

(** ** The arrays a tree refers to *)
Fixpoint refs (n : anode) : list nat :=
  match n with
  | ANode r c0 c1 => (match r with Some a => [a] | None => [] end) ++ flat_map (fun kn => refs (snd kn)) c0 ++ flat_map (fun kn => refs (snd kn)) c1
  end.
Definition within (l : list nat) (n : anode) : Prop := incl (refs n) l.
Definition mwithin (l : list nat) (m : smap anode) : Prop := Forall (fun kn => within l (snd kn)) m.
Lemma flat_within l (m : smap anode) : incl (flat_map (fun kn => refs (snd kn)) m) l <-> mwithin l m.
Proof.
  unfold mwithin, within. rewrite Forall_forall. split.
  - intros I kn Hk a Ha. apply I. apply in_flat_map. eauto.
  - intros F a Ha. apply in_flat_map in Ha as [kn [Hk Ha]]. exact (F kn Hk a Ha).
Qed.
Lemma incl_app_iff {A} (x y l : list A) : incl (x ++ y) l <-> incl x l /\ incl y l.
Proof. split; [intros I; split; intros a Ha; apply I, in_or_app; auto|intros [I1 I2]; now apply incl_app]. Qed.
Lemma within_node l r c0 c1 : within l (ANode r c0 c1) <-> (forall a, r = Some a -> In a l) /\ mwithin l c0 /\ mwithin l c1.
Proof.
  unfold within at 1. cbn [refs]. rewrite !incl_app_iff, !flat_within. split; intros [A B]; (split; [|exact B]).
  - intros a ->. apply A. now left.
  - destruct r as [a|]; [|intros x []]. intros x [<-|[]]. auto.
Qed.
Lemma within_child l n i m : within l n -> achild n i = Val m -> mwithin l m.
Proof. destruct n as [r c0 c1]. intros W%within_node. destruct i as [|[|i]]; cbn; intros E; try discriminate; injection E as <-; apply W. Qed.
Lemma within_set l n i m : within l n -> mwithin l m -> within l (aset_child n i m).
Proof. destruct n as [r c0 c1]. intros W%within_node Wm. destruct i as [|[|i]]; cbn [aset_child]; apply within_node; intuition. Qed.
Lemma mwithin_put l k n m : mwithin l m -> within l n -> mwithin l (mput k n m).
Proof.
  intros F W. induction m as [|[k' v] m IH]; cbn; [repeat constructor; exact W|]. inversion F; subst. destruct (String.eqb k k'); constructor; auto. now apply IH.
Qed.
Lemma mwithin_del l k m : mwithin l m -> mwithin l (mdel k m).
Proof. intros F. induction m as [|[k' v] m IH]; cbn; [constructor|]. inversion F; subst. destruct (String.eqb k k'); [now apply IH|constructor; auto; now apply IH]. Qed.
Lemma mwithin_get l k m n : mwithin l m -> mget k m = Some n -> within l n.
Proof. intros F G. apply mget_In in G. unfold mwithin in F. rewrite Forall_forall in F. exact (F _ G). Qed.
Lemma within_new l a : In a l -> within l (ANode (Some a) [] []).
Proof. intros Ha. apply within_node. split; [intros b E; congruence|split; constructor]. Qed.
Lemma within_add l d v a s : In a l -> forall n n', within l n -> aadd d v a s n = Val n' -> within l n'.
Proof.
  intros Ha. induction s as [e cs IH] using stage_ind2. intros n n' W. cbn [aadd]. generalize 0 as i. revert n W.
  induction IH as [|c cs Hc _ IHcs]; intros n W i Hv; [injection Hv as <-; exact W|]. destruct (achild n i) as [m|] eqn:Em; [|discriminate]. cbn [obind] in Hv.
  pose proof (within_child _ _ _ _ W Em) as Wm.
  destruct (IsLeafNode c); cbn [obind] in Hv.
  - eapply IHcs; [|exact Hv]. apply within_set; [exact W|]. apply mwithin_put; [exact Wm|]. now apply within_new.
  - destruct (aadd d v a c _) as [n1|] eqn:En in Hv; [|discriminate]. cbn [obind] in Hv. eapply IHcs; [|exact Hv]. apply within_set; [exact W|].
    apply mwithin_put; [exact Wm|]. eapply Hc; [|exact En]. destruct (mget _ m) eqn:Eg; [eapply mwithin_get; eauto|now apply within_new].
Qed.
Lemma within_remove l d v s : forall n n', within l n -> aremove d v s n = Val n' -> within l n'.
Proof.
  induction s as [e cs IH] using stage_ind2. intros n n' W. cbn [aremove]. generalize 0 as i. revert n W.
  induction IH as [|c cs Hc _ IHcs]; intros n W i Hv; [injection Hv as <-; exact W|]. destruct (achild n i) as [m|] eqn:Em; [|discriminate]. cbn [obind] in Hv.
  pose proof (within_child _ _ _ _ W Em) as Wm.
  destruct (IsLeafNode c); cbn [obind] in Hv.
  - eapply IHcs; [|exact Hv]. apply within_set; [exact W|]. now apply mwithin_del.
  - destruct (mget (stage_key d c v) m) as [n1|] eqn:Eg.
    + destruct (aremove d v c n1) as [n2|] eqn:En; [|discriminate]. cbn [obind] in Hv. eapply IHcs; [|exact Hv]. apply within_set; [exact W|].
      apply mwithin_put; [exact Wm|]. eapply Hc; [|exact En]. eapply mwithin_get; eauto.
    + cbn [obind] in Hv. eapply IHcs; [|exact Hv]. now apply within_set.
Qed.
Lemma seen_agree l H H' : (forall a, In a l -> array H a = array H' a) -> forall n, within l n -> seen H n = seen H' n.
Proof.
  intros A. induction n as [r c0 c1 F0 F1] using anode_ind2. intros [Wr [W0 W1]]%within_node. cbn [seen].
  assert (M : forall c, Forall (fun kn => within l (snd kn) -> seen H (snd kn) = seen H' (snd kn)) c -> mwithin l c ->
    map (fun kn => (fst kn, seen H (snd kn))) c = map (fun kn => (fst kn, seen H' (snd kn))) c).
  { intros c F W. unfold mwithin in W. rewrite Forall_forall in *. apply map_ext_in. intros kn Hk. f_equal. auto. }
  rewrite (M _ F0 W0), (M _ F1 W1). f_equal. destruct r as [a|]; [|reflexivity]. cbn. f_equal. auto.
Qed.

(** ** Slices that are left alone *)
Section Alone.
  Variables (E : evaluator) (d : argdef) (t : stage).
  Definition view (y : asys) : vsys :=
    mkVsys (mmap (fun a => tl (array (y_heap y) a)) (y_pol y)) (mkMatcher d t (seen (y_heap y) (y_root y)))
      (map (fun o => (fst o, array (y_heap y) (snd o))) (y_q y)).
  Record Inside (l : list nat) (y : asys) : Prop := {
    n_pol : Forall (fun ka => In (snd ka) l) (y_pol y);
    n_root : within l (y_root y);
    n_q : Forall (fun o => In (snd o) l) (y_q y);
    n_len : Forall (fun a => a < List.length (y_heap y)) l
  }.
  Lemma view_heap l y H : Inside l y -> (forall a, In a l -> array H a = array (y_heap y) a) ->
    view (mkAsys H (y_pol y) (y_root y) (y_q y)) = view y.
  Proof.
    intros [I1 I2 I3 _] A. unfold view. cbn [y_heap y_pol y_root y_q]. f_equal.
    - unfold mmap. apply map_ext_in. intros ka Hk. rewrite Forall_forall in I1. now rewrite (A _ (I1 _ Hk)).
    - f_equal. eapply seen_agree; eauto.
    - apply map_ext_in. intros o Ho. rewrite Forall_forall in I3. now rewrite (A _ (I3 _ Ho)).
  Qed.
  Lemma array_new H r a : a < List.length H -> array (H ++ [r]) a = array H a.
  Proof. intros L. unfold array. now apply app_nth1. Qed.
  Lemma nth_set {A} (l : list A) i x j (dd : A) : j <> i -> nth j (set_nth l i x) dd = nth j l dd.
  Proof. revert i j. induction l as [|y l IH]; intros [|i] [|j] N; cbn; try reflexivity; try congruence. apply IH. congruence. Qed.
  Lemma array_write H a i v b : b <> a -> array (write H a i v) b = array H b.
  Proof. intros N. unfold array, write. now apply nth_set. Qed.
  Lemma set_nth_len {A} (l : list A) i x : List.length (set_nth l i x) = List.length l.
  Proof. revert i. induction l as [|y l IH]; intros [|i]; cbn; auto. Qed.
  Lemma array_len H a k v : array H a = k :: v -> a < List.length H.
  Proof. intros A. destruct (Nat.lt_ge_cases a (List.length H)) as [L|L]; [exact L|]. unfold array in A. rewrite nth_overflow in A by exact L. discriminate. Qed.

  Definition silent (c : acall) : bool := match c with ANew _ | AWrite _ _ _ => true | _ => false end.
  Definition passes (c : acall) (l : list nat) : list nat := match c with AAdd a | ARemove a => a :: l | _ => l end.
  Definition heap_after (H : heap) (c : acall) : heap := match c with ANew r => H ++ [r] | AWrite a i v => write H a i v | _ => H end.
  Definition the_call (H : heap) (c : acall) : list vcall :=
    match c with
    | AAdd a => [VAdd (array H a)] | ARemove a => [VRemove (array H a)] | AFlush => [VFlush] | AFilter ord rDef rvals => [VFilter ord rDef rvals]
    | _ => []
    end.
  Lemma calls_cons H c h : calls_of H (c :: h) = the_call H c ++ calls_of (heap_after H c) h.
  Proof. destruct c; reflexivity. Qed.

  Lemma inside_more l a y : Inside l y -> a < List.length (y_heap y) -> Inside (a :: l) y.
  Proof.
    intros [I1 I2 I3 I4] L. constructor.
    - eapply Forall_impl; [|exact I1]. intros ka Hk. now right.
    - intros x Hx. right. now apply I2.
    - eapply Forall_impl; [|exact I3]. intros ka Hk. now right.
    - now constructor.
  Qed.
  Lemma put_in l k a (m : smap nat) : In a l -> Forall (fun ka => In (snd ka) l) m -> Forall (fun ka => In (snd ka) l) (mput k a m).
  Proof. intros Ha F. induction m as [|[k' v] m IH]; cbn; [now repeat constructor|]. inversion F; subst. destruct (String.eqb k k'); constructor; auto. Qed.
  Lemma del_in l k (m : smap nat) : Forall (fun ka => In (snd ka) l) m -> Forall (fun ka => In (snd ka) l) (mdel k m).
  Proof. intros F. induction m as [|[k' v] m IH]; cbn; [constructor|]. inversion F; subst. destruct (String.eqb k k'); [auto|constructor; auto]. Qed.

  (** One call: the copying system makes the same step. *)
  Lemma step_view l y c : Inside l y -> (forall a i v, c = AWrite a i v -> ~ In a l) ->
    match astep E d t y c with
    | Panic => exists v, the_call (y_heap y) c = [v] /\ vstep E (view y) v = Panic
    | Val (y1, r) =>
        Inside (passes c l) y1 /\ y_heap y1 = heap_after (y_heap y) c /\
        match the_call (y_heap y) c with
        | [] => view y1 = view y /\ r = RNone
        | v :: _ => vstep E (view y) v = Val (view y1, r) /\ r <> RNone
        end
    end.
  Proof.
    intros I Hw. destruct c as [r|a i v|a|a| |ord rDef rvals]; cbn [astep the_call passes heap_after].
    - split; [|split; [reflexivity|split; [|reflexivity]]].
      + destruct I as [I1 I2 I3 I4]. constructor; auto. cbn. eapply Forall_impl; [|exact I4]. intros a L. cbv beta in *. rewrite app_length. cbn [List.length]. lia.
      + eapply view_heap; [exact I|]. intros a Ha. apply array_new. pose proof (n_len _ _ I) as L. rewrite Forall_forall in L. auto.
    - split; [|split; [reflexivity|split; [|reflexivity]]].
      + destruct I as [I1 I2 I3 I4]. constructor; auto. cbn. unfold write. now rewrite set_nth_len.
      + eapply view_heap; [exact I|]. intros b Hb. apply array_write. intros ->. exact (Hw a i v eq_refl Hb).
    - destruct (array (y_heap y) a) as [|key v] eqn:Ea; [exists (VAdd []); auto|]. pose proof (array_len _ _ _ _ Ea) as La.
      pose proof (inside_more _ a _ I La) as I'. cbn [vstep]. destruct (String.eqb key "p") eqn:Ek; [|split; [exact I'|]; split; [reflexivity|]; split; [reflexivity|discriminate]].
      unfold AddRule. unfold view at 1. cbn [v_pol]. rewrite mget_mmap. unfold rule in *. destruct (mget (Hash v) (y_pol y)) as [b|] eqn:Eg; cbn [option_map].
      + split; [exact I'|]. split; [reflexivity|]. split; [|discriminate]. cbn [m_events obind]. now rewrite app_nil_r.
      + assert (Sl : slice (y_heap y) (Some a) = v) by (cbn; now rewrite Ea).
        pose proof (add_seen (y_heap y) d v a t Sl (y_root y)) as A.
        destruct (aadd d v a t (y_root y)) as [n|] eqn:En; cbn [omap obind] in *.
        * split; [|split; [reflexivity|]].
          -- destruct I' as [I1 I2 I3 I4]. constructor; cbn [y_pol y_root y_q y_heap]; auto.
             ++ apply put_in; [now left|exact I1].
             ++ eapply within_add; [|exact I2|exact En]. now left.
             ++ apply Forall_app. split; [exact I3|]. repeat constructor.
          -- split; [|discriminate]. unfold view at 1. cbn [v_mat m_events m_event m_def m_tree m_root]. rewrite A. cbn [obind].
             unfold view. cbn [v_pol v_mat v_q y_pol y_root y_q y_heap]. rewrite mput_mmap, map_app. cbn [map fst snd]. now rewrite Ea.
        * exists (VAdd (key :: v)). split; [reflexivity|]. cbn [vstep]. rewrite Ek. unfold AddRule, view. cbn [v_pol v_mat]. rewrite mget_mmap, Eg. cbn [option_map m_events m_event m_def m_tree m_root].
          rewrite A. reflexivity.
    - destruct (array (y_heap y) a) as [|key v] eqn:Ea; [exists (VRemove []); auto|]. pose proof (array_len _ _ _ _ Ea) as La.
      pose proof (inside_more _ a _ I La) as I'. cbn [vstep]. destruct (String.eqb key "p") eqn:Ek; [|split; [exact I'|]; split; [reflexivity|]; split; [reflexivity|discriminate]].
      unfold RemoveRule. unfold view at 1. cbn [v_pol]. rewrite mget_mmap. unfold rule in *. destruct (mget (Hash v) (y_pol y)) as [b|] eqn:Eg; cbn [option_map].
      + pose proof (remove_seen (y_heap y) d v t (y_root y)) as A.
        destruct (aremove d v t (y_root y)) as [n|] eqn:En; cbn [omap obind] in *.
        * split; [|split; [reflexivity|]].
          -- destruct I' as [I1 I2 I3 I4]. constructor; cbn [y_pol y_root y_q y_heap]; auto.
             ++ now apply del_in.
             ++ eapply within_remove; [exact I2|exact En].
             ++ apply Forall_app. split; [exact I3|]. repeat constructor.
          -- split; [|discriminate]. unfold view at 1. cbn [v_mat m_events m_event m_def m_tree m_root]. rewrite A. cbn [obind].
             unfold view. cbn [v_pol v_mat v_q y_pol y_root y_q y_heap]. rewrite mdel_mmap, map_app. cbn [map fst snd]. now rewrite Ea.
        * exists (VRemove (key :: v)). split; [reflexivity|]. cbn [vstep]. rewrite Ek. unfold RemoveRule, view. cbn [v_pol v_mat]. rewrite mget_mmap, Eg. cbn [option_map m_events m_event m_def m_tree m_root].
          rewrite A. reflexivity.
      + split; [exact I'|]. split; [reflexivity|]. split; [|discriminate]. cbn [m_events obind]. now rewrite app_nil_r.
    - split; [destruct I; constructor; cbn; auto|]. split; [reflexivity|]. split; [reflexivity|discriminate].
    - unfold filter_rules.
      destruct (RangeMatches E ord (mkMatcher d t (seen (y_heap y) (y_root y))) rDef rvals (fun l0 r => (l0 ++ [r], true)) []) as [[l0 e0]|] eqn:Er; cbn [obind].
      + split; [exact I|]. split; [reflexivity|]. split; [|discriminate]. cbn [vstep]. unfold view at 1. cbn [v_mat]. unfold rule in *. rewrite Er. reflexivity.
      + eexists. split; [reflexivity|]. cbn [vstep]. unfold view at 1. cbn [v_mat]. unfold rule in *. rewrite Er. reflexivity.
  Qed.

  Lemma exec_view h : forall l y, Inside l y -> left_alone l h ->
    match aexec E d t y h with
    | Panic => vexec E (view y) (calls_of (y_heap y) h) = Panic
    | Val (y1, rs) => vexec E (view y) (calls_of (y_heap y) h) = Val (view y1, results_of rs)
    end.
  Proof.
    induction h as [|c h IH]; intros l y I La; [reflexivity|].
    assert (La' : left_alone (passes c l) h /\ forall a i v, c = AWrite a i v -> ~ In a l).
    { destruct c; cbn in *; (split; [tauto|]); intros a0 i0 v0 Ec; try discriminate. injection Ec as -> -> ->. tauto. }
    destruct La' as [La' Hw]. pose proof (step_view l y c I Hw) as S. rewrite calls_cons. cbn [aexec].
    destruct (astep E d t y c) as [[y1 r]|]; cbn [obind].
    - destruct S as [I1 [H1 S]]. specialize (IH _ _ I1 La'). rewrite H1 in IH.
      destruct (the_call (y_heap y) c) as [|v vs] eqn:Ec.
      + destruct S as [V ->]. rewrite V in IH. cbn [app]. destruct (aexec E d t y1 h) as [[y2 rs]|]; exact IH.
      + assert (vs = []) as -> by (destruct c; cbn in Ec; congruence). destruct S as [V Nr]. cbn [app vexec]. rewrite V. cbn [obind].
        destruct (aexec E d t y1 h) as [[y2 rs]|]; cbn [obind]; rewrite IH; cbn [obind]; [|reflexivity]. destruct r; [congruence|reflexivity..].
    - destruct S as [v [-> V]]. cbn [app vexec]. now rewrite V.
  Qed.
End Alone.

(** As long as the caller does not write to a slice after passing it, all it can
    see - the answers of AddRule and RemoveRule, what Flush sends, what Filter
    reports, panics - is what it would see if the calls copied their slices. *)
Theorem C58_left_alone_partial :
  forall E d t h, left_alone [] h ->
    match aexec E d t asys0 h with
    | Panic => vexec E (vsys0 d t) (calls_of [] h) = Panic
    | Val (y, rs) => exists z, vexec E (vsys0 d t) (calls_of [] h) = Val (z, results_of rs) /\
        v_pol z = map (fun ka => (fst ka, tl (array (y_heap y) (snd ka)))) (y_pol y)
    end.
Proof.
  intros E d t h L. pose proof (exec_view E d t h [] asys0) as V. cbn [y_heap asys0] in V.
  assert (I : Inside [] asys0) by (constructor; cbn; constructor || (intros x [])).
  specialize (V I L). change (view d t asys0) with (vsys0 d t) in V. destruct (aexec E d t asys0 h) as [[y rs]|]; [|exact V].
  exists (view d t y). split; [exact V|reflexivity].
Qed.
Print Assumptions C58_left_alone_partial.

(** ** With any writes: the answers of AddRule and RemoveRule *)
Fixpoint askel (n : anode) : node :=
  match n with ANode _ c0 c1 => Node [] (map (fun kn => (fst kn, askel (snd kn))) c0) (map (fun kn => (fst kn, askel (snd kn))) c1) end.
Fixpoint skel (n : node) : node :=
  match n with Node _ c0 c1 => Node [] (map (fun kn => (fst kn, skel (snd kn))) c0) (map (fun kn => (fst kn, skel (snd kn))) c1) end.
Lemma child_skel n i : omap (mmap skel) (child n i) = child (skel n) i.
Proof. destruct n as [r c0 c1], i as [|[|i]]; reflexivity. Qed.
Lemma achild_skel n i : omap (mmap askel) (achild n i) = child (askel n) i.
Proof. destruct n as [r c0 c1], i as [|[|i]]; reflexivity. Qed.
Lemma set_skel n i m : skel (set_child n i m) = set_child (skel n) i (mmap skel m).
Proof. destruct n as [r c0 c1], i as [|[|i]]; reflexivity. Qed.
Lemma aset_skel n i m : askel (aset_child n i m) = set_child (askel n) i (mmap askel m).
Proof. destruct n as [r c0 c1], i as [|[|i]]; reflexivity. Qed.
Lemma mget_skel k m m' : mmap askel m = mmap skel m' -> option_map askel (mget k m) = option_map skel (mget k m').
Proof. intros Em. now rewrite <- !mget_mmap, Em. Qed.
Lemma child_both n n' i : askel n = skel n' ->
  match achild n i, child n' i with
  | Val m, Val m' => mmap askel m = mmap skel m'
  | Panic, Panic => True
  | _, _ => False
  end.
Proof.
  intros Es. pose proof (achild_skel n i) as A. pose proof (child_skel n' i) as B. rewrite Es, <- B in A.
  destruct (achild n i), (child n' i); cbn in A; try discriminate; [congruence|exact I].
Qed.
Lemma add_skel d v a s : forall n n', askel n = skel n' -> omap askel (aadd d v a s n) = omap skel (addRuleHelper d v s n').
Proof.
  induction s as [e cs IH] using stage_ind2. intros n n' Es. cbn [addRuleHelper aadd]. generalize 0 as i. revert n n' Es.
  induction IH as [|c cs Hc _ IHcs]; intros n n' Es i; [cbn; now rewrite Es|].
  pose proof (child_both n n' i Es) as C. destruct (achild n i) as [m|], (child n' i) as [m'|]; try (destruct C; fail); [|reflexivity]. cbn [obind].
  destruct (IsLeafNode c); cbn [obind].
  - apply IHcs. rewrite aset_skel, set_skel, !mput_mmap, C, Es. reflexivity.
  - assert (G : askel match mget (stage_key d c v) m with Some n0 => n0 | None => ANode (Some a) [] [] end = skel (GetOrCreate m' (stage_key d c v) v)).
    { unfold GetOrCreate. pose proof (mget_skel (stage_key d c v) _ _ C) as Mg. destruct (mget _ m), (mget _ m'); cbn in Mg; try discriminate; [congruence|reflexivity]. }
    specialize (Hc _ _ G). destruct (aadd d v a c _) as [n1|], (addRuleHelper d v c _) as [n2|]; cbn [omap] in Hc; try discriminate; [|reflexivity]. cbn [obind].
    apply IHcs. rewrite aset_skel, set_skel, !mput_mmap, C, Es. injection Hc as ->. reflexivity.
Qed.
Lemma remove_skel d v s : forall n n', askel n = skel n' -> omap askel (aremove d v s n) = omap skel (removeRuleHelper d v s n').
Proof.
  induction s as [e cs IH] using stage_ind2. intros n n' Es. cbn [removeRuleHelper aremove]. generalize 0 as i. revert n n' Es.
  induction IH as [|c cs Hc _ IHcs]; intros n n' Es i; [cbn; now rewrite Es|].
  pose proof (child_both n n' i Es) as C. destruct (achild n i) as [m|], (child n' i) as [m'|]; try (destruct C; fail); [|reflexivity]. cbn [obind].
  destruct (IsLeafNode c); cbn [obind].
  - apply IHcs. rewrite aset_skel, set_skel, !mdel_mmap, C, Es. reflexivity.
  - pose proof (mget_skel (stage_key d c v) _ _ C) as Mg. destruct (mget (stage_key d c v) m) as [n1|], (mget (stage_key d c v) m') as [n2|]; cbn in Mg; try discriminate.
    + injection Mg as Mg. specialize (Hc _ _ Mg). destruct (aremove d v c n1) as [n3|], (removeRuleHelper d v c n2) as [n4|]; cbn [omap] in Hc; try discriminate; [|reflexivity].
      cbn [obind]. apply IHcs. rewrite aset_skel, set_skel, !mput_mmap, C, Es. injection Hc as ->. reflexivity.
    + cbn [obind]. apply IHcs. rewrite aset_skel, set_skel, C, Es. reflexivity.
Qed.

Definition changes (c : vcall) : bool := match c with VAdd _ | VRemove _ => true | _ => false end.
Section Answers.
  Variables (E : evaluator) (d : argdef) (t : stage).
  Definition unit_of {A} (_ : A) : unit := tt.
  Record Alike (y : asys) (z : vsys) : Prop := {
    k_pol : mmap unit_of (y_pol y) = mmap unit_of (v_pol z);
    k_def : m_def (v_mat z) = d; k_tree : m_tree (v_mat z) = t;
    k_root : askel (y_root y) = skel (m_root (v_mat z))
  }.
  Lemma alike_get y z k : Alike y z -> (mget k (y_pol y) = None <-> mget k (v_pol z) = None).
  Proof.
    intros [Kp _ _ _]. assert (G : option_map unit_of (mget k (y_pol y)) = option_map unit_of (mget k (v_pol z))) by now rewrite <- !mget_mmap, Kp.
    destruct (mget k (y_pol y)), (mget k (v_pol z)); cbn in G; split; intros; congruence || discriminate.
  Qed.
  (** One change: the same answer. *)
  Lemma change_alike y z c v : Alike y z -> the_call (y_heap y) c = [v] -> changes v = true ->
    match astep E d t y c with
    | Panic => vstep E z v = Panic
    | Val (y1, r) => exists z1, vstep E z v = Val (z1, r) /\ Alike y1 z1 /\ (exists b e, r = RBool b e) /\ y_heap y1 = y_heap y
    end.
  Proof.
    intros K Hc Hv. pose proof K as [Kp Kd Kt Kr]. destruct c as [r|a i w|a|a| |ord rDef rvals]; cbn in Hc; try discriminate; injection Hc as <-; try discriminate; cbn [astep].
    - destruct (array (y_heap y) a) as [|key x]; [reflexivity|]. cbn [vstep]. destruct (String.eqb key "p"); [|exists z; repeat split; eauto].
      unfold AddRule. pose proof (alike_get y z (Hash x) K) as G.
      destruct (mget (Hash x) (y_pol y)) eqn:E1, (mget (Hash x) (v_pol z)) eqn:E2; try (exfalso; intuition congruence).
      + cbn [m_events obind]. eexists. split; [reflexivity|]. split; [constructor; assumption|]. split; eauto.
      + cbn [m_events m_event]. rewrite Kd, Kt. pose proof (add_skel d x a t _ _ Kr) as A.
        destruct (aadd d x a t (y_root y)) as [n1|], (addRuleHelper d x t (m_root (v_mat z))) as [n2|]; cbn [omap] in A; try discriminate; cbn [obind]; [|reflexivity].
        eexists. split; [reflexivity|]. split; [|split; eauto]. constructor; cbn [y_pol v_pol v_mat m_def m_tree y_root m_root]; auto; [|congruence]. rewrite !mput_mmap, Kp. reflexivity.
    - destruct (array (y_heap y) a) as [|key x]; [reflexivity|]. cbn [vstep]. destruct (String.eqb key "p"); [|exists z; repeat split; eauto].
      unfold RemoveRule. pose proof (alike_get y z (Hash x) K) as G.
      destruct (mget (Hash x) (y_pol y)) eqn:E1, (mget (Hash x) (v_pol z)) eqn:E2; try (exfalso; intuition congruence).
      + cbn [m_events m_event]. rewrite Kd, Kt. pose proof (remove_skel d x t _ _ Kr) as A.
        destruct (aremove d x t (y_root y)) as [n1|], (removeRuleHelper d x t (m_root (v_mat z))) as [n2|]; cbn [omap] in A; try discriminate; cbn [obind]; [|reflexivity].
        eexists. split; [reflexivity|]. split; [|split; eauto]. constructor; cbn [y_pol v_pol v_mat m_def m_tree y_root m_root]; auto; [|congruence]. rewrite !mdel_mmap, Kp. reflexivity.
      + cbn [m_events obind]. eexists. split; [reflexivity|]. split; [constructor; assumption|]. split; eauto.
  Qed.
  Lemma other_alike y z c y1 r : Alike y z -> (forall v, the_call (y_heap y) c = [v] -> changes v = false) -> astep E d t y c = Val (y1, r) ->
    Alike y1 z /\ (forall b e, r <> RBool b e) /\ y_heap y1 = heap_after (y_heap y) c.
  Proof.
    intros [Kp Kd Kt Kr] Hc Hs. destruct c as [w|a i w|a|a| |ord rDef rvals]; cbn [astep heap_after] in *.
    - injection Hs as <- <-. repeat split; auto; discriminate.
    - injection Hs as <- <-. repeat split; auto; discriminate.
    - specialize (Hc _ eq_refl). discriminate.
    - specialize (Hc _ eq_refl). discriminate.
    - injection Hs as <- <-. repeat split; auto; discriminate.
    - unfold filter_rules in Hs. destruct (RangeMatches _ _ _ _ _ _ _) as [[l0 e0]|]; [|discriminate]. injection Hs as <- <-. repeat split; auto; discriminate.
  Qed.
  Lemma answers_alike h : forall y z y1 rs, Alike y z -> aexec E d t y h = Val (y1, rs) ->
    exists z1, vexec E z (filter changes (calls_of (y_heap y) h)) = Val (z1, answers_of rs) /\ Alike y1 z1.
  Proof.
    induction h as [|c h IH]; intros y z y1 rs K H; cbn [aexec] in H; [injection H as <- <-; exists z; split; [reflexivity|exact K]|].
    destruct (astep E d t y c) as [[y2 r]|] eqn:Es; [|discriminate]. cbn [obind] in H. destruct (aexec E d t y2 h) as [[y3 rs']|] eqn:Eh; [|discriminate].
    injection H as <- <-. rewrite calls_cons, filter_app.
    destruct (existsb changes (the_call (y_heap y) c)) eqn:Ex.
    - assert (Hv : exists v, the_call (y_heap y) c = [v] /\ changes v = true).
      { destruct c; cbn in *; try discriminate; eexists; split; reflexivity. }
      destruct Hv as [v [Hv Hch]]. pose proof (change_alike y z c v K Hv Hch) as S. rewrite Es in S. destruct S as [z1 [S1 [S2 [[b [e ->]] S3]]]].
      destruct (IH _ _ _ _ S2 Eh) as [z2 [V K2]]. exists z2. split; [|exact K2]. rewrite Hv. cbn [filter]. rewrite Hch. cbn [app vexec]. rewrite S1. cbn [obind].
      assert (Hh : heap_after (y_heap y) c = y_heap y2) by (rewrite S3; destruct c; try reflexivity; discriminate). rewrite Hh, V. reflexivity.
    - destruct (other_alike y z c y2 r K) as [K2 [Nr Hh]]; [|exact Es|].
      { intros v Hv. rewrite Hv in Ex. cbn in Ex. now destruct (changes v). }
      destruct (IH _ _ _ _ K2 Eh) as [z2 [V K3]]. exists z2. split; [|exact K3].
      assert (F : filter changes (the_call (y_heap y) c) = []) by (destruct c; cbn in *; try discriminate; reflexivity).
      rewrite F. cbn [app]. rewrite <- Hh, V. f_equal. f_equal. destruct r; try reflexivity. exfalso. eapply Nr; reflexivity.
  Qed.
End Answers.
(** Whatever the caller writes to whichever slices: AddRule and RemoveRule answer
    as if they had copied, and the same rules count as present. *)
Theorem C58_answers :
  forall E d t h y rs, aexec E d t asys0 h = Val (y, rs) ->
    exists z, vexec E (vsys0 d t) (filter changes (calls_of [] h)) = Val (z, answers_of rs) /\
      mkeys (v_pol z) = mkeys (y_pol y).
Proof.
  intros E d t h y rs H. destruct (answers_alike E d t h asys0 (vsys0 d t) y rs) as [z [V [Kp _ _ _]]]; [constructor; reflexivity|exact H|].
  exists z. split; [exact V|]. rewrite <- (mkeys_mmap unit_of (v_pol z)), <- Kp. apply mkeys_mmap.
Qed.
Print Assumptions C58_answers.

(** ** The property is false

    Add (alice, data1, read), write bob over alice, ask: bob may read, alice may
    not; the adapter is sent bob's rule; the rule of bob cannot be removed; the
    rule of alice can. *)
Definition al_d : argdef := NewPolicyDef "p" "sub, obj".
Definition al_r : argdef := NewRequestDef "r" "sub, obj".
Definition al_t : stage := Stage "" [Stage "r_sub == p_sub" [Stage "r_obj == p_obj" []]].
Definition al_ord : order := fun _ _ m => m.
Definition al_ask (who : string) : acall := AFilter al_ord al_r [VStr who; VStr "data1"].
Definition al_h : list acall :=
  [ANew ["p"; "alice"; "data1"]; AAdd 0; al_ask "alice"; AWrite 0 1 "bob"; al_ask "alice"; al_ask "bob"; AFlush;
   ARemove 0; ANew ["p"; "alice"; "data1"]; ARemove 1]%string.
Theorem C58_copied_refuted :
  exists y z,
    aexec (mini []) al_d al_t asys0 al_h = Val (y,
      [RNone; RBool true None; RRules [["alice"; "data1"]] None; RNone; RRules [] None; RRules [["bob"; "data1"]] None;
       RSent [(true, ["p"; "bob"; "data1"])]; RBool false None; RNone; RBool true None])%string /\
    vexec (mini []) (vsys0 al_d al_t) (calls_of [] al_h) = Val (z,
      [RBool true None; RRules [["alice"; "data1"]] None; RRules [["alice"; "data1"]] None; RRules [] None;
       RSent [(true, ["p"; "alice"; "data1"])]; RBool false None; RBool true None])%string.
Proof. do 2 eexists. split; vm_compute; reflexivity. Qed.
Print Assumptions C58_copied_refuted.

(** The hypothesis is met: a caller that takes a new slice for every rule and
    writes only before passing it. *)
Example C58_ex :
  let h := [ANew ["p"; ""; "data1"]; AWrite 0 1 "alice"; AAdd 0; ANew ["p"; "x"; "data1"]; AWrite 1 1 "bob"; AAdd 1; al_ask "bob"; AFlush; ARemove 0; al_ask "alice"]%string in
  left_alone [] h /\
  exists y, aexec (mini []) al_d al_t asys0 h = Val (y,
    [RNone; RNone; RBool true None; RNone; RNone; RBool true None; RRules [["bob"; "data1"]] None;
     RSent [(true, ["p"; "alice"; "data1"]); (true, ["p"; "bob"; "data1"])]; RBool true None; RRules [] None])%string.
Proof. cbv zeta. split; [cbn; repeat split; intuition discriminate|]. eexists. vm_compute. reflexivity. Qed.
