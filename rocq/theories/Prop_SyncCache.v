(** Property C50: concurrent calls on the synchronised cache. *)
From Verif Require Import GoBase GoBaseP CacheM CacheSpec CacheP Prop_Cache SyncCacheM SyncCacheP.

Section Lemmas.
  Context {V : Type}.

  Lemma nth_set (ts : list (thread V)) i t j : nth_error (set_thread ts i t) j = if Nat.eqb i j then (if Nat.ltb i (List.length ts) then Some t else None) else nth_error ts j.
  Proof.
    revert i j. induction ts as [|x ts IH]; intros [|i] [|j]; cbn; try reflexivity.
    - now destruct (Nat.eqb i j).
    - rewrite IH. reflexivity.
  Qed.
  Lemma nth_set_cases (ts : list (thread V)) i t j x : nth_error (set_thread ts i t) j = Some x -> (j = i /\ x = t) \/ (j <> i /\ nth_error ts j = Some x).
  Proof.
    rewrite nth_set. destruct (Nat.eqb_spec i j) as [<-|N]; [|right; split; [congruence|assumption]].
    destruct (Nat.ltb i (List.length ts)); [|discriminate]. intros H. injection H as <-. auto.
  Qed.

  (** ** Per access *)
  Section Access.
    Context (T : Prop) (I : lru V -> Prop) (R : lru V -> lru V -> Prop) (Q : lru V -> Prop) (res : option V -> Prop).
    Hypothesis R_refl : forall c, R c c.
    Notation ok := (ok T I R Q res).
    Lemma ok_load_next p next : (forall c, I c -> Q c -> T -> get_next (l_heap c) p <> Panic) ->
      (forall c q, I c -> Q c -> get_next (l_heap c) p = Val q -> ok (next q)) -> ok (load_next p next).
    Proof.
      intros H1 H2. apply ok_access.
      - intros c Ic Qc Tt. specialize (H1 c Ic Qc Tt). destruct (get_next (l_heap c) p); [discriminate|contradiction].
      - intros c c' p' Ic Qc H. destruct (get_next (l_heap c) p) as [q|] eqn:E; [|discriminate]. cbn in H. injection H as <- <-. eauto.
    Qed.
    Lemma ok_load_prev p next : (forall c, I c -> Q c -> T -> get_prev (l_heap c) p <> Panic) ->
      (forall c q, I c -> Q c -> get_prev (l_heap c) p = Val q -> ok (next q)) -> ok (load_prev p next).
    Proof.
      intros H1 H2. apply ok_access.
      - intros c Ic Qc Tt. specialize (H1 c Ic Qc Tt). destruct (get_prev (l_heap c) p); [discriminate|contradiction].
      - intros c c' p' Ic Qc H. destruct (get_prev (l_heap c) p) as [q|] eqn:E; [|discriminate]. cbn in H. injection H as <- <-. eauto.
    Qed.
    Lemma ok_load_value p : (forall c, I c -> Q c -> T -> deref (l_heap c) p <> Panic) ->
      (forall c an, I c -> Q c -> deref (l_heap c) p = Val an -> res (n_value (snd an))) -> ok (load_value p Done).
    Proof.
      intros H1 H2. apply ok_access.
      - intros c Ic Qc Tt. specialize (H1 c Ic Qc Tt). destruct (deref (l_heap c) p); [discriminate|contradiction].
      - intros c c' p' Ic Qc H. destruct (deref (l_heap c) p) as [q|] eqn:E; [|discriminate]. cbn in H. injection H as <- <-.
        split; [exact Ic|]. split; [apply R_refl|]. constructor. eauto.
    Qed.
    Lemma ok_store_next p q rest : (forall c, I c -> Q c -> T -> set_next (l_heap c) p q <> Panic) ->
      (forall c h, I c -> Q c -> set_next (l_heap c) p q = Val h -> I (mkLru (l_cap c) (l_map c) h) /\ R c (mkLru (l_cap c) (l_map c) h)) ->
      ok rest -> ok (store_next p q rest).
    Proof.
      intros H1 H2 H3. apply ok_access.
      - intros c Ic Qc Tt. specialize (H1 c Ic Qc Tt). destruct (set_next (l_heap c) p q); [discriminate|contradiction].
      - intros c c' p' Ic Qc H. destruct (set_next (l_heap c) p q) as [h|] eqn:E; [|discriminate]. cbn in H. injection H as <- <-.
        destruct (H2 c h Ic Qc E). auto.
    Qed.
    Lemma ok_store_prev p q rest : (forall c, I c -> Q c -> T -> set_prev (l_heap c) p q <> Panic) ->
      (forall c h, I c -> Q c -> set_prev (l_heap c) p q = Val h -> I (mkLru (l_cap c) (l_map c) h) /\ R c (mkLru (l_cap c) (l_map c) h)) ->
      ok rest -> ok (store_prev p q rest).
    Proof.
      intros H1 H2 H3. apply ok_access.
      - intros c Ic Qc Tt. specialize (H1 c Ic Qc Tt). destruct (set_prev (l_heap c) p q); [discriminate|contradiction].
      - intros c c' p' Ic Qc H. destruct (set_prev (l_heap c) p q) as [h|] eqn:E; [|discriminate]. cbn in H. injection H as <- <-.
        destruct (H2 c h Ic Qc E). auto.
    Qed.
  End Access.

  (** ** Any calls: answers are stored values *)
  Section Stored.
    Variable stored : string -> V -> Prop.
    Notation sane := (sane stored).
    Notation entry := (entry stored).
    Definition good_answer (k : string) (r : option V) : Prop := match r with Some v => stored k v | None => True end.
    Lemma body_stored k n : ok False sane grows (fun c => entry c k n) (good_answer k) (remove_prog n (add_prog n (load_value (Some n) Done))).
    Proof.
      assert (SN : forall c p q h, sane c -> set_next (l_heap c) p q = Val h -> sane (mkLru (l_cap c) (l_map c) h) /\ grows c (mkLru (l_cap c) (l_map c) h)).
      { intros c p q h S H. apply kept_next in H. split; [eapply sane_keep; eauto; reflexivity|now apply kept_grows]. }
      assert (SP : forall c p q h, sane c -> set_prev (l_heap c) p q = Val h -> sane (mkLru (l_cap c) (l_map c) h) /\ grows c (mkLru (l_cap c) (l_map c) h)).
      { intros c p q h S H. apply kept_prev in H. split; [eapply sane_keep; eauto; reflexivity|now apply kept_grows]. }
      unfold remove_prog, add_prog.
      apply ok_load_prev; [apply grows_refl|tauto|intros _ p _ _ _]. apply ok_load_next; [apply grows_refl|tauto|intros _ q _ _ _].
      apply ok_store_next; [tauto|eauto|]. apply ok_load_next; [apply grows_refl|tauto|intros _ q2 _ _ _].
      apply ok_load_prev; [apply grows_refl|tauto|intros _ p2 _ _ _]. apply ok_store_prev; [tauto|eauto|].
      apply ok_load_next; [apply grows_refl|tauto|intros _ hn _ _ _]. apply ok_store_next; [tauto|eauto|]. apply ok_store_prev; [tauto|eauto|].
      apply ok_store_next; [tauto|eauto|]. apply ok_store_prev; [tauto|eauto|].
      apply ok_load_value; [apply grows_refl|tauto|]. intros c [a x] _ [v [Hv Sv]] H. apply deref_val in H as [H Hx]. injection H as <-.
      unfold kv in Hv. rewrite Hx in Hv. cbn in Hv. injection Hv as _ Hv. cbn. rewrite Hv. exact Sv.
    Qed.
    Definition tok c (t : thread V) : Prop :=
      match t with
      | Waiting (CPut k v) => stored k v
      | Waiting (CGet _) => True
      | Reading k p => p = get_prog k \/ exists n, entry c k n /\ ok False sane grows (fun c => entry c k n) (good_answer k) p
      | Finished (CGet k) r => good_answer k r
      | Finished (CPut _ _) _ => True
      end.
    Lemma tok_grows c c' t : grows c c' -> tok c t -> tok c' t.
    Proof. intros G H. destruct t as [[|]|k p|[|]]; auto. destruct H as [H|[n [H1 H2]]]; [now left|right]. exists n. split; [eapply grows_entry; eauto|exact H2]. Qed.
    Lemma step_stored s i s' : sane (s_cache s) -> (forall j t, nth_error (s_threads s) j = Some t -> tok (s_cache s) t) ->
      sstep s i = Val s' -> sane (s_cache s') /\ (forall j t, nth_error (s_threads s') j = Some t -> tok (s_cache s') t).
    Proof.
      intros S Ts H. unfold sstep in H. destruct (nth_error (s_threads s) i) as [t|] eqn:Ei; [|injection H as <-; auto].
      assert (Upd : forall c' t', grows (s_cache s) c' -> tok c' t' -> forall j t, nth_error (set_thread (s_threads s) i t') j = Some t -> tok c' t).
      { intros c' t' G Ht' j t1 Hj. apply nth_set_cases in Hj as [[_ ->]|[_ Hj]]; [exact Ht'|]. eapply tok_grows; eauto. }
      destruct t as [[k|k v]|k [r|f]|o r]; try (injection H as <-; auto; fail).
      - injection H as <-. cbn. split; [exact S|]. apply Upd; [apply grows_refl|]. now left.
      - destruct (existsb is_reading (s_threads s)); [injection H as <-; auto|]. destruct (Put (s_cache s) k v) as [c'|] eqn:Ep; [|discriminate].
        cbn in H. injection H as <-. destruct (put_inv stored _ _ _ _ (Ts _ _ Ei) S Ep) as [S' G]. cbn. split; [exact S'|]. now apply Upd.
      - destruct (f (s_cache s)) as [[c' p']|] eqn:Ef; [|discriminate]. cbn in H. injection H as <-. cbn.
        destruct (Ts _ _ Ei) as [Hp|[n [En Hok]]].
        + unfold get_prog, look_map in Hp. injection Hp as ->. injection Ef as <- <-. split; [exact S|]. apply Upd; [apply grows_refl|].
          destruct (mget k (l_map (s_cache s))) as [n|] eqn:Em; [|exact Logic.I]. right. exists n. split; [now apply S|apply body_stored].
        + inversion Hok as [|f0 _ Hf]; subst. destruct (Hf _ _ _ S En Ef) as [S' [G Hp']]. split; [exact S'|]. apply Upd; [exact G|].
          destruct p' as [r|f']; cbn [settle tok]; [now inversion Hp'|]. right. exists n. split; [eapply grows_entry; eauto|exact Hp'].
    Qed.
    Lemma run_stored sched : forall s s', sane (s_cache s) -> (forall j t, nth_error (s_threads s) j = Some t -> tok (s_cache s) t) ->
      srun s sched = Val s' -> sane (s_cache s') /\ (forall j t, nth_error (s_threads s') j = Some t -> tok (s_cache s') t).
    Proof.
      induction sched as [|i sched IH]; intros s s' S Ts H; cbn [srun] in H; [injection H as <-; auto|].
      destruct (sstep s i) as [s1|] eqn:E; [|discriminate]. cbn in H. destruct (step_stored s i s1 S Ts E). eauto.
    Qed.
  End Stored.

  (** ** Gets only: the map and the values stay, no pointer becomes nil *)
  Section Gets.
    Variable c0 : lru V.
    Definition somewhere (p : option nat) : Prop := exists a, p = Some a /\ a < List.length (l_heap c0).
    Record stays (c : lru V) : Prop := {
      y_map : l_map c = l_map c0;
      y_kept : kept (l_heap c0) (l_heap c);
      y_head : somewhere (nx (l_heap c) a_head);
      y_next : forall k n, mget k (l_map c0) = Some n -> somewhere (nx (l_heap c) n);
      y_prev : forall k n, mget k (l_map c0) = Some n -> somewhere (pv (l_heap c) n)
    }.
    Hypothesis Start : stays c0.
    Hypothesis Head : a_head < List.length (l_heap c0).
    Hypothesis Nodes : forall k n, mget k (l_map c0) = Some n -> n < List.length (l_heap c0).

    Lemma inh_stays c a : stays c -> a < List.length (l_heap c0) -> inh (l_heap c) a.
    Proof. intros Y H. unfold inh. destruct (y_kept _ Y) as [-> _]. exact H. Qed.
    Lemma stays_next c p q h : stays c -> somewhere p -> somewhere q -> set_next (l_heap c) p q = Val h -> stays (mkLru (l_cap c) (l_map c) h).
    Proof.
      intros Y [a [-> Ha]] Hq H. pose proof (inh_stays c a Y Ha) as Hi. rewrite set_next_ok in H by exact Hi. injection H as <-.
      constructor; cbn.
      - apply (y_map _ Y).
      - eapply kept_trans; [apply (y_kept _ Y)|]. apply (kept_next _ (Some a) q). now apply set_next_ok.
      - rewrite nx_setn by exact Hi. destruct (Nat.eqb a a_head); [exact Hq|apply (y_head _ Y)].
      - intros k n Hn. rewrite nx_setn by exact Hi. destruct (Nat.eqb a n); [exact Hq|eapply (y_next _ Y); eauto].
      - intros k n Hn. rewrite pv_setn. eapply (y_prev _ Y); eauto.
    Qed.
    Lemma stays_prev c p q h : stays c -> somewhere p -> somewhere q -> set_prev (l_heap c) p q = Val h -> stays (mkLru (l_cap c) (l_map c) h).
    Proof.
      intros Y [a [-> Ha]] Hq H. pose proof (inh_stays c a Y Ha) as Hi. rewrite set_prev_ok in H by exact Hi. injection H as <-.
      constructor; cbn.
      - apply (y_map _ Y).
      - eapply kept_trans; [apply (y_kept _ Y)|]. apply (kept_prev _ (Some a) q). now apply set_prev_ok.
      - rewrite nx_setp. apply (y_head _ Y).
      - intros k n Hn. rewrite nx_setp. eapply (y_next _ Y); eauto.
      - intros k n Hn. rewrite pv_setp by exact Hi. destruct (Nat.eqb a n); [exact Hq|eapply (y_prev _ Y); eauto].
    Qed.
    Definition any (_ _ : lru V) : Prop := True.
    Definition always (_ : lru V) : Prop := True.
    Lemma set_next_no_panic c p q : stays c -> somewhere p -> set_next (l_heap c) p q <> Panic.
    Proof. intros Y [a [-> Ha]]. rewrite set_next_ok by (now apply inh_stays). discriminate. Qed.
    Lemma set_prev_no_panic c p q : stays c -> somewhere p -> set_prev (l_heap c) p q <> Panic.
    Proof. intros Y [a [-> Ha]]. rewrite set_prev_ok by (now apply inh_stays). discriminate. Qed.
    Lemma body_gets k n : mget k (l_map c0) = Some n ->
      ok True stays any always (fun r => r = vl (l_heap c0) n) (remove_prog n (add_prog n (load_value (Some n) Done))).
    Proof.
      intros Hn. pose proof (Nodes _ _ Hn) as Ln. assert (Sn : somewhere (Some n)) by (exists n; auto). assert (Sh : somewhere (Some a_head)) by (exists a_head; auto).
      assert (GN : forall c a, stays c -> a < List.length (l_heap c0) -> get_next (l_heap c) (Some a) = Val (nx (l_heap c) a)) by (intros; apply get_next_ok; now apply inh_stays).
      assert (GP : forall c a, stays c -> a < List.length (l_heap c0) -> get_prev (l_heap c) (Some a) = Val (pv (l_heap c) a)) by (intros; apply get_prev_ok; now apply inh_stays).
      assert (LN : forall next, (forall q, somewhere q -> ok True stays any always (fun r => r = vl (l_heap c0) n) (next q)) ->
         ok True stays any always (fun r => r = vl (l_heap c0) n) (load_next (Some n) next)).
      { intros next H. apply ok_load_next; [intros; exact Logic.I| |].
        - intros c Y _ _. rewrite GN by assumption. discriminate.
        - intros c q Yc _. rewrite GN by assumption. intros Hq. injection Hq as <-. apply H. eapply (y_next _ Yc); eauto. }
      assert (LP : forall next, (forall q, somewhere q -> ok True stays any always (fun r => r = vl (l_heap c0) n) (next q)) ->
         ok True stays any always (fun r => r = vl (l_heap c0) n) (load_prev (Some n) next)).
      { intros next H. apply ok_load_prev; [intros; exact Logic.I| |].
        - intros c Y _ _. rewrite GP by assumption. discriminate.
        - intros c q Yc _. rewrite GP by assumption. intros Hq. injection Hq as <-. apply H. eapply (y_prev _ Yc); eauto. }
      assert (SN : forall p q rest, somewhere p -> somewhere q -> ok True stays any always (fun r => r = vl (l_heap c0) n) rest ->
         ok True stays any always (fun r => r = vl (l_heap c0) n) (store_next p q rest)).
      { intros p q rest Hp Hq Hr. apply ok_store_next; [intros c Y _ _; now apply set_next_no_panic| |exact Hr].
        intros c h Y _ H. split; [exact (stays_next c p q h Y Hp Hq H)|exact Logic.I]. }
      assert (SP : forall p q rest, somewhere p -> somewhere q -> ok True stays any always (fun r => r = vl (l_heap c0) n) rest ->
         ok True stays any always (fun r => r = vl (l_heap c0) n) (store_prev p q rest)).
      { intros p q rest Hp Hq Hr. apply ok_store_prev; [intros c Y _ _; now apply set_prev_no_panic| |exact Hr].
        intros c h Y _ H. split; [exact (stays_prev c p q h Y Hp Hq H)|exact Logic.I]. }
      unfold remove_prog, add_prog.
      apply LP. intros p Hp. apply LN. intros q Hq. apply SN; [exact Hp|exact Hq|]. apply LN. intros q2 Hq2. apply LP. intros p2 Hp2. apply SP; [exact Hq2|exact Hp2|].
      apply ok_load_next; [intros; exact Logic.I|intros c Y _ _; rewrite GN by assumption; discriminate|].
      intros c hn Yc _ Hh. rewrite GN in Hh by assumption. injection Hh as <-. pose proof (y_head _ Yc) as Hh.
      apply SN; [exact Sh|exact Sn|]. apply SP; [exact Hh|exact Sn|]. apply SN; [exact Sn|exact Hh|]. apply SP; [exact Sn|exact Sh|].
      assert (DN : forall c1, stays c1 -> exists x, nth_error (l_heap c1) n = Some x) by (intros c1 Y1; apply inh_node; now apply inh_stays).
      apply ok_load_value; [intros; exact Logic.I| |].
      - intros c1 Y1 _ _. destruct (DN c1 Y1) as [x Hx]. cbn. rewrite Hx. discriminate.
      - intros c1 [a x] Y1 _ H. apply deref_val in H as [H Hx]. injection H as <-. cbn. destruct (y_kept _ Y1) as [_ K]. specialize (K n). unfold kv in K. rewrite Hx in K.
        unfold vl. destruct (nth_error (l_heap c0) n); [|discriminate]. cbn in K. now injection K.
    Qed.
    Definition answer_of (k : string) (r : option V) : Prop :=
      r = match mget k (l_map c0) with Some n => vl (l_heap c0) n | None => None end.
    Definition gok (keys : list string) (j : nat) (t : thread V) : Prop :=
      match t with
      | Waiting (CGet k) => nth_error keys j = Some k
      | Reading k p => nth_error keys j = Some k /\ (p = get_prog k \/ exists n, mget k (l_map c0) = Some n /\ ok True stays any always (fun r => r = vl (l_heap c0) n) p)
      | Finished (CGet k) r => nth_error keys j = Some k /\ answer_of k r
      | _ => False
      end.
    Lemma step_gets keys s i : stays (s_cache s) -> (forall j t, nth_error (s_threads s) j = Some t -> gok keys j t) ->
      exists s', sstep s i = Val s' /\ stays (s_cache s') /\ (forall j t, nth_error (s_threads s') j = Some t -> gok keys j t).
    Proof.
      intros S Ts. unfold sstep. destruct (nth_error (s_threads s) i) as [t|] eqn:Ei; [|eauto].
      assert (Upd : forall t', gok keys i t' -> forall j t, nth_error (set_thread (s_threads s) i t') j = Some t -> gok keys j t).
      { intros t' Ht' j t1 Hj. apply nth_set_cases in Hj as [[-> ->]|[_ Hj]]; [exact Ht'|]. eauto. }
      pose proof (Ts _ _ Ei) as Ht. destruct t as [[k|k v]|k [r|f]|o r]; cbn [gok] in Ht; try contradiction; eauto.
      - eexists. split; [reflexivity|]. cbn. split; [exact S|]. apply Upd. cbn. auto.
      - destruct Ht as [Hk [Hp|[n [En Hok]]]].
        + unfold get_prog, look_map in Hp. injection Hp as ->. cbn [obind]. eexists. split; [reflexivity|]. cbn [s_cache s_threads]. split; [exact S|]. apply Upd.
          rewrite (y_map _ S). destruct (mget k (l_map c0)) as [n|] eqn:Em.
          * cbn [settle remove_prog load_prev gok]. split; [exact Hk|]. right. exists n. split; [exact Em|]. now apply (body_gets k).
          * cbn. unfold answer_of. rewrite Em. auto.
        + inversion Hok as [|f0 Hn Hf]; subst. destruct (f (s_cache s)) as [[c' p']|] eqn:Ef; [|exfalso; exact (Hn _ S Logic.I Logic.I Ef)].
          destruct (Hf _ _ _ S Logic.I Ef) as [S' [_ Hp']]. cbn [obind]. eexists. split; [reflexivity|]. cbn [s_cache s_threads]. split; [exact S'|]. apply Upd.
          destruct p' as [r|f']; cbn [settle gok].
          * split; [exact Hk|]. inversion Hp'; subst. unfold answer_of. rewrite En. reflexivity.
          * split; [exact Hk|]. right. eauto.
    Qed.
    Lemma run_gets keys sched : forall s, stays (s_cache s) -> (forall j t, nth_error (s_threads s) j = Some t -> gok keys j t) ->
      exists s', srun s sched = Val s' /\ stays (s_cache s') /\ (forall j t, nth_error (s_threads s') j = Some t -> gok keys j t).
    Proof.
      induction sched as [|i sched IH]; intros s S Ts; cbn [srun]; [eauto|].
      destruct (step_gets keys s i S Ts) as [s1 [E [S1 T1]]]. rewrite E. cbn [obind]. now apply IH.
    Qed.
  End Gets.

  Lemma linked_some (h : list (node V)) l a : linked h l -> Forall (inh h) l -> In a l ->
    (exists b, nx h a = Some b /\ inh h b) \/ exists l', l = l' ++ [a].
  Proof.
    induction l as [|x l IH]; intros L F H; [destruct H|]. inversion F as [|? ? Fx Fl]; subst. destruct l as [|y l].
    - destruct H as [->|[]]. right. now exists [].
    - rewrite linked_cons in L. destruct L as [L1 [L2 L3]]. destruct H as [->|H].
      + left. exists y. split; [exact L1|]. now inversion Fl.
      + destruct (IH L3 Fl H) as [X|[l' X]]; [now left|]. right. exists (x :: l'). now rewrite X.
  Qed.
  Lemma linked_some_prev (h : list (node V)) x l a : linked h (x :: l) -> Forall (inh h) (x :: l) -> In a l -> exists b, pv h a = Some b /\ inh h b.
  Proof.
    revert x. induction l as [|y l IH]; intros x L F H; [destruct H|]. inversion F as [|? ? Fx Fl]; subst.
    rewrite linked_cons in L. destruct L as [L1 [L2 L3]]. destruct H as [->|H]; [eauto|]. eapply IH; eauto.
  Qed.
  Lemma rep_stays c ns l : rep c ns l -> stays c c /\ a_head < List.length (l_heap c) /\ (forall k n, mget k (l_map c) = Some n -> n < List.length (l_heap c)).
  Proof.
    intros R. pose proof R as [Hnd Hin Hl Hf Hk Hmk Hm Hlen].
    assert (B : forall k n, mget k (l_map c) = Some n -> In n ns) by (intros k n H; apply Hm in H; tauto).
    assert (N : forall a, In a (a_head :: ns) -> exists b, nx (l_heap c) a = Some b /\ inh (l_heap c) b).
    { intros a Ha. destruct (linked_some _ _ a Hl Hin) as [X|[l' X]].
      - destruct Ha as [->|Ha]; [now left|]. right. apply in_or_app. now left.
      - exact X.
      - exfalso. rewrite app_comm_cons in X. apply app_inj_tail in X as [_ X]. subst a.
        rewrite app_comm_cons in Hnd. apply NoDup_remove_2 in Hnd. apply Hnd. rewrite app_nil_r. exact Ha. }
    split; [|split; [now inversion Hin|]].
    - constructor; [reflexivity|apply kept_refl| | |].
      + destruct (N a_head) as [b [X Y]]; [now left|]. rewrite X. exists b. auto.
      + intros k n Hn. destruct (N n) as [b [X Y]]; [right; eauto|]. rewrite X. exists b. auto.
      + intros k n Hn. destruct (linked_some_prev _ _ _ n Hl Hin) as [b [X Y]]; [apply in_or_app; left; eauto|]. rewrite X. exists b. auto.
    - intros k n Hn. rewrite Forall_forall in Hin. apply Hin. right. apply in_or_app. left. eauto.
  Qed.
End Lemmas.

(** ** Any number of concurrent Gets

    From every reachable cache and under every schedule, no Get panics, the map
    of the cache does not change and each Get answers what it would have answered
    alone. *)
Theorem C50_gets_answer :
  forall (V : Type) cap (h : list (cop V)) c keys sched,
    1 <= cap -> cexec (NewLRUCache cap) h = Val c ->
    exists s, srun (start c (map CGet keys)) sched = Val s /\ l_map (s_cache s) = l_map c /\
      forall i k r, nth_error (s_threads s) i = Some (Finished (CGet k) r) -> nth_error keys i = Some k /\ r = lookup c k.
Proof.
  intros V cap h c keys sched Hc He. destruct (history_rep cap h Hc) as [c1 [ns [H1 [_ [R _]]]]]. rewrite He in H1. injection H1 as <-.
  destruct (rep_stays _ _ _ R) as [Y [Hh Hn]].
  destruct (run_gets c Hh Hn keys sched (start c (map CGet keys)) Y) as [s [Hs [Ys Ts]]].
  { intros j t Hj. unfold start in Hj. cbn in Hj. rewrite map_map in Hj. rewrite nth_error_map in Hj. destruct (nth_error keys j) eqn:E; [|discriminate]. injection Hj as <-. exact E. }
  exists s. split; [exact Hs|]. split; [apply (y_map _ _ Ys)|]. intros i k r Hi. apply Ts in Hi as [Hk Ha]. split; [exact Hk|].
  rewrite (lookup_rep _ _ _ _ R). unfold answer_of in Ha. rewrite Ha. destruct (mget k (l_map c)) as [n|] eqn:E.
  - destruct (rep_entry_of _ _ _ _ _ R E) as [v [_ [[_ Hv] Hl]]]. cbn in Hv. congruence.
  - symmetry. destruct (mget k (lru_keep_of cap h)) as [v|] eqn:El; [|reflexivity]. exfalso.
    pose proof (lookup_rep _ _ _ k R) as L. rewrite El in L. unfold lookup, Get in L. rewrite E in L. discriminate.
Qed.
Print Assumptions C50_gets_answer.

(** ** Gets and Puts

    Under every schedule, a Get only answers a value that was stored under its
    key, before or by one of the concurrent calls. *)
Theorem C50_answers_stored :
  forall (V : Type) cap (h : list (cop V)) c calls sched s i k v,
    1 <= cap -> cexec (NewLRUCache cap) h = Val c -> srun (start c calls) sched = Val s ->
    nth_error (s_threads s) i = Some (Finished (CGet k) (Some v)) -> In (CPut k v) (h ++ calls).
Proof.
  intros V cap h c calls sched s i k v Hc He Hs Hi.
  set (stored := fun k v => In (CPut k v) (h ++ calls)).
  assert (S : sane stored c).
  { destruct (history_rep cap h Hc) as [c1 [ns [H1 [_ [R _]]]]]. rewrite He in H1. injection H1 as <-.
    intros k1 n Hn. destruct (rep_entry_of _ _ _ _ _ R Hn) as [w [_ [[Hk Hw] Hl]]]. cbn in Hk, Hw. exists w. split.
    - unfold kv, ky, vl in *. destruct (nth_error (l_heap c) n); [|discriminate]. cbn. now rewrite Hk, Hw.
    - unfold stored. apply in_or_app. left. apply (C31_get_only_stored V cap h c k1 w Hc He). rewrite (lookup_rep _ _ _ _ R). exact Hl. }
  destruct (run_stored stored sched (start c calls) s S) as [_ Ts]; [|exact Hs|exact (Ts _ _ Hi)].
  intros j t Hj. unfold start in Hj. cbn in Hj. rewrite nth_error_map in Hj. destruct (nth_error calls j) as [o|] eqn:E; [|discriminate]. injection Hj as <-.
  destruct o as [|k1 v1]; [exact Logic.I|]. cbn. unfold stored. apply in_or_app. right. eapply nth_error_In; eauto.
Qed.
Print Assumptions C50_answers_stored.

(** ** Without overlapping Gets

    [explains c l c']: the calls of [l] one after the other, with these answers,
    lead from [c] to [c']. *)
Fixpoint explains {V} (c : lru V) (l : list (cop V * option V)) (c' : lru V) : Prop :=
  match l with
  | [] => c' = c
  | (o, r) :: l' => exists c1, cstep c o = Val (c1, r) /\ explains c1 l' c'
  end.
(** The calls that returned, with their answers. *)
Definition returned {V} (s : config V) : list (cop V * option V) :=
  flat_map (fun t => match t with Finished o r => [(o, r)] | _ => [] end) (s_threads s).
Definition reading {V} (s : config V) (i : nat) : Prop := exists k p, nth_error (s_threads s) i = Some (Reading k p).
(** Never are two Gets in progress at the same time. *)
Fixpoint exclusive {V} (s : config V) (sched : list nat) : Prop :=
  (forall i j, reading s i -> reading s j -> i = j) /\
  match sched with
  | [] => True
  | i :: sched' => forall s', sstep s i = Val s' -> exclusive s' sched'
  end.

Section Serial.
  Context {V : Type} (cap : nat) (h : list (cop V)) (Hcap : 1 <= cap).
  Lemma explains_snoc l : forall (c c1 c2 : lru V) o r, explains c l c1 -> cstep c1 o = Val (c2, r) -> explains c (l ++ [(o, r)]) c2.
  Proof.
    induction l as [|[o1 r1] l IH]; intros c c1 c2 o r H1 H2; cbn in *.
    - subst c1. exists c2. auto.
    - destruct H1 as [x [H1 H3]]. exists x. split; [exact H1|]. eapply IH; eauto.
  Qed.
  Lemma explains_exec l : forall (c c' : lru V), explains c l c' -> cexec c (map fst l) = Val c'.
  Proof.
    induction l as [|[o r] l IH]; intros c c' H; cbn in *; [congruence|]. destruct H as [c1 [H1 H2]]. rewrite H1. cbn. auto.
  Qed.
  Lemma step_returns l c o : explains (NewLRUCache cap) l c -> exists c' r, cstep (V := V) c o = Val (c', r).
  Proof.
    intros H. apply explains_exec in H. destruct (history_rep cap (map fst l ++ [o]) Hcap) as [c2 [_ [H2 _]]].
    rewrite cexec_app, H in H2. cbn in H2. destruct (cstep c o) as [[c' r]|]; [eauto|discriminate].
  Qed.
  Record Serial (l0 : list (cop V * option V)) (s : config V) : Prop := {
    z_main : exists l c0, explains (NewLRUCache cap) (l0 ++ l) c0 /\ Permutation l (returned s) /\
      (forall i k p, nth_error (s_threads s) i = Some (Reading k p) -> run_alone p (s_cache s) = Get c0 k) /\
      ((forall i, ~ reading s i) -> s_cache s = c0)
  }.
  Lemma finished_set (ts : list (thread V)) i t o r : nth_error ts i = Some t -> (forall o r, t <> Finished o r) ->
    Permutation (flat_map (fun t => match t with Finished o r => [(o, r)] | _ => [] end) ts ++ [(o, r)])
      (flat_map (fun t => match t with Finished o r => [(o, r)] | _ => [] end) (set_thread ts i (Finished o r))).
  Proof.
    revert i. induction ts as [|x ts IH]; intros [|i] H N; cbn in *; try discriminate.
    - injection H as ->. destruct t as [?|? ?|o1 r1]; [| |now destruct (N o1 r1)]; symmetry; apply Permutation_cons_append.
    - rewrite <- app_assoc. apply Permutation_app_head. now apply IH.
  Qed.
  Lemma unfinished_set (ts : list (thread V)) i t t' : nth_error ts i = Some t -> (forall o r, t <> Finished o r) -> (forall o r, t' <> Finished o r) ->
    flat_map (fun t => match t with Finished o r => [(o, r)] | _ => [] end) (set_thread ts i t') =
    flat_map (fun t => match t with Finished o r => [(o, r)] | _ => [] end) ts.
  Proof.
    revert i. induction ts as [|x ts IH]; intros [|i] H N N'; cbn in *; try discriminate.
    - injection H as ->. destruct t as [?|? ?|o1 r1], t' as [?|? ?|o2 r2]; try reflexivity; try (now destruct (N o1 r1)); now destruct (N' o2 r2).
    - f_equal. now apply IH.
  Qed.
  Lemma existsb_reading (s : config V) : existsb is_reading (s_threads s) = false -> forall i, ~ reading s i.
  Proof.
    intros H i [k [p Hi]]. assert (X : existsb is_reading (s_threads s) = true); [|congruence].
    apply existsb_exists. exists (Reading k p). split; [eapply nth_error_In; eauto|reflexivity].
  Qed.
  Lemma set_at (ts : list (thread V)) i t t' : nth_error ts i = Some t -> nth_error (set_thread ts i t') i = Some t'.
  Proof. intros H. rewrite nth_set, Nat.eqb_refl. destruct (Nat.ltb_spec i (List.length ts)) as [L|L]; [reflexivity|]. apply nth_error_None in L. congruence. Qed.
  Lemma step_serial l0 s i : Serial l0 s -> (forall i j, reading s i -> reading s j -> i = j) ->
    (forall s', sstep s i = Val s' -> forall i j, reading s' i -> reading s' j -> i = j) ->
    exists s', sstep s i = Val s' /\ Serial l0 s'.
  Proof.
    intros [(l & c0 & Ex & Pm & Rd & Id)] X1 X2. unfold sstep in *.
    assert (Z : Serial l0 s) by (constructor; exists l, c0; auto).
    destruct (nth_error (s_threads s) i) as [t|] eqn:Ei; [|eauto].
    destruct t as [[k|k v]|k [r|f]|o r]; try (eexists; split; [reflexivity|exact Z]; fail).
    - eexists. split; [reflexivity|]. specialize (X2 _ eq_refl).
      assert (Ri : reading (mkConfig (s_cache s) (set_thread (s_threads s) i (Reading k (get_prog k)))) i) by (exists k, (get_prog k); cbn; eapply set_at; eauto).
      assert (No : forall j, ~ reading s j).
      { intros j [k1 [p1 Hj]]. destruct (Nat.eq_dec i j) as [<-|Nj]; [congruence|]. apply Nj. apply X2; [exact Ri|].
        exists k1, p1. cbn. rewrite nth_set. destruct (Nat.eqb_spec i j); [contradiction|exact Hj]. }
      constructor. exists l, c0. split; [exact Ex|]. split; [|split].
      + unfold returned. cbn. rewrite (unfinished_set _ _ _ _ Ei); [exact Pm|discriminate|discriminate].
      + intros j k1 p1 Hj. cbn in *. apply nth_set_cases in Hj as [[_ Hj]|[_ Hj]].
        * injection Hj as -> ->. rewrite (Id No). apply run_get.
        * exfalso. apply (No j). exists k1, p1. exact Hj.
      + intros H. exfalso. exact (H i Ri).
    - destruct (existsb is_reading (s_threads s)) eqn:Er; [eauto|]. pose proof (existsb_reading s Er) as No. rewrite (Id No).
      destruct (step_returns _ _ (CPut k v) Ex) as [c1 [r Hs]]. pose proof Hs as Hs'. cbn in Hs. destruct (Put c0 k v) as [c2|] eqn:Ep; [|discriminate]. cbn in Hs. injection Hs as <- <-.
      cbn [obind]. eexists. split; [reflexivity|]. constructor. exists (l ++ [(CPut k v, None)]), c2. split; [|split; [|split]].
      + rewrite app_assoc. eapply explains_snoc; eauto.
      + unfold returned in *. cbn. eapply Permutation_trans; [apply Permutation_app_tail; exact Pm|]. eapply finished_set; eauto; discriminate.
      + intros j k1 p1 Hj. cbn in Hj. apply nth_set_cases in Hj as [[_ Hj]|[_ Hj]]; [discriminate|]. exfalso. apply (No j). exists k1, p1. exact Hj.
      + reflexivity.
    - pose proof (Rd _ _ _ Ei) as Hr. cbn [run_alone] in Hr.
      destruct (step_returns _ _ (CGet k) Ex) as [c1 [r Hs]]. cbn in Hs. rewrite Hs in Hr.
      destruct (f (s_cache s)) as [[c' p']|]; [|discriminate]. cbn [obind]. eexists. split; [reflexivity|].
      assert (No : forall j, j <> i -> ~ reading s j) by (intros j Nj Hj; apply Nj; apply X1; [exact Hj|exists k, (Access f); exact Ei]).
      constructor. destruct p' as [r'|f']; cbn [settle run_alone] in *.
      + injection Hr as -> ->. exists (l ++ [(CGet k, r)]), c1. split; [|split; [|split]].
        * rewrite app_assoc. eapply explains_snoc; eauto.
        * unfold returned in *. cbn. eapply Permutation_trans; [apply Permutation_app_tail; exact Pm|]. eapply finished_set; eauto; discriminate.
        * intros j k1 p1 Hj. cbn in Hj. apply nth_set_cases in Hj as [[_ Hj]|[Nj Hj]]; [discriminate|]. exfalso. apply (No j Nj). exists k1, p1. exact Hj.
        * reflexivity.
      + exists l, c0. split; [exact Ex|]. split; [|split].
        * unfold returned. cbn. rewrite (unfinished_set _ _ _ _ Ei); [exact Pm|discriminate|discriminate].
        * intros j k1 p1 Hj. cbn in *. apply nth_set_cases in Hj as [[_ Hj]|[Nj Hj]].
          -- injection Hj as -> ->. cbn [run_alone]. rewrite Hs. exact Hr.
          -- exfalso. apply (No j Nj). exists k1, p1. exact Hj.
        * intros H. exfalso. apply (H i). exists k, (Access f'). cbn. eapply set_at; eauto.
  Qed.
  Lemma excl_now (s : config V) sched : exclusive s sched -> forall i j, reading s i -> reading s j -> i = j.
  Proof. destruct sched; intros H; apply H. Qed.
  Lemma run_serial l0 sched : forall s, Serial l0 s -> exclusive s sched -> exists s', srun s sched = Val s' /\ Serial l0 s'.
  Proof.
    induction sched as [|i sched IH]; intros s Z X; cbn [srun]; [eauto|]. destruct X as [X1 X2].
    destruct (step_serial l0 s i Z X1) as [s1 [E Z1]].
    { intros s' Hs'. eapply excl_now. apply X2. exact Hs'. }
    rewrite E. cbn [obind]. apply IH; [exact Z1|now apply X2].
  Qed.
  Lemma exec_explains : forall hh (c c' : lru V), cexec c hh = Val c' -> exists l, map fst l = hh /\ explains c l c'.
  Proof.
    induction hh as [|o hh IH]; intros c c' H; cbn in H; [injection H as <-; exists []; split; reflexivity|].
    destruct (cstep c o) as [[c1 r]|] eqn:E; [|discriminate]. cbn in H. destruct (IH _ _ H) as [l [Hl El]]. exists ((o, r) :: l). cbn. split; [congruence|eauto].
  Qed.
End Serial.

(** Partial: in every schedule in which no two Gets overlap (Puts never overlap
    with anything), no call panics, and once no Get is in progress the cache is
    the one that the returned calls produce in some order, one after the other,
    each with its answer; list and map are consistent.  Missing: overlapping
    Gets, for which it is false. *)
Theorem C50_serial_partial :
  forall (V : Type) cap (h : list (cop V)) c calls sched,
    1 <= cap -> cexec (NewLRUCache cap) h = Val c -> exclusive (start c calls) sched ->
    exists s, srun (start c calls) sched = Val s /\
      ((forall i, ~ reading s i) ->
         exists l, Permutation l (returned s) /\ explains c l (s_cache s) /\ consistent (s_cache s) /\ List.length (l_map (s_cache s)) <= cap).
Proof.
  intros V cap h c calls sched Hc He X. destruct (exec_explains _ _ _ He) as [l0 [Hl0 E0]].
  assert (R0 : returned (start c calls) = []) by (unfold returned, start; cbn; clear; induction calls as [|x calls IH]; [reflexivity|exact IH]).
  assert (N0 : forall i k p, nth_error (s_threads (start c calls)) i = Some (Reading k p) -> False).
  { intros i k p H. unfold start in H. cbn in H. rewrite nth_error_map in H. destruct (nth_error calls i); discriminate. }
  assert (Z : Serial cap l0 (start c calls)).
  { constructor. exists [], c. rewrite app_nil_r, R0. split; [exact E0|]. split; [constructor|]. split; [|reflexivity].
    intros i k p H. destruct (N0 _ _ _ H). }
  destruct (run_serial cap Hc l0 sched _ Z X) as [s [Hs [(l & c0 & Ex & Pm & _ & Id)]]].
  exists s. split; [exact Hs|]. intros No. specialize (Id No). exists l. split; [exact Pm|].
  pose proof (explains_exec _ _ _ Ex) as Hx. destruct (C31_bounded_and_consistent V cap (map fst (l0 ++ l)) Hc) as [c1 [H1 [H2 [_ [H3 _]]]]].
  rewrite Hx in H1. injection H1 as <-. rewrite Id. split; [|auto].
  clear - E0 Ex. revert c E0 Ex. generalize (NewLRUCache (V := V) cap) as cs. induction l0 as [|[o r] l0 IH]; intros cs c E0 Ex; cbn in *.
  - now subst c.
  - destruct E0 as [x [X1 X2]], Ex as [y [Y1 Y2]]. rewrite X1 in Y1. injection Y1 as <-. eauto.
Qed.
Print Assumptions C50_serial_partial.

(** ** Two overlapping Gets

    The property is false of the code: Get changes the list although it only
    holds the read lock.  A cache of capacity two with two entries, one Get of
    each at the same time: both answer, but the list has lost its order, and the
    next Put of a new key panics. *)
Definition race_h : list (cop nat) := [CPut "a" 1; CPut "b" 2]%string.
Definition race_sched : list nat := repeat 0 5 ++ repeat 1 14 ++ repeat 0 9.
Theorem C50_consistent_refuted :
  exists c s, cexec (NewLRUCache 2) race_h = Val c /\ consistent c /\
    srun (start c [CGet "b"; CGet "a"]%string) race_sched = Val s /\
    s_threads s = [Finished (CGet "b") (Some 2); Finished (CGet "a") (Some 1)]%string /\
    ~ consistent (s_cache s) /\
    forall v, Put (s_cache s) "c" v = Panic.
Proof.
  eexists _, _. split; [vm_compute; reflexivity|]. split; [|split; [vm_compute; reflexivity|split; [reflexivity|split]]].
  - exists ["b"; "a"]%string. split; [reflexivity|]. split; [reflexivity|]. split; [|apply perm_swap].
    repeat constructor; cbn; intuition discriminate.
  - intros [ks [H _]]. vm_compute in H. discriminate.
  - intros v. reflexivity.
Qed.
Print Assumptions C50_consistent_refuted.

(** ** The hypotheses are met: a Get, a Put that waits for it, another Get. *)
Fixpoint exclusiveb {V} (s : config V) (sched : list nat) : bool :=
  Nat.leb (List.length (filter is_reading (s_threads s))) 1 &&
  match sched with
  | [] => true
  | i :: sched' => match sstep s i with Val s' => exclusiveb s' sched' | Panic => true end
  end.
Lemma one_reading {V} (ts : list (thread V)) : List.length (filter is_reading ts) <= 1 -> forall i j k p k' p',
  nth_error ts i = Some (Reading k p) -> nth_error ts j = Some (Reading k' p') -> i = j.
Proof.
  induction ts as [|t ts IH]; intros L i j k p k' p' Hi Hj; [destruct i; discriminate|].
  assert (N : forall i k p, nth_error ts i = Some (Reading k p) -> 1 <= List.length (filter is_reading ts)).
  { intros i0 k0 p0 H. apply nth_error_In in H. assert (X : In (Reading k0 p0) (filter is_reading ts)) by (apply filter_In; auto).
    destruct (filter is_reading ts); [destruct X|cbn; lia]. }
  destruct i as [|i], j as [|j]; cbn in *; try reflexivity.
  - injection Hi as ->. apply N in Hj. cbn in L. lia.
  - injection Hj as ->. apply N in Hi. cbn in L. lia.
  - f_equal. eapply IH; eauto. destruct (is_reading t); cbn in L; lia.
Qed.
Lemma exclusiveb_ok {V} sched : forall s : config V, exclusiveb s sched = true -> exclusive s sched.
Proof.
  induction sched as [|i sched IH]; intros s H; cbn [exclusiveb exclusive] in *; apply andb_true_iff in H as [H1 H2]; apply Nat.leb_le in H1.
  - split; [|exact Logic.I]. intros i j [k [p Hi]] [k' [p' Hj]]. eapply one_reading; eauto.
  - split; [intros a b [k [p Hi]] [k' [p' Hj]]; eapply one_reading; eauto|]. intros s' Hs. rewrite Hs in H2. auto.
Qed.
Example C50_ex :
  exists c s, cexec (NewLRUCache 2) race_h = Val c /\
    exclusive (start c [CGet "a"; CPut "c" 3; CGet "b"]%string) (repeat 0 4 ++ [1] ++ repeat 0 10 ++ [1] ++ repeat 2 14) /\
    srun (start c [CGet "a"; CPut "c" 3; CGet "b"]%string) (repeat 0 4 ++ [1] ++ repeat 0 10 ++ [1] ++ repeat 2 14) = Val s /\
    s_threads s = [Finished (CGet "a") (Some 1); Finished (CPut "c" 3) None; Finished (CGet "b") None]%string /\ mkeys (l_map (s_cache s)) = ["a"; "c"]%string.
Proof.
  eexists _, _. split; [vm_compute; reflexivity|]. split; [apply exclusiveb_ok; vm_compute; reflexivity|].
  split; [vm_compute; reflexivity|split; reflexivity].
Qed.
