(** Lemmas about the matcher compiler. *)
From Verif Require Import GoBase GoBaseP DefsM MatcherDefM MatcherDefSpec.

(** ** Running [nextOperator_loop] over a part of the tokens *)
Definition is_logic (t : token) : bool := kind_eqb (t_kind t) KLogicalOp.

Fixpoint noor (c : Z) (a : list token) : bool :=
  match a with
  | [] => true
  | t :: a' => negb (is_logic t && Z.eqb c 0 && String.eqb (t_text t) "||") && noor (c + delta t) a'
  end.
Fixpoint lastop (i : nat) (c : Z) (a : list token) (idx : option nat) : option nat :=
  match a with
  | [] => idx
  | t :: a' => lastop (S i) (c + delta t) a' (if is_logic t && Z.eqb c 0 then Some i else idx)
  end.
Fixpoint isb (i n : nat) (c : Z) (a : list token) (b : bool) : bool :=
  match a with
  | [] => b
  | t :: a' => isb (S i) n (c + delta t) a'
      (if kind_eqb (t_kind t) KClauseClose && b && Z.eqb (c + delta t) 0 && negb (Nat.eqb i (n - 1))
       then false else b)
  end.

Lemma loop_run a : forall b i n c idx isB,
  noor c a = true ->
  nextOperator_loop (a ++ b) i n c idx isB =
  nextOperator_loop b (i + List.length a) n (c + level a)%Z (lastop i c a idx) (isb i n c a isB).
Proof.
  induction a as [|t a IH]; intros b i n c idx isB H.
  - cbn. now rewrite Nat.add_0_r, Z.add_0_r.
  - cbn [noor] in H. apply andb_true_iff in H as [H1 H2].
    cbn [app nextOperator_loop List.length level lastop isb].
    rewrite Z.add_assoc, <- Nat.add_succ_comm.
    unfold is_logic in *. unfold delta in *.
    destruct (t_kind t) eqn:Ek; cbn [kind_eqb andb] in *; try rewrite (IH b _ _ _ _ _ H2);
      try (rewrite ?Z.add_0_r in *; now rewrite IH by assumption); try reflexivity.
    rewrite Z.add_0_r in *. destruct (Z.eqb c 0); cbn [negb andb] in *.
    + apply negb_true_iff in H1. rewrite H1. now rewrite IH.
    + now rewrite IH.
Qed.

Lemma noor_app c a b : noor c (a ++ b) = noor c a && noor (c + level a) b.
Proof.
  revert c. induction a as [|t a IH]; intros c; cbn; [now rewrite Z.add_0_r|].
  rewrite IH, Z.add_assoc. now rewrite andb_assoc.
Qed.
Lemma lastop_app a : forall i c b idx, lastop i c (a ++ b) idx = lastop (i + List.length a) (c + level a) b (lastop i c a idx).
Proof.
  induction a as [|t a IH]; intros i c b idx; cbn; [now rewrite Nat.add_0_r, Z.add_0_r|].
  rewrite IH, Z.add_assoc. now rewrite <- Nat.add_succ_comm.
Qed.
Lemma isb_app a : forall i n c b x, isb i n c (a ++ b) x = isb (i + List.length a) n (c + level a) b (isb i n c a x).
Proof.
  induction a as [|t a IH]; intros i n c b x; cbn; [now rewrite Nat.add_0_r, Z.add_0_r|].
  rewrite IH, Z.add_assoc. now rewrite <- Nat.add_succ_comm.
Qed.
Lemma isb_false a : forall i n c, isb i n c a false = false.
Proof. induction a as [|t a IH]; intros; cbn; [reflexivity|]. rewrite andb_false_r. cbn. apply IH. Qed.
Lemma level_app a b : level (a ++ b) = (level a + level b)%Z.
Proof. induction a; cbn; lia. Qed.

(** Never below the start. *)
Fixpoint nn (c : Z) (a : list token) : Prop :=
  (0 <= c)%Z /\ match a with [] => True | t :: a' => nn (c + delta t) a' end.

Lemma nn_app a : forall c b, nn c a -> nn (c + level a) b -> nn c (a ++ b).
Proof.
  induction a as [|t a IH]; intros c b; cbn [nn app level].
  - rewrite Z.add_0_r. auto.
  - intros [H1 H2] H3. split; [exact H1|]. apply IH; [exact H2|]. now rewrite <- Z.add_assoc.
Qed.
Lemma nn_mono a : forall c c', nn c a -> (c <= c')%Z -> nn c' a.
Proof.
  induction a as [|t a IH]; intros c c' [H1 H2] Hle; cbn; (split; [lia|auto]). apply (IH _ _ H2). lia.
Qed.
Lemma nn_prefix a : (forall x y, a = x ++ y -> (0 <= level x)%Z) -> nn 0 a.
Proof.
  assert (G : forall a c, (forall x y, a = x ++ y -> (0 <= c + level x)%Z) -> nn c a).
  { clear a. induction a as [|t a IH]; intros c H; cbn.
    - split; [|exact I]. specialize (H [] [] eq_refl). cbn in H. lia.
    - split; [specialize (H [] _ eq_refl); cbn in H; lia|]. apply IH. intros x y ->.
      specialize (H (t :: x) y eq_refl). cbn in H. lia. }
  intros H. apply G. intros x y E. specialize (H x y E). lia.
Qed.

(** Inside parentheses nothing happens. *)
Lemma deep a : forall i n c idx b, nn (c - 1) a -> 
  noor c a = true /\ lastop i c a idx = idx /\ isb i n c a b = b.
Proof.
  induction a as [|t a IH]; intros i n c idx b [H1 H2]; cbn; [auto|].
  assert (Hc : Z.eqb c 0 = false) by (apply Z.eqb_neq; lia).
  replace (c - 1 + delta t)%Z with (c + delta t - 1)%Z in H2 by lia.
  rewrite Hc, !andb_false_r. cbn.
  assert (Hd : Z.eqb (c + delta t) 0 = false).
  { apply Z.eqb_neq. destruct a; destruct H2; lia. }
  rewrite Hd, !andb_false_r. cbn. now apply IH.
Qed.

(** A bracket that closes before the end of the tokens. *)
Lemma isb_closes a : forall i n c, (1 <= c)%Z -> (c + level a = 0)%Z -> i + List.length a < n -> isb i n c a true = false.
Proof.
  induction a as [|t a IH]; intros i n c Hc Hl Hn; cbn in *; [lia|].
  destruct (kind_eqb (t_kind t) KClauseClose) eqn:Ek; cbn [andb].
  - destruct (Z.eqb_spec (c + delta t) 0) as [Hz|Hz]; cbn [andb].
    + destruct (Nat.eqb_spec i (n - 1)); [lia|]. cbn. apply isb_false.
    + apply IH; [|lia|lia]. unfold delta in *. destruct (t_kind t); try discriminate. lia.
  - apply IH; [|lia|lia]. unfold delta. destruct (t_kind t); try lia. discriminate.
Qed.

(** ** Written formulas *)
Definition starts_open (a : list token) : bool :=
  match a with t :: _ => kind_eqb (t_kind t) KClause | [] => false end.

Lemma isb_starts a : forall i n, level a = 0%Z -> i + List.length a < n -> a <> [] ->
  isb i n 0 a (starts_open a) = false.
Proof.
  intros i n Hl Hn Ha. destruct a as [|t a]; [congruence|]. cbn [starts_open].
  destruct (kind_eqb (t_kind t) KClause) eqn:Ek; [|apply isb_false].
  cbn [isb]. destruct (t_kind t) eqn:Et; try discriminate. unfold delta. rewrite Et. cbn [kind_eqb andb].
  apply isb_closes; [lia| |cbn in Hn; lia]. cbn in Hl. unfold delta in Hl. rewrite Et in Hl. lia.
Qed.

Record tokens_ok (f : form) : Prop := {
  tk_ne : written f <> [];
  tk_level : level (written f) = 0%Z;
  tk_nn : nn 0 (written f)
}.

Lemma written_ok f : atoms_ok f -> tokens_ok f.
Proof.
  induction f as [ts|f IHf g IHg|f IHf g IHg|f IHf]; cbn [atoms_ok]; intros H.
  - destruct H as [H1 H2 H3 H4 H5]. constructor; cbn; [exact H1|exact H2|now apply nn_prefix].
  - destruct H as [Hf Hg]. destruct (IHf Hf) as [N1 L1 P1], (IHg Hg) as [N2 L2 P2]. constructor; cbn [written].
    + destruct (written f); [congruence|discriminate].
    + rewrite level_app. cbn. unfold delta, t_and. cbn. lia.
    + apply nn_app; [exact P1|]. rewrite L1. cbn. split; [lia|]. exact P2.
  - destruct H as [Hf Hg]. destruct (IHf Hf) as [N1 L1 P1], (IHg Hg) as [N2 L2 P2]. constructor; cbn [written].
    + destruct (written f); [congruence|discriminate].
    + rewrite level_app. cbn. unfold delta, t_or. cbn. lia.
    + apply nn_app; [exact P1|]. rewrite L1. cbn. split; [lia|]. exact P2.
  - destruct (IHf H) as [N1 L1 P1]. constructor; cbn [written].
    + discriminate.
    + change (1 + level (written f ++ [t_close]) = 0)%Z. rewrite level_app, L1. reflexivity.
    + cbn [nn]. split; [lia|]. apply nn_app; [apply (nn_mono _ _ _ P1); cbn; lia|]. rewrite L1. cbn. lia.
Qed.

Lemma atom_noop ts : atom_ok ts -> forall i idx, noor 0 ts = true /\ lastop i 0 ts idx = idx.
Proof.
  intros [_ _ Hp Hno _].
  assert (G : forall a c, (forall x t y, a = x ++ t :: y -> t_kind t = KLogicalOp -> (0 < c + level x)%Z) ->
    forall i idx, noor c a = true /\ lastop i c a idx = idx).
  { induction a as [|t a IH]; intros c H i idx; cbn; [auto|].
    assert (Hh : is_logic t && Z.eqb c 0 = false).
    { unfold is_logic. destruct (t_kind t) eqn:Ek; cbn; auto. apply Z.eqb_neq.
      specialize (H [] t a eq_refl Ek). cbn in H. lia. }
    rewrite Hh. cbn. apply IH. intros x t' y -> Hk.
    specialize (H (t :: x) t' y eq_refl Hk). cbn in H. lia. }
  intros i idx. apply G. intros x t y E Hk. specialize (Hno x t y E Hk). lia.
Qed.

(** Outside parentheses, only && appears in a conjunction, and no operator in an
    atom or a parenthesised formula. *)
Lemma written_noor f : atoms_ok f -> parsed f -> is_or f = false -> noor 0 (written f) = true.
Proof.
  induction f as [ts|f IHf g IHg|f IHf g IHg|f IHf]; cbn [atoms_ok parsed is_or written]; intros Ha Hp Ho; try discriminate.
  - now apply (atom_noop ts Ha 0 None).
  - destruct Ha as [Hf Hg], Hp as [Pf [Pg [O1 [O2 _]]]].
    rewrite noor_app. rewrite IHf by assumption. cbn [andb].
    rewrite (tk_level _ (written_ok _ Hf)). cbn. now apply IHg.
  - cbn [noor]. unfold is_logic, t_open. cbn. rewrite noor_app.
    destruct (written_ok _ Ha) as [_ L P].
    destruct (deep (written f) 0 0 1 None true P) as [H _]. rewrite H, L. reflexivity.
Qed.

Lemma written_lastop f : atoms_ok f -> parsed f -> is_or f = false -> is_and f = false ->
  forall i idx, lastop i 0 (written f) idx = idx.
Proof.
  destruct f as [ts|f g|f g|f]; cbn [atoms_ok parsed is_or is_and written]; intros Ha Hp Ho Han i idx; try discriminate.
  - now apply (atom_noop ts Ha).
  - cbn [lastop]. unfold is_logic, t_open. cbn [t_kind kind_eqb andb]. rewrite lastop_app.
    destruct (written_ok _ Ha) as [_ L P].
    destruct (deep (written f) (S i) 0 (0 + delta (mkTok KClause "(")) idx true) as [_ [H _]]; [exact P|].
    rewrite H, L. cbn. reflexivity.
Qed.

Lemma nextOperator_cons t ts :
  nextOperator (t :: ts) = Val (nextOperator_loop (t :: ts) 0 (List.length (t :: ts)) 0 None (starts_open (t :: ts))).
Proof. reflexivity. Qed.

Lemma nextOperator_ne ts : ts <> [] ->
  nextOperator ts = Val (nextOperator_loop ts 0 (List.length ts) 0 None (starts_open ts)).
Proof. destruct ts; [congruence|reflexivity]. Qed.

Lemma starts_app a b : a <> [] -> starts_open (a ++ b) = starts_open a.
Proof. destruct a; [congruence|reflexivity]. Qed.

Lemma next_atom ts : atom_ok ts -> nextOperator ts = Val (None, false).
Proof.
  intros Ha. rewrite nextOperator_ne by apply Ha.
  destruct (atom_noop ts Ha 0 None) as [H1 H2].
  rewrite <- (app_nil_r ts) at 1. rewrite loop_run by assumption. cbn [nextOperator_loop]. rewrite H2.
  do 2 f_equal. destruct (starts_open ts) eqn:Es; [|apply isb_false].
  destruct ts as [|t ts]; [discriminate|]. cbn in Es. destruct (t_kind t) eqn:Ek; try discriminate.
  destruct (atom_not_wrapped _ Ha t ts eq_refl Ek) as [a [b [E [Na [Nb La]]]]].
  rewrite E, isb_app.
  assert (Hs : isb 0 (List.length (a ++ b)) 0 a true = false).
  { assert (Ht : starts_open a = true).
    { destruct a as [|t' a]; [congruence|]. injection E as -> _. cbn. now rewrite Ek. }
    rewrite <- Ht. apply isb_starts; [exact La| |exact Na].
    rewrite app_length. destruct b; [congruence|]. cbn. lia. }
  rewrite Hs. apply isb_false.
Qed.

Lemma next_par f : atoms_ok f -> exists idx, nextOperator (written (FPar f)) = Val (idx, true).
Proof.
  intros Ha. destruct (written_ok _ Ha) as [N L P]. cbn [written].
  rewrite nextOperator_cons. cbn [nextOperator_loop t_open t_kind starts_open kind_eqb].
  destruct (deep (written f) 1 (List.length (t_open :: written f ++ [t_close])) 1 None true P) as [H1 [H2 H3]].
  change (0 + 1)%Z with 1%Z. rewrite loop_run by exact H1.
  exists None. cbn [nextOperator_loop t_close t_kind].
  rewrite H3, H2, L. do 2 f_equal. cbn [List.length]. rewrite app_length. cbn [List.length].
  change (1 + 0 - 1 =? 0)%Z with true. cbn [andb].
  destruct (Nat.eqb_spec (1 + List.length (written f)) (S (List.length (written f) + 1) - 1)); [reflexivity|lia].
Qed.

Lemma next_or f g : atoms_ok f -> atoms_ok g -> parsed f -> is_or f = false ->
  nextOperator (written (FOr f g)) = Val (Some (List.length (written f)), false).
Proof.
  intros Hf Hg Pf Of. destruct (written_ok _ Hf) as [N L P]. cbn [written].
  rewrite nextOperator_ne by (destruct (written f); discriminate).
  rewrite loop_run by (now apply written_noor).
  rewrite L. cbn. reflexivity.
Qed.

Lemma next_and f g : atoms_ok f -> atoms_ok g -> parsed f -> parsed g ->
  is_or f = false -> is_or g = false -> is_and g = false ->
  nextOperator (written (FAnd f g)) = Val (Some (List.length (written f)), false).
Proof.
  intros Hf Hg Pf Pg Of Og Ag. destruct (written_ok _ Hf) as [N L P], (written_ok _ Hg) as [N2 L2 P2].
  cbn [written].
  rewrite nextOperator_ne by (destruct (written f); discriminate).
  rewrite loop_run by (now apply written_noor).
  rewrite starts_app by exact N.
  rewrite isb_starts; [|exact L|rewrite app_length; cbn; lia|exact N].
  rewrite L. cbn [nextOperator_loop t_and t_kind t_text].
  change (negb (0 + 0 =? 0)%Z) with false. cbn iota. change (String.eqb "&&" "||") with false. cbn iota.
  rewrite <- (app_nil_r (written g)). change (0 + 0)%Z with 0%Z. rewrite loop_run by (now apply written_noor).
  cbn [nextOperator_loop]. rewrite (written_lastop g Hg Pg Og Ag), isb_false. reflexivity.
Qed.

(** ** The tree of a formula *)

(** [k]: the stages below every leaf. *)
Fixpoint ptree (f : form) (k : list stage) : list stage :=
  match f with
  | FAtom ts => [Stage (tokensToExpr ts) k]
  | FPar f => ptree f k
  | FOr f g => ptree f k ++ ptree g k
  | FAnd f g => ptree f (ptree g k)
  end.
(** [S]: the pending right operands, the next one first. *)
Fixpoint kont (S : list form) : list stage :=
  match S with [] => [] | g :: S' => ptree g (kont S') end.

Definition ktrue (val : string -> bool) (k : list stage) : bool :=
  match k with [] => true | _ => accepts_any val k end.

Lemma ptree_ne f k : ptree f k <> [].
Proof.
  revert k. induction f as [ts|f IHf g IHg|f IHf g IHg|f IHf]; intros k; cbn; try easy.
  - intros H. apply app_eq_nil in H as [H _]. now apply IHf in H.
Qed.

Lemma ptree_sem val f : forall k, accepts_any val (ptree f k) = sem val f && ktrue val k.
Proof.
  unfold accepts_any. induction f as [ts|f IHf g IHg|f IHf g IHg|f IHf]; intros k; cbn [ptree sem].
  - cbn. rewrite orb_false_r. unfold ktrue, accepts_any. destruct k; reflexivity.
  - rewrite IHf. unfold ktrue at 1. destruct (ptree g k) eqn:E; [now apply ptree_ne in E|].
    rewrite <- E. unfold accepts_any. rewrite IHg. now rewrite andb_assoc.
  - rewrite existsb_app, IHf, IHg. now rewrite andb_orb_distrib_l.
  - apply IHf.
Qed.

(** ** Slices *)
Lemma set_nth_length {A} (l : list A) i x : List.length (set_nth l i x) = List.length l.
Proof. revert i. induction l as [|y l IH]; intros [|i]; cbn; auto. Qed.
Lemma nth_set_nth_eq {A} (l : list A) i x d : i < List.length l -> nth i (set_nth l i x) d = x.
Proof. revert i. induction l as [|y l IH]; intros [|i] H; cbn in *; try lia; auto. apply IH. lia. Qed.
Lemma nth_set_nth_neq {A} (l : list A) i j x d : i <> j -> nth j (set_nth l i x) d = nth j l d.
Proof. revert i j. induction l as [|y l IH]; intros [|i] [|j] H; cbn; auto; try congruence. Qed.
Lemma firstn_set_nth {A} (l : list A) i x m : m <= i -> firstn m (set_nth l i x) = firstn m l.
Proof.
  revert i m. induction l as [|y l IH]; intros i m H; [reflexivity|].
  destruct i as [|i].
  - replace m with 0 by lia. reflexivity.
  - destruct m as [|m]; [reflexivity|]. cbn. f_equal. apply IH. lia.
Qed.
Lemma firstn_S_set_nth {A} (l : list A) i x : i < List.length l -> firstn (S i) (set_nth l i x) = firstn i l ++ [x].
Proof.
  revert i. induction l as [|y l IH]; intros [|i] H; cbn in *; try lia; auto. f_equal. apply IH. lia.
Qed.

(** Pending operands in a slice: [S] has the top first. *)
Record srep (h : arrays) (s : slice) (S : list form) : Prop := {
  sr_arr : match s_arr s with Some a => a < List.length h | None => s_len s = 0 end;
  sr_len : s_len s = List.length S;
  sr_cells : firstn (s_len s) (cells h s) = map written (rev S)
}.

Definition and_free (l : list form) : Prop := Forall (fun g => has_and g = false) l.

(** What a build leaves of the arrays that existed before. *)
Record pres (h h' : arrays) (s : slice) (S : list form) : Prop := {
  pr_len : List.length h <= List.length h';
  pr_other : forall j, j < List.length h -> Some j <> s_arr s -> nth j h' [] = nth j h [];
  pr_caps : List.length (cells h' s) = List.length (cells h s);
  pr_cells : forall m, m <= s_len s -> and_free (firstn m (rev S)) -> firstn m (cells h' s) = firstn m (cells h s)
}.

Lemma pres_refl h s S : pres h h s S.
Proof. constructor; auto. Qed.

Lemma srep_nil h : srep h nil_slice [].
Proof. constructor; cbn; auto. Qed.

Section BuildP.
  Variable grow : nat -> nat.

  Lemma srep_append h s S g h' s' :
    srep h s S -> append1 grow h s (written g) = (h', s') ->
    srep h' s' (g :: S) /\
    (forall h'', pres h' h'' s' (g :: S) -> pres h h'' s S).
  Proof.
    intros [Ha Hl Hc] E. unfold append1 in E.
    assert (Hlen : s_len s <= List.length (cells h s)).
    { assert (H : List.length (firstn (s_len s) (cells h s)) = s_len s).
      { rewrite Hc, map_length, rev_length. now rewrite Hl. }
      rewrite firstn_length in H. lia. }
    destruct (s_arr s) as [a|] eqn:Es.
    - destruct (Nat.ltb_spec (s_len s) (List.length (cells h s))) as [Hlt|Hge].
      + injection E as <- <-.
        assert (Hcells : cells (set_nth h a (set_nth (cells h s) (s_len s) (written g)))
                           (mkSlice (Some a) (Datatypes.S (s_len s))) = set_nth (cells h s) (s_len s) (written g)).
        { unfold cells at 1. cbn. now apply nth_set_nth_eq. }
        assert (Hcs : cells (set_nth h a (set_nth (cells h s) (s_len s) (written g))) s =
                      set_nth (cells h s) (s_len s) (written g)).
        { unfold cells at 1. rewrite Es. now apply nth_set_nth_eq. }
        split.
        * constructor; cbn [s_arr s_len].
          -- now rewrite set_nth_length.
          -- cbn. now rewrite Hl.
          -- rewrite Hcells, firstn_S_set_nth by exact Hlt. cbn [rev]. rewrite map_app. cbn. now rewrite Hc.
        * intros h'' [P1 P2 P3 P4]. cbn [s_arr s_len] in *. rewrite set_nth_length in *.
          assert (Hcc : cells h'' (mkSlice (Some a) (Datatypes.S (s_len s))) = cells h'' s).
          { unfold cells. rewrite Es. reflexivity. }
          rewrite Hcc, Hcells, set_nth_length in P3. rewrite Hcc, Hcells in P4.
          constructor.
          -- exact P1.
          -- intros j Hj Hne. rewrite P2 by (rewrite ?Es in Hne; assumption).
             apply nth_set_nth_neq. rewrite Es in Hne. congruence.
          -- exact P3.
          -- intros m Hm Haf. rewrite P4.
             ++ apply firstn_set_nth. exact Hm.
             ++ lia.
             ++ cbn [rev]. rewrite firstn_app. rewrite rev_length, <- Hl.
                replace (m - s_len s) with 0 by lia. cbn. now rewrite app_nil_r.
      + injection E as <- <-. set (na := firstn (s_len s) (cells h s) ++ written g :: repeat [] (grow (List.length (cells h s)))).
        assert (Hcells : cells (h ++ [na]) (mkSlice (Some (List.length h)) (Datatypes.S (s_len s))) = na).
        { unfold cells. cbn. rewrite app_nth2, Nat.sub_diag by lia. reflexivity. }
        split.
        * constructor; cbn [s_arr s_len].
          -- rewrite app_length. cbn. lia.
          -- cbn. now rewrite Hl.
          -- rewrite Hcells. unfold na. cbn [rev]. rewrite map_app, <- Hc. cbn [map].
             assert (Hfl : List.length (firstn (s_len s) (cells h s)) = s_len s).
             { rewrite firstn_length. lia. }
             replace (Datatypes.S (s_len s)) with (List.length (firstn (s_len s) (cells h s)) + 1) by lia.
             rewrite firstn_app_2. cbn. reflexivity.
        * intros h'' [P1 P2 P3 P4]. cbn [s_arr s_len] in *. rewrite app_length in *. cbn in P1, P2.
          assert (Heq : nth a h'' [] = nth a h []).
          { rewrite P2; [now rewrite app_nth1|lia|]. intros H. injection H as ->. lia. }
          assert (Hcs : cells h'' s = cells h s).
          { unfold cells. now rewrite Es. }
          constructor.
          -- lia.
          -- intros j Hj Hne. rewrite P2; [now rewrite app_nth1|lia|]. intros H. injection H as ->. lia.
          -- now rewrite Hcs.
          -- intros. now rewrite Hcs.
    - injection E as <- <-. set (na := written g :: repeat [] (grow 0)).
      assert (Hcells : cells (h ++ [na]) (mkSlice (Some (List.length h)) 1) = na).
      { unfold cells. cbn. rewrite app_nth2, Nat.sub_diag by lia. reflexivity. }
      rewrite Ha in Hl. destruct S; [|discriminate].
      split.
      * constructor; cbn [s_arr s_len].
        -- rewrite app_length. cbn. lia.
        -- reflexivity.
        -- rewrite Hcells. reflexivity.
      * intros h'' [P1 P2 P3 P4]. cbn [s_arr s_len] in *. rewrite app_length in *. cbn in P1, P2.
        assert (Hcs : cells h'' s = cells h s) by (unfold cells; now rewrite Es).
        constructor.
        -- lia.
        -- intros j Hj Hne. rewrite P2; [now rewrite app_nth1|lia|]. intros H. injection H as ->. lia.
        -- now rewrite Hcs.
        -- intros. now rewrite Hcs.
  Qed.

  Lemma srep_pop h s g S : srep h s (g :: S) ->
    0 < s_len s /\ last1 h s = written g /\ srep h (butlast s) S.
  Proof.
    intros [Ha Hl Hc]. cbn in Hl.
    assert (Hlen : s_len s <= List.length (cells h s)).
    { assert (H : List.length (firstn (s_len s) (cells h s)) = s_len s).
      { rewrite Hc, map_length, rev_length. now rewrite Hl. }
      rewrite firstn_length in H. lia. }
    cbn [rev] in Hc. rewrite map_app in Hc. cbn in Hc.
    assert (Hsplit : firstn (s_len s - 1) (cells h s) = map written (rev S)).
    { assert (H : firstn (s_len s - 1) (firstn (s_len s) (cells h s)) = firstn (s_len s - 1) (cells h s)).
      { rewrite firstn_firstn. f_equal. lia. }
      rewrite Hc in H. rewrite <- H.
      replace (s_len s - 1) with (List.length (map written (rev S)) + 0).
      - rewrite firstn_app_2. cbn. now rewrite app_nil_r.
      - rewrite map_length, rev_length. lia. }
    split; [lia|]. split.
    - unfold last1.
      assert (H : nth (s_len s - 1) (firstn (s_len s) (cells h s)) [] = nth (s_len s - 1) (cells h s) []).
      { clear -Hl Hlen. revert Hlen. generalize (cells h s). intros l Hlen.
        rewrite <- (firstn_skipn (s_len s) l) at 2. rewrite app_nth1; [reflexivity|].
        rewrite firstn_length. lia. }
      rewrite <- H, Hc. rewrite app_nth2; rewrite map_length, rev_length; [|lia].
      replace (s_len s - 1 - List.length S) with 0 by lia. reflexivity.
    - constructor; cbn [butlast s_arr s_len].
      + destruct (s_arr s); [exact Ha|]. lia.
      + lia.
      + exact Hsplit.
  Qed.

  Lemma pres_pop h h' s g S : s_len s = List.length (g :: S) ->
    pres h h' (butlast s) S -> (and_free (g :: S) -> h' = h) -> pres h h' s (g :: S).
  Proof.
    intros Hl [P1 P2 P3 P4] HA. cbn [butlast s_arr s_len] in *.
    assert (Hcc : forall x, cells x (butlast s) = cells x s) by reflexivity.
    rewrite !Hcc in *. constructor; auto.
    intros m Hm Haf. destruct (Nat.eq_dec m (s_len s)) as [->|Hne].
    - rewrite HA; [reflexivity|]. rewrite Hl in Haf. rewrite <- rev_length in Haf. rewrite firstn_all in Haf.
      apply Forall_rev in Haf. now rewrite rev_involutive in Haf.
    - apply P4; [lia|]. cbn [rev] in Haf. rewrite firstn_app in Haf.
      cbn in Hl. rewrite rev_length in Haf. replace (m - List.length S) with 0 in Haf by lia.
      cbn in Haf. now rewrite app_nil_r in Haf.
  Qed.

  (** Faithful chains: [f] and then the pending operands [S]. *)
  Fixpoint chain (f : form) (S : list form) : Prop :=
    faithful f = true /\ (has_or f = true -> and_free S) /\
    match S with [] => True | g :: S' => chain g S' end.

  Lemma chain_eq f S : chain f S <-> faithful f = true /\ (has_or f = true -> and_free S) /\
    match S with [] => True | g :: S' => chain g S' end.
  Proof. destruct S; reflexivity. Qed.

  Definition size (S : list form) : nat := fold_right (fun g n => List.length (written g) + n) 0 S.

  Definition good (f : form) : Prop := atoms_ok f /\ parsed f.

  Lemma skipn_app_S {A} (a : list A) t b : skipn (S (List.length a)) (a ++ t :: b) = b.
  Proof. induction a; cbn; auto. Qed.
  Lemma firstn_app_exact {A} (a b : list A) : firstn (List.length a) (a ++ b) = a.
  Proof. induction a; cbn; [now destruct b|]. now f_equal. Qed.
  Lemma nth_app_mid {A} (a : list A) t b d : nth (List.length a) (a ++ t :: b) d = t.
  Proof. induction a; cbn; auto. Qed.

  (** One step of [buildExprTree] on a written formula. *)
  Lemma build_step_atom fuel h ts s :
    atom_ok ts ->
    buildExprTree grow (S fuel) h ts s =
    (if Nat.ltb 0 (s_len s) then
       match buildExprTree grow fuel h (last1 h s) (butlast s) with
       | BOk h' cs => BOk h' [Stage (tokensToExpr ts) cs]
       | e => e
       end
     else BOk h [Stage (tokensToExpr ts) []]).
  Proof. intros Ha. cbn [buildExprTree]. now rewrite (next_atom ts Ha). Qed.

  Lemma build_step_par fuel h f s :
    atoms_ok f ->
    buildExprTree grow (S fuel) h (written (FPar f)) s = buildExprTree grow fuel h (written f) s.
  Proof.
    intros Ha. cbn [buildExprTree]. destruct (next_par f Ha) as [idx E]. rewrite E.
    cbn [written List.length]. rewrite app_length. cbn [List.length skipn].
    destruct (Nat.ltb_spec (S (List.length (written f) + 1)) 2) as [H|H].
    { destruct (written_ok f Ha) as [N _ _]. destruct (written f); [congruence|cbn in H; lia]. }
    replace (S (List.length (written f) + 1) - 2) with (List.length (written f)) by lia.
    rewrite firstn_app_exact. destruct idx; reflexivity.
  Qed.

  Lemma build_step_or fuel h f g s :
    atoms_ok f -> atoms_ok g -> parsed f -> is_or f = false ->
    buildExprTree grow (S fuel) h (written (FOr f g)) s =
    match buildExprTree grow fuel h (written f) s with
    | BOk h1 c1 =>
        match buildExprTree grow fuel h1 (written g) s with
        | BOk h2 c2 => BOk h2 (c1 ++ c2)
        | e => e
        end
    | e => e
    end.
  Proof.
    intros Hf Hg Pf Of. cbn [buildExprTree]. rewrite next_or by assumption.
    cbn [written]. rewrite nth_app_mid. cbn [t_or t_text]. rewrite String.eqb_refl.
    now rewrite firstn_app_exact, skipn_app_S.
  Qed.

  Lemma build_step_and fuel h f g s :
    atoms_ok f -> atoms_ok g -> parsed (FAnd f g) ->
    buildExprTree grow (S fuel) h (written (FAnd f g)) s =
    let (h', s') := append1 grow h s (written g) in buildExprTree grow fuel h' (written f) s'.
  Proof.
    intros Hf Hg [Pf [Pg [Of [Og Ag]]]]. cbn [buildExprTree]. rewrite next_and by assumption.
    cbn [written]. rewrite nth_app_mid. cbn [t_and t_text]. change (String.eqb "&&" "||") with false. cbn iota.
    now rewrite firstn_app_exact, skipn_app_S.
  Qed.

  Lemma build_faithful : forall fuel f S h s,
    good f -> Forall good S -> chain f S -> srep h s S ->
    List.length (written f) + size S < fuel ->
    exists h', buildExprTree grow fuel h (written f) s = BOk h' (ptree f (kont S)) /\
      pres h h' s S /\ (has_and f = false -> and_free S -> h' = h).
  Proof.
    induction fuel as [|fuel IH]; intros f S h s [Ha Hp] HS Hch Hs Hfuel; [lia|].
    destruct f as [ts|f g|f g|f].
    - cbn [atoms_ok written] in *. rewrite build_step_atom by assumption.
      destruct S as [|g S].
      + rewrite (sr_len _ _ _ Hs). cbn. exists h. split; [reflexivity|]. split; [apply pres_refl|auto].
      + destruct (srep_pop _ _ _ _ Hs) as [H1 [H2 H3]].
        apply Nat.ltb_lt in H1. rewrite H1, H2.
        inversion HS as [|? ? Hg HS']; subst.
        cbn [chain] in Hch. destruct Hch as [_ [_ Hch]]. cbn [size fold_right] in Hfuel.
        destruct (IH g S h (butlast s) Hg HS' Hch H3) as [h' [E [P A]]].
        { destruct ts; [exfalso; now apply (atom_nonempty _ Ha)|]. cbn in Hfuel. unfold size. lia. }
        exists h'. rewrite E. split; [reflexivity|]. split.
        * apply pres_pop; [apply (sr_len _ _ _ Hs)|exact P|]. intros Haf. inversion Haf; subst. now apply A.
        * intros _ Haf. inversion Haf; subst. now apply A.
    - destruct Ha as [Hf Hg]. pose proof Hp as [Pf [Pg [Of [Og Ag]]]].
      rewrite build_step_and by assumption.
      destruct (append1 grow h s (written g)) as [h1 s1] eqn:Eap.
      destruct (srep_append _ _ _ _ _ _ Hs Eap) as [Hs1 Hpres].
      assert (Hch' : chain f (g :: S)).
      { apply chain_eq in Hch. destruct Hch as [Hfa [Hor HchS]]. cbn [chain]. cbn in Hfa, Hor.
        apply andb_true_iff in Hfa as [Hfa Hx]. apply andb_true_iff in Hfa as [F1 F2].
        destruct S as [|g' S'].
        - repeat split; auto.
          + intros Ho. constructor; [|constructor]. rewrite Ho in Hx. cbn in Hx. now apply negb_true_iff in Hx.
          + intros _. constructor.
        - repeat split; auto.
          + intros Ho. constructor.
            * rewrite Ho in Hx. cbn in Hx. now apply negb_true_iff in Hx.
            * apply Hor. now rewrite Ho.
          + intros Ho. apply Hor. now rewrite Ho, orb_true_r. }
      destruct (IH f (g :: S) h1 s1 (conj Hf Pf) (Forall_cons _ (conj Hg Pg) HS) Hch' Hs1) as [h' [E [P A]]].
      { cbn [written size fold_right] in *. rewrite app_length in Hfuel. cbn in Hfuel. unfold size in *. lia. }
      exists h'. split; [exact E|]. split; [now apply Hpres|]. discriminate.
    - destruct Ha as [Hf Hg]. pose proof Hp as [Pf [Pg Of]].
      rewrite build_step_or by assumption.
      cbn [written] in Hfuel. rewrite app_length in Hfuel. cbn in Hfuel.
      assert (Haf : and_free S) by (destruct S; cbn in Hch; destruct Hch as [_ [H _]]; now apply H).
      assert (Hch1 : chain f S /\ chain g S).
      { destruct S as [|g' S']; cbn in *; destruct Hch as [Hfa [Hor HchS]];
          apply andb_true_iff in Hfa as [F1 F2]; repeat split; auto. }
      destruct Hch1 as [C1 C2].
      destruct (IH f S h s (conj Hf Pf) HS C1 Hs) as [h1 [E1 [P1 A1]]]; [lia|].
      rewrite E1.
      assert (Hs1 : srep h1 s S).
      { destruct Hs as [Q1 Q2 Q3]. constructor.
        - destruct (s_arr s); [|exact Q1]. pose proof (pr_len _ _ _ _ P1). lia.
        - exact Q2.
        - rewrite (pr_cells _ _ _ _ P1); [exact Q3|lia|]. rewrite Q2, <- rev_length, firstn_all.
          now apply Forall_rev. }
      destruct (IH g S h1 s (conj Hg Pg) HS C2 Hs1) as [h2 [E2 [P2 A2]]]; [lia|].
      rewrite E2. exists h2. split; [reflexivity|]. split.
      + destruct P1 as [p1 p2 p3 p4], P2 as [q1 q2 q3 q4]. constructor.
        * lia.
        * intros j Hj Hne. rewrite q2 by (lia || assumption). now apply p2.
        * congruence.
        * intros m Hm Hx. rewrite q4 by assumption. now apply p4.
      + cbn [has_and]. intros Hx _. apply orb_false_iff in Hx as [X1 X2].
        rewrite (A2 X2 Haf). now apply A1.
    - cbn [atoms_ok parsed] in *. rewrite build_step_par by assumption.
      cbn [written] in Hfuel. rewrite (app_length (_ :: _) [_]) in Hfuel || (cbn in Hfuel; rewrite app_length in Hfuel).
      cbn in Hfuel.
      assert (Hch' : chain f S) by (destruct S; exact Hch).
      destruct (IH f S h s (conj Ha Hp) HS Hch' Hs) as [h' [E [P A]]]; [lia|].
      exists h'. auto.
  Qed.

  Lemma compile_faithful f : good f -> faithful f = true ->
    exists h, compile grow (written f) = BOk h (ptree f []).
  Proof.
    intros Hg Hf. destruct (build_faithful (S (List.length (written f))) f [] [] nil_slice) as [h [E _]].
    - exact Hg.
    - constructor.
    - cbn. repeat split; auto. intros _. constructor.
    - apply srep_nil.
    - cbn. lia.
    - now exists h.
  Qed.
End BuildP.

(** ** The compiler terminates on every token list *)
Definition psum (l : list (list token)) (m : nat) : nat :=
  fold_right (fun x n => List.length x + n) 0 (firstn m l).

Lemma psum_0 l : psum l 0 = 0.
Proof. reflexivity. Qed.
Lemma psum_S l m : psum l (S m) = psum l m + List.length (nth m l []).
Proof.
  unfold psum. revert m. induction l as [|x l IH]; intros m; [now destruct m|].
  destruct m as [|m]; cbn; [lia|]. cbn in IH. rewrite (IH m). lia.
Qed.
Lemma psum_mono l m m' : m <= m' -> psum l m <= psum l m'.
Proof. induction 1; [lia|]. rewrite psum_S. lia. Qed.
Lemma psum_ext l l' k : (forall i, i < k -> nth i l' [] = nth i l []) -> psum l' k = psum l k.
Proof.
  induction k as [|k IH]; intros H; [reflexivity|]. rewrite !psum_S, H by lia. rewrite IH; [reflexivity|].
  intros i Hi. apply H. lia.
Qed.
Lemma psum_tail l l' k m : k <= m -> (forall i, k <= i -> nth i l' [] = nth i l []) ->
  psum l' m + psum l k = psum l m + psum l' k.
Proof.
  intros Hm H. induction Hm; [lia|]. rewrite !psum_S, H by lia. lia.
Qed.

Record slots (h h' : arrays) (s : slice) (t : nat) : Prop := {
  sl_len : List.length h <= List.length h';
  sl_other : forall j, j < List.length h -> Some j <> s_arr s -> nth j h' [] = nth j h [];
  sl_pre : forall m, m <= s_len s -> psum (cells h' s) m <= psum (cells h s) m;
  sl_high : exists k, s_len s <= k /\ (forall i, k <= i -> nth i (cells h' s) [] = nth i (cells h s) []) /\
            (k = s_len s \/ psum (cells h' s) k <= psum (cells h s) (s_len s) + t)
}.

Definition slot_ok (h : arrays) (s : slice) : Prop :=
  match s_arr s with Some a => a < List.length h | None => s_len s = 0 end.

Lemma slots_refl h s t : slots h h s t.
Proof. constructor; auto. exists (s_len s). auto. Qed.

Lemma slots_weaken h h' s t t' : slots h h' s t -> t <= t' -> slots h h' s t'.
Proof.
  intros [A B C [k [K1 [K2 K3]]]] H. constructor; auto. exists k. repeat split; auto. destruct K3; [auto|right; lia].
Qed.

Lemma slots_same h h' s t :
  List.length h <= List.length h' -> (forall j, j < List.length h -> nth j h' [] = nth j h []) ->
  slot_ok h s -> slots h h' s t.
Proof.
  intros Hl Ho Hs.
  assert (E : cells h' s = cells h s).
  { unfold cells, slot_ok in *. destruct (s_arr s); auto. }
  constructor; auto; rewrite E; auto. exists (s_len s). auto.
Qed.

Lemma slots_or h h1 h2 s t1 t2 t :
  slots h h1 s t1 -> slots h1 h2 s t2 -> t1 + t2 <= t -> slots h h2 s t.
Proof.
  intros [A1 B1 C1 [k1 [K11 [K12 K13]]]] [A2 B2 C2 [k2 [K21 [K22 K23]]]] Ht.
  constructor.
  - lia.
  - intros j Hj Hne. rewrite B2 by (lia || assumption). auto.
  - intros m Hm. specialize (C1 m Hm). specialize (C2 m Hm). lia.
  - pose proof (C1 _ (le_n _)) as P1. pose proof (C2 _ (le_n _)) as P2.
    exists (Nat.max k1 k2). split; [lia|]. split.
    + intros i Hi. rewrite K22, K12 by lia. reflexivity.
    + destruct (Nat.le_gt_cases k1 k2) as [Hk|Hk].
      * rewrite Nat.max_r by exact Hk. destruct K23 as [->|K23]; [left; reflexivity|]. right. lia.
      * rewrite Nat.max_l by lia. right.
        destruct K13 as [->|K13]; [lia|].
        pose proof (psum_tail (cells h1 s) (cells h2 s) k2 k1 ltac:(lia) K22) as Hx.
        destruct K23 as [->|K23]; [lia|].
        pose proof (psum_mono (cells h1 s) _ _ K21). lia.
Qed.

Lemma slots_pop h h' s t : 0 < s_len s ->
  slots h h' (butlast s) (List.length (last1 h s)) -> slots h h' s t.
Proof.
  intros Hn [A B C [k [K1 [K2 K3]]]].
  assert (Hb : forall x, cells x (butlast s) = cells x s) by reflexivity.
  rewrite !Hb in *. cbn [butlast s_arr s_len] in *.
  assert (HS : psum (cells h s) (s_len s) = psum (cells h s) (s_len s - 1) + List.length (last1 h s)).
  { replace (s_len s) with (S (s_len s - 1)) at 1 by lia. rewrite psum_S. reflexivity. }
  assert (Hmain : psum (cells h' s) (s_len s) <= psum (cells h s) (s_len s)).
  { destruct K3 as [->|K3].
    - assert (Hx : psum (cells h' s) (s_len s) = psum (cells h' s) (s_len s - 1) + List.length (nth (s_len s - 1) (cells h s) [])).
      { replace (s_len s) with (S (s_len s - 1)) at 1 by lia. rewrite psum_S, K2 by lia. reflexivity. }
      rewrite Hx, HS. specialize (C _ (le_n _)). unfold last1. lia.
    - destruct (Nat.le_gt_cases (s_len s) k) as [Hk|Hk].
      + pose proof (psum_mono (cells h' s) _ _ Hk). lia.
      + assert (k = s_len s - 1) by lia. subst k.
        assert (Hx : psum (cells h' s) (s_len s) = psum (cells h' s) (s_len s - 1) + List.length (nth (s_len s - 1) (cells h s) [])).
        { replace (s_len s) with (S (s_len s - 1)) at 1 by lia. rewrite psum_S, K2 by lia. reflexivity. }
        rewrite Hx, HS. specialize (C _ (le_n _)). unfold last1. lia. }
  constructor; auto.
  - intros m Hm. destruct (Nat.eq_dec m (s_len s)) as [->|]; [exact Hmain|]. apply C. lia.
  - destruct (Nat.le_gt_cases (s_len s) k) as [Hk|Hk].
    + exists k. split; [exact Hk|]. split; [exact K2|]. destruct K3 as [->|K3]; [lia|]. right. lia.
    + exists (s_len s). split; [lia|]. split; [|auto]. intros i Hi. apply K2. lia.
Qed.

Lemma append1_ok grow h s x h' s' : slot_ok h s -> append1 grow h s x = (h', s') ->
  slot_ok h' s' /\ psum (cells h' s') (s_len s') = psum (cells h s) (s_len s) + List.length x /\
  (forall h'' t, slots h' h'' s' t -> slots h h'' s (List.length x + t)).
Proof.
  unfold slot_ok, append1. intros Hs E. destruct (s_arr s) as [a|] eqn:Es.
  - destruct (Nat.ltb_spec (s_len s) (List.length (cells h s))) as [Hlt|Hge]; injection E as <- <-; cbn [s_arr s_len].
    + assert (Hc : cells (set_nth h a (set_nth (cells h s) (s_len s) x)) (mkSlice (Some a) (S (s_len s))) = set_nth (cells h s) (s_len s) x).
      { unfold cells at 1. cbn. now apply nth_set_nth_eq. }
      assert (Hp : forall m, m <= s_len s -> psum (set_nth (cells h s) (s_len s) x) m = psum (cells h s) m).
      { intros m Hm. unfold psum. now rewrite firstn_set_nth. }
      assert (Hsum : psum (set_nth (cells h s) (s_len s) x) (S (s_len s)) = psum (cells h s) (s_len s) + List.length x).
      { rewrite psum_S, Hp by lia. now rewrite nth_set_nth_eq. }
      split; [now rewrite set_nth_length|]. split; [now rewrite Hc|].
      intros h'' t [A B C [k [K1 [K2 K3]]]]. cbn [s_arr s_len] in *. rewrite set_nth_length in *.
      assert (Hcc : cells h'' (mkSlice (Some a) (S (s_len s))) = cells h'' s) by (unfold cells; rewrite Es; reflexivity).
      rewrite Hc, Hcc in *. constructor.
      * exact A.
      * intros j Hj Hne. rewrite Es in Hne. rewrite B by assumption. apply nth_set_nth_neq. congruence.
      * intros m Hm. rewrite <- (Hp m Hm). apply C. lia.
      * exists k. split; [lia|]. split.
        -- intros i Hi. rewrite K2 by exact Hi. apply nth_set_nth_neq. lia.
        -- right. destruct K3 as [->|K3].
           ++ specialize (C _ (le_n _)). lia.
           ++ lia.
    + set (na := firstn (s_len s) (cells h s) ++ x :: repeat [] (grow (List.length (cells h s)))).
      assert (Hc : cells (h ++ [na]) (mkSlice (Some (List.length h)) (S (s_len s))) = na).
      { unfold cells. cbn. rewrite app_nth2, Nat.sub_diag by lia. reflexivity. }
      split; [rewrite app_length; cbn; lia|]. split.
      * rewrite Hc. unfold psum, na.
           assert (Hr : forall l g (n : nat), List.length l <= n ->
             fold_right (fun y k => List.length y + k) 0 (firstn (S n) (l ++ x :: repeat [] g)) =
             fold_right (fun y k => List.length y + k) 0 l + List.length x).
           { intros l g. induction l as [|y l IHl]; intros n Hn.
             - cbn. assert (Hr : forall k m, fold_right (fun (y : list token) k => List.length y + k) 0 (firstn m (repeat [] k)) = 0).
               { induction k as [|k IHk]; intros [|m]; cbn; auto. }
               rewrite Hr. lia.
             - destruct n as [|n]; [cbn in Hn; lia|]. cbn in Hn. specialize (IHl n ltac:(lia)).
               change (firstn (S (S n)) ((y :: l) ++ x :: repeat [] g)) with (y :: firstn (S n) (l ++ x :: repeat [] g)).
               cbn [fold_right]. rewrite IHl. lia. }
           rewrite (Hr (firstn (s_len s) (cells h s))) by (rewrite firstn_length; lia). reflexivity.
      * intros h'' t [A B C K]. cbn [s_arr s_len] in *. rewrite app_length in A, B. cbn in A, B.
        apply slots_same; [lia| |unfold slot_ok; now rewrite Es].
        intros j Hj. rewrite B; [now rewrite app_nth1|lia|]. intros X. injection X as ->. lia.
  - injection E as <- <-. cbn [s_arr s_len].
    assert (Hc : cells (h ++ [x :: repeat [] (grow 0)]) (mkSlice (Some (List.length h)) 1) = x :: repeat [] (grow 0)).
    { unfold cells. cbn. rewrite app_nth2, Nat.sub_diag by lia. reflexivity. }
    split; [rewrite app_length; cbn; lia|]. split.
    + rewrite Hc, Hs. cbn. lia.
    + intros h'' t [A B C K]. cbn [s_arr s_len] in *. rewrite app_length in A, B. cbn in A, B.
      apply slots_same; [lia| |unfold slot_ok; now rewrite Es].
      intros j Hj. rewrite B; [now rewrite app_nth1|lia|]. intros X. injection X as ->. lia.
Qed.

Lemma nextOperator_loop_index ts : forall i n c idx b,
  match fst (nextOperator_loop ts i n c idx b) with
  | Some k => idx = Some k \/ (i <= k < i + List.length ts)
  | None => True
  end.
Proof.
  induction ts as [|t ts IH]; intros i n c idx b; cbn [nextOperator_loop].
  - cbn. destruct idx; auto.
  - assert (G : forall c idx' b, (idx' = idx \/ idx' = Some i) ->
      match fst (nextOperator_loop ts (S i) n c idx' b) with
      | Some k => idx = Some k \/ (i <= k < i + List.length (t :: ts)) | None => True end).
    { intros c' idx' b' Hi. specialize (IH (S i) n c' idx' b').
      destruct (fst (nextOperator_loop ts (S i) n c' idx' b')) as [k|]; [|exact I].
      cbn [List.length]. destruct IH as [H|H]; [|right; lia].
      destruct Hi as [->| ->]; [now left|]. injection H as ->. right. lia. }
    destruct (t_kind t); try (apply G; now left).
    destruct (negb (Z.eqb c 0)); [apply G; now left|].
    destruct (String.eqb (t_text t) "||"); [|apply G; now right].
    cbn. right. lia.
Qed.

Lemma Val_inj {A} (x y : A) : Val x = Val y -> x = y.
Proof. congruence. Qed.
Lemma nextOperator_index ts k b : nextOperator ts = Val (Some k, b) -> k < List.length ts.
Proof.
  destruct ts as [|t ts]; [discriminate|]. unfold nextOperator. intros H. apply Val_inj in H.
  pose proof (nextOperator_loop_index (t :: ts) 0 (List.length (t :: ts)) 0 None (kind_eqb (t_kind t) KClause)) as G.
  rewrite H in G. cbn [fst] in G. destruct G as [G|G]; [discriminate|lia].
Qed.

Lemma build_fuel grow : forall fuel h ts s,
  slot_ok h s -> List.length ts + psum (cells h s) (s_len s) < fuel ->
  match buildExprTree grow fuel h ts s with
  | BFuel => False
  | BPanic => True
  | BOk h' _ => slots h h' s (List.length ts)
  end.
Proof.
  induction fuel as [|fuel IH]; intros h ts s Hs Hf; [lia|]. cbn [buildExprTree].
  destruct (nextOperator ts) as [[[k|] b]|] eqn:En; [| |exact I].
  - pose proof (nextOperator_index _ _ _ En) as Hk.
    assert (Hsk : List.length (skipn (S k) ts) = List.length ts - S k) by apply skipn_length.
    assert (Hfk : List.length (firstn k ts) = k) by (rewrite firstn_length; lia).
    destruct b.
    + destruct (Nat.ltb_spec (List.length ts) 2); [exact I|].
      assert (Hl : List.length (firstn (List.length ts - 2) (skipn 1 ts)) = List.length ts - 2).
      { rewrite firstn_length, skipn_length. lia. }
      specialize (IH h (firstn (List.length ts - 2) (skipn 1 ts)) s Hs ltac:(lia)).
      destruct (buildExprTree grow fuel h _ s); auto. eapply slots_weaken; [exact IH|lia].
    + destruct (String.eqb (t_text (nth k ts (mkTok KOther ""))) "||").
      * pose proof (IH h (firstn k ts) s Hs ltac:(lia)) as I1.
        destruct (buildExprTree grow fuel h (firstn k ts) s) as [h1 c1| |]; auto.
        assert (Hs1 : slot_ok h1 s).
        { unfold slot_ok in *. destruct (s_arr s); [|exact Hs]. pose proof (sl_len _ _ _ _ I1). lia. }
        pose proof (sl_pre _ _ _ _ I1 _ (le_n _)) as Hp.
        pose proof (IH h1 (skipn (S k) ts) s Hs1 ltac:(lia)) as I2.
        destruct (buildExprTree grow fuel h1 (skipn (S k) ts) s) as [h2 c2| |]; auto.
        eapply slots_or; [exact I1|exact I2|lia].
      * destruct (append1 grow h s (skipn (S k) ts)) as [h' s'] eqn:Ea.
        destruct (append1_ok _ _ _ _ _ _ Hs Ea) as [Hs' [Hp Hsl]].
        pose proof (IH h' (firstn k ts) s' Hs' ltac:(lia)) as I1.
        destruct (buildExprTree grow fuel h' (firstn k ts) s') as [h2 c2| |]; auto.
        eapply slots_weaken; [exact (Hsl _ _ I1)|lia].
  - assert (Hne : 0 < List.length ts) by (destruct ts; [discriminate|cbn; lia]).
    destruct b.
    + destruct (Nat.ltb_spec (List.length ts) 2); [exact I|].
      assert (Hl : List.length (firstn (List.length ts - 2) (skipn 1 ts)) = List.length ts - 2).
      { rewrite firstn_length, skipn_length. lia. }
      specialize (IH h (firstn (List.length ts - 2) (skipn 1 ts)) s Hs ltac:(lia)).
      destruct (buildExprTree grow fuel h _ s); auto. eapply slots_weaken; [exact IH|lia].
    + destruct (Nat.ltb_spec 0 (s_len s)) as [Hn|Hn]; [|apply slots_refl].
      assert (Hb : slot_ok h (butlast s)).
      { unfold slot_ok in *. cbn. destruct (s_arr s); [exact Hs|lia]. }
      assert (HS : psum (cells h s) (s_len s) = psum (cells h s) (s_len s - 1) + List.length (last1 h s)).
      { replace (s_len s) with (S (s_len s - 1)) at 1 by lia. rewrite psum_S. reflexivity. }
      specialize (IH h (last1 h s) (butlast s) Hb).
      change (cells h (butlast s)) with (cells h s) in IH. cbn [butlast s_len] in IH.
      specialize (IH ltac:(lia)).
      destruct (buildExprTree grow fuel h (last1 h s) _); auto.
      now apply slots_pop.
Qed.

Lemma compile_no_fuel grow ts : compile grow ts <> BFuel.
Proof.
  unfold compile. pose proof (build_fuel grow (S (List.length ts)) [] ts nil_slice eq_refl) as H.
  intros E. rewrite E in H. apply H. change (psum (cells [] nil_slice) (s_len nil_slice)) with 0. lia.
Qed.

(** ** A token list has at most one reading *)
Lemma app_split {A} (a a' : list A) x x' b b' :
  a ++ x :: b = a' ++ x' :: b' -> List.length a = List.length a' -> a = a' /\ x = x' /\ b = b'.
Proof.
  revert a'. induction a as [|y a IH]; intros [|y' a'] E Hl; cbn in *; try discriminate.
  - injection E as -> ->. auto.
  - injection E as -> E. injection Hl as Hl. destruct (IH a' E Hl) as [-> [-> ->]]. auto.
Qed.

Lemma unique_reading f : forall g, good f -> good g -> written f = written g -> f = g.
Proof.
  induction f as [ts|f1 IH1 f2 IH2|f1 IH1 f2 IH2|f1 IH1]; intros g [Af Pf] [Ag Pg] E.
  - pose proof (next_atom ts Af) as N. change ts with (written (FAtom ts)) in N. rewrite E in N.
    destruct g as [ts'|g1 g2|g1 g2|g1].
    + cbn in E. now subst.
    + destruct Ag as [A1 A2], Pg as [P1 [P2 [O1 [O2 Q]]]]. rewrite next_and in N by assumption. discriminate.
    + destruct Ag as [A1 A2], Pg as [P1 [P2 O1]]. rewrite next_or in N by assumption. discriminate.
    + destruct (next_par g1 Ag) as [i N']. rewrite N' in N. discriminate.
  - destruct Af as [A1 A2]. pose proof Pf as [P1 [P2 [O1 [O2 Q]]]].
    pose proof (next_and f1 f2 A1 A2 P1 P2 O1 O2 Q) as N. rewrite E in N.
    destruct g as [ts'|g1 g2|g1 g2|g1].
    + cbn [written] in N. rewrite (next_atom ts' Ag) in N. discriminate.
    + destruct Ag as [B1 B2]. pose proof Pg as [R1 [R2 [S1 [S2 T]]]]. rewrite next_and in N by assumption.
      injection N as N. cbn [written] in E. destruct (app_split _ _ _ _ _ _ E (eq_sym N)) as [E1 [_ E2]].
      f_equal; [apply IH1|apply IH2]; try split; assumption.
    + destruct Ag as [B1 B2]. pose proof Pg as [R1 [R2 S1]]. rewrite next_or in N by assumption.
      injection N as N. cbn [written] in E. destruct (app_split _ _ _ _ _ _ E (eq_sym N)) as [_ [E1 _]]. discriminate.
    + destruct (next_par g1 Ag) as [i N']. rewrite N' in N. discriminate.
  - destruct Af as [A1 A2]. pose proof Pf as [P1 [P2 O1]].
    pose proof (next_or f1 f2 A1 A2 P1 O1) as N. rewrite E in N.
    destruct g as [ts'|g1 g2|g1 g2|g1].
    + cbn [written] in N. rewrite (next_atom ts' Ag) in N. discriminate.
    + destruct Ag as [B1 B2]. pose proof Pg as [R1 [R2 [S1 [S2 T]]]]. rewrite next_and in N by assumption.
      injection N as N. cbn [written] in E. destruct (app_split _ _ _ _ _ _ E (eq_sym N)) as [_ [E1 _]]. discriminate.
    + destruct Ag as [B1 B2]. pose proof Pg as [R1 [R2 S1]]. rewrite next_or in N by assumption.
      injection N as N. cbn [written] in E. destruct (app_split _ _ _ _ _ _ E (eq_sym N)) as [E1 [_ E2]].
      f_equal; [apply IH1|apply IH2]; try split; assumption.
    + destruct (next_par g1 Ag) as [i N']. rewrite N' in N. discriminate.
  - destruct (next_par f1 Af) as [i N]. rewrite E in N.
    destruct g as [ts'|g1 g2|g1 g2|g1].
    + cbn [written] in N. rewrite (next_atom ts' Ag) in N. discriminate.
    + destruct Ag as [A1 A2], Pg as [P1 [P2 [O1 [O2 Q]]]]. rewrite next_and in N by assumption. discriminate.
    + destruct Ag as [A1 A2], Pg as [P1 [P2 O1]]. rewrite next_or in N by assumption. discriminate.
    + cbn [written] in E. injection E as E. apply app_inj_tail in E as [E _]. f_equal. apply IH1; try split; assumption.
Qed.

(** ** Width of the tree *)
Fixpoint firsts (f : form) : nat :=
  match f with FAtom _ => 1 | FPar f => firsts f | FAnd f _ => firsts f | FOr f g => firsts f + firsts g end.

Lemma ptree_length f : forall k, List.length (ptree f k) = firsts f.
Proof.
  induction f as [ts|f IHf g IHg|f IHf g IHg|f IHf]; intros k; cbn; auto.
  now rewrite app_length, IHf, IHg.
Qed.

(** A single-token atom is an atom. *)
Lemma atom_one t : t_kind t = KOther -> atom_ok [t].
Proof.
  intros Hk. constructor.
  - discriminate.
  - cbn. unfold delta. now rewrite Hk.
  - intros a b E. destruct a as [|x a]; [cbn; lia|]. injection E as -> E. symmetry in E. apply app_eq_nil in E as [-> ->].
    cbn. unfold delta. rewrite Hk. lia.
  - intros a t' b E Hl. destruct a as [|x a]; [injection E as <- _; congruence|].
    injection E as _ E. symmetry in E. apply app_eq_nil in E as [_ E]. discriminate.
  - intros t' ts' E Hc. injection E as <- _. congruence.
Qed.
