(** Lemmas about listeners that change rules in turn. *)
From Coq Require Import Lia Permutation.
From Verif Require Import GoBase GoBaseP PolicyM PolicySpec MatcherM ModelM ModelSpec ModelP ModelP4 ModelP5 StorageM StorageSpec StorageP StorageP2 StorageP3 ReactM ReactSpec.
Local Open Scope list_scope.

(** Changes that listener [i] is still to be told of. *)
Definition waits (i : nat) (f : frame) : list operation := match f with FrTell op j => if Nat.leb j i then [op] else [] | _ => [] end.
Definition waiting (i : nat) (k : list frame) : list operation := flat_map (waits i) k.

Lemma events_one E o m c m' x : mstep E o m c = Val (m', x) ->
  x_events x = [] \/ exists r, (c = CAdd r /\ x_events x = [MAdded r]) \/ (c = CRemove r /\ x_events x = [MRemoved r]).
Proof.
  intros H. destruct c; cbn [mstep] in H; try (left; try (apply obind_val in H as [[? ?] [_ H]]); try (destruct (RemoveDef m s key)); try (destruct (RemoveFunction m name)); injection H as _ <-; reflexivity).
  - apply obind_val in H as [[[[m1 b] e] es] [Ha H]]. injection H as _ <-. cbn [x_events]. destruct (add_events _ _ _ _ _ _ _ Ha) as [-> | ->]; [now left|right; eauto].
  - apply obind_val in H as [[[[m1 b] e] es] [Ha H]]. injection H as _ <-. cbn [x_events]. destruct (remove_events _ _ _ _ _ _ _ Ha) as [-> | ->]; [now left|right; eauto].
Qed.
Lemma waiting_new i es k : waiting i (map (fun ev => FrTell (op_of ev) 0) es ++ k) = map op_of es ++ waiting i k.
Proof. induction es as [|e es IH]; [reflexivity|]. cbn. now rewrite <- IH. Qed.
Lemma announced_snoc xs x : announced (xs ++ [x]) = announced xs ++ map op_of (x_events x).
Proof. unfold announced. rewrite flat_map_app, map_app. cbn. now rewrite app_nil_r. Qed.
Lemma nth_note i j op l : nth i (note j op l) [] = if Nat.eqb i j && Nat.ltb j (List.length l) then nth i l [] ++ [op] else nth i l [].
Proof.
  revert i j. induction l as [|t l IH]; intros i j; [destruct (Nat.eqb i j), i, j; reflexivity|]. destruct j as [|j], i as [|i]; cbn [note nth Nat.eqb]; try reflexivity. rewrite IH. reflexivity.
Qed.
Lemma note_length j op l : List.length (note j op l) = List.length l.
Proof. revert j. induction l as [|t l IH]; intros [|j]; cbn; auto. Qed.

Lemma unwind_waiting i k : waiting i k = [] -> waiting i (unwind k) = [].
Proof. induction k as [|f k IH]; intros H; [reflexivity|]. cbn [waiting flat_map] in H. apply app_eq_nil in H as [H1 H2]. destruct f; cbn [unwind]; auto. Qed.
Lemma unwind_Forall (P : frame -> Prop) k : Forall P k -> Forall P (unwind k).
Proof. induction 1 as [|f k Hf Hk IH]; [constructor|]. destruct f; cbn [unwind]; auto. Qed.

Section Run.
  Variables (E : env) (os : nat -> orders) (ls : list listener).

  Lemma lsteps_ind (P : lstate -> Prop) : (forall s s', P s -> lstep E os ls s = Val s' -> P s') -> forall n s s', P s -> lsteps E os ls n s = Val s' -> P s'.
  Proof.
    intros S. induction n as [|n IH]; intros s s' H; cbn [lsteps]; [now intros [= <-]|].
    intros X. apply obind_val in X as [s1 [X1 X2]]. eauto.
  Qed.

  (** The cases of a step. *)
  Lemma step_cases s s' : lstep E os ls s = Val s' ->
    s' = s \/
    (exists f k, l_stack s = f :: k /\ s' = mkL (l_model s) (l_told s) (l_made s) k /\
       match f with FrTell _ i => nth_error ls i = None | FrRun _ _ _ _ => True | FrMain cs => cs = [] end) \/
    (exists op i L k, l_stack s = FrTell op i :: k /\ nth_error ls i = Some L /\
       s' = mkL (l_model s) (note i op (l_told s)) (l_made s) (FrRun i (nth i (l_told s) []) op [] :: FrTell op (S i) :: k)) \/
    (exists f c k f' m r, l_stack s = f :: k /\ let o := os (List.length (l_made s)) in mstep E o (l_model s) c = Val (m, r) /\
       s' = mkL m (l_told s) (l_made s ++ [((o, c), r)]) (map (fun ev => FrTell (op_of ev) 0) (x_events r) ++ f' :: k) /\
       match f with
       | FrRun i told op ans => (exists L, nth_error ls i = Some L /\ L told op ans (l_model s) = Calls c) /\ f' = FrRun i told op (ans ++ [r])
       | FrMain cs => exists cs', cs = c :: cs' /\ f' = FrMain cs'
       | _ => False
       end) \/
    (exists i told op ans L k, l_stack s = FrRun i told op ans :: k /\ nth_error ls i = Some L /\ L told op ans (l_model s) = Fails /\
       s' = mkL (l_model s) (l_told s) (l_made s) (unwind k)).
  Proof.
    unfold lstep. destruct (l_stack s) as [|[op i|i told op ans|[|c cs]] k] eqn:Es.
    - intros [= <-]. now left.
    - destruct (nth_error ls i) as [L|] eqn:El; intros [= <-].
      + right; right; left. exists op, i, L, k. auto.
      + right; left. exists (FrTell op i), k. auto.
    - destruct (nth_error ls i) as [L|] eqn:El; [|intros [= <-]; now left]. destruct (L told op ans (l_model s)) as [|c|] eqn:Ec.
      + intros [= <-]. right; left. exists (FrRun i told op ans), k. auto.
      + unfold make. intros H. apply obind_val in H as [[m r] [H1 H]]. injection H as <-. right; right; right; left. exists (FrRun i told op ans), c, k, (FrRun i told op (ans ++ [r])), m, r.
        split; [reflexivity|]. cbv zeta. split; [exact H1|]. split; [reflexivity|]. split; [eauto|reflexivity].
      + intros [= <-]. right; right; right; right. exists i, told, op, ans, L, k. auto.
    - intros [= <-]. right; left. exists (FrMain []), k. auto.
    - unfold make. intros H. apply obind_val in H as [[m r] [H1 H]]. injection H as <-. right; right; right; left. exists (FrMain (c :: cs)), c, k, (FrMain cs), m, r.
      split; [reflexivity|]. cbv zeta. split; [exact H1|]. split; [reflexivity|]. eauto.
  Qed.

  (** *** One history *)
  Definition flat (m0 : model) (s : lstate) : Prop := mexec E m0 (map fst (l_made s)) = Val (l_model s, map snd (l_made s)).
  Lemma flat_step m0 s s' : flat m0 s -> lstep E os ls s = Val s' -> flat m0 s'.
  Proof.
    unfold flat. intros F H. apply step_cases in H as [->|[(f & k & _ & -> & _)|[(op & i & L & k & _ & _ & ->)|[(f & c & k & f' & m & r & _ & H & -> & _)|(i & told & op & ans & L & k & _ & _ & _ & ->)]]]]; cbn [l_made l_model]; auto.
    rewrite !map_app. apply mexec_app. exists (l_model s), (map snd (l_made s)), [r]. split; [exact F|]. split; [|reflexivity]. cbn. rewrite H. reflexivity.
  Qed.

  (** *** Every change once *)
  Definition once (s : lstate) : Prop :=
    List.length (l_told s) = List.length ls /\
    forall i, i < List.length ls -> Permutation (changes_made s) (told_to i s ++ waiting i (l_stack s)).
  Lemma once_step s s' : Forall never_fails ls -> once s -> lstep E os ls s = Val s' -> once s'.
  Proof.
    intros NF [Len O] H. apply step_cases in H as [->|[(f & k & Es & -> & Hf)|[(op & j & L & k & Es & El & ->)|[(f & c & k & f' & m & r & Es & H & -> & Hf)|(j & told & op & ans & L & k & Es & El & Ff & ->)]]]]; [now split| | | |rewrite Forall_forall in NF; exfalso; exact (NF L (nth_error_In _ _ El) _ _ _ _ Ff)]; (split; [cbn [l_told]; rewrite ?note_length; exact Len|]);
      intros i Hi; specialize (O i Hi); unfold changes_made, told_to in *; cbn [l_made l_told l_stack]; rewrite Es in O.
    - cbn [waiting flat_map] in O. replace (waits i f) with (@nil operation) in O; [exact O|]. destruct f as [op j|j told op ans|cs]; cbn; auto.
      destruct (Nat.leb_spec j i); [|reflexivity]. apply nth_error_None in Hf. lia.
    - assert (Hj : j < List.length ls) by (apply nth_error_Some; congruence). rewrite nth_note. cbn [waiting flat_map waits app] in *.
      destruct (Nat.eqb_spec i j) as [->|N].
      + rewrite Len. destruct (Nat.ltb_spec j (List.length ls)); [|lia]. cbn [andb]. rewrite Nat.leb_refl in O. destruct (Nat.leb_spec (Datatypes.S j) j); [lia|]. rewrite <- app_assoc. exact O.
      + cbn [andb]. destruct (Nat.leb_spec j i), (Nat.leb_spec (Datatypes.S j) i); try lia; exact O.
    - rewrite map_app. cbn [map snd]. rewrite announced_snoc, waiting_new. cbn [map snd]. replace (waiting i (f' :: k)) with (waiting i (f :: k)).
      + rewrite O, <- !app_assoc. apply Permutation_app_head, Permutation_app_comm.
      + cbn. f_equal. destruct f; [contradiction|destruct Hf as [_ ->]; reflexivity|destruct Hf as (cs' & _ & ->); reflexivity].
  Qed.

  (** *** At most once, also with panics *)
  Definition at_most (i : nat) (s : lstate) : Prop :=
    List.length (l_told s) = List.length ls /\
    exists lost, Permutation (changes_made s) (told_to i s ++ waiting i (l_stack s) ++ lost).
  Lemma unwind_lost i k : exists lost, waiting i k = lost ++ waiting i (unwind k).
  Proof.
    induction k as [|f k [l IH]]; [now exists []|]. destruct f; cbn [unwind]; [exists (waits i (FrTell op i0) ++ l)|exists l|now exists []]; cbn [waiting flat_map]; fold (waiting i k); rewrite IH; [now rewrite app_assoc|reflexivity].
  Qed.
  Lemma at_most_step i s s' : i < List.length ls -> at_most i s -> lstep E os ls s = Val s' -> at_most i s'.
  Proof.
    intros Hi [Len [lost O]] H. apply step_cases in H as [->|[(f & k & Es & -> & Hf)|[(op & j & L & k & Es & El & ->)|[(f & c & k & f' & m & r & Es & H & -> & Hf)|(j & told & op & ans & L & k & Es & El & Ff & ->)]]]]; [now split; [|exists lost]| | | |]; (split; [cbn [l_told]; rewrite ?note_length; exact Len|]);
      unfold changes_made, told_to in *; cbn [l_made l_told l_stack]; rewrite Es in O.
    - exists lost. cbn [waiting flat_map] in O. replace (waits i f) with (@nil operation) in O; [exact O|]. destruct f as [op j|j told op ans|cs]; cbn; auto.
      destruct (Nat.leb_spec j i); [|reflexivity]. apply nth_error_None in Hf. lia.
    - exists lost. assert (Hj : j < List.length ls) by (apply nth_error_Some; congruence). rewrite nth_note. cbn [waiting flat_map waits app] in *.
      destruct (Nat.eqb_spec i j) as [->|N].
      + rewrite Len. destruct (Nat.ltb_spec j (List.length ls)); [|lia]. cbn [andb]. rewrite Nat.leb_refl in O. destruct (Nat.leb_spec (S j) j); [lia|]. rewrite <- app_assoc. exact O.
      + cbn [andb]. destruct (Nat.leb_spec j i), (Nat.leb_spec (S j) i); try lia; exact O.
    - exists lost. rewrite map_app. cbn [map snd]. rewrite announced_snoc, waiting_new. replace (waiting i (f' :: k)) with (waiting i (f :: k)).
      + rewrite O, <- !app_assoc. apply Permutation_app_head. rewrite (app_assoc (waiting i (f :: k))). apply Permutation_app_comm.
      + cbn. f_equal. destruct f; [contradiction|destruct Hf as [_ ->]; reflexivity|destruct Hf as (cs' & _ & ->); reflexivity].
    - destruct (unwind_lost i k) as [l Hl]. exists (l ++ lost). change (waiting i (FrRun j told op ans :: k)) with (waiting i k) in O. rewrite Hl in O. rewrite O. apply Permutation_app_head.
      rewrite !app_assoc. apply Permutation_app_tail, Permutation_app_comm.
  Qed.

  (** *** The program *)
  Definition no_main (f : frame) : Prop := match f with FrMain _ => False | _ => True end.
  Definition program (cs : list mcall) (s : lstate) : Prop :=
    exists did, (among did (calls_made s) /\ (Forall (only_makes (fun _ => False)) ls -> calls_made s = did)) /\
      ((l_stack s = [] /\ did = cs) \/ exists k rest, l_stack s = k ++ [FrMain rest] /\ Forall no_main k /\ cs = did ++ rest).
  Lemma among_snoc {A} (a b : list A) x : among a b -> among (a ++ [x]) (b ++ [x]) /\ among a (b ++ [x]).
  Proof. induction 1 as [|y a b H [I1 I2]|y a b H [I1 I2]]; cbn; split; repeat constructor; auto. Qed.
  Lemma unwind_bottom k rest : Forall no_main k -> unwind (k ++ [FrMain rest]) = [FrMain rest].
  Proof. induction 1 as [|f k Hf Hk IH]; [reflexivity|]. destruct f; [exact IH|exact IH|contradiction]. Qed.
  Lemma tells_no_main es : Forall no_main (map (fun ev => FrTell (op_of ev) 0) es).
  Proof. apply Forall_map, Forall_forall. intros; exact I. Qed.
  Lemma program_step cs s s' : program cs s -> lstep E os ls s = Val s' -> program cs s'.
  Proof.
    intros (did & A & [[Es0 ->]|(k0 & rest & Es0 & N & C)]) H.
    { unfold lstep in H. rewrite Es0 in H. injection H as <-. exists cs. auto. }
    apply step_cases in H as [->|[(f & k & Es & -> & Hf)|[(op & j & L & k & Es & El & ->)|[(f & c & k & f' & m & r & Es & H & -> & Hf)|(j & told & op & ans & L & k & Es & El & Ff & ->)]]]].
    - exists did. eauto 10.
    - rewrite Es in Es0. exists did. split; [exact A|]. cbn [l_stack]. destruct k0 as [|f0 k0]; cbn [app] in Es0; injection Es0 as -> ->.
      + left. split; [reflexivity|]. subst rest. now rewrite app_nil_r in C.
      + right. inversion N; subst. eauto 10.
    - rewrite Es in Es0. exists did. split; [exact A|]. cbn [l_stack]. right. destruct k0 as [|f0 k0]; cbn [app] in Es0; [discriminate|]. injection Es0 as <- ->. inversion N; subst.
      exists (FrRun j (nth j (l_told s) []) op [] :: FrTell op (S j) :: k0), rest. split; [reflexivity|]. split; [repeat constructor; assumption|reflexivity].
    - rewrite Es in Es0. destruct A as [A Q]. assert (A' := among_snoc _ _ c A). destruct A' as [A1 A2].
      assert (Cm : calls_made (mkL m (l_told s) (l_made s ++ [((os (List.length (l_made s)), c), r)]) (map (fun ev => FrTell (op_of ev) 0) (x_events r) ++ f' :: k)) = calls_made s ++ [c]) by (unfold calls_made; cbn [l_made]; now rewrite map_app).
      unfold program. rewrite Cm. cbn [l_stack]. destruct k0 as [|f0 k0]; cbn [app] in Es0; injection Es0 as -> ->.
      + destruct Hf as (cs' & -> & ->). exists (did ++ [c]). split; [split; [exact A1|intros X; now rewrite (Q X)]|]. right. exists (map (fun ev => FrTell (op_of ev) 0) (x_events r)), cs'. split; [reflexivity|]. split; [apply tells_no_main|]. rewrite <- app_assoc. exact C.
      + exists did. split; [split; [exact A2|]|].
        { intros X. exfalso. destruct f0; [contradiction| |inversion N; contradiction]. destruct Hf as [(L & El & Ec) _]. rewrite Forall_forall in X. exact (X L (nth_error_In _ _ El) _ _ _ _ _ Ec). }
        right. exists (map (fun ev => FrTell (op_of ev) 0) (x_events r) ++ f' :: k0), rest. split; [now rewrite <- app_assoc|]. split; [|exact C].
        inversion N as [|? ? N1 N2]; subst. apply Forall_app. split; [apply tells_no_main|]. constructor; [|exact N2]. destruct f0; [contradiction|destruct Hf as [_ ->]; exact I|contradiction].
    - rewrite Es in Es0. exists did. split; [exact A|]. right. cbn [l_stack]. destruct k0 as [|f0 k0]; cbn [app] in Es0; [discriminate|]. injection Es0 as <- ->. inversion N; subst.
      exists [], rest. split; [now apply unwind_bottom|]. split; [constructor|reflexivity].
  Qed.

  (** *** In order *)
  Definition in_order (i : nat) (s : lstate) : Prop :=
    List.length (l_told s) = List.length ls /\ changes_made s = told_to i s ++ waiting i (l_stack s) /\
    (waiting i (l_stack s) = [] \/
     (exists op j k, l_stack s = FrTell op j :: k /\ waiting i k = []) \/
     (exists j told op ans op' j' k, l_stack s = FrRun j told op ans :: FrTell op' j' :: k /\ j < i /\ waiting i k = [])).
  Lemma in_order_step i s s' : i < List.length ls -> (forall j L, j < i -> nth_error ls j = Some L -> quiet L) -> in_order i s -> lstep E os ls s = Val s' -> in_order i s'.
  Proof.
    intros Hi Q (Len & C & S) H. apply step_cases in H as [->|[(f & k & Es & -> & Hf)|[(op & j & L & k & Es & El & ->)|[(f & c & k & f' & m & r & Es & H & -> & Hf)|(j & told & op & ans & L & k & Es & El & Ff & ->)]]]]; [now repeat split| | | |];
      (split; [cbn [l_told]; rewrite ?note_length; exact Len|]); unfold changes_made, told_to in *; cbn [l_made l_told l_stack]; rewrite Es in C, S.
    - assert (W : waits i f = []).
      { destruct f as [op j|j told op ans|cs]; cbn; auto. destruct (Nat.leb_spec j i); [|reflexivity]. apply nth_error_None in Hf. lia. }
      cbn [waiting flat_map] in C, S. rewrite W in C, S. split; [exact C|].
      destruct S as [S|[(op & j & k0 & E1 & S)|(j & told & op & ans & op' & j' & k0 & E1 & Hj & S)]]; [left; exact S|injection E1 as -> ->; left; exact S|].
      injection E1 as -> ->. right; left. eauto.
    - assert (Wk : waiting i k = []).
      { destruct S as [S|[(op0 & j0 & k0 & E1 & S)|(j0 & told & op0 & ans & op' & j' & k0 & E1 & _)]]; [|now injection E1 as _ _ ->|discriminate E1].
        cbn [waiting flat_map] in S. now apply app_eq_nil in S as [_ S]. }
      assert (Hj : j < List.length ls) by (apply nth_error_Some; congruence). rewrite nth_note. cbn [waiting flat_map waits app] in *. fold (waiting i k) in *. rewrite Wk in *.
      destruct (Nat.eqb_spec i j) as [<-|N].
      + rewrite Len. destruct (Nat.ltb_spec i (List.length ls)); [|lia]. cbn [andb]. rewrite Nat.leb_refl in C. destruct (Nat.leb_spec (Datatypes.S i) i); [lia|]. cbn [app]. split; [now rewrite app_nil_r|now left].
      + cbn [andb]. destruct (Nat.leb_spec j i), (Nat.leb_spec (Datatypes.S j) i); try lia; (split; [exact C|]); [|now left]. right; right. eexists _, _, _, _, _, _, _. split; [reflexivity|]. split; [lia|exact Wk].
    - assert (W : waiting i (f' :: k) = waiting i (f :: k)).
      { cbn. f_equal. destruct f; [contradiction|destruct Hf as [_ ->]; reflexivity|destruct Hf as (cs' & _ & ->); reflexivity]. }
      assert (W0 : waiting i (f :: k) = []).
      { destruct S as [S|[(op0 & j0 & k0 & E1 & S)|(j0 & told & op0 & ans & op' & j' & k0 & E1 & Hj & S)]]; [exact S|injection E1 as -> _; contradiction|].
        injection E1 as -> _. destruct Hf as [(L & El & Ec) _]. rewrite (Q j0 L Hj El) in Ec. discriminate. }
      rewrite map_app. cbn [map snd]. rewrite announced_snoc, waiting_new, W, W0 in *. cbn [map snd]. rewrite app_nil_r in *. split; [now rewrite C|].
      destruct (events_one _ _ _ _ _ _ H) as [->|(rl & [(_ & ->)|(_ & ->)])]; cbn [map]; [now left| |]; right; left; eexists _, _, _; (split; [reflexivity|]); congruence.
    - assert (W0 : waiting i k = []).
      { destruct S as [S|[(op0 & j0 & k0 & E1 & S)|(j0 & told0 & op0 & ans0 & op' & j' & k0 & E1 & Hj & S)]]; [exact S|discriminate E1|].
        injection E1 as -> _ _ _ _. rewrite (Q j0 L Hj El) in Ff. discriminate. }
      change (waiting i (FrRun j told op ans :: k)) with (waiting i k) in C. rewrite W0 in C. rewrite (unwind_waiting i k W0). split; [exact C|now left].
  Qed.

  (** *** Ranks *)
  Variable rank : rule -> nat.
  Definition on (r : rule) (l : list operation) : list operation := filter (fun op => rule_eqb (snd op) r) l.
  Definition below (b : nat) (k : list frame) : Prop := Forall (fun f => match f with FrTell op _ => rank (snd op) < b | _ => True end) k.
  Fixpoint sorted (k : list frame) : Prop :=
    match k with
    | [] => True
    | FrTell op _ :: k' => below (rank (snd op)) k' /\ sorted k'
    | FrRun _ _ op _ :: k' => below (S (rank (snd op))) k' /\ sorted k'
    | FrMain _ :: k' => k' = []
    end.
  Definition by_rule (i : nat) (s : lstate) : Prop :=
    List.length (l_told s) = List.length ls /\ sorted (l_stack s) /\ forall r, on r (changes_made s) = on r (told_to i s) ++ on r (waiting i (l_stack s)).
  Lemma on_app r a b : on r (a ++ b) = on r a ++ on r b.
  Proof. unfold on. apply filter_app. Qed.
  Lemma below_on i b k r : below b k -> b <= rank r -> on r (waiting i k) = [].
  Proof.
    intros B H. unfold waiting. induction B as [|f k Hf B IH]; [reflexivity|]. cbn [flat_map]. rewrite on_app, IH, app_nil_r. destruct f as [op j| |]; cbn; auto. destruct (Nat.leb j i); [|reflexivity].
    cbn. unfold rule_eqb. destruct (rule_eq_dec (snd op) r) as [<-|]; [lia|reflexivity].
  Qed.
  Lemma by_rule_step i s s' : i < List.length ls -> Forall (ranked rank) ls -> Forall never_fails ls -> by_rule i s -> lstep E os ls s = Val s' -> by_rule i s'.
  Proof.
    intros Hi Q NF (Len & S & C) H. apply step_cases in H as [->|[(f & k & Es & -> & Hf)|[(op & j & L & k & Es & El & ->)|[(f & c & k & f' & m & r & Es & H & -> & Hf)|(j & told & op & ans & L & k & Es & El & Ff & ->)]]]]; [now repeat split| | | |rewrite Forall_forall in NF; exfalso; exact (NF L (nth_error_In _ _ El) _ _ _ _ Ff)];
      (split; [cbn [l_told]; rewrite ?note_length; exact Len|]); unfold changes_made, told_to in *; cbn [l_made l_told l_stack]; rewrite Es in C, S.
    - split; [destruct f; cbn in S; [apply S|apply S|rewrite S; exact I]|]. intros rl. specialize (C rl). cbn [waiting flat_map] in C. replace (waits i f) with (@nil operation) in C; [exact C|].
      destruct f as [op j|j told op ans|cs]; cbn; auto. destruct (Nat.leb_spec j i); [|reflexivity]. apply nth_error_None in Hf. lia.
    - destruct S as [B S]. split.
      { cbn [sorted]. split; [|now split]. constructor; [lia|]. eapply Forall_impl; [|exact B]. intros [op' ?| |]; auto. }
      intros rl. specialize (C rl). assert (Hj : j < List.length ls) by (apply nth_error_Some; congruence). rewrite nth_note. cbn [waiting flat_map waits app] in *.
      destruct (Nat.eqb_spec i j) as [<-|N].
      + rewrite Len. destruct (Nat.ltb_spec i (List.length ls)); [|lia]. cbn [andb]. rewrite Nat.leb_refl in C. destruct (Nat.leb_spec (Datatypes.S i) i); [lia|]. rewrite on_app, <- app_assoc, <- on_app. exact C.
      + cbn [andb]. destruct (Nat.leb_spec j i), (Nat.leb_spec (Datatypes.S j) i); try lia; exact C.
    - assert (W : waiting i (f' :: k) = waiting i (f :: k)).
      { cbn. f_equal. destruct f; [contradiction|destruct Hf as [_ ->]; reflexivity|destruct Hf as (cs' & _ & ->); reflexivity]. }
      assert (D : sorted (f' :: k) /\ forall rl, (c = CAdd rl \/ c = CRemove rl) -> below (rank rl) (f' :: k)).
      { destruct f as [|j told op ans|cs]; [contradiction| |].
        - destruct Hf as [(L & El & Ec) ->]. split; [exact S|]. intros rl Hc. rewrite Forall_forall in Q. pose proof (Q L (nth_error_In _ _ El) _ _ _ _ _ Ec rl Hc) as Lt. constructor; [exact I|]. destruct S as [B _]. eapply Forall_impl; [|exact B]. intros [op' ?| |]; auto. lia.
        - destruct Hf as (cs' & -> & ->). cbn in S. subst k. split; [reflexivity|]. intros rl _. repeat constructor. }
      destruct D as [D1 D2].
      destruct (events_one _ _ _ _ _ _ H) as [Ev|(rl & Hev)].
      + rewrite Ev. cbn [map app]. split; [exact D1|]. intros r0. rewrite map_app. cbn [map snd]. rewrite announced_snoc. cbn [map snd]. rewrite Ev. cbn [map]. rewrite app_nil_r, W. apply C.
      + assert (Hc : c = CAdd rl \/ c = CRemove rl) by (destruct Hev as [(-> & _)|(-> & _)]; auto). specialize (D2 rl Hc).
        assert (Eop : exists oc, map op_of (x_events r) = [(oc, rl)] /\ map (fun ev => FrTell (op_of ev) 0) (x_events r) = [FrTell (oc, rl) 0]).
        { destruct Hev as [(_ & ->)|(_ & ->)]; cbn; eauto. }
        destruct Eop as (oc & E1 & E2). rewrite E2. split; [cbn [app sorted snd]; now split|]. intros r0. rewrite map_app. cbn [map snd]. rewrite announced_snoc. cbn [map snd]. rewrite E1, on_app, C, <- W. cbn [app].
        change (waiting i (FrTell (oc, rl) 0 :: f' :: k)) with ((oc, rl) :: waiting i (f' :: k)). change ((oc, rl) :: waiting i (f' :: k)) with ([(oc, rl)] ++ waiting i (f' :: k)). rewrite on_app, <- app_assoc. f_equal.
        destruct (rule_eq_dec rl r0) as [<-|N].
        * now rewrite (below_on i _ _ rl D2 (le_n _)), app_nil_r.
        * assert (X : on r0 [(oc, rl)] = []) by (cbn; unfold rule_eqb; destruct (rule_eq_dec rl r0); [contradiction|reflexivity]). now rewrite X, app_nil_r.
  Qed.
End Run.

(** What a replica holds of a rule depends on the changes of that rule only. *)
Lemma fold_on r l : forall s, fold_left apply_op l s r = fold_left apply_op (on r l) s r.
Proof.
  assert (G : forall l s s', s r = s' r -> fold_left apply_op l s r = fold_left apply_op (on r l) s' r).
  { clear l. induction l as [|[oc rl] l IH]; intros s s' H; [exact H|]. cbn [fold_left on filter snd]. unfold rule_eqb at 1. destruct (rule_eq_dec rl r) as [->|N].
    - cbn [fold_left]. apply IH. destruct oc; cbn; unfold set_add, set_remove; now rewrite H.
    - apply IH. rewrite <- H. destruct oc; cbn; unfold set_add, set_remove, rule_eqb; destruct (rule_eq_dec r rl); cbn; congruence. }
  intros s. now apply G.
Qed.

(** *** Returning *)
Section Return.
  Variables (E : env) (os : nat -> orders) (ls : list listener) (rank : rule -> nat) (B K : nat).
  Hypothesis ranks : Forall (ranked rank) ls.
  Hypothesis bound : forall r, rank r <= B.
  Hypothesis few : Forall (fun L => forall told op ans m, K <= List.length ans -> L told op ans m = Done) ls.

  Definition reaches (s : lstate) (k : list frame) : Prop :=
    exists n, match lsteps E os ls n s with Panic => True | Val s' => l_stack s' = k \/ l_stack s' = unwind k end.
  Lemma lsteps_add n n' s : lsteps E os ls (n + n') s = let! s' := lsteps E os ls n s in lsteps E os ls n' s'.
  Proof. revert s. induction n as [|n IH]; intros s; [reflexivity|]. cbn [Nat.add lsteps]. destruct (lstep E os ls s); cbn; auto. Qed.
  Lemma reaches_now s : reaches s (l_stack s).
  Proof. exists 0. now left. Qed.
  Lemma reaches_step s k : (match lstep E os ls s with Panic => True | Val s' => reaches s' k end) -> reaches s k.
  Proof. destruct (lstep E os ls s) as [s'|] eqn:H; [intros [n Hn]; exists (S n); cbn; now rewrite H|intros _; exists 1; cbn; now rewrite H]. Qed.
  Lemma reaches_trans s k k' : reaches s k -> unwind k = unwind k' \/ unwind k = k -> (forall s', l_stack s' = k -> reaches s' k') -> reaches s k'.
  Proof.
    intros [n Hn] U F. destruct (lsteps E os ls n s) as [s'|] eqn:H; [|exists n; now rewrite H].
    assert (D : l_stack s' = k \/ l_stack s' = unwind k') by (destruct Hn as [Hn|Hn], U as [U|U]; rewrite ?U in Hn; auto).
    destruct D as [D|D]; [|exists n; rewrite H; now right].
    destruct (F s' D) as [n' Hn']. exists (n + n'). rewrite lsteps_add, H. exact Hn'.
  Qed.

  Lemma tell_returns : forall d op, B - rank (snd op) < d -> forall e i, List.length ls - i < e -> forall s k, l_stack s = FrTell op i :: k -> reaches s k.
  Proof.
    induction d as [|d IHd]; intros op Hd; [lia|]. induction e as [|e IHe]; intros i He s k Hs; [lia|].
    apply reaches_step. unfold lstep. rewrite Hs. destruct (nth_error ls i) as [L|] eqn:El; [|apply reaches_now].
    assert (Hi : i < List.length ls) by (apply nth_error_Some; congruence). assert (HL : In L ls) by (eapply nth_error_In; eauto).
    assert (R : forall z told ans s k, K - List.length ans < z -> l_stack s = FrRun i told op ans :: k -> reaches s k).
    { clear s k Hs. induction z as [|z IHz]; intros told ans s k Hz Hs; [lia|]. apply reaches_step. unfold lstep. rewrite Hs, El.
      destruct (L told op ans (l_model s)) as [|c|] eqn:Ec; [apply reaches_now| |exists 0; right; reflexivity].
      assert (Hk : List.length ans < K). { destruct (Nat.lt_ge_cases (List.length ans) K) as [|G]; [assumption|]. rewrite Forall_forall in few. rewrite (few L HL _ _ _ _ G) in Ec. discriminate. }
      unfold make. destruct (mstep E (os (List.length (l_made s))) (l_model s) c) as [[m r]|] eqn:M; cbn [obind]; [|exact I].
      set (s1 := mkL _ _ _ _). assert (Hs1 : l_stack s1 = map (fun ev => FrTell (op_of ev) 0) (x_events r) ++ FrRun i told op (ans ++ [r]) :: k) by reflexivity. clearbody s1.
      apply (reaches_trans s1 (FrRun i told op (ans ++ [r]) :: k)); [|left; reflexivity|].
      - destruct (events_one _ _ _ _ _ _ M) as [Ev|(rl & Hev)]; [rewrite Ev in Hs1; cbn in Hs1; rewrite <- Hs1; apply reaches_now|].
        rewrite Forall_forall in ranks. assert (Lt : rank (snd op) < rank rl) by (apply (ranks L HL _ _ _ _ _ Ec); destruct Hev as [(-> & _)|(-> & _)]; auto).
        assert (Eop : exists oc, l_stack s1 = FrTell (oc, rl) 0 :: FrRun i told op (ans ++ [r]) :: k) by (rewrite Hs1; destruct Hev as [(_ & ->)|(_ & ->)]; cbn; eauto).
        destruct Eop as [oc Eop]. refine (IHd (oc, rl) _ _ 0 (Nat.lt_succ_diag_r _) s1 _ Eop). cbn [snd]. specialize (bound rl). lia.
      - intros s' Hs'. apply (IHz told (ans ++ [r])); [|exact Hs']. rewrite app_length. cbn. lia. }
    set (s1 := mkL _ _ _ _). assert (Hs1 : l_stack s1 = FrRun i (nth i (l_told s) []) op [] :: FrTell op (S i) :: k) by reflexivity. clearbody s1.
    apply (reaches_trans s1 (FrTell op (S i) :: k)); [|left; reflexivity|].
    - exact (R _ _ _ _ _ (Nat.lt_succ_diag_r _) Hs1).
    - intros s' Hs'. apply (IHe (S i)); [lia|exact Hs'].
  Qed.
  Lemma main_returns cs : forall s, l_stack s = [FrMain cs] -> reaches s [].
  Proof.
    induction cs as [|c cs IH]; intros s Hs; apply reaches_step; unfold lstep; rewrite Hs; [apply reaches_now|].
    unfold make. destruct (mstep E (os (List.length (l_made s))) (l_model s) c) as [[m r]|] eqn:M; cbn [obind]; [|exact I].
    set (s1 := mkL _ _ _ _). assert (Hs1 : l_stack s1 = map (fun ev => FrTell (op_of ev) 0) (x_events r) ++ [FrMain cs]) by reflexivity. clearbody s1.
    apply (reaches_trans s1 [FrMain cs]); [|right; reflexivity|exact IH].
    destruct (events_one _ _ _ _ _ _ M) as [Ev|(rl & Hev)]; [rewrite Ev in Hs1; cbn in Hs1; rewrite <- Hs1; apply reaches_now|].
    assert (Eop : exists oc, l_stack s1 = FrTell (oc, rl) 0 :: [FrMain cs]) by (rewrite Hs1; destruct Hev as [(_ & ->)|(_ & ->)]; cbn; eauto).
    destruct Eop as [oc Eop]. exact (tell_returns _ (oc, rl) (Nat.lt_succ_diag_r _) _ 0 (Nat.lt_succ_diag_r _) s1 _ Eop).
  Qed.
End Return.
