(** Lemmas about the csv reader, the line scanner and the writer. *)
From Verif Require Import GoBase GoBaseP PolicyM FileM FileSpec.

(** *** Characters *)
Lemma sapp_assoc (a b c : string) : ((a ++ b) ++ c)%string = (a ++ b ++ c)%string.
Proof. induction a as [|x a IH]; cbn; [reflexivity|now rewrite IH]. Qed.
Lemma sapp_nil (a : string) : (a ++ "")%string = a.
Proof. induction a as [|x a IH]; cbn; [reflexivity|now rewrite IH]. Qed.
Lemma slen_app (a b : string) : String.length (a ++ b) = String.length a + String.length b.
Proof. induction a as [|x a IH]; cbn; [reflexivity|now rewrite IH]. Qed.
Lemma contains_char c v : contains (String c "") v <-> has_char c v = true.
Proof.
  split.
  - intros [a [b ->]]. rewrite has_char_app. cbn [append has_char]. rewrite Ascii.eqb_refl. apply orb_true_r.
  - induction v as [|d v IH]; cbn [has_char]; [discriminate|]. destruct (Ascii.eqb_spec c d) as [<-|N].
    + intros _. exists ""%string, v. reflexivity.
    + intros H. destruct (IH H) as [a [b ->]]. exists (String d a), b. reflexivity.
Qed.
Lemma not_contains c v : ~ contains (String c "") v <-> has_char c v = false.
Proof. rewrite contains_char. destruct (has_char c v); split; congruence. Qed.

Fixpoint count (c : ascii) (s : string) : nat :=
  match s with EmptyString => 0 | String d s' => (if Ascii.eqb c d then 1 else 0) + count c s' end.
Lemma count_app c a b : count c (a ++ b) = count c a + count c b.
Proof. induction a as [|d a IH]; cbn [append count]; [reflexivity|]. rewrite IH. lia. Qed.
Lemma count_has c s : has_char c s = false <-> count c s = 0.
Proof.
  induction s as [|d s IH]; cbn [has_char count]; [tauto|]. destruct (Ascii.eqb c d); [split; [discriminate|lia]|]. exact IH.
Qed.
Definition counts (c : ascii) (l : list string) : nat := fold_right (fun s n => count c s + n) 0 l.
Lemma counts_has c l : counts c l = 0 <-> Forall (fun v => has_char c v = false) l.
Proof.
  induction l as [|v l IH]; [split; [constructor|reflexivity]|]. cbn [counts fold_right]. fold (counts c l). split.
  - intros H. constructor; [apply count_has; lia|apply IH; lia].
  - intros H. inversion H as [|? ? H1 H2]; subst. apply count_has in H1. apply IH in H2. lia.
Qed.
Lemma count_join c l : c <> ","%char -> c <> " "%char -> count c (join ", " l) = counts c l.
Proof.
  intros N1 N2. induction l as [|v l IH]; [reflexivity|]. cbn [join counts fold_right]. destruct l as [|w l]; [cbn; lia|].
  rewrite !count_app, IH. cbn [count counts fold_right]. rewrite (proj2 (Ascii.eqb_neq c ",") N1), (proj2 (Ascii.eqb_neq c " ") N2). lia.
Qed.

(** *** White space *)
Definition sp (s : string) : bool :=
  match s with
  | EmptyString => false
  | String c s1 =>
      space1 c || match s1 with
                  | EmptyString => false
                  | String d s2 => space2 c d || match s2 with EmptyString => false | String e _ => space3 c d e end
                  end
  end.
Lemma of_nat_eq c n : nat_of_ascii c = n -> c = ascii_of_nat n.
Proof. intros <-. symmetry. apply ascii_nat_embedding. Qed.
Lemma in_spaces l : In l ([[9]; [10]; [11]; [12]; [13]; [32]; [194; 133]; [194; 160]; [225; 154; 128]] ++
             map (fun n => [226; 128; n]) [128; 129; 130; 131; 132; 133; 134; 135; 136; 137; 138; 168; 169; 175] ++
             [[226; 129; 159]; [227; 128; 128]]) -> In (bytes l) unicode_spaces.
Proof. intros H. apply in_map. exact H. Qed.
Ltac find_in := cbn; repeat (first [left; reflexivity | right]).
Lemma sp_spec s : sp s = true <-> exists p, In p unicode_spaces /\ starts_with p s.
Proof.
  split.
  - destruct s as [|c s1]; [discriminate|]. cbn [sp]. destruct (space1 c) eqn:S1.
    { intros _. unfold space1 in S1. set (n := nat_of_ascii c) in *. assert (In n [9; 10; 11; 12; 13; 32]) as Hn.
      { apply orb_true_iff in S1 as [S1|S1]; [apply andb_true_iff in S1 as [A B]; apply Nat.leb_le in A; apply Nat.leb_le in B|apply Nat.eqb_eq in S1]; cbn; lia. }
      exists (bytes [n]). split.
      - apply in_spaces. cbn in Hn. decompose [or] Hn; try (subst; find_in; fail); try contradiction; rewrite <- H || rewrite <- H0; find_in.
      - exists s1. subst n. cbn. now rewrite ascii_nat_embedding. }
    cbn [orb]. destruct s1 as [|d s2]; [discriminate|]. destruct (space2 c d) eqn:S2.
    { intros _. unfold space2 in S2. apply andb_true_iff in S2 as [A B]. apply Nat.eqb_eq in A. exists (bytes [194; nat_of_ascii d]). split.
      - apply in_spaces. apply orb_true_iff in B as [B|B]; apply Nat.eqb_eq in B; rewrite B; find_in.
      - exists s2. cbn [bytes fold_right append]. rewrite ascii_nat_embedding, (of_nat_eq _ _ A). reflexivity. }
    cbn [orb]. destruct s2 as [|e s3]; [discriminate|]. unfold space3. intros H.
    exists (bytes [nat_of_ascii c; nat_of_ascii d; nat_of_ascii e]). split; [|exists s3; cbn [bytes fold_right append]; now rewrite !ascii_nat_embedding].
    apply in_spaces. rewrite !orb_true_iff, !andb_true_iff, !orb_true_iff, !andb_true_iff, !Nat.eqb_eq, !Nat.leb_le in H.
    destruct H as [[[[[H1 H2] H3]|[[H1 H2] H3]]|[[H1 H2] H3]]|[[H1 H2] H3]]; rewrite H1, H2.
    + rewrite H3. find_in.
    + apply in_or_app. right. apply in_or_app. left. apply in_map_iff. exists (nat_of_ascii e). split; [reflexivity|].
      set (n := nat_of_ascii e) in *. clearbody n. cbn [In]. lia.
    + rewrite H3. find_in.
    + rewrite H3. find_in.
  - intros [p [Hp [t ->]]]. vm_compute in Hp. repeat (destruct Hp as [<-|Hp]; [reflexivity|]). destruct Hp.
Qed.

Lemma trim_id s : sp s = false -> trim s = s.
Proof.
  destruct s as [|c s1]; [reflexivity|]. cbn [sp trim]. destruct (space1 c); [discriminate|]. cbn [orb].
  destruct s1 as [|d s2]; [reflexivity|]. destruct (space2 c d); [discriminate|]. cbn [orb]. destruct s2 as [|e s3]; [reflexivity|]. now intros ->.
Qed.
Lemma trim_facts : forall s, sp (trim s) = false /\ forall c, count c (trim s) <= count c s.
Proof.
  assert (X : forall n s, String.length s <= n -> sp (trim s) = false /\ forall c, count c (trim s) <= count c s).
  { induction n as [|n IH]; intros s L; [destruct s; [split; [reflexivity|intros; cbn; lia]|cbn in L; lia]|].
    destruct s as [|c s1]; [split; [reflexivity|intros; cbn; lia]|]. cbn [String.length] in L. cbn [trim].
    destruct (space1 c) eqn:S1.
    { destruct (IH s1 ltac:(lia)) as [I1 I2]. split; [exact I1|]. intros x. cbn [count]. specialize (I2 x). lia. }
    destruct s1 as [|d s2]; [split; [cbn [sp]; now rewrite S1|intros; lia]|]. cbn [String.length] in L. destruct (space2 c d) eqn:S2.
    { destruct (IH s2 ltac:(lia)) as [I1 I2]. split; [exact I1|]. intros x. cbn [count]. specialize (I2 x). lia. }
    destruct s2 as [|e s3]; [split; [cbn [sp]; now rewrite S1, S2|intros; lia]|]. cbn [String.length] in L. destruct (space3 c d e) eqn:S3.
    { destruct (IH s3 ltac:(lia)) as [I1 I2]. split; [exact I1|]. intros x. cbn [count]. specialize (I2 x). lia. }
    split; [cbn [sp]; now rewrite S1, S2, S3|intros; lia]. }
  intros s. eapply X. apply le_n.
Qed.
Lemma trim_space s : trim (String " " s) = trim s.
Proof. reflexivity. Qed.
Lemma sp_prefix p s : sp p = true -> sp (p ++ s) = true.
Proof.
  destruct p as [|c p1]; [discriminate|]. cbn [append sp]. destruct (space1 c); [reflexivity|]. cbn [orb].
  destruct p1 as [|d p2]; [discriminate|]. cbn [append]. destruct (space2 c d); [reflexivity|]. cbn [orb].
  destruct p2 as [|e p3]; [discriminate|]. cbn [append]. auto.
Qed.
Lemma sp_app v w : sp v = false -> w = ""%string \/ (exists t, w = String "," t) -> sp (v ++ w) = false.
Proof.
  intros Hv [->|[t ->]]; [now rewrite sapp_nil|].
  destruct v as [|c v1]; [cbn [append sp]; change (space1 ",") with false; cbn [orb]; destruct t as [|d t2]; [reflexivity|];
    change (space2 "," d) with false; cbn [orb]; destruct t2; reflexivity|].
  cbn [sp] in Hv. cbn [append sp]. destruct (space1 c); [discriminate|]. cbn [orb] in *.
  destruct v1 as [|d v2].
  - cbn [append]. assert (space2 c "," = false) as -> by (unfold space2; apply andb_false_r). cbn [orb]. destruct t as [|e t]; [reflexivity|].
    unfold space3. change (nat_of_ascii ",") with 44. rewrite !andb_false_r. reflexivity.
  - cbn [append]. destruct (space2 c d); [discriminate|]. cbn [orb] in *. destruct v2 as [|e v3]; [|exact Hv].
    cbn [append]. unfold space3. change (nat_of_ascii ",") with 44.
    assert (((128 <=? 44) && (44 <=? 138) || (44 =? 168) || (44 =? 169) || (44 =? 175))%nat = false) as -> by reflexivity.
    rewrite !andb_false_r. reflexivity.
Qed.

(** *** Fields *)
Lemma cut_comma_spec s : forall f r, cut_comma s = (f, r) ->
  has_char "," f = false /\ match r with None => s = f | Some t => s = (f ++ String "," t)%string end.
Proof.
  induction s as [|c s IH]; intros f r H; cbn [cut_comma] in H.
  - injection H as <- <-. split; reflexivity.
  - destruct (Ascii.eqb_spec c ",") as [->|N].
    + injection H as <- <-. split; reflexivity.
    + destruct (cut_comma s) as [f' r'] eqn:E. injection H as <- <-. destruct (IH _ _ eq_refl) as [I1 I2].
      split; [cbn [has_char]; destruct (Ascii.eqb_spec "," c); [congruence|exact I1]|]. destruct r'; rewrite I2; reflexivity.
Qed.
Lemma cut_comma_app f t : has_char "," f = false -> cut_comma (f ++ String "," t) = (f, Some t).
Proof.
  induction f as [|c f IH]; intros H; cbn [append cut_comma]; [now rewrite Ascii.eqb_refl|]. cbn [has_char] in H.
  destruct (Ascii.eqb_spec "," c) as [<-|N]; [discriminate|]. destruct (Ascii.eqb_spec c ","); [congruence|]. now rewrite IH.
Qed.
Lemma cut_comma_none f : has_char "," f = false -> cut_comma f = (f, None).
Proof.
  induction f as [|c f IH]; intros H; cbn [cut_comma]; [reflexivity|]. cbn [has_char] in H.
  destruct (Ascii.eqb_spec "," c) as [<-|N]; [discriminate|]. destruct (Ascii.eqb_spec c ","); [congruence|]. now rewrite IH.
Qed.
Definition rest_count (c : ascii) (r : option string) : nat := match r with None => 0 | Some t => count c t end.
Lemma quoted_count n : forall s f r, String.length s <= n -> quoted s = Some (f, r) -> (forall c, count c f + rest_count c r <= count c s) /\ count DQ f + rest_count DQ r < count DQ s.
Proof.
  induction n as [|n IH]; intros s f r L H; [destruct s; [discriminate|cbn in L; lia]|].
  destruct s as [|c s1]; [discriminate|]. cbn [String.length] in L. cbn [quoted] in H. destruct (Ascii.eqb_spec c DQ) as [->|N].
  - destruct s1 as [|d s2]; [injection H as <- <-; cbn [count rest_count]; rewrite Ascii.eqb_refl; split; intros; lia|].
    cbn [String.length] in L. destruct (Ascii.eqb_spec d DQ) as [->|Nd].
    + destruct (quoted s2) as [[f2 r2]|] eqn:Q; [|discriminate]. injection H as <- <-. destruct (IH s2 f2 r2 ltac:(lia) Q) as [I1 I2].
      cbn [count]. rewrite Ascii.eqb_refl. split; [|lia]. intros x. specialize (I1 x). lia.
    + destruct (Ascii.eqb_spec d ",") as [->|Nc]; [|discriminate]. injection H as <- <-. cbn [count rest_count]. rewrite Ascii.eqb_refl. split; intros; lia.
  - destruct (quoted s1) as [[f2 r2]|] eqn:Q; [|discriminate]. injection H as <- <-. destruct (IH s1 f2 r2 ltac:(lia) Q) as [I1 I2].
    cbn [count]. destruct (Ascii.eqb_spec DQ c); [congruence|]. split; [|lia]. intros x. specialize (I1 x). lia.
Qed.
Lemma field_count s f r : field s = Some (f, r) ->
  (forall c, count c f + rest_count c r <= count c s) /\
  (count DQ f + rest_count DQ r < count DQ s \/
   (has_char DQ f = false /\ has_char "," f = false /\ sp f = false /\ (r = None -> count DQ s = 0 \/ count DQ f + rest_count DQ r < count DQ s))).
Proof.
  unfold field. destruct (trim_facts s) as [T1 T2]. destruct (trim s) as [|c s1] eqn:Et.
  - intros H. injection H as <- <-. split; [intros; cbn; lia|]. right. repeat split; try reflexivity. intros _. destruct (count DQ s); [left; reflexivity|right; cbn; lia].
  - destruct (Ascii.eqb_spec c DQ) as [->|N].
    + intros Q. destruct (quoted_count _ _ _ _ (le_n _) Q) as [I1 I2]. pose proof (T2 DQ) as T3. cbn [count] in T3. rewrite Ascii.eqb_refl in T3.
      split; [|left; lia]. intros x. specialize (I1 x). specialize (T2 x). cbn [count] in T2. lia.
    + destruct (cut_comma (String c s1)) as [f' r'] eqn:Ec. destruct (has_char DQ f') eqn:Hd; [discriminate|]. intros H. injection H as <- <-.
      destruct (cut_comma_spec _ _ _ Ec) as [C1 C2]. assert (K : forall x, count x f' + rest_count x r' <= count x (String c s1)).
      { intros x. destruct r' as [t|]; rewrite C2; [rewrite count_app; cbn [count rest_count]; lia|cbn; lia]. }
      split; [intros x; specialize (K x); specialize (T2 x); lia|]. right. split; [exact Hd|]. split; [exact C1|]. split.
      * destruct (sp f') eqn:Sf; [|reflexivity]. destruct r' as [t|].
        -- rewrite C2, (sp_prefix f' (String "," t) Sf) in T1. discriminate.
        -- rewrite C2, Sf in T1. discriminate.
      * intros ->. pose proof (proj1 (count_has DQ f') Hd) as Z. rewrite Z. cbn [rest_count]. destruct (count DQ s); [left; reflexivity|right; lia].
Qed.
Lemma fields_count fuel : forall s l, fields fuel s = Some l ->
  (forall c, counts c l <= count c s) /\ (count DQ s = 0 \/ counts DQ l < count DQ s) /\
  (count DQ s = 0 -> Forall (fun f => has_char "," f = false /\ sp f = false) l).
Proof.
  induction fuel as [|fuel IH]; intros s l H; [discriminate|]. cbn [fields] in H. destruct (field s) as [[f r]|] eqn:F; [|discriminate].
  destruct (field_count _ _ _ F) as [C1 C2]. destruct r as [t|].
  - destruct (fields fuel t) as [l'|] eqn:G; [|discriminate]. injection H as <-. destruct (IH _ _ G) as [I1 [I2 I3]].
    cbn [counts fold_right]. fold (counts DQ l'). split; [intros c; fold (counts c l'); specialize (I1 c); specialize (C1 c); cbn [rest_count] in C1; lia|].
    pose proof (I1 DQ) as I1'. pose proof (C1 DQ) as C1'. cbn [rest_count] in *. destruct C2 as [C2|[D1 [D2 [D3 _]]]].
    + split; [right; lia|]. intros Z. lia.
    + split.
      * apply count_has in D1. destruct I2 as [I2|I2]; [|right; lia]. destruct (count DQ s) eqn:Es; [left; reflexivity|right; lia].
      * intros Z. constructor; [auto|]. apply I3. lia.
  - injection H as <-. cbn [counts fold_right rest_count] in *. split; [intros c; specialize (C1 c); lia|]. destruct C2 as [C2|[D1 [D2 [D3 D4]]]].
    + split; [right; lia|]. intros Z. lia.
    + split; [destruct (D4 eq_refl); [left|right]; lia|]. intros _. constructor; auto.
Qed.

Lemma fields_space fuel s : fields fuel (String " " s) = fields fuel s.
Proof. destruct fuel; [reflexivity|]. cbn [fields]. unfold field. now rewrite trim_space. Qed.

Definition ok_field (v : string) : Prop := has_char "," v = false /\ has_char DQ v = false /\ sp v = false.
Lemma field_last v : ok_field v -> field v = Some (v, None).
Proof.
  intros [H1 [H2 H3]]. unfold field. rewrite (trim_id v H3). destruct v as [|c v1]; [reflexivity|].
  destruct (Ascii.eqb_spec c DQ) as [->|N]; [cbn [has_char] in H2; rewrite Ascii.eqb_refl in H2; discriminate|].
  rewrite (cut_comma_none _ H1), H2. reflexivity.
Qed.
Lemma field_more v t : ok_field v -> field (v ++ String "," t) = Some (v, Some t).
Proof.
  intros [H1 [H2 H3]]. unfold field. rewrite (trim_id (v ++ String "," t)) by (apply sp_app; eauto).
  destruct v as [|c v1].
  - cbn [append]. destruct (Ascii.eqb_spec "," DQ) as [X|N]; [discriminate|]. rewrite (cut_comma_app "" t eq_refl : cut_comma (String "," t) = _). reflexivity.
  - change ((String c v1 ++ String "," t)%string) with (String c (v1 ++ String "," t)). cbn iota.
    destruct (Ascii.eqb_spec c DQ) as [->|N]; [cbn [has_char] in H2; rewrite Ascii.eqb_refl in H2; discriminate|].
    change (String c (v1 ++ String "," t)) with (String c v1 ++ String "," t)%string. rewrite (cut_comma_app _ t H1), H2. reflexivity.
Qed.
Lemma fields_join l : forall fuel, l <> [] -> Forall ok_field l -> List.length l <= fuel -> fields fuel (join ", " l) = Some l.
Proof.
  induction l as [|v l IH]; intros fuel Hn Hf Hl; [congruence|]. inversion Hf as [|? ? F1 F2]; subst. destruct fuel as [|fuel]; [cbn in Hl; lia|].
  cbn [join fields]. destruct l as [|w l].
  - now rewrite (field_last v F1).
  - change (", " ++ join ", " (w :: l))%string with (String "," (String " " (join ", " (w :: l)))). rewrite (field_more v _ F1), fields_space, IH; [reflexivity|discriminate|exact F2|cbn in *; lia].
Qed.
Lemma join_length l : List.length l <= S (String.length (join ", " l)).
Proof.
  induction l as [|v l IH]; [cbn; lia|]. cbn [join]. destruct l as [|w l]; [cbn; lia|]. rewrite !slen_app. cbn [String.length]. cbn [List.length] in *. lia.
Qed.

(** *** Carriage returns *)
Lemma drop_cr_snoc s : drop_cr (s ++ String CR "") = s.
Proof.
  induction s as [|c s IH]; [reflexivity|]. cbn [append drop_cr]. destruct (s ++ String CR "")%string as [|d t] eqn:E; [destruct s; discriminate|]. now rewrite IH.
Qed.
Lemma drop_cr_id s : ~ ends_with (String CR "") s -> drop_cr s = s.
Proof.
  induction s as [|c s IH]; intros H; [reflexivity|]. cbn [drop_cr]. destruct s as [|d t].
  - destruct (Ascii.eqb_spec c CR) as [->|N]; [|reflexivity]. exfalso. apply H. exists ""%string. reflexivity.
  - rewrite IH; [reflexivity|]. intros [u E]. apply H. exists (String c u). cbn [append]. now rewrite <- E.
Qed.
Lemma ends_cr_dec s : {u | s = (u ++ String CR "")%string} + {~ ends_with (String CR "") s}.
Proof.
  induction s as [|c s [[u ->]|IH]].
  - right. intros [[|] E]; discriminate.
  - left. exists (String c u). reflexivity.
  - destruct s as [|d t].
    + destruct (ascii_dec c CR) as [->|N]; [left; exists ""%string; reflexivity|]. right. intros [u E]. destruct u as [|x u]; cbn in E; [congruence|]. injection E as _ E. destruct u; discriminate.
    + right. intros [u E]. destruct u as [|x u]; [discriminate|]. injection E as _ E. apply IH. exists u. exact E.
Qed.
Lemma drop_cr_count c s : count c (drop_cr s) <= count c s.
Proof.
  destruct (ends_cr_dec s) as [[u ->]|N]; [rewrite drop_cr_snoc, count_app; lia|rewrite (drop_cr_id s N); lia].
Qed.
Lemma prefix_hash s : prefix "#" s = true <-> exists t, s = String "#" t.
Proof.
  destruct s as [|c s]; cbn [prefix]; [split; [discriminate|intros [t E]; discriminate]|].
  destruct (ascii_dec "#" c) as [<-|N]; split; intros H; [eauto| |discriminate|destruct H as [t E]; congruence]. destruct s; reflexivity.
Qed.

(** *** One line *)
Definition ok_line (r : rule) : Prop :=
  r <> [] /\ r <> [""%string] /\ Forall ok_field r /\ ~ starts_with "#" (hd ""%string r) /\ ~ ends_with (String CR "") (last r ""%string).
Lemma join_hash r : starts_with "#" (join ", " r) <-> starts_with "#" (hd ""%string r).
Proof.
  destruct r as [|v r]; [cbn; tauto|]. cbn [join hd]. destruct r as [|w r]; [tauto|]. split; intros [t E].
  - destruct v as [|c v]; [discriminate|]. injection E as -> E. exists v. reflexivity.
  - exists (t ++ ", " ++ join ", " (w :: r))%string. rewrite E. reflexivity.
Qed.
Lemma join_nil r : join ", " r = ""%string -> r = [] \/ r = [""%string].
Proof. destruct r as [|v r]; [auto|]. cbn [join]. destruct r as [|w r]; [intros ->; auto|]. destruct v; discriminate. Qed.
Lemma ends_app a b : b <> ""%string -> ends_with (String CR "") (a ++ b) -> ends_with (String CR "") b.
Proof.
  intros Hb. induction a as [|c a IH]; cbn [append]; [auto|]. intros [[|x u] E].
  - injection E as _ E. destruct a; [destruct b; [congruence|discriminate]|discriminate].
  - injection E as _ E. apply IH. exists u. exact E.
Qed.
Lemma join_cr r : ends_with (String CR "") (join ", " r) -> ends_with (String CR "") (last r ""%string).
Proof.
  induction r as [|v r IH]; [auto|]. cbn [join last]. destruct r as [|w r]; [auto|]. intros H. apply IH.
  destruct (string_dec (join ", " (w :: r)) "") as [E|N].
  - exfalso. rewrite E in H. rewrite sapp_nil in H. apply ends_app in H; [|discriminate]. destruct H as [u E2]. destruct u as [|x u]; [discriminate|]. injection E2 as _ E2. destruct u as [|y u]; [discriminate|injection E2 as _ E2; destruct u; discriminate].
  - rewrite <- sapp_assoc in H. apply ends_app in H; [exact H|exact N].
Qed.
Lemma cr_join r : ends_with (String CR "") (last r ""%string) -> exists u, join ", " r = (u ++ String CR "")%string.
Proof.
  induction r as [|v r IH]; [intros [[|] E]; discriminate|]. cbn [join last]. destruct r as [|w r]; [intros [u ->]; eauto|].
  intros H. destruct (IH H) as [u ->]. exists (v ++ ", " ++ u)%string. now rewrite !sapp_assoc.
Qed.

Lemma line_ok r : ok_line r -> load_line (drop_cr (join ", " r)) = inl (Some r).
Proof.
  intros [H1 [H2 [H3 [H4 H5]]]]. assert (D : drop_cr (join ", " r) = join ", " r) by (apply drop_cr_id; intros X; apply H5, join_cr, X).
  rewrite D. unfold load_line. rewrite D. destruct (String.eqb_spec (join ", " r) "") as [E|N]; [destruct (join_nil r E); congruence|]. cbn [orb].
  destruct (prefix "#" (join ", " r)) eqn:P.
  { exfalso. apply prefix_hash in P as [t E]. apply H4, join_hash. exists t. exact E. }
  rewrite fields_join; [reflexivity|exact H1|exact H3|apply join_length].
Qed.
Lemma ok_of_line r : load_line (drop_cr (join ", " r)) = inl (Some r) -> ok_line r.
Proof.
  intros H. unfold load_line in H. set (l := join ", " r) in *. set (l1 := drop_cr l) in *. set (l2 := drop_cr l1) in *.
  destruct (String.eqb l1 "" || prefix "#" l1) eqn:E1; [discriminate|]. apply orb_false_iff in E1 as [E1 E2].
  destruct (String.eqb l2 "") eqn:E3; [discriminate|]. destruct (fields (S (String.length l2)) l2) as [tk|] eqn:F; [|discriminate]. injection H as ->.
  destruct (fields_count _ _ _ F) as [C1 [C2 C3]].
  assert (L : forall c, count c l2 <= count c l) by (intros c; unfold l2, l1; etransitivity; apply drop_cr_count).
  assert (Q : count DQ l = counts DQ r) by (apply count_join; discriminate).
  assert (Z : count DQ l2 = 0) by (pose proof (L DQ); lia). specialize (C3 Z).
  assert (ZR : counts DQ r = 0) by (pose proof (C1 DQ); lia). apply counts_has in ZR.
  split; [intros ->; cbn in E1; discriminate|]. split; [intros ->; cbn in E1; discriminate|]. split; [|split].
  - rewrite Forall_forall in *. intros v Hv. destruct (C3 v Hv). split; [auto|]. split; auto.
  - intros X. apply join_hash in X as [t E]. fold l in E. assert (P : prefix "#" l1 = true); [|congruence]. apply prefix_hash.
    unfold l1. rewrite E. cbn [append drop_cr]. destruct t; [exists ""%string; reflexivity|eexists; reflexivity].
  - intros X. apply cr_join in X as [u E]. fold l in E. assert (K : count CR l2 < count CR l).
    { unfold l2, l1. rewrite E, drop_cr_snoc. pose proof (drop_cr_count CR u). rewrite count_app. cbn [count]. rewrite Ascii.eqb_refl. lia. }
    assert (QC : count CR l = counts CR r) by (apply count_join; discriminate). pose proof (C1 CR). lia.
Qed.

(** *** The whole file *)
Lemma LF_ne : LF <> ","%char /\ LF <> " "%char. Proof. split; discriminate. Qed.
Definition no_lf (r : rule) : Prop := Forall (fun v => has_char LF v = false) r.
Lemma no_lf_join r : no_lf r <-> has_char LF (join ", " r) = false.
Proof. unfold no_lf. rewrite count_has, (count_join LF r (proj1 LF_ne) (proj2 LF_ne)). symmetry. apply counts_has. Qed.
Lemma no_last_cons l ls : ls <> [] -> no_last_empty (l :: ls) = l :: no_last_empty ls.
Proof. destruct ls; [congruence|reflexivity]. Qed.
Lemma saved_lines rs : Forall no_lf rs -> no_last_empty (split_char LF (save_text rs)) = map (join ", ") rs.
Proof.
  induction rs as [|r rs IH]; intros H; [reflexivity|]. inversion H as [|? ? H1 H2]; subst. cbn [save_text map]. unfold save_line. rewrite sapp_assoc. cbn [append].
  rewrite split_char_app by (now apply no_lf_join). rewrite no_last_cons by apply split_char_nonempty. now rewrite (IH H2).
Qed.
Lemma in_no_last x ls : In x (no_last_empty ls) -> In x ls.
Proof.
  induction ls as [|l ls IH]; [auto|]. destruct ls as [|l2 ls].
  - cbn [no_last_empty]. destruct (String.eqb l ""); [intros []|auto].
  - rewrite no_last_cons by discriminate. intros [->|H]; [left; reflexivity|right; auto].
Qed.
Lemma load_line_chars c l r : has_char c l = false -> load_line l = inl (Some r) -> Forall (fun v => has_char c v = false) r.
Proof.
  intros Hc H. unfold load_line in H. destruct (_ || _); [discriminate|]. destruct (String.eqb (drop_cr l) ""); [discriminate|].
  destruct (fields _ (drop_cr l)) as [tk|] eqn:F; [|discriminate]. injection H as ->. apply counts_has. destruct (fields_count _ _ _ F) as [C1 _].
  specialize (C1 c). pose proof (drop_cr_count c l). apply count_has in Hc. lia.
Qed.
Lemma drop_cr_chars c l : has_char c l = false -> has_char c (drop_cr l) = false.
Proof. rewrite !count_has. pose proof (drop_cr_count c l). lia. Qed.
Lemma load_lines_no_lf ls : Forall (fun l => has_char LF l = false) ls -> forall rs e, load_lines ls = (rs, e) -> Forall no_lf rs.
Proof.
  induction ls as [|l ls IH]; intros Hl rs e H; cbn [load_lines] in H; [injection H as <- _; constructor|]. inversion Hl as [|? ? H1 H2]; subst.
  destruct (_ <=? _)%N; [injection H as <- _; constructor|]. destruct (load_line (drop_cr l)) as [[r|]|] eqn:E; [| |injection H as <- _; constructor].
  - destruct (load_lines ls) as [rs' e'] eqn:E2. injection H as <- _. constructor; [|eauto]. eapply load_line_chars; [|exact E]. now apply drop_cr_chars.
  - eauto.
Qed.
Lemma load_text_no_lf t rs e : load_text t = (rs, e) -> Forall no_lf rs.
Proof.
  apply load_lines_no_lf. apply Forall_forall. intros x Hx. apply in_no_last in Hx. now apply split_char_no_sep in Hx.
Qed.
Lemma load_lines_le ls : forall rs e, load_lines ls = (rs, e) -> List.length rs <= List.length ls.
Proof.
  induction ls as [|l ls IH]; intros rs e H; cbn [load_lines] in H; [injection H as <- _; cbn; lia|].
  destruct (_ <=? _)%N; [injection H as <- _; cbn; lia|]. destruct (load_line (drop_cr l)) as [[r|]|]; [| |injection H as <- _; cbn; lia].
  - destruct (load_lines ls) as [rs' e'] eqn:E2. injection H as <- _. specialize (IH _ _ eq_refl). cbn [List.length]. lia.
  - specialize (IH _ _ H). cbn [List.length]. lia.
Qed.
Definition short (r : rule) : Prop := (N.of_nat (String.length (join ", " r)) < max_line)%N.
Lemma load_saved_lines rs : load_lines (map (join ", ") rs) = (rs, None) <-> Forall (fun r => ok_line r /\ short r) rs.
Proof.
  induction rs as [|r rs IH]; [split; [constructor|reflexivity]|]. cbn [map load_lines]. unfold short at 1.
  destruct (N.leb_spec max_line (N.of_nat (String.length (join ", " r)))) as [L|L].
  - split; [discriminate|]. intros H. inversion H as [|? ? [_ H1] _]; subst. unfold short in H1. lia.
  - destruct (load_line (drop_cr (join ", " r))) as [[r'|]|] eqn:E.
    + destruct (load_lines (map (join ", ") rs)) as [rs' e'] eqn:E2. split.
      * intros H. injection H as -> -> ->. constructor; [split; [now apply ok_of_line|exact L]|now apply IH].
      * intros H. inversion H as [|? ? [H1 _] H2]; subst. apply line_ok in H1. rewrite H1 in E. injection E as <-. apply IH in H2. injection H2 as -> ->. reflexivity.
    + split.
      * intros H. pose proof (load_lines_le _ _ _ H) as K. rewrite map_length in K. cbn [List.length] in K. unfold rule in K. lia.
      * intros H. inversion H as [|? ? [H1 _] H2]; subst. apply line_ok in H1. rewrite H1 in E. discriminate.
    + split; [discriminate|]. intros H. inversion H as [|? ? [H1 _] H2]; subst. apply line_ok in H1. rewrite H1 in E. discriminate.
Qed.

Lemma plain_value_iff v : plain_value v <-> ok_field v /\ has_char LF v = false.
Proof.
  unfold plain_value, ok_field. change (bytes [34]) with (String DQ ""). change (bytes [10]) with (String LF "").
  rewrite (not_contains ","), (not_contains DQ), (not_contains LF).
  assert (S : sp v = false <-> forall p, In p unicode_spaces -> ~ starts_with p v).
  { pose proof (sp_spec v) as S. split.
    - intros H p H1 H2. rewrite (proj2 S) in H; [discriminate|eauto].
    - intros H. destruct (sp v); [|reflexivity]. destruct (proj1 S eq_refl) as [p [H1 H2]]. now destruct (H p H1). }
  rewrite <- S. tauto.
Qed.
Lemma plain_line_iff r : plain_line r <-> (ok_line r /\ short r) /\ no_lf r.
Proof.
  unfold plain_line, ok_line, short, no_lf, max_line. change (bytes [13]) with (String CR "").
  assert (F : Forall plain_value r <-> Forall ok_field r /\ Forall (fun v => has_char LF v = false) r).
  { rewrite !Forall_forall. split.
    - intros H. split; intros v Hv; apply (plain_value_iff v); auto.
    - intros [H1 H2] v Hv. apply plain_value_iff. auto. }
  rewrite F. tauto.
Qed.
Lemma round_trip rs : load_text (save_text rs) = (rs, None) <-> Forall plain_line rs.
Proof.
  split.
  - intros H. pose proof (load_text_no_lf _ _ _ H) as NL. unfold load_text in H. rewrite (saved_lines rs NL) in H. apply load_saved_lines in H.
    rewrite Forall_forall in *. intros r Hr. apply plain_line_iff. split; auto.
  - intros H. assert (NL : Forall no_lf rs) by (eapply Forall_impl; [|exact H]; intros r Hr; now apply plain_line_iff in Hr).
    unfold load_text. rewrite (saved_lines rs NL). apply load_saved_lines. eapply Forall_impl; [|exact H]. intros r Hr. now apply plain_line_iff in Hr.
Qed.

(** *** Saving *)
Lemma run_no_fault ops : forall d fault, (forall n, fault n = None) -> fs_run fault d ops = (fold_left fs_step ops d, None).
Proof. induction ops as [|o ops IH]; intros d fault H; cbn; [reflexivity|]. rewrite H. apply IH. intros n. apply H. Qed.
Lemma run_no_error ops : forall d fault d', fs_run fault d ops = (d', None) -> d' = fold_left fs_step ops d.
Proof. induction ops as [|o ops IH]; intros d fault d' H; cbn in *; [congruence|]. destruct (fault 0); [discriminate|]. eapply IH, H. Qed.
Lemma run_error ops : forall d fault d' e, fs_run fault d ops = (d', Some e) ->
  exists n k, d' = match skipn n ops with [] => fold_left fs_step (firstn n ops) d | o :: _ => fs_part k (fold_left fs_step (firstn n ops) d) o end.
Proof.
  induction ops as [|o ops IH]; intros d fault d' e H; cbn [fs_run] in H; [discriminate|]. destruct (fault 0) as [k|].
  - injection H as <- _. exists 0, k. reflexivity.
  - destruct (IH _ _ _ _ H) as [n [k E]]. exists (S n), k. exact E.
Qed.
Lemma writes ch : forall c, fold_left fs_step (map OWrite ch) (Some c) = Some (c ++ fold_right append "" ch)%string.
Proof. induction ch as [|s ch IH]; intros c; cbn [map fold_left fs_step fold_right]; [now rewrite sapp_nil|]. now rewrite IH, sapp_assoc. Qed.
Lemma save_run d ch : fold_left fs_step (save_ops d ch) d = Some (fold_right append ""%string ch).
Proof. unfold save_ops. destruct d as [c|]; cbn [app fold_left fs_step]; apply (writes ch "").  Qed.
Lemma substring_prefix k : forall s, exists t, s = (substring 0 k s ++ t)%string.
Proof.
  induction k as [|k IH]; intros s; [exists s; destruct s; reflexivity|]. destruct s as [|c s]; [exists ""%string; reflexivity|].
  cbn [substring]. destruct (IH s) as [t E]. exists t. cbn [append]. now rewrite <- E.
Qed.
Lemma prefix_substring p : forall t, substring 0 (String.length p) (p ++ t) = p.
Proof. induction p as [|c p IH]; intros t; cbn [String.length append]; [destruct t; reflexivity|]. cbn [substring]. now rewrite IH. Qed.

Definition cut_run (n k : nat) (d : disk) (ops : list fsop) : disk :=
  match skipn n ops with [] => fold_left fs_step (firstn n ops) d | o :: _ => fs_part k (fold_left fs_step (firstn n ops) d) o end.
Lemma cut_writes ch : forall c n k, exists p, starts_with p (fold_right append ""%string ch) /\ cut_run n k (Some c) (map OWrite ch) = Some (c ++ p)%string.
Proof.
  unfold cut_run. induction ch as [|s ch IH]; intros c n k.
  - exists ""%string. split; [exists ""%string; reflexivity|]. rewrite sapp_nil. destruct n; reflexivity.
  - destruct n as [|n].
    + cbn [map skipn firstn fold_left fs_part fs_step fold_right]. exists (substring 0 k s). split; [|reflexivity].
      destruct (substring_prefix k s) as [t E]. exists (t ++ fold_right append "" ch)%string. rewrite <- sapp_assoc, <- E. reflexivity.
    + cbn [map skipn firstn fold_left fs_step fold_right]. destruct (IH (c ++ s)%string n k) as [p [[t E1] E2]]. exists (s ++ p)%string. split.
      * exists t. rewrite E1. now rewrite sapp_assoc.
      * rewrite E2. now rewrite sapp_assoc.
Qed.
Lemma writes_cut ch : forall c p, starts_with p (fold_right append ""%string ch) -> exists n k, cut_run n k (Some c) (map OWrite ch) = Some (c ++ p)%string.
Proof.
  unfold cut_run. induction ch as [|s ch IH]; intros c p [t E]; cbn [fold_right] in E.
  - exists 0, 0. destruct p; [|discriminate]. cbn. now rewrite sapp_nil.
  - assert (D : (exists u, s = (p ++ u)%string) \/ (exists u, p = (s ++ u)%string /\ fold_right append ""%string ch = (u ++ t)%string)).
    { clear IH. revert p E. induction s as [|x s IHs]; intros p E; [right; exists p; auto|]. destruct p as [|y p]; [left; exists (String x s); reflexivity|].
      cbn [append] in E. injection E as -> E. destruct (IHs p E) as [[u ->]|[u [-> E2]]]; [left; exists u; reflexivity|right; exists u; auto]. }
    destruct D as [[u ->]|[u [-> E2]]].
    + exists 0, (String.length p). cbn [map skipn firstn fold_left fs_part fs_step]. now rewrite prefix_substring.
    + destruct (IH (c ++ s)%string u) as [n [k H]]; [exists t; exact E2|]. exists (S n), k. cbn [map skipn firstn fold_left fs_step]. rewrite H. now rewrite sapp_assoc.
Qed.
Definition broken (d : disk) (text : string) (d' : disk) : Prop := d' = d \/ d' = None \/ exists p, starts_with p text /\ d' = Some p.
Lemma cut_S n k d o ops : cut_run (S n) k d (o :: ops) = cut_run n k (fs_step d o) ops.
Proof. reflexivity. Qed.
Lemma cut_save n k d ch : broken d (fold_right append ""%string ch) (cut_run n k d (save_ops d ch)).
Proof.
  unfold save_ops. set (T := fold_right append ""%string ch).
  assert (W : forall n, broken d T (cut_run n k (Some ""%string) (map OWrite ch))).
  { intros m. destruct (cut_writes ch "" m k) as [p [Hp E]]. rewrite E. right. right. exists p. auto. }
  assert (C : forall d0 n, d0 = d \/ d0 = None -> broken d T (cut_run n k d0 ([OCreate; OOpen] ++ map OWrite ch))).
  { intros d0 m H0. cbn [app]. destruct m as [|m]; [unfold broken, cut_run; cbn; tauto|]. rewrite cut_S. cbn [fs_step].
    destruct m as [|m]; [right; right; exists ""%string; split; [exists T; reflexivity|reflexivity]|]. rewrite cut_S. apply W. }
  destruct n as [|n]; [left; reflexivity|]. rewrite cut_S. cbn [fs_step]. destruct d as [c|].
  - cbn [app]. destruct n as [|n]; [left; reflexivity|]. rewrite cut_S. apply (C None). auto.
  - apply (C None). auto.
Qed.
Lemma save_cut d ch d' : broken d (fold_right append ""%string ch) d' -> exists n k, cut_run n k d (save_ops d ch) = d'.
Proof.
  unfold save_ops. intros [->|[->|[p [Hp ->]]]].
  - exists 0, 0. reflexivity.
  - destruct d as [c|]; [exists 2, 0; reflexivity|exists 0, 0; reflexivity].
  - destruct (writes_cut ch "" p Hp) as [n [k H]]. destruct d as [c|]; [exists (4 + n), k|exists (3 + n), k]; exact H.
Qed.

(** *** A file that was cut off *)
Lemma load_lines_app ls1 : forall rs ls2, load_lines ls1 = (rs, None) -> load_lines (ls1 ++ ls2) = (rs ++ fst (load_lines ls2), snd (load_lines ls2)).
Proof.
  induction ls1 as [|l ls1 IH]; intros rs ls2 H; cbn [load_lines app] in *; [injection H as <-; destruct (load_lines ls2); reflexivity|].
  destruct (_ <=? _)%N; [discriminate|]. destruct (load_line (drop_cr l)) as [[r|]|]; [| |discriminate].
  - destruct (load_lines ls1) as [rs1 e1]. injection H as <- ->. rewrite (IH rs1 ls2 eq_refl). reflexivity.
  - now apply IH.
Qed.
Lemma cut_lines rs : forall p, Forall no_lf rs -> starts_with p (save_text rs) ->
  exists n q, p = (save_text (firstn n rs) ++ q)%string /\ has_char LF q = false.
Proof.
  induction rs as [|r rs IH]; intros p H [t E]; cbn [save_text] in E; [destruct p; [exists 0, ""%string; split; reflexivity|discriminate]|].
  inversion H as [|? ? H1 H2]; subst. apply no_lf_join in H1.
  assert (D : forall s p, has_char LF s = false -> (s ++ String LF "" ++ save_text rs)%string = (p ++ t)%string ->
     (has_char LF p = false) \/ exists p', p = (s ++ String LF "" ++ p')%string /\ save_text rs = (p' ++ t)%string).
  { clear. induction s as [|c s IHs]; intros p Hs E; destruct p as [|d p]; try (left; reflexivity).
    - cbn [append] in E. injection E as <- E. right. exists p. split; [reflexivity|exact E].
    - cbn [append] in E. injection E as <- E. cbn [has_char] in *. destruct (Ascii.eqb LF c); [discriminate|].
      destruct (IHs p Hs E) as [L|[p' [-> E2]]]; [left; exact L|right; exists p'; split; [reflexivity|exact E2]]. }
  unfold save_line in E. rewrite sapp_assoc in E. destruct (D _ _ H1 E) as [L|[p' [-> E2]]].
  - exists 0, p. split; [reflexivity|exact L].
  - destruct (IH p' H2 (ex_intro _ t E2)) as [n [q [-> Hq]]]. exists (S n), q. split; [|exact Hq]. cbn [firstn save_text]. unfold save_line. now rewrite !sapp_assoc.
Qed.
Lemma lines_app rs q : Forall no_lf rs -> has_char LF q = false ->
  no_last_empty (split_char LF (save_text rs ++ q)) = map (join ", ") rs ++ no_last_empty [q].
Proof.
  intros H Hq. induction rs as [|r rs IH]; cbn [save_text append map app]; [now rewrite split_char_nochar|]. inversion H as [|? ? H1 H2]; subst.
  unfold save_line. rewrite !sapp_assoc. cbn [append]. rewrite split_char_app by (now apply no_lf_join). rewrite no_last_cons by apply split_char_nonempty. now rewrite (IH H2).
Qed.
Lemma load_app rs q : Forall plain_line rs -> has_char LF q = false ->
  fst (load_text (save_text rs ++ q)) = rs \/ exists x, fst (load_text (save_text rs ++ q)) = rs ++ [x].
Proof.
  intros H Hq. assert (NL : Forall no_lf rs) by (eapply Forall_impl; [|exact H]; intros r Hr; now apply plain_line_iff in Hr).
  unfold load_text. rewrite (lines_app _ _ NL Hq). rewrite (load_lines_app _ rs).
  - cbn [fst no_last_empty]. destruct (String.eqb q ""); cbn [load_lines fst]; [left; apply app_nil_r|]. destruct (_ <=? _)%N; [left; apply app_nil_r|].
    destruct (load_line (drop_cr q)) as [[x|]|]; cbn [fst]; [right; exists x; reflexivity|left; apply app_nil_r|left; apply app_nil_r].
  - apply load_saved_lines. eapply Forall_impl; [|exact H]. intros r Hr. now apply plain_line_iff in Hr.
Qed.
Lemma load_cut rs p : Forall plain_line rs -> starts_with p (save_text rs) ->
  exists n, fst (load_text p) = firstn n rs \/ exists x, fst (load_text p) = firstn n rs ++ [x].
Proof.
  intros H Hp. assert (NL : Forall no_lf rs) by (eapply Forall_impl; [|exact H]; intros r Hr; now apply plain_line_iff in Hr).
  destruct (cut_lines rs p NL Hp) as [n [q [-> Hq]]]. exists n. apply load_app; [|exact Hq].
  apply Forall_forall. intros x Hx. rewrite Forall_forall in H. apply H. rewrite <- (firstn_skipn n rs). apply in_or_app. auto.
Qed.
