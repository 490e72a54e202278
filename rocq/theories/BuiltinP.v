(** Lemmas about the built-in functions. *)
From Verif Require Import GoBase GoBaseP DefsM PathM ModelM BuiltinM BuiltinSpec.
From Coq Require Import NArith.
Local Open Scope N_scope.

Fixpoint all_digits (s : string) : bool := match s with EmptyString => true | String c s' => is_digit c && all_digits s' end.
Definition no_digit (s : string) : Prop := match s with String c _ => is_digit c = false | EmptyString => True end.

Lemma dtoi_loop_app s : forall n m rest, all_digits s = true -> dtoi_loop n s = Some (m, EmptyString) -> no_digit rest ->
  dtoi_loop n (s ++ rest) = Some (m, rest).
Proof.
  induction s as [|c s IH]; intros n m rest D H R; cbn [append dtoi_loop all_digits] in *.
  - injection H as <-. destruct rest as [|c rest]; [reflexivity|]. cbn in R. cbn [dtoi_loop]. now rewrite R.
  - apply andb_prop in D as [D1 D2]. rewrite D1 in *. cbv zeta in *. destruct (big <=? _); [discriminate|]. now apply IH.
Qed.

(** The decimal texts of the numbers used. *)
Definition dec_ok (n : N) : bool :=
  let s := dec n in
  all_digits s && match s with String _ _ => true | EmptyString => false end
  && match dtoi_loop 0 s with Some (m, EmptyString) => m =? n | _ => false end
  && negb ((1 <? N.of_nat (String.length s)) && match first_byte s with Some c => Ascii.eqb c "0" | None => false end).
Lemma decs : forallb dec_ok (map N.of_nat (seq 0 256)) = true.
Proof. vm_compute. reflexivity. Qed.
Lemma dec_facts n : is_byte n -> dec_ok n = true.
Proof.
  intros H. pose proof (proj1 (forallb_forall _ _) decs) as A. apply A. apply in_map_iff. exists (N.to_nat n).
  split; [apply N2Nat.id|]. apply in_seq. unfold is_byte in H. lia.
Qed.

Lemma dec_split n : is_byte n -> exists c s, dec n = String c s /\ is_digit c = true /\ all_digits s = true /\
  dtoi_loop 0 (dec n) = Some (n, EmptyString) /\
  (1 <? N.of_nat (String.length (dec n))) && match first_byte (dec n) with Some c => Ascii.eqb c "0" | None => false end = false.
Proof.
  intros H. pose proof (dec_facts n H) as F. unfold dec_ok in F. cbv zeta in F. apply andb_prop in F as [F F4]. apply andb_prop in F as [F F3].
  apply andb_prop in F as [F1 F2]. destruct (dec n) as [|c s] eqn:E; [discriminate|]. exists c, s. cbn [all_digits] in F1.
  apply andb_prop in F1 as [D1 D2]. split; [reflexivity|]. split; [exact D1|]. split; [exact D2|]. split.
  - destruct (dtoi_loop 0 (String c s)) as [[m [|]]|]; try discriminate. apply N.eqb_eq in F3 as ->. reflexivity.
  - now apply negb_true_iff in F4.
Qed.
Lemma dtoi_dec n rest : is_byte n -> no_digit rest -> dtoi (dec n ++ rest) = Some (n, rest).
Proof.
  intros H R. destruct (dec_split n H) as [c [s [E [D1 [D2 [D3 _]]]]]]. unfold dtoi. rewrite E. cbn [append]. rewrite D1.
  rewrite E in D3. apply (dtoi_loop_app (String c s) 0 n rest); [cbn; now rewrite D1|exact D3|exact R].
Qed.
Lemma length_append a b : String.length (a ++ b)%string = (String.length a + String.length b)%nat.
Proof. induction a as [|c a IH]; cbn; congruence. Qed.
Lemma octet_dec n rest : is_byte n -> no_digit rest -> octet (dec n ++ rest) = Some (n, rest).
Proof.
  intros H R. unfold octet. rewrite (dtoi_dec n rest H R). assert (255 <? n = false) as -> by (apply N.ltb_ge; unfold is_byte in H; lia).
  destruct (dec_split n H) as [c [s [E [_ [_ [_ Z]]]]]].
  assert (L : (String.length (dec n ++ rest) - String.length rest)%nat = String.length (dec n)) by (rewrite length_append; lia).
  rewrite L. assert (first_byte (dec n ++ rest) = first_byte (dec n)) as -> by (rewrite E; reflexivity). now rewrite Z.
Qed.

Lemma append_assoc (a b c : string) : ((a ++ b) ++ c = a ++ b ++ c)%string.
Proof. induction a as [|x a IH]; cbn; congruence. Qed.
Lemma append_nil (a : string) : (a ++ "" = a)%string.
Proof. induction a as [|x a IH]; cbn; congruence. Qed.

Lemma parse_dotted a b c d : is_byte a -> is_byte b -> is_byte c -> is_byte d ->
  parseIPv4 (dotted a b c d) = Some (v4InV6Prefix ++ [a; b; c; d]).
Proof.
  intros Ha Hb Hc Hd. unfold parseIPv4, dotted. rewrite (octet_dec a _ Ha) by reflexivity. cbn [octets append].
  rewrite (octet_dec b _ Hb) by reflexivity. cbn [append]. rewrite (octet_dec c _ Hc) by reflexivity. cbn [append].
  rewrite <- (append_nil (dec d)), (octet_dec d _ Hd) by exact I. reflexivity.
Qed.

Lemma which_digits s rest : all_digits s = true -> which (s ++ rest) = which rest.
Proof.
  induction s as [|c s IH]; [reflexivity|]. cbn [all_digits append which]. intros H. apply andb_prop in H as [D H].
  assert (Ascii.eqb c "." = false) as -> by (destruct (Ascii.eqb_spec c "."); [subst; discriminate|reflexivity]).
  assert (Ascii.eqb c ":" = false) as -> by (destruct (Ascii.eqb_spec c ":"); [subst; discriminate|reflexivity]).
  cbn [orb]. now apply IH.
Qed.
Lemma dec_digits n : is_byte n -> all_digits (dec n) = true.
Proof. intros H. destruct (dec_split n H) as [c [s [E [D1 [D2 _]]]]]. rewrite E. cbn. now rewrite D1. Qed.
Lemma ParseIP_dotted L a b c d : is_byte a -> is_byte b -> is_byte c -> is_byte d ->
  ParseIP L (dotted a b c d) = Some (v4InV6Prefix ++ [a; b; c; d]).
Proof.
  intros Ha Hb Hc Hd. unfold ParseIP. unfold dotted at 1. rewrite which_digits by now apply dec_digits. cbn [append which].
  now apply parse_dotted.
Qed.

(** A text that parses as an IPv4 address is the dotted text of it. *)
Lemma digit_char c : is_digit c = true -> exists k, (k < 10)%nat /\ c = ascii_of_N (48 + N.of_nat k).
Proof.
  unfold is_digit. cbv zeta. intros H. apply andb_prop in H as [H1 H2]. apply N.leb_le in H1, H2.
  exists (N.to_nat (N_of_ascii c - 48)). split; [lia|]. rewrite N2Nat.id. replace (48 + (N_of_ascii c - 48)) with (N_of_ascii c) by lia.
  now rewrite ascii_N_embedding.
Qed.
Lemma dtoi_loop_inv s : forall n m rest, dtoi_loop n s = Some (m, rest) ->
  exists ds, s = (ds ++ rest)%string /\ all_digits ds = true /\ dtoi_loop n ds = Some (m, EmptyString) /\ no_digit rest /\
    n * 10 ^ N.of_nat (String.length ds) <= m.
Proof.
  induction s as [|c s IH]; intros n m rest H; cbn [dtoi_loop] in H.
  - injection H as <- <-. exists EmptyString. cbn. repeat split. lia.
  - destruct (is_digit c) eqn:D; cbv zeta in H.
    + destruct (big <=? _) eqn:B; [discriminate|]. destruct (IH _ _ _ H) as [ds [-> [H1 [H2 [H3 H4]]]]].
      exists (String c ds). cbn [append all_digits dtoi_loop String.length]. rewrite D, B. cbv zeta. repeat split; auto.
      rewrite Nat2N.inj_succ, N.pow_succ_r'. assert (0 < 10 ^ N.of_nat (String.length ds)) by (apply N.neq_0_lt_0, N.pow_nonzero; lia).
      nia.
    + injection H as <- <-. exists EmptyString. cbn. repeat split; [exact D|]. lia.
Qed.
Definition digit (k : nat) : ascii := ascii_of_N (48 + N.of_nat k).
Definition back_ok (s : string) : bool :=
  match dtoi_loop 0 s with
  | Some (n, EmptyString) => (255 <? n) || ((1 <? N.of_nat (String.length s)) && match first_byte s with Some c => Ascii.eqb c "0" | None => false end) || String.eqb s (dec n)
  | _ => true
  end.
Definition short_texts : list string :=
  let d := seq 0 10 in
  map (fun i => String (digit i) "") d ++
  flat_map (fun i => map (fun j => String (digit i) (String (digit j) "")) d) d ++
  flat_map (fun i => flat_map (fun j => map (fun k => String (digit i) (String (digit j) (String (digit k) ""))) d) d) d.
Lemma backs : forallb back_ok short_texts = true.
Proof. vm_compute. reflexivity. Qed.

Lemma octet_inv s n rest : octet s = Some (n, rest) -> s = (dec n ++ rest)%string /\ is_byte n /\ no_digit rest.
Proof.
  unfold octet, dtoi. intros H. destruct s as [|c s]; [discriminate|]. destruct (is_digit c) eqn:D; [|discriminate].
  destruct (dtoi_loop 0 (String c s)) as [[n' rest']|] eqn:E; [|discriminate].
  destruct (255 <? n') eqn:Bn; [discriminate|].
  destruct (dtoi_loop_inv _ _ _ _ E) as [ds [Eds [D1 [D2 [R _]]]]].
  assert (Ll : (String.length (String c s) - String.length rest')%nat = String.length ds) by (rewrite Eds, length_append; lia). rewrite Ll in H.
  destruct ((1 <? N.of_nat (String.length ds)) && _) eqn:Z in H; [discriminate|]. injection H as <- <-.
  apply N.ltb_ge in Bn. split; [|split; [unfold is_byte; lia|exact R]]. rewrite Eds. f_equal.
  destruct ds as [|c1 ds]; [cbn in Eds; subst rest'; cbn in R; congruence|].
  cbn [append] in Eds. injection Eds as <- Es. cbn [first_byte] in Z.
  cbn [all_digits] in D1. apply andb_prop in D1 as [_ D1].
  destruct (digit_char c D) as [i [Hi Ei]]. fold (digit i) in Ei.
  assert (Back : In (String c ds) short_texts -> String c ds = dec n').
  { intros Hin. pose proof (proj1 (forallb_forall _ _) backs _ Hin) as B. unfold back_ok in B. rewrite D2 in B.
    assert (255 <? n' = false) as B1 by now apply N.ltb_ge. rewrite B1 in B. cbn [first_byte orb] in B. rewrite Z in B. cbn [orb] in B.
    now apply String.eqb_eq in B. }
  destruct ds as [|c2 ds].
  { apply Back. unfold short_texts. cbv zeta. apply in_or_app. left. apply in_map_iff. exists i. rewrite Ei. split; [reflexivity|apply in_seq; lia]. }
  cbn [all_digits] in D1. apply andb_prop in D1 as [Dc2 D1]. destruct (digit_char c2 Dc2) as [j [Hj Ej]]. fold (digit j) in Ej.
  destruct ds as [|c3 ds].
  { apply Back. unfold short_texts. cbv zeta. apply in_or_app. right. apply in_or_app. left. apply in_flat_map. exists i. split; [apply in_seq; lia|].
    apply in_map_iff. exists j. rewrite Ei, Ej. split; [reflexivity|apply in_seq; lia]. }
  cbn [all_digits] in D1. apply andb_prop in D1 as [Dc3 D1]. destruct (digit_char c3 Dc3) as [k [Hk Ek]]. fold (digit k) in Ek.
  destruct ds as [|c4 ds].
  { apply Back. unfold short_texts. cbv zeta. apply in_or_app. right. apply in_or_app. right. apply in_flat_map. exists i. split; [apply in_seq; lia|].
    apply in_flat_map. exists j. split; [apply in_seq; lia|]. apply in_map_iff. exists k. rewrite Ei, Ej, Ek. split; [reflexivity|apply in_seq; lia]. }
  exfalso. assert (Nz : Ascii.eqb c "0" = false).
  { cbn [String.length] in Z. destruct (Ascii.eqb c "0"); [|reflexivity]. exfalso. rewrite andb_true_r in Z. apply N.ltb_ge in Z. lia. }
  assert (Lo : 1 <= N_of_ascii c - 48).
  { unfold is_digit in D. cbv zeta in D. apply andb_prop in D as [A1 A2]. apply N.leb_le in A1, A2.
    assert (N_of_ascii c <> 48); [|lia]. intros C. apply (f_equal ascii_of_N) in C. rewrite ascii_N_embedding in C. rewrite C in Nz. discriminate Nz. }
  remember (String c2 (String c3 (String c4 ds))) as tl eqn:Etl. cbn [dtoi_loop] in D2. rewrite D in D2. cbv zeta in D2.
  destruct (big <=? _); [discriminate|].
  destruct (dtoi_loop_inv _ _ _ _ D2) as [ds' [Ed' [_ [_ [_ Hb]]]]].
  rewrite append_nil in Ed'. subst ds' tl. cbn [String.length] in Hb. rewrite !Nat2N.inj_succ, !N.pow_succ_r' in Hb.
  assert (0 < 10 ^ N.of_nat (String.length ds)) by (apply N.neq_0_lt_0, N.pow_nonzero; lia). nia.
Qed.

Lemma parse4_inv s ip : parseIPv4 s = Some ip -> exists a b c d, s = dotted a b c d /\ ip = v4InV6Prefix ++ [a; b; c; d] /\
  is_byte a /\ is_byte b /\ is_byte c /\ is_byte d.
Proof.
  unfold parseIPv4. destruct (octet s) as [[a r1]|] eqn:E1; [|discriminate]. apply octet_inv in E1 as [-> [Ha _]]. cbn [octets].
  destruct r1 as [|c1 r1]; [discriminate|]. destruct c1 as [[] [] [] [] [] [] [] []]; try discriminate.
  destruct (octet r1) as [[b r2]|] eqn:E2; [|discriminate]. apply octet_inv in E2 as [-> [Hb _]].
  destruct r2 as [|c2 r2]; [discriminate|]. destruct c2 as [[] [] [] [] [] [] [] []]; try discriminate.
  destruct (octet r2) as [[c r3]|] eqn:E3; [|discriminate]. apply octet_inv in E3 as [-> [Hc _]].
  destruct r3 as [|c3 r3]; [discriminate|]. destruct c3 as [[] [] [] [] [] [] [] []]; try discriminate.
  destruct (octet r3) as [[d r4]|] eqn:E4; [|discriminate]. apply octet_inv in E4 as [-> [Hd _]].
  destruct r4 as [|]; [|discriminate]. intros H. injection H as <-. exists a, b, c, d. unfold dotted. rewrite append_nil. auto 10.
Qed.

(** ** Masks *)
Lemma bytes_eqb_eq a : forall b, bytes_eqb a b = true <-> a = b.
Proof.
  induction a as [|x a IH]; intros [|y b]; cbn; try (split; congruence). rewrite andb_true_iff, N.eqb_eq, IH. split; [intros [-> ->]; reflexivity|intros H; now injection H].
Qed.
Lemma mask_byte : forall n x y, n < 8 -> is_byte x -> is_byte y ->
  (N.land x (255 - N.shiftr 255 n) = N.land y (255 - N.shiftr 255 n) <-> firstn (N.to_nat n) (byte_bits x) = firstn (N.to_nat n) (byte_bits y)).
Proof.
  intros n x y Hn Hx Hy.
  assert (Hi : forall z i, is_byte z -> 8 <= i -> N.testbit z i = false).
  { intros z i Hz Hi. destruct z as [|p]; [apply N.bits_0|]. apply N.bits_above_log2.
    enough (N.log2 (N.pos p) < 8) by lia. apply N.log2_lt_pow2; [lia|exact Hz]. }
  assert (Hm : exists m, 255 - N.shiftr 255 n = m /\ forall i, i < 8 -> N.testbit m i = (8 - n <=? i)).
  { exists (255 - N.shiftr 255 n). split; [reflexivity|].
    assert (C : n = 0 \/ n = 1 \/ n = 2 \/ n = 3 \/ n = 4 \/ n = 5 \/ n = 6 \/ n = 7) by lia.
    intros i Hi8. assert (D : i = 0 \/ i = 1 \/ i = 2 \/ i = 3 \/ i = 4 \/ i = 5 \/ i = 6 \/ i = 7) by lia.
    repeat (destruct C as [->|C]; [repeat (destruct D as [->|D]; [reflexivity|]); subst; reflexivity|]).
    subst n. repeat (destruct D as [->|D]; [reflexivity|]); subst; reflexivity. }
  destruct Hm as [m [-> Hm]].
  assert (A : N.land x m = N.land y m <-> forall i, 8 - n <= i -> i < 8 -> N.testbit x i = N.testbit y i).
  { split.
    - intros H i H1 H2. assert (T : N.testbit (N.land x m) i = N.testbit (N.land y m) i) by now rewrite H.
      rewrite !N.land_spec, (Hm i H2) in T. assert (8 - n <=? i = true) as L by now apply N.leb_le. rewrite L, !andb_true_r in T. exact T.
    - intros H. apply N.bits_inj. intros i. rewrite !N.land_spec. destruct (N.lt_ge_cases i 8) as [L|L].
      + rewrite (Hm i L). destruct (8 - n <=? i) eqn:B; [|now rewrite !andb_false_r]. apply N.leb_le in B. now rewrite (H i B L).
      + now rewrite (Hi x i Hx L), (Hi y i Hy L). }
  rewrite A. unfold byte_bits.
  assert (C : n = 0 \/ n = 1 \/ n = 2 \/ n = 3 \/ n = 4 \/ n = 5 \/ n = 6 \/ n = 7) by lia.
  repeat (destruct C as [->|C]); [..|subst n]; cbv [map N.to_nat Pos.to_nat Pos.iter_op Nat.add firstn];
    (split; [intros H; repeat (apply f_equal2; [apply H; lia|]); reflexivity
            |intros H i H1 H2; try (injection H; intros);
             assert (D : i = 0 \/ i = 1 \/ i = 2 \/ i = 3 \/ i = 4 \/ i = 5 \/ i = 6 \/ i = 7) by lia;
             repeat (destruct D as [->|D]); [..|subst i]; first [assumption|lia]]).
Qed.

Lemma mask_full x : is_byte x -> N.land x 255 = x.
Proof. intros H. change 255 with (N.ones 8). rewrite N.land_ones. apply N.mod_small. exact H. Qed.
Lemma byte_bits_inj x y : is_byte x -> is_byte y -> byte_bits x = byte_bits y -> x = y.
Proof.
  intros Hx Hy H. apply N.bits_inj. intros i.
  assert (Hi : forall z, is_byte z -> 8 <= i -> N.testbit z i = false).
  { intros z Hz Hi. destruct z as [|p]; [apply N.bits_0|]. apply N.bits_above_log2.
    enough (N.log2 (N.pos p) < 8) by lia. apply N.log2_lt_pow2; [lia|exact Hz]. }
  destruct (N.lt_ge_cases i 8) as [L|L]; [|now rewrite (Hi x Hx L), (Hi y Hy L)].
  unfold byte_bits in H. cbn [map] in H. injection H. intros.
  assert (D : i = 0 \/ i = 1 \/ i = 2 \/ i = 3 \/ i = 4 \/ i = 5 \/ i = 6 \/ i = 7) by lia.
  repeat (destruct D as [->|D]); [..|subst i]; assumption.
Qed.
Lemma byte_bits_length x : List.length (byte_bits x) = 8%nat.
Proof. reflexivity. Qed.
Lemma firstn_bits n x l : (8 <= n)%nat -> firstn n (bits (x :: l)) = byte_bits x ++ firstn (n - 8) (bits l).
Proof.
  intros H. unfold bits. cbn [flat_map]. fold (bits l). rewrite firstn_app, byte_bits_length. f_equal. apply firstn_all2. rewrite byte_bits_length. lia.
Qed.
Lemma firstn_bits_lt n x l : (n < 8)%nat -> firstn n (bits (x :: l)) = firstn n (byte_bits x).
Proof.
  intros H. unfold bits. cbn [flat_map]. fold (bits l). rewrite firstn_app, byte_bits_length. replace (n - 8)%nat with 0%nat by lia. now rewrite firstn_O, app_nil_r.
Qed.
Lemma zero_mask x : forall k, land_bytes x (CIDRMask 0 k) = repeat 0 (Nat.min (List.length x) k).
Proof.
  induction x as [|b x IH]; intros [|k]; try reflexivity. cbn [CIDRMask]. change (8 <=? 0) with false. cbn [land_bytes List.length Nat.min repeat].
  change (255 - N.shiftr 255 0) with 0. rewrite N.land_0_r. f_equal. apply IH.
Qed.

Lemma app_inj {A} (a b c d : list A) : a ++ b = c ++ d -> List.length a = List.length c -> a = c /\ b = d.
Proof.
  revert c. induction a as [|x a IH]; intros [|y c] H L; try discriminate; [auto|]. cbn in H. injection H as -> H.
  destruct (IH c H) as [-> ->]; [now injection L|auto].
Qed.
Lemma masked x : forall y n, List.length x = List.length y -> Forall is_byte x -> Forall is_byte y ->
  land_bytes x (CIDRMask n (List.length x)) = land_bytes y (CIDRMask n (List.length y)) <->
  firstn (N.to_nat n) (bits x) = firstn (N.to_nat n) (bits y).
Proof.
  induction x as [|b x IH]; intros [|c y] n Hl Fx Fy; try discriminate; [now rewrite !firstn_nil|].
  cbn [List.length] in Hl. injection Hl as Hl. inversion Fx; inversion Fy; subst. cbn [List.length CIDRMask].
  destruct (8 <=? n) eqn:B.
  - apply N.leb_le in B. cbn [land_bytes]. rewrite !firstn_bits by lia. rewrite !mask_full by assumption.
    replace (N.to_nat n - 8)%nat with (N.to_nat (n - 8)) by lia.
    split.
    + intros E. injection E as -> E. f_equal. now apply IH.
    + intros E. apply app_inj in E as [E1 E2]; [|reflexivity]. apply byte_bits_inj in E1; [|assumption..]. subst c. f_equal. now apply IH.
  - apply N.leb_gt in B. cbn [land_bytes]. rewrite !firstn_bits_lt by lia. rewrite <- mask_byte by assumption.
    rewrite !zero_mask, Hl. split; [intros E; now injection E|intros ->; reflexivity].
Qed.

Lemma land_idem x : forall m, land_bytes (land_bytes x m) m = land_bytes x m.
Proof. induction x as [|b x IH]; intros [|c m]; try reflexivity. cbn. now rewrite <- N.land_assoc, N.land_diag, IH. Qed.
Lemma mask_length n k : List.length (CIDRMask n k) = k.
Proof. revert n. induction k as [|k IH]; intros n; [reflexivity|]. cbn [CIDRMask]. destruct (8 <=? n); cbn; now rewrite IH. Qed.
Lemma land_length x : forall m, List.length (land_bytes x m) = Nat.min (List.length x) (List.length m).
Proof. induction x as [|b x IH]; intros [|c m]; cbn; [reflexivity..|]. now rewrite IH. Qed.

(** Membership in an IPv4 network. *)
Lemma To4_mapped l4 : List.length l4 = 4%nat -> To4 (v4InV6Prefix ++ l4) = Some l4.
Proof.
  intros H. destruct l4 as [|a [|b [|c [|d [|]]]]]; try discriminate. reflexivity.
Qed.
Lemma To4_4 l : List.length l = 4%nat -> To4 l = Some l.
Proof. intros H. unfold To4. now rewrite H. Qed.
Lemma To4_none l : List.length l = 16%nat -> ~ v4_mapped l -> To4 l = None.
Proof.
  intros Hl H. unfold To4. rewrite Hl. cbn [Nat.eqb andb]. destruct (bytes_eqb (firstn 12 l) v4InV6Prefix) eqn:E; [|reflexivity].
  apply bytes_eqb_eq in E. exfalso. apply H. exists (skipn 12 l). rewrite <- (firstn_skipn 12 l) at 1. now rewrite E.
Qed.
Lemma mapped_dec l : v4_mapped l \/ ~ v4_mapped l.
Proof.
  destruct (bytes_eqb (firstn 12 l) v4InV6Prefix) eqn:E.
  - left. apply bytes_eqb_eq in E. exists (skipn 12 l). rewrite <- (firstn_skipn 12 l) at 1. now rewrite E.
  - right. intros [l4 ->]. change (firstn 12 _) with v4InV6Prefix in E. discriminate E.
Qed.

Lemma contains4 n net a : n <= 32 -> List.length net = 4%nat -> Forall is_byte net -> List.length a = 16%nat -> Forall is_byte a ->
  Contains (MaskIP (v4InV6Prefix ++ net) (CIDRMask n 4), CIDRMask n 4) a = true <->
  exists a4, a = v4InV6Prefix ++ a4 /\ in_network (N.to_nat n) net a4.
Proof.
  intros Hn Ln Fn La Fa.
  assert (E : MaskIP (v4InV6Prefix ++ net) (CIDRMask n 4) = land_bytes net (CIDRMask n 4)).
  { unfold MaskIP. rewrite mask_length. change (firstn 12 (v4InV6Prefix ++ net)) with v4InV6Prefix. change (bytes_eqb v4InV6Prefix v4InV6Prefix) with true.
    cbn [Nat.eqb andb]. change (skipn 12 (v4InV6Prefix ++ net)) with net. now rewrite Ln. }
  rewrite E. unfold Contains. cbn [fst snd]. unfold networkNumberAndMask.
  assert (L4 : List.length (land_bytes net (CIDRMask n 4)) = 4%nat) by (rewrite land_length, mask_length, Ln; reflexivity).
  rewrite (To4_4 _ L4), mask_length, L4. cbn [Nat.eqb]. rewrite land_idem.
  destruct (mapped_dec a) as [[a4 ->]|Na].
  - assert (Ha4 : List.length a4 = 4%nat) by (rewrite app_length in La; cbn in La; lia). fold v4InV6Prefix in *.
    rewrite (To4_mapped a4 Ha4), Ha4, L4. cbn [Nat.eqb andb]. rewrite bytes_eqb_eq.
    assert (F4 : Forall is_byte a4) by (apply Forall_app in Fa; tauto).
    pose proof (masked a4 net n ltac:(congruence) F4 Fn) as M. rewrite Ha4, Ln in M. split.
    + intros H. exists a4. split; [reflexivity|]. unfold in_network. apply M. now symmetry.
    + intros [a4' [Ea H]]. apply app_inv_head in Ea as <-. symmetry. now apply M.
  - rewrite (To4_none a La Na), La, L4. cbn. split; [discriminate|]. intros [a4 [-> _]]. exfalso. apply Na. exists a4. reflexivity.
Qed.

Lemma mask_split k j : forall n, 8 * N.of_nat k <= n -> CIDRMask n (k + j) = repeat 255 k ++ CIDRMask (n - 8 * N.of_nat k) j.
Proof.
  induction k as [|k IH]; intros n H; [cbn [Nat.add repeat app]; f_equal; lia|]. cbn [Nat.add CIDRMask repeat app].
  assert (8 <=? n = true) as -> by (apply N.leb_le; lia). f_equal. rewrite IH by lia. do 2 f_equal. lia.
Qed.
Lemma land_app a m : forall b m', List.length a = List.length m -> land_bytes (a ++ b) (m ++ m') = land_bytes a m ++ land_bytes b m'.
Proof. revert m. induction a as [|x a IH]; intros [|y m] b m' H; try discriminate; [reflexivity|]. cbn. f_equal. apply IH. now injection H. Qed.
Lemma land_ones a : Forall is_byte a -> land_bytes a (repeat 255 (List.length a)) = a.
Proof. induction 1 as [|x a Hx _ IH]; [reflexivity|]. cbn [List.length repeat land_bytes]. now rewrite mask_full, IH. Qed.
Lemma land_255 x y : is_byte y -> N.land x y = 255 -> y = 255.
Proof.
  intros Hy H. apply byte_bits_inj; [exact Hy|reflexivity|].
  assert (T : forall i, N.testbit 255 i = true -> N.testbit y i = true).
  { intros i Hi. rewrite <- H, N.land_spec in Hi. now apply andb_prop in Hi. }
  unfold byte_bits. cbn [map]. rewrite !T by reflexivity. reflexivity.
Qed.
Lemma mask_bytes n k : Forall is_byte (CIDRMask n k).
Proof.
  revert n. induction k as [|k IH]; intros n; [constructor|]. cbn [CIDRMask]. destruct (8 <=? n); constructor; auto; unfold is_byte; lia.
Qed.
Lemma mask_low n : n < 8 -> 255 - N.shiftr 255 n <> 255.
Proof.
  intros H. assert (C : n = 0 \/ n = 1 \/ n = 2 \/ n = 3 \/ n = 4 \/ n = 5 \/ n = 6 \/ n = 7) by lia.
  repeat (destruct C as [->|C]); [..|subst n]; discriminate.
Qed.
Lemma mask_nth : forall i k n, (i < k)%nat -> nth i (CIDRMask n k) 0 = 255 -> 8 * N.of_nat (S i) <= n.
Proof.
  induction i as [|i IH]; intros [|k] n Hi H; try lia; cbn [CIDRMask] in H; destruct (8 <=? n) eqn:B; cbn [nth] in H.
  - apply N.leb_le in B. lia.
  - apply N.leb_gt in B. exfalso. eapply mask_low; eauto.
  - apply IH in H; [|lia]. apply N.leb_le in B. lia.
  - apply IH in H; [|lia]. lia.
Qed.
Lemma nth_land x : forall m i, (i < List.length x)%nat -> (i < List.length m)%nat -> nth i (land_bytes x m) 0 = N.land (nth i x 0) (nth i m 0).
Proof. induction x as [|b x IH]; intros [|c m] [|i] H1 H2; cbn in *; try lia. apply IH; lia. Qed.

Lemma contains6 n b a : n <= 128 -> address16 b -> address16 a ->
  Contains (MaskIP b (CIDRMask n 16), CIDRMask n 16) a = true <-> in_network (N.to_nat n) b a /\ (v4_mapped a -> 96 <= n).
Proof.
  intros Hn [Lb Fb] [La Fa]. set (m := CIDRMask n 16).
  assert (Lm : List.length m = 16%nat) by apply mask_length.
  assert (E : MaskIP b m = land_bytes b m) by (unfold MaskIP; rewrite Lm; cbn [Nat.eqb andb]; now rewrite Lb).
  rewrite E. set (mb := land_bytes b m). assert (Lmb : List.length mb = 16%nat) by (unfold mb; rewrite land_length, Lb, Lm; reflexivity).
  assert (M : in_network (N.to_nat n) b a <-> land_bytes a m = mb).
  { pose proof (masked a b n ltac:(congruence) Fa Fb) as M. rewrite La, Lb in M. unfold in_network. rewrite <- M. reflexivity. }
  unfold Contains. cbn [fst snd]. unfold networkNumberAndMask. rewrite Lm. cbn [Nat.eqb].
  destruct (mapped_dec mb) as [[x4 Emb]|Nmb].
  - assert (Lx4 : List.length x4 = 4%nat) by (apply (f_equal (@List.length N)) in Emb; rewrite Lmb in Emb; cbn in Emb; lia).
    assert (H96 : 96 <= n).
    { change 96 with (8 * N.of_nat 12). apply (mask_nth 11 16 n); [lia|]. fold m. apply land_255 with (x := nth 11 b 0).
      - assert (F : Forall is_byte m) by apply mask_bytes. rewrite Forall_forall in F. apply F, nth_In. lia.
      - rewrite <- nth_land by lia. fold mb. rewrite Emb. reflexivity. }
    rewrite Emb. fold v4InV6Prefix. rewrite (To4_mapped x4 Lx4), Lx4. cbn [Nat.eqb].
    assert (Em : m = repeat 255 12 ++ CIDRMask (n - 96) 4) by (unfold m; change 16%nat with (12 + 4)%nat; rewrite (mask_split 12 4 n) by (cbn; lia); reflexivity).
    destruct (mapped_dec a) as [[a4 Ea]|Na].
    + subst a. fold v4InV6Prefix in *. assert (La4 : List.length a4 = 4%nat) by (cbn in La; lia). rewrite (To4_mapped a4 La4), La4, Lx4. cbn [Nat.eqb andb].
      rewrite bytes_eqb_eq. assert (Es : skipn 12 m = CIDRMask (n - 96) 4) by (rewrite Em; reflexivity). rewrite Es.
      assert (Ex : land_bytes x4 (CIDRMask (n - 96) 4) = x4).
      { assert (I2 : land_bytes mb m = mb) by apply land_idem. rewrite Emb in I2. fold v4InV6Prefix in I2. rewrite Em, land_app in I2 by reflexivity.
        apply app_inj in I2; [tauto|reflexivity]. }
      rewrite Ex, M, Emb. fold v4InV6Prefix. rewrite Em, land_app by reflexivity.
      change (land_bytes v4InV6Prefix (repeat 255 12)) with v4InV6Prefix. split.
      * intros ->. rewrite Ex || idtac. split; [now f_equal|auto].
      * intros [H _]. apply app_inv_head in H. now symmetry.
    + rewrite (To4_none a La Na), La, Lx4. cbn. split; [discriminate|]. intros [H _]. apply M in H. exfalso. apply Na. rewrite Emb in H.
      rewrite Em in H. rewrite <- (firstn_skipn 12 a) in H. rewrite land_app in H by (rewrite firstn_length, La; reflexivity).
      apply app_inj in H; [|rewrite land_length, firstn_length, La; reflexivity]. destruct H as [H _].
      replace (repeat 255 12) with (repeat 255 (List.length (firstn 12 a))) in H by (rewrite firstn_length, La; reflexivity).
      rewrite land_ones in H by (rewrite <- (firstn_skipn 12 a) in Fa; apply Forall_app in Fa; tauto).
      exists (skipn 12 a). rewrite <- (firstn_skipn 12 a) at 1. now rewrite H.
  - rewrite (To4_none mb Lmb Nmb), Lmb. cbn [Nat.eqb]. rewrite Lmb. cbn [Nat.eqb].
    assert (I2 : land_bytes mb m = mb) by apply land_idem. rewrite I2.
    destruct (mapped_dec a) as [Ya|Na].
    + pose proof Ya as [a4 Ea]. assert (La4 : List.length a4 = 4%nat) by (rewrite Ea in La; cbn in La; lia).
      assert (To4 a = Some a4) as -> by (rewrite Ea; fold v4InV6Prefix; now apply To4_mapped).
      rewrite La4, Lmb. cbn. split; [discriminate|]. intros [H H96]. specialize (H96 Ya). exfalso. apply Nmb. apply M in H. rewrite <- H, Ea.
      assert (Em : m = repeat 255 12 ++ CIDRMask (n - 96) 4) by (unfold m; change 16%nat with (12 + 4)%nat; rewrite (mask_split 12 4 n) by (cbn; lia); reflexivity).
      fold v4InV6Prefix. rewrite Em, land_app by reflexivity. eexists. reflexivity.
    + rewrite (To4_none a La Na), La, Lmb. cbn [Nat.eqb andb]. rewrite bytes_eqb_eq, M. split; [intros H; split; [now symmetry|contradiction]|intros [H _]; now symmetry].
Qed.
