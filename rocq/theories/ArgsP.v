(** Lemmas about the arguments of a matcher definition. *)
From Verif Require Import GoBase GoBaseP DefsM DefsP MatcherDefM MatcherDefSpec MatcherDefP AppSpec ArgsSpec.

(** ** Finding arguments, for any heads without word breaks *)
Lemma only_all f s : only f s <-> all_chars f s = true.
Proof. induction s as [|c s IH]; cbn; [easy|]. rewrite andb_true_iff, IH. tauto. Qed.

Section Find.
  Variable heads : list ascii.
  Hypothesis Hheads : forall h, In h heads -> is_ident h = true.
  Definition found (s : string) : list string := find_args (String.length s) heads ["_"%char] s.

  Lemma found_fuel : forall fuel s, String.length s <= fuel -> find_args fuel heads ["_"%char] s = found s.
  Proof.
    unfold found.
    assert (G : forall n f g s, String.length s <= n -> String.length s <= f -> String.length s <= g ->
      find_args f heads ["_"%char] s = find_args g heads ["_"%char] s).
    { induction n as [|n IH]; intros f g s Hn Hf Hg.
      - destruct s; [|cbn in Hn; lia]. destruct f, g; reflexivity.
      - destruct s as [|c s]; [destruct f, g; reflexivity|]. cbn [String.length] in *.
        destruct f as [|f]; [lia|]. destruct g as [|g]; [lia|]. cbn [find_args].
        destruct (match_arg _ _ (String c s)) as [[[k id] rest]|] eqn:E.
        + apply match_arg_shorter in E. cbn [String.length] in E. f_equal. apply IH; lia.
        + apply IH; lia. }
    intros fuel s H. apply (G (String.length s)); lia.
  Qed.

  Lemma found_clean pre : ends_clean pre -> forall b, found (pre ++ b) = found pre ++ found b.
  Proof.
    assert (G : forall n pre, String.length pre <= n -> ends_clean pre -> forall b, found (pre ++ b) = found pre ++ found b).
    { clear pre. induction n as [|n IH]; intros pre Hn Hc b.
      - destruct pre; [|cbn in Hn; lia]. reflexivity.
      - destruct pre as [|c pre]; [reflexivity|].
        destruct Hc as [Hc|[a [z [Hc [Hz Hdot]]]]]; [discriminate|].
        pose proof (match_boundary heads ["_"%char] a z b Hz) as M. rewrite <- Hc in M.
        assert (Hs : existsb (Ascii.eqb z) ["_"%char] = false).
        { cbn. destruct (Ascii.eqb_spec z "_"); [subst; discriminate|reflexivity]. }
        assert (Hh : existsb (Ascii.eqb z) heads = false).
        { destruct (existsb (Ascii.eqb z) heads) eqn:Ex; [|reflexivity]. apply existsb_exists in Ex as [d [Hd Hx]].
          apply Ascii.eqb_eq in Hx. subst d. rewrite Hheads in Hz by exact Hd. discriminate. }
        specialize (M Hs Hh).
        unfold found at 1 2. cbn [String.append String.length find_args]. cbn [String.append] in M.
        destruct (match_arg heads ["_"%char] (String c pre)) as [[[k id] rest]|] eqn:E.
        + destruct M as [M [a' Ha']]. rewrite M. pose proof (match_arg_shorter _ _ _ _ _ _ E) as L.
          cbn [String.length] in *. rewrite !found_fuel; [|rewrite ?str_length_app; lia..].
          rewrite IH; [reflexivity|lia|]. right. exists a', z. auto.
        + rewrite M. cbn [String.length] in *. rewrite !found_fuel; [|lia..]. apply IH; [lia|].
          destruct a as [|c' a]; cbn in Hc; [left; now injection Hc as _ ->|].
          right. exists a, z. injection Hc as _ ->. auto. }
    intros Hc b. now apply (G (String.length pre)).
  Qed.

  Lemma found_arg h ds id post :
    In h heads -> all_chars is_digit ds = true -> id <> ""%string -> all_chars is_ident id = true ->
    starts_clean is_ident post ->
    found (String h (ds ++ String "_" (id ++ post))) = String h (ds ++ String "_" id) :: found post.
  Proof.
    intros Hh Hd Hid Hi Hp. unfold found at 1. cbn [String.length find_args].
    assert (M : match_arg heads ["_"%char] (String h (ds ++ String "_" (id ++ post))) = Some (String h ds, id, post)).
    { cbn [match_arg].
      assert (Hx : existsb (Ascii.eqb h) heads = true) by (apply existsb_exists; exists h; split; [exact Hh|apply Ascii.eqb_refl]).
      rewrite Hx. rewrite span_all; [|exact Hd|reflexivity]. change (existsb (Ascii.eqb "_") ["_"%char]) with true. cbv iota.
      rewrite span_all by assumption. now destruct (String.eqb_spec id ""). }
    rewrite M. rewrite found_fuel by (rewrite !str_length_app; cbn [String.length]; rewrite str_length_app; lia). reflexivity.
  Qed.

  Lemma span_spec f s : forall a b, span f s = (a, b) -> s = (a ++ b)%string /\ all_chars f a = true /\ starts_clean f b.
  Proof.
    induction s as [|c s IH]; cbn; intros a b E.
    - injection E as <- <-. cbn. auto.
    - destruct (f c) eqn:Ef.
      + destruct (span f s) as [a' b']. injection E as <- <-. destruct (IH _ _ eq_refl) as [-> [H1 H2]]. cbn. rewrite Ef. auto.
      + injection E as <- <-. cbn. auto.
  Qed.
  Lemma match_arg_is s k id rest : match_arg heads ["_"%char] s = Some (k, id, rest) ->
    argument heads k (k ++ "_" ++ id) /\ s = ((k ++ "_" ++ id) ++ rest)%string /\ starts_clean is_ident rest.
  Proof.
    unfold match_arg. destruct s as [|c s]; [discriminate|].
    destruct (existsb (Ascii.eqb c) heads) eqn:Eh; [|discriminate].
    destruct (span is_digit s) as [ds s2] eqn:E1. destruct s2 as [|sep s3]; [discriminate|].
    destruct (existsb (Ascii.eqb sep) ["_"%char]) eqn:Es; [|discriminate].
    destruct (span is_ident s3) as [i s4] eqn:E2. destruct (String.eqb_spec i ""); [discriminate|]. intros H. injection H as <- <- <-.
    apply span_spec in E1 as [-> [D1 _]]. apply span_spec in E2 as [-> [D2 D3]].
    apply existsb_exists in Eh as [h [Hh Hx]]. apply Ascii.eqb_eq in Hx. subst h.
    cbn in Es. rewrite orb_false_r in Es. apply Ascii.eqb_eq in Es. subst sep.
    split; [|split; [|exact D3]].
    - exists c, ds, i. rewrite !only_all. auto 10.
    - cbn [String.append]. now rewrite str_app_assoc.
  Qed.

  Lemma found_sound s : forall x, In x (found s) -> exists k, argument heads k x /\ part_of x s.
  Proof.
    assert (G : forall n s x, String.length s <= n -> In x (found s) -> exists k, argument heads k x /\ part_of x s).
    { clear s. induction n as [|n IH]; intros s x Hn Hx.
      - destruct s; [destruct Hx|cbn in Hn; lia].
      - destruct s as [|c s]; [destruct Hx|]. unfold found in Hx. cbn [String.length find_args] in Hx.
        destruct (match_arg heads ["_"%char] (String c s)) as [[[k id] rest]|] eqn:E.
        + pose proof (match_arg_shorter _ _ _ _ _ _ E) as L. cbn [String.length] in *. apply match_arg_is in E as [A [B C]].
          destruct Hx as [<-|Hx].
          * exists k. split; [exact A|]. exists ""%string, rest. split; [exact B|exact C].
          * rewrite found_fuel in Hx by lia. destruct (IH rest x ltac:(lia) Hx) as [k' [A' [pre [post [P Q]]]]].
            exists k'. split; [exact A'|]. exists ((k ++ "_" ++ id) ++ pre)%string, post. split; [|exact Q].
            rewrite B, P. now rewrite !str_app_assoc.
        + rewrite found_fuel in Hx by (cbn in Hn; lia). destruct (IH s x ltac:(cbn in Hn; lia) Hx) as [k' [A' [pre [post [P Q]]]]].
          exists k'. split; [exact A'|]. exists (String c pre), post. split; [|exact Q]. now rewrite P. }
    intros x. now apply (G (String.length s)).
  Qed.

  Lemma found_complete s k x : argument heads k x -> word_of x s -> In x (found s).
  Proof.
    intros [h [ds [id [Hh [Hd [Hi [Hid [-> ->]]]]]]]] [pre [post [-> [Hp Hc]]]].
    rewrite only_all in Hd, Hid.
    assert (Hpre : ends_clean pre) by exact Hc. rewrite found_clean by exact Hpre. apply in_or_app. right.
    cbn [String.append]. rewrite str_app_assoc. cbn [String.append].
    rewrite found_arg; [now left|assumption..].
  Qed.
End Find.

Lemma policy_heads_ident h : In h policy_heads -> is_ident h = true.
Proof. intros [<-|[<-|[]]]; reflexivity. Qed.
Lemma request_heads_ident h : In h request_heads -> is_ident h = true.
Proof. intros [<-|[]]; reflexivity. Qed.

(** ** The stages of any compiled formula carry its conditions, and no others *)
Fixpoint carries (s : stage) : list string :=
  match s with Stage e cs => e :: flat_map carries cs end.

Definition hinv (C : list string) (h : arrays) : Prop :=
  forall a i, nth i (nth a h []) [] = [] \/ exists g, good g /\ nth i (nth a h []) [] = written g /\ incl (conds g) C.
Record ext (h h' : arrays) : Prop := {
  ex_len : List.length h <= List.length h';
  ex_live : forall a i, a < List.length h -> nth i (nth a h []) [] <> [] -> nth i (nth a h' []) [] <> []
}.
Definition live (h : arrays) (s : slice) : Prop := slot_ok h s /\ forall i, i < s_len s -> nth i (cells h s) [] <> [].

Lemma ext_refl h : ext h h.
Proof. constructor; auto. Qed.
Lemma ext_trans h1 h2 h3 : ext h1 h2 -> ext h2 h3 -> ext h1 h3.
Proof. intros [A B] [C D]. constructor; [lia|]. intros a i Ha Hi. apply D; [lia|]. now apply B. Qed.
Lemma live_ext h h' s : ext h h' -> live h s -> live h' s.
Proof.
  intros [A B] [C D]. unfold live, slot_ok, cells in *. destruct (s_arr s) as [a|]; [|split; [exact C|]; intros i Hi; lia].
  split; [lia|]. intros i Hi. apply B; [exact C|]. now apply D.
Qed.
Lemma written_nonempty g : good g -> written g <> [].
Proof. intros [A _]. now destruct (written_ok g A). Qed.

Lemma append_any grow C h s g h' s' :
  good g -> incl (conds g) C -> hinv C h -> live h s -> append1 grow h s (written g) = (h', s') ->
  hinv C h' /\ ext h h' /\ live h' s' /\ s_len s' = S (s_len s) /\
  nth (s_len s) (cells h' s') [] = written g /\ (forall i, i < s_len s -> nth i (cells h' s') [] = nth i (cells h s) []).
Proof.
  intros Hg Hi Hh [Hs Hl] E. unfold append1 in E. pose proof (written_nonempty g Hg) as Wg.
  assert (Hlen : s_len s <= List.length (cells h s)).
  { destruct (s_len s) as [|n] eqn:En; [lia|]. specialize (Hl n ltac:(lia)).
    destruct (Nat.lt_ge_cases n (List.length (cells h s))); [lia|]. now rewrite nth_overflow in Hl by lia. }
  destruct (s_arr s) as [a|] eqn:Es.
  - assert (Ha : a < List.length h) by (unfold slot_ok in Hs; now rewrite Es in Hs).
    assert (Ca : cells h s = nth a h []) by (unfold cells; now rewrite Es).
    destruct (Nat.ltb_spec (s_len s) (List.length (cells h s))) as [Hlt|Hge]; injection E as <- <-.
    + assert (Hc : cells (set_nth h a (set_nth (cells h s) (s_len s) (written g))) (mkSlice (Some a) (S (s_len s))) = set_nth (cells h s) (s_len s) (written g)).
      { unfold cells at 1. cbn. now apply nth_set_nth_eq. }
      assert (Hn : nth (s_len s) (set_nth (cells h s) (s_len s) (written g)) [] = written g) by now apply nth_set_nth_eq.
      assert (Ho : forall i, i <> s_len s -> nth i (set_nth (cells h s) (s_len s) (written g)) [] = nth i (cells h s) [])
        by (intros i Hne; apply nth_set_nth_neq; congruence).
      split; [|split; [|split; [|split; [reflexivity|split]]]].
      * intros b i. destruct (Nat.eq_dec a b) as [<-|Hne]; [|rewrite nth_set_nth_neq by exact Hne; apply Hh].
        rewrite nth_set_nth_eq by exact Ha. destruct (Nat.eq_dec i (s_len s)) as [->|Hni].
        -- right. exists g. auto.
        -- rewrite Ho by exact Hni. rewrite Ca. apply Hh.
      * constructor; [now rewrite set_nth_length|]. intros b i Hb Hx.
        destruct (Nat.eq_dec a b) as [<-|Hne]; [|now rewrite nth_set_nth_neq by exact Hne].
        rewrite nth_set_nth_eq by exact Ha. destruct (Nat.eq_dec i (s_len s)) as [->|Hni]; [now rewrite Hn|].
        rewrite Ho by exact Hni. now rewrite Ca.
      * split; [unfold slot_ok; cbn; now rewrite set_nth_length|]. cbn [s_len]. intros i Hx. rewrite Hc.
        destruct (Nat.eq_dec i (s_len s)) as [->|Hni]; [now rewrite Hn|]. rewrite Ho by exact Hni. apply Hl. lia.
      * now rewrite Hc.
      * intros i Hx. rewrite Hc. apply Ho. lia.
    + set (na := firstn (s_len s) (cells h s) ++ written g :: repeat [] (grow (List.length (cells h s)))).
      assert (Hc : cells (h ++ [na]) (mkSlice (Some (List.length h)) (S (s_len s))) = na).
      { unfold cells. cbn. rewrite app_nth2, Nat.sub_diag by lia. reflexivity. }
      assert (Lf : List.length (firstn (s_len s) (cells h s)) = s_len s) by (rewrite firstn_length; lia).
      assert (Lo : forall i, i < s_len s -> nth i na [] = nth i (cells h s) []).
      { intros i Hx. unfold na. rewrite app_nth1 by lia. rewrite <- (firstn_skipn (s_len s) (cells h s)) at 2.
        now rewrite app_nth1 by lia. }
      assert (Ln : nth (s_len s) na [] = written g) by (unfold na; rewrite app_nth2, Lf, Nat.sub_diag by lia; reflexivity).
      assert (Lr : forall i, s_len s < i -> nth i na [] = []).
      { intros i Hx. unfold na. rewrite app_nth2 by lia. rewrite Lf. destruct (i - s_len s) as [|d] eqn:Ed; [lia|]. cbn.
        generalize (grow (List.length (cells h s))) as k. clear. intros k. revert d. induction k as [|k IH]; intros [|d]; cbn; auto. }
      split; [|split; [|split; [|split; [reflexivity|split]]]].
      * intros b i. destruct (Nat.lt_ge_cases b (List.length h)) as [Hb|Hb]; [rewrite app_nth1 by exact Hb; apply Hh|].
        destruct (Nat.eq_dec b (List.length h)) as [->|Hne].
        -- rewrite app_nth2, Nat.sub_diag by lia. cbn [nth]. destruct (Nat.lt_trichotomy i (s_len s)) as [Hx|[->|Hx]].
           ++ rewrite Lo by exact Hx. rewrite Ca. apply Hh.
           ++ right. exists g. auto.
           ++ left. now apply Lr.
        -- rewrite (nth_overflow (h ++ [na])) by (rewrite app_length; cbn; lia). left. now destruct i.
      * constructor; [rewrite app_length; lia|]. intros b i Hb Hx. now rewrite app_nth1.
      * split; [unfold slot_ok; cbn; rewrite app_length; cbn; lia|]. cbn [s_len]. intros i Hx. rewrite Hc.
        destruct (Nat.eq_dec i (s_len s)) as [->|Hni]; [now rewrite Ln|]. rewrite Lo by lia. apply Hl. lia.
      * now rewrite Hc.
      * intros i Hx. rewrite Hc. now apply Lo.
  - assert (H0 : s_len s = 0) by (unfold slot_ok in Hs; now rewrite Es in Hs). rewrite H0 in *. injection E as <- <-.
    set (na := written g :: repeat [] (grow 0)).
    assert (Hc : cells (h ++ [na]) (mkSlice (Some (List.length h)) 1) = na).
    { unfold cells. cbn. rewrite app_nth2, Nat.sub_diag by lia. reflexivity. }
    split; [|split; [|split; [|split; [reflexivity|split]]]].
    + intros b i. destruct (Nat.lt_ge_cases b (List.length h)) as [Hb|Hb]; [rewrite app_nth1 by exact Hb; apply Hh|].
      destruct (Nat.eq_dec b (List.length h)) as [->|Hne].
      * rewrite app_nth2, Nat.sub_diag by lia. cbn [nth]. destruct i as [|i]; [right; exists g; auto|]. left. cbn.
        generalize (grow 0) as k. clear. intros k. revert i. induction k as [|k IH]; intros [|d]; cbn; auto.
      * rewrite (nth_overflow (h ++ [na])) by (rewrite app_length; cbn; lia). left. now destruct i.
    + constructor; [rewrite app_length; lia|]. intros b i Hb Hx. now rewrite app_nth1.
    + split; [unfold slot_ok; cbn; rewrite app_length; cbn; lia|]. cbn [s_len]. intros i Hx. rewrite Hc.
      destruct i; [exact Wg|lia].
    + now rewrite Hc.
    + intros i Hx. lia.
Qed.

Lemma build_any grow C : forall fuel f h s,
  good f -> incl (conds f) C -> hinv C h -> live h s ->
  List.length (written f) + psum (cells h s) (s_len s) < fuel ->
  exists h' cs, buildExprTree grow fuel h (written f) s = BOk h' cs /\
    hinv C h' /\ ext h h' /\ incl (flat_map carries cs) C /\ incl (conds f) (flat_map carries cs) /\
    (forall i g, i < s_len s -> good g -> nth i (cells h s) [] = written g -> incl (conds g) (flat_map carries cs)).
Proof.
  induction fuel as [|fuel IH]; intros f h s [Ha Hp] Hi Hh Hs Hf; [lia|].
  destruct f as [ts|f g|f g|f].
  - cbn [atoms_ok written conds] in *. rewrite build_step_atom by assumption.
    assert (Ht : 0 < List.length ts) by (destruct ts; [exfalso; now apply (atom_nonempty _ Ha)|cbn; lia]).
    destruct (Nat.ltb_spec 0 (s_len s)) as [Hn|Hn].
    + destruct Hs as [S1 S2].
      assert (Hlast : last1 h s <> []) by (apply S2; lia).
      assert (Hg : exists g, good g /\ last1 h s = written g /\ incl (conds g) C).
      { unfold last1, cells in *. destruct (s_arr s) as [a|]; [|exfalso; apply Hlast; now destruct (s_len s - 1)].
        destruct (Hh a (s_len s - 1)) as [X|X]; [congruence|exact X]. }
      destruct Hg as [g [G1 [G2 G3]]].
      assert (HS : psum (cells h s) (s_len s) = psum (cells h s) (s_len s - 1) + List.length (last1 h s)).
      { replace (s_len s) with (S (s_len s - 1)) at 1 by lia. rewrite psum_S. reflexivity. }
      assert (Hb : live h (butlast s)).
      { split; [unfold slot_ok in *; cbn; destruct (s_arr s); [exact S1|lia]|]. cbn [butlast s_len].
        intros i Hx. apply (S2 i). lia. }
      destruct (IH g h (butlast s) G1 G3 Hh Hb) as [h' [cs [E [A1 [A2 [A3 [A4 A5]]]]]]].
      { change (cells h (butlast s)) with (cells h s). cbn [butlast s_len]. rewrite <- G2. lia. }
      rewrite G2, E. exists h', [Stage (tokensToExpr ts) cs]. cbn [flat_map carries]. rewrite app_nil_r.
      split; [reflexivity|]. split; [exact A1|]. split; [exact A2|]. split; [|split].
      * intros x [<-|Hx]; [apply Hi; now left|now apply A3].
      * intros x [<-|[]]. now left.
      * intros i g' Hx Hg' Hw x Hxx. right. destruct (Nat.eq_dec i (s_len s - 1)) as [->|Hne].
        -- assert (g' = g) as ->.
           { apply unique_reading; [exact Hg'|exact G1|]. rewrite <- G2, <- Hw. reflexivity. }
           now apply A4.
        -- apply (A5 i g'); [cbn; lia|exact Hg'|exact Hw|exact Hxx].
    + exists h, [Stage (tokensToExpr ts) []]. cbn. split; [reflexivity|]. split; [exact Hh|]. split; [apply ext_refl|]. split; [exact Hi|].
      split; [apply incl_refl|]. intros. lia.
  - destruct Ha as [Hfa Hga]. pose proof Hp as [Pf [Pg [Of [Og Ag]]]]. cbn [conds] in *.
    rewrite build_step_and by assumption. destruct (append1 grow h s (written g)) as [h1 s1] eqn:Ea.
    destruct (append_any grow C h s g h1 s1) as [B1 [B2 [B3 [B4 [B5 B6]]]]]; auto.
    { split; assumption. } { intros x Hx. apply Hi. apply in_or_app. now right. }
    assert (Hps : psum (cells h1 s1) (s_len s1) = psum (cells h s) (s_len s) + List.length (written g)).
    { destruct (append1_ok grow h s (written g) h1 s1) as [_ [X _]]; [apply Hs|exact Ea|exact X]. }
    destruct (IH f h1 s1) as [h' [cs [E [A1 [A2 [A3 [A4 A5]]]]]]]; auto.
    { split; assumption. } { intros x Hx. apply Hi. apply in_or_app. now left. }
    { cbn [written] in Hf. rewrite app_length in Hf. cbn in Hf. lia. }
    exists h', cs. split; [exact E|]. split; [exact A1|]. split; [eapply ext_trans; eassumption|]. split; [exact A3|]. split.
    + intros x Hx. apply in_app_iff in Hx as [Hx|Hx]; [now apply A4|].
      apply (A5 (s_len s) g); [lia|now split|exact B5|exact Hx].
    + intros i g' Hx Hg' Hw. apply (A5 i g'); [lia|exact Hg'|]. now rewrite B6.
  - destruct Ha as [Hfa Hga]. pose proof Hp as [Pf [Pg Of]]. cbn [conds] in *.
    rewrite build_step_or by assumption. cbn [written] in Hf. rewrite app_length in Hf. cbn in Hf.
    destruct (IH f h s) as [h1 [c1 [E1 [A1 [A2 [A3 [A4 A5]]]]]]]; auto.
    { split; assumption. } { intros x Hx. apply Hi. apply in_or_app. now left. } { lia. }
    assert (Hps : psum (cells h1 s) (s_len s) <= psum (cells h s) (s_len s)).
    { pose proof (build_fuel grow fuel h (written f) s (proj1 Hs) ltac:(lia)) as X. rewrite E1 in X. apply (sl_pre _ _ _ _ X). lia. }
    destruct (IH g h1 s) as [h2 [c2 [E2 [B1 [B2 [B3 [B4 B5]]]]]]]; auto.
    { split; assumption. } { intros x Hx. apply Hi. apply in_or_app. now right. } { eapply live_ext; eassumption. } { lia. }
    rewrite E1, E2. exists h2, (c1 ++ c2). rewrite flat_map_app. split; [reflexivity|]. split; [exact B1|].
    split; [eapply ext_trans; eassumption|]. split; [now apply incl_app|]. split.
    + intros x Hx. apply in_app_iff in Hx as [Hx|Hx]; apply in_or_app; [left; now apply A4|right; now apply B4].
    + intros i g' Hx Hg' Hw x Hxx. apply in_or_app. left. now apply (A5 i g').
  - cbn [atoms_ok parsed conds] in *. rewrite build_step_par by assumption.
    cbn [written] in Hf. cbn in Hf. rewrite app_length in Hf. cbn in Hf.
    apply IH; auto; [now split|lia].
Qed.

Lemma compile_any grow f : good f ->
  exists h cs, compile grow (written f) = BOk h cs /\ forall e, In e (flat_map carries cs) <-> In e (conds f).
Proof.
  intros Hg. destruct (build_any grow (conds f) (S (List.length (written f))) f [] nil_slice) as [h [cs [E [_ [_ [A [B _]]]]]]].
  - exact Hg.
  - apply incl_refl.
  - intros a i. left. destruct a, i; reflexivity.
  - split; [reflexivity|]. cbn. lia.
  - change (psum (cells [] nil_slice) (s_len nil_slice)) with 0. lia.
  - exists h, cs. split; [exact E|]. intros e. split; [apply A|apply B].
Qed.

Fixpoint stage_ind' (P : stage -> Prop) (H : forall e cs, Forall P cs -> P (Stage e cs)) (s : stage) : P s :=
  match s with
  | Stage e cs => H e cs ((fix go l : Forall P l := match l with [] => Forall_nil P | x :: l' => Forall_cons x (stage_ind' P H x) (go l') end) cs)
  end.
Lemma recursive_p s : forall x, In x (RecursivePolicyArgs s) <-> exists e, In e (carries s) /\ In x (p_args e).
Proof.
  induction s as [e cs IH] using stage_ind'. intros x. cbn [RecursivePolicyArgs carries]. rewrite in_app_iff, in_flat_map.
  rewrite Forall_forall in IH. split.
  - intros [H|[c [Hc H]]]; [exists e; split; [now left|exact H]|].
    apply IH in H as [e' [H1 H2]]; [|exact Hc]. exists e'. split; [right; apply in_flat_map; eauto|exact H2].
  - intros [e' [[<-|H1] H2]]; [now left|]. apply in_flat_map in H1 as [c [Hc H1]]. right. exists c. split; [exact Hc|].
    apply IH; eauto.
Qed.
Lemma recursive_r s : forall x, In x (RecursiveRequestArgs s) <-> exists e, In e (carries s) /\ In x (r_args e).
Proof.
  induction s as [e cs IH] using stage_ind'. intros x. cbn [RecursiveRequestArgs carries]. rewrite in_app_iff, in_flat_map.
  rewrite Forall_forall in IH. split.
  - intros [H|[c [Hc H]]]; [exists e; split; [now left|exact H]|].
    apply IH in H as [e' [H1 H2]]; [|exact Hc]. exists e'. split; [right; apply in_flat_map; eauto|exact H2].
  - intros [e' [[<-|H1] H2]]; [now left|]. apply in_flat_map in H1 as [c [Hc H1]]. right. exists c. split; [exact Hc|].
    apply IH; eauto.
Qed.

Lemma no_under_digits ds : all_chars is_digit ds = true -> has_char "_" ds = false.
Proof.
  induction ds as [|c ds IH]; cbn [all_chars has_char]; [easy|]. intros H. apply andb_true_iff in H as [H1 H2].
  destruct (Ascii.eqb_spec "_" c); [subst; discriminate|]. now apply IH.
Qed.
Lemma argument_key k x : argument policy_heads k x -> match split_char "_" x with y :: _ => y | [] => ""%string end = k.
Proof.
  intros [h [ds [id [Hh [Hd [_ [_ [-> ->]]]]]]]]. rewrite only_all in Hd.
  cbn [String.append].
  assert (N : has_char "_" (String h ds) = false).
  { cbn [has_char]. destruct (Ascii.eqb_spec "_" h) as [<-|]; [destruct Hh as [?|[?|[]]]; discriminate|]. now apply no_under_digits. }
  change (String h (ds ++ String "_" id)) with (String h ds ++ String "_" id)%string.
  now rewrite split_char_app.
Qed.
