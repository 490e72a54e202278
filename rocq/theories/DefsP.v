(** Lemmas about the definitions model. *)
From Verif Require Import GoBase GoBaseP DefsM.

Lemma key_name_inj (k a b : string) : (k ++ "_" ++ a = k ++ "_" ++ b)%string -> a = b.
Proof. intros H. apply str_app_inv_head in H. cbn in H. now injection H. Qed.

(** The index built for the arguments: last position of a name, none for
    other names. *)
Lemma index_args_other key args : forall i m name,
  (forall a, In a args -> name <> (key ++ "_" ++ a)%string) ->
  mget name (index_args key i args m) = mget name m.
Proof.
  induction args as [|a args IH]; intros i m name H; cbn; [reflexivity|].
  rewrite IH by (intros; apply H; now right).
  apply mget_put_neq. apply H. now left.
Qed.

Lemma index_args_nth key args : forall i m n a,
  NoDup args -> nth_error args n = Some a ->
  mget (key ++ "_" ++ a)%string (index_args key i args m) = Some (i + n).
Proof.
  induction args as [|a0 args IH]; intros i m n a Hnd Hn; [destruct n; discriminate|].
  inversion Hnd as [|? ? Hni Hnd']; subst. destruct n as [|n]; cbn [nth_error index_args] in Hn |- *.
  - injection Hn as ->. rewrite index_args_other.
    + rewrite mget_put_eq. f_equal. lia.
    + intros b Hb Heq. apply key_name_inj in Heq. congruence.
  - rewrite (IH _ _ n) by assumption. f_equal. lia.
Qed.

Lemma GetParameter_nth {A} key arguments (vals : list A) n a :
  let d := NewArgDef key arguments in
  NoDup (ad_args d) -> nth_error (ad_args d) n = Some a ->
  GetParameter d vals (key ++ "_" ++ a) =
  nth_error vals (if Nat.ltb (List.length (ad_args d)) (List.length vals) then S n else n).
Proof.
  intros d Hnd Hn. unfold GetParameter. subst d. cbn [ad_index NewArgDef ad_args] in *.
  rewrite (index_args_nth _ _ _ _ n) by assumption. reflexivity.
Qed.

Lemma GetParameter_unknown {A} key arguments (vals : list A) name :
  let d := NewArgDef key arguments in
  (forall a, In a (ad_args d) -> name <> (key ++ "_" ++ a)%string) ->
  GetParameter d vals name = None.
Proof.
  intros d H. unfold GetParameter. subst d. cbn [ad_index NewArgDef] in *.
  rewrite index_args_other by exact H. reflexivity.
Qed.

Lemma index_args_In key args : forall i m a,
  In a args -> exists n, n < List.length args /\ nth_error args n = Some a /\
    mget (key ++ "_" ++ a)%string (index_args key i args m) = Some (i + n) /\
    (forall n', n < n' -> nth_error args n' <> Some a).
Proof.
  induction args as [|a0 args IH]; intros i m a Hin; [easy|].
  destruct (in_dec string_dec a args) as [Hi|Hi].
  - destruct (IH (S i) (mput (key ++ "_" ++ a0)%string i m) a Hi) as [n [Hl [Hn [Hg Hm]]]].
    exists (S n). cbn [index_args nth_error List.length]. split; [lia|]. split; [exact Hn|]. split.
    + rewrite Hg. f_equal. lia.
    + intros [|n'] Hlt; [lia|]. apply Hm. lia.
  - destruct Hin as [->|Hin]; [|easy]. exists 0. cbn [index_args nth_error List.length]. split; [lia|]. split; [reflexivity|]. split.
    + rewrite index_args_other.
      * rewrite mget_put_eq. f_equal. lia.
      * intros b Hb Heq. apply key_name_inj in Heq. congruence.
    + intros [|n'] Hlt; [lia|]. cbn. intros Hc. apply nth_error_In in Hc. easy.
Qed.

Lemma Has_iff key arguments name :
  let d := NewArgDef key arguments in
  Has d name = true <-> exists a, In a (ad_args d) /\ name = (key ++ "_" ++ a)%string.
Proof.
  intros d. unfold Has. subst d. cbn [ad_index NewArgDef ad_args]. rewrite mhas_true.
  set (args := split_char "," (no_spaces arguments)). split.
  - intros [n Hn].
    destruct (in_dec string_dec name (map (fun a => key ++ "_" ++ a)%string args)) as [Hi|Hi].
    + apply in_map_iff in Hi as [a [Heq Hin]]. exists a. split; [exact Hin|now symmetry].
    + rewrite index_args_other in Hn; [discriminate|]. intros a Ha ->. apply Hi.
      apply in_map_iff. now exists a.
  - intros [a [Hin ->]]. destruct (index_args_In key args 0 [] a Hin) as [n [_ [_ [Hg _]]]]. eauto.
Qed.

(** ** Argument rewriting *)
Lemma span_app f s a b : span f s = (a, b) -> s = (a ++ b)%string.
Proof.
  revert a b. induction s as [|c s IH]; intros a b; cbn.
  - intros H; injection H as <- <-. reflexivity.
  - destruct (f c).
    + destruct (span f s) as [x y]. intros H; injection H as <- <-. cbn. f_equal. now apply IH.
    + intros H; injection H as <- <-. reflexivity.
Qed.

Lemma match_arg_app heads seps s k id rest :
  match_arg heads seps s = Some (k, id, rest) ->
  exists sep, In sep seps /\ s = (k ++ String sep (id ++ rest))%string /\ id <> ""%string.
Proof.
  unfold match_arg. destruct s as [|c s]; [discriminate|].
  destruct (existsb (Ascii.eqb c) heads); [|discriminate].
  destruct (span is_digit s) as [ds s2] eqn:E1. destruct s2 as [|sep s3]; [discriminate|].
  destruct (existsb (Ascii.eqb sep) seps) eqn:Es; [|discriminate].
  destruct (span is_ident s3) as [i s4] eqn:E2.
  destruct (String.eqb_spec i "") as [|Hne]; [discriminate|].
  intros H; injection H as <- <- <-.
  apply existsb_exists in Es as [sep' [Hin Heq]]. apply Ascii.eqb_eq in Heq. subst sep'.
  exists sep. split; [exact Hin|]. split; [|exact Hne].
  apply span_app in E1, E2. rewrite E1, E2. cbn. reflexivity.
Qed.

(** Two texts that differ only where one has "." and the other "_". *)
Inductive dot_to_us : string -> string -> Prop :=
| du_nil : dot_to_us "" ""
| du_same c s t : dot_to_us s t -> dot_to_us (String c s) (String c t)
| du_dot s t : dot_to_us s t -> dot_to_us (String "." s) (String "_" t).

Lemma dot_to_us_app a s t : dot_to_us s t -> dot_to_us (a ++ s) (a ++ t).
Proof. intros H. induction a; cbn; [exact H|now constructor]. Qed.

Lemma replace_args_du fuel : forall s, dot_to_us s (replace_args fuel s).
Proof.
  induction fuel as [|fuel IH]; intros s; cbn.
  - induction s; constructor; assumption.
  - destruct s as [|c s]; [constructor|].
    destruct (match_arg _ _ (String c s)) as [[[k id] rest]|] eqn:E.
    + apply match_arg_app in E as [sep [Hin [Heq _]]]. rewrite Heq.
      apply dot_to_us_app. cbn in Hin. destruct Hin as [<-|[<-|[]]]; cbn.
      * apply du_dot. apply dot_to_us_app. apply IH.
      * apply du_same. apply dot_to_us_app. apply IH.
    + apply du_same. apply IH.
Qed.

Lemma dot_to_us_nodot s t : dot_to_us s t -> has_char "." s = false -> t = s.
Proof.
  induction 1 as [|c s t H IH|s t H IH]; intros Hd; [reflexivity| |].
  - cbn [has_char] in Hd. destruct (Ascii.eqb "." c); [discriminate|]. f_equal. now apply IH.
  - cbn in Hd. discriminate.
Qed.

Lemma dot_to_us_length s t : dot_to_us s t -> String.length t = String.length s.
Proof. induction 1; cbn; congruence. Qed.

(** ** Rewriting one argument *)
Fixpoint all_chars (f : ascii -> bool) (s : string) : bool :=
  match s with EmptyString => true | String c s' => f c && all_chars f s' end.

(** The text ends with a character that cannot be part of an argument. *)
Definition ends_clean (s : string) : Prop :=
  s = ""%string \/ exists a z, s = (a ++ String z "")%string /\ is_ident z = false /\ z <> "."%char.
Definition starts_clean (f : ascii -> bool) (s : string) : Prop :=
  match s with EmptyString => True | String c _ => f c = false end.

Lemma digit_ident c : is_digit c = true -> is_ident c = true.
Proof. intros H. unfold is_ident. rewrite H. now rewrite !orb_true_r. Qed.

Lemma span_all f a b : all_chars f a = true -> starts_clean f b -> span f (a ++ b) = (a, b).
Proof.
  induction a as [|c a IH]; cbn; intros Ha Hb.
  - destruct b as [|c b]; [reflexivity|]. cbn in *. now rewrite Hb.
  - apply andb_true_iff in Ha as [Hc Ha]. rewrite Hc, IH by assumption. reflexivity.
Qed.

Lemma span_boundary f a z b : f z = false ->
  span f ((a ++ String z "") ++ b) = (fst (span f (a ++ String z "")), (snd (span f (a ++ String z "")) ++ b)%string) /\
  exists a', snd (span f (a ++ String z "")) = (a' ++ String z "")%string.
Proof.
  intros Hz. induction a as [|c a IH]; cbn [String.append span].
  - rewrite Hz. cbn. split; [reflexivity|]. now exists ""%string.
  - destruct (f c).
    + destruct IH as [IH1 IH2]. rewrite IH1. destruct (span f (a ++ String z "")) as [x y]. cbn in *. auto.
    + cbn. split; [reflexivity|]. now exists (String c a).
Qed.

Lemma match_boundary heads seps a z b :
  is_ident z = false -> existsb (Ascii.eqb z) seps = false -> existsb (Ascii.eqb z) heads = false ->
  match match_arg heads seps (a ++ String z "") with
  | Some (k, id, rest) => match_arg heads seps ((a ++ String z "") ++ b) = Some (k, id, (rest ++ b)%string) /\
                          exists a', rest = (a' ++ String z "")%string
  | None => match_arg heads seps ((a ++ String z "") ++ b) = None
  end.
Proof.
  intros Hz Hs Hh.
  assert (Hd : is_digit z = false). { destruct (is_digit z) eqn:E; [|reflexivity]. apply digit_ident in E. congruence. }
  destruct a as [|c a]; cbn [String.append match_arg]; [now rewrite Hh|].
  destruct (existsb (Ascii.eqb c) heads); [|reflexivity].
  destruct (span_boundary is_digit a z b Hd) as [S1 [a1 S2]]. rewrite S1.
  destruct (span is_digit (a ++ String z "")) as [ds s2]. cbn [fst snd] in *. subst s2.
  destruct a1 as [|sep a1]; cbn [String.append]; [now rewrite Hs|].
  destruct (existsb (Ascii.eqb sep) seps); [|reflexivity].
  destruct (span_boundary is_ident a1 z b Hz) as [S3 [a2 S4]]. rewrite S3.
  destruct (span is_ident (a1 ++ String z "")) as [id s4]. cbn [fst snd] in *. subst s4.
  destruct (String.eqb id ""); [reflexivity|]. eauto.
Qed.

Lemma replace_fuel : forall fuel s, String.length s <= fuel -> replace_args fuel s = arg_replace s.
Proof.
  unfold arg_replace.
  assert (G : forall n f g s, String.length s <= n -> String.length s <= f -> String.length s <= g -> replace_args f s = replace_args g s).
  { induction n as [|n IH]; intros f g s Hn Hf Hg.
    - destruct s; [|cbn in Hn; lia]. destruct f, g; reflexivity.
    - destruct s as [|c s]; [destruct f, g; reflexivity|]. cbn [String.length] in *.
      destruct f as [|f]; [lia|]. destruct g as [|g]; [lia|]. cbn [replace_args].
      destruct (match_arg _ _ (String c s)) as [[[k id] rest]|] eqn:E.
      + pose proof (match_arg_app _ _ _ _ _ _ E) as X.
        assert (L : String.length rest <= String.length s).
        { destruct X as [sep [_ [X _]]].
          assert (K : 1 <= String.length k).
          { destruct k; [|cbn; lia]. exfalso. clear - E. cbn [match_arg] in E.
            destruct (existsb (Ascii.eqb c) _); [|discriminate].
            destruct (span is_digit s) as [ds [|sp s3]]; [discriminate|]. destruct (existsb _ _); [|discriminate].
            destruct (span is_ident s3) as [i r]. destruct (String.eqb i ""); discriminate. }
          apply (f_equal String.length) in X. rewrite str_length_app in X. cbn [String.length] in X.
          rewrite str_length_app in X. lia. }
        do 3 f_equal. apply IH; lia.
      + f_equal. apply IH; lia. }
  intros fuel s H. apply (G (String.length s)); lia.
Qed.

Definition arg_heads : list ascii := ["p"%char; "r"%char; "g"%char].

Lemma replace_clean pre : ends_clean pre -> forall b, arg_replace (pre ++ b) = (arg_replace pre ++ arg_replace b)%string.
Proof.
  assert (G : forall n pre, String.length pre <= n -> ends_clean pre -> forall b,
             arg_replace (pre ++ b) = (arg_replace pre ++ arg_replace b)%string).
  { clear pre. induction n as [|n IH]; intros pre Hn Hc b.
    - destruct pre; [|cbn in Hn; lia]. reflexivity.
    - destruct pre as [|c pre]; [reflexivity|].
      destruct Hc as [Hc|[a [z [Hc [Hz Hdot]]]]]; [discriminate|].
      pose proof (match_boundary arg_heads ["."%char; "_"%char] a z b Hz) as M. rewrite <- Hc in M.
      assert (Hs : existsb (Ascii.eqb z) ["."%char; "_"%char] = false).
      { cbn. destruct (Ascii.eqb_spec z "."); [congruence|]. destruct (Ascii.eqb_spec z "_"); [subst; discriminate|reflexivity]. }
      assert (Hh : existsb (Ascii.eqb z) arg_heads = false).
      { cbn. destruct (Ascii.eqb_spec z "p"); [subst; discriminate|]. destruct (Ascii.eqb_spec z "r"); [subst; discriminate|].
        destruct (Ascii.eqb_spec z "g"); [subst; discriminate|reflexivity]. }
      specialize (M Hs Hh).
      unfold arg_replace at 1 2. cbn [String.append String.length replace_args]. cbn [String.append] in M.
      fold arg_heads.
      destruct (match_arg arg_heads ["."%char; "_"%char] (String c pre)) as [[[k id] rest]|] eqn:E.
      + destruct M as [M [a' Ha']]. rewrite M.
        assert (L : String.length rest < String.length (String c pre)).
        { destruct (match_arg_app _ _ _ _ _ _ E) as [sep [_ [X _]]]. rewrite X, str_length_app. cbn [String.length]. rewrite str_length_app. lia. }
        cbn [String.length] in *.
        rewrite !replace_fuel; [|rewrite ?str_length_app; lia..].
        rewrite IH; [|lia|]. { rewrite !str_app_assoc. cbn [String.append]. rewrite !str_app_assoc. reflexivity. }
        right. exists a', z. auto.
      + rewrite M. cbn [String.append String.length] in *. f_equal.
        rewrite !replace_fuel; [|lia..]. apply IH; [lia|].
        destruct a as [|c' a]; cbn in Hc; [left; now injection Hc as _ ->|].
        right. exists a, z. injection Hc as _ ->. auto. }
  intros Hc b. now apply (G (String.length pre)).
Qed.

Lemma replace_arg h ds id post :
  In h arg_heads -> all_chars is_digit ds = true -> id <> ""%string -> all_chars is_ident id = true ->
  starts_clean is_ident post ->
  arg_replace (String h (ds ++ String "." (id ++ post))) = (String h (ds ++ String "_" (id ++ arg_replace post)))%string.
Proof.
  intros Hh Hd Hid Hi Hp. unfold arg_replace at 1. cbn [String.length replace_args]. fold arg_heads.
  assert (M : match_arg arg_heads ["."%char; "_"%char] (String h (ds ++ String "." (id ++ post))) = Some (String h ds, id, post)).
  { cbn [match_arg].
    assert (Hx : existsb (Ascii.eqb h) arg_heads = true) by (apply existsb_exists; exists h; split; [exact Hh|apply Ascii.eqb_refl]).
    rewrite Hx. rewrite span_all; [|exact Hd|reflexivity]. change (existsb (Ascii.eqb ".") ["."%char; "_"%char]) with true. cbv iota.
    rewrite span_all by assumption. now destruct (String.eqb_spec id ""). }
  rewrite M. rewrite replace_fuel by (rewrite !str_length_app; cbn [String.length]; rewrite str_length_app; lia).
  cbn [String.append]. rewrite ?str_app_assoc. reflexivity.
Qed.

(** ** Finding the policy arguments of an expression *)
Definition p_heads : list ascii := ["p"%char; "g"%char].
Lemma match_arg_shorter heads seps s k id rest : match_arg heads seps s = Some (k, id, rest) -> String.length rest < String.length s.
Proof.
  intros E. destruct (match_arg_app _ _ _ _ _ _ E) as [sep [_ [X _]]]. rewrite X, str_length_app. cbn [String.length]. rewrite str_length_app. lia.
Qed.
Lemma find_fuel : forall fuel s, String.length s <= fuel -> find_args fuel p_heads ["_"%char] s = p_args s.
Proof.
  unfold p_args. fold p_heads.
  assert (G : forall n f g s, String.length s <= n -> String.length s <= f -> String.length s <= g ->
    find_args f p_heads ["_"%char] s = find_args g p_heads ["_"%char] s).
  { induction n as [|n IH]; intros f g s Hn Hf Hg.
    - destruct s; [|cbn in Hn; lia]. destruct f, g; reflexivity.
    - destruct s as [|c s]; [destruct f, g; reflexivity|]. cbn [String.length] in *.
      destruct f as [|f]; [lia|]. destruct g as [|g]; [lia|]. cbn [find_args].
      destruct (match_arg _ _ (String c s)) as [[[k id] rest]|] eqn:E.
      + apply match_arg_shorter in E. cbn [String.length] in E. f_equal. apply IH; lia.
      + apply IH; lia. }
  intros fuel s H. apply (G (String.length s)); lia.
Qed.
Lemma p_args_clean pre : ends_clean pre -> forall b, p_args (pre ++ b) = p_args pre ++ p_args b.
Proof.
  assert (G : forall n pre, String.length pre <= n -> ends_clean pre -> forall b, p_args (pre ++ b) = p_args pre ++ p_args b).
  { clear pre. induction n as [|n IH]; intros pre Hn Hc b.
    - destruct pre; [|cbn in Hn; lia]. reflexivity.
    - destruct pre as [|c pre]; [reflexivity|].
      destruct Hc as [Hc|[a [z [Hc [Hz Hdot]]]]]; [discriminate|].
      pose proof (match_boundary p_heads ["_"%char] a z b Hz) as M. rewrite <- Hc in M.
      assert (Hs : existsb (Ascii.eqb z) ["_"%char] = false).
      { cbn. destruct (Ascii.eqb_spec z "_"); [subst; discriminate|reflexivity]. }
      assert (Hh : existsb (Ascii.eqb z) p_heads = false).
      { cbn. destruct (Ascii.eqb_spec z "p"); [subst; discriminate|]. destruct (Ascii.eqb_spec z "g"); [subst; discriminate|reflexivity]. }
      specialize (M Hs Hh).
      unfold p_args at 1 2. cbn [String.append String.length find_args]. cbn [String.append] in M. fold p_heads.
      destruct (match_arg p_heads ["_"%char] (String c pre)) as [[[k id] rest]|] eqn:E.
      + destruct M as [M [a' Ha']]. rewrite M. pose proof (match_arg_shorter _ _ _ _ _ _ E) as L.
        cbn [String.length] in *. rewrite !find_fuel; [|rewrite ?str_length_app; lia..].
        rewrite IH; [reflexivity|lia|]. right. exists a', z. auto.
      + rewrite M. cbn [String.length] in *. rewrite !find_fuel; [|lia..]. apply IH; [lia|].
        destruct a as [|c' a]; cbn in Hc; [left; now injection Hc as _ ->|].
        right. exists a, z. injection Hc as _ ->. auto. }
  intros Hc b. now apply (G (String.length pre)).
Qed.
Lemma p_args_arg h ds id post :
  In h p_heads -> all_chars is_digit ds = true -> id <> ""%string -> all_chars is_ident id = true ->
  starts_clean is_ident post ->
  p_args (String h (ds ++ String "_" (id ++ post))) = String h (ds ++ String "_" id) :: p_args post.
Proof.
  intros Hh Hd Hid Hi Hp. unfold p_args at 1. cbn [String.length find_args]. fold p_heads.
  assert (M : match_arg p_heads ["_"%char] (String h (ds ++ String "_" (id ++ post))) = Some (String h ds, id, post)).
  { cbn [match_arg].
    assert (Hx : existsb (Ascii.eqb h) p_heads = true) by (apply existsb_exists; exists h; split; [exact Hh|apply Ascii.eqb_refl]).
    rewrite Hx. rewrite span_all; [|exact Hd|reflexivity]. change (existsb (Ascii.eqb "_") ["_"%char]) with true. cbv iota.
    rewrite span_all by assumption. now destruct (String.eqb_spec id ""). }
  rewrite M. rewrite find_fuel by (rewrite !str_length_app; cbn [String.length]; rewrite str_length_app; lia). reflexivity.
Qed.
Lemma p_args_clean_text s : (forall c, In c p_heads -> has_char c s = false) -> p_args s = [].
Proof.
  unfold p_args. fold p_heads. generalize (String.length s) as n. intros n. revert s. induction n as [|n IH]; intros s H; [reflexivity|].
  destruct s as [|c s]; [reflexivity|]. cbn [find_args match_arg].
  assert (Hx : existsb (Ascii.eqb c) p_heads = false).
  { destruct (existsb (Ascii.eqb c) p_heads) eqn:Ex; [|reflexivity]. apply existsb_exists in Ex as [d [Hd Hc]]. apply Ascii.eqb_eq in Hc. subst d.
    specialize (H c Hd). cbn in H. rewrite Ascii.eqb_refl in H. discriminate. }
  rewrite Hx. apply IH. intros d Hd. specialize (H d Hd). cbn [has_char] in H. now destruct (Ascii.eqb d c).
Qed.
