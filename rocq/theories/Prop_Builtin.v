(** Properties C70 (built-in functions report bad arguments), C71 (ipMatch) and
    C72 (which functions a matcher can call). *)
From Verif Require Import GoBase GoBaseP DefsM PathM ModelM BuiltinM BuiltinSpec BuiltinP.
From Coq Require Import NArith.

(** ** C70 *)

(** Wrong numbers or types of arguments are answered with an error, by every
    built-in function that takes arguments. *)
Definition matching_functions (L : lib) : list (string * gofn) :=
  [("pathMatch", PathMatchFunc); ("pathMatch2", PathMatchFunc2); ("regexMatch", RegexMatchFunc L); ("ipMatch", IPMatchFunc L);
   ("globMatch", GlobMatchFunc L)]%string.

Lemma validate2 args : ValidateVariadicArgs 2 args = true <-> exists a b, args = [VStr a; VStr b].
Proof.
  unfold ValidateVariadicArgs. split.
  - intros H. apply andb_prop in H as [H1 H2]. apply Nat.eqb_eq in H1. destruct args as [|x [|y [|]]]; try discriminate. cbn in H2.
    destruct x, y; try discriminate. eauto.
  - intros [a [b ->]]. reflexivity.
Qed.
Theorem C70_wrong_arguments :
  forall (L : lib) name f args, In (name, f) (matching_functions L) -> (forall a b, args <> [VStr a; VStr b]) ->
    f args = Val (inr ErrArgs).
Proof.
  intros L name f args Hin H.
  assert (V : ValidateVariadicArgs 2 args = false).
  { destruct (ValidateVariadicArgs 2 args) eqn:E; [|reflexivity]. apply validate2 in E as [a [b ->]]. exfalso. eapply H. reflexivity. }
  unfold matching_functions in Hin. cbn [In] in Hin.
  destruct Hin as [E|[E|[E|[E|[E|[]]]]]]; injection E as <- <-;
    unfold PathMatchFunc, PathMatchFunc2, RegexMatchFunc, IPMatchFunc, GlobMatchFunc, WrapMatchingFunc; now rewrite V.
Qed.
Print Assumptions C70_wrong_arguments.

(** Two strings: what each function answers. *)
Theorem C70_answers :
  forall (L : lib) a b,
    PathMatchFunc [VStr a; VStr b] = Val (inl (VBool (PathMatch a b))) /\
    PathMatchFunc2 [VStr a; VStr b] = Val (inl (VBool (PathMatch2 a b))) /\
    GlobMatchFunc L [VStr a; VStr b] = match l_glob L b a with Some r => Val (inl (VBool r)) | None => Val (inr ErrEval) end /\
    RegexMatchFunc L [VStr a; VStr b] = match l_regex L b a with Some r => Val (inl (VBool r)) | None => Panic end /\
    IPMatchFunc L [VStr a; VStr b] = match IPMatch L a b with Val r => Val (inl (VBool r)) | Panic => Panic end.
Proof.
  intros L a b. unfold PathMatchFunc, PathMatchFunc2, RegexMatchFunc, IPMatchFunc, GlobMatchFunc, WrapMatchingFunc, RegexMatch.
  cbn. split; [reflexivity|]. split; [reflexivity|]. split; [reflexivity|]. split; [now destruct (l_regex L b a)|reflexivity].
Qed.
Print Assumptions C70_answers.

(** The claim that no built-in function panics is false: a pattern that is not a
    regular expression, and a text that is not an address, are panics. *)
Theorem C70_no_panic_refuted :
  (forall L a b, l_regex L b a = None -> RegexMatchFunc L [VStr a; VStr b] = Panic) /\
  (forall L b, IPMatchFunc L [VStr "localhost"; VStr b] = Panic) /\
  (forall L, IPMatchFunc L [VStr "127.0.0.1"; VStr "localhost"] = Panic).
Proof.
  split; [|split].
  - intros L a b H. destruct (C70_answers L a b) as [_ [_ [_ [-> _]]]]. now rewrite H.
  - intros L b. reflexivity.
  - intros L. reflexivity.
Qed.
Print Assumptions C70_no_panic_refuted.

(** When they do: exactly for two strings with an invalid regular expression, or
    with an address, or address or network, that package net does not read. *)
Definition is_network (L : lib) (s : string) : Prop := ParseCIDR L s <> None.
Theorem C70_panics_exactly :
  forall (L : lib) name f args, In (name, f) (matching_functions L) ->
    (f args = Panic <->
     exists a b, args = [VStr a; VStr b] /\
       ((name = "regexMatch" /\ l_regex L b a = None) \/
        (name = "ipMatch" /\ (ParseIP L a = None \/ (~ is_network L b /\ ParseIP L b = None)))))%string.
Proof.
  intros L name f args Hin.
  destruct (ValidateVariadicArgs 2 args) eqn:V.
  - apply validate2 in V as [a [b ->]]. destruct (C70_answers L a b) as [A1 [A2 [A3 [A4 A5]]]].
    unfold matching_functions in Hin. cbn [In] in Hin.
    destruct Hin as [E|[E|[E|[E|[E|[]]]]]]; injection E as <- <-.
    + rewrite A1. split; [discriminate|]. intros [a' [b' [_ [[C _]|[C _]]]]]; discriminate C.
    + rewrite A2. split; [discriminate|]. intros [a' [b' [_ [[C _]|[C _]]]]]; discriminate C.
    + rewrite A4. split.
      * intros H. exists a, b. split; [reflexivity|]. left. split; [reflexivity|]. now destruct (l_regex L b a).
      * intros [a' [b' [Ea [[_ C]|[C _]]]]]; [|discriminate C]. injection Ea as <- <-. now rewrite C.
    + rewrite A5. unfold IPMatch, is_network. split.
      * intros H. exists a, b. split; [reflexivity|]. right. split; [reflexivity|]. destruct (ParseIP L a); [|now left]. right.
        destruct (ParseCIDR L b); [discriminate|]. destruct (ParseIP L b); [discriminate|]. split; [congruence|reflexivity].
      * intros [a' [b' [Ea [[C _]|[_ C]]]]]; [discriminate C|]. injection Ea as <- <-. destruct C as [->|[C ->]]; [reflexivity|].
        destruct (ParseIP L a); [|reflexivity]. destruct (ParseCIDR L b); [exfalso; apply C; discriminate|reflexivity].
    + rewrite A3. split; [destruct (l_glob L b a); discriminate|]. intros [a' [b' [_ [[C _]|[C _]]]]]; discriminate C.
  - rewrite (C70_wrong_arguments L name f args Hin).
    + split; [discriminate|]. intros [a [b [-> _]]]. discriminate V.
    + intros a b ->. discriminate V.
Qed.
Print Assumptions C70_panics_exactly.

(** ** C71 *)

(** IPv4, texts to decision: an address is in a network exactly when the first
    bits agree, and equal to an address exactly when it is the same. *)
Lemma all_bytes4 a b c d : is_byte a -> is_byte b -> is_byte c -> is_byte d -> Forall is_byte [a; b; c; d].
Proof. auto. Qed.
Lemma cut_at s rest : has_char "/" s = false -> cut "/" (s ++ String "/" rest) = Some (s, rest).
Proof.
  induction s as [|c s IH]; [reflexivity|]. cbn [has_char append cut]. rewrite (Ascii.eqb_sym "/" c). destruct (Ascii.eqb c "/"); [discriminate|].
  intros H. now rewrite IH.
Qed.
Lemma has_char_app c a b : has_char c (a ++ b) = has_char c a || has_char c b.
Proof. induction a as [|x a IH]; [reflexivity|]. cbn. destruct (Ascii.eqb c x); [reflexivity|exact IH]. Qed.
Lemma digits_no_slash s : all_digits s = true -> has_char "/" s = false.
Proof.
  induction s as [|c s IH]; [reflexivity|]. cbn [all_digits has_char]. intros H. apply andb_prop in H as [D H].
  destruct (Ascii.eqb_spec "/" c) as [<-|]; [discriminate D|auto].
Qed.
Lemma dotted_no_slash a b c d : is_byte a -> is_byte b -> is_byte c -> is_byte d -> has_char "/" (dotted a b c d) = false.
Proof.
  intros Ha Hb Hc Hd. unfold dotted. rewrite !has_char_app.
  rewrite (digits_no_slash (dec a)), (digits_no_slash (dec b)), (digits_no_slash (dec c)), (digits_no_slash (dec d)) by now apply dec_digits.
  reflexivity.
Qed.
Lemma dtoi_dec0 n : is_byte n -> dtoi (dec n) = Some (n, EmptyString).
Proof. intros H. rewrite <- (append_nil (dec n)). apply dtoi_dec; [exact H|exact I]. Qed.

Theorem C71_ipv4_network :
  forall (L : lib) a b c d e f g h n,
    is_byte a -> is_byte b -> is_byte c -> is_byte d -> is_byte e -> is_byte f -> is_byte g -> is_byte h -> (n <= 32)%N ->
    exists r, IPMatch L (dotted a b c d) (dotted e f g h ++ "/" ++ dec n) = Val r /\
      (r = true <-> in_network (N.to_nat n) [e; f; g; h] [a; b; c; d]).
Proof.
  intros L a b c d e f g h n Ha Hb Hc Hd He Hf Hg Hh Hn. assert (Bn : is_byte n) by (unfold is_byte; lia).
  unfold IPMatch. rewrite (ParseIP_dotted L a b c d Ha Hb Hc Hd). unfold ParseCIDR. cbn [append].
  rewrite (cut_at _ _ (dotted_no_slash e f g h He Hf Hg Hh)), (parse_dotted e f g h He Hf Hg Hh), (dtoi_dec0 n Bn).
  assert ((8 * N.of_nat 4 <? n)%N = false) as -> by (apply N.ltb_ge; cbn; lia). cbv zeta. eexists. split; [reflexivity|].
  rewrite contains4; auto.
  - split; [intros [a4 [E H]]; apply app_inv_head in E as <-; exact H|intros H; eauto].
  - unfold v4InV6Prefix. repeat constructor; auto; reflexivity.
Qed.
Print Assumptions C71_ipv4_network.

Theorem C71_ipv4_address :
  forall (L : lib) a b c d e f g h,
    is_byte a -> is_byte b -> is_byte c -> is_byte d -> is_byte e -> is_byte f -> is_byte g -> is_byte h ->
    exists r, IPMatch L (dotted a b c d) (dotted e f g h) = Val r /\ (r = true <-> [a; b; c; d] = [e; f; g; h]).
Proof.
  intros L a b c d e f g h Ha Hb Hc Hd He Hf Hg Hh. unfold IPMatch. rewrite (ParseIP_dotted L a b c d Ha Hb Hc Hd).
  assert (ParseCIDR L (dotted e f g h) = None) as ->.
  { unfold ParseCIDR. assert (cut "/" (dotted e f g h) = None) as ->; [|reflexivity].
    pose proof (dotted_no_slash e f g h He Hf Hg Hh) as H. revert H. generalize (dotted e f g h).
    induction s as [|x s IH]; [reflexivity|]. cbn [has_char cut]. rewrite (Ascii.eqb_sym "/" x). destruct (Ascii.eqb x "/"); [discriminate|].
    intros H. now rewrite IH. }
  rewrite (ParseIP_dotted L e f g h He Hf Hg Hh). eexists. split; [reflexivity|]. rewrite bytes_eqb_eq. split; [apply app_inv_head|congruence].
Qed.
Print Assumptions C71_ipv4_address.

(** Which texts are IPv4 addresses: exactly the dotted ones.  (So a text with a
    dot before any colon that is not of this form makes ipMatch panic.) *)
Theorem C71_ipv4_texts :
  forall (L : lib) s, which s = Some "."%char ->
    (ParseIP L s <> None <-> exists a b c d, is_byte a /\ is_byte b /\ is_byte c /\ is_byte d /\ s = dotted a b c d).
Proof.
  intros L s Hw. split.
  - unfold ParseIP. rewrite Hw. intros H. destruct (parseIPv4 s) as [ip|] eqn:E; [|congruence].
    apply parse4_inv in E as [a [b [c [d [-> [_ [Ha [Hb [Hc Hd]]]]]]]]]. exists a, b, c, d. auto.
  - intros [a [b [c [d [Ha [Hb [Hc [Hd ->]]]]]]]]. rewrite ParseIP_dotted by assumption. discriminate.
Qed.
Print Assumptions C71_ipv4_texts.

(** IPv6 networks, for any reader of IPv6 addresses: the first bits agree; a
    network shorter than 96 bits contains no IPv4 address. *)
Theorem C71_ipv6_network :
  forall (L : lib) s addr n a b,
    ParseIP L s = Some a -> address16 a -> has_char "/" addr = false -> parseIPv4 addr = None -> l_ip6 L addr = Some b -> address16 b ->
    (n <= 128)%N ->
    exists r, IPMatch L s (addr ++ "/" ++ dec n) = Val r /\
      (r = true <-> in_network (N.to_nat n) b a /\ (v4_mapped a -> (96 <= n)%N)).
Proof.
  intros L s addr n a b Hs Ha Hc H4 H6 Hb Hn. assert (Bn : is_byte n) by (unfold is_byte; lia).
  unfold IPMatch. rewrite Hs. unfold ParseCIDR. cbn [append]. rewrite (cut_at _ _ Hc), H4, H6, (dtoi_dec0 n Bn).
  assert ((8 * N.of_nat 16 <? n)%N = false) as -> by (apply N.ltb_ge; cbn; lia). cbv zeta. eexists. split; [reflexivity|].
  now apply contains6.
Qed.
Print Assumptions C71_ipv6_network.

(** A prefix longer than the address makes the text no network. *)
Theorem C71_long_prefix :
  forall (L : lib) e f g h n, is_byte e -> is_byte f -> is_byte g -> is_byte h -> (32 < n < 256)%N ->
    ~ is_network L (dotted e f g h ++ "/" ++ dec n).
Proof.
  intros L e f g h n He Hf Hg Hh [H1 H2]. unfold is_network, ParseCIDR. cbn [append].
  rewrite (cut_at _ _ (dotted_no_slash e f g h He Hf Hg Hh)), (parse_dotted e f g h He Hf Hg Hh), (dtoi_dec0 n H2).
  assert ((8 * N.of_nat 4 <? n)%N = true) as -> by (apply N.ltb_lt; cbn; lia). auto.
Qed.
Print Assumptions C71_long_prefix.

(** A reader of IPv6 addresses that knows three of them. *)
Definition some_pattern (p s : string) : option bool := if String.eqb p "[" then None else Some (String.eqb p s).
Definition some_ip6 (s : string) : option (list N) :=
  if String.eqb s "::" then Some (repeat 0%N 16)
  else if String.eqb s "::ffff:0:0" then Some (v4InV6Prefix ++ repeat 0%N 4)%list
  else if String.eqb s "::1" then Some (repeat 0%N 15 ++ [1%N])%list else None.
Definition some_lib : lib := mkLib some_pattern some_pattern some_ip6.
Example C71_ex :
  dotted 192 168 2 123 = "192.168.2.123"%string /\
  IPMatch some_lib "192.168.2.123" "192.168.2.0/24" = Val true /\
  IPMatch some_lib "192.168.3.123" "192.168.2.0/24" = Val false /\
  IPMatch some_lib "192.168.3.123" "192.168.2.0/23" = Val true /\
  IPMatch some_lib "10.0.0.1" "10.0.0.1" = Val true /\
  IPMatch some_lib "010.0.0.1" "10.0.0.1" = Panic /\
  IPMatch some_lib "10.0.0.1" "10.0.0.0/33" = Panic /\
  IPMatch some_lib "10.0.0.1" "::/0" = Val false /\
  IPMatch some_lib "10.0.0.1" "::ffff:0:0/96" = Val true /\
  IPMatch some_lib "::1" "::/0" = Val true /\
  IPMatch some_lib "::1" "::/128" = Val false.
Proof. vm_compute. auto 20. Qed.
Example C71_ipv6_ex :
  ParseIP some_lib "::1" = Some (repeat 0%N 15 ++ [1%N])%list /\ address16 (repeat 0%N 15 ++ [1%N])%list /\ parseIPv4 "::" = None /\
  l_ip6 some_lib "::" = Some (repeat 0%N 16) /\ address16 (repeat 0%N 16).
Proof. repeat split; repeat constructor. Qed.
Example C70_ex :
  PathMatchFunc [VStr "/a/1"; VStr "/a/:id"] = Val (inl (VBool true)) /\ PathMatchFunc [VStr "/a/1"] = Val (inr ErrArgs) /\
  PathMatchFunc [VStr "/a/1"; VBool true] = Val (inr ErrArgs) /\ RegexMatchFunc some_lib [VStr "a"; VStr "["] = Panic /\
  GlobMatchFunc some_lib [VStr "a"; VStr "["] = Val (inr ErrEval).
Proof. vm_compute. auto. Qed.

(** ** C72: the functions of a new model *)

(** The last function registered under a name, if any. *)
Definition registered (calls : list (string * gofn)) (k : string) : option gofn :=
  option_map snd (find (fun kf => String.eqb (fst kf) k) (rev calls)).

Lemma set_all_get fs : forall m k, mget k (set_all fs m) = match registered fs k with Some f => Some f | None => mget k m end.
Proof.
  induction fs as [|[k0 f0] fs IH] using rev_ind; intros m k; [reflexivity|].
  unfold set_all, registered. rewrite fold_left_app, rev_app_distr. cbn [fold_left rev app find fst].
  rewrite mget_put. fold (set_all fs m). rewrite (String.eqb_sym k k0). destruct (String.eqb k0 k); [reflexivity|]. apply IH.
Qed.
Lemma set_all_nd fs : forall m, NoDup (mkeys m) -> NoDup (mkeys (set_all fs m)).
Proof. induction fs as [|[k f] fs IH]; intros m N; [exact N|]. cbn. apply IH. now apply NoDup_mput. Qed.
Lemma registered_map (m : smap gofn) k : NoDup (mkeys m) -> registered m k = mget k m.
Proof.
  intros N. unfold registered. destruct (find _ (rev m)) as [[k' f]|] eqn:E.
  - apply find_some in E as [Hin Hk]. apply String.eqb_eq in Hk. cbn in Hk. subst k'. apply in_rev in Hin. cbn. symmetry. now apply In_mget.
  - cbn. symmetry. destruct (mget k m) as [f|] eqn:G; [|reflexivity]. exfalso. apply mget_In in G. apply in_rev in G.
    pose proof (find_none _ _ E _ G) as C. cbn in C. rewrite String.eqb_refl in C. discriminate.
Qed.

(** A new model's functions: those registered for the whole process (the last one
    under each name), and the built-in ones under the other names - whatever the
    order in which the process-wide functions are copied. *)
Theorem C72_functions :
  forall (L : lib) (calls : list (string * gofn)) ord k, Permutation (ord (global_map calls)) (global_map calls) ->
    mget k (DefaultFunctionMap L ord (global_map calls)) =
    match registered calls k with Some f => Some f | None => registered (builtins L) k end.
Proof.
  intros L calls ord k P. assert (N : NoDup (mkeys (global_map calls))) by (apply set_all_nd; constructor).
  assert (N' : NoDup (mkeys (ord (global_map calls)))).
  { unfold mkeys. eapply Permutation_NoDup; [|exact N]. apply Permutation_map, Permutation_sym, P. }
  unfold DefaultFunctionMap. rewrite !set_all_get, registered_map by exact N'.
  assert (E : mget k (ord (global_map calls)) = mget k (global_map calls)).
  { destruct (mget k (ord (global_map calls))) as [f|] eqn:E1.
    - symmetry. apply In_mget; [exact N|]. eapply Permutation_in; [exact P|]. now apply mget_In.
    - symmetry. apply mget_None. rewrite mget_None in E1. intros C. apply E1. unfold mkeys in *. eapply Permutation_in; [|exact C].
      apply Permutation_map, Permutation_sym, P. }
  rewrite E. unfold global_map. rewrite set_all_get. cbn [mget]. destruct (registered calls k); [reflexivity|].
  destruct (registered (builtins L) k); reflexivity.
Qed.
Print Assumptions C72_functions.

Example C72_ex :
  let f : gofn := fun _ => Val (inl (VBool true)) in
  let calls := [("now", PathMatchFunc); ("pathMatch", f); ("now", f)]%string in
  let m := DefaultFunctionMap some_lib (@rev _) (global_map calls) in
  mget "now" m = Some f /\ mget "pathMatch" m = Some f /\ mget "pathMatch2" m = Some PathMatchFunc2 /\ mget "other" m = None.
Proof. cbv zeta. repeat split; reflexivity. Qed.

(** What the built-in name [k] computes for two strings: the names are bound to
    the operations they announce, the second argument is the pattern. *)
Definition builtin_call (L : lib) (k a b : string) : option (outcome (value + goerr)) :=
  if String.eqb k "pathMatch" then Some (Val (inl (VBool (PathMatch a b))))
  else if String.eqb k "pathMatch2" then Some (Val (inl (VBool (PathMatch2 a b))))
  else if String.eqb k "regexMatch" then Some (match l_regex L b a with Some r => Val (inl (VBool r)) | None => Panic end)
  else if String.eqb k "ipMatch" then Some (let! r := IPMatch L a b in Val (inl (VBool r)))
  else if String.eqb k "globMatch" then Some (match l_glob L b a with Some r => Val (inl (VBool r)) | None => Val (inr ErrEval) end)
  else None.

(** A name not registered for the whole process calls the built-in operation of
    that name; besides "eval", which is replaced while a matcher is evaluated,
    there is no other name. *)
Theorem C72_builtin_names :
  forall (L : lib) (calls : list (string * gofn)) ord k, Permutation (ord (global_map calls)) (global_map calls) ->
    (forall f, ~ In (k, f) calls) -> k <> "eval"%string ->
    forall a b, option_map (fun f : gofn => f [VStr a; VStr b]) (mget k (DefaultFunctionMap L ord (global_map calls))) = builtin_call L k a b.
Proof.
  intros L calls ord k P Nk Ne a b. rewrite (C72_functions L calls ord k P).
  assert (R : registered calls k = None).
  { unfold registered. destruct (find _ (rev calls)) as [[k' f]|] eqn:E; [|reflexivity]. apply find_some in E as [Hin Hk]. apply String.eqb_eq in Hk. cbn in Hk. subst k'.
    apply in_rev in Hin. destruct (Nk f Hin). }
  rewrite R. unfold registered, builtin_call. cbn [builtins rev app find fst option_map snd].
  rewrite !(String.eqb_sym _ k).
  destruct (String.eqb k "globMatch") eqn:E1; [apply String.eqb_eq in E1; subst k; cbn; destruct (l_glob L b a); reflexivity|].
  destruct (String.eqb k "ipMatch") eqn:E2; [apply String.eqb_eq in E2; subst k; reflexivity|].
  destruct (String.eqb k "regexMatch") eqn:E3; [apply String.eqb_eq in E3; subst k; cbn; unfold RegexMatchFunc, WrapMatchingFunc, RegexMatch; cbn; destruct (l_regex L b a); reflexivity|].
  destruct (String.eqb k "pathMatch2") eqn:E4; [apply String.eqb_eq in E4; subst k; reflexivity|].
  destruct (String.eqb k "pathMatch") eqn:E5; [apply String.eqb_eq in E5; subst k; reflexivity|].
  destruct (String.eqb_spec k "eval"); [contradiction|reflexivity].
Qed.
Print Assumptions C72_builtin_names.
Example C72_names_ex :
  let calls := [("now", PathMatchFunc)]%string in let m := DefaultFunctionMap some_lib (@rev _) (global_map calls) in
  (forall f, ~ In ("pathMatch"%string, f) calls) /\
  option_map (fun f : gofn => f [VStr "/a/1"; VStr "/a/:id"]) (mget "pathMatch" m) = Some (Val (inl (VBool true))) /\
  option_map (fun f : gofn => f [VStr "/a/:id"; VStr "/a/1"]) (mget "pathMatch" m) = Some (Val (inl (VBool false))) /\
  option_map (fun f : gofn => f [VStr "10.0.0.1"; VStr "10.0.0.0/8"]) (mget "ipMatch" m) = Some (Val (inl (VBool true))).
Proof. cbv zeta. split; [intros f [X|[]]; discriminate X|]. vm_compute. auto. Qed.
