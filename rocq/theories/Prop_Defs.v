(** Properties C23, C24 and C25 (definitions, model/defs). *)
From Verif Require Import GoBase GoBaseP DefsM DefsP.

(** Specification of the effect column: the text of a rule's effect value. *)
Definition effect_of_text (s : string) : effect :=
  if string_dec s "" then Allow
  else if string_dec s "allow" then Allow
  else if string_dec s "deny" then Deny
  else Indeterminate.

(** A definition whose argument names are pairwise different. *)
Definition distinct_args (arguments : string) : Prop :=
  NoDup (split_char "," (no_spaces arguments)).

(** ** C24: a named parameter selects the column of that name.

    [vals] holds the values of a rule (or request) as the matcher sees them,
    in column order.  Rules may be shorter than the definition. *)
Theorem C24_named_column_partial :
  forall (A : Type) (key arguments name : string) (i : nat) (vals : list A),
    distinct_args arguments ->
    nth_error (split_char "," (no_spaces arguments)) i = Some name ->
    (* at most one value per column *)
    (List.length vals <= List.length (split_char "," (no_spaces arguments)) ->
     GetParameter (NewArgDef key arguments) vals (key ++ "_" ++ name) = nth_error vals i) /\
    (* a complete rule that still carries its key *)
    (forall k, List.length vals = List.length (split_char "," (no_spaces arguments)) ->
     GetParameter (NewArgDef key arguments) (k :: vals) (key ++ "_" ++ name) = nth_error vals i).
Proof.
  intros A key arguments name i vals Hnd Hi. split.
  - intros Hlen. rewrite (GetParameter_nth key arguments vals i name Hnd Hi).
    cbn [ad_args NewArgDef].
    destruct (Nat.ltb_spec (List.length (split_char "," (no_spaces arguments))) (List.length vals));
      [lia|reflexivity].
  - intros k Hlen. rewrite (GetParameter_nth key arguments (k :: vals) i name Hnd Hi).
    cbn [ad_args NewArgDef List.length].
    destruct (Nat.ltb_spec (List.length (split_char "," (no_spaces arguments))) (S (List.length vals)));
      [reflexivity|lia].
Qed.
Print Assumptions C24_named_column_partial.

(** Missing from the partial theorem: rules with more values than the
    definition has columns.  There the statement is false. *)
Theorem C24_named_column_refuted :
  exists (key arguments name : string) (i : nat) (vals : list string) (x y : string),
    distinct_args arguments /\
    nth_error (split_char "," (no_spaces arguments)) i = Some name /\
    nth_error vals i = Some x /\ x <> y /\
    GetParameter (NewArgDef key arguments) vals (key ++ "_" ++ name) = Some y.
Proof.
  exists "p", "sub, obj, act", "sub", 0, ["alice"; "data1"; "read"; "extra"], "alice", "data1".
  split; [|vm_compute; intuition discriminate].
  unfold distinct_args. repeat constructor; cbn; intuition discriminate.
Qed.
Print Assumptions C24_named_column_refuted.

(** A name that is not an argument of the definition is an error. *)
Theorem C24_unknown_parameter :
  forall (A : Type) (key arguments name : string) (vals : list A),
    (forall a, In a (split_char "," (no_spaces arguments)) -> name <> (key ++ "_" ++ a)%string) ->
    GetParameter (NewArgDef key arguments) vals name = None.
Proof. intros A key arguments name vals H. now apply GetParameter_unknown. Qed.
Print Assumptions C24_unknown_parameter.

Example C24_ex :
  distinct_args "sub, obj, act" /\
  GetParameter (NewArgDef "p" "sub, obj, act") ["alice"; "data1"; "read"] "p_obj" = Some "data1" /\
  GetParameter (NewArgDef "p" "sub, obj, act") ["p"; "alice"; "data1"; "read"] "p_obj" = Some "data1" /\
  GetParameter (NewArgDef "p" "sub, obj, act") ["alice"; "data1"; "read"] "p_dom" = None.
Proof.
  split; [|vm_compute; auto]. unfold distinct_args. repeat constructor; cbn; intuition discriminate.
Qed.

(** ** C23: the effect column.

    The enforcer asks for the effect of the rule with its key in front
    (enforcer.go:320 on the rule built at model.go:369). *)

(** Without an effect column every rule allows. *)
Theorem C23_no_effect_column :
  forall (key arguments : string) (vals : rule),
    ~ In "eft" (split_char "," (no_spaces arguments)) ->
    GetEft (NewPolicyDef key arguments) (key :: vals) = Allow.
Proof.
  intros key arguments vals Hn. unfold GetEft.
  assert (H : Has (NewPolicyDef key arguments) (ad_key (NewPolicyDef key arguments) ++ "_eft") = false).
  { destruct (Has _ _) eqn:E; [|reflexivity]. exfalso. apply Has_iff in E as [a [Hin Heq]].
    cbn in Heq. apply str_app_inv_head in Heq. injection Heq as Heq. subst a. now apply Hn. }
  now rewrite H.
Qed.
Print Assumptions C23_no_effect_column.

(** With an effect column, a rule that has a value for every column has the
    effect spelled in its effect column. *)
Theorem C23_effect_column_partial :
  forall (key arguments : string) (vals : rule) (i : nat) (s : string),
    distinct_args arguments ->
    nth_error (split_char "," (no_spaces arguments)) i = Some "eft" ->
    List.length vals = List.length (split_char "," (no_spaces arguments)) ->
    nth_error vals i = Some s ->
    GetEft (NewPolicyDef key arguments) (key :: vals) = effect_of_text s.
Proof.
  intros key arguments vals i s Hnd Hi Hlen Hs. unfold GetEft.
  assert (H : Has (NewPolicyDef key arguments) (ad_key (NewPolicyDef key arguments) ++ "_eft") = true).
  { apply Has_iff. exists "eft". split; [|reflexivity]. cbn. eapply nth_error_In; eauto. }
  rewrite H. unfold NewPolicyDef. change (ad_key (NewArgDef key arguments)) with key.
  change (key ++ "_eft")%string with (key ++ "_" ++ "eft")%string.
  rewrite (proj2 (C24_named_column_partial string key arguments "eft" i vals Hnd Hi) key Hlen).
  rewrite Hs. unfold effect_of_text.
  destruct (String.eqb_spec s ""), (string_dec s ""); try congruence.
  destruct (String.eqb_spec s "allow"), (string_dec s "allow"); try congruence.
  destruct (String.eqb_spec s "deny"), (string_dec s "deny"); congruence.
Qed.
Print Assumptions C23_effect_column_partial.

(** An omitted trailing effect is not read as "allow": the key is taken for
    the first column and the last value for the effect. *)
Theorem C23_omitted_effect_refuted :
  exists (key arguments : string) (vals : rule),
    distinct_args arguments /\
    (* only the trailing effect is missing *)
    split_char "," (no_spaces arguments) = ["sub"; "obj"; "act"; "eft"] /\
    List.length vals = 3 /\
    GetEft (NewPolicyDef key arguments) (key :: vals) <> Allow.
Proof.
  exists "p", "sub, obj, act, eft", ["alice"; "data1"; "read"].
  split; [|vm_compute; intuition discriminate].
  unfold distinct_args. repeat constructor; cbn; intuition discriminate.
Qed.
Print Assumptions C23_omitted_effect_refuted.

(** The exact effect of a rule that omits only a trailing effect column: the
    effect spelled by its last remaining value. *)
Theorem C23_omitted_effect_exact :
  forall (key arguments : string) (cols : list string) (vals : rule) (s : string),
    split_char "," (no_spaces arguments) = cols ++ ["eft"] ->
    distinct_args arguments ->
    List.length (vals ++ [s]) = List.length cols ->
    GetEft (NewPolicyDef key arguments) (key :: vals ++ [s]) = effect_of_text s.
Proof.
  intros key arguments cols vals s Hcols Hnd Hlen. unfold GetEft.
  assert (H : Has (NewPolicyDef key arguments) (ad_key (NewPolicyDef key arguments) ++ "_eft") = true).
  { apply Has_iff. exists "eft". split; [|reflexivity]. cbn. rewrite Hcols.
    apply in_or_app. right. now left. }
  rewrite H. unfold NewPolicyDef. change (ad_key (NewArgDef key arguments)) with key.
  change (key ++ "_eft")%string with (key ++ "_" ++ "eft")%string.
  assert (Hi : nth_error (split_char "," (no_spaces arguments)) (List.length cols) = Some "eft").
  { rewrite Hcols, nth_error_app2, Nat.sub_diag; [reflexivity|lia]. }
  rewrite (GetParameter_nth key arguments (key :: vals ++ [s]) _ _ Hnd Hi).
  cbn [ad_args NewArgDef List.length]. rewrite Hcols, app_length, Hlen. cbn [List.length].
  destruct (Nat.ltb_spec (List.length cols + 1) (S (List.length cols))); [lia|].
  rewrite app_length in Hlen. cbn in Hlen. rewrite <- Hlen.
  replace (List.length vals + 1) with (S (List.length vals)) by lia. cbn [nth_error].
  rewrite nth_error_app2, Nat.sub_diag by lia. cbn. unfold effect_of_text.
  destruct (String.eqb_spec s ""), (string_dec s ""); try congruence.
  destruct (String.eqb_spec s "allow"), (string_dec s "allow"); try congruence.
  destruct (String.eqb_spec s "deny"), (string_dec s "deny"); congruence.
Qed.
Print Assumptions C23_omitted_effect_exact.

Example C23_ex :
  GetEft (NewPolicyDef "p" "sub, obj, act, eft") ["p"; "alice"; "data1"; "read"; "deny"] = Deny /\
  GetEft (NewPolicyDef "p" "sub, obj, act, eft") ["p"; "alice"; "data1"; "read"; "allow"] = Allow /\
  GetEft (NewPolicyDef "p" "sub, obj, act, eft") ["p"; "alice"; "data1"; "read"; "maybe"] = Indeterminate /\
  GetEft (NewPolicyDef "p" "sub, obj, act") ["p"; "alice"; "data1"; "read"] = Allow.
Proof. vm_compute. auto. Qed.

(** ** C25: text literals inside a matcher.

    Before a matcher is parsed its text is rewritten so that "r.sub" becomes
    "r_sub".  The rewriting is applied to the whole text. *)

(** A quoted literal is changed by the rewriting. *)
Theorem C25_literal_refuted :
  exists (pre lit post : string),
    has_char """" lit = false /\
    arg_replace (pre ++ """" ++ lit ++ """" ++ post) =
      (arg_replace pre ++ """" ++ "server_local" ++ """" ++ arg_replace post)%string /\
    lit <> "server_local".
Proof.
  exists "r.host == ", "server.local", " && r.act == p.act". vm_compute. intuition discriminate.
Qed.
Print Assumptions C25_literal_refuted.

(** The rewriting never does more than turn some "." into "_": all other
    characters, and the length, are kept. *)
Theorem C25_only_dots_change :
  forall s, dot_to_us s (arg_replace s) /\ String.length (arg_replace s) = String.length s.
Proof.
  intros s. split; [apply replace_args_du|]. apply dot_to_us_length. apply replace_args_du.
Qed.
Print Assumptions C25_only_dots_change.

(** Texts without a dot, in particular literals without a dot, are unchanged. *)
Theorem C25_no_dot_partial : forall s, has_char "." s = false -> arg_replace s = s.
Proof. intros s H. apply dot_to_us_nodot; [apply replace_args_du|exact H]. Qed.
Print Assumptions C25_no_dot_partial.

(** Digits and the characters of names, spelled out. *)
Fixpoint chars (s : string) : list ascii := match s with EmptyString => [] | String c s' => c :: chars s' end.
Definition digits : list ascii := chars "0123456789".
Definition name_chars : list ascii := chars "ABCDEFGHIJKLMNOPQRSTUVWXYZabcdefghijklmnopqrstuvwxyz0123456789_".
Definition made_of (l : list ascii) (s : string) : Prop := forall c, In c (chars s) -> In c l.
(** The text ends, or starts, with a character that cannot be part of an argument. *)
Definition free_before (s : string) : Prop :=
  s = ""%string \/ exists a z, s = (a ++ String z "")%string /\ ~ In z name_chars /\ z <> "."%char.
Definition free_after (s : string) : Prop := s = ""%string \/ exists z b, s = String z b /\ ~ In z name_chars.

Lemma digit_chars c : is_digit c = true <-> In c digits.
Proof.
  destruct c as [[] [] [] [] [] [] [] []]; (split; [intros H; try (vm_compute in H; discriminate H); vm_compute; tauto|
    intros H; try reflexivity; vm_compute in H; exfalso; repeat (destruct H as [H|H]; [discriminate H|]); exact H]).
Qed.
Lemma ident_chars c : is_ident c = true <-> In c name_chars.
Proof.
  destruct c as [[] [] [] [] [] [] [] []]; (split; [intros H; try (vm_compute in H; discriminate H); vm_compute; tauto|
    intros H; try reflexivity; vm_compute in H; exfalso; repeat (destruct H as [H|H]; [discriminate H|]); exact H]).
Qed.
Lemma made_all f l s : (forall c, f c = true <-> In c l) -> made_of l s -> all_chars f s = true.
Proof.
  intros Hf. induction s as [|c s IH]; intros H; [reflexivity|]. cbn. apply andb_true_iff. split; [apply Hf, H; now left|]. apply IH. intros d Hd. apply H. now right.
Qed.
Lemma free_ends s : free_before s -> ends_clean s.
Proof.
  intros [->|[a [z [-> [Hz Hd]]]]]; [now left|right]. exists a, z. split; [reflexivity|]. split; [|exact Hd].
  destruct (is_ident z) eqn:X; [|reflexivity]. apply ident_chars in X. contradiction.
Qed.
Lemma free_starts s : free_after s -> starts_clean is_ident s.
Proof.
  intros [->|[z [b [-> Hz]]]]; [exact I|]. cbn. destruct (is_ident z) eqn:X; [|reflexivity]. apply ident_chars in X. contradiction.
Qed.

(** The arguments are rewritten: wherever a name such as p.sub, r2.obj or g.x
    stands on its own (after a character that cannot belong to a name, before one
    that cannot continue it), its dot becomes an underscore, and the texts
    before and after it are rewritten independently. *)
Theorem C25_arguments_rewritten :
  forall pre h ds id post,
    free_before pre -> In h ["p"; "r"; "g"]%char -> made_of digits ds ->
    id <> ""%string -> made_of name_chars id -> free_after post ->
    arg_replace (pre ++ String h (ds ++ String "." (id ++ post))) =
      (arg_replace pre ++ String h (ds ++ String "_" (id ++ arg_replace post)))%string.
Proof.
  intros pre h ds id post Hp Hh Hd Hn Hi Ho. rewrite replace_clean by now apply free_ends. f_equal.
  apply replace_arg; auto; [apply (made_all _ _ _ digit_chars Hd)|apply (made_all _ _ _ ident_chars Hi)|now apply free_starts].
Qed.
Print Assumptions C25_arguments_rewritten.

(** And the policy arguments of an expression are found: a name such as p_sub,
    p10_obj or g_x that stands on its own is one of them, in its place. *)
Theorem C24_policy_arguments_found :
  forall pre h ds id post,
    free_before pre -> In h ["p"; "g"]%char -> made_of digits ds ->
    id <> ""%string -> made_of name_chars id -> free_after post ->
    p_args (pre ++ String h (ds ++ String "_" (id ++ post))) =
      (p_args pre ++ String h (ds ++ String "_" id) :: p_args post)%list.
Proof.
  intros pre h ds id post Hp Hh Hd Hn Hi Ho. rewrite p_args_clean by now apply free_ends. f_equal.
  apply p_args_arg; auto; [apply (made_all _ _ _ digit_chars Hd)|apply (made_all _ _ _ ident_chars Hi)|now apply free_starts].
Qed.
Print Assumptions C24_policy_arguments_found.
(** A text without the letters p and g has none. *)
Theorem C24_no_policy_arguments :
  forall s, has_char "p" s = false -> has_char "g" s = false -> p_args s = [].
Proof. intros s Hp Hg. apply p_args_clean_text. intros c [<-|[<-|[]]]; assumption. Qed.
Print Assumptions C24_no_policy_arguments.

Example C24_arguments_ex :
  p_args "f(r_sub, p10_sub)" = ["p10_sub"%string] /\ p_args ("r_sub == " ++ String "p" ("10" ++ String "_" ("sub" ++ ""))) = ["p10_sub"%string] /\
  free_before "r_sub == " /\ made_of digits "10" /\ made_of name_chars "sub" /\ free_after "" /\ p_args "r_sub == 'root'" = [].
Proof.
  split; [reflexivity|]. split; [reflexivity|]. split; [right; exists "r_sub ==", " "%char; repeat split; [intros X; cbn in X; intuition discriminate|discriminate]|].
  split; [intros c X; cbn in X |- *; intuition|]. split; [intros c X; cbn in X |- *; intuition|]. split; [now left|reflexivity].
Qed.

Example C25_rewritten_ex :
  arg_replace "g(r.sub, p.sub) && r2.obj == g.x" = "g(r_sub, p_sub) && r2_obj == g_x" /\
  free_before "g(" /\ free_after ", p.sub)".
Proof.
  split; [reflexivity|]. split; right; [exists "g", "("%char|exists ","%char, " p.sub)"]; repeat split; try discriminate; intros X; cbn in X; intuition discriminate.
Qed.

Example C25_ex : arg_replace "r_sub == 'alice' && p_act in ('read', 'write')" =
  "r_sub == 'alice' && p_act in ('read', 'write')".
Proof. vm_compute. reflexivity. Qed.

(** ** C63: a dotted key splits at its first dot

    The result (a, b) is determined: either the key is a, a dot, b and a has no
    dot, or the key has no dot and b is empty. *)
Theorem C63_split_key :
  forall key a b, SplitKey key = (a, b) <->
    (has_char "." a = false /\ key = (a ++ "." ++ b)%string) \/ (has_char "." key = false /\ a = key /\ b = ""%string).
Proof.
  assert (F : forall key, has_char "." key = false -> SplitKey key = (key, ""%string)).
  { intros key H. unfold SplitKey. now rewrite (split_char_nochar "." key H). }
  assert (G : forall a b, has_char "." a = false -> SplitKey (a ++ "." ++ b) = (a, b)).
  { intros a b H. unfold SplitKey. change ("." ++ b)%string with (String "." b). rewrite (split_char_app "." a b H).
    pose proof (join_split "." b) as J. pose proof (split_char_nonempty "." b) as N. destruct (split_char "." b) as [|x xs] eqn:E; [congruence|]. now rewrite J. }
  intros key a b. split.
  - intros H. destruct (has_char "." key) eqn:Hk.
    + left. assert (S : exists a b, has_char "." a = false /\ key = (a ++ "." ++ b)%string).
      { clear - Hk. induction key as [|c key IH]; [discriminate|]. cbn [has_char] in Hk. destruct (Ascii.eqb "." c) eqn:Ec.
        - apply Ascii.eqb_eq in Ec. subst c. exists ""%string, key. split; reflexivity.
        - destruct (IH Hk) as [a [b [Ha ->]]]. exists (String c a), b. split; [|reflexivity]. cbn [has_char]. now rewrite Ec. }
      destruct S as [a' [b' [Ha ->]]]. rewrite G in H by exact Ha. injection H as <- <-. auto.
    + right. rewrite F in H by exact Hk. injection H as <- <-. auto.
  - intros [[H ->]|[H [-> ->]]]; [now apply G|now apply F].
Qed.
Print Assumptions C63_split_key.
Example C63_ex : SplitKey "m.0.1" = ("m", "0.1")%string /\ SplitKey "m" = ("m", "")%string /\ SplitKey "m." = ("m", "")%string.
Proof. repeat split. Qed.
