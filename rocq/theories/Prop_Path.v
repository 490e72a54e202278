(** Properties C52 and C53: path matching and pattern recognition. *)
From Verif Require Import GoBase GoBaseP DefsM PathM PathSpec PathP.

(** ** C52: path matching. *)

(** False as stated: a path that has a "*" segment of its own. *)
Theorem C52_path_match_refuted :
  ~ (forall path pat, PathMatch path pat = true <-> seg_match colon_name (segments path) (segments pat)).
Proof.
  intros H. specialize (H "*/x/y" "*/y")%string.
  assert (E : PathMatch "*/x/y" "*/y" = false) by reflexivity. rewrite E in H.
  assert (F : seg_match colon_name (segments "*/x/y") (segments "*/y")).
  { change (seg_match colon_name (["*"; "x"] ++ ["y"]) ("*" :: ["y"]))%string.
    apply sm_star; [discriminate|]. repeat constructor. }
  apply H in F. discriminate.
Qed.
Print Assumptions C52_path_match_refuted.

(** Exactly what PathMatch and PathMatch2 compute, for all strings. *)
Theorem C52_path_match_exact :
  forall path pat,
    (PathMatch path pat = true <-> seg_match_code colon_name (segments path) (segments pat)) /\
    (PathMatch2 path pat = true <-> seg_match_code brace_name (segments path) (segments pat)).
Proof. intros. split; [apply PathMatch_code|apply PathMatch2_code]. Qed.
Print Assumptions C52_path_match_exact.

(** No false match, for all strings. *)
Theorem C52_path_match_sound :
  forall path pat,
    (PathMatch path pat = true -> seg_match colon_name (segments path) (segments pat)) /\
    (PathMatch2 path pat = true -> seg_match brace_name (segments path) (segments pat)).
Proof.
  intros. split; intros H.
  - now apply code_sound, PathMatch_code.
  - now apply code_sound, PathMatch2_code.
Qed.
Print Assumptions C52_path_match_sound.

(** Partial: the full equivalence for every path without a "*" segment (every
    pattern). *)
Theorem C52_path_match_partial :
  forall path pat,
    ~ In "*"%string (segments path) ->
    (PathMatch path pat = true <-> seg_match colon_name (segments path) (segments pat)) /\
    (PathMatch2 path pat = true <-> seg_match brace_name (segments path) (segments pat)).
Proof.
  intros path pat Hn. split; split; intros H.
  - now apply code_sound, PathMatch_code.
  - apply PathMatch_code. now apply code_complete.
  - now apply code_sound, PathMatch2_code.
  - apply PathMatch2_code. now apply code_complete.
Qed.
Print Assumptions C52_path_match_partial.

Example C52_example :
  ~ In "*"%string (segments "/book/12/chapter/3/4") /\
  PathMatch "/book/12/chapter/3/4" "/book/:id/*/4" = true /\
  PathMatch "/book/12" "/book/:id/*" = false /\
  PathMatch2 "/book/12" "/book/{id}" = true.
Proof. repeat split. cbn. intuition discriminate. Qed.

(** ** C53: patterns are recognised consistently. *)
Theorem C53_non_pattern_matches_itself_only :
  forall s, (IsPathPattern s = false -> forall path, PathMatch path s = true <-> path = s) /\
            (IsPathPattern2 s = false -> forall path, PathMatch2 path s = true <-> path = s).
Proof.
  assert (G : forall dynf s path,
    (forall q, In q (segments s) -> q <> "*"%string /\ ~ dynf q) ->
    (seg_match_code dynf (segments path) (segments s) <-> path = s)).
  { intros dynf s path Hq. split.
    - intros H. apply code_sound in H. apply no_pattern_eq in H; [|exact Hq].
      now apply split_inj in H.
    - intros ->. apply smc_refl. }
  intros s. split; intros Hp path.
  - rewrite PathMatch_code. apply G. intros q Hin.
    assert (Hno : ~ (q = "*"%string \/ colon_name q)); [|tauto]. intros Hc.
    assert (IsPathPattern s = true) by (apply (IsPathPattern_iff _ s _ _ dyn_colon); eauto). congruence.
  - rewrite PathMatch2_code. apply G. intros q Hin.
    assert (Hno : ~ (q = "*"%string \/ brace_name q)); [|tauto]. intros Hc.
    assert (IsPathPattern2 s = true) by (apply (IsPathPattern_iff _ s _ _ dyn_brace); eauto). congruence.
Qed.
Print Assumptions C53_non_pattern_matches_itself_only.

(** And what is recognised as a pattern. *)
Theorem C53_is_pattern_exact :
  forall s,
    (IsPathPattern s = true <-> exists q, In q (segments s) /\ (q = "*"%string \/ colon_name q)) /\
    (IsPathPattern2 s = true <-> exists q, In q (segments s) /\ (q = "*"%string \/ brace_name q)).
Proof. intros. split; [apply IsPathPattern_iff, dyn_colon|apply IsPathPattern_iff, dyn_brace]. Qed.
Print Assumptions C53_is_pattern_exact.

(** The two path matchers that role managers take: what they call a pattern, what
    it matches, and that names they do not call a pattern match themselves only. *)
Theorem C53_path_matchers :
  forall s,
    (IsPattern PathMatcher s = true <-> exists q, In q (segments s) /\ (q = "*"%string \/ colon_name q)) /\
    (IsPattern PathMatcher2 s = true <-> exists q, In q (segments s) /\ (q = "*"%string \/ brace_name q)) /\
    (forall path, Match PathMatcher path s = true <-> seg_match_code colon_name (segments path) (segments s)) /\
    (forall path, Match PathMatcher2 path s = true <-> seg_match_code brace_name (segments path) (segments s)) /\
    (IsPattern PathMatcher s = false -> forall path, Match PathMatcher path s = true <-> path = s) /\
    (IsPattern PathMatcher2 s = false -> forall path, Match PathMatcher2 path s = true <-> path = s).
Proof.
  intros s. split; [apply C53_is_pattern_exact|]. split; [apply C53_is_pattern_exact|]. split; [intros; apply PathMatch_code|].
  split; [intros; apply PathMatch2_code|]. apply C53_non_pattern_matches_itself_only.
Qed.
Print Assumptions C53_path_matchers.

(** A prefix matcher matches [pattern] only if it carries the prefix, and then
    it applies the wrapped function to the rest. *)
Theorem C53_prefix_matcher :
  forall prefix fn s pattern,
    Match (NewPrefixMatcher prefix fn) s pattern = true <->
    exists rest, pattern = (prefix ++ rest)%string /\ fn s rest = true.
Proof.
  intros prefix fn s pattern. cbn. split.
  - destruct (has_prefix pattern prefix) eqn:E; [|discriminate]. intros H.
    apply has_prefix_drop in E. exists (drop (String.length prefix) pattern). split; [|exact H].
    exact E.
  - intros [rest [-> H]]. rewrite has_prefix_app, drop_app. exact H.
Qed.
Print Assumptions C53_prefix_matcher.

Example C53_example :
  IsPathPattern "/book/12" = false /\ IsPathPattern "/book/:id" = true /\ IsPathPattern2 "/book/{id}" = true /\
  IsPattern (NewPrefixMatcher "p'" String.eqb) "p'a" = true /\
  Match (NewPrefixMatcher "p'" String.eqb) "a" "p'a" = true.
Proof. repeat split. Qed.
