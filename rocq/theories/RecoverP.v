(** The role manager under recovered panics. *)
From Verif Require Import GoBase GoBaseP PolicyM CacheM CacheSpec PathM RbacM RbacSpec RbacP RbacP2 RbacP3
  RecoverM RecoverSpec.
From Verif Require CacheP.

(** ** Calls that return do what they do with a total matching function *)
Section Returns.
  Context (fails : string -> string -> bool).

  Lemma pbind_some {A B} (o : rolemgr * option A) f (s : rolemgr) (v : B) :
    pbind o f = (s, Some v) -> exists s1 a, o = (s1, Some a) /\ f s1 a = (s, Some v).
  Proof.
    unfold pbind. destruct o as [s1 [a|]]; cbn; [|discriminate]. intros H. exists s1, a. auto.
  Qed.

  Lemma q_match_val rm s p rm' b : q_match fails rm s p = (rm', Some b) -> rm_match rm s p = Val (rm', b).
  Proof.
    unfold q_match, rm_match. destruct (Get (rm_cache rm) (join "$$" [s; p])) as [[c [v|]]|]; cbn [obind].
    - intros H. injection H as <- <-. reflexivity.
    - destruct (rm_matcher rm) as [m|]; [|discriminate]. destruct (fails s p); [discriminate|].
      destruct (Put c (join "$$" [s; p]) (Match m s p)); cbn [obind]; [|discriminate].
      intros H. injection H as <- <-. reflexivity.
    - discriminate.
  Qed.

  Lemma rm_match_all rm a s p :
    rm_match (with_all rm a) s p = obind (rm_match rm s p) (fun x => Val (with_all (fst x) a, snd x)).
  Proof.
    unfold rm_match. cbn [rm_cache with_all rm_matcher].
    destruct (Get (rm_cache rm) (join "$$" [s; p])) as [[c [v|]]|]; cbn [obind]; try reflexivity.
    destruct (rm_matcher rm) as [m|]; [|reflexivity].
    destruct (Put c (join "$$" [s; p]) (Match m s p)); reflexivity.
  Qed.
  Lemma rm_match_keeps rm s p rm' b : rm_match rm s p = Val (rm', b) -> rm_all rm' = rm_all rm.
  Proof.
    unfold rm_match. destruct (Get (rm_cache rm) (join "$$" [s; p])) as [[c [v|]]|]; cbn [obind]; [|destruct (rm_matcher rm) as [m|]|discriminate].
    - intros H. injection H as <- _. reflexivity.
    - destruct (Put c (join "$$" [s; p]) (Match m s p)); cbn [obind]; [|discriminate].
      intros H. injection H as <- _. reflexivity.
    - discriminate.
  Qed.

  Lemma matchingRoles_all pattern names : forall rm a,
    matchingRoles (with_all rm a) pattern names =
    obind (matchingRoles rm pattern names) (fun x => Val (with_all (fst x) a, snd x)).
  Proof.
    induction names as [|n names IH]; intros rm a; cbn; [reflexivity|].
    destruct (negb (String.eqb pattern n)); [|apply IH]. rewrite rm_match_all.
    destruct (rm_match rm n pattern) as [[r b]|]; cbn [obind fst snd]; [|reflexivity].
    rewrite IH. destruct (matchingRoles r pattern names) as [[r2 l]|]; reflexivity.
  Qed.
  Lemma matchingRoles_keeps pattern names : forall rm rm' l,
    matchingRoles rm pattern names = Val (rm', l) -> rm_all rm' = rm_all rm.
  Proof.
    induction names as [|n names IH]; intros rm rm' l; cbn; [intros H; now injection H as <- _|].
    destruct (negb (String.eqb pattern n)); [|apply IH].
    destruct (rm_match rm n pattern) as [[r b]|] eqn:E; cbn [obind]; [|discriminate].
    destruct (matchingRoles r pattern names) as [[r2 l2]|] eqn:E2; cbn [obind]; [|discriminate].
    intros H. injection H as <- _. apply IH in E2. apply rm_match_keeps in E. congruence.
  Qed.

  Lemma with_all_twice rm a b : with_all (with_all rm a) b = with_all rm b.
  Proof. reflexivity. Qed.
  Lemma with_all_same rm : with_all rm (rm_all rm) = rm.
  Proof. now destruct rm. Qed.

  Lemma q_roles_val pattern names : forall rm rm',
    q_roles fails rm pattern names = (rm', Some tt) ->
    exists rm1 l, matchingRoles rm pattern names = Val (rm1, l) /\
      rm' = with_all rm1 (fold_left (fun a r => addMatch a pattern r) l (rm_all rm)).
  Proof.
    induction names as [|n names IH]; intros rm rm'; cbn.
    { intros H. injection H as <-. exists rm, []. split; [reflexivity|]. cbn. now rewrite with_all_same. }
    destruct (negb (String.eqb pattern n)); [|apply IH].
    intros H. apply pbind_some in H as [s [b [H1 H2]]]. apply q_match_val in H1. rewrite H1. cbn [obind].
    pose proof (rm_match_keeps _ _ _ _ _ H1) as Ek.
    destruct b.
    - apply IH in H2 as [rm1 [l [E ->]]]. rewrite matchingRoles_all in E.
      destruct (matchingRoles s pattern names) as [[r2 l2]|] eqn:E2; cbn [obind fst snd] in *; [|discriminate].
      injection E as <- <-. exists r2, (n :: l2). split; [reflexivity|]. cbn [fold_left].
      cbn [rm_all with_all]. rewrite with_all_twice, Ek. reflexivity.
    - apply IH in H2 as [rm1 [l [E ->]]]. rewrite E. cbn [obind]. exists rm1, l.
      split; [reflexivity|]. now rewrite Ek.
  Qed.

  Lemma mhas_keys {V} (a b : smap V) n : mkeys a = mkeys b -> mhas n a = mhas n b.
  Proof.
    intros H. destruct (mhas n b) eqn:E.
    - apply mhas_true in E as [v E]. apply mget_In in E.
      assert (Hi : In n (mkeys a)) by (rewrite H; apply in_map_iff; now exists (n, v)).
      destruct (mhas n a) eqn:F; [reflexivity|]. unfold mhas in F.
      destruct (mget n a) eqn:G; [discriminate|]. now apply mget_None in G.
    - destruct (mhas n a) eqn:F; [|reflexivity]. apply mhas_true in F as [v F]. apply mget_In in F.
      assert (Hi : In n (mkeys b)) by (rewrite <- H; apply in_map_iff; now exists (n, v)).
      unfold mhas in E. destruct (mget n b) eqn:G; [discriminate|]. now apply mget_None in G.
  Qed.

  Lemma matchingPatterns_all name pats : forall rm a, mkeys a = mkeys (rm_all rm) ->
    matchingPatterns (with_all rm a) name pats =
    obind (matchingPatterns rm name pats) (fun x => Val (with_all (fst x) a, snd x)).
  Proof.
    induction pats as [|p pats IH]; intros rm a Hk; cbn; [reflexivity|].
    destruct (negb (String.eqb p name)); [|apply IH; exact Hk]. rewrite rm_match_all.
    destruct (rm_match rm name p) as [[r b]|] eqn:E; cbn [obind fst snd]; [|reflexivity].
    apply rm_match_keeps in E. cbn [rm_all with_all]. rewrite E, (mhas_keys a (rm_all rm) p Hk).
    destruct (b && negb (mhas p (rm_all rm))); [reflexivity|].
    rewrite IH by congruence. destruct (matchingPatterns r name pats) as [[r2 l]|]; reflexivity.
  Qed.
  Lemma matchingPatterns_keeps name pats : forall rm rm' l,
    matchingPatterns rm name pats = Val (rm', l) -> rm_all rm' = rm_all rm.
  Proof.
    induction pats as [|n pats IH]; intros rm rm' l; cbn; [intros H; now injection H as <- _|].
    destruct (negb (String.eqb n name)); [|apply IH].
    destruct (rm_match rm name n) as [[r b]|] eqn:E; cbn [obind]; [|discriminate].
    destruct (b && negb (mhas n (rm_all r))); [discriminate|].
    destruct (matchingPatterns r name pats) as [[r2 l2]|] eqn:E2; cbn [obind]; [|discriminate].
    intros H. injection H as <- _. apply IH in E2. apply rm_match_keeps in E. congruence.
  Qed.

  Lemma q_patterns_val name pats : forall rm rm',
    q_patterns fails rm name pats = (rm', Some tt) ->
    exists rm1 l, matchingPatterns rm name pats = Val (rm1, l) /\
      rm' = with_all rm1 (fold_left (fun a r => addMatch a r name) l (rm_all rm)).
  Proof.
    induction pats as [|n pats IH]; intros rm rm'; cbn.
    { intros H. injection H as <-. exists rm, []. split; [reflexivity|]. cbn. now rewrite with_all_same. }
    destruct (negb (String.eqb n name)); [|apply IH].
    intros H. apply pbind_some in H as [s [b [H1 H2]]]. apply q_match_val in H1. rewrite H1. cbn [obind].
    pose proof (rm_match_keeps _ _ _ _ _ H1) as Ek.
    destruct (b && negb (mhas n (rm_all s))); [discriminate|].
    destruct b.
    - apply IH in H2 as [rm1 [l [E ->]]]. rewrite matchingPatterns_all in E by apply keys_addMatch.
      destruct (matchingPatterns s name pats) as [[r2 l2]|] eqn:E2; cbn [obind fst snd] in *; [|discriminate].
      injection E as <- <-. exists r2, (n :: l2). split; [reflexivity|]. cbn [fold_left].
      cbn [rm_all with_all]. rewrite with_all_twice, Ek. reflexivity.
    - apply IH in H2 as [rm1 [l [E ->]]]. rewrite E. cbn [obind]. exists rm1, l.
      split; [reflexivity|]. now rewrite Ek.
  Qed.

  Lemma q_getRole_val ord rm n rm' b :
    q_getRole fails ord rm n = (rm', Some b) -> getRole ord rm n = Val (rm', b).
  Proof.
    unfold q_getRole, getRole. destruct (mhas n (rm_all rm)); [intros H; now injection H as <- <-|].
    cbn [rm_matcher with_all]. destruct (rm_matcher rm) as [m|]; [|intros H; now injection H as <- <-].
    destruct (IsPattern m n); intros H; apply pbind_some in H as [s [[] [H1 H2]]]; injection H2 as <- <-.
    - apply q_roles_val in H1 as [rm1 [l [E ->]]]. cbn [rm_all with_all with_patterns rm_patterns] in *.
      rewrite E. cbn [obind]. apply matchingRoles_keeps in E. now rewrite E.
    - apply q_patterns_val in H1 as [rm1 [l [E ->]]]. cbn [rm_all with_all with_patterns rm_patterns] in *.
      rewrite E. cbn [obind]. apply matchingPatterns_keeps in E. now rewrite E.
  Qed.

  Lemma q_match_if_set_val rm s p rm' b :
    q_match_if_set fails rm s p = (rm', Some b) -> match_if_set rm s p = Val (rm', b).
  Proof.
    unfold q_match_if_set, match_if_set. destruct (rm_matcher rm); [apply q_match_val|].
    intros H. now injection H as <- <-.
  Qed.

  Lemma q_level_val ord target roles : forall rm next rm' r,
    q_level fails ord rm target roles next = (rm', Some r) -> level_loop ord rm target roles next = Val (rm', r).
  Proof.
    induction roles as [|x roles IH]; intros rm next rm' r; cbn [q_level level_loop].
    { intros H. now injection H as <- <-. }
    intros H. apply pbind_some in H as [s [b [H1 H2]]].
    assert (E : (if String.eqb target x then Val (rm, true) else match_if_set rm x target) = Val (s, b)).
    { destruct (String.eqb target x); [now injection H1 as <- <-|now apply q_match_if_set_val]. }
    rewrite E. cbn [obind]. destruct b; [now injection H2 as <- <-|now apply IH].
  Qed.

  Lemma q_helper_val ord target : forall level rm roles rm' b,
    q_helper fails ord level rm target roles = (rm', Some b) ->
    hasLinkHelper ord level rm target roles = Val (rm', b).
  Proof.
    induction level as [|level IH]; intros rm roles rm' b; cbn [q_helper hasLinkHelper].
    { intros H. now injection H as <- <-. }
    destruct roles as [|r0 roles]; [intros H; now injection H as <- <-|].
    intros H. apply pbind_some in H as [s [nx [H1 H2]]]. apply q_level_val in H1. rewrite H1. cbn [obind].
    destruct nx as [nx|]; [now apply IH|now injection H2 as <- <-].
  Qed.

  Lemma q_step_val ord rm c rm' x :
    q_step fails ord rm c = (rm', Some x) -> rstep ord rm c = Val (rm', x).
  Proof.
    destruct c as [a b ds|a b ds|a b|a|a|]; cbn [q_step rstep]; intros H;
      try (apply pbind_some in H as [s [y [H1 H2]]]; injection H2 as <- <-).
    - unfold q_AddLink in H1. apply pbind_some in H1 as [s1 [u1 [H1 H2]]]. apply pbind_some in H2 as [s2 [u2 [H2 H3]]].
      apply q_getRole_val in H1, H2. unfold rm_AddLink. rewrite H1. cbn [obind]. rewrite H2. cbn [obind].
      destruct (addRole _ a b) as [al ad]. now injection H3 as <- <-.
    - unfold q_DeleteLink in H1. apply pbind_some in H1 as [s1 [u1 [H1 H2]]]. apply pbind_some in H2 as [s2 [u2 [H2 H3]]].
      apply q_getRole_val in H1, H2. unfold rm_DeleteLink. rewrite H1. cbn [obind]. rewrite H2. cbn [obind].
      destruct (removeRole _ a b) as [al ad]. now injection H3 as <- <-.
    - unfold q_HasLink in H1. apply pbind_some in H1 as [s1 [u1 [H1 H2]]]. unfold rm_HasLink.
      assert (E : (if String.eqb a b then Val (rm, true) else match_if_set rm a b) = Val (s1, u1)).
      { destruct (String.eqb a b); [now injection H1 as <- <-|now apply q_match_if_set_val]. }
      rewrite E. cbn [obind]. destruct u1; [now injection H2 as <- <-|].
      apply pbind_some in H2 as [s2 [u2 [H2 H3]]]. apply pbind_some in H3 as [s3 [u3 [H3 H4]]].
      apply q_getRole_val in H2, H3. rewrite H2. cbn [obind]. rewrite H3. cbn [obind].
      destruct (q_helper fails ord (Z.to_nat (rm_level s3)) s3 b [a]) as [s4 r] eqn:E4.
      injection H4 as <- ->. apply q_helper_val in E4. rewrite E4. reflexivity.
    - unfold q_GetRoles in H1. apply pbind_some in H1 as [s1 [u1 [H1 H2]]]. apply q_getRole_val in H1.
      unfold rm_GetRoles. rewrite H1. cbn [obind]. now injection H2 as <- <-.
    - unfold q_GetUsers in H1. apply pbind_some in H1 as [s1 [u1 [H1 H2]]]. apply q_getRole_val in H1.
      unfold rm_GetUsers. rewrite H1. cbn [obind]. now injection H2 as <- <-.
    - now injection H as <- <-.
  Qed.

  Lemma q_exec_val h : forall rm rm' xs,
    q_exec fails rm h = (rm', map Some xs) -> rexec rm h = Val (rm', xs).
  Proof.
    induction h as [|[ord c] h IH]; intros rm rm' xs; cbn [q_exec rexec].
    { intros H. destruct xs; [|discriminate]. now injection H as <-. }
    destruct (q_step fails ord rm c) as [r1 x] eqn:E1. destruct (q_exec fails r1 h) as [r2 ys] eqn:E2.
    destruct xs as [|y xs]; [discriminate|]. cbn. intros H. injection H as <- -> ->.
    apply q_step_val in E1. rewrite E1. cbn [obind]. rewrite (IH _ _ _ E2). reflexivity.
  Qed.
End Returns.
