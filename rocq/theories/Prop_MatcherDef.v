(** Property C08: compiling a matcher keeps its boolean meaning. *)
From Verif Require Import GoBase GoBaseP DefsM MatcherDefM MatcherDefSpec MatcherDefP.

Definition cond (s : string) : form := FAtom [mkTok KOther s].
Lemma cond_ok s : atoms_ok (cond s).
Proof. now apply atom_one. Qed.

(** A formula that [parsed] accepts is the only reading of its text. *)
Theorem C08_unique_reading :
  forall f g, atoms_ok f -> parsed f -> atoms_ok g -> parsed g -> written f = written g -> f = g.
Proof. intros f g A P B Q E. now apply unique_reading. Qed.
Print Assumptions C08_unique_reading.

(** [(a || b) && (c && d)] *)
Definition bad_and : form :=
  FAnd (FPar (FOr (cond "a") (cond "b"))) (FPar (FAnd (cond "c") (cond "d"))).
(** [(a || b) && ((c && d) || e)] *)
Definition bad_or : form :=
  FAnd (FPar (FOr (cond "a") (cond "b"))) (FPar (FOr (FPar (FAnd (cond "c") (cond "d"))) (cond "e"))).

(** False as stated, however Go grows slices: [(a || b) && (c && d)] is accepted
    when only b and d hold, and [(a || b) && ((c && d) || e)] is refused
    when b and e hold. *)
Theorem C08_boolean_meaning_refuted :
  forall grow,
    ~ (forall f, atoms_ok f -> parsed f ->
         exists h cs, compile grow (written f) = BOk h cs /\ forall val, accepts_any val cs = sem val f) /\
    (exists h cs, compile grow (written bad_and) = BOk h cs /\
       let val := fun e => String.eqb e "b" || String.eqb e "d" in
       accepts_any val cs = true /\ sem val bad_and = false) /\
    (exists h cs, compile grow (written bad_or) = BOk h cs /\
       let val := fun e => String.eqb e "b" || String.eqb e "e" in
       accepts_any val cs = false /\ sem val bad_or = true).
Proof.
  intros grow.
  assert (H1 : exists h cs, compile grow (written bad_and) = BOk h cs /\
       let val := fun e => String.eqb e "b" || String.eqb e "d" in
       accepts_any val cs = true /\ sem val bad_and = false).
  { eexists _, _. split; [reflexivity|]. split; reflexivity. }
  split; [|split; [exact H1|]].
  - intros H. destruct (H bad_and) as [h [cs [E Hv]]].
    + repeat split; apply cond_ok.
    + repeat split.
    + destruct H1 as [h' [cs' [E' [A S]]]]. rewrite E in E'. injection E' as <- <-.
      rewrite Hv in A. cbv zeta in A, S. rewrite S in A. discriminate.
  - eexists _, _. split; [reflexivity|]. split; reflexivity.
Qed.
Print Assumptions C08_boolean_meaning_refuted.

(** Partial: every expression in which no && has both an || in its left
    operand and an && in its right operand; for every growth policy.  Missing:
    the expressions of the refutation. *)
Theorem C08_boolean_meaning_partial :
  forall grow f, atoms_ok f -> parsed f -> faithful f = true ->
    exists h cs, compile grow (written f) = BOk h cs /\ forall val, accepts_any val cs = sem val f.
Proof.
  intros grow f A P F. destruct (compile_faithful grow f (conj A P) F) as [h E].
  exists h, (ptree f []). split; [exact E|]. intros val. rewrite ptree_sem. cbn. now rewrite andb_true_r.
Qed.
Print Assumptions C08_boolean_meaning_partial.

(** Special cases users write: expressions without ||, and disjunctions of
    conjunctions. *)
Theorem C08_without_or :
  forall grow f, atoms_ok f -> parsed f -> has_or f = false ->
    exists h cs, compile grow (written f) = BOk h cs /\ List.length cs = 1 /\ forall val, accepts_any val cs = sem val f.
Proof.
  intros grow f A P H.
  assert (F : faithful f = true).
  { revert H. clear. induction f as [ts|f IHf g IHg|f IHf g IHg|f IHf]; cbn; intros H; auto; try discriminate.
    apply orb_false_iff in H as [H1 H2]. rewrite IHf, IHg, H1 by assumption. reflexivity. }
  destruct (compile_faithful grow f (conj A P) F) as [h E].
  exists h, (ptree f []). split; [exact E|]. split.
  - rewrite ptree_length. revert H. clear. induction f as [ts|f IHf g IHg|f IHf g IHg|f IHf]; cbn; intros H; auto; try discriminate.
    apply orb_false_iff in H as [H1 _]. auto.
  - intros val. rewrite ptree_sem. cbn. now rewrite andb_true_r.
Qed.
Print Assumptions C08_without_or.

Theorem C08_or_of_faithful :
  forall grow f g, atoms_ok (FOr f g) -> parsed (FOr f g) -> faithful f = true -> faithful g = true ->
    exists h cs, compile grow (written (FOr f g)) = BOk h cs /\
      forall val, accepts_any val cs = sem val f || sem val g.
Proof.
  intros grow f g A P F G.
  apply (C08_boolean_meaning_partial grow (FOr f g) A P). cbn. now rewrite F, G.
Qed.
Print Assumptions C08_or_of_faithful.

(** Compiling ends on every token list, also malformed ones. *)
Theorem C08_compiling_terminates :
  forall grow ts, (exists h cs, compile grow ts = BOk h cs) \/ compile grow ts = BPanic.
Proof.
  intros grow ts. pose proof (compile_no_fuel grow ts) as H. destruct (compile grow ts) as [h cs| |]; [left|right|]; eauto.
  congruence.
Qed.
Print Assumptions C08_compiling_terminates.

(** A non-trivial faithful matcher: [g && (o || k) && a || s]. *)
Example C08_faithful_example :
  let f := FOr (FAnd (FAnd (cond "g") (FPar (FOr (cond "o") (cond "k")))) (cond "a")) (cond "s") in
  atoms_ok f /\ parsed f /\ faithful f = true /\
  match compile (fun c => c) (written f) with
  | BOk _ cs => cs = [Stage "g" [Stage "o" [Stage "a" []]; Stage "k" [Stage "a" []]]; Stage "s" []]
  | _ => False
  end.
Proof.
  cbv zeta. split; [cbn; repeat split; try apply cond_ok|]. split; [cbn; tauto|]. split; reflexivity.
Qed.
