(** Properties C46, C47 and C48 of the file adapter
    (storage/adapter/fileadapter.go). *)
From Coq Require Import Permutation.
From Verif Require Import GoBase GoBaseP PolicyM PolicySpec PolicyP FileM FileSpec FileP.
Import ListNotations.

Definition no_fault : nat -> option nat := fun _ => None.

(** ** C46: rules saved to a file and loaded again are the same rules. *)

(** The full statement, for every list of rules, is false: the values are not
    quoted.  A comma splits a value, white space at its start is lost, a newline
    splits a rule, a leading '#' makes it a comment, and with a quote inside a
    value, or with an empty rule, the file cannot be loaded at all or the rule is
    missing. *)
Theorem C46_round_trip_refuted :
  forall (chunk : string -> list string) (d : disk), pieces_of chunk ->
    let back rs := load_file (fst (SavePolicy no_fault chunk d rs)) in
    back [["p"; "a,b"; "read"]] = ([["p"; "a"; "b"; "read"]], None) /\
    back [["p"; " alice"; "read"]] = ([["p"; "alice"; "read"]], None) /\
    back [["p"; (String LF "alice")%string; "read"]] = ([["p"; ""]; ["alice"; "read"]], None) /\
    back [["#p"; "alice"]; ["p"; "bob"]] = ([["p"; "bob"]], None) /\
    back [[]; ["p"; "bob"]] = ([["p"; "bob"]], None) /\
    back [["p"; "alice"]; ["p"; ("a" ++ String DQ "b")%string]; ["p"; "bob"]] = ([["p"; "alice"]], Some FParse).
Proof.
  intros chunk d Hc back.
  assert (B : forall rs, back rs = load_text (save_text rs)).
  { intros rs. subst back. cbn beta. unfold SavePolicy. rewrite run_no_fault by reflexivity. cbn [fst]. now rewrite save_run, Hc. }
  rewrite !B. vm_compute. auto 10.
Qed.
Print Assumptions C46_round_trip_refuted.

(** Exactly the rules of plain values survive: whatever was in the file before and
    however the text is split into writes, what is loaded after saving [rs] is
    [rs], in order and without an error, if and only if every rule is plain. *)
Theorem C46_round_trip_partial :
  forall (chunk : string -> list string) (d : disk) (rs : list rule), pieces_of chunk ->
    exists d', SavePolicy no_fault chunk d rs = (d', None) /\
    (load_file d' = (rs, None) <-> Forall plain_line rs).
Proof.
  intros chunk d rs Hc. unfold SavePolicy. rewrite run_no_fault by reflexivity. eexists. split; [reflexivity|].
  rewrite save_run, Hc. cbn [load_file]. apply round_trip.
Qed.
Print Assumptions C46_round_trip_partial.

Lemma plain_of (r : rule) : r <> [] -> r <> [""%string] ->
  forallb (fun v => negb (has_char "," v) && negb (has_char DQ v) && negb (has_char LF v) && negb (has_char CR v) && negb (sp v)) r = true ->
  prefix "#" (hd ""%string r) = false -> (N.of_nat (String.length (join ", " r)) <? 65536)%N = true -> plain_line r.
Proof.
  intros H1 H2 H3 H4 H5. apply N.ltb_lt in H5. rewrite forallb_forall in H3.
  assert (K : forall v, In v r -> has_char "," v = false /\ has_char DQ v = false /\ has_char LF v = false /\ has_char CR v = false /\ sp v = false).
  { intros v Hv. specialize (H3 v Hv). rewrite !andb_true_iff, !negb_true_iff in H3. tauto. }
  apply plain_line_iff. split; [split; [|exact H5]|].
  - split; [exact H1|]. split; [exact H2|]. split; [|split].
    + apply Forall_forall. intros v Hv. destruct (K v Hv) as [? [? [? [? ?]]]]. split; auto.
    + intros [t E]. rewrite E in H4. assert (prefix "#" ("#" ++ t) = true) as P by (apply prefix_hash; eexists; reflexivity). congruence.
    + intros [t E]. assert (I : In (last r ""%string) r) by (destruct r; [congruence|]; apply (proj1 (Forall_forall (fun x => In x (s :: r)) [last (s :: r) ""%string])); [constructor; [|constructor]; clear; revert s; induction r as [|a r IH]; intros s; [left; reflexivity|right; apply (IH a)]|left; reflexivity]).
      destruct (K _ I) as [_ [_ [_ [C _]]]]. rewrite E in C. rewrite has_char_app in C. cbn in C. now rewrite orb_true_r in C.
  - apply Forall_forall. intros v Hv. apply K, Hv.
Qed.
Ltac plain := apply plain_of; [discriminate|discriminate|reflexivity|reflexivity|reflexivity].
Ltac plains := repeat (apply Forall_cons; [plain|]); apply Forall_nil.

Example C46_ex :
  Forall plain_line [["p"; "alice"; "/data/:id"; "read"]; ["g"; "alice"; "role::admin #1"]; ["p"; ""; "x y"]] /\
  pieces_of (fun t => [substring 0 5 t; substring 5 (String.length t) t]) /\
  load_file (fst (SavePolicy no_fault (fun t => [t]) (Some "old"%string) [["p"; "alice"; "/data/:id"; "read"]; ["g"; "alice"; "role::admin #1"]; ["p"; ""; "x y"]]))
  = ([["p"; "alice"; "/data/:id"; "read"]; ["g"; "alice"; "role::admin #1"]; ["p"; ""; "x y"]], None).
Proof.
  split; [plains|]. split; [|vm_compute; reflexivity].
  intros t. cbn [fold_right]. rewrite sapp_nil.
  assert (G : forall n s m, String.length s <= m -> (substring 0 n s ++ substring n m s)%string = s).
  { clear. assert (Z : forall s m, String.length s <= m -> substring 0 m s = s).
    { induction s as [|c s IH]; intros m H; [destruct m; reflexivity|]. destruct m as [|m]; cbn in *; [lia|]. rewrite IH; [reflexivity|lia]. }
    induction n as [|n IH]; intros s m H.
    - destruct s as [|c s]; [destruct m; reflexivity|]. change (substring 0 0 (String c s)) with ""%string. cbn [append]. now apply Z.
    - destruct s as [|c s]; [reflexivity|]. cbn [substring append]. f_equal. apply IH. cbn in H. lia. }
  apply G. lia.
Qed.

(** ** C47: edits of the file are set operations. *)

Lemma rule_eqb_eq a b : rule_eqb a b = true <-> a = b.
Proof. destruct (rule_eqb_spec a b); split; congruence. Qed.
(** Loading the file gives [rs]; after the edit it gives [rs']
    without an error, every rule once. *)
Lemma edit_spec chunk ord d rs changes : pieces_of chunk -> (forall l, Permutation (ord l) l) ->
  load_file d = (rs, None) -> Forall plain_line rs ->
  Forall (fun o => match o with PAdd r => plain_line r | PRemove r => comma_free r | PClear => True end) changes ->
  exists d' rs', edit no_fault chunk ord d changes = (d', None) /\ load_file d' = (rs', None) /\ NoDup rs' /\
    forall r, In r rs' <-> plain_line r /\ fold_left set_step changes (set_of (map PAdd rs)) r = true.
Proof.
  intros Hc Ho L Hrs Hch. unfold edit. rewrite L. unfold SavePolicy. rewrite run_no_fault by reflexivity. rewrite save_run, Hc.
  assert (PC : forall r, plain_line r -> comma_free r).
  { intros r Hr. apply plain_line_iff in Hr as [[[H1 [_ [H2 _]]] _] _]. split; [exact H1|]. eapply Forall_impl; [|exact H2]. intros v [H _]. exact H. }
  assert (OK : Forall (op_ok comma_free) (map PAdd rs ++ changes)).
  { apply Forall_app. split; [apply Forall_forall; intros o H; apply in_map_iff in H as [r [<- H]]; cbn; apply PC; rewrite Forall_forall in Hrs; auto|].
    eapply Forall_impl; [|exact Hch]. intros [r|r|]; cbn; auto. }
  destruct (pexec NewPolicy (map PAdd rs ++ changes)) as [p es] eqn:E. cbn [fst].
  destruct (repr_exec _ comma_free_inj _ _ _ _ _ (repr_nil comma_free) OK E) as [Hrep _]. rewrite fold_left_app in Hrep. fold (set_of (map PAdd rs)) in Hrep.
  destruct (repr_enumerates _ _ _ Hrep) as [ND EN]. pose proof Hrep as [_ [CF _]].
  assert (PL : Forall plain_line (mvals p)).
  { assert (X : forall h s, Forall (fun o => match o with PAdd r => plain_line r | _ => True end) h -> (forall r, s r = true -> plain_line r) -> forall r, fold_left set_step h s r = true -> plain_line r).
    { induction h as [|o h IH]; intros s Hh Hs r H; [auto|]. inversion Hh as [|? ? Ho1 Hh1]; subst. cbn [fold_left] in H. apply (IH _ Hh1) in H; [exact H|].
      intros x Hx. destruct o as [a|a|]; cbn [set_step] in Hx; unfold set_add, set_remove, set_empty in Hx; [|apply andb_true_iff in Hx as [_ Hx]; auto|discriminate].
      apply orb_true_iff in Hx as [Hx|Hx]; [|auto]. apply rule_eqb_eq in Hx. now subst. }
    apply Forall_forall. intros r Hr. rewrite Forall_forall in CF. pose proof (proj1 (EN r (CF r Hr)) Hr) as S. rewrite <- fold_left_app in S || unfold set_of in S.
    unfold set_of in S. rewrite <- fold_left_app in S. apply X in S; [exact S| |discriminate]. apply Forall_app. split; [apply Forall_forall; intros o H; apply in_map_iff in H as [y [<- H]]; rewrite Forall_forall in Hrs; auto|].
    eapply Forall_impl; [|exact Hch]. intros [y|y|]; auto. }
  exists (Some (save_text (ord (mvals p)))), (ord (mvals p)). split; [reflexivity|]. split.
  { cbn [load_file]. apply round_trip. apply Forall_forall. intros r Hr. apply (Permutation_in _ (Ho _)) in Hr. rewrite Forall_forall in PL. auto. }
  split; [apply (Permutation_NoDup (Permutation_sym (Ho _)) ND)|]. intros r. split.
  - intros Hr. apply (Permutation_in _ (Ho _)) in Hr. rewrite Forall_forall in PL. split; [auto|]. apply EN; auto.
  - intros [P S]. apply (Permutation_in _ (Permutation_sym (Ho _))). apply EN; auto.
Qed.
Lemma adds_in l : forall s r, fold_left set_step (map PAdd l) s r = true <-> In r l \/ s r = true.
Proof.
  induction l as [|x l IH]; intros s r; cbn [map fold_left]; [cbn; tauto|]. rewrite IH. cbn [set_step In]. unfold set_add. rewrite orb_true_iff, rule_eqb_eq.
  split; intros H; destruct H as [H|H]; auto; destruct H; auto.
Qed.
Lemma removes_in l : forall s r, fold_left set_step (map PRemove l) s r = true <-> s r = true /\ ~ In r l.
Proof.
  induction l as [|x l IH]; intros s r; cbn [map fold_left]; [cbn; tauto|]. rewrite IH. cbn [set_step In]. unfold set_remove. rewrite andb_true_iff, negb_true_iff.
  destruct (rule_eqb r x) eqn:E.
  - apply rule_eqb_eq in E. subst. split; [intros [[? ?] ?]; discriminate|intros [_ H]; exfalso; apply H; now left].
  - assert (r <> x) by (intros ->; rewrite (proj2 (rule_eqb_eq x x) eq_refl) in E; discriminate). split; [intros [[_ H1] H2]; split; [exact H1|intros [?|?]; [congruence|auto]]|tauto].
Qed.

(** If the file holds plain rules, then after AddRules it holds, each once, the
    rules it held and the added ones, and nothing else.  The order in which they
    are written is any order. *)
Theorem C47_add_rules_partial :
  forall (chunk : string -> list string) (ord : list rule -> list rule) (d : disk) (held added : list rule),
    pieces_of chunk -> (forall l, Permutation (ord l) l) ->
    load_file d = (held, None) -> Forall plain_line held -> Forall plain_line added ->
    exists d' now,
      AddRules no_fault chunk ord d added = (d', None) /\ load_file d' = (now, None) /\
      NoDup now /\ forall r, In r now <-> In r held \/ In r added.
Proof.
  intros chunk ord d held added Hc Ho L H1 H2. destruct (edit_spec chunk ord d held (map PAdd added) Hc Ho L H1) as [d' [now [E [L' [ND HI]]]]].
  { apply Forall_forall. intros o H. apply in_map_iff in H as [r [<- H]]. rewrite Forall_forall in H2. auto. }
  exists d', now. split; [exact E|]. split; [exact L'|]. split; [exact ND|]. intros r. rewrite HI, adds_in. unfold set_of. rewrite adds_in.
  rewrite Forall_forall in *. split; [intros [_ [?|[?|?]]]; auto; discriminate|]. intros [H|H]; split; auto.
Qed.
Print Assumptions C47_add_rules_partial.

(** After RemoveRules it holds the rules it held except the removed ones. *)
Theorem C47_remove_rules_partial :
  forall (chunk : string -> list string) (ord : list rule -> list rule) (d : disk) (held removed : list rule),
    pieces_of chunk -> (forall l, Permutation (ord l) l) ->
    load_file d = (held, None) -> Forall plain_line held -> Forall comma_free removed ->
    exists d' now,
      RemoveRules no_fault chunk ord d removed = (d', None) /\ load_file d' = (now, None) /\
      NoDup now /\ forall r, In r now <-> In r held /\ ~ In r removed.
Proof.
  intros chunk ord d held removed Hc Ho L H1 H2. destruct (edit_spec chunk ord d held (map PRemove removed) Hc Ho L H1) as [d' [now [E [L' [ND HI]]]]].
  { apply Forall_forall. intros o H. apply in_map_iff in H as [r [<- H]]. rewrite Forall_forall in H2. auto. }
  exists d', now. split; [exact E|]. split; [exact L'|]. split; [exact ND|]. intros r. rewrite HI, removes_in. unfold set_of. rewrite adds_in.
  rewrite Forall_forall in *. split; [intros [_ [[?|?] ?]]; auto; discriminate|]. intros [H N]. split; auto.
Qed.
Print Assumptions C47_remove_rules_partial.

(** AddRule and RemoveRule do the same for one rule. *)
Theorem C47_one_rule_partial :
  forall (chunk : string -> list string) (ord : list rule -> list rule) (d : disk) (held : list rule) (r : rule),
    pieces_of chunk -> (forall l, Permutation (ord l) l) ->
    load_file d = (held, None) -> Forall plain_line held -> plain_line r ->
    (exists d' now, AddRule no_fault chunk ord d r = (d', None) /\ load_file d' = (now, None) /\
      NoDup now /\ forall x, In x now <-> In x held \/ x = r) /\
    (exists d' now, RemoveRule no_fault chunk ord d r = (d', None) /\ load_file d' = (now, None) /\
      NoDup now /\ forall x, In x now <-> In x held /\ x <> r).
Proof.
  intros chunk ord d held r Hc Ho L H1 H2. split.
  - destruct (C47_add_rules_partial chunk ord d held [r] Hc Ho L H1 ltac:(auto)) as [d' [now [E [L' [ND HI]]]]].
    exists d', now. split; [exact E|]. split; [exact L'|]. split; [exact ND|]. intros x. rewrite HI. cbn. intuition congruence.
  - assert (CF : comma_free r).
    { apply plain_line_iff in H2 as [[[N [_ [F _]]] _] _]. split; [exact N|]. eapply Forall_impl; [|exact F]. intros v [H _]. exact H. }
    destruct (C47_remove_rules_partial chunk ord d held [r] Hc Ho L H1 ltac:(auto)) as [d' [now [E [L' [ND HI]]]]].
    exists d', now. split; [exact E|]. split; [exact L'|]. split; [exact ND|]. intros x. rewrite HI. cbn. split; [intros [? N]; split; [auto|intros ->; auto]|].
    intros [? N]. split; [auto|]. intros [?|[]]. congruence.
Qed.
Print Assumptions C47_one_rule_partial.

(** If the file cannot be loaded completely, because it is missing or because of a
    line that cannot be read, an edit reports the error and leaves it alone. *)
Theorem C47_unreadable_file :
  forall fault (chunk : string -> list string) (ord : list rule -> list rule) (d : disk) (e : ferr) (l : list rule) (r : rule),
    snd (load_file d) = Some e ->
    AddRule fault chunk ord d r = (d, Some e) /\ RemoveRule fault chunk ord d r = (d, Some e) /\
    AddRules fault chunk ord d l = (d, Some e) /\ RemoveRules fault chunk ord d l = (d, Some e).
Proof.
  intros fault chunk ord d e l r H. unfold AddRule, RemoveRule, AddRules, RemoveRules, edit. destruct (load_file d) as [rs err]. cbn [snd] in H. subst err. auto.
Qed.
Print Assumptions C47_unreadable_file.

(** Without the restriction to plain rules the claim is false: a file may hold, in
    quotes, a rule that saving does not write back in quotes.  Adding another rule
    to such a file changes the rule it held. *)
Theorem C47_quoted_file_refuted :
  let q := String DQ "" in
  let file := ("p, " ++ q ++ "smith, alice" ++ q ++ ", data1" ++ String LF "")%string in
  let held := ["p"; "smith, alice"; "data1"] in
  let r := ["p"; "bob"; "data2"] in
  load_file (Some file) = ([held], None) /\
  load_file (fst (AddRule no_fault (fun t => [t]) (fun l => l) (Some file) r)) = ([["p"; "smith"; "alice"; "data1"]; r], None).
Proof. vm_compute. auto. Qed.
Print Assumptions C47_quoted_file_refuted.

Example C47_ex :
  let file := Some ("# a comment" ++ String LF ("p, alice, data1" ++ String LF "p,bob,data2"))%string in
  load_file file = ([["p"; "alice"; "data1"]; ["p"; "bob"; "data2"]], None) /\
  Forall plain_line [["p"; "alice"; "data1"]; ["p"; "bob"; "data2"]] /\ plain_line ["g"; "bob"; "admin"] /\
  load_file (fst (AddRules no_fault (fun t => [t]) (fun l => l) file [["g"; "bob"; "admin"]; ["p"; "bob"; "data2"]]))
    = ([["p"; "alice"; "data1"]; ["p"; "bob"; "data2"]; ["g"; "bob"; "admin"]], None) /\
  load_file (fst (RemoveRules no_fault (fun t => [t]) (fun l => l) file [["p"; "alice"; "data1"]; ["g"; "x"]])) = ([["p"; "bob"; "data2"]], None) /\
  snd (load_file None) = Some FNotExist.
Proof.
  cbv zeta. split; [vm_compute; reflexivity|]. split; [plains|]. split; [plain|]. split; [vm_compute; reflexivity|]. split; vm_compute; reflexivity.
Qed.

(** ** C48: saving is crash-atomic. *)

(** This is false: the process may die when the old file is gone and the new one
    is not there, or cut off.  Then the file may grant what neither the old nor
    the new rules grant. *)
Theorem C48_crash_atomic_refuted :
  exists (d : disk) (old new : list rule) (n k n' : nat),
    load_file d = (old, None) /\ Forall plain_line new /\
    killed n' 0 (fun t => [t]) d new = None /\
    exists d' held r, killed n k (fun t => [t]) d new = Some d' /\ load_file (Some d') = (held, None) /\ In r held /\ ~ In r old /\ ~ In r new.
Proof.
  exists (Some ("p, bob, data2" ++ String LF "")%string), [["p"; "bob"; "data2"]], [["p"; "bob"; "data2"]; ["p"; "alice"; "data15"; "read"]], 4, 30, 2.
  split; [vm_compute; reflexivity|]. split; [plains|]. split; [vm_compute; reflexivity|].
  do 3 eexists. split; [vm_compute; reflexivity|]. split; [vm_compute; reflexivity|]. split; [right; left; reflexivity|]. split; cbn; intuition discriminate.
Qed.
Print Assumptions C48_crash_atomic_refuted.

(** Exactly which contents are possible: the old one, no file, or any initial part
    of the new text. *)
Theorem C48_crash_states_partial :
  forall (chunk : string -> list string) (d d' : disk) (rs : list rule), pieces_of chunk ->
    (exists n k, killed n k chunk d rs = d') <->
    (d' = d \/ d' = None \/ exists part, starts_with part (save_text rs) /\ d' = Some part).
Proof.
  intros chunk d d' rs Hc. split.
  - intros [n [k <-]]. pose proof (cut_save n k d (chunk (save_text rs))) as H. rewrite (Hc (save_text rs)) in H. exact H.
  - intros H. apply save_cut. rewrite (Hc (save_text rs)). exact H.
Qed.
Print Assumptions C48_crash_states_partial.

(** What is loaded from such a file: of plain rules an initial segment, and at most
    one rule after it, the one in the middle of which the text was cut. *)
Theorem C48_loaded_after_crash_partial :
  forall (chunk : string -> list string) (d : disk) (rs : list rule) (n k : nat), pieces_of chunk -> Forall plain_line rs ->
    let d' := killed n k chunk d rs in
    d' = d \/ d' = None \/
    exists m, fst (load_file d') = firstn m rs \/ exists cut, fst (load_file d') = firstn m rs ++ [cut].
Proof.
  intros chunk d rs n k Hc H d'. assert (X : exists n k, killed n k chunk d rs = d') by (exists n, k; reflexivity).
  apply (C48_crash_states_partial chunk d d' rs Hc) in X as [X|[X|[p [Hp X]]]]; [auto|auto|]. right. right. rewrite X. cbn [load_file]. now apply load_cut.
Qed.
Print Assumptions C48_loaded_after_crash_partial.

(** If SavePolicy returns no error then the file holds the new text; if it returns
    an error, the content is one of those above. *)
Theorem C48_save_reports_errors :
  forall fault (chunk : string -> list string) (d : disk) (rs : list rule), pieces_of chunk ->
    match SavePolicy fault chunk d rs with
    | (d', None) => d' = Some (save_text rs)
    | (d', Some _) => d' = d \/ d' = None \/ exists part, starts_with part (save_text rs) /\ d' = Some part
    end.
Proof.
  intros fault chunk d rs Hc. destruct (SavePolicy fault chunk d rs) as [d' [e|]] eqn:E; unfold SavePolicy in E.
  - destruct (run_error _ _ _ _ _ E) as [n [k ->]]. pose proof (cut_save n k d (chunk (save_text rs))) as H. rewrite (Hc (save_text rs)) in H. exact H.
  - rewrite (run_no_error _ _ _ _ E), save_run, Hc. reflexivity.
Qed.
Print Assumptions C48_save_reports_errors.

Example C48_ex :
  SavePolicy (fun n => if Nat.eqb n 4 then Some 3 else None) (fun t => [t]) (Some "old"%string) [["p"; "alice"]] = (Some "p, "%string, Some FIO) /\
  SavePolicy (fun n => if Nat.eqb n 2 then Some 0 else None) (fun t => [t]) (Some "old"%string) [["p"; "alice"]] = (None, Some FIO) /\
  SavePolicy no_fault (fun t => [t]) None [["p"; "alice"]] = (Some ("p, alice" ++ String LF "")%string, None).
Proof. vm_compute. auto. Qed.
