(** Property C110: a matcher definition lists the arguments its expression names. *)
From Verif Require Import GoBase GoBaseP DefsM DefsP MatcherDefM MatcherDefSpec MatcherDefP MatcherM MatcherSpec AppSpec ArgsSpec ArgsP Prop_MatcherDef.

Lemma built grow parse expr f :
  parse (arg_replace expr) = Some (written f) -> atoms_ok f -> parsed f ->
  exists root, Build grow parse expr = inl root /\ forall e, In e (carries root) <-> e = ""%string \/ In e (conds f).
Proof.
  intros E A P. destruct (compile_any grow f (conj A P)) as [h [cs [C H]]].
  unfold Build. rewrite E, C. exists (Stage "" cs). split; [reflexivity|]. intros e. cbn [carries In]. rewrite H. intuition.
Qed.
Lemma carries_texts s : forall e, In e (carries s) <-> e = stage_expr s \/ In e (texts s).
Proof.
  induction s as [e0 cs IH] using stage_ind'. intros e. cbn [carries texts stage_expr In]. rewrite !in_flat_map.
  rewrite Forall_forall in IH. split.
  - intros [<-|[c [Hc H]]]; [now left|]. right. exists c. split; [exact Hc|]. apply IH in H; [|exact Hc]. cbn. intuition.
  - intros [->|[c [Hc H]]]; [now left|]. right. exists c. split; [exact Hc|]. apply IH; [exact Hc|]. cbn in H. intuition.
Qed.

(** Whatever the expression, also one that is compiled wrongly (C08): no condition
    gets lost, none is invented. *)
Theorem C110_conditions :
  forall grow f, atoms_ok f -> parsed f ->
    exists h cs, compile grow (written f) = BOk h cs /\ forall e, In e (texts (Stage "" cs)) <-> In e (conds f).
Proof.
  intros grow f A P. destruct (compile_any grow f (conj A P)) as [h [cs [E H]]]. exists h, cs. split; [exact E|].
  intros e. rewrite <- H. cbn [texts]. rewrite !in_flat_map. split; intros [c [Hc X]]; exists c; (split; [exact Hc|]).
  - apply carries_texts. cbn in X. intuition.
  - apply carries_texts in X. cbn. intuition.
Qed.
Print Assumptions C110_conditions.

(** GetPolicyArgs lists every policy argument that stands in a condition as a word
    of its own, and nothing that is not part of a condition. *)
Theorem C110_policy_arguments :
  forall grow parse expr f, parse (arg_replace expr) = Some (written f) -> atoms_ok f -> parsed f ->
    exists root, Build grow parse expr = inl root /\
      (forall x e k, In e (conds f) -> argument policy_heads k x -> word_of x e -> In x (RecursivePolicyArgs root)) /\
      (forall x, In x (RecursivePolicyArgs root) -> exists e k, In e (conds f) /\ argument policy_heads k x /\ part_of x e).
Proof.
  intros grow parse expr f E A P. destruct (built grow parse expr f E A P) as [root [B H]].
  exists root. split; [exact B|]. split.
  - intros x e k He Hx Hw. apply recursive_p. exists e. split; [apply H; now right|].
    apply (found_complete _ policy_heads_ident e k x Hx Hw).
  - intros x Hx. apply recursive_p in Hx as [e [He Hx]]. apply H in He as [->|He]; [destruct Hx|].
    apply (found_sound policy_heads) in Hx as [k [H1 H2]]. eauto.
Qed.
Print Assumptions C110_policy_arguments.

(** The same for GetRequestArgs. *)
Theorem C110_request_arguments :
  forall grow parse expr f, parse (arg_replace expr) = Some (written f) -> atoms_ok f -> parsed f ->
    exists root, Build grow parse expr = inl root /\
      (forall x e k, In e (conds f) -> argument request_heads k x -> word_of x e -> In x (RecursiveRequestArgs root)) /\
      (forall x, In x (RecursiveRequestArgs root) -> exists e k, In e (conds f) /\ argument request_heads k x /\ part_of x e).
Proof.
  intros grow parse expr f E A P. destruct (built grow parse expr f E A P) as [root [B H]].
  exists root. split; [exact B|]. split.
  - intros x e k He Hx Hw. apply recursive_r. exists e. split; [apply H; now right|].
    apply (found_complete _ request_heads_ident e k x Hx Hw).
  - intros x Hx. apply recursive_r in Hx as [e [He Hx]]. apply H in He as [->|He]; [destruct Hx|].
    apply (found_sound request_heads) in Hx as [k [H1 H2]]. eauto.
Qed.
Print Assumptions C110_request_arguments.

(** GetPolicyKey, which decides the section a matcher searches: the section of a
    policy argument that is part of a condition; p if there is none. *)
Theorem C110_section :
  forall grow parse expr f root, parse (arg_replace expr) = Some (written f) -> atoms_ok f -> parsed f ->
    Build grow parse expr = inl root ->
    (exists e x, In e (conds f) /\ argument policy_heads (GetPolicyKey root) x /\ part_of x e) \/
    (GetPolicyKey root = "p"%string /\ forall e k x, In e (conds f) -> argument policy_heads k x -> ~ word_of x e).
Proof.
  intros grow parse expr f root E A P B.
  destruct (C110_policy_arguments grow parse expr f E A P) as [root' [B' [H1 H2]]]. rewrite B in B'. injection B' as <-.
  unfold GetPolicyKey. destruct (RecursivePolicyArgs root) as [|a l].
  - right. split; [reflexivity|]. intros e k x He Hx Hw. destruct (H1 x e k He Hx Hw).
  - left. destruct (H2 a (or_introl eq_refl)) as [e [k [He [Hx Hp]]]]. exists e, a. split; [exact He|]. split; [|exact Hp].
    now rewrite (argument_key k a Hx).
Qed.
Print Assumptions C110_section.

(** In particular: an expression that names policy values of one section only is
    about that section. *)
Theorem C110_one_section :
  forall grow parse expr f root s, parse (arg_replace expr) = Some (written f) -> atoms_ok f -> parsed f ->
    Build grow parse expr = inl root ->
    (exists e x, In e (conds f) /\ argument policy_heads s x /\ word_of x e) ->
    (forall e k x, In e (conds f) -> argument policy_heads k x -> part_of x e -> k = s) ->
    GetPolicyKey root = s.
Proof.
  intros grow parse expr f root s E A P B [e [x [He [Hx Hw]]]] Hall.
  destruct (C110_section grow parse expr f root E A P B) as [[e' [x' [He' [Hx' Hp]]]]|[_ H]].
  - exact (Hall _ _ _ He' Hx' Hp).
  - destruct (H e s x He Hx Hw).
Qed.
Print Assumptions C110_one_section.

(** [(r.a == 1 || p2.x == 1) && (p2.y == 1 && r.b == 1)], one of the expressions C08
    is about: all four arguments are listed, the section is p2; with several
    sections it need not be the first one named: in
    [(r.a == 1 || p2.x == 1) && p.y == 1] it is p. *)
Definition eq1 (x : string) : form := FAtom [mkTok KOther x; mkTok KOther "=="; mkTok KOther "1"].
Lemma eq1_ok x : atoms_ok (eq1 x).
Proof.
  cbn [atoms_ok eq1]. set (ts := [mkTok KOther x; mkTok KOther "=="; mkTok KOther "1"]).
  assert (K : forall t, In t ts -> t_kind t = KOther) by (intros t [<-|[<-|[<-|[]]]]; reflexivity).
  assert (L : forall l, (forall t, In t l -> t_kind t = KOther) -> level l = 0%Z).
  { induction l as [|t l IH]; intros H; [reflexivity|]. cbn [level]. unfold delta. rewrite (H t (or_introl eq_refl)).
    rewrite IH; [reflexivity|]. intros t' Ht. apply H. now right. }
  constructor.
  - discriminate.
  - apply L, K.
  - intros a b H. rewrite L; [lia|]. intros t Ht. apply K. rewrite H. apply in_or_app. now left.
  - intros a t b H Ht. rewrite K in Ht; [discriminate|]. rewrite H. apply in_or_app. right. now left.
  - intros t ts' H Ht. rewrite K in Ht; [discriminate|]. rewrite H. now left.
Qed.
Example C110_ex :
  let f := FAnd (FPar (FOr (eq1 "r_a") (eq1 "p2_x"))) (FPar (FAnd (eq1 "p2_y") (eq1 "r_b"))) in
  let g := FAnd (FPar (FOr (eq1 "r_a") (eq1 "p2_x"))) (eq1 "p_y") in
  atoms_ok f /\ parsed f /\ atoms_ok g /\ parsed g /\
  (exists e x, In e (conds f) /\ argument policy_heads "p2" x /\ word_of x e) /\
  match Build (fun c => c) (fun _ => Some (written f)) "x" with
  | inl root => RecursivePolicyArgs root = ["p2_y"; "p2_x"]%string /\
                RecursiveRequestArgs root = ["r_a"; "r_b"; "r_b"]%string /\ GetPolicyKey root = "p2"%string
  | inr _ => False
  end /\
  match Build (fun c => c) (fun _ => Some (written g)) "x" with
  | inl root => GetPolicyKey root = "p"%string
  | inr _ => False
  end.
Proof.
  cbv zeta. split; [cbn [atoms_ok]; repeat split; apply eq1_ok|]. split; [cbn; tauto|].
  split; [cbn [atoms_ok]; repeat split; apply eq1_ok|]. split; [cbn; tauto|]. split.
  - exists "p2_x == 1"%string, "p2_x"%string. split; [right; left; reflexivity|]. split.
    + exists "p"%char, "2"%string, "x"%string. cbn. repeat split; auto. discriminate.
    + exists ""%string, " == 1"%string. repeat split. now left.
  - split; vm_compute; auto.
Qed.
