(** Property C97: patterns as users, whenever the matcher is set. *)
From Verif Require Import GoBase GoBaseP PolicyM CacheM PathM RbacM RbacSpec RbacP RbacP2 RbacP3 RbacP4 PatternsM PatternsSpec RbacP5 Prop_Rbac.

Lemma ordinary_pat m n : ordinary_name m n <-> is_pat m n = false.
Proof. destruct m; cbn; tauto. Qed.

Lemma names_in (N : string -> Prop) m : (forall n, N n -> plain n) -> names_ok m N.
Proof. intros H n Hn. destruct m; cbn; auto. Qed.

Lemma pat_reached level h names :
  fit h -> (forall n, In n names -> plain n) ->
  exists rm xs, pat_exec (NewRoleManager level) h = Val (rm, xs) /\
    pok (fun n => In n (names ++ pnames h)) rm (plinks_of h) /\
    rm_matcher rm = pmatcher_of h /\ rm_level rm = level /\ forall n, In n (names ++ pnames h) -> plain n.
Proof.
  intros [Hg Hp] Hn.
  assert (HN : forall n, In n (names ++ pnames h) -> plain n) by (intros n Hi; apply in_app_or in Hi as [?|?]; auto).
  destruct (pok_exec (fun n => In n (names ++ pnames h)) h (NewRoleManager level) no_links (fun m _ => names_in _ m HN) Hg)
    as [rm [xs [E [H [Em El]]]]].
  - intros n Hi. apply in_or_app. now right.
  - split; [exists no_names; apply (wholds_start _ level None)|]. intros u. reflexivity.
  - exists rm, xs. auto.
Qed.

(** Whether an ordinary name has a role, after any calls and matchers. *)
Theorem C97_has_role :
  forall (level : Z) (h : list (order * pcall)) (ord : order) (a b : string),
    fit h -> good_order ord -> plain a -> plain b ->
    ordinary_name (pmatcher_of h) a -> roles_ordinary (pmatcher_of h) (plinks_of h) ->
    exists rm xs rm' r,
      pat_exec (NewRoleManager level) h = Val (rm, xs) /\
      rm_HasLink ord rm a b = Val (rm', r) /\
      (r = true <-> reached_by (pmatcher_of h) (plinks_of h) level a b).
Proof.
  intros level h ord a b Hf Ho Ha Hb Oa Or.
  destruct (pat_reached level h [a; b] Hf) as [rm [xs [E [[[K H] _] [Em [El HN]]]]]].
  { cbn. intros n [<-|[<-|[]]]; assumption. }
  destruct (HasLink_wholds _ rm (plinks_of h) K ord a b (names_in _ _ HN) Ho H) as [rm' [r [Er Hr]]].
  - cbn. auto.
  - cbn. auto.
  - rewrite Em. now apply ordinary_pat.
  - intros x y Hl. rewrite Em. apply ordinary_pat. exact (Or x y Hl).
  - exists rm, xs, rm', r. split; [exact E|]. split; [exact Er|]. rewrite Hr, Em, El. unfold reached_by.
    split; (intros [Hx|[n [x [Hn Hx]]]]; [now left|right; exists n, x; split; [lia|exact Hx]]).
Qed.
Print Assumptions C97_has_role.

(** Its roles, and the ordinary names that hold a role: those in some link or
    asked about that step to it. *)
Theorem C97_roles_users :
  forall (level : Z) (h : list (order * pcall)) (ord : order) (a : string),
    fit h -> good_order ord -> plain a ->
    ordinary_name (pmatcher_of h) a -> roles_ordinary (pmatcher_of h) (plinks_of h) ->
    exists rm xs rm1 roles rm2 users,
      pat_exec (NewRoleManager level) h = Val (rm, xs) /\
      rm_GetRoles ord rm a = Val (rm1, roles) /\
      (forall b, In b roles <-> ustep (pmatcher_of h) (plinks_of h) a b) /\
      rm_GetUsers ord rm a = Val (rm2, users) /\
      (forall b, ordinary_name (pmatcher_of h) b ->
        (In b users -> ustep (pmatcher_of h) (plinks_of h) b a) /\
        (ustep (pmatcher_of h) (plinks_of h) b a -> (exists c, plinks_of h b c = true \/ plinks_of h c b = true) -> In b users)).
Proof.
  intros level h ord a Hf Ho Ha Oa Or.
  destruct (pat_reached level h [a] Hf) as [rm [xs [E [[[K H] _] [Em [El HN]]]]]].
  { cbn. intros n [<-|[]]; assumption. }
  assert (Pt : forall x y, plinks_of h x y = true -> is_pat (rm_matcher rm) y = false).
  { intros x y Hl. rewrite Em. apply ordinary_pat. exact (Or x y Hl). }
  destruct (GetRoles_wholds _ rm (plinks_of h) K ord a (names_in _ _ HN) Ho H) as [rm1 [roles [E1 H1]]];
    [cbn; auto|rewrite Em; now apply ordinary_pat|exact Pt|].
  destruct (GetUsers_wholds _ rm (plinks_of h) K ord a (names_in _ _ HN) Ho H) as [rm2 [users [E2 H2]]];
    [cbn; auto|exact Pt|].
  exists rm, xs, rm1, roles, rm2, users. split; [exact E|]. split; [exact E1|]. rewrite <- Em. split; [exact H1|].
  split; [exact E2|]. intros b Ob. apply ordinary_pat in Ob. rewrite (H2 b Ob), name_add_true. split; [tauto|].
  intros Hs [c Hc]. split; [|exact Hs]. right.
  destruct Hc as [Hc|Hc]; now apply (wholds_link_known _ _ _ _ _ _ H) in Hc.
Qed.
Print Assumptions C97_roles_users.

(** Only the links and the matcher count: not the order in which they came, nor
    how often the matcher was changed in between, nor the order in which the
    tables are visited. *)
Theorem C97_history_irrelevant :
  forall (level : Z) (h1 h2 : list (order * pcall)) (o1 o2 : order) (a b : string),
    fit h1 -> fit h2 -> good_order o1 -> good_order o2 -> plain a -> plain b ->
    pmatcher_of h1 = pmatcher_of h2 -> (forall x y, plinks_of h1 x y = plinks_of h2 x y) ->
    ordinary_name (pmatcher_of h1) a -> roles_ordinary (pmatcher_of h1) (plinks_of h1) ->
    exists rm1 xs1 rm1' rm2 xs2 rm2' r,
      pat_exec (NewRoleManager level) h1 = Val (rm1, xs1) /\ pat_exec (NewRoleManager level) h2 = Val (rm2, xs2) /\
      rm_HasLink o1 rm1 a b = Val (rm1', r) /\ rm_HasLink o2 rm2 a b = Val (rm2', r).
Proof.
  intros level h1 h2 o1 o2 a b F1 F2 G1 G2 Ha Hb Em El Oa Or.
  assert (Or2 : roles_ordinary (pmatcher_of h2) (plinks_of h2)).
  { intros u v Hl. rewrite <- Em. apply (Or u v). now rewrite El. }
  destruct (C97_has_role level h1 o1 a b F1 G1 Ha Hb Oa Or) as [rm1 [xs1 [rm1' [r1 [A1 [B1 C1]]]]]].
  destruct (C97_has_role level h2 o2 a b F2 G2 Ha Hb) as [rm2 [xs2 [rm2' [r2 [A2 [B2 C2]]]]]];
    [now rewrite <- Em|exact Or2|].
  exists rm1, xs1, rm1', rm2, xs2, rm2', r1. split; [exact A1|]. split; [exact A2|]. split; [exact B1|].
  assert (Hst : forall u v, ustep (pmatcher_of h1) (plinks_of h1) u v <-> ustep (pmatcher_of h2) (plinks_of h2) u v).
  { intros u v. unfold ustep. rewrite Em. split; intros [x [Hl Hx]]; exists x; (split; [|exact Hx]).
    - now rewrite <- El.
    - now rewrite El. }
  assert (Hch : forall k x y, chain (ustep (pmatcher_of h1) (plinks_of h1)) k x y <->
                              chain (ustep (pmatcher_of h2) (plinks_of h2)) k x y).
  { intros k x y. apply chain_iff with (Q := fun _ => True); auto. }
  assert (Hr : r1 = true <-> r2 = true).
  { rewrite C1, C2. unfold reached_by. setoid_rewrite Hch. rewrite Em. tauto. }
  replace r1 with r2; [exact B2|]. apply Bool.eq_true_iff_eq. tauto.
Qed.
Print Assumptions C97_history_irrelevant.

(** The links of examples/rbac_with_pattern_policy.csv for g2, where /book/*
    stands for /book/:id, with the matcher set between them. *)
Definition book_links : list (order * pcall) :=
  [(fwd, PCall (RAdd "/book/*" "book_group" [])); (bwd, PSet (Some PathMatcher));
   (fwd, PCall (RAdd "/book/:id" "book_group" [])); (fwd, PCall (RAdd "/pen/:id" "pen_group" []));
   (bwd, PCall (RDel "/pen/7" "pen_group" []))]%string.

Example C97_ex :
  fit book_links /\ plain "/book/1" /\ plain "book_group" /\ ordinary_name (pmatcher_of book_links) "/book/1" /\
  roles_ordinary (pmatcher_of book_links) (plinks_of book_links) /\
  covers PathMatcher "/book/*" "/book/:id" /\
  reached_by (pmatcher_of book_links) (plinks_of book_links) 10 "/book/1" "book_group" /\
  (forall rm xs, pat_exec (NewRoleManager 10) book_links = Val (rm, xs) ->
     exists rm1 rm2 rm3,
       rm_HasLink fwd rm "/book/1" "book_group" = Val (rm1, true) /\
       rm_HasLink bwd rm "/book/1" "pen_group" = Val (rm2, false) /\
       rm_GetRoles fwd rm "/pen/7" = Val (rm3, ["pen_group"]))%string.
Proof.
  split; [|split; [reflexivity|split; [reflexivity|split; [reflexivity|split; [|split; [|split]]]]]].
  - split.
    + repeat constructor; solve [apply good_fwd|apply good_bwd].
    + cbn. intros n H. repeat (destruct H as [<-|H]; [reflexivity|]). contradiction.
  - intros u v Hl.
    assert (Hv : v = "book_group"%string \/ v = "pen_group"%string).
    { revert Hl. unfold plinks_of. cbn. unfold link_del, link_add, no_links.
      destruct (String.eqb_spec v "pen_group"), (String.eqb_spec v "book_group"); auto.
      rewrite ?andb_false_r. discriminate. }
    destruct Hv as [->| ->]; reflexivity.
  - split; [discriminate|]. split; reflexivity.
  - right. exists 1, "book_group"%string. split; [lia|]. split; [|now left].
    apply (chain_S _ 0 _ "book_group"%string); [|constructor].
    exists "/book/:id"%string. split; [reflexivity|]. right. exists PathMatcher. split; [reflexivity|].
    split; [discriminate|]. split; reflexivity.
  - intros rm xs E. vm_compute in E. injection E as <- _. do 3 eexists.
    split; [vm_compute; reflexivity|]. split; vm_compute; reflexivity.
Qed.
