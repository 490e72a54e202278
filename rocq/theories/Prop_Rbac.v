(** Properties C03, C26 to C30 and the role-manager half of C37. *)
From Verif Require Import GoBase GoBaseP PolicyM CacheM CacheSpec PathM RbacM RbacSpec RbacP RbacP2 RbacP3 RbacP4.

Lemma all_allowed : allowed None (fun _ => True).
Proof. constructor; [intros; exact I|discriminate]. Qed.

Lemma reached level h : good h ->
  exists rm xs, rexec (NewRoleManager level) h = Val (rm, xs) /\
    holds (fun _ => True) rm (links_of h) (names_of h) /\ rm_matcher rm = None /\ rm_level rm = level.
Proof.
  intros Hg. exact (holds_exec (fun _ => True) h (NewRoleManager level) no_links no_names all_allowed Hg
                      (holds_start _ level None) (fun _ _ => I)).
Qed.

Definition fwd : order := fun l => l.
Definition bwd : order := @rev string.
Lemma good_fwd : good_order fwd.
Proof. intros l. reflexivity. Qed.
Lemma good_bwd : good_order bwd.
Proof. intros l. symmetry. apply Permutation_rev. Qed.

(** The answers of a history, for the examples and counterexamples. *)
Definition answers (rm0 : rolemgr) (h : list (order * rcall)) : option (list answer) :=
  match rexec rm0 h with Val (_, xs) => Some xs | Panic => None end.
Definition has_after (rm0 : rolemgr) (h : list (order * rcall)) (ord : order) (a b : string) : option bool :=
  match rexec rm0 h with
  | Val (rm, _) => match rm_HasLink ord rm a b with Val (_, r) => Some r | Panic => None end
  | Panic => None
  end.
Lemma has_after_eq rm0 h ord a b rm xs rm' r :
  rexec rm0 h = Val (rm, xs) -> rm_HasLink ord rm a b = Val (rm', r) -> has_after rm0 h ord a b = Some r.
Proof. intros E F. unfold has_after. now rewrite E, F. Qed.
Lemma has_after_inv rm0 h ord a b r :
  has_after rm0 h ord a b = Some r ->
  exists rm xs rm', rexec rm0 h = Val (rm, xs) /\ rm_HasLink ord rm a b = Val (rm', r).
Proof.
  unfold has_after. destruct (rexec rm0 h) as [[rm xs]|]; [|discriminate].
  destruct (rm_HasLink ord rm a b) as [[rm' r']|] eqn:E; [|discriminate]. intros [= <-]. eauto 6.
Qed.

(** ** C03: role rules form a set of links. *)

(** The links a callback that never stops is shown. *)
Definition listed (ord : order) (rm : rolemgr) : list rule :=
  rm_Range ord rm (fun acc r => (acc ++ [r], true)) [].

Theorem C03_links_set :
  forall (level : Z) (h : list (order * rcall)) (ord : order) (a b : string),
    good h -> good_order ord -> Forall (fun c => unflagged (snd c)) h ->
    exists rm xs, rexec (NewRoleManager level) h = Val (rm, xs) /\
      (exists rm', rp_AddRule ord rm [a; b] =
         Val (rm', negb (links_of h a b), if links_of h a b then [] else [EvtAdded [a; b]])) /\
      (exists rm', rp_RemoveRule ord rm [a; b] =
         Val (rm', links_of h a b, if links_of h a b then [EvtRemoved [a; b]] else [])) /\
      NoDup (listed ord rm) /\
      (forall r, In r (listed ord rm) <-> exists u v, r = [u; v] /\ links_of h u v = true).
Proof.
  intros level h ord a b Hg Ho Hu. destruct (reached level h Hg) as [rm [xs [E [H [Em El]]]]].
  exists rm, xs. split; [exact E|].
  assert (HA : allowed (rm_matcher rm) (fun _ => True)) by (rewrite Em; apply all_allowed).
  assert (Hf : no_flags (rm_all rm)).
  { eapply (no_flags_exec (fun _ => True) h (NewRoleManager level)); [apply all_allowed|exact Hg|apply (holds_start _ level None)| | | |exact E]; auto.
    intros u. reflexivity. }
  assert (Elist : listed ord rm = all_links ord (rm_all rm)).
  { unfold listed, rm_Range. rewrite rangeLinks_all. apply fold_snoc. }
  split; [|split; [|rewrite Elist; split]].
  - destruct (holds_step _ rm _ _ ord (RAdd a b []) HA Ho H (fun _ _ => I)) as [rm' [x [Es [_ [_ [_ [Ha _]]]]]]].
    exists rm'. unfold rp_AddRule. cbn [rstep] in Es.
    destruct (rm_AddLink ord rm a b []) as [[rm1 y]|]; [|discriminate]. cbn [obind] in *. injection Es as <- <-.
    specialize (Ha a b [] eq_refl). injection Ha as ->. now destruct (links_of h a b).
  - destruct (holds_step _ rm _ _ ord (RDel a b []) HA Ho H (fun _ _ => I)) as [rm' [x [Es [_ [_ [_ [_ Ha]]]]]]].
    exists rm'. unfold rp_RemoveRule. cbn [rstep] in Es.
    destruct (rm_DeleteLink ord rm a b []) as [[rm1 y]|]; [|discriminate]. cbn [obind] in *. injection Es as <- <-.
    specialize (Ha a b [] eq_refl). injection Ha as ->. now destruct (links_of h a b).
  - eapply NoDup_all_links; [exact Ho|apply (w_core _ (h_wf _ _ _ _ H))].
  - intros r. rewrite in_all_links by exact Ho.
    split; intros [u [v [-> Hr]]]; exists u, v; (split; [reflexivity|]).
    + now apply (h_links _ _ _ _ H).
    + split; [now apply (h_links _ _ _ _ H)|]. rewrite Hf. easy.
Qed.
Print Assumptions C03_links_set.

(** A rule with fewer than two values is an index panic. *)
Theorem C03_short_rule_panics :
  forall ord rm (r : rule), List.length r < 2 ->
    rp_AddRule ord rm r = Panic /\ rp_RemoveRule ord rm r = Panic.
Proof. intros ord rm [|x [|y r]] H; cbn in *; try lia; auto. Qed.
Print Assumptions C03_short_rule_panics.

Definition ex_h : list (order * rcall) :=
  [(fwd, RAdd "alice" "admin" []); (bwd, RAdd "admin" "staff" []); (fwd, RAdd "bob" "staff" []);
   (fwd, RDel "bob" "staff" []); (bwd, RHas "carol" "staff"); (fwd, RAdd "staff" "alice" [])].
Lemma ex_h_good : good ex_h.
Proof. repeat constructor; first [apply good_fwd|apply good_bwd]. Qed.

Example C03_ex :
  good ex_h /\ Forall (fun c => unflagged (snd c)) ex_h /\
  links_of ex_h "alice" "admin" = true /\ links_of ex_h "bob" "staff" = false.
Proof. split; [apply ex_h_good|]. split; [repeat constructor|]. split; reflexivity. Qed.

(** ** C26: HasLink is bounded reachability. *)
Theorem C26_bounded_reachability :
  forall (level : Z) (h : list (order * rcall)) (ord : order) (a b : string),
    good h -> good_order ord ->
    exists rm xs rm' r,
      rexec (NewRoleManager level) h = Val (rm, xs) /\
      rm_HasLink ord rm a b = Val (rm', r) /\
      (r = true <-> a = b \/ exists n, 1 <= n /\ (Z.of_nat n <= level - 1)%Z /\ chain (edge (links_of h)) n a b).
Proof.
  intros level h ord a b Hg Ho. destruct (reached level h Hg) as [rm [xs [E [H [Em El]]]]].
  assert (HA : allowed (rm_matcher rm) (fun _ => True)) by (rewrite Em; apply all_allowed).
  destruct (HasLink_holds _ rm _ _ ord a b HA Ho H I I) as [rm' [r [Er Hr]]].
  exists rm, xs, rm', r. split; [exact E|]. split; [exact Er|]. rewrite Hr, Em, El.
  assert (Hh : forall x y, hits None x y <-> x = y).
  { intros x y. unfold hits. split; [intros [?|[m [? _]]]; [assumption|discriminate]|auto]. }
  rewrite Hh. split.
  - intros [->|[k [y [Hk [Hc Hy]]]]]; [now left|]. apply Hh in Hy. subst y.
    destruct k as [|k]; [left; now inversion Hc|]. right. exists (S k). split; [lia|]. split; [lia|exact Hc].
  - intros [->|[n [Hn [Hl Hc]]]]; [now left|right]. exists n, b. split; [lia|]. split; [exact Hc|now apply Hh].
Qed.
Print Assumptions C26_bounded_reachability.

(** The chain alice -> admin -> staff has two links: found with level 3, not
    with level 2; the cycle back to alice does no harm. *)
Example C26_ex :
  chain (edge (links_of ex_h)) 2 "alice" "staff" /\
  has_after (NewRoleManager 3) ex_h bwd "alice" "staff" = Some true /\
  has_after (NewRoleManager 2) ex_h bwd "alice" "staff" = Some false /\
  has_after (NewRoleManager 10) ex_h fwd "bob" "staff" = Some false.
Proof.
  split; [|vm_compute; auto].
  apply (chain_S _ 1 "alice" "admin" "staff"); [reflexivity|].
  apply (chain_S _ 0 "admin" "staff" "staff"); [reflexivity|constructor].
Qed.

(** ** C27: role queries are read-only. *)

(** Asking [qs] in between does not change the answers to [h2]. *)
Definition unaffected (rm0 : rolemgr) (h1 qs h2 : list (order * rcall)) : Prop :=
  exists r1 r2 xs ys zs,
    rexec rm0 (h1 ++ h2) = Val (r1, xs ++ zs) /\
    rexec rm0 (h1 ++ qs ++ h2) = Val (r2, xs ++ ys ++ zs) /\
    List.length xs = List.length h1 /\ List.length ys = List.length qs /\ List.length zs = List.length h2.

Lemma unaffected_wf rm0 h1 qs h2 :
  wf rm0 -> hist_ok (rm_matcher rm0) (h1 ++ qs ++ h2) -> Forall (fun c => is_query (snd c)) qs ->
  unaffected rm0 h1 qs h2.
Proof.
  intros W Hok Hq. apply hist_ok_app in Hok as [O1 Hok]. apply hist_ok_app in Hok as [Oq O2].
  destruct (rexec_same h1 rm0 rm0 W W (same_refl _) O1) as [ra [_ [xs [Ea [_ [La [Wa [_ [_ [Ma [_ _]]]]]]]]]]].
  rewrite <- Ma in Oq, O2.
  destruct (rexec_same qs ra ra Wa Wa (same_refl _) Oq) as [rq [_ [ys [Eq [_ [Lq [Wq [_ [_ [Mq [_ Hs]]]]]]]]]]].
  destruct (rexec_same h2 ra rq Wa Wq (Hs Hq) O2) as [r1 [r2 [zs [E1 [E2 [Lz _]]]]]].
  exists r1, r2, xs, ys, zs. rewrite !rexec_app, Ea. cbn [obind]. rewrite E1. cbn [obind].
  rewrite rexec_app, Eq. cbn [obind]. rewrite E2. cbn [obind]. auto.
Qed.

(** Without matcher, for all names. *)
Theorem C27_read_only :
  forall (level : Z) (h1 qs h2 : list (order * rcall)),
    good (h1 ++ qs ++ h2) -> Forall (fun c => is_query (snd c)) qs ->
    unaffected (NewRoleManager level) h1 qs h2.
Proof.
  intros level h1 qs h2 Hg Hq. apply unaffected_wf; [apply (wf_start level None)| |exact Hq].
  split; [exact Hg|]. intros; exact I.
Qed.
Print Assumptions C27_read_only.

(** With a matcher the claim is false: the answer to one query can be cached
    under the key of another. *)
Theorem C27_read_only_refuted :
  ~ (forall (level : Z) (m : imatcher) (h1 qs h2 : list (order * rcall)),
       good (h1 ++ qs ++ h2) -> Forall (fun c => is_query (snd c)) qs ->
       unaffected (newRoleManagerWithMatchingFunc level (Some m)) h1 qs h2).
Proof.
  intros H. specialize (H 10%Z PathMatcher [] [(fwd, RHas "/a$" "*")] [(fwd, RHas "/a" "$*")]).
  destruct H as [r1 [r2 [xs [ys [zs [E1 [E2 [Lx [Ly Lz]]]]]]]]].
  - repeat constructor; apply good_fwd.
  - repeat constructor.
  - destruct xs; [|discriminate]. cbn [app] in *.
    assert (F1 : answers (newRoleManagerWithMatchingFunc 10 (Some PathMatcher)) [(fwd, RHas "/a" "$*")]
                 = Some [ABool false]) by (vm_compute; reflexivity).
    assert (F2 : answers (newRoleManagerWithMatchingFunc 10 (Some PathMatcher)) [(fwd, RHas "/a$" "*"); (fwd, RHas "/a" "$*")]
                 = Some [ABool true; ABool true]) by (vm_compute; reflexivity).
    unfold answers in F1, F2. rewrite E1 in F1. rewrite E2 in F2. injection F1 as ->.
    destruct ys as [|y [|]]; discriminate.
Qed.
Print Assumptions C27_read_only_refuted.

(** It holds with any matcher for names without a dollar sign; unseen names and
    patterns included. *)
Theorem C27_read_only_partial :
  forall (level : Z) (m : imatcher) (h1 qs h2 : list (order * rcall)),
    good (h1 ++ qs ++ h2) -> Forall (fun c => is_query (snd c)) qs ->
    (forall n, In n (mentioned (h1 ++ qs ++ h2)) -> plain n) ->
    unaffected (newRoleManagerWithMatchingFunc level (Some m)) h1 qs h2.
Proof.
  intros level m h1 qs h2 Hg Hq Hp. apply unaffected_wf; [apply wf_start| |exact Hq].
  split; [exact Hg|exact Hp].
Qed.
Print Assumptions C27_read_only_partial.

Example C27_ex :
  let h1 := [(fwd, RAdd "/u/*" "admin" [])] in
  let qs := [(bwd, RHas "/u/1" "admin"); (fwd, RRoles "/u/2"); (fwd, RUsers "/x/*")] in
  let h2 := [(fwd, RAdd "/u/1" "guest" []); (bwd, RRoles "/u/1")] in
  good (h1 ++ qs ++ h2) /\ Forall (fun c => is_query (snd c)) qs /\
  (forall n, In n (mentioned (h1 ++ qs ++ h2)) -> plain n) /\
  exists xs, answers (newRoleManagerWithMatchingFunc 10 (Some PathMatcher)) (h1 ++ qs ++ h2) = Some xs /\
    nth_error xs 1 = Some (ABool true) /\ nth_error xs 5 = Some (ANames ["guest"; "admin"]).
Proof.
  cbn zeta. split; [|split; [|split]].
  - repeat constructor; first [apply good_fwd|apply good_bwd].
  - repeat constructor.
  - cbn. intros n H. repeat (destruct H as [<-|H]; [reflexivity|]). contradiction.
  - eexists. split; [vm_compute; reflexivity|]. split; reflexivity.
Qed.

(** ** C28: GetRoles and GetUsers are exact. *)
Theorem C28_roles_users_exact :
  forall (level : Z) (h : list (order * rcall)) (ord : order) (n : string),
    good h -> good_order ord ->
    exists rm xs r1 roles r2 users,
      rexec (NewRoleManager level) h = Val (rm, xs) /\
      rm_GetRoles ord rm n = Val (r1, roles) /\ rm_GetUsers ord rm n = Val (r2, users) /\
      (forall r, In r roles <-> links_of h n r = true) /\
      (forall u, In u users <-> links_of h u n = true) /\
      NoDup roles /\ NoDup users.
Proof.
  intros level h ord n Hg Ho. destruct (reached level h Hg) as [rm [xs [E [H [Em El]]]]].
  assert (HA : allowed (rm_matcher rm) (fun _ => True)) by (rewrite Em; apply all_allowed).
  destruct (GetRoles_holds _ rm _ _ ord n HA Ho H I) as [r1 [roles [E1 H1]]].
  destruct (GetUsers_holds _ rm _ _ ord n HA Ho H I) as [r2 [users [E2 H2]]].
  exists rm, xs, r1, roles, r2, users. split; [exact E|]. split; [exact E1|]. split; [exact E2|].
  rewrite Em in H1, H2. cbn [estep] in H1, H2.
  (* no pattern matches without matcher *)
  pose proof (h_wf _ _ _ _ H) as W.
  assert (Hn : okname (rm_matcher rm) n) by (rewrite Em; exact I).
  destruct (GetRoles_pure ord rm n Ho W Hn) as [c1 [P1 Hc1]]. rewrite E1 in P1. injection P1 as _ P1.
  destruct (GetUsers_pure ord rm n Ho W Hn) as [c2 [P2 Hc2]]. rewrite E2 in P2. injection P2 as _ P2.
  pose proof (holds_get _ rm _ _ ord n c1 HA Ho H I Hc1) as H3.
  set (r3 := rm_of (rm_matcher rm) (rm_level rm) (fullget ord rm n) c1) in *.
  pose proof (w_core _ (h_wf _ _ _ _ H3)) as C3.
  assert (Mt : forall p, mt (rm_all r3) p = []).
  { intros p. destruct (mt (rm_all r3) p) as [|x l] eqn:Ex; [reflexivity|exfalso].
    assert (Hx : In x (mt (rm_all r3) p)) by (rewrite Ex; now left).
    apply (h_mt _ _ _ _ H3) in Hx. cbn [r3 rm_of rm_matcher] in Hx. rewrite Em in Hx. cbn in Hx. intuition discriminate. }
  assert (Mb : forall p, mb (rm_all r3) p = []).
  { intros p. destruct (mb (rm_all r3) p) as [|x l] eqn:Ex; [reflexivity|exfalso].
    assert (Hx : In x (mb (rm_all r3) p)) by (rewrite Ex; now left).
    apply (c_msym _ _ C3) in Hx. now rewrite Mt in Hx. }
  assert (On : forall l, NoDup l -> NoDup (ord l)) by (intros l Hl; eapply Permutation_NoDup; [symmetry; apply Ho|exact Hl]).
  assert (Oe : ord [] = []) by (apply Permutation_nil; symmetry; apply Ho).
  assert (Fe : forall (f : string -> list string) l, (forall x, f x = []) -> flat_map f l = []).
  { intros f l Hf. induction l as [|x l IH]; cbn; [reflexivity|]. now rewrite Hf. }
  split; [exact H1|]. split; [|split].
  - intros u. rewrite H2. split; [tauto|]. intros Hl. split; [|exact Hl].
    apply name_add_true. right. now apply (holds_link_known _ _ _ _ _ _ H) in Hl.
  - subst roles. change (NoDup (rangeRoles ord (rm_all r3) n)). unfold rangeRoles.
    change (NoDup (ord (rl (rm_all r3) n) ++ flat_map (fun x => ord (mt (rm_all r3) x)) (ord (rl (rm_all r3) n)) ++
                   flat_map (fun x => ord (rl (rm_all r3) x)) (ord (mb (rm_all r3) n)))).
    rewrite Mb, Oe, Fe by (intros x; now rewrite Mt). cbn. rewrite app_nil_r. apply On, C3.
  - subst users. change (NoDup (rangeUsers ord (rm_all r3) n)). unfold rangeUsers.
    change (NoDup (ord (us (rm_all r3) n) ++ flat_map (fun x => ord (mt (rm_all r3) x)) (ord (us (rm_all r3) n)) ++
                   flat_map (fun x => ord (us (rm_all r3) x)) (ord (mb (rm_all r3) n)))).
    rewrite Mb, Oe, Fe by (intros x; now rewrite Mt). cbn. rewrite app_nil_r. apply On, C3.
Qed.
Print Assumptions C28_roles_users_exact.

(** The two answers are inverse to each other. *)
Theorem C28_inverse :
  forall (level : Z) (h : list (order * rcall)) (ord : order) (u r : string) rm xs r1 roles r2 users,
    good h -> good_order ord -> rexec (NewRoleManager level) h = Val (rm, xs) ->
    rm_GetRoles ord rm u = Val (r1, roles) -> rm_GetUsers ord rm r = Val (r2, users) ->
    (In r roles <-> In u users).
Proof.
  intros level h ord u r rm xs r1 roles r2 users Hg Ho E E1 E2.
  destruct (C28_roles_users_exact level h ord u Hg Ho) as [rm' [? [? [? [? [? [E' [A1 [_ [A _]]]]]]]]]].
  rewrite E in E'. injection E' as <- _. rewrite E1 in A1. injection A1 as _ <-.
  destruct (C28_roles_users_exact level h ord r Hg Ho) as [rm' [? [? [? [? [? [E' [_ [B1 [_ [B _]]]]]]]]]]].
  rewrite E in E'. injection E' as <- _. rewrite E2 in B1. injection B1 as _ <-.
  rewrite A, B. reflexivity.
Qed.
Print Assumptions C28_inverse.

Example C28_ex :
  good ex_h /\
  option_map (skipn 6) (answers (NewRoleManager 10) (ex_h ++ [(fwd, RRoles "alice"); (bwd, RUsers "staff")]))
  = Some [ANames ["admin"]; ANames ["admin"]].
Proof. split; [apply ex_h_good|]. vm_compute. reflexivity. Qed.

(** ** C29: pattern roles. *)

(** Names fit for a manager with matcher [m]. *)
Lemma allowed_names m (l : list string) :
  (forall n, In n l -> plain n) -> patterns_apart m l -> allowed (Some m) (fun n => In n l).
Proof.
  intros Hp Ha. constructor; [exact Hp|]. intros p q Hi Hj Hne Pp Pq. cbn in *.
  destruct (Match m q p) eqn:E; [|reflexivity]. exfalso. apply (Ha p q Hi Hj Pq). unfold covers. auto.
Qed.

(** The full claim: chains of ideal steps, for every history. *)
Definition pattern_claim (m : imatcher) (level : Z) (h : list (order * rcall)) (ord : order) (a b : string) : Prop :=
  exists rm xs rm' r,
    rexec (newRoleManagerWithMatchingFunc level (Some m)) h = Val (rm, xs) /\
    rm_HasLink ord rm a b = Val (rm', r) /\
    (r = true <->
       hits (Some m) a b \/
       exists n x, (Z.of_nat n <= level - 1)%Z /\
         chain (ideal_step m (links_of h) (name_add b (name_add a (names_of h)))) n a x /\ hits (Some m) x b).

(** It is false when a pattern stands on both sides of a link: members of
    /u/* do not get the roles covered by /r/*. *)
Theorem C29_pattern_roles_refuted :
  ~ (forall m level h ord a b, good h -> good_order ord -> pattern_claim m level h ord a b).
Proof.
  intros H. destruct (H PathMatcher 10%Z [(fwd, RAdd "/u/*" "/r/*" [])] fwd "/u/1" "/r/1")
    as [rm [xs [rm' [r [E1 [E2 Hr]]]]]]; [repeat constructor; apply good_fwd|apply good_fwd|].
  assert (F : has_after (newRoleManagerWithMatchingFunc 10 (Some PathMatcher)) [(fwd, RAdd "/u/*" "/r/*" [])] fwd "/u/1" "/r/1"
              = Some false) by (vm_compute; reflexivity).
  rewrite (has_after_eq _ _ _ _ _ _ _ _ _ E1 E2) in F. injection F as ->.
  assert (Hn : false = true); [|discriminate]. apply (proj2 Hr).
 right. exists 1, "/r/1"%string. split; [lia|]. split; [|now left].
  econstructor; [|constructor]. apply (ideal _ _ _ _ _ "/u/*" "/r/*").
  - reflexivity.
  - right. split; [discriminate|]. split; reflexivity.
  - right. split; [|reflexivity]. split; [discriminate|]. split; reflexivity.
Qed.
Print Assumptions C29_pattern_roles_refuted.

(** And the answer depends on the order in which the same links were added,
    when one pattern stands for another. *)
Theorem C29_order_refuted :
  exists m level l1 l2 a b,
    let h1 := [(fwd, l1); (fwd, l2)] in let h2 := [(fwd, l2); (fwd, l1)] in
    (forall x y, links_of h1 x y = links_of h2 x y) /\ (forall x, names_of h1 x = names_of h2 x) /\
    has_after (newRoleManagerWithMatchingFunc level (Some m)) h1 fwd a b = Some false /\
    has_after (newRoleManagerWithMatchingFunc level (Some m)) h2 fwd a b = Some true.
Proof.
  exists PathMatcher, 10%Z, (RAdd "alice" "/a/*" []), (RAdd "/a/b/*" "admin" []), "alice"%string, "admin"%string.
  cbn zeta. split; [|split].
  - intros x y. cbn. unfold link_add, no_links. now rewrite !orb_false_r, orb_comm.
  - intros x. cbn. unfold name_add, no_names. rewrite !orb_false_r.
    destruct (String.eqb x "alice"), (String.eqb x "/a/*"), (String.eqb x "/a/b/*"), (String.eqb x "admin"); reflexivity.
  - vm_compute. auto.
Qed.
Print Assumptions C29_order_refuted.

(** What holds: for names without "$" where no pattern stands for another
    pattern, HasLink follows exactly the chains of [pstep]. *)
Theorem C29_pattern_roles_partial :
  forall (m : imatcher) (level : Z) (h : list (order * rcall)) (ord : order) (a b : string),
    good h -> good_order ord ->
    (forall n, In n (a :: b :: mentioned h) -> plain n) -> patterns_apart m (a :: b :: mentioned h) ->
    exists rm xs rm' r,
      rexec (newRoleManagerWithMatchingFunc level (Some m)) h = Val (rm, xs) /\
      rm_HasLink ord rm a b = Val (rm', r) /\
      (r = true <->
         hits (Some m) a b \/
         exists n x, (Z.of_nat n <= level - 1)%Z /\
           chain (pstep m (links_of h) (name_add b (name_add a (names_of h)))) n a x /\ hits (Some m) x b).
Proof.
  intros m level h ord a b Hg Ho Hp Ha.
  pose proof (allowed_names m _ Hp Ha) as HA.
  destruct (holds_exec _ h (newRoleManagerWithMatchingFunc level (Some m)) no_links no_names HA Hg (holds_start _ _ _))
    as [rm [xs [E [H [Em El]]]]].
  { intros n Hn. cbn. auto. }
  cbn in Em, El. assert (HA' : allowed (rm_matcher rm) (fun n => In n (a :: b :: mentioned h))) by (rewrite Em; exact HA).
  destruct (HasLink_holds _ rm _ _ ord a b HA' Ho H) as [rm' [r [Er Hr]]]; [cbn; auto..|].
  exists rm, xs, rm', r. split; [exact E|]. split; [exact Er|]. rewrite Hr, Em, El. cbn [estep].
  split; (intros [Hx|[n [x [Hn Hx]]]]; [now left|right; exists n, x; split; [lia|exact Hx]]).
Qed.
Print Assumptions C29_pattern_roles_partial.

(** If moreover no link has a pattern on both sides, the full claim holds. *)
Theorem C29_full_claim_partial :
  forall (m : imatcher) (level : Z) (h : list (order * rcall)) (ord : order) (a b : string),
    good h -> good_order ord ->
    (forall n, In n (a :: b :: mentioned h) -> plain n) -> patterns_apart m (a :: b :: mentioned h) ->
    (forall x y, links_of h x y = true -> IsPattern m x = true -> IsPattern m y = false) ->
    pattern_claim m level h ord a b.
Proof.
  intros m level h ord a b Hg Ho Hp Ha Hb.
  destruct (C29_pattern_roles_partial m level h ord a b Hg Ho Hp Ha) as [rm [xs [rm' [r [E [Er Hr]]]]]].
  exists rm, xs, rm', r. split; [exact E|]. split; [exact Er|]. rewrite Hr.
  assert (Hc : forall n x, chain (pstep m (links_of h) (name_add b (name_add a (names_of h)))) n a x <->
                           chain (ideal_step m (links_of h) (name_add b (name_add a (names_of h)))) n a x).
  { intros n x. apply chain_iff with (Q := fun _ => True); auto. intros u v _. split.
    - intros [Hl|p Hl Hcv Hk|p Hcv Hl].
      + apply (ideal _ _ _ _ _ u v); auto.
      + apply (ideal _ _ _ _ _ u p); auto.
      + apply (ideal _ _ _ _ _ p v); auto.
    - intros [u' v' Hl [->|Hu] [->|[Hv Hk]]].
      + now apply step_link.
      + now apply (step_to_pattern _ _ _ _ _ v').
      + now apply (step_from_pattern _ _ _ _ _ u').
      + exfalso. destruct Hu as [_ [Hu _]], Hv as [_ [Hv _]]. specialize (Hb u' v' Hl Hu). congruence. }
  split; (intros [Hx|[n [x [Hn [Hx Hh]]]]]; [now left|right; exists n, x; split; [exact Hn|split; [now apply Hc|exact Hh]]]).
Qed.
Print Assumptions C29_full_claim_partial.

(** Under the same conditions the order of the calls is irrelevant: only the
    resulting links and names count. *)
Theorem C29_order_independent_partial :
  forall (m : imatcher) (level : Z) (h1 h2 : list (order * rcall)) (ord1 ord2 : order) (a b : string),
    good h1 -> good h2 -> good_order ord1 -> good_order ord2 ->
    (forall n, In n (a :: b :: mentioned h1 ++ mentioned h2) -> plain n) ->
    patterns_apart m (a :: b :: mentioned h1) -> patterns_apart m (a :: b :: mentioned h2) ->
    (forall x y, links_of h1 x y = links_of h2 x y) -> (forall x, names_of h1 x = names_of h2 x) ->
    exists r1 x1 r1' r2 x2 r2' r,
      rexec (newRoleManagerWithMatchingFunc level (Some m)) h1 = Val (r1, x1) /\
      rexec (newRoleManagerWithMatchingFunc level (Some m)) h2 = Val (r2, x2) /\
      rm_HasLink ord1 r1 a b = Val (r1', r) /\ rm_HasLink ord2 r2 a b = Val (r2', r).
Proof.
  intros m level h1 h2 ord1 ord2 a b G1 G2 O1 O2 Hp A1 A2 HL HK.
  destruct (C29_pattern_roles_partial m level h1 ord1 a b G1 O1) as [q1 [x1 [q1' [b1 [E1 [F1 R1]]]]]]; [|exact A1|].
  { intros n [<-|[<-|Hn]]; apply Hp; cbn; auto. right; right. apply in_or_app. now left. }
  destruct (C29_pattern_roles_partial m level h2 ord2 a b G2 O2) as [q2 [x2 [q2' [b2 [E2 [F2 R2]]]]]]; [|exact A2|].
  { intros n [<-|[<-|Hn]]; apply Hp; cbn; auto. right; right. apply in_or_app. now right. }
  assert (b1 = b2).
  { apply eq_true_iff_eq. rewrite R1, R2.
    assert (Hc : forall n x, chain (pstep m (links_of h1) (name_add b (name_add a (names_of h1)))) n a x <->
                             chain (pstep m (links_of h2) (name_add b (name_add a (names_of h2)))) n a x).
    { intros n x. apply chain_iff with (Q := fun _ => True); auto. intros u v _.
      assert (HK' : forall z, name_add b (name_add a (names_of h1)) z = name_add b (name_add a (names_of h2)) z)
        by (intros z; unfold name_add; now rewrite HK).
      split.
      - intros [Hl|p Hl Hcv Hk|p Hcv Hl].
        + apply step_link. now rewrite <- HL.
        + apply (step_to_pattern _ _ _ _ _ p); auto; [now rewrite <- HL|now rewrite <- HK'].
        + apply (step_from_pattern _ _ _ _ _ p); auto. now rewrite <- HL.
      - intros [Hl|p Hl Hcv Hk|p Hcv Hl].
        + apply step_link. now rewrite HL.
        + apply (step_to_pattern _ _ _ _ _ p); auto; [now rewrite HL|now rewrite HK'].
        + apply (step_from_pattern _ _ _ _ _ p); auto. now rewrite HL. }
    setoid_rewrite Hc. reflexivity. }
  subst b2. exists q1, x1, q1', q2, x2, q2', b1. auto.
Qed.
Print Assumptions C29_order_independent_partial.

(** GetRoles and GetUsers with patterns: the one-step neighbours, and inverse to
    each other on known names. *)
Theorem C29_roles_users_partial :
  forall (m : imatcher) (level : Z) (h : list (order * rcall)) (ord : order) (n : string),
    good h -> good_order ord ->
    (forall x, In x (n :: mentioned h) -> plain x) -> patterns_apart m (n :: mentioned h) ->
    let K := name_add n (names_of h) in
    exists rm xs r1 roles r2 users,
      rexec (newRoleManagerWithMatchingFunc level (Some m)) h = Val (rm, xs) /\
      rm_GetRoles ord rm n = Val (r1, roles) /\ rm_GetUsers ord rm n = Val (r2, users) /\
      (forall r, In r roles <-> pstep m (links_of h) K n r) /\
      (forall u, In u users <-> K u = true /\ pstep m (links_of h) K u n).
Proof.
  intros m level h ord n Hg Ho Hp Ha K. pose proof (allowed_names m _ Hp Ha) as HA.
  destruct (holds_exec _ h (newRoleManagerWithMatchingFunc level (Some m)) no_links no_names HA Hg (holds_start _ _ _))
    as [rm [xs [E [H [Em El]]]]].
  { intros x Hx. cbn. auto. }
  cbn in Em, El. assert (HA' : allowed (rm_matcher rm) (fun x => In x (n :: mentioned h))) by (rewrite Em; exact HA).
  destruct (GetRoles_holds _ rm _ _ ord n HA' Ho H) as [r1 [roles [E1 H1]]]; [cbn; auto|].
  destruct (GetUsers_holds _ rm _ _ ord n HA' Ho H) as [r2 [users [E2 H2]]]; [cbn; auto|].
  exists rm, xs, r1, roles, r2, users. rewrite Em in H1, H2. cbn [estep] in *. auto.
Qed.
Print Assumptions C29_roles_users_partial.

Example C29_ex :
  let h := [(fwd, RAdd "/u/*" "admin" []); (bwd, RAdd "admin" "/r/*" []); (fwd, RAdd "/r/1" "x" [])] in
  good h /\ (forall n, In n ("/u/7" :: "x" :: mentioned h) -> plain n) /\
  patterns_apart PathMatcher ("/u/7" :: "x" :: mentioned h) /\
  (forall x y, links_of h x y = true -> IsPattern PathMatcher x = true -> IsPattern PathMatcher y = false) /\
  has_after (newRoleManagerWithMatchingFunc 10 (Some PathMatcher)) h bwd "/u/7" "x" = Some true.
Proof.
  cbn zeta. split; [|split; [|split; [|split]]].
  - repeat constructor; first [apply good_fwd|apply good_bwd].
  - cbn. intros n H. repeat (destruct H as [<-|H]; [reflexivity|]). contradiction.
  - intros p q Hp Hq Pq [Hne [_ Hm]]. cbn in Hp, Hq.
    repeat (destruct Hq as [<-|Hq]; [cbn in Pq; try discriminate Pq;
      repeat (destruct Hp as [<-|Hp]; [vm_compute in Hm; try discriminate Hm; try congruence|]); contradiction|]).
    contradiction.
  - intros x y Hl. cbn in Hl. unfold link_add, no_links in Hl. rewrite orb_false_r in Hl.
    repeat (apply orb_prop in Hl as [Hl|Hl]);
      apply andb_prop in Hl as [H1 H2]; apply String.eqb_eq in H1, H2; subst; cbn; congruence.
  - vm_compute. reflexivity.
Qed.

(** ** C30: match caching is transparent. *)
Theorem C30_cache_transparent_refuted :
  ~ (forall (m : imatcher) level (h : list (order * rcall)) (s p : string) rm xs,
       good h -> rexec (newRoleManagerWithMatchingFunc level (Some m)) h = Val (rm, xs) ->
       exists rm', rm_match rm s p = Val (rm', Match m s p)).
Proof.
  intros H.
  set (rm0 := newRoleManagerWithMatchingFunc 10 (Some PathMatcher)).
  assert (F : match rexec rm0 [(fwd, RHas "/a$" "*")] with
              | Val (rm, _) => match rm_match rm "/a" "$*" with Val (_, r) => Some r | Panic => None end
              | Panic => None end = Some true) by (vm_compute; reflexivity).
  destruct (rexec rm0 [(fwd, RHas "/a$" "*")]) as [[rm xs]|] eqn:E; [|discriminate].
  destruct (H PathMatcher 10%Z [(fwd, RHas "/a$" "*")] "/a" "$*" rm xs ltac:(repeat constructor; apply good_fwd) E) as [rm2 H2].
  rewrite H2 in F. vm_compute in F. discriminate.
Qed.
Print Assumptions C30_cache_transparent_refuted.

(** It holds, whatever names were used before, when the two names asked about
    contain no dollar sign; and a match never fails.  The names of [h] only have
    to be such that the calls before did not panic. *)
Theorem C30_cache_transparent_partial :
  forall (m : imatcher) level (h : list (order * rcall)) (s p : string),
    good h -> (forall n, In n (mentioned h) -> plain n) -> plain s -> plain p ->
    exists rm xs rm', rexec (newRoleManagerWithMatchingFunc level (Some m)) h = Val (rm, xs) /\
      rm_match rm s p = Val (rm', Match m s p).
Proof.
  intros m level h s p Hg Hn Hs Hp.
  destruct (rexec_same h _ _ (wf_start level (Some m)) (wf_start level (Some m)) (same_refl _) (conj Hg Hn))
    as [rm [_ [xs [E [_ [_ [W [_ [_ [Em _]]]]]]]]]].
  destruct (match_ok rm m s p Em (w_cache _ W)) as [c' [b [Hm [_ Hb]]]].
  exists rm, xs, (with_cache rm c'). split; [exact E|]. rewrite Hm. now rewrite Hb.
Qed.
Print Assumptions C30_cache_transparent_partial.

(** For a bare sequence of match queries (arbitrary strings), every answer about
    dollar-free names is right. *)
Fixpoint ask (rm : rolemgr) (qs : list (string * string)) : outcome (rolemgr * list bool) :=
  match qs with
  | [] => Val (rm, [])
  | (s, p) :: qs' => let! (rm, b) := rm_match rm s p in let! (rm, bs) := ask rm qs' in Val (rm, b :: bs)
  end.

Theorem C30_queries_partial :
  forall (m : imatcher) level (qs : list (string * string)),
    exists rm bs, ask (newRoleManagerWithMatchingFunc level (Some m)) qs = Val (rm, bs) /\
      List.length bs = List.length qs /\
      forall i s p, nth_error qs i = Some (s, p) -> plain s -> plain p ->
        nth_error bs i = Some (Match m s p).
Proof.
  intros m level qs. generalize (w_cache _ (wf_start level (Some m))).
  assert (Em : rm_matcher (newRoleManagerWithMatchingFunc level (Some m)) = Some m) by reflexivity.
  revert Em. generalize (newRoleManagerWithMatchingFunc level (Some m)).
  induction qs as [|[s p] qs IH]; intros rm Em Hc; cbn [ask].
  - exists rm, []. split; [reflexivity|]. split; [reflexivity|]. intros [|i]; discriminate.
  - destruct (match_ok rm m s p Em Hc) as [c' [b [-> [Hc' Hb]]]]. cbn [obind].
    destruct (IH (with_cache rm c') Em Hc') as [rm' [bs [-> [Hl Hi]]]]. cbn [obind].
    exists rm', (b :: bs). split; [reflexivity|]. split; [cbn; now rewrite Hl|].
    intros [|i] s' p'; cbn; [intros [= <- <-] H1 H2; now rewrite Hb|apply Hi].
Qed.
Print Assumptions C30_queries_partial.

Example C30_ex :
  plain "/u/1" /\ plain "/u/*" /\
  match ask (newRoleManagerWithMatchingFunc 10 (Some PathMatcher))
          [("/u/1", "/u/*"); ("/a$", "*"); ("/u/1", "/u/*"); ("/v", "/u/*")] with
  | Val (_, bs) => bs = [true; true; true; false]
  | Panic => False
  end.
Proof. split; [reflexivity|]. split; [reflexivity|]. vm_compute. reflexivity. Qed.

(** ** C37 on a role manager: installing a matcher preserves the links. *)
Theorem C37_set_matcher_partial :
  forall (level : Z) (h : list (order * rcall)) (m : imatcher) (ord ord' : order) (a b : string),
    good h -> good_order ord -> good_order ord' -> Forall (fun c => unflagged (snd c)) h ->
    (forall n, In n (a :: b :: mentioned h) -> plain n) -> patterns_apart m (a :: b :: mentioned h) ->
    exists rm xs rm1 rm2 r K,
      rexec (NewRoleManager level) h = Val (rm, xs) /\
      rm_SetMatcher ord rm (Some m) = Val rm1 /\
      (forall x, In x (listed ord' rm1) <-> In x (listed ord' rm)) /\ NoDup (listed ord' rm1) /\
      rm_HasLink ord' rm1 a b = Val (rm2, r) /\
      (forall n, K n = true <-> n = b \/ n = a \/ exists x, links_of h n x = true \/ links_of h x n = true) /\
      (r = true <->
         hits (Some m) a b \/
         exists n x, (Z.of_nat n <= level - 1)%Z /\ chain (pstep m (links_of h) K) n a x /\ hits (Some m) x b).
Proof.
  intros level h m ord ord' a b Hg Ho Ho' Hu Hp Ha.
  destruct (reached level h Hg) as [rm [xs [E [H [Em El]]]]].
  assert (Hf : no_flags (rm_all rm)).
  { eapply (no_flags_exec (fun _ => True) h (NewRoleManager level)); [apply all_allowed|exact Hg|apply (holds_start _ level None)| | | |exact E]; auto.
    intros u. reflexivity. }
  assert (HLm : forall l L x y, fold_left links_step l L x y = true ->
            L x y = true \/ (In x (flat_map call_names l) /\ In y (flat_map call_names l))).
  { induction l as [|c l IH]; intros L x y Hl; cbn in *; [now left|]. rewrite !in_app_iff.
    destruct (IH _ _ _ Hl) as [Hs|[H1 H2]]; [|auto].
    destruct c as [u v ds|u v ds|u v|u|u|]; cbn in Hs; auto; unfold link_add, link_del, no_links in Hs.
    - apply orb_prop in Hs as [Hs|Hs]; [|auto]. apply andb_prop in Hs as [H1 H2].
      apply String.eqb_eq in H1, H2. subst. right. split; left; cbn; auto.
    - apply andb_prop in Hs as [_ Hs]. auto.
    - discriminate. }
  assert (Hment : mentioned h = flat_map call_names (map snd h)).
  { unfold mentioned. clear. induction h as [|c h IH]; cbn; [reflexivity|]. now rewrite IH. }
  assert (HN2 : forall x y, links_of h x y = true -> In x (a :: b :: mentioned h) /\ In y (a :: b :: mentioned h)).
  { intros x y Hl. rewrite Hment. apply HLm in Hl as [Hl|[H1 H2]]; [discriminate|]. cbn. auto. }
  pose proof (allowed_names m _ Hp Ha) as HA2.
  destruct (SetMatcher_holds _ _ rm _ _ ord (Some m) Ho H Hf HA2 HN2) as [rm1 [K1 [E1 [H1 [Hln [Hf1 [Em1 El1]]]]]]].
  assert (HA1 : allowed (rm_matcher rm1) (fun n => In n (a :: b :: mentioned h))) by (rewrite Em1; exact HA2).
  destruct (HasLink_holds _ rm1 _ _ ord' a b HA1 Ho' H1) as [rm2 [r [Er Hr]]]; [cbn; auto..|].
  exists rm, xs, rm1, rm2, r, (name_add b (name_add a K1)).
  split; [exact E|]. split; [exact E1|].
  assert (Elist : forall q, listed ord' q = all_links ord' (rm_all q)).
  { intros q. unfold listed, rm_Range. rewrite rangeLinks_all. apply fold_snoc. }
  rewrite !Elist. split; [|split; [|split; [exact Er|split]]].
  - intros x. rewrite !in_all_links by exact Ho'.
    split; intros [u [v [-> [Hx _]]]]; exists u, v; (split; [reflexivity|]); (split; [|first [now rewrite Hf|now rewrite Hf1]]).
    + apply (h_links _ _ _ _ H). now apply (h_links _ _ _ _ H1).
    + apply (h_links _ _ _ _ H1). now apply (h_links _ _ _ _ H).
  - eapply NoDup_all_links; [exact Ho'|apply (w_core _ (h_wf _ _ _ _ H1))].
  - intros n. rewrite !name_add_true. rewrite (Hln n). tauto.
  - rewrite Hr, Em1, El1, El. cbn [estep].
    split; (intros [Hx|[n [x [Hn Hx]]]]; [now left|right; exists n, x; split; [lia|exact Hx]]).
Qed.
Print Assumptions C37_set_matcher_partial.

Example C37_ex :
  let h := [(fwd, RAdd "/u/1" "guest" []); (fwd, RAdd "/u/*" "admin" [])] in
  good h /\ Forall (fun c => unflagged (snd c)) h /\
  (forall n, In n ("/u/1" :: "admin" :: mentioned h) -> plain n) /\
  patterns_apart PathMatcher ("/u/1" :: "admin" :: mentioned h) /\
  match (let! (rm, _) := rexec (NewRoleManager 10) h in
         let! rm1 := rm_SetMatcher fwd rm (Some PathMatcher) in rm_HasLink fwd rm1 "/u/1" "admin") with
  | Val (_, r) => r = true
  | Panic => False
  end.
Proof.
  cbn zeta. split; [|split; [|split; [|split]]].
  - repeat constructor; apply good_fwd.
  - repeat constructor.
  - cbn. intros n H. repeat (destruct H as [<-|H]; [reflexivity|]). contradiction.
  - intros p q Hp Hq Pq [Hne [_ Hm]]. cbn in Hp, Hq.
    repeat (destruct Hq as [<-|Hq]; [cbn in Pq; try discriminate Pq;
      repeat (destruct Hp as [<-|Hp]; [vm_compute in Hm; try discriminate Hm; try congruence|]); contradiction|]).
    contradiction.
  - vm_compute. reflexivity.
Qed.
