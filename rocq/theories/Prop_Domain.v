(** Properties C33 to C36 and C38. *)
From Verif Require Import GoBase GoBaseP PolicyM CacheM CacheSpec PathM RbacM RbacSpec RbacP RbacP2 RbacP3 RbacP4 RbacP5 Prop_Rbac
  DomainM DomainSpec DomainP DomainP2 DomainP3 DomainP4.

(** The answers of a history. *)
Definition answers_d (x : irm) (h : list (order * dcall)) : option (list answer) :=
  match dexec x h with Val (_, xs) => Some xs | Panic => None end.
(** The answer to a last call. *)
Definition last_d (x : irm) (h : list (order * dcall)) (ord : order) (c : dcall) : option answer :=
  match dexec x h with
  | Val (x', _) => match dstep ord x' c with Val (_, a) => Some a | Panic => None end
  | Panic => None
  end.

Lemma fine_okname m n : fine m n -> okname m n.
Proof. destruct m; exact (fun H => H). Qed.

(** ** C33: without domain matcher the domains are isolated. *)

(** The answers to the calls that concern domain [p] are those of a role manager
    of its own that got only these calls: whatever was done in other domains is
    irrelevant.  With any role matcher (names without "$" then). *)
Theorem C33_isolated_partial :
  forall (level : Z) (m : option imatcher) (p : list string) (h : list (order * dcall)),
    good_d h -> ordinary h -> (forall n, In n (mentioned_d h) -> fine m n) ->
    exists x xs rm,
      dexec (domains_with level m None) h = Val (x, xs) /\ List.length xs = List.length h /\
      rexec (newRoleManagerWithMatchingFunc (level - 1 - Z.of_nat (List.length p)) m) (calls_in p h)
        = Val (rm, answers_in p h xs).
Proof.
  intros level m p h Hg Ho Hf.
  destruct (dexec_rel m level h _ _ (rel_start m level) Hg) as [x [R [xs [E1 [E2 [_ [Hl _]]]]]]].
  { intros n Hn. apply fine_okname. now apply Hf. }
  exists x, xs, (R p). split; [exact E1|]. split; [exact Hl|].
  pose proof (fexec_place p h _ _ _ E2) as E3. rewrite (calls_at_in p h Ho), (answers_at_in p h xs Ho) in E3. exact E3.
Qed.
Print Assumptions C33_isolated_partial.

(** For all domain names this is false: two names are special. *)
Theorem C33_isolated_refuted :
  ~ (forall (level : Z) (p : list string) (h : list (order * dcall)),
       good_d h ->
       exists x xs rm,
         dexec (domains_with level None None) h = Val (x, xs) /\ List.length xs = List.length h /\
         rexec (newRoleManagerWithMatchingFunc (level - 1 - Z.of_nat (List.length p)) None) (calls_in p h)
           = Val (rm, answers_in p h xs)).
Proof.
  intros X. destruct (X 10%Z [] [(fwd, DAdd "alice" "admin" ["RoleManager"]); (fwd, DHas "alice" "admin" [])]) as (x & xs & rm & H1 & _ & H2);
    [repeat constructor; apply good_fwd|].
  revert H2. revert H1. vm_compute. intros H1. injection H1 as <- <-. discriminate.
Qed.
Print Assumptions C33_isolated_refuted.

(** The same for all domain lists, reserved names included: what counts is the
    place a domain list leads to. *)
Theorem C33_isolated_places :
  forall (level : Z) (m : option imatcher) (p : list string) (h : list (order * dcall)),
    good_d h -> (forall n, In n (mentioned_d h) -> fine m n) ->
    exists x xs rm,
      dexec (domains_with level m None) h = Val (x, xs) /\ List.length xs = List.length h /\
      rexec (newRoleManagerWithMatchingFunc (level - 1 - Z.of_nat (List.length p)) m) (calls_at p h)
        = Val (rm, answers_at p h xs).
Proof.
  intros level m p h Hg Hf.
  destruct (dexec_rel m level h _ _ (rel_start m level) Hg) as [x [R [xs [E1 [E2 [_ [Hl _]]]]]]].
  { intros n Hn. apply fine_okname. now apply Hf. }
  exists x, xs, (R p). split; [exact E1|]. split; [exact Hl|]. exact (fexec_place p h _ _ _ E2).
Qed.
Print Assumptions C33_isolated_places.

Lemma calls_in_snoc p h o c : concerns p c = true -> calls_in p (h ++ [(o, c)]) = calls_in p h ++ [(o, without_domains c)].
Proof. intros H. unfold calls_in. rewrite filter_app, map_app. cbn. rewrite H. reflexivity. Qed.
Lemma answers_in_snoc p h o c xs a : concerns p c = true -> List.length xs = List.length h ->
  answers_in p (h ++ [(o, c)]) (xs ++ [a]) = answers_in p h xs ++ [a].
Proof.
  intros Hc. revert xs. induction h as [|[o' c'] h IH]; intros [|x xs] Hl; try discriminate; unfold answers_in in *; cbn in *.
  - now rewrite Hc.
  - specialize (IH xs ltac:(lia)). destruct (concerns p c'); cbn; now rewrite IH.
Qed.
Lemma good_calls_in p h : good_d h -> good (calls_in p h).
Proof.
  unfold good_d, good, calls_in. rewrite !Forall_forall. intros H [o c] Hi. apply in_map_iff in Hi as [[o' c'] [E Hi]].
  apply filter_In in Hi as [Hi _]. cbn in E. injection E as -> _. exact (H _ Hi).
Qed.

(** Within a domain HasLink is bounded reachability, and GetRoles and GetUsers
    are exact, over the links of that domain only.  The bound is the level minus
    one for every manager on the way. *)
Theorem C33_bounded_reachability_partial :
  forall (level : Z) (p : list string) (h : list (order * dcall)) (ord : order) (a b : string),
    good_d h -> ordinary h -> good_order ord -> unreserved p ->
    exists x xs x' r,
      dexec (domains_with level None None) h = Val (x, xs) /\
      dstep ord x (DHas a b p) = Val (x', ABool r) /\
      (r = true <-> a = b \/
         exists n, 1 <= n /\ (Z.of_nat n <= level - 2 - Z.of_nat (List.length p))%Z /\
           chain (edge (links_of (calls_in p h))) n a b).
Proof.
  intros level p h ord a b Hg Hor Ho Hp.
  set (h' := h ++ [(ord, DHas a b p)]).
  assert (Hc : concerns p (DHas a b p) = true) by (cbn; apply path_eqb_refl).
  destruct (C33_isolated_partial level None p h') as [x2 [ys [rm2 [E2 [L2 F2]]]]].
  { apply Forall_app. split; [exact Hg|]. repeat constructor. exact Ho. }
  { apply Forall_app. split; [exact Hor|]. repeat constructor. exact Hp. }
  { intros n _. exact I. }
  unfold h' in E2. rewrite dexec_app in E2. destruct (dexec (domains_with level None None) h) as [[x xs]|] eqn:E; [|discriminate].
  cbn [obind dexec] in E2. destruct (dstep ord x (DHas a b p)) as [[x' ans]|] eqn:Es; [|discriminate]. cbn [obind] in E2.
  injection E2 as -> <-.
  assert (Lx : List.length xs = List.length h) by (unfold h' in L2; rewrite !app_length in L2; cbn in L2; lia).
  unfold h' in F2. rewrite (calls_in_snoc p h ord _ Hc), (answers_in_snoc p h ord _ xs ans Hc Lx), rexec_app in F2.
  destruct (C26_bounded_reachability (level - 1 - Z.of_nat (List.length p)) (calls_in p h) ord a b (good_calls_in p h Hg) Ho)
    as [rm [zs [rm' [r [G1 [G2 Hr]]]]]].
  change (NewRoleManager (level - 1 - Z.of_nat (List.length p))) with
    (newRoleManagerWithMatchingFunc (level - 1 - Z.of_nat (List.length p)) None) in G1.
  rewrite G1 in F2. cbn [obind rexec rstep without_domains] in F2. rewrite G2 in F2. cbn [obind] in F2.
  injection F2 as _ F2. apply app_inj_tail in F2 as [_ <-].
  exists x, xs, x2, r. split; [reflexivity|]. split; [exact Es|]. rewrite Hr.
  split; (intros [?|[n [H1 [H2 H3]]]]; [now left|right; exists n; split; [exact H1|split; [lia|exact H3]]]).
Qed.
Print Assumptions C33_bounded_reachability_partial.

Theorem C33_roles_users_partial :
  forall (level : Z) (p : list string) (h : list (order * dcall)) (ord : order) (u : string),
    good_d h -> ordinary h -> good_order ord -> unreserved p ->
    exists x xs x1 roles x2 users,
      dexec (domains_with level None None) h = Val (x, xs) /\
      dstep ord x (DRoles u p) = Val (x1, ANames roles) /\ dstep ord x1 (DUsers u p) = Val (x2, ANames users) /\
      (forall r, In r roles <-> links_of (calls_in p h) u r = true) /\
      (forall r, In r users <-> links_of (calls_in p h) r u = true).
Proof.
  intros level p h ord u Hg Hor Ho Hp.
  set (q := [(ord, DRoles u p); (ord, DUsers u p)]).
  destruct (C33_isolated_partial level None p (h ++ q)) as [x2 [ys [rm2 [E2 [L2 F2]]]]].
  { apply Forall_app. split; [exact Hg|]. repeat constructor; exact Ho. }
  { apply Forall_app. split; [exact Hor|]. repeat constructor; exact Hp. }
  { intros n _. exact I. }
  unfold q in *. rewrite dexec_app in E2. destruct (dexec (domains_with level None None) h) as [[x xs]|] eqn:E; [|discriminate].
  cbn [obind dexec] in E2. destruct (dstep ord x (DRoles u p)) as [[x1 a1]|] eqn:E1; [|discriminate]. cbn [obind] in E2.
  destruct (dstep ord x1 (DUsers u p)) as [[x' a2]|] eqn:E3; [|discriminate]. cbn [obind] in E2. injection E2 as -> <-.
  assert (Lx : List.length xs = List.length h) by (rewrite !app_length in L2; cbn in L2; lia).
  assert (Hc1 : concerns p (DRoles u p) = true) by (cbn; apply path_eqb_refl).
  assert (Hc2 : concerns p (DUsers u p) = true) by (cbn; apply path_eqb_refl).
  change [(ord, DRoles u p); (ord, DUsers u p)] with ([(ord, DRoles u p)] ++ [(ord, DUsers u p)]) in F2.
  change (xs ++ [a1; a2]) with (xs ++ [a1] ++ [a2]) in F2. rewrite !app_assoc in F2.
  rewrite (calls_in_snoc p (h ++ [(ord, DRoles u p)]) ord (DUsers u p) Hc2), (calls_in_snoc p h ord _ Hc1) in F2.
  rewrite (answers_in_snoc p (h ++ [(ord, DRoles u p)]) ord (DUsers u p) (xs ++ [a1]) a2 Hc2), (answers_in_snoc p h ord _ xs a1 Hc1 Lx) in F2
    by (rewrite !app_length; cbn; lia).
  rewrite <- app_assoc, rexec_app in F2. cbn [app] in F2.
  set (lv := (level - 1 - Z.of_nat (List.length p))%Z) in *.
  destruct (C28_roles_users_exact lv (calls_in p h) ord u (good_calls_in p h Hg) Ho)
    as [rm [zs [r1 [roles [_ [_ [G1 [G2 [_ [H1 _]]]]]]]]]].
  change (NewRoleManager lv) with (newRoleManagerWithMatchingFunc lv None) in G1.
  rewrite G1 in F2. cbn [obind rexec rstep without_domains] in F2. rewrite G2 in F2. cbn [obind] in F2.
  destruct (C28_roles_users_exact lv (calls_in p h ++ [(ord, RRoles u)]) ord u) as [rm' [zs' [_ [_ [r2 [users [G3 [_ [G4 [_ [H2 _]]]]]]]]]]].
  { apply Forall_app. split; [now apply good_calls_in|]. repeat constructor. exact Ho. } { exact Ho. }
  change (NewRoleManager lv) with (newRoleManagerWithMatchingFunc lv None) in G3.
  rewrite rexec_app, G1 in G3. cbn [obind rexec rstep] in G3. rewrite G2 in G3. cbn [obind] in G3. injection G3 as <- _.
  rewrite G4 in F2. cbn [obind] in F2. injection F2 as _ F2.
  change (zs ++ [ANames roles; ANames users]) with (zs ++ [ANames roles] ++ [ANames users]) in F2. rewrite app_assoc in F2.
  apply app_inj_tail in F2 as [F2 <-]. apply app_inj_tail in F2 as [_ <-].
  exists x, xs, x1, roles, x2, users. split; [reflexivity|]. split; [exact E1|]. split; [exact E3|]. split; [exact H1|].
  intros r. rewrite H2. unfold links_of. rewrite map_app, fold_left_app. reflexivity.
Qed.
Print Assumptions C33_roles_users_partial.

Definition ex_d : list (order * dcall) :=
  [(fwd, DAdd "alice" "admin" ["d1"]); (bwd, DAdd "admin" "staff" ["d2"]); (fwd, DAdd "admin" "staff" ["d1"; "sub"]);
   (fwd, DHas "alice" "admin" ["d2"]); (bwd, DAdd "admin" "root" ["d1"]); (fwd, DDel "admin" "staff" ["d2"])].
Example C33_ex :
  good_d ex_d /\ ordinary ex_d /\ unreserved ["d1"] /\
  links_of (calls_in ["d1"] ex_d) "admin" "root" = true /\
  last_d (domains_with 10 None None) ex_d fwd (DHas "alice" "root" ["d1"]) = Some (ABool true) /\
  last_d (domains_with 10 None None) ex_d fwd (DHas "alice" "staff" ["d1"]) = Some (ABool false) /\
  last_d (domains_with 10 None None) ex_d fwd (DHas "admin" "staff" ["d1"; "sub"]) = Some (ABool true) /\
  last_d (domains_with 10 None None) ex_d fwd (DHas "admin" "root" ["d1"; "sub"]) = Some (ABool false) /\
  (* two links need level 5 *)
  last_d (domains_with 5 None None) ex_d fwd (DHas "alice" "root" ["d1"]) = Some (ABool true) /\
  last_d (domains_with 4 None None) ex_d fwd (DHas "alice" "root" ["d1"]) = Some (ABool false).
Proof.
  split; [repeat constructor; first [apply good_fwd|apply good_bwd]|].
  split; [repeat constructor; cbn; intros [H|H]; discriminate|].
  split; [repeat constructor; cbn; intros [H|H]; discriminate|].
  vm_compute. auto 10.
Qed.

(** ** C34: domain names. *)

(** Consistent renaming of domain names (injective) changes no answer.  False:
    two names are special. *)
Definition swap (a b s : string) : string := if String.eqb s a then b else if String.eqb s b then a else s.
Lemma swap_inj a b x y : swap a b x = swap a b y -> x = y.
Proof.
  unfold swap. destruct (String.eqb_spec x a), (String.eqb_spec y a), (String.eqb_spec x b), (String.eqb_spec y b); congruence.
Qed.

Theorem C34_renaming_refuted :
  ~ (forall (level : Z) (f : string -> string) (h : list (order * dcall)),
       (forall x y, f x = f y -> x = y) -> good_d h ->
       answers_d (domains_with level None None) (map (fun c => (fst c, rename f (snd c))) h) =
       answers_d (domains_with level None None) h).
Proof.
  intros H.
  specialize (H 10%Z (swap "d" defaultDomain) [(fwd, DAdd "alice" "admin" ["d"]); (fwd, DHas "alice" "admin" [])]
                (swap_inj _ _)).
  assert (good_d [(fwd, DAdd "alice" "admin" ["d"]); (fwd, DHas "alice" "admin" [])]) as Hg
    by (repeat constructor; apply good_fwd).
  specialize (H Hg). vm_compute in H. discriminate.
Qed.
Print Assumptions C34_renaming_refuted.

(** Either special name will do: links in "RoleManager" and in "redundant_role"
    are links outside of any domain, and whatever follows the name in the list is
    ignored. *)
Theorem C34_special_names_refuted :
  let D := domains_with 10 None None in
  last_d D [(fwd, DAdd "alice" "admin" ["RoleManager"])] fwd (DHas "alice" "admin" []) = Some (ABool true) /\
  last_d D [(fwd, DAdd "alice" "admin" ["redundant_role"])] fwd (DHas "alice" "admin" []) = Some (ABool true) /\
  last_d D [(fwd, DAdd "alice" "admin" ["RoleManager"; "a"])] fwd (DHas "alice" "admin" ["RoleManager"; "b"]) = Some (ABool true) /\
  last_d D [(fwd, DAdd "alice" "admin" ["redundant_role"; "a"])] fwd (DHas "alice" "admin" ["redundant_role"; "b"]) = Some (ABool true).
Proof. vm_compute. auto. Qed.
Print Assumptions C34_special_names_refuted.

Lemma path_eqb_map f p q : (forall x y : string, f x = f y -> x = y) -> path_eqb (map f p) (map f q) = path_eqb p q.
Proof.
  intros Hf. destruct (path_eqb p q) eqn:E.
  - apply path_eqb_true in E. subst. apply path_eqb_refl.
  - apply path_eqb_false. apply path_eqb_false in E. intros H. apply E. clear E. revert q H.
    induction p as [|x p IH]; intros [|y q] H; try discriminate; [reflexivity|]. cbn in H. injection H as H1 H2.
    f_equal; [now apply Hf|now apply IH].
Qed.

Lemma fexec_rename f h : (forall x y : string, f x = f y -> x = y) ->
  ordinary h -> ordinary (map (fun c => (fst c, rename f (snd c))) h) ->
  forall R R' R1 xs, (forall p, R' (map f p) = R p) -> fexec R h = Val (R1, xs) ->
  exists R1', fexec R' (map (fun c => (fst c, rename f (snd c))) h) = Val (R1', xs) /\ forall p, R1' (map f p) = R1 p.
Proof.
  intros Hf. induction h as [|[o c] h IH]; intros Ho Ho' R R' R1 xs HR; cbn [map fst snd fexec].
  - intros [= <- <-]. eauto.
  - inversion Ho as [|? ? Hc Hoh]; inversion Ho' as [|? ? Hc' Hoh']; subst. cbn [fst snd] in *.
    assert (Hstep : forall R2 a, fstep o R c = Val (R2, a) -> exists R2', fstep o R' (rename f c) = Val (R2', a) /\ forall p, R2' (map f p) = R2 p).
    { intros R2 a. unfold fstep. destruct (call_domains c) as [ds|] eqn:Ec.
      - assert (Ec' : call_domains (rename f c) = Some (map f ds)) by (destruct c; cbn in *; congruence).
        rewrite Ec' in Hc'. rewrite Ec'. rewrite (place_unreserved ds Hc), (place_unreserved (map f ds) Hc'). cbn [fst].
        assert (Et : translate (rename f c) = translate c).
        { destruct c; cbn in Ec, Ec'; try discriminate; injection Ec as ->; cbn;
            rewrite ?(place_unreserved ds Hc), ?(place_unreserved (map f ds) Hc'); reflexivity. }
        rewrite Et, HR. destruct (rstep o (R ds) (translate c)) as [[rm y]|]; [|discriminate]. cbn [obind].
        intros [= <- <-]. eexists. split; [reflexivity|]. intros p. unfold fput. rewrite (path_eqb_map f p ds Hf).
        destruct (path_eqb p ds); [reflexivity|apply HR].
      - assert (Ec' : call_domains (rename f c) = None) by (destruct c; cbn in *; congruence).
        rewrite Ec'. intros [= <- <-]. eexists. split; [reflexivity|]. intros p. cbn. now rewrite HR. }
    destruct (fstep o R c) as [[R2 a]|]; [|discriminate]. cbn [obind]. destruct (Hstep R2 a eq_refl) as [R2' [-> HR2]]. cbn [obind].
    destruct (fexec R2 h) as [[R3 l]|] eqn:Ef; [|discriminate]. cbn [obind]. intros [= <- <-].
    destruct (IH Hoh Hoh' R2 R2' R3 l HR2 Ef) as [R3' [-> HR3]]. cbn [obind]. eauto.
Qed.

Lemma mentioned_rename f h : mentioned_d (map (fun c => (fst c, rename f (snd c))) h) = mentioned_d h.
Proof. unfold mentioned_d. induction h as [|[o c] h IH]; cbn; [reflexivity|]. rewrite IH. f_equal. now destruct c. Qed.

(** All other names can be renamed freely. *)
Theorem C34_renaming_partial :
  forall (level : Z) (m : option imatcher) (f : string -> string) (h : list (order * dcall)),
    (forall x y, f x = f y -> x = y) -> good_d h -> (forall n, In n (mentioned_d h) -> fine m n) ->
    ordinary h -> ordinary (map (fun c => (fst c, rename f (snd c))) h) ->
    exists xs, answers_d (domains_with level m None) h = Some xs /\
      answers_d (domains_with level m None) (map (fun c => (fst c, rename f (snd c))) h) = Some xs.
Proof.
  intros level m f h Hf Hg Hn Ho Ho'. set (h' := map (fun c => (fst c, rename f (snd c))) h) in *.
  destruct (dexec_rel m level h _ _ (rel_start m level) Hg) as [x [R [xs [E1 [E2 _]]]]].
  { intros n H. apply fine_okname. now apply Hn. }
  destruct (dexec_rel m level h' _ _ (rel_start m level)) as [x' [R' [xs' [E1' [E2' _]]]]].
  { unfold good_d, h' in *. rewrite Forall_map. exact Hg. }
  { intros n H. apply fine_okname. apply Hn. unfold h' in H. now rewrite mentioned_rename in H. }
  destruct (fexec_rename f h Hf Ho Ho' (fresh m level) (fresh m level) R xs) as [R1 [E3 _]].
  { intros p. unfold fresh. now rewrite map_length. } { exact E2. }
  fold h' in E3. rewrite E3 in E2'. injection E2' as _ <-.
  exists xs. unfold answers_d. rewrite E1, E1'. auto.
Qed.
Print Assumptions C34_renaming_partial.

Example C34_ex :
  let f := swap "d1" "x y/z*" in
  ordinary (map (fun c => (fst c, rename f (snd c))) ex_d) /\
  nth_error (map (fun c => rename f (snd c)) ex_d) 2 = Some (DAdd "admin" "staff" ["x y/z*"; "sub"]).
Proof. cbn zeta. split; [repeat constructor; cbn; intros [H|H]; discriminate|reflexivity]. Qed.

(** ** C35: domain patterns. *)

(** Full claim: a link added in a pattern domain holds in every matching domain.
    False for nested domains: the sub-domain part of the list is looked up
    literally. *)
Definition covers_all (dm : imatcher) : list string -> list string -> Prop :=
  Forall2 (fun p d => p = d \/ covers dm p d).

Theorem C35_patterns_apply_refuted :
  ~ (forall (dm : imatcher) (level : Z) (h : list (order * dcall)) (ord : order) (a b : string) (ps ds : list string),
       good_d h -> good_order ord -> Forall (fun c => exists u v qs, snd c = DAdd u v qs) h ->
       (exists o, In (o, DAdd a b ps) h) -> covers_all dm ps ds -> (Z.of_nat (List.length ds) < level - 2)%Z ->
       last_d (domains_with level None (Some dm)) h ord (DHas a b ds) = Some (ABool true)).
Proof.
  intros H. specialize (H PathMatcher 10%Z [(fwd, DAdd "alice" "admin" ["/d/*"; "/s/*"])] fwd "alice"%string "admin"%string
                          ["/d/*"; "/s/*"]%string ["/d/1"; "/s/1"]%string).
  assert (E : last_d (domains_with 10 None (Some PathMatcher)) [(fwd, DAdd "alice" "admin" ["/d/*"; "/s/*"])] fwd
                (DHas "alice" "admin" ["/d/1"; "/s/1"]) = Some (ABool false)) by (vm_compute; reflexivity).
  rewrite H in E; [discriminate| | | | | |cbn; lia].
  - constructor; [apply good_fwd|constructor].
  - apply good_fwd.
  - constructor; [cbn; eauto|constructor].
  - exists fwd. now left.
  - apply Forall2_cons; [|apply Forall2_cons; [|constructor]]; right; (split; [discriminate|split; reflexivity]).
Qed.
Print Assumptions C35_patterns_apply_refuted.

(** Conditions on the domain names in use. *)
Record good_names (dm : imatcher) (names : list string) : Prop := mkGN {
  gn_plain : forall n, In n names -> plain n;
  gn_unres : unreserved names;
  gn_apart : patterns_apart dm names
}.

Lemma run_fit dm level rmm N h d : names_ok rmm N -> (forall n, In n (mentioned_d h) -> N n) -> IsPattern dm defaultDomain = false ->
  good_d h -> Forall (fun c => add_only dm (snd c)) h -> good_names dm (d :: domains_of h) ->
  exists mp pats c xs, dexec (domains_with level rmm (Some dm)) h = Val (IDom (root dm level rmm mp pats c), xs) /\
    List.length xs = List.length h /\ Inv dm level rmm N h mp pats c /\ uses (fun n => In n (d :: domains_of h)) h.
Proof.
  intros HN Hn Hdef Hg Ha [G1 G2 G3].
  destruct (hist_inv dm level Hdef rmm N HN (fun n => In n (d :: domains_of h)) G1 (proj1 (Forall_forall _ _) G2) G3 h [] [] [] (NewLRUCache 100) Hg Ha)
    as [mp [pats [c [xs [E [Hl [HI Hu]]]]]]].
  - intros k Hk. now right.
  - exact Hn.
  - intros a b k [o []].
  - apply Inv_start.
  - exists mp, pats, c, xs. auto.
Qed.
Lemma run_ok dm level h d : IsPattern dm defaultDomain = false ->
  good_d h -> Forall (fun c => add_only dm (snd c)) h -> good_names dm (d :: domains_of h) ->
  exists mp pats c xs, dexec (domains_with level None (Some dm)) h = Val (IDom (root dm level None mp pats c), xs) /\
    List.length xs = List.length h /\ Inv dm level None (fun _ => True) h mp pats c /\ uses (fun n => In n (d :: domains_of h)) h.
Proof. apply (run_fit dm level None (fun _ => True) h d any_names). intros; exact I. Qed.

(** For calls that name one domain, as the rules of a three-field g section do,
    and add-only histories: what holds in domain [d] is exactly what was added in
    [d] or in a pattern that covers [d], whatever the order; HasLink follows these
    links, up to the level. *)
Theorem C35_patterns_apply_partial :
  forall (dm : imatcher) (level : Z) (h : list (order * dcall)) (ord : order) (a b d : string),
    good_d h -> good_order ord -> Forall (fun c => add_only dm (snd c)) h ->
    IsPattern dm defaultDomain = false -> IsPattern dm d = false -> good_names dm (d :: domains_of h) ->
    exists x xs x' r,
      dexec (domains_with level None (Some dm)) h = Val (x, xs) /\
      dstep ord x (DHas a b [d]) = Val (x', ABool r) /\
      (r = true <-> a = b \/
         exists n, 1 <= n /\ (Z.of_nat n <= level - 3)%Z /\ chain (effective dm h d) n a b).
Proof.
  intros dm level h ord a b d Hg Ho Ha Hdef Hi HG.
  destruct (run_ok dm level h d Hdef Hg Ha HG) as [mp [pats [c [xs [E [_ [HI Hu]]]]]]].
  set (Dn := fun n => In n (d :: domains_of h)) in *.
  assert (Hd : Dn d) by now left.
  exists (IDom (root dm level None mp pats c)), xs.
  rewrite (dstep_query ord (IDom (root dm level None mp pats c)) (DHas a b [d]) [d] I eq_refl).
  destruct (query_ok dm level Hdef None (fun _ => True) any_names Dn (gn_plain _ _ HG) (proj1 (Forall_forall _ _) (gn_unres _ _ HG)) (gn_apart _ _ HG)
              (fun rm => rstep ord rm (RHas a b)) h mp pats c ord d (i_depth (IDom (root dm level None mp pats c)) + 1) Ho HI Hu Hd Hi)
    as [c' [mp' [pats' [rm [rm' [ans [Eq [_ [Hlf Ea]]]]]]]]].
  { apply leafq_rstep; [exact any_names|exact Ho|intros; exact I|exact I]. }
  destruct Hlf as [[L [K [Hh HL]]] Hm Hlv]. pose proof (any_allowed rm Hm) as HA. apply (wholds_holds _ _ _ _ Hm) in Hh.
  destruct (HasLink_holds _ rm L K ord a b HA Ho Hh I I) as [rm2 [r [Er Hr]]].
  cbn [rstep] in Ea. rewrite Er in Ea. cbn [obind] in Ea. injection Ea as _ <-.
  eexists _, r. split; [exact E|]. split; [exact Eq|]. rewrite Hr, Hm, Hlv.
  assert (Hhit : forall x y, hits None x y <-> x = y).
  { intros x y. unfold hits. split; [intros [?|[m [? _]]]; [assumption|discriminate]|auto]. }
  rewrite Hhit.
  assert (Hch : forall n x, chain (estep None L (name_add b (name_add a K))) n a x <-> chain (effective dm h d) n a x).
  { intros n x. apply chain_iff with (Q := fun _ => True); auto. intros u v _. cbn. apply HL. }
  split.
  - intros [->|[k [y [Hk [Hc Hy]]]]]; [now left|]. apply Hhit in Hy. subst y. apply Hch in Hc.
    destruct k as [|k]; [left; now inversion Hc|]. right. exists (S k). split; [lia|]. split; [lia|exact Hc].
  - intros [->|[n [Hn [Hl Hc]]]]; [now left|right]. exists n, b. split; [lia|]. split; [now apply Hch|now apply Hhit].
Qed.
Print Assumptions C35_patterns_apply_partial.

(** The same for GetRoles and GetUsers. *)
Theorem C35_roles_users_partial :
  forall (dm : imatcher) (level : Z) (h : list (order * dcall)) (ord : order) (u d : string),
    good_d h -> good_order ord -> Forall (fun c => add_only dm (snd c)) h ->
    IsPattern dm defaultDomain = false -> IsPattern dm d = false -> good_names dm (d :: domains_of h) ->
    exists x xs x1 roles x2 users,
      dexec (domains_with level None (Some dm)) h = Val (x, xs) /\
      dstep ord x (DRoles u [d]) = Val (x1, ANames roles) /\ dstep ord x (DUsers u [d]) = Val (x2, ANames users) /\
      (forall r, In r roles <-> effective dm h d u r) /\ (forall r, In r users <-> effective dm h d r u).
Proof.
  intros dm level h ord u d Hg Ho Ha Hdef Hi HG.
  destruct (run_ok dm level h d Hdef Hg Ha HG) as [mp [pats [c [xs [E [_ [HI Hu]]]]]]].
  set (Dn := fun n => In n (d :: domains_of h)) in *.
  assert (Hd : Dn d) by now left.
  exists (IDom (root dm level None mp pats c)), xs.
  rewrite (dstep_query ord (IDom (root dm level None mp pats c)) (DRoles u [d]) [d] I eq_refl).
  rewrite (dstep_query ord (IDom (root dm level None mp pats c)) (DUsers u [d]) [d] I eq_refl).
  destruct (query_ok dm level Hdef None (fun _ => True) any_names Dn (gn_plain _ _ HG) (proj1 (Forall_forall _ _) (gn_unres _ _ HG)) (gn_apart _ _ HG)
              (fun rm => rstep ord rm (RRoles u)) h mp pats c ord d (i_depth (IDom (root dm level None mp pats c)) + 1) Ho HI Hu Hd Hi)
    as [c1 [mp1 [pats1 [rm1 [rm1' [ans1 [Eq1 [_ [Hlf1 Ea1]]]]]]]]].
  { apply leafq_rstep; [exact any_names|exact Ho|intros; exact I|exact I]. }
  destruct (query_ok dm level Hdef None (fun _ => True) any_names Dn (gn_plain _ _ HG) (proj1 (Forall_forall _ _) (gn_unres _ _ HG)) (gn_apart _ _ HG)
              (fun rm => rstep ord rm (RUsers u)) h mp pats c ord d (i_depth (IDom (root dm level None mp pats c)) + 1) Ho HI Hu Hd Hi)
    as [c2 [mp2 [pats2 [rm2 [rm2' [ans2 [Eq2 [_ [Hlf2 Ea2]]]]]]]]].
  { apply leafq_rstep; [exact any_names|exact Ho|intros; exact I|exact I]. }
  destruct Hlf1 as [[L1 [K1 [Hh1 HL1]]] Hm1 _]. destruct Hlf2 as [[L2 [K2 [Hh2 HL2]]] Hm2 _].
  pose proof (any_allowed rm1 Hm1) as HA1. pose proof (any_allowed rm2 Hm2) as HA2. apply (wholds_holds _ _ _ _ Hm1) in Hh1. apply (wholds_holds _ _ _ _ Hm2) in Hh2.
  destruct (GetRoles_holds _ rm1 L1 K1 ord u HA1 Ho Hh1 I) as [q1 [roles [F1 H1]]].
  destruct (GetUsers_holds _ rm2 L2 K2 ord u HA2 Ho Hh2 I) as [q2 [users [F2 H2]]].
  cbn [rstep] in Ea1, Ea2. rewrite F1 in Ea1. rewrite F2 in Ea2. cbn [obind] in Ea1, Ea2.
  injection Ea1 as _ <-. injection Ea2 as _ <-. rewrite Hm1 in H1. rewrite Hm2 in H2. cbn [estep] in H1, H2.
  eexists _, roles, _, users. split; [exact E|]. split; [exact Eq1|]. split; [exact Eq2|]. split.
  - intros r. rewrite H1. apply HL1.
  - intros r. rewrite H2. split; [intros [_ H]; now apply HL2|]. intros H. apply HL2 in H. split; [|exact H].
    apply name_add_true. right. now apply (holds_link_known _ _ _ _ _ _ Hh2) in H.
Qed.
Print Assumptions C35_roles_users_partial.

(** Adding reports whether the link was not effective yet. *)
Theorem C35_add_reports_partial :
  forall (dm : imatcher) (level : Z) (h : list (order * dcall)) (ord : order) (a b d : string),
    good_d h -> good_order ord -> Forall (fun c => add_only dm (snd c)) h ->
    IsPattern dm defaultDomain = false -> good_names dm (d :: domains_of h) ->
    exists x xs x' r,
      dexec (domains_with level None (Some dm)) h = Val (x, xs) /\
      dstep ord x (DAdd a b [d]) = Val (x', ABool r) /\ (r = true <-> ~ effective dm h d a b).
Proof.
  intros dm level h ord a b d Hg Ho Ha Hdef HG.
  destruct (run_ok dm level h d Hdef Hg Ha HG) as [mp [pats [c [xs [E [_ [HI Hu]]]]]]].
  set (Dn := fun n => In n (d :: domains_of h)) in *.
  assert (Hd : Dn d) by now left.
  destruct (add_ok dm level Hdef None (fun _ => True) any_names Dn (gn_plain _ _ HG) (proj1 (Forall_forall _ _) (gn_unres _ _ HG)) (gn_apart _ _ HG)
              h mp pats c ord ord a b d (i_depth (IDom (root dm level None mp pats c)) + 1) Ho I I HI Hu Hd)
    as [mp' [pats' [c' [r [Ea [_ Hr]]]]]].
  exists (IDom (root dm level None mp pats c)), xs, (IDom (root dm level None mp' pats' c')), r. split; [exact E|]. split; [|exact Hr].
  cbn [dstep]. unfold i_Add, fuel. cbn [List.length]. rewrite Ea. reflexivity.
Qed.
Print Assumptions C35_add_reports_partial.

(** The pattern link holds in a domain used before and in one used after. *)
Definition ex_p : list (order * dcall) :=
  [(fwd, DAdd "bob" "guest" ["/d/1"]); (bwd, DAdd "alice" "admin" ["/d/*"]); (fwd, DHas "alice" "admin" ["/d/3"]);
   (fwd, DAdd "admin" "staff" ["/d/2"]); (fwd, DAdd "alice" "x" ["/e/*"])].
Lemma ex_p_names : good_names PathMatcher ("/d/2" :: domains_of ex_p)%string.
Proof.
  constructor.
  - cbn. intros n H. repeat (destruct H as [<-|H]; [reflexivity|]). contradiction.
  - repeat constructor; cbn; intros [H|H]; discriminate.
  - intros p q Hp Hq Hi [Hne [Hip Hm]]. cbn in Hp, Hq.
    repeat (destruct Hp as [<-|Hp]; [repeat (destruct Hq as [<-|Hq]; [first [congruence|vm_compute in Hi; discriminate|vm_compute in Hip; discriminate|vm_compute in Hm; discriminate]|]); contradiction|]).
    contradiction.
Qed.
Example C35_ex :
  good_d ex_p /\ Forall (fun c => add_only PathMatcher (snd c)) ex_p /\
  IsPattern PathMatcher defaultDomain = false /\ IsPattern PathMatcher "/d/2" = false /\
  good_names PathMatcher ("/d/2" :: domains_of ex_p)%string /\
  effective PathMatcher ex_p "/d/2" "alice" "admin" /\
  last_d (domains_with 10 None (Some PathMatcher)) ex_p fwd (DHas "alice" "staff" ["/d/2"]) = Some (ABool true) /\
  last_d (domains_with 10 None (Some PathMatcher)) ex_p fwd (DHas "alice" "admin" ["/d/1"]) = Some (ABool true) /\
  last_d (domains_with 10 None (Some PathMatcher)) ex_p fwd (DHas "alice" "x" ["/d/1"]) = Some (ABool false).
Proof.
  split; [repeat constructor; first [apply good_fwd|apply good_bwd]|].
  split; [repeat constructor|]. split; [reflexivity|]. split; [reflexivity|]. split; [apply ex_p_names|].
  split; [|vm_compute; auto].
  exists "/d/*"%string. split; [exists bwd; cbn; auto|]. right. split; [discriminate|]. split; reflexivity.
Qed.

(** ** C36: explicit links and pattern domains. *)

(** [a -> b] was added in [d] itself and not deleted there. *)
Definition explicit (h : list (order * dcall)) (d a b : string) : Prop := links_of (calls_in [d] h) a b = true.

(** Deleting in the pattern domain removes the explicit link. *)
Theorem C36_removed_refuted :
  ~ (forall (dm : imatcher) (level : Z) (h : list (order * dcall)) (ord : order) (a b d : string),
       good_d h -> good_order ord -> Forall (fun c => one_domain (snd c)) h -> (level >= 10)%Z -> explicit h d a b ->
       last_d (domains_with level None (Some dm)) h ord (DHas a b [d]) = Some (ABool true)).
Proof.
  intros H. set (h := [(fwd, DAdd "alice" "admin" ["/d/1"]); (fwd, DAdd "alice" "admin" ["/d/*"]); (fwd, DDel "alice" "admin" ["/d/*"])]).
  specialize (H PathMatcher 10%Z h fwd "alice"%string "admin"%string "/d/1"%string).
  assert (E : last_d (domains_with 10 None (Some PathMatcher)) h fwd (DHas "alice" "admin" ["/d/1"]) = Some (ABool false))
    by (vm_compute; reflexivity).
  rewrite H in E; [discriminate| | | |lia|reflexivity].
  - repeat constructor; apply good_fwd. - apply good_fwd.
  - repeat constructor; red; cbn; eauto.
Qed.
Print Assumptions C36_removed_refuted.

(** A pattern link blocks the explicit one: adding it reports false. *)
Theorem C36_blocked_refuted :
  ~ (forall (dm : imatcher) (level : Z) (h : list (order * dcall)) (ord : order) (a b d : string),
       good_d h -> good_order ord -> Forall (fun c => one_domain (snd c)) h -> (level >= 10)%Z -> ~ explicit h d a b ->
       last_d (domains_with level None (Some dm)) h ord (DAdd a b [d]) = Some (ABool true)).
Proof.
  intros H. set (h := [(fwd, DAdd "x" "y" ["/d/1"]); (fwd, DAdd "alice" "admin" ["/d/*"])]).
  specialize (H PathMatcher 10%Z h fwd "alice"%string "admin"%string "/d/1"%string).
  assert (E : last_d (domains_with 10 None (Some PathMatcher)) h fwd (DAdd "alice" "admin" ["/d/1"]) = Some (ABool false))
    by (vm_compute; reflexivity).
  rewrite H in E; [discriminate| | | |lia|unfold explicit; discriminate].
  - repeat constructor; apply good_fwd. - apply good_fwd.
  - repeat constructor; red; cbn; eauto.
Qed.
Print Assumptions C36_blocked_refuted.

(** A pattern link hides the explicit one from Range (so it is neither listed nor
    saved). *)
Theorem C36_hidden_refuted :
  ~ (forall (dm : imatcher) (level : Z) (h : list (order * dcall)) (ord : order) (a b d : string) x xs,
       good_d h -> good_order ord -> Forall (fun c => one_domain (snd c)) h -> (level >= 10)%Z -> explicit h d a b ->
       dexec (domains_with level None (Some dm)) h = Val (x, xs) -> In (a, b, [d]) (i_links ord x)).
Proof.
  intros H. set (h := [(fwd, DAdd "alice" "admin" ["/d/1"]); (fwd, DAdd "alice" "admin" ["/d/*"])]).
  destruct (dexec (domains_with 10 None (Some PathMatcher)) h) as [[x xs]|] eqn:E; [|vm_compute in E; discriminate].
  specialize (H PathMatcher 10%Z h fwd "alice"%string "admin"%string "/d/1"%string x xs).
  assert (F : match dexec (domains_with 10 None (Some PathMatcher)) h with
              | Val (x, _) => i_links fwd x | Panic => [] end = [("alice", "admin", ["/d/*"])]%string) by (vm_compute; reflexivity).
  rewrite E in F. rewrite F in H.
  cut (In ("alice", "admin", ["/d/1"])%string [("alice", "admin", ["/d/*"])]%string); [intros [HH|[]]; discriminate|]. apply H.
  - repeat constructor; apply good_fwd. - apply good_fwd.
  - repeat constructor; red; cbn; eauto. - lia. - reflexivity. - exact E.
Qed.
Print Assumptions C36_hidden_refuted.

(** What holds: as long as nothing is deleted, explicit links stay effective. *)
Theorem C36_explicit_effective_partial :
  forall (dm : imatcher) (level : Z) (h : list (order * dcall)) (ord : order) (a b d : string),
    good_d h -> good_order ord -> Forall (fun c => add_only dm (snd c)) h -> (4 <= level)%Z ->
    IsPattern dm defaultDomain = false -> IsPattern dm d = false -> good_names dm (d :: domains_of h) ->
    added_link h a b d ->
    last_d (domains_with level None (Some dm)) h ord (DHas a b [d]) = Some (ABool true).
Proof.
  intros dm level h ord a b d Hg Ho Ha Hlv Hdef Hi HG Had.
  destruct (C35_patterns_apply_partial dm level h ord a b d Hg Ho Ha Hdef Hi HG) as [x [xs [x' [r [E [Es Hr]]]]]].
  unfold last_d. rewrite E, Es. do 2 f_equal. apply Hr. right. exists 1. split; [lia|]. split; [lia|].
  apply (chain_S _ 0 a b b); [|constructor]. exists d. auto.
Qed.
Print Assumptions C36_explicit_effective_partial.

(** ** C38: queries. *)

(** A query about a pattern domain that was never used makes later queries
    crash (nil dereference). *)
Theorem C38_no_crash_refuted :
  ~ (forall (dm : imatcher) (level : Z) (h : list (order * dcall)) (ord : order) (c : dcall) x xs,
       good_d h -> good_order ord -> dexec (domains_with level None (Some dm)) h = Val (x, xs) -> is_dquery c ->
       dstep ord x c <> Panic).
Proof.
  intros H. set (h := [(fwd, DHas "alice" "admin" ["/d/*"])]).
  destruct (dexec (domains_with 10 None (Some PathMatcher)) h) as [[x xs]|] eqn:E; [|vm_compute in E; discriminate].
  apply (H PathMatcher 10%Z h fwd (DHas "alice" "admin" ["/d/1"]) x xs); [| |exact E|exact I|].
  - repeat constructor; apply good_fwd. - apply good_fwd.
  - assert (F : last_d (domains_with 10 None (Some PathMatcher)) h fwd (DHas "alice" "admin" ["/d/1"]) = None)
      by (vm_compute; reflexivity).
    unfold last_d in F. rewrite E in F. destruct (dstep fwd x _) as [[? ?]|]; [discriminate|reflexivity].
Qed.
Print Assumptions C38_no_crash_refuted.

(** Asking [qs] in between does not change the answers to [h2]. *)
Definition unaffected_d (x0 : irm) (h1 qs h2 : list (order * dcall)) : Prop :=
  exists r1 r2 xs ys zs,
    dexec x0 (h1 ++ h2) = Val (r1, xs ++ zs) /\
    dexec x0 (h1 ++ qs ++ h2) = Val (r2, xs ++ ys ++ zs) /\
    List.length xs = List.length h1 /\ List.length ys = List.length qs /\ List.length zs = List.length h2.

(** Without domain matcher, for all domain lists, reserved ones included. *)
Theorem C38_read_only_partial :
  forall (level : Z) (m : option imatcher) (h1 qs h2 : list (order * dcall)),
    good_d (h1 ++ qs ++ h2) -> Forall (fun c => is_dquery (snd c)) qs ->
    (forall n, In n (mentioned_d (h1 ++ qs ++ h2)) -> fine m n) ->
    unaffected_d (domains_with level m None) h1 qs h2.
Proof.
  intros level m h1 qs h2 Hg Hq Hf.
  apply Forall_app in Hg as [G1 Hg]. apply Forall_app in Hg as [Gq G2].
  assert (F : forall n, In n (mentioned_d h1) \/ In n (mentioned_d qs) \/ In n (mentioned_d h2) -> okname m n).
  { intros n H. apply fine_okname, Hf. unfold mentioned_d in *. rewrite !flat_map_app, !in_app_iff. exact H. }
  destruct (dexec_rel m level h1 _ _ (rel_start m level) G1) as [x1 [R1 [xs [E1 [_ [HR1 [L1 _]]]]]]]; [intros n H; apply F; auto|].
  destruct (dexec_rel m level qs _ _ HR1 Gq) as [xq [Rq [ys [Eq [_ [_ [Lq Hsame]]]]]]]; [intros n H; apply F; auto|].
  specialize (Hsame Hq).
  destruct (dexec_rel m level h2 _ _ HR1 G2) as [x2 [R2 [zs [E2 [F2 [_ [L2 _]]]]]]]; [intros n H; apply F; auto|].
  destruct (dexec_rel m level h2 _ _ Hsame G2) as [x3 [R3 [zs' [E3 [F3 _]]]]]; [intros n H; apply F; auto|].
  rewrite F2 in F3. injection F3 as _ <-.
  exists x2, x3, xs, ys, zs. rewrite !dexec_app, E1. cbn [obind]. rewrite E2. cbn [obind].
  rewrite dexec_app, Eq. cbn [obind]. rewrite E3. cbn [obind]. auto.
Qed.
Print Assumptions C38_read_only_partial.

(** With a domain matcher, for queries about ordinary domains: the answer depends
    only on the links that were added. *)
Theorem C38_read_only_patterns_partial :
  forall (dm : imatcher) (level : Z) (h : list (order * dcall)) (ord : order) (a b d : string),
    good_d h -> good_order ord -> Forall (fun c => add_only dm (snd c)) h ->
    IsPattern dm defaultDomain = false -> IsPattern dm d = false -> good_names dm (d :: domains_of h) ->
    let h' := filter (fun c => match snd c with DAdd _ _ _ => true | _ => false end) h in
    exists r,
      last_d (domains_with level None (Some dm)) h ord (DHas a b [d]) = Some (ABool r) /\
      last_d (domains_with level None (Some dm)) h' ord (DHas a b [d]) = Some (ABool r).
Proof.
  intros dm level h ord a b d Hg Ho Ha Hdef Hi HG h'.
  assert (Hin : forall c, In c h' -> In c h) by (intros c H; now apply filter_In in H).
  destruct (C35_patterns_apply_partial dm level h ord a b d Hg Ho Ha Hdef Hi HG) as [x [xs [x' [r [E [Es Hr]]]]]].
  destruct (C35_patterns_apply_partial dm level h' ord a b d) as [y [ys [y' [r' [E' [Es' Hr']]]]]]; auto.
  - apply Forall_forall. intros c Hc. exact (proj1 (Forall_forall _ _) Hg c (Hin c Hc)).
  - apply Forall_forall. intros c Hc. exact (proj1 (Forall_forall _ _) Ha c (Hin c Hc)).
  - assert (Hsub : forall n, In n (d :: domains_of h') -> In n (d :: domains_of h)).
    { intros n [->|Hn]; [now left|right]. unfold domains_of in *. apply in_flat_map in Hn as [c [Hc Hn]]. apply in_flat_map. eauto. }
    destruct HG as [G1 G2 G3]. constructor; auto.
    + apply Forall_forall. intros n Hn. exact (proj1 (Forall_forall _ _) G2 n (Hsub n Hn)).
    + intros p q Hp Hq. apply G3; auto.
  - exists r. unfold last_d. rewrite E, Es, E', Es'. split; [reflexivity|]. do 2 f_equal.
    assert (He : forall u v, effective dm h' d u v <-> effective dm h d u v).
    { intros u v. unfold effective, added_link. split; intros [k [[o Hk] Hc]]; exists k; (split; [exists o|exact Hc]).
      - now apply Hin. - unfold h'. apply filter_In. auto. }
    assert (Hrr : r = true <-> r' = true).
    { rewrite Hr, Hr'. assert (Hch : forall n, chain (effective dm h d) n a b <-> chain (effective dm h' d) n a b).
      { intros n. apply chain_iff with (Q := fun _ => True); auto. intros u v _. symmetry. apply He. }
      split; (intros [?|[n [H1 [H2 H3]]]]; [now left|right; exists n; split; [exact H1|split; [exact H2|now apply Hch]]]). }
    destruct r, r'; intuition congruence.
Qed.
Print Assumptions C38_read_only_patterns_partial.

Example C38_ex :
  let qs := [(fwd, DRoles "alice" ["d2"; "RoleManager"; "x"]); (bwd, DUsers "nobody" ["d9"])] in
  good_d (ex_d ++ qs ++ ex_d) /\ Forall (fun c => is_dquery (snd c)) qs /\
  exists xs, answers_d (domains_with 10 None None) (ex_d ++ qs ++ ex_d) = Some xs /\ nth_error xs 10 = Some (ABool false).
Proof.
  cbn zeta. split; [repeat constructor; first [apply good_fwd|apply good_bwd]|]. split; [repeat constructor|].
  eexists. split; [vm_compute; reflexivity|reflexivity].
Qed.

(** ** C37: installing matchers on a domain manager. *)

(** Setting the role matcher (even the one in force) loses the links that domains
    got from patterns; setting the domain matcher loses explicit links that a
    pattern link hides. *)
Definition has_after_set (set : irm -> outcome irm) (x0 : irm) (h : list (order * dcall)) (c : dcall) : option answer :=
  match dexec x0 h with
  | Val (x, _) => match set x with
                  | Val x1 => match dstep fwd x1 c with Val (_, a) => Some a | Panic => None end
                  | Panic => None
                  end
  | Panic => None
  end.

Theorem C37_set_matcher_domains_refuted :
  ~ (forall (dm : imatcher) (level : Z) (m : option imatcher) (h : list (order * dcall)) (a b d : string),
       good_d h -> Forall (fun c => add_only dm (snd c)) h -> IsPattern dm d = false ->
       has_after_set (fun x => i_SetMatcher fwd x m) (domains_with level m (Some dm)) h (DHas a b [d]) =
       last_d (domains_with level m (Some dm)) h fwd (DHas a b [d])).
Proof.
  intros H. specialize (H PathMatcher 10%Z None [(fwd, DAdd "x" "y" ["/d/1"]); (fwd, DAdd "alice" "admin" ["/d/*"])]
                          "alice"%string "admin"%string "/d/1"%string).
  assert (Hx : Some (ABool false) = Some (ABool true)); [|discriminate].
  transitivity (has_after_set (fun x => i_SetMatcher fwd x None) (domains_with 10 None (Some PathMatcher))
    [(fwd, DAdd "x" "y" ["/d/1"]); (fwd, DAdd "alice" "admin" ["/d/*"])] (DHas "alice" "admin" ["/d/1"])).
  - vm_compute. reflexivity.
  - rewrite H; [vm_compute; reflexivity| | |reflexivity].
    + repeat constructor; apply good_fwd. + repeat constructor.
Qed.
Print Assumptions C37_set_matcher_domains_refuted.

Theorem C37_set_domain_matcher_refuted :
  ~ (forall (dm : imatcher) (level : Z) (h : list (order * dcall)) (a b d : string),
       good_d h -> Forall (fun c => add_only dm (snd c)) h -> IsPattern dm d = false -> (level >= 10)%Z -> explicit h d a b ->
       has_after_set (fun x => i_SetDomainMatcher fwd x None) (domains_with level None (Some dm)) h (DHas a b [d])
       = Some (ABool true)).
Proof.
  intros H. specialize (H PathMatcher 10%Z [(fwd, DAdd "alice" "admin" ["/d/1"]); (fwd, DAdd "alice" "admin" ["/d/*"])]
                          "alice"%string "admin"%string "/d/1"%string).
  assert (Hx : Some (ABool false) = Some (ABool true)); [|discriminate].
  transitivity (has_after_set (fun x => i_SetDomainMatcher fwd x None) (domains_with 10 None (Some PathMatcher))
    [(fwd, DAdd "alice" "admin" ["/d/1"]); (fwd, DAdd "alice" "admin" ["/d/*"])] (DHas "alice" "admin" ["/d/1"])).
  - vm_compute. reflexivity.
  - rewrite H; [reflexivity| | |reflexivity|lia|reflexivity].
    + repeat constructor; apply good_fwd. + repeat constructor.
Qed.
Print Assumptions C37_set_domain_matcher_refuted.
