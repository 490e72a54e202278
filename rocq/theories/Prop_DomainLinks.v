(** Property C03 for grouping sections with domains, and C37 for domain
    managers. *)
From Verif Require Import GoBase GoBaseP PolicyM CacheM PathM RbacM RbacSpec RbacP RbacP2 RbacP3 RbacP4 Prop_Rbac
  DomainM DomainSpec DomainP DomainP2 DomainP5 Prop_Domain.

(** ** C03: the links of a manager with domains form a set.

    A link is a pair of names and a list of domains.  Adding and removing give
    the exact boolean results, and enumeration yields exactly the present links,
    each once. *)
Theorem C03_domain_links_set :
  forall (level : Z) (h : list (order * dcall)) (ord : order) (a b : string) (ds : list string),
    good_d h -> ordinary h -> good_order ord -> unreserved ds ->
    exists x xs, dexec (domains_with level None None) h = Val (x, xs) /\
      (exists x', i_Add ord x a b ds = Val (x', negb (links_of (calls_in ds h) a b))) /\
      (exists x', i_Del ord x a b ds = Val (x', links_of (calls_in ds h) a b)) /\
      NoDup (i_links ord x) /\
      (forall u v es, In (u, v, es) (i_links ord x) <-> links_of (calls_in es h) u v = true).
Proof.
  intros level h ord a b ds Hg Hor Ho Hd.
  destruct (domain_listing level h ord Hg Hor Ho) as [x [xs [E [N L]]]]. exists x, xs. split; [exact E|].
  assert (G : forall c, concerns ds c = true -> call_domains c = Some ds ->
    exists x' ans rm rm', dstep ord x c = Val (x', ans) /\ holds (fun _ => True) rm (links_of (calls_in ds h)) (names_of (calls_in ds h)) /\
      rm_matcher rm = None /\ rstep ord rm (without_domains c) = Val (rm', ans)).
  { intros c Hc Hcd. destruct (C33_isolated_partial level None ds (h ++ [(ord, c)])) as [x2 [ys [rm2 [E2 [L2 F2]]]]].
    { apply Forall_app. split; [exact Hg|]. repeat constructor. exact Ho. }
    { apply Forall_app. split; [exact Hor|]. repeat constructor. cbn. now rewrite Hcd. }
    { intros n _. exact I. }
    rewrite dexec_app, E in E2. cbn [obind dexec] in E2. destruct (dstep ord x c) as [[x' ans]|] eqn:Es; [|discriminate].
    cbn [obind] in E2. injection E2 as -> <-.
    assert (Lx : List.length xs = List.length h) by (rewrite !app_length in L2; cbn in L2; lia).
    rewrite (calls_in_snoc ds h ord _ Hc), (answers_in_snoc ds h ord _ xs ans Hc Lx), rexec_app in F2.
    set (lv := (level - 1 - Z.of_nat (List.length ds))%Z) in *.
    destruct (reached lv (calls_in ds h) (good_calls_in ds h Hg)) as [rm [zs [G1 [G2 [G3 _]]]]].
    change (NewRoleManager lv) with (newRoleManagerWithMatchingFunc lv None) in G1. rewrite G1 in F2. cbn [obind rexec] in F2.
    destruct (rstep ord rm (without_domains c)) as [[rm' an]|] eqn:Er; cbn [obind] in F2; [|discriminate].
    injection F2 as _ F2. apply app_inj_tail in F2 as [_ <-]. eexists _, _, rm, _. split; [reflexivity|]. split; [exact G2|]. split; [exact G3|exact Er]. }
  split; [|split; [|split; [exact N|exact L]]].
  - destruct (G (DAdd a b ds)) as [x' [ans [rm [rm' [G1 [G2 [G3 G4]]]]]]]; [cbn; apply path_eqb_refl|reflexivity|].
    destruct (holds_step (fun _ => True) rm _ _ ord (RAdd a b []) ltac:(rewrite G3; apply all_allowed) Ho G2 (fun _ _ => I))
      as [rm2 [y [Es [_ [_ [_ [Ha _]]]]]]].
    cbn [without_domains] in G4. rewrite G4 in Es. injection Es as <- <-. specialize (Ha a b [] eq_refl). subst ans.
    exists x'. cbn [dstep] in G1. destruct (i_Add ord x a b ds) as [[x1 r]|]; cbn [obind] in G1; [|discriminate]. now injection G1 as -> ->.
  - destruct (G (DDel a b ds)) as [x' [ans [rm [rm' [G1 [G2 [G3 G4]]]]]]]; [cbn; apply path_eqb_refl|reflexivity|].
    destruct (holds_step (fun _ => True) rm _ _ ord (RDel a b []) ltac:(rewrite G3; apply all_allowed) Ho G2 (fun _ _ => I))
      as [rm2 [y [Es [_ [_ [_ [_ Ha]]]]]]].
    cbn [without_domains] in G4. rewrite G4 in Es. injection Es as <- <-. specialize (Ha a b [] eq_refl). subst ans.
    exists x'. cbn [dstep] in G1. destruct (i_Del ord x a b ds) as [[x1 r]|]; cbn [obind] in G1; [|discriminate]. now injection G1 as -> ->.
Qed.
Print Assumptions C03_domain_links_set.

Example C03_domain_links_ex :
  let h := [(fwd, DAdd "alice" "admin" ["d1"]); (bwd, DAdd "alice" "admin" ["d2"; "sub"]);
            (fwd, DAdd "bob" "admin" []); (fwd, DDel "alice" "admin" ["d1"])]%string in
  ordinary h /\
  match dexec (domains_with 10 None None) h with
  | Val (x, _) => i_links bwd x
  | Panic => []
  end = [("bob", "admin", []); ("alice", "admin", ["d2"; "sub"])]%string.
Proof.
  split; [|vm_compute; reflexivity].
  repeat constructor; cbn; unfold reserved; intros [H|H]; discriminate.
Qed.

(** With a domain called like the internal entry for "no domain" the link is
    listed without its domain. *)
Theorem C03_reserved_domain_refuted :
  exists (ds : list string) (ord : order), good_order ord /\
    match dexec (domains_with 10 None None) [(ord, DAdd "alice" "admin" ds)]%string with
    | Val (x, _) => i_links ord x
    | Panic => []
    end = [("alice", "admin", [])]%string /\ ds <> [].
Proof. exists ["RoleManager"]%string, fwd. split; [intros l; reflexivity|]. split; [vm_compute; reflexivity|discriminate]. Qed.
Print Assumptions C03_reserved_domain_refuted.
