(** Property C37 for managers with domains: installing a domain matcher or a
    role matcher on a manager that already has links. *)
From Verif Require Import GoBase GoBaseP PolicyM CacheM PathM RbacM RbacSpec RbacP RbacP2 RbacP3 RbacP4 Prop_Rbac
  DomainM DomainSpec DomainP DomainP2 DomainP3 DomainP4 DomainP5 Prop_Domain DomainP6.

(** ** The domain matcher *)

(** What should be effective in domain [d] when the links of history [h] were
    there before the matcher and those of [h2] were added afterwards: links present
    in [d] and links present in a pattern domain that covers [d]. *)
Definition effective_after (dm : imatcher) (h h2 : list (order * dcall)) (d a b : string) : Prop :=
  exists k, (links_of (calls_in [k] h) a b = true \/ added_link h2 a b k) /\ (k = d \/ covers dm k d).

Lemma links_added l : forall L x y, fold_left links_step l L x y = true ->
  L x y = true \/ exists ds, In (RAdd x y ds) l.
Proof.
  induction l as [|c l IH]; intros L x y H; cbn in H; [now left|].
  destruct (IH _ _ _ H) as [Hs|[ds Hi]]; [|right; exists ds; now right].
  destruct c as [u v ds|u v ds|u v|u|u|]; cbn in Hs; auto; unfold link_add, link_del, no_links in Hs.
  - apply orb_prop in Hs as [Hs|Hs]; [|auto]. apply andb_prop in Hs as [H1 H2].
    apply String.eqb_eq in H1, H2. subst. right. exists ds. now left.
  - apply andb_prop in Hs as [_ Hs]. auto.
  - discriminate.
Qed.
Lemma links_in_added ds h a b : links_of (calls_in ds h) a b = true -> exists o, In (o, DAdd a b ds) h.
Proof.
  intros H. apply links_added in H as [H|[es H]]; [discriminate|].
  apply in_map_iff in H as [[o c] [E H]]. cbn in E. subst c. unfold calls_in in H.
  apply in_map_iff in H as [[o' c'] [E H]]. apply filter_In in H as [H Hc]. cbn in E, Hc. injection E as -> E.
  destruct c'; cbn in E; try discriminate. injection E as -> -> <-. unfold concerns in Hc. cbn in Hc.
  apply path_eqb_true in Hc. subst. now exists o.
Qed.

Theorem C37_set_domain_matcher_partial :
  forall (dm : imatcher) (level : Z) (h h2 : list (order * dcall)) (ord ord' : order) (a b d : string),
    good_d h -> good_d h2 -> good_order ord -> good_order ord' ->
    Forall (fun c => one_domain_each (snd c)) h -> Forall (fun c => add_only dm (snd c)) h2 ->
    IsPattern dm defaultDomain = false -> IsPattern dm d = false -> good_names dm (d :: domains_of (h ++ h2)) ->
    exists x xs y z zs z1 r z2 roles z3 users,
      dexec (domains_with level None None) h = Val (x, xs) /\
      i_SetDomainMatcher ord x (Some dm) = Val y /\
      dexec y h2 = Val (z, zs) /\
      dstep ord' z (DHas a b [d]) = Val (z1, ABool r) /\
      dstep ord' z (DRoles a [d]) = Val (z2, ANames roles) /\
      dstep ord' z (DUsers a [d]) = Val (z3, ANames users) /\
      (r = true <-> a = b \/
         exists n, 1 <= n /\ (Z.of_nat n <= level - 3)%Z /\ chain (effective_after dm h h2 d) n a b) /\
      (forall u, In u roles <-> effective_after dm h h2 d a u) /\
      (forall u, In u users <-> effective_after dm h h2 d u a).
Proof.
  intros dm level h h2 ord ord' a b d Hg Hg2 Ho Ho' H1 Ha Hdef Hi HG.
  assert (Hor : ordinary h).
  { apply Forall_forall. intros [o c] Hc. pose proof (proj1 (Forall_forall _ _) H1 _ Hc) as O. cbn in O |- *. unfold one_domain_each in O.
    destruct (call_domains c) as [ds|] eqn:Ec; [|exact I]. destruct O as [k ->]. repeat constructor.
    apply (proj1 (Forall_forall _ _) (gn_unres _ _ HG)). right. unfold domains_of. apply in_flat_map. exists (o, c).
    split; [apply in_or_app; now left|]. cbn. rewrite Ec. now left. }
  destruct (domain_listing level h ord Hg Hor Ho) as [x [xs [E [_ HL]]]].
  destruct (dexec_rel None level h _ _ (rel_start None level) Hg) as [x0 [R [xs0 [E1 [_ [HR _]]]]]]; [intros n _; exact I|].
  rewrite E in E1. injection E1 as <- <-.
  assert (F : flat None level x).
  { eapply flat_exec; [apply (rel_start None level)|exact Hg|exact Hor|exact H1| |exact E].
    eexists. split; [reflexivity|]. cbn. repeat split; auto. discriminate. }
  assert (N : nk x).
  { eapply nk_exec; [apply (rel_start None level)|exact Hg| |exact E]. constructor; cbn; [constructor|discriminate]. }
  destruct (set_dm dm level Hdef None (fun _ => True) any_names ord x Ho F N (fun _ _ _ _ => conj I I)) as [ls [Hls Es]].
  set (hA := map (fun '(u, v, ds) => (ord, DAdd u v ds)) ls : list (order * dcall)).
  assert (Hin : forall u v ds, In (u, v, ds) ls <-> links_of (calls_in ds h) u v = true) by (intros; now rewrite Hls).
  assert (Hsh : forall u v ds, In (u, v, ds) ls -> exists k, ds = [k] /\ In k (domains_of h)).
  { intros u v ds H. apply Hin, links_in_added in H as [o H]. pose proof (proj1 (Forall_forall _ _) H1 _ H) as O. cbn in O.
    destruct O as [k ->]. exists k. split; [reflexivity|]. unfold domains_of. apply in_flat_map. eexists. split; [exact H|]. now left. }
  assert (GA : good_d (hA ++ h2)).
  { apply Forall_app. split; [|exact Hg2]. apply Forall_forall. intros c Hc. apply in_map_iff in Hc as [[[u v] ds] [<- _]]. exact Ho. }
  assert (AA : Forall (fun c => add_only dm (snd c)) (hA ++ h2)).
  { apply Forall_app. split; [|exact Ha]. apply Forall_forall. intros c Hc. apply in_map_iff in Hc as [[[u v] ds] [<- Hc]].
    destruct (Hsh _ _ _ Hc) as [k [-> _]]. exact I. }
  assert (NA : good_names dm (d :: domains_of (hA ++ h2))).
  { assert (Sub : forall n, In n (d :: domains_of (hA ++ h2)) -> In n (d :: domains_of (h ++ h2))).
    { intros n [->|Hn]; [now left|right]. unfold domains_of in *. rewrite flat_map_app in *. apply in_app_iff in Hn.
      apply in_or_app. destruct Hn as [Hn|Hn]; [left|now right]. apply in_flat_map in Hn as [c [Hc Hn]].
      apply in_map_iff in Hc as [[[u v] ds] [<- Hc]]. destruct (Hsh _ _ _ Hc) as [k [-> Hk]]. cbn in Hn. destruct Hn as [<-|[]]. exact Hk. }
    destruct HG as [G1 G2 G3]. constructor.
    - intros n Hn. apply G1. now apply Sub.
    - apply Forall_forall. intros n Hn. apply (proj1 (Forall_forall _ _) G2). now apply Sub.
    - intros p q Hp Hq. apply G3; now apply Sub. }
  assert (Heff : forall u v, effective dm (hA ++ h2) d u v <-> effective_after dm h h2 d u v).
  { intros u v. unfold effective, effective_after, added_link. split; intros [k [Hk Hc]]; exists k; (split; [|exact Hc]).
    - destruct Hk as [o Hk]. apply in_app_iff in Hk as [Hk|Hk]; [left|right; now exists o].
      apply in_map_iff in Hk as [[[u' v'] ds] [Ek Hk]]. injection Ek as -> -> -> ->. now apply Hin.
    - destruct Hk as [Hk|[o Hk]].
      + exists ord. apply in_or_app. left. apply in_map_iff. exists (u, v, [k]). split; [reflexivity|now apply Hin].
      + exists o. apply in_or_app. now right. }
  destruct (C35_patterns_apply_partial dm level (hA ++ h2) ord' a b d GA Ho' AA Hdef Hi NA) as [z [zs [z1 [r [Ez [Eh Hr]]]]]].
  destruct (C35_roles_users_partial dm level (hA ++ h2) ord' a d GA Ho' AA Hdef Hi NA)
    as [z' [zs' [z2 [roles [z3 [users [Ez' [E2 [E3 [Hro Hus]]]]]]]]]].
  rewrite Ez in Ez'. injection Ez' as <- <-.
  rewrite dexec_app in Ez. destruct (dexec (domains_with level None (Some dm)) hA) as [[y ys]|] eqn:Ey; cbn [obind] in Ez; [|discriminate].
  destruct (dexec y h2) as [[w ws]|] eqn:Ew; cbn [obind] in Ez; [|discriminate]. injection Ez as -> _.
  exists x, xs, y, z, ws, z1, r, z2, roles, z3, users.
  split; [exact E|]. split; [rewrite Es; eapply adds_exec; exact Ey|]. split; [exact Ew|]. split; [exact Eh|].
  split; [exact E2|]. split; [exact E3|]. split; [|split].
  - rewrite Hr. assert (Hch : forall n, chain (effective dm (hA ++ h2) d) n a b <-> chain (effective_after dm h h2 d) n a b).
    { intros n. apply chain_iff with (Q := fun _ => True); auto. }
    split; (intros [?|[n [A1 [A2 A3]]]]; [now left|right; exists n; split; [exact A1|split; [exact A2|now apply Hch]]]).
  - intros u. rewrite Hro. apply Heff.
  - intros u. rewrite Hus. apply Heff.
Qed.
Print Assumptions C37_set_domain_matcher_partial.

(** Links in pattern domains made before the matcher was there, one of them
    deleted again, and a link added afterwards. *)
Definition ex_before : list (order * dcall) :=
  [(fwd, DAdd "bob" "guest" ["/d/1"]); (bwd, DAdd "alice" "admin" ["/d/*"]); (fwd, DAdd "eve" "admin" ["/d/*"]);
   (fwd, DDel "eve" "admin" ["/d/*"])]%string.
Definition ex_after : list (order * dcall) := [(fwd, DAdd "admin" "staff" ["/d/2"])]%string.
Example C37_set_domain_matcher_ex :
  good_d ex_before /\ good_d ex_after /\ Forall (fun c => one_domain_each (snd c)) ex_before /\
  Forall (fun c => add_only PathMatcher (snd c)) ex_after /\
  IsPattern PathMatcher defaultDomain = false /\ IsPattern PathMatcher "/d/2" = false /\
  good_names PathMatcher ("/d/2" :: domains_of (ex_before ++ ex_after))%string /\
  (let ask a b := match (let! (x, _) := dexec (domains_with 10 None None) ex_before in
                         let! y := i_SetDomainMatcher bwd x (Some PathMatcher) in
                         let! (z, _) := dexec y ex_after in dstep fwd z (DHas a b ["/d/2"]%string)) with
                  | Val (_, ABool r) => Some r | _ => None end in
   ask "alice" "staff" = Some true /\ ask "eve" "admin" = Some false /\ ask "bob" "guest" = Some false)%string.
Proof.
  split; [repeat constructor; first [apply good_fwd|apply good_bwd]|].
  split; [repeat constructor; apply good_fwd|].
  split; [repeat (apply Forall_cons; [eexists; reflexivity|]); apply Forall_nil|]. split; [repeat constructor|].
  split; [reflexivity|]. split; [reflexivity|]. split; [|vm_compute; auto].
  constructor.
  - cbn. intros n H. repeat (destruct H as [<-|H]; [reflexivity|]). contradiction.
  - repeat constructor; cbn; intros [H|H]; discriminate.
  - intros p q Hp Hq Hi [Hne [Hip Hm]]. cbn in Hp, Hq.
    repeat (destruct Hp as [<-|Hp]; [repeat (destruct Hq as [<-|Hq]; [first [congruence|vm_compute in Hi; discriminate|vm_compute in Hip; discriminate|vm_compute in Hm; discriminate]|]); contradiction|]).
    contradiction.
Qed.

(** ** The role matcher, without domain matcher *)

(** For every list of domains, nested ones included: the listed links stay the
    same and HasLink follows the pattern graph of the links of that domain. *)
Theorem C37_set_matcher_domains_partial :
  forall (level : Z) (h : list (order * dcall)) (m : imatcher) (ord ord' : order) (a b : string) (ds : list string),
    good_d h -> ordinary h -> unreserved ds -> good_order ord -> good_order ord' ->
    (forall n, In n (a :: b :: mentioned_d h) -> plain n) -> patterns_apart m (a :: b :: mentioned_d h) ->
    exists x xs x1 x2 r K,
      dexec (domains_with level None None) h = Val (x, xs) /\
      i_SetMatcher ord x (Some m) = Val x1 /\
      (forall l, In l (i_links ord' x1) <-> In l (i_links ord' x)) /\
      dstep ord' x1 (DHas a b ds) = Val (x2, ABool r) /\
      (forall n, K n = true <->
         n = b \/ n = a \/ exists y, links_of (calls_in ds h) n y = true \/ links_of (calls_in ds h) y n = true) /\
      (r = true <->
         hits (Some m) a b \/
         exists n y, (Z.of_nat n <= level - 2 - Z.of_nat (List.length ds))%Z /\
                     chain (pstep m (links_of (calls_in ds h)) K) n a y /\ hits (Some m) y b).
Proof.
  intros level h m ord ord' a b ds Hg Hor Hu Ho Ho' Hp Hap.
  destruct (domain_listing level h ord' Hg Hor Ho') as [x [xs [E [_ HL]]]].
  destruct (dexec_rel None level h _ _ (rel_start None level) Hg) as [x0 [R [xs0 [E1 [E2 [HR _]]]]]]; [intros n _; exact I|].
  rewrite E in E1. injection E1 as <- <-.
  assert (N : nk x).
  { eapply nk_exec; [apply (rel_start None level)|exact Hg| |exact E]. constructor; cbn; [constructor|discriminate]. }
  pose proof (r_tok _ _ _ _ HR) as T.
  set (NN := fun n => In n (a :: b :: mentioned_d h)).
  pose proof (allowed_names m _ Hp Hap) as HA.
  assert (Rp : forall p, holds (fun _ => True) (R p) (links_of (calls_in p h)) (names_of (calls_in p h)) /\ no_flags (rm_all (R p))).
  { intros p. pose proof (fexec_place p h _ _ _ E2) as E3. rewrite (calls_at_in p h Hor) in E3.
    unfold fresh in E3. set (lv := (level - 1 - Z.of_nat (Datatypes.length p))%Z) in *.
    destruct (holds_exec (fun _ => True) (calls_in p h) (NewRoleManager lv) no_links no_names all_allowed (good_calls p h Hg)
                      (holds_start _ lv None) (fun _ _ => I)) as [rm [ys [F1 [F2 _]]]].
    change (NewRoleManager lv) with (newRoleManagerWithMatchingFunc lv None) in F1. rewrite F1 in E3. injection E3 as -> _.
    split; [exact F2|].
    eapply (no_flags_exec (fun _ => True) (calls_in p h) (NewRoleManager lv));
      [apply all_allowed|apply good_calls; exact Hg|apply (holds_start _ lv None)|auto|apply unflagged_calls; exact Hor|intros u; reflexivity|exact F1]. }
  assert (HN2 : forall p u v, links_of (calls_in p h) u v = true -> NN u /\ NN v).
  { intros p u v Hl. apply links_in_added in Hl as [o Hl].
    split; right; right; unfold mentioned_d; apply in_flat_map; (eexists; split; [exact Hl|cbn; auto]). }
  assert (SM : forall p rm, lookup p x = Some rm -> exists rm' K', rm_SetMatcher ord rm (Some m) = Val rm' /\
     holds NN rm' (links_of (calls_in p h)) K' /\ link_names (links_of (calls_in p h)) K' /\ no_flags (rm_all rm') /\
     rm_matcher rm' = Some m /\ rm_level rm' = (level - 1 - Z.of_nat (List.length p))%Z).
  { intros p rm L. pose proof (r_same _ _ _ _ HR p) as [c Hc]. unfold current in Hc. rewrite L in Hc.
    destruct (Rp p) as [Hh Hf].
    destruct (SetMatcher_holds _ NN (R p) _ _ ord (Some m) Ho Hh Hf HA (HN2 p)) as [rm' [K' [S1 [S2 [S3 [S4 [S5 S6]]]]]]].
    rewrite Hc in S1. exists rm', K'. split; [exact S1|]. split; [exact S2|]. split; [exact S3|]. split; [exact S4|]. split; [exact S5|].
    rewrite S6. apply HR. }
  destruct (setm_tree None (Some m) ord x level T N) as [x1 [Es [T1 HS]]].
  { intros p rm L. destruct (SM p rm L) as [rm' [_ [H _]]]. eauto. }
  assert (Cur : exists K', holds NN (current (Some m) level ds x1) (links_of (calls_in ds h)) K' /\ link_names (links_of (calls_in ds h)) K' /\
     rm_matcher (current (Some m) level ds x1) = Some m /\
     rm_level (current (Some m) level ds x1) = (level - 1 - Z.of_nat (List.length ds))%Z).
  { specialize (HS ds). unfold current. destruct (lookup ds x) as [rm|] eqn:L.
    - destruct HS as [rm' [S1 ->]]. destruct (SM ds rm L) as [rm2 [K' [S2 [S3 [S4 [_ [S5 S6]]]]]]].
      rewrite S1 in S2. injection S2 as <-. now exists K'.
    - rewrite HS. assert (Z0 : forall u v, links_of (calls_in ds h) u v = false).
      { intros u v. destruct (links_of (calls_in ds h) u v) eqn:El; [|reflexivity]. apply HL in El.
        apply (in_i_links None ord' x level Ho' T) in El as [rm [L' _]]. congruence. }
      exists no_names. split; [|split; [|split; reflexivity]].
      + eapply holds_ext; [apply holds_start| |reflexivity]. intros u v. now rewrite Z0.
      + intros n. cbn. split; [discriminate|]. intros [y [H|H]]; rewrite Z0 in H; discriminate. }
  destruct Cur as [K1 [Hh [Hln [Hm Hlv]]]].
  assert (HA1 : allowed (rm_matcher (current (Some m) level ds x1)) NN) by (rewrite Hm; exact HA).
  destruct (HasLink_holds _ _ _ _ ord' a b HA1 Ho' Hh) as [rm2 [r [Er Hr]]]; [unfold NN; cbn; auto..|].
  pose proof (at_spec (leaf ord' (DHas a b ds)) false (Some m) (fuel x1 ds) ds x1 level T1 ltac:(unfold fuel; lia)) as Hat.
  rewrite (place_unreserved ds Hu) in Hat. cbn [fst snd leaf without_domains rstep] in Hat. rewrite Er in Hat. cbn [obind] in Hat.
  destruct Hat as [x2 [Ea _]].
  exists x, xs, x1, x2, r, (name_add b (name_add a K1)).
  split; [exact E|]. split; [exact Es|]. split; [|split; [|split]].
  - intros [[u v] es]. rewrite HL, (in_i_links (Some m) ord' x1 level Ho' T1). specialize (HS es). split.
    + intros [rm1 [L1 H]]. destruct (lookup es x) as [rm|] eqn:L; [|congruence]. destruct HS as [rm' [S1 S2]].
      assert (rm1 = rm') as -> by congruence. destruct (SM es rm L) as [rm2' [K' [S3 [S4 _]]]]. rewrite S1 in S3. injection S3 as <-.
      apply (in_all_links _ _ _ Ho') in H as [u' [v' [Eq [H _]]]]. injection Eq as <- <-. now apply (h_links _ _ _ _ S4).
    + intros H. pose proof (proj2 (HL u v es) H) as Hi. apply (in_i_links None ord' x level Ho' T) in Hi as [rm [L _]].
      rewrite L in HS. destruct HS as [rm' [S1 S2]]. exists rm'. split; [exact S2|].
      destruct (SM es rm L) as [rm2' [K' [S3 [S4 [_ [S5 _]]]]]]. rewrite S1 in S3. injection S3 as <-.
      apply (in_all_links _ _ _ Ho'). exists u, v. split; [reflexivity|]. split; [now apply (h_links _ _ _ _ S4)|]. rewrite S5. easy.
  - rewrite (dstep_at (Some m) level ord' x1 (DHas a b ds) ds T1 eq_refl). exact Ea.
  - intros n. rewrite !name_add_true. rewrite (Hln n). tauto.
  - rewrite Hr, Hm, Hlv. cbn [estep].
    split; (intros [Hx|[n [y [Hn Hx]]]]; [now left|right; exists n, y; split; [lia|exact Hx]]).
Qed.
Print Assumptions C37_set_matcher_domains_partial.

Example C37_set_matcher_domains_ex :
  let h := [(fwd, DAdd "/u/1" "guest" ["d"; "s"]); (fwd, DAdd "/u/*" "admin" ["d"; "s"]); (fwd, DAdd "/u/*" "other" ["e"])]%string in
  good_d h /\ ordinary h /\ unreserved ["d"; "s"]%string /\
  (forall n, In n ("/u/1" :: "admin" :: mentioned_d h) -> plain n)%string /\
  patterns_apart PathMatcher ("/u/1" :: "admin" :: mentioned_d h)%string /\
  (let ask b ds := match (let! (x, _) := dexec (domains_with 10 None None) h in
                       let! x1 := i_SetMatcher fwd x (Some PathMatcher) in dstep bwd x1 (DHas "/u/1" b ds)) with
                  | Val (_, ABool r) => Some r | _ => None end in
   ask "admin" ["d"; "s"] = Some true /\ ask "admin" ["e"] = Some false)%string.
Proof.
  cbn zeta. split; [repeat constructor; first [apply good_fwd|apply good_bwd]|].
  split; [repeat constructor; cbn; intros [H|H]; discriminate|]. split; [repeat constructor; intros [H|H]; discriminate|].
  split; [|split; [|vm_compute; auto]].
  - cbn. intros n H. repeat (destruct H as [<-|H]; [reflexivity|]). contradiction.
  - intros p q Hp Hq Pq [Hne [_ Hm]]. cbn in Hp, Hq.
    repeat (destruct Hq as [<-|Hq]; [cbn in Pq; try discriminate Pq;
      repeat (destruct Hp as [<-|Hp]; [vm_compute in Hm; try discriminate Hm; try congruence|]); contradiction|]).
    contradiction.
Qed.
