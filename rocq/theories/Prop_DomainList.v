(** Property C69: the listings of domains, GetAllDomains and GetDomains. *)
From Verif Require Import GoBase GoBaseP PolicyM CacheM PathM RbacM RbacSpec RbacP RbacP2 RbacP3 RbacP4 Prop_Rbac
  DomainM DomainSpec DomainP DomainP2 DomainP5 Prop_Domain Prop_DomainSet.

(** The name has a role or a user in domain [ds]. *)
Definition linked_in (h : list (order * dcall)) (n : string) (ds : list string) : Prop :=
  exists r, links_of (calls_in ds h) n r = true \/ links_of (calls_in ds h) r n = true.
(** A domain (a list of names) is listed as its names joined by "/".  No two
    domains that hold a link are listed as the same text. *)
Definition distinct_texts (h : list (order * dcall)) : Prop :=
  forall ds ds' a b a' b', links_of (calls_in ds h) a b = true -> links_of (calls_in ds' h) a' b' = true ->
    join "/" ds = join "/" ds' -> ds = ds'.

(** ** Proofs *)
Lemma links_query q h o c : is_dquery c -> links_of (calls_in q (h ++ [(o, c)])) = links_of (calls_in q h).
Proof.
  intros Hq. unfold calls_in. rewrite filter_app, map_app. cbn [filter fst snd]. destruct (concerns q c); [|cbn; now rewrite app_nil_r].
  unfold links_of. rewrite map_app, fold_left_app. destruct c; try destruct Hq; reflexivity.
Qed.

Lemma dexec_length h : forall x y zs, dexec x h = Val (y, zs) -> List.length zs = List.length h.
Proof.
  induction h as [|[o c] h IH]; intros x y zs H; cbn [dexec] in H.
  - now injection H as _ <-.
  - destruct (dstep o x c) as [[x1 r]|]; cbn [obind] in H; [|discriminate]. destruct (dexec x1 h) as [[x2 rs]|] eqn:E; [|discriminate].
    cbn [obind] in H. injection H as _ <-. cbn. f_equal. eauto.
Qed.
Lemma app_tail {A} (a b c d : list A) : a ++ b = c ++ d -> List.length b = List.length d -> b = d.
Proof.
  intros H L. assert (La : List.length a = List.length c) by (apply (f_equal (@List.length A)) in H; rewrite !app_length in H; lia).
  revert c H La. induction a as [|x a IH]; intros [|y c] H La; try discriminate; [exact H|]. injection H as _ H. eapply IH; eauto.
Qed.

Section Listing.
  Variable level : Z.
  Local Notation start := (domains_with level None None).

  Lemma users_answer p h ord u x xs : good_d h -> ordinary h -> good_order ord -> unreserved p -> dexec start h = Val (x, xs) ->
    exists x' l, i_Users ord x u p = Val (x', l) /\ (forall r, In r l <-> links_of (calls_in p h) r u = true) /\
      dexec start (h ++ [(ord, DUsers u p)]) = Val (x', xs ++ [ANames l]).
  Proof.
    intros Hg Hor Ho Hp E. assert (Hc : concerns p (DUsers u p) = true) by (cbn; apply path_eqb_refl).
    destruct (C33_isolated_partial level None p (h ++ [(ord, DUsers u p)])) as [x2 [ys [rm2 [E2 [L2 F2]]]]].
    { apply Forall_app. split; [exact Hg|]. repeat constructor. exact Ho. }
    { apply Forall_app. split; [exact Hor|]. repeat constructor. exact Hp. }
    { intros n _. exact I. }
    pose proof E2 as E2'. rewrite dexec_app, E in E2. cbn [obind dexec] in E2.
    destruct (dstep ord x (DUsers u p)) as [[x' ans]|] eqn:Es; [|discriminate]. cbn [obind] in E2. injection E2 as -> <-.
    assert (Lx : List.length xs = List.length h) by (rewrite !app_length in L2; cbn in L2; lia).
    rewrite (calls_in_snoc p h ord _ Hc), (answers_in_snoc p h ord _ xs ans Hc Lx), rexec_app in F2.
    set (lv := (level - 1 - Z.of_nat (List.length p))%Z) in *.
    destruct (C28_roles_users_exact lv (calls_in p h) ord u (good_calls_in p h Hg) Ho) as [rm [zs [_ [_ [r2 [users [G1 [_ [G2 [_ [H1 _]]]]]]]]]]].
    change (NewRoleManager lv) with (newRoleManagerWithMatchingFunc lv None) in G1.
    rewrite G1 in F2. cbn [obind rexec rstep without_domains] in F2. rewrite G2 in F2. cbn [obind] in F2. injection F2 as _ F2.
    apply app_inj_tail in F2 as [_ <-]. exists x2, users. split; [|split; [exact H1|exact E2']].
    cbn [dstep] in Es. destruct (i_Users ord x u p) as [[x1 r]|]; cbn [obind] in Es; [|discriminate]. now injection Es as -> ->.
  Qed.
  Lemma roles_answer p h ord u x xs : good_d h -> ordinary h -> good_order ord -> unreserved p -> dexec start h = Val (x, xs) ->
    exists x' l, i_Roles ord x u p = Val (x', l) /\ (forall r, In r l <-> links_of (calls_in p h) u r = true) /\
      dexec start (h ++ [(ord, DRoles u p)]) = Val (x', xs ++ [ANames l]).
  Proof.
    intros Hg Hor Ho Hp E. destruct (C33_roles_users_partial level p h ord u Hg Hor Ho Hp) as [x0 [xs0 [x1 [l [_ [_ [E0 [E1 [_ [H _]]]]]]]]]].
    rewrite E in E0. injection E0 as <- <-. exists x1, l. split; [|split; [exact H|]].
    - cbn [dstep] in E1. destruct (i_Roles ord x u p) as [[x2 r]|]; cbn [obind] in E1; [|discriminate]. now injection E1 as -> ->.
    - rewrite dexec_app, E. cbn [obind dexec]. rewrite E1. reflexivity.
  Qed.

  Lemma loop_ok ord n dl : good_order ord -> Forall unreserved dl -> forall h x xs, good_d h -> ordinary h -> dexec start h = Val (x, xs) ->
    exists x' l qs ys, getDomains_loop ord x n dl = Val (x', l) /\
      (forall s, In s l <-> exists ds, In ds dl /\ s = join "/" ds /\ linked_in h n ds) /\
      (NoDup (map (join "/") dl) -> NoDup l) /\
      Forall (fun c => is_dquery (snd c)) qs /\ good_d qs /\ dexec start (h ++ qs) = Val (x', ys).
  Proof.
    intros Ho. induction 1 as [|ds dl Hd _ IH]; intros h x xs Hg Hor E.
    - exists x, [], [], xs. cbn. rewrite app_nil_r. split; [reflexivity|]. split; [|split; [auto|split; [constructor|split; [constructor|exact E]]]].
      intros s. split; [intros []|]. intros [? [[] _]].
    - cbn [getDomains_loop].
      destruct (users_answer ds h ord n x xs Hg Hor Ho Hd E) as [x1 [us [E1 [Hus E1']]]]. rewrite E1. cbn [obind].
      set (h1 := h ++ [(ord, DUsers n ds)]) in *.
      assert (Hg1 : good_d h1) by (apply Forall_app; split; [exact Hg|repeat constructor; exact Ho]).
      assert (Hor1 : ordinary h1) by (apply Forall_app; split; [exact Hor|repeat constructor; exact Hd]).
      destruct (roles_answer ds h1 ord n x1 _ Hg1 Hor1 Ho Hd E1') as [x2 [rs [E2 [Hrs E2']]]]. rewrite E2. cbn [obind].
      set (h2 := h1 ++ [(ord, DRoles n ds)]) in *.
      assert (Hg2 : good_d h2) by (apply Forall_app; split; [exact Hg1|repeat constructor; exact Ho]).
      assert (Hor2 : ordinary h2) by (apply Forall_app; split; [exact Hor1|repeat constructor; exact Hd]).
      assert (L : forall q, links_of (calls_in q h2) = links_of (calls_in q h)).
      { intros q. unfold h2, h1. rewrite !links_query by exact I. reflexivity. }
      assert (L1 : forall q, links_of (calls_in q h1) = links_of (calls_in q h)) by (intros q; unfold h1; now rewrite links_query by exact I).
      destruct (IH h2 x2 _ Hg2 Hor2 E2') as [x3 [l [qs [ys [E3 [Hl [Nl [Hq [Gq E3']]]]]]]]]. rewrite E3. cbn [obind].
      assert (Hl' : forall s, In s l <-> exists ds0, In ds0 dl /\ s = join "/" ds0 /\ linked_in h n ds0).
      { intros s. rewrite Hl. unfold linked_in. split; intros [d0 [A [B C]]]; exists d0; rewrite ?L in *; auto. }
      assert (Hin : linked_in h n ds <-> (us <> [] \/ rs <> [])).
      { unfold linked_in. split.
        - intros [r [H|H]].
          + right. intros ->. rewrite <- L1 in H. now apply Hrs in H.
          + left. intros ->. now apply Hus in H.
        - intros [H|H].
          + destruct us as [|r us]; [congruence|]. exists r. right. apply Hus. now left.
          + destruct rs as [|r rs]; [congruence|]. exists r. left. rewrite <- L1. apply Hrs. now left. }
      eexists x3, _, ((ord, DUsers n ds) :: (ord, DRoles n ds) :: qs), ys. split; [reflexivity|].
      assert (T : (linked_in h n ds /\ (match us, rs with [], [] => l | _, _ => join "/" ds :: l end) = join "/" ds :: l) \/
                  (~ linked_in h n ds /\ (match us, rs with [], [] => l | _, _ => join "/" ds :: l end) = l)).
      { rewrite Hin. destruct us; [destruct rs|]; [right; split; [intuition|reflexivity]| |]; left; (split; [|reflexivity]); [right|left]; discriminate. }
      split; [|split; [|split; [repeat (constructor; [exact I|]); exact Hq|split; [repeat (constructor; [exact Ho|]); exact Gq|]]]].
      + intros s. destruct T as [[T ->]|[T ->]].
        * cbn [In]. rewrite Hl'. split.
          -- intros [<-|[d0 [A [B C]]]]; [exists ds; auto|exists d0; auto].
          -- intros [d0 [[<-|A] [B C]]]; [now left|right; eauto].
        * rewrite Hl'. split; intros [d0 [A [B C]]]; [exists d0; cbn; auto|]. destruct A as [<-|A]; [contradiction|eauto].
      + cbn [map]. intros N. inversion N as [|? ? Nin N']; subst. destruct T as [[_ ->]|[_ ->]]; [|auto]. constructor; [|auto].
        intros C. apply Hl' in C as [d0 [A [B _]]]. apply Nin. rewrite B. apply in_map. exact A.
      + unfold h2, h1 in E3'. rewrite <- !app_assoc in E3'. exact E3'.
  Qed.
End Listing.

Lemma domains_map_ok (ls : list link) : forall acc : smap (list string),
  NoDup (mkeys acc) -> (forall k ds, mget k acc = Some ds -> k = join "/" ds) ->
  let mp := fold_left (fun acc '(_, _, ds) => mput (join "/" ds) ds acc) ls acc in
  NoDup (mkeys mp) /\ (forall k ds, mget k mp = Some ds -> k = join "/" ds) /\
  (forall k ds, mget k mp = Some ds -> mget k acc = Some ds \/ exists a b, In (a, b, ds) ls) /\
  (forall k, mget k mp <> None <-> mget k acc <> None \/ exists a b ds, In (a, b, ds) ls /\ k = join "/" ds).
Proof.
  induction ls as [|[[a b] ds] ls IH]; intros acc N A; cbv zeta; cbn [fold_left].
  - split; [exact N|]. split; [exact A|]. split; [auto|]. intros k. split; [auto|]. intros [H|[? [? [? [[] _]]]]]; exact H.
  - destruct (IH (mput (join "/" ds) ds acc)) as [N' [A' [B' C']]].
    { now apply NoDup_mput. }
    { intros k ds'. rewrite mget_put. destruct (String.eqb_spec k (join "/" ds)) as [->|]; [intros H; now injection H as <-|apply A]. }
    split; [exact N'|]. split; [exact A'|]. split.
    + intros k ds' H. destruct (B' k ds' H) as [H'|[a' [b' H']]]; [|right; exists a', b'; now right].
      rewrite mget_put in H'. destruct (String.eqb_spec k (join "/" ds)); [|auto]. injection H' as <-. right. exists a, b. now left.
    + intros k. rewrite C', mget_put. destruct (String.eqb_spec k (join "/" ds)) as [->|Hne].
      * split; [intros _; right; exists a, b, ds; cbn; auto|intros _; left; discriminate].
      * split; (intros [H|[a' [b' [ds' [H ->]]]]]; [auto|]).
        -- right. exists a', b', ds'. cbn. auto.
        -- destruct H as [H|H]; [injection H as <- <- <-; congruence|]. right. eauto.
Qed.

Section Map.
  Variables (ord : order) (x : irm).
  Local Notation mp := (allDomainsMap ord x).
  Lemma map_facts : good_order ord ->
    NoDup (mkeys mp) /\ (forall k, In k (mkeys mp) -> exists ds, mget k mp = Some ds /\ k = join "/" ds) /\
    (forall k ds, mget k mp = Some ds -> k = join "/" ds /\ exists a b, In (a, b, ds) (i_links ord x)) /\
    (forall k, In k (mkeys mp) <-> exists a b ds, In (a, b, ds) (i_links ord x) /\ k = join "/" ds).
  Proof.
    intros Ho. destruct (domains_map_ok (i_links ord x) [] (NoDup_nil _)) as [A [B [C D]]]; [discriminate|].
    fold (allDomainsMap ord x) in A, B, C, D. split; [exact A|].
    assert (G : forall k, In k (mkeys mp) <-> mget k mp <> None).
    { intros k. split.
      - intros Hin E. rewrite mget_None in E. contradiction.
      - intros H. destruct (mget k mp) as [v|] eqn:E; [|congruence]. eapply mget_key; eauto. }
    split; [|split].
    - intros k Hk. apply G in Hk. destruct (mget k mp) as [ds|] eqn:E; [|congruence]. exists ds. split; [reflexivity|auto].
    - intros k ds H. split; [auto|]. destruct (C k ds H) as [E|E]; [discriminate|exact E].
    - intros k. rewrite G, D. split; [intros [E|E]; [now destruct E|exact E]|auto].
  Qed.

  Definition dl : list (list string) := flat_map (fun k => match mget k mp with Some ds => [ds] | None => [] end) (ord (mkeys mp)).
  Lemma dl_texts : good_order ord -> map (join "/") dl = ord (mkeys mp).
  Proof.
    intros Ho. destruct (map_facts Ho) as [_ [F _]]. unfold dl. set (l := ord (mkeys mp)).
    assert (F' : forall k, In k l -> exists ds, mget k mp = Some ds /\ k = join "/" ds).
    { intros k Hk. apply F. eapply Permutation_in; [apply Ho|exact Hk]. }
    clearbody l. induction l as [|k l IH]; [reflexivity|]. cbn [flat_map]. rewrite map_app, IH by (intros; apply F'; now right).
    destruct (F' k (or_introl eq_refl)) as [ds [-> ->]]. reflexivity.
  Qed.
  Lemma all_texts : good_order ord -> GetAllDomains ord x = ord (mkeys mp).
  Proof.
    intros Ho. destruct (map_facts Ho) as [_ [F _]]. unfold GetAllDomains. set (l := ord (mkeys mp)).
    assert (F' : forall k, In k l -> exists ds, mget k mp = Some ds /\ k = join "/" ds).
    { intros k Hk. apply F. eapply Permutation_in; [apply Ho|exact Hk]. }
    clearbody l. induction l as [|k l IH]; [reflexivity|]. cbn [map]. rewrite IH by (intros; apply F'; now right).
    destruct (F' k (or_introl eq_refl)) as [ds [-> Ek]]. now rewrite <- Ek.
  Qed.
  Lemma in_dl ds : good_order ord -> In ds dl <-> mget (join "/" ds) mp = Some ds.
  Proof.
    intros Ho. destruct (map_facts Ho) as [_ [_ [F _]]]. unfold dl. rewrite in_flat_map. split.
    - intros [k [_ H]]. destruct (mget k mp) as [ds'|] eqn:E; [|destruct H]. destruct H as [->|[]]. destruct (F _ _ E) as [<- _]. exact E.
    - intros H. exists (join "/" ds). rewrite H. split; [|now left]. eapply Permutation_in; [apply Permutation_sym, Ho|]. eapply mget_key; eauto.
  Qed.
End Map.

(** GetAllDomains, after any history: the texts of the domains that hold a link,
    each once. *)
Theorem C69_all_domains :
  forall (level : Z) (h : list (order * dcall)) (ord : order), good_d h -> ordinary h -> good_order ord ->
    exists x xs, dexec (domains_with level None None) h = Val (x, xs) /\ NoDup (GetAllDomains ord x) /\
      forall s, In s (GetAllDomains ord x) <-> exists ds a b, links_of (calls_in ds h) a b = true /\ s = join "/" ds.
Proof.
  intros level h ord Hg Hor Ho. destruct (domain_listing level h ord Hg Hor Ho) as [x [xs [E [N L]]]]. exists x, xs. split; [exact E|].
  rewrite (all_texts ord x Ho). destruct (map_facts ord x Ho) as [A [_ [_ D]]]. split.
  - eapply Permutation_NoDup; [apply Permutation_sym, Ho|exact A].
  - intros s. transitivity (In s (mkeys (allDomainsMap ord x))); [split; apply Permutation_in; [apply Ho|apply Permutation_sym, Ho]|].
    rewrite D. split; [intros [a [b [ds [H ->]]]]|intros [ds [a [b [H ->]]]]]; [exists ds, a, b|exists a, b, ds]; (split; [now apply L|reflexivity]).
Qed.
Print Assumptions C69_all_domains.

(** The other half is false of the code: of two domains with the same text only
    one is looked at.  Alice has a role in the domain "a","b", but if Bob has one
    in the domain "a/b" then GetDomains may answer that Alice has none. *)
Definition clash : list (order * dcall) := [(fwd, DAdd "alice" "admin" ["a"; "b"]); (fwd, DAdd "bob" "staff" ["a/b"])]%string.
Theorem C69_domains_of_name_refuted :
  exists (h : list (order * dcall)) (ord : order), good_d h /\ ordinary h /\ good_order ord /\
    linked_in h "alice" ["a"; "b"]%string /\
    exists x xs x', dexec (domains_with 10 None None) h = Val (x, xs) /\ GetDomains ord x "alice" = Val (x', []).
Proof.
  exists clash, fwd. split; [repeat constructor; apply good_fwd|]. split; [repeat constructor; cbn; intros [H|H]; discriminate|].
  split; [apply good_fwd|]. split; [exists "admin"%string; left; vm_compute; reflexivity|].
  eexists _, _, _. split; vm_compute; reflexivity.
Qed.
Print Assumptions C69_domains_of_name_refuted.

(** GetDomains, after any history: every text it lists is that of a domain in
    which the name has a role or a user, none is listed twice, and the later
    answers of the manager are those it would have given without the call.  If no
    two domains have the same text, every such domain is listed. *)
Theorem C69_domains_of_name_partial :
  forall (level : Z) (h : list (order * dcall)) (ord : order) (n : string), good_d h -> ordinary h -> good_order ord ->
    exists x xs x' l, dexec (domains_with level None None) h = Val (x, xs) /\ GetDomains ord x n = Val (x', l) /\ NoDup l /\
      (forall s, In s l -> exists ds, linked_in h n ds /\ s = join "/" ds) /\
      (distinct_texts h -> forall ds, linked_in h n ds -> In (join "/" ds) l) /\
      (forall h2, good_d h2 -> exists y y' zs, dexec x h2 = Val (y, zs) /\ dexec x' h2 = Val (y', zs)).
Proof.
  intros level h ord n Hg Hor Ho. destruct (domain_listing level h ord Hg Hor Ho) as [x [xs [E [N L]]]]. exists x, xs.
  destruct (map_facts ord x Ho) as [A [_ [C D]]].
  assert (Hin : forall ds, In ds (dl ord x) -> exists a b, links_of (calls_in ds h) a b = true).
  { intros ds H. apply (in_dl ord x ds Ho) in H. destruct (C _ _ H) as [_ [a [b H']]]. exists a, b. now apply L. }
  assert (U : Forall unreserved (dl ord x)).
  { apply Forall_forall. intros ds H. apply Hin in H as [a [b H]].
    destruct (links_in_added ds h a b H) as [o Ha]. pose proof (proj1 (Forall_forall _ _) Hor _ Ha) as U. exact U. }
  destruct (loop_ok level ord n (dl ord x) Ho U h x xs Hg Hor E) as [x' [l [qs [ys [E1 [Hl [Nl [Hq [Gq E2]]]]]]]]].
  exists x', l. split; [exact E|]. split; [exact E1|]. split.
  { apply Nl. rewrite (dl_texts ord x Ho). eapply Permutation_NoDup; [apply Permutation_sym, Ho|exact A]. }
  split; [|split].
  - intros s Hs. apply Hl in Hs as [ds [_ [-> H]]]. eauto.
  - intros Hd ds H. apply Hl. exists ds. split; [|auto]. apply (in_dl ord x ds Ho).
    assert (exists a b, links_of (calls_in ds h) a b = true) as [a [b Hab]] by (destruct H as [r [H|H]]; eauto).
    assert (Hk : In (join "/" ds) (mkeys (allDomainsMap ord x))) by (apply D; exists a, b, ds; split; [now apply L|reflexivity]).
    destruct (mget (join "/" ds) (allDomainsMap ord x)) as [ds'|] eqn:Eg; [|rewrite mget_None in Eg; contradiction].
    destruct (C _ _ Eg) as [Ej [a' [b' Hab']]]. f_equal. eapply Hd; [apply L; exact Hab'|exact Hab|]. now symmetry.
  - intros h2 G2.
    destruct (C38_read_only_partial level None h qs h2) as [y [y' [as1 [as2 [zs [R1 [R2 [L1 [L2 L3]]]]]]]]].
    { apply Forall_app. split; [exact Hg|]. apply Forall_app. auto. } { exact Hq. } { intros; exact I. }
    rewrite dexec_app, E in R1. cbn [obind] in R1. rewrite app_assoc, dexec_app, E2 in R2. cbn [obind] in R2.
    destruct (dexec x h2) as [[z zs1]|] eqn:F1; [|discriminate]. destruct (dexec x' h2) as [[z' zs2]|] eqn:F2; [|discriminate].
    cbn [obind] in R1, R2. injection R1 as -> R1. injection R2 as -> R2. exists y, y', zs.
    assert (zs1 = zs) by (eapply app_tail; [exact R1|]; rewrite (dexec_length _ _ _ _ F1); lia).
    assert (zs2 = zs) by (rewrite app_assoc in R2; eapply app_tail; [exact R2|]; rewrite (dexec_length _ _ _ _ F2); lia).
    subst. auto.
Qed.
Print Assumptions C69_domains_of_name_partial.

(** Every call names at most one domain, as grouping rules with three values do:
    texts are distinct. *)
Lemma one_domain_distinct h : Forall (fun c => match call_domains (snd c) with Some ds => exists d, ds = [d] | None => True end) h -> distinct_texts h.
Proof.
  intros H ds ds' a b a' b' L L' E. apply links_in_added in L as [o L]. apply links_in_added in L' as [o' L'].
  rewrite Forall_forall in H. destruct (H _ L) as [d Hd]. destruct (H _ L') as [d' Hd']. cbn in Hd, Hd'. subst. cbn in E. now rewrite E.
Qed.
Definition listing : list (order * dcall) :=
  [(fwd, DAdd "alice" "admin" ["d1"]); (bwd, DAdd "bob" "alice" ["d2"]); (fwd, DAdd "alice" "staff" ["d3"]); (fwd, DAdd "bob" "staff" ["d3"]);
   (fwd, DDel "alice" "staff" ["d3"]); (fwd, DAdd "carol" "staff" ["d4"]); (fwd, DDel "carol" "staff" ["d4"])]%string.
Example C69_ex :
  good_d listing /\ ordinary listing /\ distinct_texts listing /\
  exists x xs, dexec (domains_with 10 None None) listing = Val (x, xs) /\
    GetAllDomains bwd x = ["d1"; "d2"; "d3"]%string /\
    (exists x', GetDomains fwd x "alice" = Val (x', ["d1"; "d2"]%string)) /\
    (exists x', GetDomains fwd x "carol" = Val (x', [])).
Proof.
  split; [repeat constructor; first [apply good_fwd|apply good_bwd]|].
  split; [repeat constructor; cbn; intros [H|H]; discriminate|]. split.
  { apply one_domain_distinct. repeat (apply Forall_cons; [cbn; eauto|]). apply Forall_nil. }
  eexists _, _. split; [vm_compute; reflexivity|]. split; [vm_compute; reflexivity|].
  split; eexists; vm_compute; reflexivity.
Qed.
