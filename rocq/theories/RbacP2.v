(** The role manager's calls, without their cache. *)
From Verif Require Import GoBase GoBaseP PolicyM CacheM CacheSpec PathM RbacM RbacSpec RbacP.
From Verif Require CacheP.

(** ** Cache keys *)
Lemma has_char_cons_false c d s : has_char c (String d s) = false -> d <> c /\ has_char c s = false.
Proof. cbn. destruct (Ascii.eqb_spec c d) as [->|]; [discriminate|]. intros H. split; [congruence|exact H]. Qed.

Lemma key_inj s p s' p' : plain s -> plain p ->
  join "$$" [s; p] = join "$$" [s'; p'] -> s = s' /\ p = p'.
Proof.
  unfold plain. cbn [join]. intros Hs Hp. revert s'. induction s as [|c s IH]; intros s' H.
  - destruct s' as [|c' s'].
    + split; [reflexivity|]. cbn in H. now injection H.
    + exfalso. cbn in H. injection H as <- H. destruct s' as [|c' s'].
      * cbn in H. injection H as H. subst p. now apply has_char_cons_false in Hp as [Hp _].
      * cbn in H. injection H as <- H. subst p. rewrite has_char_app in Hp.
        apply orb_false_iff in Hp as [_ Hp]. now apply has_char_cons_false in Hp as [Hp _].
  - apply has_char_cons_false in Hs as [Hc Hs]. destruct s' as [|c' s'].
    + cbn in H. injection H as H _. contradiction.
    + cbn in H. injection H as <- H. destruct (IH Hs s' H) as [-> ->]. auto.
Qed.

Definition okname (m : option imatcher) (s : string) : Prop :=
  match m with None => True | Some _ => plain s end.

(** Every cached answer about plain names is right. *)
Definition cache_ok (m : option imatcher) (c : lru bool) : Prop :=
  match m with
  | None => True
  | Some mm =>
      l_cap c = 100 /\ exists ns l, CacheP.rep c ns l /\ List.length l <= 100 /\
        forall k b s p, In (k, b) l -> plain s -> plain p -> k = join "$$" [s; p] -> b = Match mm s p
  end.

Lemma cache_ok_new m : cache_ok m (NewLRUCache 100).
Proof.
  destruct m as [mm|]; [|exact I]. split; [reflexivity|]. exists [], []. split; [apply CacheP.rep_new|].
  split; [cbn; lia|]. intros k b s p [].
Qed.

Lemma touch_In {V} k (l : entries (V := V)) x : In x (touch k l) -> In x l.
Proof.
  unfold touch. destruct (mget k l) as [v|] eqn:E; [|auto]. intros [<-|H]; [now apply mget_In|].
  clear E. induction l as [|[k' v'] l IH]; cbn in *; [easy|].
  destruct (String.eqb k k'); [right; auto|]. destruct H as [<-|H]; [now left|right; auto].
Qed.
Lemma mdel_length_le {V} k (l : smap V) : List.length (mdel k l) <= List.length l.
Proof. induction l as [|[k' v'] l IH]; cbn; [lia|]. destruct (String.eqb k k'); cbn; lia. Qed.
Lemma mdel_length_lt {V} k (l : smap V) v : mget k l = Some v -> List.length (mdel k l) < List.length l.
Proof.
  induction l as [|[k' v'] l IH]; cbn; [discriminate|]. destruct (String.eqb k k').
  - intros _. pose proof (mdel_length_le k l). lia.
  - cbn. intros H. specialize (IH H). lia.
Qed.
Lemma touch_length {V} k (l : entries (V := V)) : List.length (touch k l) <= List.length l.
Proof.
  unfold touch. destruct (mget k l) as [v|] eqn:E; [|lia]. cbn. pose proof (mdel_length_lt k l v E). lia.
Qed.

Lemma removelast_length {A} (l : list A) : l <> [] -> S (List.length (removelast l)) = List.length l.
Proof.
  intros H. destruct (exists_last H) as [l' [a ->]]. rewrite removelast_last, app_length. cbn. lia.
Qed.

Lemma match_ok rm mm s p :
  rm_matcher rm = Some mm -> cache_ok (rm_matcher rm) (rm_cache rm) ->
  exists c' b, rm_match rm s p = Val (with_cache rm c', b) /\ cache_ok (rm_matcher rm) c' /\
    (plain s -> plain p -> b = Match mm s p).
Proof.
  intros Hm Hc. rewrite Hm in *. destruct Hc as [Hcap [ns [l [R [Hlen Hok]]]]].
  unfold rm_match. set (key := join "$$" [s; p]).
  destruct (CacheP.Get_rep (rm_cache rm) ns l key R) as [c1 [ns1 [-> [Hc1 R1]]]]. cbn [obind].
  destruct (mget key l) as [b|] eqn:E.
  - exists c1, b. split; [reflexivity|]. split.
    + split; [congruence|]. exists ns1, (touch key l). split; [exact R1|].
      split; [pose proof (touch_length key l); lia|]. intros k b' s' p' Hin. apply touch_In in Hin. eauto.
    + intros Hs Hp. apply (Hok key b s p); auto. now apply mget_In.
  - rewrite Hm. assert (Ht : touch key l = l) by (unfold touch; now rewrite E). rewrite Ht in R1.
    destruct (CacheP.Put_rep c1 ns1 l key (Match mm s p) ltac:(lia) R1 ltac:(lia)) as [c2 [ns2 [-> [Hc2 R2]]]].
    cbn [obind]. exists c2, (Match mm s p). split; [reflexivity|]. split; [|auto].
    split; [congruence|]. exists ns2, (lru_put_keep (l_cap c1) key (Match mm s p) l).
    split; [exact R2|]. unfold lru_put_keep. rewrite E, Hc1, Hcap. split.
    + destruct (Nat.leb_spec 100 (List.length l)); cbn; [|lia].
      assert (l <> []) by (intros ->; cbn in *; lia). rewrite removelast_length; [lia|assumption].
    + intros k b' s' p' Hin Hs Hp Hk. assert (Hin' : (key, Match mm s p) = (k, b') \/ In (k, b') l).
      { destruct Hin as [Hin|Hin]; [now left|right]. destruct (Nat.leb 100 (List.length l)); [|exact Hin].
        clear -Hin. induction l as [|x l IH]; [easy|]. destruct l as [|y l]; [easy|].
        destruct Hin as [->|Hin]; [now left|right; auto]. }
      destruct Hin' as [Heq|Hin']; [|eauto]. injection Heq as <- <-. subst key.
      destruct (key_inj s' p' s p Hs Hp (eq_sym Hk)) as [-> ->]. reflexivity.
Qed.

Lemma match_if_set_ok rm s p :
  cache_ok (rm_matcher rm) (rm_cache rm) -> okname (rm_matcher rm) s -> okname (rm_matcher rm) p ->
  exists c', match_if_set rm s p = Val (with_cache rm c', pmatch (rm_matcher rm) s p) /\
    cache_ok (rm_matcher rm) c'.
Proof.
  intros Hc Hs Hp. unfold match_if_set. destruct (rm_matcher rm) as [mm|] eqn:E.
  - rewrite <- E in Hc. destruct (match_ok rm mm s p E Hc) as [c' [b [-> [Hc' Hb]]]].
    rewrite (Hb Hs Hp). exists c'. rewrite E in Hc'. auto.
  - exists (rm_cache rm). split; [|exact I]. destruct rm; cbn in *. now subst.
Qed.

Lemma with_cache_twice rm c c' : with_cache (with_cache rm c) c' = with_cache rm c'.
Proof. reflexivity. Qed.

Lemma matchingRoles_ok rm mm pattern names :
  rm_matcher rm = Some mm -> cache_ok (rm_matcher rm) (rm_cache rm) -> plain pattern ->
  (forall n, In n names -> plain n) ->
  exists c', matchingRoles rm pattern names = Val (with_cache rm c', found_roles (Some mm) pattern names) /\
    cache_ok (rm_matcher rm) c'.
Proof.
  intros Hm Hc Hp. revert rm Hm Hc. induction names as [|n names IH]; intros rm Hm Hc Hn; cbn.
  - exists (rm_cache rm). split; [now destruct rm|exact Hc].
  - destruct (String.eqb pattern n); cbn [negb andb]; [apply IH; auto; intros; apply Hn; now right|].
    destruct (match_ok rm mm n pattern Hm Hc) as [c' [b [-> [Hc' Hb]]]]. cbn [obind].
    rewrite (Hb (Hn n ltac:(now left)) Hp).
    destruct (IH (with_cache rm c') Hm Hc' ltac:(intros; apply Hn; now right)) as [c2 [-> Hc2]]. cbn [obind].
    exists c2. split; [|exact Hc2]. now destruct (Match mm n pattern).
Qed.

Lemma matchingPatterns_ok rm mm name pats :
  rm_matcher rm = Some mm -> cache_ok (rm_matcher rm) (rm_cache rm) -> plain name ->
  (forall n, In n pats -> plain n) -> (forall n, In n pats -> known n (rm_all rm)) ->
  exists c', matchingPatterns rm name pats = Val (with_cache rm c', found_pats (Some mm) name pats) /\
    cache_ok (rm_matcher rm) c'.
Proof.
  intros Hm Hc Hp. revert rm Hm Hc. induction pats as [|n pats IH]; intros rm Hm Hc Hn Hk; cbn.
  - exists (rm_cache rm). split; [now destruct rm|exact Hc].
  - destruct (String.eqb n name); cbn [negb andb].
    { apply IH; auto; intros; [apply Hn|apply Hk]; now right. }
    destruct (match_ok rm mm name n Hm Hc) as [c' [b [-> [Hc' Hb]]]]. cbn [obind].
    rewrite (Hb Hp (Hn n ltac:(now left))). cbn [rm_all with_cache].
    rewrite (proj2 (mhas_known n (rm_all rm)) (Hk n ltac:(now left))). rewrite andb_false_r.
    destruct (IH (with_cache rm c') Hm Hc' ltac:(intros; apply Hn; now right) ltac:(intros; apply Hk; now right))
      as [c2 [-> Hc2]]. cbn [obind].
    exists c2. split; [|exact Hc2]. now destruct (Match mm name n).
Qed.

(** ** Well-formed managers *)
Record wf (rm : rolemgr) : Prop := mkWf {
  w_core : core (rm_all rm) (rm_patterns rm);
  w_cache : cache_ok (rm_matcher rm) (rm_cache rm);
  w_ok : forall n, known n (rm_all rm) -> okname (rm_matcher rm) n
}.

Definition fullget ord (rm : rolemgr) name :=
  pget ord (rm_matcher rm) (rm_all rm) (rm_patterns rm) name.

Lemma getRole_pure ord rm name :
  good_order ord -> wf rm -> okname (rm_matcher rm) name ->
  exists c', getRole ord rm name =
      Val (mkRM (fst (fullget ord rm name)) (snd (fullget ord rm name)) (rm_level rm) (rm_matcher rm) c',
           negb (mhas name (rm_all rm))) /\
    cache_ok (rm_matcher rm) c'.
Proof.
  intros Ho W Hn. unfold getRole, fullget, pget. destruct (mhas name (rm_all rm)) eqn:Ek.
  { exists (rm_cache rm). split; [now destruct rm|apply W]. }
  cbn [rm_matcher with_all rm_all rm_patterns negb].
  destruct (rm_matcher rm) as [mm|] eqn:Em.
  2:{ exists (rm_cache rm). split; [|exact I]. destruct rm; cbn in *. now subst. }
  pose proof (w_cache _ W) as Hc. pose proof (w_ok _ W) as Hok. rewrite Em in Hc, Hok. cbn in Hn, Hok.
  cbn [is_pat]. destruct (IsPattern mm name) eqn:Ep.
  - edestruct (matchingRoles_ok (with_patterns (with_all rm (mput name newRole (rm_all rm)))
        (sadd name (rm_patterns rm))) mm name (ord (mkeys (mput name newRole (rm_all rm)))))
      as [c' [H Hc']].
    + exact Em. + cbn. rewrite Em. exact Hc. + exact Hn.
    + intros n H. apply (Permutation_in _ (Ho _)) in H. apply known_put in H as [->|H]; auto.
    + unfold with_cache, with_patterns, with_all in *. cbn [rm_all rm_patterns rm_level rm_matcher rm_cache] in *.
      rewrite Em in *. rewrite H. exists c'. split; [reflexivity|exact Hc'].
  - edestruct (matchingPatterns_ok (with_all rm (mput name newRole (rm_all rm))) mm name (ord (rm_patterns rm)))
      as [c' [H Hc']].
    + exact Em. + cbn. rewrite Em. exact Hc. + exact Hn.
    + intros n H. apply (Permutation_in _ (Ho _)) in H. apply Hok, (c_pats _ _ (w_core _ W)), H.
    + intros n H. apply (Permutation_in _ (Ho _)) in H. apply known_put. right.
      apply (c_pats _ _ (w_core _ W)), H.
    + unfold with_cache, with_patterns, with_all in *. cbn [rm_all rm_patterns rm_level rm_matcher rm_cache] in *.
      rewrite Em in *. rewrite H. exists c'. split; [reflexivity|exact Hc'].
Qed.

Lemma fullget_cases ord rm name : good_order ord -> wf rm ->
  (known name (rm_all rm) /\ fullget ord rm name = (rm_all rm, rm_patterns rm)) \/
  (~ known name (rm_all rm) /\
   extends (rm_matcher rm) (rm_all rm) (rm_patterns rm) name (fst (fullget ord rm name)) (snd (fullget ord rm name))).
Proof.
  intros Ho W. destruct (in_dec string_dec name (mkeys (rm_all rm))) as [H|H].
  - left. split; [exact H|]. unfold fullget, pget. now rewrite (proj2 (mhas_known _ _) H).
  - right. split; [exact H|]. apply pget_extends; [exact Ho|apply W|exact H].
Qed.

Lemma known_fullget ord rm name n : good_order ord -> wf rm ->
  known n (fst (fullget ord rm name)) <-> n = name \/ known n (rm_all rm).
Proof.
  intros Ho W. destruct (fullget_cases ord rm name Ho W) as [[H ->]|[H E]].
  - cbn. intuition. now subst.
  - unfold known. rewrite (e_keys _ _ _ _ _ _ E), in_app_iff. cbn. intuition.
Qed.

Lemma wf_fullget ord rm name c' : good_order ord -> wf rm -> okname (rm_matcher rm) name ->
  cache_ok (rm_matcher rm) c' ->
  wf (mkRM (fst (fullget ord rm name)) (snd (fullget ord rm name)) (rm_level rm) (rm_matcher rm) c').
Proof.
  intros Ho W Hn Hc. constructor; cbn; [|exact Hc|].
  - destruct (fullget_cases ord rm name Ho W) as [[_ ->]|[_ E]]; [apply W|apply E].
  - intros n H. apply known_fullget in H as [->|H]; auto. now apply W.
Qed.

Lemma remove_fullget ord rm name c' : good_order ord -> wf rm ->
  (if negb (mhas name (rm_all rm))
   then rm_removeRole (mkRM (fst (fullget ord rm name)) (snd (fullget ord rm name)) (rm_level rm) (rm_matcher rm) c') name
   else mkRM (fst (fullget ord rm name)) (snd (fullget ord rm name)) (rm_level rm) (rm_matcher rm) c')
  = with_cache rm c'.
Proof.
  intros Ho W. destruct (fullget_cases ord rm name Ho W) as [[H E]|[H E]].
  - rewrite (proj2 (mhas_known _ _) H), E. reflexivity.
  - rewrite (proj2 (mhas_unknown _ _) H). cbn. apply (remove_extends _ _ _ _ _ _ _ _ _ (w_core _ W) H E).
Qed.

(** ** Searching for a chain *)
Definition pfound (m : option imatcher) (target r : string) : bool := String.eqb target r || pmatch m r target.

Fixpoint plevel ord m all target (roles next : list string) : option (list string) :=
  match roles with
  | [] => Some next
  | r :: rest => if pfound m target r then None
                 else plevel ord m all target rest (fold_left (fun n x => sadd x n) (rangeRoles ord all r) next)
  end.

Fixpoint phelper ord m (level : nat) all target (roles : list string) : bool :=
  match level with
  | O => false
  | S level' =>
      match roles with
      | [] => false
      | _ :: _ => match plevel ord m all target (ord roles) [] with
                  | None => true
                  | Some next => phelper ord m level' all target next
                  end
      end
  end.

Lemma plevel_spec ord m all target roles : forall next,
  match plevel ord m all target roles next with
  | None => exists r, In r roles /\ pfound m target r = true
  | Some next' => (forall r, In r roles -> pfound m target r = false) /\
      forall y, In y next' <-> In y next \/ exists r, In r roles /\ In y (rangeRoles ord all r)
  end.
Proof.
  induction roles as [|r roles IH]; intros next; cbn [plevel].
  - split; [easy|]. intros y. split; [auto|]. intros [H|[r [[] _]]]. exact H.
  - destruct (pfound m target r) eqn:E; [exists r; split; [now left|exact E]|].
    specialize (IH (fold_left (fun n x => sadd x n) (rangeRoles ord all r) next)).
    destruct (plevel ord m all target roles _) as [next'|].
    + destruct IH as [H1 H2]. split.
      * intros r' [<-|H]; auto.
      * intros y. rewrite H2, fold_sadd_In. split.
        -- intros [[H|H]|[r' [H H']]]; [now left|right; exists r; split; [now left|exact H]|].
           right. exists r'. split; [now right|exact H'].
        -- intros [H|[r' [[<-|H] H']]]; [tauto|tauto|right; eauto].
    + destruct IH as [r' [H1 H2]]. exists r'. split; [now right|exact H2].
Qed.

Lemma phelper_spec ord m all target : good_order ord -> forall level roles,
  phelper ord m level all target roles = true <->
  exists k r x, k < level /\ In r roles /\ chain (fun u v => In v (rangeRoles ord all u)) k r x /\
                pfound m target x = true.
Proof.
  intros Ho. induction level as [|level IH]; intros roles; cbn [phelper].
  - split; [discriminate|]. intros [k [r [x [H _]]]]. lia.
  - destruct roles as [|r0 roles']; [split; [discriminate|intros [k [r [x [_ [[] _]]]]]]|].
    set (roles := r0 :: roles').
    assert (Hio : forall r, In r (ord roles) <-> In r roles).
    { intros r. split; apply Permutation_in; [|symmetry]; apply Ho. }
    pose proof (plevel_spec ord m all target (ord roles) []) as H.
    destruct (plevel ord m all target (ord roles) []) as [next|].
    + destruct H as [H1 H2]. rewrite IH. split.
      * intros [k [r [x [Hk [Hr [Hch Hx]]]]]]. apply H2 in Hr as [[]|[r' [Hr' Hin]]].
        exists (S k), r', x. split; [lia|]. split; [now apply Hio|]. split; [|exact Hx].
        econstructor; eauto.
      * intros [k [r [x [Hk [Hr [Hch Hx]]]]]]. destruct Hch as [a|k a b c Hab Hch].
        { rewrite H1 in Hx; [discriminate|]. now apply Hio. }
        exists k, b, c. split; [lia|]. split; [|auto]. apply H2. right. exists a. split; [now apply Hio|exact Hab].
    + split; [intros _|reflexivity]. destruct H as [r [Hr Hf]]. exists 0, r, r. split; [lia|].
      split; [now apply Hio|]. split; [constructor|exact Hf].
Qed.

Lemma rangeRoles_In ord all u v : good_order ord ->
  In v (rangeRoles ord all u) <->
  In v (rl all u) \/ (exists p, In p (rl all u) /\ In v (mt all p)) \/ (exists p, In p (mb all u) /\ In v (rl all p)).
Proof.
  intros Ho. assert (Hio : forall l x, In x (ord l) <-> In x l).
  { intros l x. split; apply Permutation_in; [|symmetry]; apply Ho. }
  unfold rangeRoles. rewrite !in_app_iff, !in_flat_map, Hio. fold (rl all u).
  split; (intros [H|[[p [H1 H2]]|[p [H1 H2]]]]; [now left|right; left|right; right]);
    exists p; split; first [apply (proj1 (Hio _ _)); assumption|apply (proj2 (Hio _ _)); assumption].
Qed.
Lemma rangeUsers_In ord all u v : good_order ord ->
  In v (rangeUsers ord all u) <->
  In v (us all u) \/ (exists p, In p (us all u) /\ In v (mt all p)) \/ (exists p, In p (mb all u) /\ In v (us all p)).
Proof.
  intros Ho. assert (Hio : forall l x, In x (ord l) <-> In x l).
  { intros l x. split; apply Permutation_in; [|symmetry]; apply Ho. }
  unfold rangeUsers. rewrite !in_app_iff, !in_flat_map, Hio. fold (us all u).
  split; (intros [H|[[p [H1 H2]]|[p [H1 H2]]]]; [now left|right; left|right; right]);
    exists p; split; first [apply (proj1 (Hio _ _)); assumption|apply (proj2 (Hio _ _)); assumption].
Qed.

Lemma rangeRoles_known ord all pats u v : good_order ord -> core all pats ->
  In v (rangeRoles ord all u) -> known v all.
Proof.
  intros Ho C H. apply rangeRoles_In in H; [|exact Ho].
  destruct H as [H|[[p [_ H]]|[p [_ H]]]].
  - now apply (core_rl_known _ _ C) in H.
  - now apply (core_mt_known _ _ C) in H.
  - now apply (core_rl_known _ _ C) in H.
Qed.

Lemma level_loop_pure ord rm target roles : forall next,
  cache_ok (rm_matcher rm) (rm_cache rm) -> okname (rm_matcher rm) target ->
  (forall r, In r roles -> okname (rm_matcher rm) r) ->
  exists c', level_loop ord rm target roles next =
      Val (with_cache rm c', plevel ord (rm_matcher rm) (rm_all rm) target roles next) /\
    cache_ok (rm_matcher rm) c'.
Proof.
  revert rm. induction roles as [|r roles IH]; intros rm next Hc Ht Hr; cbn [level_loop plevel].
  - exists (rm_cache rm). split; [now destruct rm|exact Hc].
  - unfold pfound. destruct (String.eqb target r); cbn [orb obind].
    { exists (rm_cache rm). split; [now destruct rm|exact Hc]. }
    destruct (match_if_set_ok rm r target Hc (Hr r ltac:(now left)) Ht) as [c' [-> Hc']]. cbn [obind].
    destruct (pmatch (rm_matcher rm) r target).
    { exists c'. auto. }
    cbn [rm_all with_cache].
    destruct (IH (with_cache rm c') (fold_left (fun n x => sadd x n) (rangeRoles ord (rm_all rm) r) next)
                 Hc' Ht ltac:(intros; apply Hr; now right)) as [c2 [H2 Hc2]].
    exists c2. split; [exact H2|exact Hc2].
Qed.

Lemma hasLinkHelper_pure ord target : good_order ord -> forall level rm roles,
  wf rm -> okname (rm_matcher rm) target -> (forall r, In r roles -> okname (rm_matcher rm) r) ->
  exists c', hasLinkHelper ord level rm target roles =
      Val (with_cache rm c', phelper ord (rm_matcher rm) level (rm_all rm) target roles) /\
    cache_ok (rm_matcher rm) c'.
Proof.
  intros Ho. induction level as [|level IH]; intros rm roles W Ht Hr; cbn [hasLinkHelper phelper].
  { exists (rm_cache rm). split; [now destruct rm|apply W]. }
  destruct roles as [|r0 roles']; [exists (rm_cache rm); split; [now destruct rm|apply W]|].
  set (roles := r0 :: roles') in *.
  destruct (level_loop_pure ord rm target (ord roles) [] (w_cache _ W) Ht) as [c' [-> Hc']].
  { intros r H. apply Hr. eapply Permutation_in; [apply Ho|exact H]. }
  cbn [obind]. pose proof (plevel_spec ord (rm_matcher rm) (rm_all rm) target (ord roles) []) as Hs.
  destruct (plevel ord (rm_matcher rm) (rm_all rm) target (ord roles) []) as [next|]; [|exists c'; auto].
  destruct (IH (with_cache rm c') next) as [c2 [H2 Hc2]].
  - destruct W; constructor; auto.
  - exact Ht.
  - intros r H. apply Hs in H as [[]|[r' [_ H]]]. apply (w_ok _ W).
    eapply rangeRoles_known; [exact Ho|apply W|exact H].
  - exists c2. split; [exact H2|exact Hc2].
Qed.

(** ** The calls *)
Definition rm_of (m : option imatcher) (level : Z) (s : smap role * list string) (c : lru bool) : rolemgr :=
  mkRM (fst s) (snd s) level m c.

Definition get2 ord m (s : smap role * list string) a b : smap role * list string :=
  let s1 := pget ord m (fst s) (snd s) a in pget ord m (fst s1) (snd s1) b.

Definition phas ord m level (s : smap role * list string) a b : bool :=
  if String.eqb a b || pmatch m a b then true
  else phelper ord m (Z.to_nat level) (fst (get2 ord m s a b)) b [a].

Definition padd ord m (s : smap role * list string) a b ds : (smap role * list string) * bool :=
  let s2 := get2 ord m s a b in
  let all := if is_redundant ds then upd_role a (on_redundant (sadd b)) (fst s2) else fst s2 in
  (fst (addRole all a b), snd s2, snd (addRole all a b)).
Definition pdel ord m (s : smap role * list string) a b ds : (smap role * list string) * bool :=
  let s2 := get2 ord m s a b in
  let all := if is_redundant ds then upd_role a (on_redundant (srem b)) (fst s2) else fst s2 in
  (fst (removeRole all a b), snd s2, snd (removeRole all a b)).

Definition state (rm : rolemgr) := (rm_all rm, rm_patterns rm).

Lemma getRole2_pure ord rm a b :
  good_order ord -> wf rm -> okname (rm_matcher rm) a -> okname (rm_matcher rm) b ->
  exists c1 c2 rm1,
    getRole ord rm a = Val (rm1, negb (mhas a (rm_all rm))) /\
    rm1 = rm_of (rm_matcher rm) (rm_level rm) (fullget ord rm a) c1 /\ wf rm1 /\
    getRole ord rm1 b = Val (rm_of (rm_matcher rm) (rm_level rm) (get2 ord (rm_matcher rm) (state rm) a b) c2,
                             negb (mhas b (rm_all rm1))) /\
    wf (rm_of (rm_matcher rm) (rm_level rm) (get2 ord (rm_matcher rm) (state rm) a b) c2).
Proof.
  intros Ho W Ha Hb. destruct (getRole_pure ord rm a Ho W Ha) as [c1 [H1 Hc1]].
  pose proof (wf_fullget ord rm a c1 Ho W Ha Hc1) as W1.
  set (rm1 := mkRM (fst (fullget ord rm a)) (snd (fullget ord rm a)) (rm_level rm) (rm_matcher rm) c1) in *.
  destruct (getRole_pure ord rm1 b Ho W1 Hb) as [c2 [H2 Hc2]].
  pose proof (wf_fullget ord rm1 b c2 Ho W1 Hb Hc2) as W2.
  exists c1, c2, rm1. split; [exact H1|]. split; [reflexivity|]. split; [exact W1|]. split; [exact H2|exact W2].
Qed.

Lemma HasLink_pure ord rm a b :
  good_order ord -> wf rm -> okname (rm_matcher rm) a -> okname (rm_matcher rm) b ->
  exists c', rm_HasLink ord rm a b =
      Val (with_cache rm c', phas ord (rm_matcher rm) (rm_level rm) (state rm) a b) /\
    cache_ok (rm_matcher rm) c'.
Proof.
  intros Ho W Ha Hb. unfold rm_HasLink, phas.
  destruct (String.eqb a b); cbn [obind orb].
  { exists (rm_cache rm). split; [now destruct rm|apply W]. }
  destruct (match_if_set_ok rm a b (w_cache _ W) Ha Hb) as [c0 [-> Hc0]]. cbn [obind].
  destruct (pmatch (rm_matcher rm) a b). { exists c0. auto. }
  assert (W0 : wf (with_cache rm c0)) by (destruct W; constructor; auto).
  destruct (getRole2_pure ord (with_cache rm c0) a b Ho W0 Ha Hb) as [c1 [c2 [rm1 [H1 [E1 [W1 [H2 W2]]]]]]].
  rewrite H1. cbn [obind]. rewrite H2. cbn [obind].
  set (rm2 := rm_of _ _ _ c2) in *.
  destruct (hasLinkHelper_pure ord b Ho (Z.to_nat (rm_level rm2)) rm2 [a] W2 Hb) as [c3 [H3 Hc3]].
  { intros r [<-|[]]. exact Ha. }
  rewrite H3. cbn [obind]. exists c3. split; [|exact Hc3]. f_equal. f_equal.
  assert (R2 : (if negb (mhas b (rm_all rm1)) then rm_removeRole (with_cache rm2 c3) b else with_cache rm2 c3)
               = with_cache rm1 c3).
  { subst rm1. exact (remove_fullget ord _ b c3 Ho W1). }
  rewrite R2. subst rm1. cbn [rm_all with_cache].
  exact (remove_fullget ord (with_cache rm c0) a c3 Ho W0).
Qed.

Lemma GetRoles_pure ord rm a :
  good_order ord -> wf rm -> okname (rm_matcher rm) a ->
  exists c', rm_GetRoles ord rm a =
      Val (with_cache rm c', rangeRoles ord (fst (pget ord (rm_matcher rm) (rm_all rm) (rm_patterns rm) a)) a) /\
    cache_ok (rm_matcher rm) c'.
Proof.
  intros Ho W Ha. unfold rm_GetRoles. destruct (getRole_pure ord rm a Ho W Ha) as [c1 [-> Hc1]]. cbn [obind].
  exists c1. rewrite remove_fullget by assumption. auto.
Qed.
Lemma GetUsers_pure ord rm a :
  good_order ord -> wf rm -> okname (rm_matcher rm) a ->
  exists c', rm_GetUsers ord rm a =
      Val (with_cache rm c', rangeUsers ord (fst (pget ord (rm_matcher rm) (rm_all rm) (rm_patterns rm) a)) a) /\
    cache_ok (rm_matcher rm) c'.
Proof.
  intros Ho W Ha. unfold rm_GetUsers. destruct (getRole_pure ord rm a Ho W Ha) as [c1 [-> Hc1]]. cbn [obind].
  exists c1. rewrite remove_fullget by assumption. auto.
Qed.

Lemma AddLink_pure ord rm a b ds :
  good_order ord -> wf rm -> okname (rm_matcher rm) a -> okname (rm_matcher rm) b ->
  exists c', rm_AddLink ord rm a b ds =
      Val (rm_of (rm_matcher rm) (rm_level rm) (fst (padd ord (rm_matcher rm) (state rm) a b ds)) c',
           snd (padd ord (rm_matcher rm) (state rm) a b ds)) /\
    wf (rm_of (rm_matcher rm) (rm_level rm) (get2 ord (rm_matcher rm) (state rm) a b) c').
Proof.
  intros Ho W Ha Hb. unfold rm_AddLink, padd.
  destruct (getRole2_pure ord rm a b Ho W Ha Hb) as [c1 [c2 [rm1 [H1 [E1 [W1 [H2 W2]]]]]]].
  rewrite H1. cbn [obind]. rewrite H2. cbn [obind].
  exists c2. split; [|exact W2]. cbn [rm_all rm_of fst snd]. now destruct (addRole _ a b).
Qed.
Lemma DeleteLink_pure ord rm a b ds :
  good_order ord -> wf rm -> okname (rm_matcher rm) a -> okname (rm_matcher rm) b ->
  exists c', rm_DeleteLink ord rm a b ds =
      Val (rm_of (rm_matcher rm) (rm_level rm) (fst (pdel ord (rm_matcher rm) (state rm) a b ds)) c',
           snd (pdel ord (rm_matcher rm) (state rm) a b ds)) /\
    wf (rm_of (rm_matcher rm) (rm_level rm) (get2 ord (rm_matcher rm) (state rm) a b) c').
Proof.
  intros Ho W Ha Hb. unfold rm_DeleteLink, pdel.
  destruct (getRole2_pure ord rm a b Ho W Ha Hb) as [c1 [c2 [rm1 [H1 [E1 [W1 [H2 W2]]]]]]].
  rewrite H1. cbn [obind]. rewrite H2. cbn [obind].
  exists c2. split; [|exact W2]. cbn [rm_all rm_of fst snd]. now destruct (removeRole _ a b).
Qed.

(** ** Adding and removing links *)
Lemma views_redundant all a f x : known a all ->
  rl (upd_role a (on_redundant f) all) x = rl all x /\ us (upd_role a (on_redundant f) all) x = us all x /\
  mt (upd_role a (on_redundant f) all) x = mt all x /\ mb (upd_role a (on_redundant f) all) x = mb all x /\
  rd (upd_role a (on_redundant f) all) x = (if String.eqb x a then f (rd all a) else rd all x).
Proof.
  intros H. unfold rl, us, mt, mb, rd. rewrite role_of_upd by exact H.
  destruct (String.eqb_spec x a) as [->|]; cbn; auto 6.
Qed.

Lemma core_redundant all pats a f : known a all -> core all pats -> core (upd_role a (on_redundant f) all) pats.
Proof.
  intros H C. pose proof (fun x => views_redundant all a f x H) as V. constructor.
  - rewrite mkeys_upd. apply C.
  - intros x y. destruct (V x) as [-> _], (V y) as [_ [-> _]]. apply C.
  - intros x y. destruct (V x) as [_ [_ [-> _]]], (V y) as [_ [_ [_ [-> _]]]]. apply C.
  - intros x. destruct (V x) as [_ [_ [-> _]]]. apply C.
  - intros x. destruct (V x) as [-> _]. apply C.
  - intros x. destruct (V x) as [_ [-> _]]. apply C.
  - intros p Hp. apply known_upd. now apply C.
  - apply C.
Qed.

Lemma views_link all a b (f g : list string -> list string) x : known a all -> known b all ->
  let all' := upd_role b (on_users g) (upd_role a (on_roles f) all) in
  rl all' x = (if String.eqb x a then f (rl all a) else rl all x) /\
  us all' x = (if String.eqb x b then g (us all b) else us all x) /\
  mt all' x = mt all x /\ mb all' x = mb all x /\ rd all' x = rd all x.
Proof.
  intros Ha Hb. unfold rl, us, mt, mb, rd. cbn.
  rewrite role_of_upd by now apply known_upd. rewrite !role_of_upd by exact Ha.
  destruct (String.eqb_spec x b), (String.eqb_spec x a), (String.eqb_spec b a); subst; cbn; auto 6; congruence.
Qed.

Lemma addRole_spec all pats a b : known a all -> known b all -> core all pats ->
  let all' := fst (addRole all a b) in
  core all' pats /\ mkeys all' = mkeys all /\ snd (addRole all a b) = negb (sin b (rl all a)) /\
  (forall x y, In y (rl all' x) <-> (x = a /\ y = b) \/ In y (rl all x)) /\
  (forall x, mt all' x = mt all x /\ mb all' x = mb all x /\ rd all' x = rd all x).
Proof.
  intros Ha Hb C. unfold addRole, hasRole. fold (rl all a). destruct (sin b (rl all a)) eqn:E; cbn [fst snd negb].
  - split; [exact C|]. split; [reflexivity|]. split; [reflexivity|]. split; [|auto].
    intros x y. apply sin_In in E. intuition. now subst.
  - pose proof (fun x => views_link all a b (sadd b) (sadd a) x Ha Hb) as V. cbn in V.
    set (all' := upd_role b _ _) in *.
    assert (Erl : forall x y, In y (rl all' x) <-> (x = a /\ y = b) \/ In y (rl all x)).
    { intros x y. destruct (V x) as [-> _]. destruct (String.eqb_spec x a) as [->|]; [|intuition].
      rewrite sadd_In. intuition. }
    assert (Eus : forall x y, In y (us all' x) <-> (x = b /\ y = a) \/ In y (us all x)).
    { intros x y. destruct (V x) as [_ [-> _]]. destruct (String.eqb_spec x b) as [->|]; [|intuition].
      rewrite sadd_In. intuition. }
    assert (Ek : mkeys all' = mkeys all) by (unfold all'; now rewrite !mkeys_upd).
    split; [|split; [exact Ek|split; [reflexivity|split; [exact Erl|]]]].
    + constructor.
      * rewrite Ek. apply C.
      * intros x y. rewrite Erl, Eus. rewrite (c_sym _ _ C). tauto.
      * intros x y. destruct (V x) as [_ [_ [-> _]]], (V y) as [_ [_ [_ [-> _]]]]. apply C.
      * intros x. destruct (V x) as [_ [_ [-> _]]]. apply C.
      * intros x. destruct (V x) as [-> _]. destruct (String.eqb x a); [apply NoDup_sadd|]; apply C.
      * intros x. destruct (V x) as [_ [-> _]]. destruct (String.eqb x b); [apply NoDup_sadd|]; apply C.
      * intros p Hp. unfold known. rewrite Ek. now apply C.
      * apply C.
    + intros x. destruct (V x) as [_ [_ H]]. exact H.
Qed.

Lemma removeRole_spec all pats a b : known a all -> known b all -> core all pats ->
  let all' := fst (removeRole all a b) in
  core all' pats /\ mkeys all' = mkeys all /\ snd (removeRole all a b) = sin b (rl all a) /\
  (forall x y, In y (rl all' x) <-> ~ (x = a /\ y = b) /\ In y (rl all x)) /\
  (forall x, mt all' x = mt all x /\ mb all' x = mb all x /\ rd all' x = rd all x).
Proof.
  intros Ha Hb C. unfold removeRole, hasRole. fold (rl all a).
  destruct (sin b (rl all a)) eqn:E; cbn [fst snd negb].
  - pose proof (fun x => views_link all a b (srem b) (srem a) x Ha Hb) as V. cbn in V.
    set (all' := upd_role b _ _) in *.
    assert (Erl : forall x y, In y (rl all' x) <-> ~ (x = a /\ y = b) /\ In y (rl all x)).
    { intros x y. destruct (V x) as [-> _]. destruct (String.eqb_spec x a) as [->|]; [|intuition].
      rewrite srem_In. intuition. }
    assert (Eus : forall x y, In y (us all' x) <-> ~ (x = b /\ y = a) /\ In y (us all x)).
    { intros x y. destruct (V x) as [_ [-> _]]. destruct (String.eqb_spec x b) as [->|]; [|intuition].
      rewrite srem_In. intuition. }
    assert (Ek : mkeys all' = mkeys all) by (unfold all'; now rewrite !mkeys_upd).
    split; [|split; [exact Ek|split; [reflexivity|split; [exact Erl|]]]].
    + constructor.
      * rewrite Ek. apply C.
      * intros x y. rewrite Erl, Eus. rewrite (c_sym _ _ C). tauto.
      * intros x y. destruct (V x) as [_ [_ [-> _]]], (V y) as [_ [_ [_ [-> _]]]]. apply C.
      * intros x. destruct (V x) as [_ [_ [-> _]]]. apply C.
      * intros x. destruct (V x) as [-> _]. destruct (String.eqb x a); [apply NoDup_srem|]; apply C.
      * intros x. destruct (V x) as [_ [-> _]]. destruct (String.eqb x b); [apply NoDup_srem|]; apply C.
      * intros p Hp. unfold known. rewrite Ek. now apply C.
      * apply C.
    + intros x. destruct (V x) as [_ [_ H]]. exact H.
  - split; [exact C|]. split; [reflexivity|]. split; [reflexivity|]. split; [|auto].
    intros x y. apply sin_false in E. intuition. now subst.
Qed.
