(** What a history of calls leaves in a role manager. *)
From Verif Require Import GoBase GoBaseP PolicyM CacheM CacheSpec PathM RbacM RbacSpec RbacP RbacP2.

Lemma wf_with_cache rm c : wf rm -> cache_ok (rm_matcher rm) c -> wf (with_cache rm c).
Proof. intros [A B D] H. constructor; auto. Qed.

Lemma wf_start level m : wf (newRoleManagerWithMatchingFunc level m).
Proof. constructor; cbn; [apply core_nil|apply cache_ok_new|intros n []]. Qed.

Lemma wf_clear rm : wf rm -> wf (rm_Clear rm).
Proof. intros _. constructor; cbn; [apply core_nil|apply cache_ok_new|intros n []]. Qed.

Lemma known_get2 ord m level s c a b n : good_order ord ->
  wf (rm_of m level s c) -> okname m a ->
  known n (fst (get2 ord m s a b)) <-> n = b \/ n = a \/ known n (fst s).
Proof.
  intros Ho W Ha. unfold get2.
  pose proof (getRole_pure ord _ a Ho W Ha) as [c1 [_ Hc1]].
  pose proof (wf_fullget ord _ a c1 Ho W Ha Hc1) as W1.
  pose proof (known_fullget ord _ b n Ho W1) as H2. unfold fullget in H2. cbn in H2. rewrite H2.
  pose proof (known_fullget ord _ a n Ho W) as H1. unfold fullget in H1. cbn in H1. rewrite H1. tauto.
Qed.

Lemma state_rm_of rm : rm = rm_of (rm_matcher rm) (rm_level rm) (state rm) (rm_cache rm).
Proof. now destruct rm. Qed.

(** The state after AddLink and DeleteLink. *)
Lemma padd_spec ord rm a b ds c' :
  good_order ord -> wf rm -> okname (rm_matcher rm) a -> okname (rm_matcher rm) b ->
  let m := rm_matcher rm in
  wf (rm_of m (rm_level rm) (get2 ord m (state rm) a b) c') ->
  let all2 := fst (get2 ord m (state rm) a b) in
  let all3 := fst (fst (padd ord m (state rm) a b ds)) in
  wf (rm_of m (rm_level rm) (fst (padd ord m (state rm) a b ds)) c') /\
  snd (fst (padd ord m (state rm) a b ds)) = snd (get2 ord m (state rm) a b) /\
  mkeys all3 = mkeys all2 /\
  snd (padd ord m (state rm) a b ds) = negb (sin b (rl all2 a)) /\
  (forall x y, In y (rl all3 x) <-> (x = a /\ y = b) \/ In y (rl all2 x)) /\
  (forall x, mt all3 x = mt all2 x /\ mb all3 x = mb all2 x) /\
  (is_redundant ds = false -> forall x, rd all3 x = rd all2 x).
Proof.
  intros Ho W Ha Hb m W2 all2 all3.
  assert (Hk : forall n, n = a \/ n = b -> known n all2).
  { intros n Hn. unfold all2. pose proof W as W'. rewrite (state_rm_of rm) in W'.
    apply (known_get2 ord _ _ _ _ a b n Ho W' Ha). tauto. }
  assert (C2 : core all2 (snd (get2 ord m (state rm) a b))) by apply (w_core _ W2).
  unfold padd in *. fold all2 in all3 |- *.
  set (allr := if is_redundant ds then upd_role a (on_redundant (sadd b)) all2 else all2) in *.
  assert (Vr : forall x, rl allr x = rl all2 x /\ mt allr x = mt all2 x /\ mb allr x = mb all2 x).
  { intros x. unfold allr. destruct (is_redundant ds); [|auto].
    destruct (views_redundant all2 a (sadd b) x (Hk a ltac:(auto))) as [-> [_ [-> [-> _]]]]. auto. }
  assert (Kr : mkeys allr = mkeys all2) by (unfold allr; destruct (is_redundant ds); [apply mkeys_upd|reflexivity]).
  assert (Cr : core allr (snd (get2 ord m (state rm) a b))).
  { unfold allr. destruct (is_redundant ds); [apply core_redundant; auto|exact C2]. }
  assert (Kra : known a allr) by (unfold known; rewrite Kr; apply Hk; auto).
  assert (Krb : known b allr) by (unfold known; rewrite Kr; apply Hk; auto).
  destruct (addRole_spec allr _ a b Kra Krb Cr) as [C3 [K3 [S3 [L3 M3]]]]. cbn [fst snd] in *.
  fold all3 in C3, K3, L3, M3.
  split; [|split; [reflexivity|split; [congruence|split; [|split; [|split]]]]].
  - constructor; cbn; [exact C3|apply W2|]. intros n Hn. apply (w_ok _ W2). cbn.
    unfold known in *. change (In n (mkeys all3)) in Hn. rewrite K3, Kr in Hn. exact Hn.
  - rewrite S3. now destruct (Vr a) as [-> _].
  - intros x y. rewrite L3. now destruct (Vr x) as [-> _].
  - intros x. destruct (M3 x) as [-> [-> _]]. exact (proj2 (Vr x)).
  - intros Hr x. destruct (M3 x) as [_ [_ ->]]. unfold allr. now rewrite Hr.
Qed.

Lemma pdel_spec ord rm a b ds c' :
  good_order ord -> wf rm -> okname (rm_matcher rm) a -> okname (rm_matcher rm) b ->
  let m := rm_matcher rm in
  wf (rm_of m (rm_level rm) (get2 ord m (state rm) a b) c') ->
  let all2 := fst (get2 ord m (state rm) a b) in
  let all3 := fst (fst (pdel ord m (state rm) a b ds)) in
  wf (rm_of m (rm_level rm) (fst (pdel ord m (state rm) a b ds)) c') /\
  snd (fst (pdel ord m (state rm) a b ds)) = snd (get2 ord m (state rm) a b) /\
  mkeys all3 = mkeys all2 /\
  snd (pdel ord m (state rm) a b ds) = sin b (rl all2 a) /\
  (forall x y, In y (rl all3 x) <-> ~ (x = a /\ y = b) /\ In y (rl all2 x)) /\
  (forall x, mt all3 x = mt all2 x /\ mb all3 x = mb all2 x) /\
  (is_redundant ds = false -> forall x, rd all3 x = rd all2 x).
Proof.
  intros Ho W Ha Hb m W2 all2 all3.
  assert (Hk : forall n, n = a \/ n = b -> known n all2).
  { intros n Hn. unfold all2. pose proof W as W'. rewrite (state_rm_of rm) in W'.
    apply (known_get2 ord _ _ _ _ a b n Ho W' Ha). tauto. }
  assert (C2 : core all2 (snd (get2 ord m (state rm) a b))) by apply (w_core _ W2).
  unfold pdel in *. fold all2 in all3 |- *.
  set (allr := if is_redundant ds then upd_role a (on_redundant (srem b)) all2 else all2) in *.
  assert (Vr : forall x, rl allr x = rl all2 x /\ mt allr x = mt all2 x /\ mb allr x = mb all2 x).
  { intros x. unfold allr. destruct (is_redundant ds); [|auto].
    destruct (views_redundant all2 a (srem b) x (Hk a ltac:(auto))) as [-> [_ [-> [-> _]]]]. auto. }
  assert (Kr : mkeys allr = mkeys all2) by (unfold allr; destruct (is_redundant ds); [apply mkeys_upd|reflexivity]).
  assert (Cr : core allr (snd (get2 ord m (state rm) a b))).
  { unfold allr. destruct (is_redundant ds); [apply core_redundant; auto|exact C2]. }
  assert (Kra : known a allr) by (unfold known; rewrite Kr; apply Hk; auto).
  assert (Krb : known b allr) by (unfold known; rewrite Kr; apply Hk; auto).
  destruct (removeRole_spec allr _ a b Kra Krb Cr) as [C3 [K3 [S3 [L3 M3]]]]. cbn [fst snd] in *.
  fold all3 in C3, K3, L3, M3.
  split; [|split; [reflexivity|split; [congruence|split; [|split; [|split]]]]].
  - constructor; cbn; [exact C3|apply W2|]. intros n Hn. apply (w_ok _ W2). cbn.
    unfold known in *. change (In n (mkeys all3)) in Hn. rewrite K3, Kr in Hn. exact Hn.
  - rewrite S3. now destruct (Vr a) as [-> _].
  - intros x y. rewrite L3. now destruct (Vr x) as [-> _].
  - intros x. destruct (M3 x) as [-> [-> _]]. exact (proj2 (Vr x)).
  - intros Hr x. destruct (M3 x) as [_ [_ ->]]. unfold allr. now rewrite Hr.
Qed.

(** ** Calls do not depend on the cache *)
Definition call_ok (m : option imatcher) (c : rcall) : Prop := forall n, In n (call_names c) -> okname m n.

Definition same_but_cache (r1 r2 : rolemgr) : Prop := exists c, r2 = with_cache r1 c.

Lemma rstep_same ord r1 r2 c :
  good_order ord -> wf r1 -> wf r2 -> same_but_cache r1 r2 -> call_ok (rm_matcher r1) c ->
  exists r1' r2' x, rstep ord r1 c = Val (r1', x) /\ rstep ord r2 c = Val (r2', x) /\
    wf r1' /\ wf r2' /\ same_but_cache r1' r2' /\
    rm_matcher r1' = rm_matcher r1 /\ rm_level r1' = rm_level r1 /\
    (is_query c -> same_but_cache r1 r1').
Proof.
  intros Ho W1 W2 [c0 ->] Hok. destruct c as [a b ds|a b ds|a b|a|a|]; cbn [rstep call_names] in *.
  - assert (Ha : okname (rm_matcher r1) a) by (apply Hok; cbn; auto).
    assert (Hb : okname (rm_matcher r1) b) by (apply Hok; cbn; auto).
    destruct (AddLink_pure ord r1 a b ds Ho W1 Ha Hb) as [c1 [-> G1]].
    destruct (AddLink_pure ord _ a b ds Ho W2 Ha Hb) as [c2 [-> G2]]. cbn [obind].
    destruct (padd_spec ord r1 a b ds c1 Ho W1 Ha Hb G1) as [A1 _].
    destruct (padd_spec ord _ a b ds c2 Ho W2 Ha Hb G2) as [A2 _].
    do 3 eexists. split; [reflexivity|]. split; [reflexivity|]. split; [exact A1|]. split; [exact A2|].
    split; [now exists c2|]. cbn. tauto.
  - assert (Ha : okname (rm_matcher r1) a) by (apply Hok; cbn; auto).
    assert (Hb : okname (rm_matcher r1) b) by (apply Hok; cbn; auto).
    destruct (DeleteLink_pure ord r1 a b ds Ho W1 Ha Hb) as [c1 [-> G1]].
    destruct (DeleteLink_pure ord _ a b ds Ho W2 Ha Hb) as [c2 [-> G2]]. cbn [obind].
    destruct (pdel_spec ord r1 a b ds c1 Ho W1 Ha Hb G1) as [A1 _].
    destruct (pdel_spec ord _ a b ds c2 Ho W2 Ha Hb G2) as [A2 _].
    do 3 eexists. split; [reflexivity|]. split; [reflexivity|]. split; [exact A1|]. split; [exact A2|].
    split; [now exists c2|]. cbn. tauto.
  - assert (Ha : okname (rm_matcher r1) a) by (apply Hok; cbn; auto).
    assert (Hb : okname (rm_matcher r1) b) by (apply Hok; cbn; auto).
    destruct (HasLink_pure ord r1 a b Ho W1 Ha Hb) as [c1 [-> G1]].
    destruct (HasLink_pure ord _ a b Ho W2 Ha Hb) as [c2 [-> G2]]. cbn [obind].
    do 3 eexists. split; [reflexivity|]. split; [reflexivity|].
    split; [now apply wf_with_cache|]. split; [now apply wf_with_cache|].
    split; [now exists c2|]. cbn. split; [reflexivity|]. split; [reflexivity|]. intros _. now exists c1.
  - assert (Ha : okname (rm_matcher r1) a) by (apply Hok; cbn; auto).
    destruct (GetRoles_pure ord r1 a Ho W1 Ha) as [c1 [-> G1]].
    destruct (GetRoles_pure ord _ a Ho W2 Ha) as [c2 [-> G2]]. cbn [obind].
    do 3 eexists. split; [reflexivity|]. split; [reflexivity|].
    split; [now apply wf_with_cache|]. split; [now apply wf_with_cache|].
    split; [now exists c2|]. cbn. split; [reflexivity|]. split; [reflexivity|]. intros _. now exists c1.
  - assert (Ha : okname (rm_matcher r1) a) by (apply Hok; cbn; auto).
    destruct (GetUsers_pure ord r1 a Ho W1 Ha) as [c1 [-> G1]].
    destruct (GetUsers_pure ord _ a Ho W2 Ha) as [c2 [-> G2]]. cbn [obind].
    do 3 eexists. split; [reflexivity|]. split; [reflexivity|].
    split; [now apply wf_with_cache|]. split; [now apply wf_with_cache|].
    split; [now exists c2|]. cbn. split; [reflexivity|]. split; [reflexivity|]. intros _. now exists c1.
  - do 3 eexists. split; [reflexivity|]. split; [reflexivity|].
    split; [now apply wf_clear|]. split; [now apply wf_clear|].
    split; [now exists (NewLRUCache 100)|]. cbn. tauto.
Qed.

Lemma same_refl r : same_but_cache r r.
Proof. exists (rm_cache r). now destruct r. Qed.
Lemma same_trans a b c : same_but_cache a b -> same_but_cache b c -> same_but_cache a c.
Proof. intros [x ->] [y ->]. now exists y. Qed.
Lemma same_sym a b : same_but_cache a b -> same_but_cache b a.
Proof. intros [x ->]. exists (rm_cache a). now destruct a. Qed.

Definition hist_ok (m : option imatcher) (h : list (order * rcall)) : Prop :=
  good h /\ forall n, In n (mentioned h) -> okname m n.

Lemma hist_ok_cons m o c h : hist_ok m ((o, c) :: h) -> good_order o /\ call_ok m c /\ hist_ok m h.
Proof.
  intros [Hg Hn]. inversion Hg as [|? ? Ho Hg']; subst. split; [exact Ho|]. split.
  - intros n H. apply Hn. cbn. apply in_or_app. now left.
  - split; [exact Hg'|]. intros n H. apply Hn. cbn. apply in_or_app. now right.
Qed.
Lemma hist_ok_app m h1 h2 : hist_ok m (h1 ++ h2) <-> hist_ok m h1 /\ hist_ok m h2.
Proof.
  unfold hist_ok, good, mentioned. rewrite Forall_app, flat_map_app. setoid_rewrite in_app_iff. intuition.
Qed.

Lemma rexec_same h : forall r1 r2, wf r1 -> wf r2 -> same_but_cache r1 r2 -> hist_ok (rm_matcher r1) h ->
  exists r1' r2' xs, rexec r1 h = Val (r1', xs) /\ rexec r2 h = Val (r2', xs) /\ List.length xs = List.length h /\
    wf r1' /\ wf r2' /\ same_but_cache r1' r2' /\ rm_matcher r1' = rm_matcher r1 /\ rm_level r1' = rm_level r1 /\
    (Forall (fun c => is_query (snd c)) h -> same_but_cache r1 r1').
Proof.
  induction h as [|[o c] h IH]; intros r1 r2 W1 W2 Hs Hok; cbn [rexec].
  - exists r1, r2, []. split; [reflexivity|]. split; [reflexivity|]. split; [reflexivity|].
    split; [exact W1|]. split; [exact W2|]. split; [exact Hs|]. split; [reflexivity|]. split; [reflexivity|].
    intros _. apply same_refl.
  - apply hist_ok_cons in Hok as [Ho [Hc Hok]].
    destruct (rstep_same o r1 r2 c Ho W1 W2 Hs Hc) as [r1' [r2' [x [-> [-> [W1' [W2' [Hs' [Hm [Hl Hq]]]]]]]]]].
    cbn [obind]. rewrite <- Hm in Hok.
    destruct (IH r1' r2' W1' W2' Hs' Hok) as [r1'' [r2'' [xs [-> [-> [Hlen [A [B [D [E [F G]]]]]]]]]]].
    cbn [obind]. exists r1'', r2'', (x :: xs). split; [reflexivity|]. split; [reflexivity|].
    split; [cbn; now rewrite Hlen|]. split; [exact A|]. split; [exact B|]. split; [exact D|].
    split; [congruence|]. split; [congruence|]. intros Hf. inversion Hf; subst.
    eapply same_trans; [apply Hq; assumption|]. now apply G.
Qed.

Lemma rexec_app h1 : forall r h2,
  rexec r (h1 ++ h2) = (let! (r1, xs) := rexec r h1 in let! (r2, ys) := rexec r1 h2 in Val (r2, xs ++ ys)).
Proof.
  induction h1 as [|[o c] h1 IH]; intros r h2; cbn [app rexec].
  - cbn [obind]. destruct (rexec r h2) as [[r2 ys]|]; reflexivity.
  - destruct (rstep o r c) as [[r' x]|]; cbn [obind]; [|reflexivity]. rewrite IH.
    destruct (rexec r' h1) as [[r1 xs]|]; cbn [obind]; [|reflexivity].
    destruct (rexec r1 h2) as [[r2 ys]|]; reflexivity.
Qed.

(** ** The links and names behind a history *)
Record holds (N : string -> Prop) (rm : rolemgr) (L : linkset) (K : nameset) : Prop := mkHolds {
  h_wf : wf rm;
  h_links : forall a b, In b (rl (rm_all rm) a) <-> L a b = true;
  h_names : forall n, known n (rm_all rm) <-> K n = true;
  h_N : forall n, K n = true -> N n;
  h_pats : forall p, In p (rm_patterns rm) <-> K p = true /\ is_pat (rm_matcher rm) p = true;
  h_mt : forall p x, In x (mt (rm_all rm) p) <->
           K p = true /\ K x = true /\ p <> x /\ is_pat (rm_matcher rm) p = true /\ pmatch (rm_matcher rm) x p = true
}.

(** Allowed names: fit for the cache, patterns apart. *)
Record allowed (m : option imatcher) (N : string -> Prop) : Prop := mkAllowed {
  a_ok : forall n, N n -> okname m n;
  a_apart : forall p q, N p -> N q -> p <> q -> is_pat m p = true -> is_pat m q = true -> pmatch m q p = false
}.

Lemma holds_start N level m : holds N (newRoleManagerWithMatchingFunc level m) no_links no_names.
Proof.
  constructor; cbn.
  - apply wf_start.
  - intros a b. split; [intros []|discriminate].
  - intros n. split; [intros []|discriminate].
  - discriminate.
  - intros p. split; [intros []|intros [H _]; discriminate].
  - intros p x. split; [intros []|intros [H _]; discriminate].
Qed.

Lemma holds_with_cache N rm L K c : holds N rm L K -> cache_ok (rm_matcher rm) c -> holds N (with_cache rm c) L K.
Proof. intros [A B D E F G] H. constructor; auto. now apply wf_with_cache. Qed.

Lemma name_add_true a K n : name_add a K n = true <-> n = a \/ K n = true.
Proof. unfold name_add. rewrite orb_true_iff, String.eqb_eq. tauto. Qed.

Lemma holds_get N rm L K ord a c :
  allowed (rm_matcher rm) N -> good_order ord -> holds N rm L K -> N a -> cache_ok (rm_matcher rm) c ->
  holds N (rm_of (rm_matcher rm) (rm_level rm) (fullget ord rm a) c) L (name_add a K).
Proof.
  intros HA Ho H Ha Hc. pose proof (h_wf _ _ _ _ H) as W.
  destruct (fullget_cases ord rm a Ho W) as [[Hk E]|[Hk E]].
  - rewrite E. cbn. assert (HK : K a = true) by now apply (h_names _ _ _ _ H).
    assert (EK : forall n, name_add a K n = true <-> K n = true).
    { intros n. rewrite name_add_true. intuition. now subst. }
    constructor; cbn.
    + destruct W; constructor; auto.
    + apply H.
    + intros n. rewrite EK. apply H.
    + intros n. rewrite EK. apply H.
    + intros p. rewrite EK. apply H.
    + intros p x. rewrite !EK. apply H.
  - constructor; cbn.
    + apply wf_fullget; auto. now apply HA.
    + intros x y. rewrite (e_rl _ _ _ _ _ _ E). apply H.
    + intros n. rewrite name_add_true, <- (h_names _ _ _ _ H). now apply known_fullget.
    + intros n. rewrite name_add_true. intros [->|Hn]; [exact Ha|now apply H].
    + intros p. rewrite (e_pats _ _ _ _ _ _ E), name_add_true.
      pose proof (h_pats _ _ _ _ H p) as Hp.
      destruct (is_pat (rm_matcher rm) a) eqn:Ea; [rewrite sadd_In|]; rewrite Hp; intuition; subst; auto; congruence.
    + intros p x. rewrite (e_new _ _ _ _ _ _ E), (h_mt _ _ _ _ H), !name_add_true.
      rewrite (h_names _ _ _ _ H x), (h_pats _ _ _ _ H p). split.
      * intros [?|[[-> [? [? [? ?]]]]|[-> [? [? [[? ?] ?]]]]]]; intuition.
      * intros [Hp [Hx [Hne [Hpat Hm]]]]. destruct Hp as [->|Hp], Hx as [->|Hx]; [contradiction|tauto| |tauto].
        right; right. split; [reflexivity|]. split; [exact Hne|].
        destruct (is_pat (rm_matcher rm) a) eqn:Ea; [|tauto].
        rewrite (a_apart _ _ HA p a) in Hm; auto; [discriminate|now apply H].
Qed.

Lemma holds_get2 N rm L K ord a b c :
  allowed (rm_matcher rm) N -> good_order ord -> holds N rm L K -> N a -> N b -> cache_ok (rm_matcher rm) c ->
  holds N (rm_of (rm_matcher rm) (rm_level rm) (get2 ord (rm_matcher rm) (state rm) a b) c) L
        (name_add b (name_add a K)).
Proof.
  intros HA Ho H Ha Hb Hc. pose proof (holds_get N rm L K ord a c HA Ho H Ha Hc) as H1.
  exact (holds_get N (rm_of (rm_matcher rm) (rm_level rm) (fullget ord rm a) c) L (name_add a K) ord b c HA Ho H1 Hb Hc).
Qed.

Lemma L_of N rm L K a b : holds N rm L K -> sin b (rl (rm_all rm) a) = L a b.
Proof.
  intros H. destruct (L a b) eqn:E.
  - apply sin_In. now apply (h_links _ _ _ _ H).
  - apply sin_false. rewrite (h_links _ _ _ _ H). congruence.
Qed.

(** One call. *)
Lemma holds_step N rm L K ord c :
  allowed (rm_matcher rm) N -> good_order ord -> holds N rm L K -> (forall n, In n (call_names c) -> N n) ->
  exists rm' x, rstep ord rm c = Val (rm', x) /\ holds N rm' (links_step L c) (names_step K c) /\
    rm_matcher rm' = rm_matcher rm /\ rm_level rm' = rm_level rm /\
    (forall a b ds, c = RAdd a b ds -> x = ABool (negb (L a b))) /\
    (forall a b ds, c = RDel a b ds -> x = ABool (L a b)).
Proof.
  intros HA Ho H Hn. pose proof (h_wf _ _ _ _ H) as W.
  assert (Hok : forall n, In n (call_names c) -> okname (rm_matcher rm) n) by (intros; apply HA, Hn; assumption).
  destruct c as [a b ds|a b ds|a b|a|a|]; cbn [rstep call_names links_step names_step] in *.
  - assert (Ha : N a) by (apply Hn; cbn; auto). assert (Hb : N b) by (apply Hn; cbn; auto).
    destruct (AddLink_pure ord rm a b ds Ho W (a_ok _ _ HA _ Ha) (a_ok _ _ HA _ Hb)) as [c1 [-> G1]]. cbn [obind].
    pose proof (holds_get2 N rm L K ord a b c1 HA Ho H Ha Hb (w_cache _ G1)) as H2.
    destruct (padd_spec ord rm a b ds c1 Ho W (a_ok _ _ HA _ Ha) (a_ok _ _ HA _ Hb) G1)
      as [W3 [P3 [K3 [S3 [L3 [M3 _]]]]]].
    do 2 eexists. split; [reflexivity|]. split; [|split; [reflexivity|split; [reflexivity|split]]].
    + constructor; cbn [rm_of rm_all rm_patterns rm_matcher].
      * exact W3.
      * intros x y. rewrite L3. unfold link_add. rewrite orb_true_iff, andb_true_iff, !String.eqb_eq.
        pose proof (h_links _ _ _ _ H2 x y) as Hl. cbn [rm_of rm_all] in Hl. rewrite Hl. tauto.
      * intros n. unfold known. rewrite K3. apply (h_names _ _ _ _ H2).
      * apply (h_N _ _ _ _ H2).
      * intros p. rewrite P3. apply (h_pats _ _ _ _ H2).
      * intros p x. destruct (M3 p) as [-> _]. apply (h_mt _ _ _ _ H2).
    + intros a' b' ds' [= <- <- <-]. f_equal. rewrite S3. f_equal. apply (L_of _ _ _ _ _ _ H2).
    + discriminate.
  - assert (Ha : N a) by (apply Hn; cbn; auto). assert (Hb : N b) by (apply Hn; cbn; auto).
    destruct (DeleteLink_pure ord rm a b ds Ho W (a_ok _ _ HA _ Ha) (a_ok _ _ HA _ Hb)) as [c1 [-> G1]]. cbn [obind].
    pose proof (holds_get2 N rm L K ord a b c1 HA Ho H Ha Hb (w_cache _ G1)) as H2.
    destruct (pdel_spec ord rm a b ds c1 Ho W (a_ok _ _ HA _ Ha) (a_ok _ _ HA _ Hb) G1)
      as [W3 [P3 [K3 [S3 [L3 [M3 _]]]]]].
    do 2 eexists. split; [reflexivity|]. split; [|split; [reflexivity|split; [reflexivity|split]]].
    + constructor; cbn [rm_of rm_all rm_patterns rm_matcher].
      * exact W3.
      * intros x y. rewrite L3. unfold link_del. rewrite andb_true_iff, negb_true_iff.
        pose proof (h_links _ _ _ _ H2 x y) as Hl. cbn [rm_of rm_all] in Hl. rewrite Hl.
        rewrite andb_false_iff, !String.eqb_neq.
        destruct (string_dec x a), (string_dec y b); intuition.
      * intros n. unfold known. rewrite K3. apply (h_names _ _ _ _ H2).
      * apply (h_N _ _ _ _ H2).
      * intros p. rewrite P3. apply (h_pats _ _ _ _ H2).
      * intros p x. destruct (M3 p) as [-> _]. apply (h_mt _ _ _ _ H2).
    + discriminate.
    + intros a' b' ds' [= <- <- <-]. f_equal. rewrite S3. apply (L_of _ _ _ _ _ _ H2).
  - destruct (HasLink_pure ord rm a b Ho W) as [c1 [-> G1]]; [apply Hok; cbn; auto..|]. cbn [obind].
    do 2 eexists. split; [reflexivity|]. split; [now apply holds_with_cache|].
    split; [reflexivity|]. split; [reflexivity|]. split; discriminate.
  - destruct (GetRoles_pure ord rm a Ho W) as [c1 [-> G1]]; [apply Hok; cbn; auto..|]. cbn [obind].
    do 2 eexists. split; [reflexivity|]. split; [now apply holds_with_cache|].
    split; [reflexivity|]. split; [reflexivity|]. split; discriminate.
  - destruct (GetUsers_pure ord rm a Ho W) as [c1 [-> G1]]; [apply Hok; cbn; auto..|]. cbn [obind].
    do 2 eexists. split; [reflexivity|]. split; [now apply holds_with_cache|].
    split; [reflexivity|]. split; [reflexivity|]. split; discriminate.
  - do 2 eexists. split; [reflexivity|]. split; [apply holds_start|].
    split; [reflexivity|]. split; [reflexivity|]. split; discriminate.
Qed.

Lemma holds_exec N h : forall rm L K,
  allowed (rm_matcher rm) N -> good h -> holds N rm L K -> (forall n, In n (mentioned h) -> N n) ->
  exists rm' xs, rexec rm h = Val (rm', xs) /\
    holds N rm' (fold_left links_step (map snd h) L) (fold_left names_step (map snd h) K) /\
    rm_matcher rm' = rm_matcher rm /\ rm_level rm' = rm_level rm.
Proof.
  induction h as [|[o c] h IH]; intros rm L K HA Hg H Hn; cbn [rexec map fold_left snd].
  - exists rm, []. auto.
  - inversion Hg as [|? ? Ho Hg']; subst.
    destruct (holds_step N rm L K o c HA Ho H) as [rm1 [x [-> [H1 [Hm [Hl _]]]]]].
    { intros n Hi. apply Hn. cbn. apply in_or_app. now left. }
    cbn [obind]. rewrite <- Hm in HA.
    destruct (IH rm1 _ _ HA Hg' H1) as [rm2 [xs [-> [H2 [Hm2 Hl2]]]]].
    { intros n Hi. apply Hn. cbn. apply in_or_app. now right. }
    cbn [obind]. exists rm2, (x :: xs). split; [reflexivity|]. split; [exact H2|]. split; congruence.
Qed.

(** ** What the queries answer *)
Lemma chain_iff (E E' : string -> string -> Prop) (Q : string -> Prop) :
  (forall u v, Q u -> (E u v <-> E' u v)) -> (forall u v, Q u -> E u v -> Q v) ->
  forall k a x, Q a -> (chain E k a x <-> chain E' k a x).
Proof.
  intros H1 H2. induction k as [|k IH]; intros a x Ha.
  - split; intros H; inversion H; subst; constructor.
  - split; intros H; inversion H as [|? ? b ? Hab Hch]; subst; apply (chain_S _ k a b x).
    + now apply H1. + apply IH; [eapply H2; eassumption|exact Hch].
    + now apply H1. + apply IH; [eapply H2; [exact Ha|now apply H1]|exact Hch].
Qed.

Definition estep (m : option imatcher) (L : linkset) (K : nameset) (u v : string) : Prop :=
  match m with None => L u v = true | Some mm => pstep mm L K u v end.

Lemma holds_link_known N rm L K a b : holds N rm L K -> L a b = true -> K a = true /\ K b = true.
Proof.
  intros H E. apply (h_links _ _ _ _ H) in E. apply (core_rl_known _ _ (w_core _ (h_wf _ _ _ _ H))) in E.
  split; now apply (h_names _ _ _ _ H).
Qed.

Lemma range_estep N rm L K ord u v :
  good_order ord -> holds N rm L K -> K u = true ->
  In v (rangeRoles ord (rm_all rm) u) <-> estep (rm_matcher rm) L K u v.
Proof.
  intros Ho H Hu. rewrite rangeRoles_In by exact Ho. rewrite (h_links _ _ _ _ H).
  pose proof (h_mt _ _ _ _ H) as Hmt. unfold estep. destruct (rm_matcher rm) as [mm|] eqn:Em; cbn in Hmt.
  - split.
    + intros [E|[[p [Hp Hx]]|[p [Hp Hx]]]].
      * now apply step_link.
      * apply Hmt in Hx. apply (h_links _ _ _ _ H) in Hp. apply (step_to_pattern _ _ _ _ _ p); unfold covers; tauto.
      * apply (c_msym _ _ (w_core _ (h_wf _ _ _ _ H))) in Hp. apply Hmt in Hp. apply (h_links _ _ _ _ H) in Hx.
        apply (step_from_pattern _ _ _ _ _ p); unfold covers; tauto.
    + intros [E|p E [Hne [Hip Hma]] Hv|p [Hne [Hip Hma]] E]; [now left|right; left|right; right].
      * exists p. split; [now apply (h_links _ _ _ _ H)|]. apply Hmt. pose proof (holds_link_known _ _ _ _ _ _ H E). tauto.
      * exists p. split; [|now apply (h_links _ _ _ _ H)]. apply (c_msym _ _ (w_core _ (h_wf _ _ _ _ H))).
        apply Hmt. pose proof (holds_link_known _ _ _ _ _ _ H E). tauto.
  - split; [|auto]. intros [E|[[p [Hp Hx]]|[p [Hp Hx]]]]; [exact E| |].
    + apply Hmt in Hx. intuition discriminate.
    + apply (c_msym _ _ (w_core _ (h_wf _ _ _ _ H))) in Hp. apply Hmt in Hp. intuition discriminate.
Qed.

Lemma pmatch_hits m x t : (String.eqb t x || pmatch m x t = true) <-> hits m x t.
Proof.
  rewrite orb_true_iff, String.eqb_eq. unfold hits, pmatch. destruct m as [mm|].
  - split; [intros [->|H]; eauto|intros [->|[m' [[= <-] H]]]; auto].
  - split; [intros [->|H]; [auto|discriminate]|intros [->|[m' [H _]]]; [auto|discriminate]].
Qed.

Lemma HasLink_holds N rm L K ord a b :
  allowed (rm_matcher rm) N -> good_order ord -> holds N rm L K -> N a -> N b ->
  exists rm' x, rm_HasLink ord rm a b = Val (rm', x) /\
    (x = true <-> hits (rm_matcher rm) a b \/
       exists k y, (Z.of_nat k < rm_level rm)%Z /\
         chain (estep (rm_matcher rm) L (name_add b (name_add a K))) k a y /\ hits (rm_matcher rm) y b).
Proof.
  intros HA Ho H Ha Hb. pose proof (h_wf _ _ _ _ H) as W.
  destruct (HasLink_pure ord rm a b Ho W (a_ok _ _ HA _ Ha) (a_ok _ _ HA _ Hb)) as [c' [-> Hc']].
  do 2 eexists. split; [reflexivity|]. unfold phas.
  rewrite (String.eqb_sym a b). pose proof (pmatch_hits (rm_matcher rm) a b) as Hh.
  destruct (String.eqb b a || pmatch (rm_matcher rm) a b) eqn:E.
  { split; [left; now apply Hh|reflexivity]. }
  rewrite phelper_spec by exact Ho.
  pose proof (holds_get2 N rm L K ord a b c' HA Ho H Ha Hb Hc') as H2.
  assert (Hch : forall k y, chain (fun u v => In v (rangeRoles ord (fst (get2 ord (rm_matcher rm) (state rm) a b)) u)) k a y
                <-> chain (estep (rm_matcher rm) L (name_add b (name_add a K))) k a y).
  { intros k y. apply chain_iff with (Q := fun n => name_add b (name_add a K) n = true).
    - intros u v Hu. apply (range_estep _ _ _ _ ord u v Ho H2 Hu).
    - intros u v Hu Huv. apply (h_names _ _ _ _ H2).
      eapply rangeRoles_known; [exact Ho|apply (w_core _ (h_wf _ _ _ _ H2))|exact Huv].
    - rewrite !name_add_true. auto. }
  split.
  - intros [k [r [y [Hk [[<-|[]] [Hc Hf]]]]]]. right. exists k, y. split; [lia|].
    split; [now apply Hch|now apply pmatch_hits].
  - intros [Hhit|[k [y [Hk [Hc Hf]]]]]; [apply Hh in Hhit; discriminate|].
    exists k, a, y. split; [lia|]. split; [now left|]. split; [now apply Hch|now apply pmatch_hits].
Qed.

Lemma GetRoles_holds N rm L K ord a :
  allowed (rm_matcher rm) N -> good_order ord -> holds N rm L K -> N a ->
  exists rm' l, rm_GetRoles ord rm a = Val (rm', l) /\
    forall b, In b l <-> estep (rm_matcher rm) L (name_add a K) a b.
Proof.
  intros HA Ho H Ha. pose proof (h_wf _ _ _ _ H) as W.
  destruct (GetRoles_pure ord rm a Ho W (a_ok _ _ HA _ Ha)) as [c' [-> Hc']].
  do 2 eexists. split; [reflexivity|]. intros b.
  pose proof (holds_get N rm L K ord a c' HA Ho H Ha Hc') as H1.
  apply (range_estep _ _ _ _ ord a b Ho H1). apply name_add_true. auto.
Qed.
