(** Without domain matcher the tree behaves like a family of independent role
    managers, one for each place. *)
From Verif Require Import GoBase GoBaseP PolicyM CacheM CacheSpec PathM RbacM RbacSpec RbacP RbacP2 RbacP3 RbacP4 DomainM DomainSpec DomainP.

Definition family := list string -> rolemgr.
Definition fput (p : list string) (rm : rolemgr) (R : family) : family := fun q => if path_eqb q p then rm else R q.

Definition fstep (ord : order) (R : family) (c : dcall) : outcome (family * answer) :=
  match call_domains c with
  | Some ds => let p := fst (place ds) in
               let! (rm, a) := rstep ord (R p) (translate c) in Val (fput p rm R, a)
  | None => Val (fun q => rm_Clear (R q), AUnit)
  end.
Fixpoint fexec (R : family) (h : list (order * dcall)) : outcome (family * list answer) :=
  match h with
  | [] => Val (R, [])
  | (ord, c) :: h' => let! (R, a) := fstep ord R c in let! (R, l) := fexec R h' in Val (R, a :: l)
  end.

Record rel (m : option imatcher) (level : Z) (x : irm) (R : family) : Prop := mkRel {
  r_tok : tok m x level;
  r_wf : forall p, wf (current m level p x);
  r_wf' : forall p, wf (R p);
  r_same : forall p, same_but_cache (current m level p x) (R p);
  r_m : forall p, rm_matcher (R p) = m;
  r_lv : forall p, rm_level (R p) = (level - 1 - Z.of_nat (List.length p))%Z
}.

Lemma i_at_map {A B} (g : A -> B) f store n : forall x ds,
  i_at (fun ds rm => let! (rm, a) := f ds rm in Val (rm, g a)) store n x ds =
  (let! (x, a) := i_at f store n x ds in Val (x, g a)).
Proof.
  induction n as [|n IH]; intros [rm|d] ds; cbn [i_at].
  - destruct (f ds rm) as [[? ?]|]; reflexivity.
  - reflexivity.
  - destruct (f ds rm) as [[? ?]|]; reflexivity.
  - destruct (getDomain ds) as [domain sub].
    destruct (mget domain (d_map d)) as [x|]; rewrite IH.
    + destruct (i_at f store n x sub) as [[? ?]|]; reflexivity.
    + destruct (i_at f store n (new_manager d domain) sub) as [[? ?]|]; reflexivity.
Qed.

(** What a call does at its place. *)
Definition leaf (ord : order) (c : dcall) (sub : list string) (rm : rolemgr) : outcome (rolemgr * answer) :=
  match c with
  | DAdd a b _ => rstep ord rm (RAdd a b sub)
  | DDel a b _ => rstep ord rm (RDel a b sub)
  | _ => rstep ord rm (without_domains c)
  end.
Definition stores (c : dcall) : bool := match c with DAdd _ _ _ | DDel _ _ _ => true | _ => false end.

Lemma dstep_at m level ord x c ds : tok m x level -> call_domains c = Some ds ->
  dstep ord x c = i_at (leaf ord c) (stores c) (fuel x ds) x ds.
Proof.
  intros H E. assert (H' : tok' m x level) by now right.
  destruct c; cbn in E; try discriminate; injection E as ->;
    cbn [dstep stores]; unfold leaf; cbn [rstep without_domains].
  - unfold i_Add. rewrite (AddLink_at m ord a b _ x level ds H'). symmetry. exact (i_at_map ABool (fun ds rm => rm_AddLink ord rm a b ds) _ _ _ _).
  - unfold i_Del. rewrite (DeleteLink_at m ord a b _ x level ds H'). symmetry. exact (i_at_map ABool (fun ds rm => rm_DeleteLink ord rm a b ds) _ _ _ _).
  - unfold i_Has. rewrite (query_at _ m ord _ x level ds H'). symmetry. exact (i_at_map ABool (fun ds rm => rm_HasLink ord rm a b) _ _ _ _).
  - unfold i_Roles. rewrite (query_at _ m ord _ x level ds H'). symmetry. exact (i_at_map ANames (fun ds rm => rm_GetRoles ord rm a) _ _ _ _).
  - unfold i_Users. rewrite (query_at _ m ord _ x level ds H'). symmetry. exact (i_at_map ANames (fun ds rm => rm_GetUsers ord rm a) _ _ _ _).
Qed.

Lemma leaf_place ord c ds rm : call_domains c = Some ds ->
  leaf ord c (snd (place ds)) rm = rstep ord rm (translate c).
Proof. destruct c; cbn; intros [= ->]; reflexivity. Qed.

Lemma names_translate c : call_names (translate c) = call_names (without_domains c).
Proof. now destruct c. Qed.
Lemma query_translate c : stores c = false -> c <> DClear -> is_query (translate c).
Proof. destruct c; cbn; easy. Qed.

Lemma lookup_clear m d level p : tok m (IDom d) level -> lookup p (IDom (dm_Clear d)) = None.
Proof. intros _. unfold dm_Clear. apply lookup_empty. Qed.

Lemma dstep_rel m level ord x R c :
  rel m level x R -> good_order ord -> (forall n, In n (call_names (without_domains c)) -> okname m n) ->
  exists x' R' a, dstep ord x c = Val (x', a) /\ fstep ord R c = Val (R', a) /\ rel m level x' R' /\
    (is_dquery c -> rel m level x' R).
Proof.
  intros HR Ho Hn. pose proof (r_tok _ _ _ _ HR) as HT. unfold fstep.
  destruct (call_domains c) as [ds|] eqn:Ec.
  - set (p := fst (place ds)).
    destruct (rstep_same ord (current m level p x) (R p) (translate c) Ho (r_wf _ _ _ _ HR p) (r_wf' _ _ _ _ HR p) (r_same _ _ _ _ HR p))
      as [s1 [s2 [a [E1 [E2 [W1 [W2 [Hs [Em [El Hq]]]]]]]]]].
    { intros n. rewrite names_translate. intros H. apply Hn in H.
      destruct (r_same _ _ _ _ HR p) as [cc Hc]. pose proof (r_m _ _ _ _ HR p) as Hm. rewrite Hc in Hm. cbn in Hm. now rewrite Hm. }
    rewrite (dstep_at m level ord x c ds HT Ec), E2. cbn [obind].
    pose proof (at_spec (leaf ord c) (stores c) m (fuel x ds) ds x level HT) as Hat.
    assert (Hf : List.length ds < fuel x ds) by (unfold fuel; lia). specialize (Hat Hf).
    rewrite (leaf_place ord c ds _ Ec) in Hat. fold p in Hat. rewrite E1 in Hat.
    destruct Hat as [x' [Ei [Tx' Hl]]].
    exists x', (fput p s2 R), a. split; [exact Ei|]. split; [reflexivity|].
    assert (Hcur : forall q, current m level q x' = if path_eqb q p && (stores c || is_some (lookup p x)) then s1 else current m level q x).
    { intros q. unfold current. rewrite Hl. now destruct (path_eqb q p && (stores c || is_some (lookup p x))). }
    assert (Hcne : c <> DClear) by (intros ->; discriminate).
    assert (Hsame : forall q, path_eqb q p = true -> same_but_cache (current m level q x') s1).
    { intros q Hqp. rewrite Hcur, Hqp. cbn [andb]. apply path_eqb_true in Hqp. subst q.
      destruct (stores c || is_some (lookup p x)) eqn:E; [apply same_refl|].
      apply orb_false_iff in E as [E _]. apply Hq. now apply query_translate. }
    assert (Hmm : rm_matcher s2 = m /\ rm_level s2 = (level - 1 - Z.of_nat (List.length p))%Z).
    { destruct Hs as [cc ->]. cbn. rewrite Em, El. destruct (r_same _ _ _ _ HR p) as [c2 Hc2].
      pose proof (r_m _ _ _ _ HR p) as A. pose proof (r_lv _ _ _ _ HR p) as B. rewrite Hc2 in A, B. cbn in A, B. auto. }
    split.
    + constructor; auto.
      * intros q. rewrite Hcur. destruct (path_eqb q p && _); [exact W1|apply HR].
      * intros q. unfold fput. destruct (path_eqb q p); [exact W2|apply HR].
      * intros q. unfold fput. destruct (path_eqb q p) eqn:E; [apply same_trans with s1; [now apply Hsame|exact Hs]|].
        rewrite Hcur, E. apply HR.
      * intros q. unfold fput. destruct (path_eqb q p); [apply Hmm|apply HR].
      * intros q. unfold fput. destruct (path_eqb q p) eqn:E; [apply path_eqb_true in E; subst q; apply Hmm|apply HR].
    + intros Hd. assert (Hq' : is_query (translate c)) by (apply query_translate; [now destruct c|exact Hcne]).
      constructor; auto; try (intros q; apply HR).
      * intros q. rewrite Hcur. destruct (path_eqb q p && _); [exact W1|apply HR].
      * intros q. destruct (path_eqb q p) eqn:E.
        -- apply same_trans with s1; [now apply Hsame|]. apply path_eqb_true in E. subst q.
           apply same_trans with (current m level p x); [apply same_sym, Hq, Hq'|apply HR].
        -- rewrite Hcur, E. apply HR.
  - destruct c; try discriminate. cbn [dstep].
    inversion HT as [d H1 H2 H3 H4]; subst. cbn [i_Clear].
    assert (Hcur : forall p, current (d_matcher d) (d_level d) p (IDom (dm_Clear d)) = fresh (d_matcher d) (d_level d) p).
    { intros p. unfold current. now rewrite (lookup_clear (d_matcher d) d (d_level d)). }
    exists (IDom (dm_Clear d)), (fun q => rm_Clear (R q)), AUnit. split; [reflexivity|]. split; [reflexivity|].
    split; [|intros []]. constructor.
    + apply (tok_dom (d_matcher d) (dm_Clear d)); cbn; auto; discriminate.
    + intros p. rewrite Hcur. apply wf_start.
    + intros p. apply wf_clear, HR.
    + intros p. rewrite Hcur. unfold rm_Clear. rewrite (r_m _ _ _ _ HR p), (r_lv _ _ _ _ HR p). apply same_refl.
    + intros p. apply HR.
    + intros p. apply HR.
Qed.

Definition fine_d (m : option imatcher) (h : list (order * dcall)) : Prop :=
  forall n, In n (mentioned_d h) -> okname m n.

Lemma dexec_rel m level h : forall x R, rel m level x R -> good_d h -> fine_d m h ->
  exists x' R' l, dexec x h = Val (x', l) /\ fexec R h = Val (R', l) /\ rel m level x' R' /\
    List.length l = List.length h /\ (Forall (fun c => is_dquery (snd c)) h -> rel m level x' R).
Proof.
  induction h as [|[o c] h IH]; intros x R HR Hg Hf; cbn [dexec fexec].
  - exists x, R, []. auto.
  - inversion Hg as [|? ? Ho Hg']; subst. cbn in Ho.
    destruct (dstep_rel m level o x R c HR Ho) as [x1 [R1 [a [E1 [E2 [HR1 Hq1]]]]]].
    { intros n H. apply Hf. cbn. apply in_or_app. now left. }
    destruct (IH x1 R1 HR1 Hg') as [x2 [R2 [l [E3 [E4 [HR2 [Hl Hq2]]]]]]].
    { intros n H. apply Hf. cbn. apply in_or_app. now right. }
    exists x2, R2, (a :: l). rewrite E1, E2. cbn [obind]. rewrite E3, E4. cbn [obind].
    split; [reflexivity|]. split; [reflexivity|]. split; [exact HR2|]. split; [cbn; now rewrite Hl|].
    intros H. inversion H as [|? ? Hc Hh]; subst. cbn in Hc.
    destruct (IH x1 R (Hq1 Hc) Hg') as [x3 [R3 [l3 [E5 [_ [_ [_ Hq3]]]]]]].
    { intros n Hi. apply Hf. cbn. apply in_or_app. now right. }
    rewrite E3 in E5. injection E5 as <- <-. now apply Hq3.
Qed.

Lemma rel_start m level : rel m level (domains_with level m None) (fresh m level).
Proof.
  assert (Hc : forall p, current m level p (domains_with level m None) = fresh m level p).
  { intros p. unfold current, domains_with. now rewrite lookup_empty. }
  constructor; [apply tok_start| | | | |]; intros p; rewrite ?Hc; try reflexivity; try apply wf_start. apply same_refl.
Qed.

Lemma fexec_app h1 : forall R h2,
  fexec R (h1 ++ h2) = (let! (R1, xs) := fexec R h1 in let! (R2, ys) := fexec R1 h2 in Val (R2, xs ++ ys)).
Proof.
  induction h1 as [|[o c] h1 IH]; intros r h2; cbn [app fexec].
  - cbn [obind]. destruct (fexec r h2) as [[r2 ys]|]; reflexivity.
  - destruct (fstep o r c) as [[r' x]|]; cbn [obind]; [|reflexivity]. rewrite IH.
    destruct (fexec r' h1) as [[r1 xs]|]; cbn [obind]; [|reflexivity].
    destruct (fexec r1 h2) as [[r2 ys]|]; reflexivity.
Qed.
Lemma dexec_app h1 : forall x h2,
  dexec x (h1 ++ h2) = (let! (x1, xs) := dexec x h1 in let! (x2, ys) := dexec x1 h2 in Val (x2, xs ++ ys)).
Proof.
  induction h1 as [|[o c] h1 IH]; intros r h2; cbn [app dexec].
  - cbn [obind]. destruct (dexec r h2) as [[r2 ys]|]; reflexivity.
  - destruct (dstep o r c) as [[r' x]|]; cbn [obind]; [|reflexivity]. rewrite IH.
    destruct (dexec r' h1) as [[r1 xs]|]; cbn [obind]; [|reflexivity].
    destruct (dexec r1 h2) as [[r2 ys]|]; reflexivity.
Qed.

(** One place of the family. *)
Lemma fexec_place p h : forall R R' l, fexec R h = Val (R', l) ->
  rexec (R p) (calls_at p h) = Val (R' p, answers_at p h l).
Proof.
  induction h as [|[o c] h IH]; intros R R' l; cbn [fexec].
  - intros [= <- <-]. reflexivity.
  - unfold fstep. destruct (call_domains c) as [ds|] eqn:Ec.
    + destruct (rstep o (R (fst (place ds))) (translate c)) as [[rm a]|] eqn:Er; [|discriminate]. cbn [obind].
      destruct (fexec (fput (fst (place ds)) rm R) h) as [[R1 l1]|] eqn:Ef; [|discriminate]. cbn [obind].
      intros [= <- <-]. specialize (IH _ _ _ Ef). unfold calls_at, answers_at, leads. cbn [filter combine fst snd]. rewrite Ec.
      unfold fput in IH. destruct (path_eqb (fst (place ds)) p) eqn:Ep.
      * apply path_eqb_true in Ep. subst p. rewrite path_eqb_refl in IH. cbn [map fst snd rexec].
        rewrite Er. cbn [obind]. unfold calls_at, answers_at, leads in IH. rewrite IH. reflexivity.
      * assert (path_eqb p (fst (place ds)) = false) as E2.
        { apply path_eqb_false. apply path_eqb_false in Ep. congruence. }
        rewrite E2 in IH. exact IH.
    + cbn [obind]. destruct (fexec (fun q => rm_Clear (R q)) h) as [[R1 l1]|] eqn:Ef; [|discriminate]. cbn [obind].
      intros [= <- <-]. specialize (IH _ _ _ Ef). destruct c; try discriminate.
      unfold calls_at, answers_at, leads. cbn [filter combine fst snd map call_domains translate rexec rstep obind].
      unfold calls_at, answers_at, leads in IH. rewrite IH. reflexivity.
Qed.

(** Unreserved domain names lead to themselves. *)
Lemma calls_at_in p h : ordinary h -> calls_at p h = calls_in p h.
Proof.
  induction 1 as [|[o c] h Hc Hh IH]; [reflexivity|]. unfold calls_at, calls_in, leads, concerns in *.
  cbn [filter fst snd] in *. destruct (call_domains c) as [ds|] eqn:Ec.
  - rewrite (place_unreserved ds Hc). cbn [fst]. destruct (path_eqb ds p); [|exact IH]. cbn [map fst snd]. rewrite IH.
    f_equal. f_equal. destruct c; cbn in Ec; try discriminate; injection Ec as ->; cbn; now rewrite ?(place_unreserved ds Hc).
  - cbn [map fst snd]. rewrite IH. now destruct c.
Qed.
Lemma answers_at_in p h : forall xs, ordinary h -> answers_at p h xs = answers_in p h xs.
Proof.
  induction h as [|[o c] h IH]; intros xs H; [reflexivity|]. inversion H as [|? ? Hc Hh]; subst.
  destruct xs as [|x xs]; [reflexivity|]. specialize (IH xs Hh).
  unfold answers_at, answers_in, leads, concerns in *. cbn [combine filter fst snd] in *.
  destruct (call_domains c) as [ds|] eqn:Ec.
  - rewrite (place_unreserved ds Hc). cbn [fst]. destruct (path_eqb ds p); cbn [map snd]; now rewrite IH.
  - cbn [map snd]. now rewrite IH.
Qed.
