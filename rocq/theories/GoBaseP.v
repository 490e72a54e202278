(** Lemmas about the shared base. *)
From Verif Require Import GoBase.

(** ** Maps *)
Section SMapP.
  Context {V : Type}.
  Implicit Types (m : smap V) (k : string) (v : V).

  Lemma mget_put_eq k v m : mget k (mput k v m) = Some v.
  Proof.
    induction m as [|[k' v'] m IH]; cbn [mput mget].
    - now rewrite String.eqb_refl.
    - destruct (String.eqb k k') eqn:E; cbn [mget].
      + now rewrite String.eqb_refl.
      + now rewrite E.
  Qed.

  Lemma mget_put_neq k k' v m : k <> k' -> mget k (mput k' v m) = mget k m.
  Proof.
    intros Hne. induction m as [|[k1 v1] m IH]; cbn [mput mget].
    - destruct (String.eqb_spec k k'); congruence.
    - destruct (String.eqb_spec k' k1) as [->|Hn]; cbn [mget].
      + destruct (String.eqb_spec k k1); congruence.
      + now rewrite IH.
  Qed.

  Lemma mget_put k k' v m :
    mget k (mput k' v m) = if String.eqb k k' then Some v else mget k m.
  Proof.
    destruct (String.eqb_spec k k') as [->|Hn].
    - apply mget_put_eq.
    - now apply mget_put_neq.
  Qed.

  Lemma mget_del_eq k m : mget k (mdel k m) = None.
  Proof.
    induction m as [|[k' v'] m IH]; cbn [mdel mget]; [reflexivity|].
    destruct (String.eqb k k') eqn:E; [exact IH|]. cbn [mget]. now rewrite E.
  Qed.

  Lemma mget_del_neq k k' m : k <> k' -> mget k (mdel k' m) = mget k m.
  Proof.
    intros Hne. induction m as [|[k1 v1] m IH]; cbn [mdel mget]; [reflexivity|].
    destruct (String.eqb_spec k' k1) as [->|Hn].
    - destruct (String.eqb_spec k k1); congruence.
    - cbn [mget]. now rewrite IH.
  Qed.

  Lemma mget_del k k' m :
    mget k (mdel k' m) = if String.eqb k k' then None else mget k m.
  Proof.
    destruct (String.eqb_spec k k') as [->|Hn].
    - apply mget_del_eq.
    - now apply mget_del_neq.
  Qed.

  Lemma mget_In k v m : mget k m = Some v -> In (k, v) m.
  Proof.
    induction m as [|[k' v'] m IH]; cbn [mget]; [discriminate|].
    destruct (String.eqb_spec k k') as [->|Hn]; intros H.
    - injection H as ->. now left.
    - right. now apply IH.
  Qed.

  Lemma In_mget k v m : NoDup (mkeys m) -> In (k, v) m -> mget k m = Some v.
  Proof.
    induction m as [|[k' v'] m IH]; cbn [mkeys map fst mget]; intros Hnd Hin; [easy|].
    inversion Hnd as [|? ? Hni Hnd']; subst.
    destruct Hin as [H|H].
    - injection H as -> ->. now rewrite String.eqb_refl.
    - destruct (String.eqb_spec k k') as [->|Hn].
      + exfalso. apply Hni. apply in_map_iff. now exists (k', v).
      + now apply IH.
  Qed.

  Lemma mget_In_iff k v m : NoDup (mkeys m) -> (mget k m = Some v <-> In (k, v) m).
  Proof. intros Hnd; split; [apply mget_In|now apply In_mget]. Qed.

  Lemma mget_None k m : mget k m = None <-> ~ In k (mkeys m).
  Proof.
    induction m as [|[k' v'] m IH]; cbn [mget mkeys map fst].
    - split; [intros _ H; exact H|reflexivity].
    - destruct (String.eqb_spec k k') as [->|Hn].
      + split; [discriminate|]. intros H; exfalso; apply H; now left.
      + rewrite IH. cbn. firstorder congruence.
  Qed.

  Lemma mkeys_put k v m : In k (mkeys m) -> mkeys (mput k v m) = mkeys m.
  Proof.
    induction m as [|[k' v'] m IH]; cbn [mkeys map fst mput]; [easy|].
    destruct (String.eqb_spec k k') as [->|Hn]; [reflexivity|].
    intros [->|H]; [congruence|]. cbn. f_equal. now apply IH.
  Qed.

  Lemma mput_new k v m : ~ In k (mkeys m) -> mput k v m = m ++ [(k, v)].
  Proof.
    induction m as [|[k' v'] m IH]; cbn [mkeys map fst mput]; [reflexivity|].
    intros H. destruct (String.eqb_spec k k') as [->|Hn].
    - exfalso; apply H; now left.
    - cbn. f_equal. apply IH. intros Hi; apply H; now right.
  Qed.

  Lemma In_mkeys_put k k' v m : In k (mkeys (mput k' v m)) <-> k = k' \/ In k (mkeys m).
  Proof.
    induction m as [|[k1 v1] m IH]; cbn [mkeys map fst mput].
    - cbn. firstorder.
    - destruct (String.eqb_spec k' k1) as [->|Hn]; cbn; cbn in IH.
      + firstorder.
      + unfold mkeys in IH. rewrite IH. tauto.
  Qed.

  Lemma NoDup_mput k v m : NoDup (mkeys m) -> NoDup (mkeys (mput k v m)).
  Proof.
    intros H. destruct (in_dec string_dec k (mkeys m)) as [Hi|Hi].
    - now rewrite mkeys_put.
    - rewrite mput_new by exact Hi. unfold mkeys. rewrite map_app. cbn.
      apply Permutation_NoDup with (l := k :: map fst m).
      + change (k :: map fst m) with ([k] ++ map fst m). apply Permutation_app_comm.
      + constructor; assumption.
  Qed.

  Lemma In_mkeys_del k k' m : In k (mkeys (mdel k' m)) <-> k <> k' /\ In k (mkeys m).
  Proof.
    induction m as [|[k1 v1] m IH]; cbn [mkeys map fst mdel].
    - cbn. firstorder.
    - destruct (String.eqb_spec k' k1) as [->|Hn]; cbn; cbn in IH.
      + unfold mkeys in IH. rewrite IH. firstorder congruence.
      + unfold mkeys in IH. rewrite IH. firstorder congruence.
  Qed.

  Lemma NoDup_mdel k m : NoDup (mkeys m) -> NoDup (mkeys (mdel k m)).
  Proof.
    induction m as [|[k1 v1] m IH]; cbn [mkeys map fst mdel]; intros H; [constructor|].
    inversion H as [|? ? Hni Hnd]; subst.
    destruct (String.eqb_spec k k1) as [->|Hn]; [now apply IH|].
    cbn. constructor; [|now apply IH].
    fold (mkeys (mdel k m)). rewrite In_mkeys_del. tauto.
  Qed.

  Lemma mdel_notin k m : ~ In k (mkeys m) -> mdel k m = m.
  Proof.
    induction m as [|[k1 v1] m IH]; cbn [mkeys map fst mdel]; intros H; [reflexivity|].
    destruct (String.eqb_spec k k1) as [->|Hn]; [exfalso; apply H; now left|].
    f_equal. apply IH. intros Hi; apply H; now right.
  Qed.

  Lemma mdel_app k m1 m2 : mdel k (m1 ++ m2) = mdel k m1 ++ mdel k m2.
  Proof.
    induction m1 as [|[k1 v1] m1 IH]; cbn; [reflexivity|].
    destruct (String.eqb k k1); [exact IH|]. cbn. now rewrite IH.
  Qed.

  Lemma mhas_true k m : mhas k m = true <-> exists v, mget k m = Some v.
  Proof. unfold mhas; destruct (mget k m); split; try easy; [eauto|intros [? ?]; discriminate]. Qed.

  Lemma mhas_false k m : mhas k m = false <-> mget k m = None.
  Proof. unfold mhas; destruct (mget k m); split; easy. Qed.
End SMapP.

Lemma mget_map {V W} (f : V -> W) k (m : smap V) :
  mget k (map (fun kv => (fst kv, f (snd kv))) m) = option_map f (mget k m).
Proof.
  induction m as [|[k1 v1] m IH]; cbn; [reflexivity|].
  destruct (String.eqb k k1); [reflexivity|exact IH].
Qed.

(** ** Sets *)
Lemma sin_In x l : sin x l = true <-> In x l.
Proof.
  induction l as [|y l IH]; cbn; [easy|].
  destruct (String.eqb_spec x y) as [->|Hn]; [tauto|]. rewrite IH. intuition congruence.
Qed.

Lemma sin_false x l : sin x l = false <-> ~ In x l.
Proof. rewrite <- sin_In. destruct (sin x l); intuition congruence. Qed.

Lemma sadd_In x y l : In y (sadd x l) <-> y = x \/ In y l.
Proof.
  unfold sadd. destruct (sin x l) eqn:E.
  - apply sin_In in E. intuition (subst; assumption).
  - rewrite in_app_iff. cbn. intuition congruence.
Qed.

Lemma srem_In x y l : In y (srem x l) <-> y <> x /\ In y l.
Proof.
  induction l as [|z l IH]; cbn; [tauto|].
  destruct (String.eqb_spec x z) as [->|Hn]; cbn; rewrite IH; intuition congruence.
Qed.

Lemma NoDup_snoc {A} (x : A) l : ~ In x l -> NoDup l -> NoDup (l ++ [x]).
Proof.
  intros Hni Hnd. apply Permutation_NoDup with (l := x :: l).
  - change (x :: l) with ([x] ++ l). apply Permutation_app_comm.
  - now constructor.
Qed.

Lemma NoDup_sadd x l : NoDup l -> NoDup (sadd x l).
Proof.
  intros H. unfold sadd. destruct (sin x l) eqn:E; [exact H|].
  apply NoDup_snoc; [|exact H]. now apply sin_false.
Qed.

Lemma NoDup_srem x l : NoDup l -> NoDup (srem x l).
Proof.
  induction l as [|y l IH]; cbn; intros H; [constructor|].
  inversion H as [|? ? Hni Hnd]; subst.
  destruct (String.eqb_spec x y); [now apply IH|].
  constructor; [|now apply IH]. rewrite srem_In. tauto.
Qed.

Lemma srem_notin x l : ~ In x l -> srem x l = l.
Proof.
  induction l as [|y l IH]; cbn; intros H; [reflexivity|].
  destruct (String.eqb_spec x y) as [->|Hn]; [exfalso; apply H; now left|].
  f_equal. apply IH. tauto.
Qed.

Lemma srem_app x l1 l2 : srem x (l1 ++ l2) = srem x l1 ++ srem x l2.
Proof.
  induction l1 as [|y l1 IH]; cbn; [reflexivity|].
  destruct (String.eqb x y); [exact IH|]. cbn. now rewrite IH.
Qed.

(** ** Strings *)
Lemma str_app_assoc (a b c : string) : ((a ++ b) ++ c = a ++ (b ++ c))%string.
Proof. induction a; cbn; [reflexivity|]. now rewrite IHa. Qed.

Lemma str_app_nil_r (a : string) : (a ++ "" = a)%string.
Proof. induction a; cbn; [reflexivity|]. now rewrite IHa. Qed.

Lemma str_app_inv_head (a b c : string) : (a ++ b = a ++ c)%string -> b = c.
Proof. induction a as [|x a IH]; cbn; [easy|]. intros H; injection H; auto. Qed.

Lemma str_length_app (a b : string) : String.length (a ++ b) = String.length a + String.length b.
Proof. induction a; cbn; [reflexivity|]. now rewrite IHa. Qed.

Lemma has_char_app c a b : has_char c (a ++ b) = has_char c a || has_char c b.
Proof. induction a as [|d a IH]; cbn; [reflexivity|]. destruct (Ascii.eqb c d); [reflexivity|exact IH]. Qed.

Lemma split_char_nonempty c s : split_char c s <> [].
Proof.
  destruct s as [|d s]; cbn; [easy|]. destruct (Ascii.eqb c d); [easy|].
  destruct (split_char c s); easy.
Qed.

Lemma split_char_nochar c s : has_char c s = false -> split_char c s = [s].
Proof.
  induction s as [|d s IH]; cbn; [reflexivity|].
  destruct (Ascii.eqb c d); [discriminate|]. intros H. now rewrite (IH H).
Qed.

Lemma split_char_app c a s :
  has_char c a = false ->
  split_char c (a ++ String c s) = a :: split_char c s.
Proof.
  induction a as [|d a IH]; cbn; intros H.
  - now rewrite Ascii.eqb_refl.
  - destruct (Ascii.eqb c d) eqn:E; [discriminate|]. now rewrite (IH H).
Qed.

(** [join] then [split] on one-byte separators. *)
Lemma split_join c l :
  l <> [] -> Forall (fun s => has_char c s = false) l ->
  split_char c (join (String c "") l) = l.
Proof.
  induction l as [|x l IH]; [easy|]. intros _ Hf.
  inversion Hf as [|? ? Hx Hl]; subst. cbn [join].
  destruct l as [|y l].
  - now apply split_char_nochar.
  - change (String c "" ++ join (String c "") (y :: l))%string
      with (String c (join (String c "") (y :: l))).
    rewrite split_char_app by exact Hx. f_equal. apply IH; [easy|exact Hl].
Qed.

Lemma join_split c s : join (String c "") (split_char c s) = s.
Proof.
  induction s as [|d s IH]; [reflexivity|]. cbn [split_char].
  destruct (Ascii.eqb c d) eqn:E.
  - apply Ascii.eqb_eq in E. subst d.
    cbn [join]. destruct (split_char c s) eqn:Es.
    + exfalso. now apply (split_char_nonempty c s).
    + change ("" ++ String c "" ++ join (String c "") (s0 :: l))%string
        with (String c (join (String c "") (s0 :: l))). now rewrite IH.
  - destruct (split_char c s) as [|x xs] eqn:Es.
    + exfalso. now apply (split_char_nonempty c s).
    + cbn [join] in *. destruct xs; [now rewrite IH|].
      rewrite <- IH. reflexivity.
Qed.

Lemma split_char_no_sep c s x : In x (split_char c s) -> has_char c x = false.
Proof.
  revert x. induction s as [|d s IH]; cbn [split_char]; intros x.
  - intros [<-|[]]. reflexivity.
  - destruct (Ascii.eqb c d) eqn:E.
    + intros [<-|H]; [reflexivity|now apply IH].
    + destruct (split_char c s) as [|y ys] eqn:Es.
      * intros [<-|[]]. cbn. now rewrite E.
      * intros [<-|H]; [cbn; rewrite E; apply IH; now left|apply IH; now right].
Qed.

Lemma has_prefix_drop s p : has_prefix s p = true -> s = (p ++ drop (String.length p) s)%string.
Proof.
  unfold has_prefix. revert s. induction p as [|c p IH]; intros [|d s]; cbn; try easy.
  destruct (ascii_dec c d) as [->|]; [|discriminate]. intros H. f_equal. now apply IH.
Qed.

Lemma has_prefix_app p s : has_prefix (p ++ s) p = true.
Proof.
  unfold has_prefix. induction p as [|c p IH]; cbn; [now destruct s|].
  destruct (ascii_dec c c); [exact IH|congruence].
Qed.

Lemma drop_app p s : drop (String.length p) (p ++ s) = s.
Proof. induction p; cbn; [now destruct s|assumption]. Qed.

Lemma rule_eqb_spec a b : reflect (a = b) (rule_eqb a b).
Proof. unfold rule_eqb. destruct (rule_eq_dec a b); constructor; assumption. Qed.
