(** Lemmas about path matching. *)
From Verif Require Import GoBase GoBaseP DefsM PathM PathSpec.

Lemma str_eqb_sym a b : String.eqb a b = String.eqb b a.
Proof. apply String.eqb_sym. Qed.

(** ** The segment-level function *)
Fixpoint list_eqb (a b : list string) : bool :=
  match a, b with
  | [], [] => true
  | x :: a', y :: b' => String.eqb x y && list_eqb a' b'
  | _, _ => false
  end.

Lemma list_eqb_eq a b : list_eqb a b = true <-> a = b.
Proof.
  revert b. induction a as [|x a IH]; intros [|y b]; cbn; split; intros H; try easy.
  - apply andb_true_iff in H as [H1 H2]. apply String.eqb_eq in H1. apply IH in H2. congruence.
  - injection H as -> ->. rewrite String.eqb_refl. now apply IH.
Qed.

Section Seg.
  Variable dyn : string -> bool.

  Fixpoint psm (ps qs : list string) : bool :=
    if list_eqb ps qs || list_eqb qs ["*"] then true
    else match ps, qs with
         | s :: ps', q :: qs' =>
             if String.eqb s q || dyn q then
               match ps', qs' with
               | [], [] => true
               | [], _ => false
               | _, [] => false
               | _, _ => psm ps' qs'
               end
             else if String.eqb q "*" then
               match ps' with
               | [] => false
               | _ => psm ps' qs' || psm ps' qs
               end
             else false
         | _, _ => false
         end.

  Lemma psm_eq ps qs : psm ps qs =
    if list_eqb ps qs || list_eqb qs ["*"] then true
    else match ps, qs with
         | s :: ps', q :: qs' =>
             if String.eqb s q || dyn q then
               match ps', qs' with
               | [], [] => true
               | [], _ => false
               | _, [] => false
               | _, _ => psm ps' qs'
               end
             else if String.eqb q "*" then
               match ps' with
               | [] => false
               | _ => psm ps' qs' || psm ps' qs
               end
             else false
         | _, _ => false
         end.
  Proof. destruct ps; reflexivity. Qed.
End Seg.

(** [cut] is the first step of [split_char]. *)
Lemma cut_split sep s :
  match cut sep s with
  | None => split_char sep s = [s]
  | Some (a, b) => split_char sep s = a :: split_char sep b /\
                   String.length b < String.length s /\ s = (a ++ String sep b)%string
  end.
Proof.
  induction s as [|c s IH]; [reflexivity|]. cbn [cut split_char].
  rewrite (Ascii.eqb_sym sep c). destruct (Ascii.eqb_spec c sep) as [->|Hne].
  - repeat split. cbn. lia.
  - destruct (cut sep s) as [[a b]|].
    + destruct IH as [H1 [H2 H3]]. rewrite H1. repeat split; cbn; [lia|now rewrite <- H3].
    + now rewrite IH.
Qed.

Lemma split_inj sep a b : split_char sep a = split_char sep b -> a = b.
Proof. intros H. rewrite <- (join_split sep a), <- (join_split sep b). now rewrite H. Qed.

Lemma list_eqb_split sep a b : list_eqb (split_char sep a) (split_char sep b) = String.eqb a b.
Proof.
  destruct (String.eqb_spec a b) as [->|Hne]; [now apply list_eqb_eq|].
  destruct (list_eqb _ _) eqn:E; [|reflexivity]. apply list_eqb_eq, split_inj in E. congruence.
Qed.

Lemma star_split sep : Ascii.eqb sep "*" = false -> split_char sep "*" = ["*"%string].
Proof. intros H. cbn. now rewrite H. Qed.

Lemma split_cons_star sep b : Ascii.eqb sep "*" = false ->
  split_char sep ("*" ++ String sep b) = "*"%string :: split_char sep b.
Proof. intros H. apply (split_char_app sep "*"). cbn. now rewrite H. Qed.

Lemma pmh_psm sep pre suf : Ascii.eqb sep "*" = false ->
  forall fuel path pat, String.length path + 2 <= fuel ->
  PathMatchHelper fuel path pat sep pre suf =
  psm (fun s => isDynamicSegment s pre suf) (split_char sep path) (split_char sep pat).
Proof.
  intros Hs. induction fuel as [|f IH]; intros path pat Hf; [lia|].
  cbn [PathMatchHelper]. rewrite psm_eq.
  rewrite list_eqb_split.
  rewrite <- (star_split sep Hs) at 1. rewrite (list_eqb_split sep pat "*").
  destruct (String.eqb path pat || String.eqb pat "*") eqn:E0; [reflexivity|].
  apply orb_false_iff in E0 as [Enp Ens].
  unfold nextSegment.
  pose proof (cut_split sep path) as Hp. pose proof (cut_split sep pat) as Hq.
  destruct (cut sep path) as [[a b]|] eqn:Ep; destruct (cut sep pat) as [[c d]|] eqn:Eq.
  - destruct Hp as [Hp [Hpl _]], Hq as [Hq [_ Hqe]]. rewrite Hp, Hq.
    destruct (split_char sep b) as [|b0 bs] eqn:Eb; [now apply split_char_nonempty in Eb|].
    destruct (split_char sep d) as [|d0 ds] eqn:Ed; [now apply split_char_nonempty in Ed|].
    cbn [Bool.eqb negb andb]. rewrite <- Eb, <- Ed.
    destruct (String.eqb a c || isDynamicSegment c pre suf) eqn:E1.
    + rewrite IH by lia. reflexivity.
    + destruct (String.eqb_spec c "*") as [->|Hc]; [|reflexivity].
      rewrite !IH by lia. rewrite split_cons_star by assumption. reflexivity.
  - destruct Hp as [Hp [Hpl _]]. rewrite Hp, Hq.
    destruct (split_char sep b) as [|b0 bs] eqn:Eb; [now apply split_char_nonempty in Eb|].
    cbn [Bool.eqb negb andb].
    destruct (String.eqb a pat || isDynamicSegment pat pre suf) eqn:E1; [reflexivity|].
    now rewrite Ens.
  - destruct Hq as [Hq [_ Hqe]]. rewrite Hp, Hq.
    destruct (split_char sep d) as [|d0 ds] eqn:Ed; [now apply split_char_nonempty in Ed|].
    cbn [Bool.eqb negb andb].
    destruct (String.eqb path c || isDynamicSegment c pre suf) eqn:E1; [reflexivity|].
    now destruct (String.eqb c "*").
  - rewrite Hp, Hq. cbn [Bool.eqb negb andb].
    destruct (String.eqb path pat || isDynamicSegment pat pre suf) eqn:E1.
    + destruct f as [|f']; [lia|]. reflexivity.
    + now rewrite Ens.
Qed.

(** ** The segment-level function against the specification *)
Section Spec.
  Variable dynb : string -> bool.
  Variable dyn : string -> Prop.
  Hypothesis dyn_ok : forall s, dynb s = true <-> dyn s.
  Hypothesis dyn_star : dynb "*" = false.

  Lemma smc_refl l : seg_match_code dyn l l.
  Proof. induction l; constructor; auto. Qed.

  Lemma psm_sound : forall ps qs, ps <> [] -> qs <> [] -> psm dynb ps qs = true -> seg_match_code dyn ps qs.
  Proof.
    induction ps as [|s ps IH]; intros qs Hp Hq; [congruence|]. rewrite psm_eq.
    destruct (list_eqb (s :: ps) qs) eqn:E1.
    { intros _. apply list_eqb_eq in E1. subst qs. apply smc_refl. }
    destruct (list_eqb qs ["*"]) eqn:E2.
    { intros _. apply list_eqb_eq in E2. subst qs. apply smc_last. discriminate. }
    cbn [orb]. destruct qs as [|q qs]; [discriminate|].
    destruct (String.eqb s q || dynb q) eqn:E3.
    - intros H.
      assert (Hrec : seg_match_code dyn ps qs).
      { destruct ps as [|p ps], qs as [|q' qs]; try discriminate; [constructor|]. now apply IH. }
      apply orb_true_iff in E3 as [E3|E3].
      + apply String.eqb_eq in E3. subst q. now constructor.
      + apply smc_dyn; [now apply dyn_ok|exact Hrec].
    - destruct (String.eqb_spec q "*") as [->|]; [|discriminate].
      destruct ps as [|p ps]; [discriminate|]. intros H. apply orb_true_iff in H as [H|H].
      + assert (Hqn : qs <> []).
        { intros ->. cbn in E2. discriminate. }
        apply IH in H; [|discriminate|exact Hqn].
        apply (smc_star dyn [] s (p :: ps)); [easy|exact H].
      + apply IH in H; [|discriminate|discriminate].
        apply orb_false_iff in E3 as [E3 _]. apply String.eqb_neq in E3.
        inversion H as [|? ? ? Hr|? d ? ? Hd Hr|xs Hx|xs x path pat Hn Hr]; subst.
        * apply (smc_star dyn [s] "*" ps); [|exact Hr]. intros [Hx|[]]; congruence.
        * apply dyn_ok in Hd. congruence.
        * cbn in E2. discriminate.
        * change (s :: xs ++ x :: path) with ((s :: xs) ++ x :: path). apply smc_star; [|exact Hr].
          intros [Hx|Hx]; [congruence|contradiction].
  Qed.

  Lemma psm_complete : forall ps qs, ps <> [] -> seg_match_code dyn ps qs -> psm dynb ps qs = true.
  Proof.
    induction ps as [|s ps IH]; intros qs Hp; [congruence|]. intros H. rewrite psm_eq.
    destruct (list_eqb (s :: ps) qs) eqn:E1; [reflexivity|].
    destruct (list_eqb qs ["*"]) eqn:E2; [reflexivity|]. cbn [orb].
    assert (Hnil : forall l, seg_match_code dyn [] l -> l = []).
    { intros l Hl. inversion Hl; [reflexivity|congruence|]. destruct xs; discriminate. }
    assert (Hnil2 : forall l, seg_match_code dyn l [] -> l = []).
    { intros l Hl. inversion Hl; reflexivity. }
    assert (Hrec : forall q qs', seg_match_code dyn ps qs' -> (String.eqb s q || dynb q) = true ->
      (if String.eqb s q || dynb q then
               match ps, qs' with
               | [], [] => true
               | [], _ => false
               | _, [] => false
               | _, _ => psm dynb ps qs'
               end
       else if String.eqb q "*" then
               match ps with
               | [] => false
               | _ => psm dynb ps qs' || psm dynb ps (q :: qs')
               end else false) = true).
    { intros q qs' Hr Hb. rewrite Hb. destruct ps as [|p ps].
      - now rewrite (Hnil _ Hr).
      - destruct qs' as [|q' qs']; [now apply Hnil2 in Hr|]. apply IH; [discriminate|exact Hr]. }
    inversion H as [|? ? ? Hr|? d ? ? Hd Hr|xs Hx|xs x path pat Hn Hr]; subst.
    - apply (Hrec s); [exact Hr|]. now rewrite String.eqb_refl.
    - apply (Hrec d); [exact Hr|]. apply dyn_ok in Hd. now rewrite Hd, orb_true_r.
    - cbn in E2. discriminate.
    - destruct xs as [|x0 xs].
      + cbn in H0. injection H0 as -> ->.
        destruct (bool_dec (String.eqb s "*") true) as [Es|Es].
        * apply (Hrec "*"%string); [exact Hr|]. now rewrite Es.
        * apply not_true_is_false in Es. rewrite Es, dyn_star. cbn [orb]. rewrite String.eqb_refl.
          destruct ps as [|p ps].
          -- apply Hnil in Hr. subst pat. cbn in E2. discriminate.
          -- rewrite (IH pat); [reflexivity|discriminate|exact Hr].
      + cbn in H0. injection H0 as -> <-.
        assert (Es : String.eqb s "*" = false).
        { apply String.eqb_neq. intros ->. apply Hn. now left. }
        rewrite Es, dyn_star. cbn [orb]. rewrite String.eqb_refl.
        destruct (xs ++ x :: path) as [|p ps'] eqn:Eps; [destruct xs; discriminate|].
        rewrite (IH ("*"%string :: pat)); [now rewrite orb_true_r|discriminate|]. rewrite <- Eps.
        apply smc_star; [|exact Hr]. intros Hx; apply Hn; now right.
  Qed.

  Lemma code_sound ps qs : seg_match_code dyn ps qs -> seg_match dyn ps qs.
  Proof.
    induction 1 as [|s path pat _ IH|s d path pat Hd _ IH|xs Hx|xs x path pat Hn _ IH].
    - constructor.
    - now constructor.
    - now constructor.
    - rewrite <- (app_nil_r xs). apply sm_star; [exact Hx|constructor].
    - change (x :: path) with ([x] ++ path). rewrite app_assoc. apply sm_star; [|exact IH].
      destruct xs; discriminate.
  Qed.

  Lemma code_complete ps qs : ~ In "*"%string ps -> seg_match dyn ps qs -> seg_match_code dyn ps qs.
  Proof.
    intros Hn H. induction H as [|s path pat _ IH|s d path pat Hd _ IH|xs path pat Hx _ IH].
    - constructor.
    - constructor. apply IH. intros Hi; apply Hn; now right.
    - apply smc_dyn; [exact Hd|]. apply IH. intros Hi; apply Hn; now right.
    - destruct xs as [|x xs] using rev_ind; [congruence|].
      rewrite <- app_assoc. cbn. rewrite !in_app_iff in Hn. cbn in Hn. apply smc_star; [tauto|].
      apply IH. tauto.
  Qed.
End Spec.

(** ** Dynamic segments *)
Lemma last_byte_app a c : last_byte (a ++ String c "") = Some c.
Proof.
  induction a as [|d a IH]; [reflexivity|]. cbn [append last_byte].
  destruct (a ++ String c "")%string eqn:E; [destruct a; discriminate|exact IH].
Qed.

Lemma last_byte_inv s c : last_byte s = Some c -> exists a, s = (a ++ String c "")%string.
Proof.
  induction s as [|d s IH]; cbn; [discriminate|]. destruct s as [|e s].
  - intros H. injection H as ->. now exists ""%string.
  - intros H. destruct (IH H) as [a ->]. now exists (String d a).
Qed.

Lemma dyn_colon s : isDynamicSegment s ":" zero = true <-> colon_name s.
Proof.
  unfold isDynamicSegment, colon_name. destruct s as [|c s]; cbn.
  - split; [discriminate|]. intros [t H]. discriminate.
  - rewrite andb_true_r. rewrite Ascii.eqb_eq. split.
    + intros ->. now exists s.
    + intros [t H]. now injection H.
Qed.

Lemma dyn_brace s : isDynamicSegment s "{" "}" = true <-> brace_name s.
Proof.
  unfold isDynamicSegment, brace_name. destruct s as [|c s].
  - split; [discriminate|]. intros [t H]. discriminate.
  - cbn [String.length Nat.eqb first_byte byte_is].
    change (Ascii.eqb "{" zero) with false. change (Ascii.eqb "}" zero) with false. cbn [orb].
    rewrite andb_true_iff, Ascii.eqb_eq. split.
    + intros [-> H]. unfold byte_is in H. destruct (last_byte (String "{" s)) as [d|] eqn:E; [|discriminate].
      apply Ascii.eqb_eq in H. subst d. apply last_byte_inv in E as [a Ha].
      destruct a as [|x a]; cbn in Ha; [discriminate|]. injection Ha as <- ->. now exists a.
    + intros [t H]. cbn in H. injection H as -> ->. split; [reflexivity|].
      change (String "{" (t ++ "}"))%string with ((String "{" t) ++ "}")%string.
      rewrite last_byte_app. reflexivity.
Qed.

Lemma segments_ne s : segments s <> [].
Proof. apply split_char_nonempty. Qed.

Lemma PathMatch_code path pat :
  PathMatch path pat = true <-> seg_match_code colon_name (segments path) (segments pat).
Proof.
  unfold PathMatch. rewrite pmh_psm by (reflexivity || (unfold pm_enough; lia)).
  fold (segments path) (segments pat). split.
  - apply psm_sound; [apply dyn_colon|reflexivity|apply segments_ne|apply segments_ne].
  - apply psm_complete; [apply dyn_colon|reflexivity|apply segments_ne].
Qed.

Lemma PathMatch2_code path pat :
  PathMatch2 path pat = true <-> seg_match_code brace_name (segments path) (segments pat).
Proof.
  unfold PathMatch2. rewrite pmh_psm by (reflexivity || (unfold pm_enough; lia)).
  fold (segments path) (segments pat). split.
  - apply psm_sound; [apply dyn_brace|reflexivity|apply segments_ne|apply segments_ne].
  - apply psm_complete; [apply dyn_brace|reflexivity|apply segments_ne].
Qed.

(** ** Non-patterns *)
Lemma no_pattern_eq (dyn : string -> Prop) ps qs :
  (forall q, In q qs -> q <> "*"%string /\ ~ dyn q) -> seg_match dyn ps qs -> ps = qs.
Proof.
  intros Hq H. induction H as [|s path pat _ IH|s d path pat Hd _ IH|xs path pat Hx _ IH].
  - reflexivity.
  - f_equal. apply IH. intros; apply Hq; now right.
  - exfalso. now apply (Hq d (or_introl eq_refl)).
  - exfalso. now apply (proj1 (Hq _ (or_introl eq_refl))).
Qed.

Lemma IsPathPattern_iff dynf s pre suf (Hd : forall x, isDynamicSegment x pre suf = true <-> dynf x) :
  IsPathPatternHelper s "/" pre suf = true <-> exists q, In q (segments s) /\ (q = "*"%string \/ dynf q).
Proof.
  unfold IsPathPatternHelper. rewrite existsb_exists. fold (segments s). split.
  - intros [q [Hin H]]. exists q. split; [exact Hin|].
    destruct (Nat.eqb (String.length q) 0) eqn:E0; [discriminate|].
    destruct (String.eqb_spec q "*") as [->|Hne]; [now left|].
    right. apply Hd. unfold isDynamicSegment. now rewrite E0.
  - intros [q [Hin H]]. exists q. split; [exact Hin|]. destruct H as [->|H]; [reflexivity|].
    apply Hd in H. unfold isDynamicSegment in H. destruct (Nat.eqb (String.length q) 0) eqn:E0; [discriminate|].
    destruct (String.eqb q "*"); [reflexivity|exact H].
Qed.
