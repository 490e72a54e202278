From Verif Require Import GoBase GoBaseP DefsM PolicyM EffectorM.

Definition efts (d : argdef) (ms : list rule) : list effect := map (GetEft d) ms.

(** Which effect stops the loop. *)
Definition stops (expr : string) (e : effect) : bool :=
  if String.eqb expr SOME_ALLOW then effect_eqb e Allow
  else if String.eqb expr NO_DENY then effect_eqb e Deny
  else effect_eqb e Deny.

Definition supported (expr : string) : Prop :=
  expr = SOME_ALLOW \/ expr = NO_DENY \/ expr = SOME_ALLOW_NO_DENY.

Lemma effect_eqb_eq a b : effect_eqb a b = true <-> a = b.
Proof. destruct a, b; cbn; split; congruence. Qed.

Lemma enforce_fn_supported expr d st r :
  supported expr ->
  enforce_fn expr d st r =
  (mkEstate (if stops expr (GetEft d r) then GetEft d r else Indeterminate)
     (es_effects st ++ [GetEft d r]) (es_matches st ++ [r]) None false,
   negb (stops expr (GetEft d r))).
Proof.
  intros Hs. unfold enforce_fn, MergeEffects. rewrite !last_last.
  destruct Hs as [->|[->| ->]]; cbn -[last]; destruct (GetEft d r); reflexivity.
Qed.

Lemma loop_supported expr d ms : forall st,
  supported expr ->
  es_res st = Indeterminate -> es_err st = None -> es_panic st = false ->
  (forallb (fun r => negb (stops expr (GetEft d r))) ms = true /\
   range_vals (enforce_fn expr d) st ms =
   (mkEstate Indeterminate (es_effects st ++ efts d ms) (es_matches st ++ ms) None false, true)) \/
  (exists r ms', In r ms /\ stops expr (GetEft d r) = true /\
   range_vals (enforce_fn expr d) st ms =
   (mkEstate (GetEft d r) (es_effects st ++ efts d ms') (es_matches st ++ ms') None false, false)).
Proof.
  induction ms as [|r ms IH]; intros st Hs Hr He Hp; cbn [range_vals].
  - left. split; [reflexivity|]. cbn. rewrite !app_nil_r. destruct st; cbn in *; congruence.
  - rewrite enforce_fn_supported by exact Hs.
    destruct (stops expr (GetEft d r)) eqn:Est; cbn [negb].
    + right. exists r, [r]. split; [now left|]. split; [exact Est|reflexivity].
    + destruct (IH (mkEstate Indeterminate (es_effects st ++ [GetEft d r]) (es_matches st ++ [r]) None false)
                  Hs eq_refl eq_refl eq_refl) as [[Hf H]|[r' [ms' [Hin [Hst H]]]]];
        cbn [es_effects es_matches] in H; rewrite H.
      * left. split; [cbn; now rewrite Est, Hf|]. cbn. now rewrite <- !app_assoc.
      * right. exists r', (r :: ms'). split; [now right|]. split; [exact Hst|].
        cbn. now rewrite <- !app_assoc.
Qed.

(** The decision for a supported effect, in terms of the effects only. *)
Lemma decide_supported expr d ms err :
  supported expr ->
  decide expr d ms err =
  if forallb (fun e => negb (stops expr e)) (efts d ms) then
    match err with
    | Some e => Val (false, Some e)
    | None =>
        Val (if String.eqb expr NO_DENY then true
             else if String.eqb expr SOME_ALLOW then false
             else match efts d ms with e :: _ => effect_eqb e Allow | [] => false end, None)
    end
  else Val (if String.eqb expr SOME_ALLOW then true else false, None).
Proof.
  intros Hs. unfold decide.
  assert (Hmap : forallb (fun e => negb (stops expr e)) (efts d ms) =
                 forallb (fun r => negb (stops expr (GetEft d r))) ms).
  { clear. unfold efts. induction ms as [|r ms IH]; cbn; [reflexivity|]. now rewrite IH. }
  rewrite Hmap.
  destruct (loop_supported expr d ms estate0 Hs eq_refl eq_refl eq_refl)
    as [[Hf H]|[r [ms' [Hin [Hst H]]]]]; rewrite H.
  - rewrite Hf. unfold enforce_finish. cbn [es_panic es_err es_res effect_eqb].
    destruct err as [e|]; [reflexivity|]. cbn [estate0 es_effects es_matches app].
    destruct Hs as [->|[->| ->]]; cbn; try reflexivity.
    destruct ms; reflexivity.
  - assert (Hf : forallb (fun r => negb (stops expr (GetEft d r))) ms = false).
    { destruct (forallb _ ms) eqn:E; [|reflexivity]. rewrite forallb_forall in E.
      specialize (E r Hin). now rewrite Hst in E. }
    rewrite Hf. unfold enforce_finish. cbn [es_panic es_err es_res].
    assert (Hni : effect_eqb (GetEft d r) Indeterminate = false).
    { destruct Hs as [->|[->| ->]]; cbn in Hst; destruct (GetEft d r); cbn in *; congruence. }
    rewrite Hni. destruct Hs as [->|[->| ->]]; cbn in Hst |- *; destruct (GetEft d r); cbn in *; congruence.
Qed.

Lemma decide_unsupported expr d ms err :
  ~ supported expr ->
  decide expr d ms err =
  match ms, err with
  | [], Some e => Val (false, Some e)
  | _, _ => Val (false, None)
  end.
Proof.
  intros Hs. unfold decide.
  destruct (String.eqb_spec expr SOME_ALLOW) as [?|N1]; [exfalso; apply Hs; left; assumption|].
  destruct (String.eqb_spec expr NO_DENY) as [?|N2]; [exfalso; apply Hs; right; left; assumption|].
  destruct (String.eqb_spec expr SOME_ALLOW_NO_DENY) as [?|N3]; [exfalso; apply Hs; right; right; assumption|].
  apply String.eqb_neq in N1, N2, N3.
  destruct ms as [|r ms]; cbn [range_vals].
  - unfold enforce_finish, MergeEffects. cbn. rewrite N1, N2, N3. destruct err; reflexivity.
  - unfold enforce_fn, MergeEffects. rewrite N1, N2, N3. cbn. unfold enforce_finish. cbn.
    now destruct err.
Qed.

(** The decision depends only on the sequence of effects. *)
Lemma decide_efts expr d ms d' ms' err :
  efts d ms = efts d' ms' -> decide expr d ms err = decide expr d' ms' err.
Proof.
  intros H. destruct (string_dec expr SOME_ALLOW) as [E1|E1];
  [|destruct (string_dec expr NO_DENY) as [E2|E2]; [|destruct (string_dec expr SOME_ALLOW_NO_DENY) as [E3|E3]]].
  1,2,3: rewrite !decide_supported by (unfold supported; tauto); now rewrite H.
  rewrite !decide_unsupported by (unfold supported; tauto).
  destruct ms, ms'; cbn in H; try discriminate; reflexivity.
Qed.

Lemma stops_some_allow e : stops SOME_ALLOW e = effect_eqb e Allow.
Proof. reflexivity. Qed.
Lemma stops_no_deny e : stops NO_DENY e = effect_eqb e Deny.
Proof. reflexivity. Qed.
Lemma stops_and e : stops SOME_ALLOW_NO_DENY e = effect_eqb e Deny.
Proof. reflexivity. Qed.
