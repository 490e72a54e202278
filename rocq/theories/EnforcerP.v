(** Lemmas about contexts, Enforce and Filter. *)
From Verif Require Import GoBase GoBaseP DefsM PolicyM PolicySpec PolicyP EffectorM EffectorP MatcherDefM MatcherM MatcherSpec MatcherP MatcherP2
  RbacM RbacSpec DomainM ModelM ModelSpec ModelP ModelP2 ModelP3 ModelP4 ModelP5 ModelP6 EnforcerM EnforcerSpec.

(** ** The range functions in terms of what a caller that never stops is given *)
Lemma consume_map {S} (fn : S -> rule -> S * bool) k l : forall st,
  consume (fun st r => fn st (k :: r)) st l = range_vals fn st (map (cons k) l).
Proof. induction l as [|r l IH]; intros st; [reflexivity|]. cbn. destruct (fn st (k :: r)) as [st' [|]]; auto. Qed.

Lemma collect_all k l : forall acc, range_vals (fun l r => (l ++ [r], true)) acc (map (cons k) l) = ((acc ++ map (cons k) l)%list, true).
Proof.
  induction l as [|r l IH]; intros acc; cbn; [now rewrite app_nil_r|]. rewrite IH. now rewrite <- app_assoc.
Qed.

Lemma range_reported {S} E o m j y rDef rvals (fn : S -> rule -> S * bool) st l err :
  nth_error (md_mats m) j = Some y -> reported (e_eval E (functions o m)) (o_match o) y rDef rvals = Val (l, err) ->
  model_RangeMatches E o m j rDef rvals fn st =
  match range_vals fn st (map (cons (ad_key (m_def y))) l) with
  | (st', true) => Val (st', err)
  | (st', false) => Val (st', None)
  end.
Proof.
  intros Hj Hr. unfold model_RangeMatches. rewrite Hj. rewrite reported_walk in Hr.
  unfold RangeMatches. rewrite helper_walk. unfold finish.
  rewrite consume_map. destruct (walk _ _ _ _ _ _ _ _) as [ys s]. cbn [fst snd].
  destruct s; try discriminate; injection Hr as <- <-; destruct (range_vals fn st _) as [st' [|]]; reflexivity.
Qed.

Lemma range_reported_panic {S} E o m j y rDef rvals (fn : S -> rule -> S * bool) st :
  nth_error (md_mats m) j = Some y -> reported (e_eval E (functions o m)) (o_match o) y rDef rvals = Panic ->
  exists l, model_RangeMatches E o m j rDef rvals fn st =
  match range_vals fn st (map (cons (ad_key (m_def y))) l) with
  | (st', true) => Panic
  | (st', false) => Val (st', None)
  end.
Proof.
  intros Hj Hr. unfold model_RangeMatches. rewrite Hj. rewrite reported_walk in Hr.
  unfold RangeMatches. rewrite helper_walk. unfold finish.
  rewrite consume_map. destruct (walk _ _ _ _ _ _ _ _) as [ys s]. cbn [fst snd]. exists ys.
  destruct s; try discriminate. destruct (range_vals fn st _) as [st' [|]]; reflexivity.
Qed.

Lemma range_collects E o m j y rDef rvals :
  nth_error (md_mats m) j = Some y ->
  model_RangeMatches E o m j rDef rvals (fun l r => (l ++ [r], true)) [] =
  obind (reported (e_eval E (functions o m)) (o_match o) y rDef rvals)
    (fun r => Val (map (cons (ad_key (m_def y))) (fst r), snd r)).
Proof.
  intros Hj. destruct (reported (e_eval E (functions o m)) (o_match o) y rDef rvals) as [[l err]|] eqn:Er.
  - erewrite range_reported by eauto. rewrite collect_all. reflexivity.
  - destruct (range_reported_panic E o m j y rDef rvals (fun l r => (l ++ [r], true)) [] Hj Er) as [l ->].
    now rewrite collect_all.
Qed.

(** ** A context is made by building matchers only *)
Definition adhoc (o : orders) (oc : orders * mcall) : Prop := fst oc = o /\ exists t, snd oc = CAdhoc t.

Lemma text_adhoc E o m x t m' x' err : setMatcherText E o m x t = Val (m', x', err) ->
  exists rs, mexec E m [(o, CAdhoc t)] = Val (m', rs).
Proof.
  unfold setMatcherText. intros H. apply obind_val in H as [[m1 r] [Eb H]].
  exists [mkRes true (match r with inr e => Some e | inl _ => None end) []].
  cbn [mexec mstep]. rewrite Eb. cbn [obind]. destruct r; injection H as <- <- <-; reflexivity.
Qed.
Lemma option_adhoc E o m x op m' x' err : option_apply E o m x op = Val (m', x', err) ->
  exists ha rs, Forall (adhoc o) ha /\ mexec E m ha = Val (m', rs).
Proof.
  assert (N : forall m', m' = m -> exists ha rs, Forall (adhoc o) ha /\ mexec E m ha = Val (m', rs)).
  { intros ? ->. exists [], []. split; [constructor|reflexivity]. }
  assert (T : forall t m' x' err, setMatcherText E o m x t = Val (m', x', err) -> exists ha rs, Forall (adhoc o) ha /\ mexec E m ha = Val (m', rs)).
  { intros t m1 x1 e1 H. destruct (text_adhoc _ _ _ _ _ _ _ _ H) as [rs Hx]. exists [(o, CAdhoc t)], rs. split; [|exact Hx].
    constructor; [split; [reflexivity|now exists t]|constructor]. }
  intros H. destruct op; cbn [option_apply] in H.
  - destruct (String.eqb s ""); [injection H as <- <- <-; now apply N|].
    destruct (mget s (md_mMap m)); [injection H as <- <- <-; now apply N|]. eapply T; eauto.
  - eapply T; eauto.
  - injection H as <- <- <-. now apply N.
  - destruct (String.eqb s ""); [injection H as <- <- <-; now apply N|].
    apply obind_val in H as [d [_ H]]. injection H as <- <- <-. now apply N.
  - injection H as <- <- <-. now apply N.
  - destruct (String.eqb s ""); injection H as <- <- <-; now apply N.
  - injection H as <- <- <-. now apply N.
  - injection H as <- <- <-. now apply N.
Qed.
Lemma adhoc_trans E o m m1 m2 :
  (exists ha rs, Forall (adhoc o) ha /\ mexec E m ha = Val (m1, rs)) ->
  (exists ha rs, Forall (adhoc o) ha /\ mexec E m1 ha = Val (m2, rs)) ->
  exists ha rs, Forall (adhoc o) ha /\ mexec E m ha = Val (m2, rs).
Proof.
  intros [ha [ra [Fa Ha]]] [hb [rb [Fb Hb]]]. exists (ha ++ hb), (ra ++ rb). split; [now apply Forall_app|].
  apply mexec_app. exists m1, ra, rb. auto.
Qed.
Lemma options_adhoc E o ops : forall m x m' x' err, apply_options E o m x ops = Val (m', x', err) ->
  exists ha rs, Forall (adhoc o) ha /\ mexec E m ha = Val (m', rs).
Proof.
  induction ops as [|op ops IH]; intros m x m' x' err H; cbn [apply_options] in H.
  - injection H as <- <- <-. exists [], []. split; [constructor|reflexivity].
  - apply obind_val in H as [[[m1 x1] e1] [Eo H]]. apply option_adhoc in Eo.
    destruct e1; [injection H as <- <- <-; exact Eo|]. eapply adhoc_trans; eauto.
Qed.
Lemma context_adhoc E o m ops m' c : NewContext E o m ops = Val (m', c) ->
  exists ha rs, Forall (adhoc o) ha /\ mexec E m ha = Val (m', rs).
Proof.
  unfold NewContext. intros H. apply obind_val in H as [[[m1 x1] e1] [Eo H]]. apply options_adhoc in Eo.
  destruct e1; [injection H as <- <-; exact Eo|].
  apply obind_val in H as [[[m2 x2] e2] [E2 H]]. apply obind_val in H as [[[m3 x3] e3] [E3 H]]. apply obind_val in H as [[[m4 x4] e4] [E4 H]].
  injection H as <- <-.
  assert (N : forall m (x x' : ctx) op m' e, match op with Some p => option_apply E o m x p | None => Val (m, x, None) end = Val (m', x', e) ->
            exists ha rs, Forall (adhoc o) ha /\ mexec E m ha = Val (m', rs)).
  { intros ma xa xb [p|] mb e Hx; [eapply option_adhoc; eauto|]. injection Hx as <- <- <-. exists [], []. split; [constructor|reflexivity]. }
  eapply adhoc_trans; [exact Eo|]. eapply adhoc_trans; [|eapply adhoc_trans].
  - apply (N m1 x1 x2 (match c_r x1 with None => Some (ORequest "r") | Some _ => None end) m2 e2). destruct (c_r x1); exact E2.
  - apply (N m2 x2 x3 (match c_m x2 with None => Some (OMatcher "m") | Some _ => None end) m3 e3). destruct (c_m x2); exact E3.
  - apply (N m3 x3 x4 (match c_e x3 with None => Some (OEffect "e") | Some _ => None end) m4 e4). destruct (c_e x3); exact E4.
Qed.

(** Building matchers does not change any map of the model. *)
Lemma adhoc_maps E o ha : forall m m' rs, Forall (adhoc o) ha -> mexec E m ha = Val (m', rs) ->
  same_defs m m' /\ md_pMap m' = md_pMap m /\ md_rpMap m' = md_rpMap m /\ md_fm m' = md_fm m /\ md_eMap m' = md_eMap m.
Proof.
  induction ha as [|[o' c] ha IH]; intros m m' rs F H; cbn [mexec] in H.
  - injection H as <- <-. repeat split.
  - inversion F as [|? ? [Eo [t Ec]] F']; subst. cbn in Ec. subst c. cbn [mstep] in H.
    apply obind_val in H as [[m1 r1] [Es H]]. apply obind_val in H as [[m2 rs2] [Ee H]]. injection H as <- <-.
    apply obind_val in Es as [[m3 r3] [Eb Es]]. injection Es as <- <-. apply buildfrom_maps in Eb. apply IH in Ee; [|assumption].
    destruct Eb as [(A1 & A2 & A3 & A4 & A5) [A6 [A7 [A8 A9]]]], Ee as [(B1 & B2 & B3 & B4 & B5) [B6 [B7 [B8 B9]]]].
    unfold same_defs. repeat split; congruence.
Qed.
Lemma buildfrom_mMap E o m expr m' r : BuildMatcherFromDef E o m expr = Val (m', r) -> md_mMap m' = md_mMap m /\ md_rms m' = md_rms m.
Proof.
  unfold BuildMatcherFromDef. intros H. destruct (Build _ _ _) as [root|e]; [|injection H as <- <-; auto].
  destruct (first_byte _); [|discriminate]. destruct (if Ascii.eqb _ "p" then _ else _) as [d|]; [|injection H as <- <-; auto].
  destruct (GetPolicy _ _) as [i|]; [|injection H as <- <-; auto].
  destruct (nth_error (md_objs m) i) as [ob|]; [|discriminate].
  destruct (NewMatcher _ _ _) as [x|]; cbn in H; [|discriminate]. injection H as <- <-. auto.
Qed.

(** ** Which names the maps of effectors and matchers have *)
Record Names (m : model) : Prop := mkNames {
  n_e : forall k v, mget k (md_eMap m) = Some v -> key_of E_SEC k;
  n_m : forall k v, mget k (md_mMap m) = Some v -> key_of M_SEC k
}.
Lemma buildkey_names E o m k m' r : key_of M_SEC k \/ mget k (md_m m) = None -> BuildMatcher E o m k = Val (m', r) -> Names m -> Names m'.
Proof.
  intros Hk H [A B]. unfold BuildMatcher in H. destruct (mget k (md_m m)) as [expr|] eqn:Ek; [|injection H as <- <-; now constructor].
  destruct Hk as [Hk|Hk]; [|discriminate].
  apply obind_val in H as [[m1 r1] [Eb H]]. pose proof (buildfrom_maps _ _ _ _ _ _ Eb) as (_ & _ & _ & _ & Ee).
  destruct (buildfrom_mMap _ _ _ _ _ _ Eb) as [Em _].
  destruct r1 as [j|e]; injection H as <- <-; constructor; cbn [md_eMap md_mMap set_mMap]; rewrite ?Ee, ?Em; auto.
  intros k0 v. rewrite mget_put. destruct (String.eqb_spec k0 k) as [->|]; [auto|apply B].
Qed.
Lemma loop_names E o keys : forall m m' r, (forall k, key_of M_SEC k \/ mget k (md_m m) = None) -> build_loop E o m keys = Val (m', r) -> Names m -> Names m'.
Proof.
  induction keys as [|k keys IH]; intros m m' r Hk H N; cbn [build_loop] in H; [injection H as <- <-; exact N|].
  apply obind_val in H as [[m1 e1] [Eb H]]. pose proof (buildkey_names _ _ _ _ _ _ (Hk k) Eb N) as N1.
  destruct e1; [injection H as <- <-; exact N1|].
  apply buildkey_maps in Eb as [(_ & _ & _ & _ & A) _]. apply IH in H; auto. intros k0. rewrite A. apply Hk.
Qed.
Lemma m_keys h m : Defs h m -> forall k, key_of M_SEC k \/ mget k (md_m m) = None.
Proof.
  intros D k. destruct (mget k (md_m m)) as [v|] eqn:Ek; [|now right]. left. apply (f_keys _ _ D M_SEC). cbn. eapply DomainP5.mget_key; eauto.
Qed.
Lemma names_step E o m c m' r h : Defs h m -> mstep E o m c = Val (m', r) -> Names m -> Names m'.
Proof.
  intros D H N. destruct c; cbn [mstep] in H.
  - destruct N as [A B]. unfold SetDef in H. destruct (keyPrefix s) as [cc|] eqn:Es; [|cbn in H; injection H as <- <-; now constructor].
    destruct (first_byte key) as [c'|] eqn:Ek; [|discriminate].
    destruct (Ascii.eqb_spec c' cc) as [->|]; cbn in H; injection H as <- <-; [|now constructor].
    destruct s; constructor; cbn; auto. intros k v. rewrite mget_put. destruct (String.eqb_spec k key) as [->|]; [|apply A].
    intros _. cbn in Es. injection Es as <-. exists "e"%char. auto.
  - destruct N as [A B]. destruct s; cbn in H; injection H as <- <-; constructor; cbn; auto.
    + intros k v. rewrite mget_del. destruct (String.eqb k key); [discriminate|apply A].
    + intros k v. rewrite mget_del. destruct (String.eqb k key); [discriminate|apply B].
  - apply obind_val in H as [[[[m1 b] e] es] [Es H]]. injection H as <- <-. apply add_maps in Es as (_ & _ & F & _ & _ & _ & _ & _ & G & _).
    destruct N. constructor; rewrite ?F, ?G; auto.
  - apply obind_val in H as [[[[m1 b] e] es] [Es H]]. injection H as <- <-. apply remove_maps in Es as (_ & _ & F & _ & _ & _ & _ & _ & G & _).
    destruct N. constructor; rewrite ?F, ?G; auto.
  - apply obind_val in H as [[m1 e] [Es H]]. injection H as <- <-. apply clear_maps in Es as (_ & _ & F & _ & _ & _ & _ & _ & G & _).
    destruct N. constructor; rewrite ?F, ?G; auto.
  - apply obind_val in H as [[m1 e] [Es H]]. injection H as <- <-. eapply loop_names; eauto. eapply m_keys; eauto.
  - apply obind_val in H as [[m1 e] [Es H]]. injection H as <- <-. eapply buildkey_names; eauto. eapply m_keys; eauto.
  - apply obind_val in H as [[m1 e] [Es H]]. injection H as <- <-. destruct (buildfrom_mMap _ _ _ _ _ _ Es) as [F _].
    apply buildfrom_maps in Es as (_ & _ & _ & _ & G). destruct N. constructor; rewrite ?F, ?G; auto.
  - injection H as <- <-. destruct N. now constructor.
  - injection H as <- <-. destruct N. now constructor.
  - cbn in H. injection H as <- <-. destruct N. now constructor.
Qed.
Lemma names_exec E h : forall m rs, mexec E (NewModel E) h = Val (m, rs) -> Names m.
Proof.
  induction h as [|[o c] h IH] using rev_ind; intros m rs H.
  - injection H as <- <-. constructor; discriminate.
  - apply mexec_snoc_inv in H as [m1 [rs1 [x [H1 [Hs _]]]]]. eapply names_step; eauto. eapply defs_exec; eauto.
Qed.

(** ** The effect a context ends up with *)
Lemma effect_lookup h m s : Defs h m -> Names m ->
  match mget s (md_eMap m) with Some expr => expr | None => ed_expr (NewEffectDef "" s) end = no_spaces (effect_named h s).
Proof.
  intros D N. destruct (mget s (md_eMap m)) as [v|] eqn:Es.
  - pose proof (n_e _ N _ _ Es) as K. pose proof K as [c [K1 K2]]. cbn in K1. injection K1 as <-.
    rewrite (f_eff _ _ D s K) in Es. unfold effect_named. rewrite K2. destruct (def_text E_SEC s h); [|discriminate].
    cbn in Es. injection Es as <-. reflexivity.
  - cbn. f_equal. unfold effect_named. destruct (first_byte s) as [c|] eqn:Ec; [|reflexivity].
    destruct (ascii_dec c "e") as [->|Hne].
    + assert (K : key_of E_SEC s) by (exists "e"%char; auto). rewrite (f_eff _ _ D s K) in Es. destruct (def_text E_SEC s h); [discriminate|reflexivity].
    + destruct c as [[] [] [] [] [] [] [] []]; try reflexivity. congruence.
Qed.

Definition e_val (x : ctx) (dflt : string) : string := match c_e x with Some e => e | None => no_spaces dflt end.
Lemma option_effect E o h m x op m' x' : Defs h m -> Names m -> option_apply E o m x op = Val (m', x', None) ->
  forall acc, e_val x acc = no_spaces acc -> e_val x' (effect_option h acc op) = no_spaces (effect_option h acc op).
Proof.
  intros D N H acc Hx.
  assert (T : forall t, setMatcherText E o m x t = Val (m', x', None) -> c_e x' = c_e x).
  { intros t Ht. unfold setMatcherText in Ht. apply obind_val in Ht as [[m1 r] [_ Ht]]. destruct r; [|discriminate]. injection Ht as <- <-. reflexivity. }
  destruct op; cbn [option_apply effect_option] in *.
  - destruct (String.eqb s ""); [injection H as <- <-; exact Hx|]. destruct (mget s (md_mMap m)).
    + injection H as <- <-. exact Hx.
    + unfold e_val. rewrite (T _ H). exact Hx.
  - unfold e_val. rewrite (T _ H). exact Hx.
  - injection H as <- <-. exact Hx.
  - destruct (String.eqb s ""); [injection H as <- <-; exact Hx|]. apply obind_val in H as [d [_ H]]. injection H as <- <-. exact Hx.
  - injection H as <- <-. exact Hx.
  - destruct (String.eqb s ""); [injection H as <- <-; exact Hx|]. injection H as <- <-. unfold e_val. cbn [c_e]. now apply effect_lookup.
  - injection H as <- <-. reflexivity.
  - injection H as <- <-. exact Hx.
Qed.
(** A definition is unchanged by building matchers. *)
Lemma adhoc_def s k h ha o : Forall (adhoc o) ha -> def_text s k (h ++ ha) = def_text s k h.
Proof.
  intros F. induction ha as [|[o' c] ha IH] using rev_ind; [now rewrite app_nil_r|].
  apply Forall_app in F as [F Fc]. inversion Fc as [|? ? [_ [t Ec]] _]; subst. cbn in Ec. subst c.
  rewrite app_assoc, def_text_snoc, IH by exact F. reflexivity.
Qed.
Lemma adhoc_effect h ha o s : Forall (adhoc o) ha -> effect_named (h ++ ha) s = effect_named h s.
Proof. intros F. unfold effect_named. now rewrite (adhoc_def _ _ _ _ _ F). Qed.

Definition reach (E : env) (h : list (orders * mcall)) (m : model) : Prop := exists rs, mexec E (NewModel E) h = Val (m, rs).
Lemma reach_app E h ha m m' rs : reach E h m -> mexec E m ha = Val (m', rs) -> reach E (h ++ ha) m'.
Proof. intros [r1 H1] H2. exists (r1 ++ rs). apply mexec_app. exists m, r1, rs. auto. Qed.
Lemma reach_defs E h m : reach E h m -> Defs h m /\ Names m.
Proof. intros [rs H]. split; [eapply defs_exec; eauto|eapply names_exec; eauto]. Qed.

Lemma option_effect_hist h ha o acc op : Forall (adhoc o) ha -> effect_option (h ++ ha) acc op = effect_option h acc op.
Proof. intros F. destruct op; cbn; try reflexivity. now rewrite (adhoc_effect _ _ _ _ F). Qed.

Lemma options_effect E o ops : forall h m x m' x', reach E h m -> apply_options E o m x ops = Val (m', x', None) ->
  forall acc, e_val x acc = no_spaces acc -> e_val x' (fold_left (effect_option h) ops acc) = no_spaces (fold_left (effect_option h) ops acc).
Proof.
  induction ops as [|op ops IH]; intros h m x m' x' R H acc Hx; cbn [apply_options fold_left] in *.
  - injection H as <- <-. exact Hx.
  - apply obind_val in H as [[[m1 x1] e1] [Eo H]]. destruct e1; [discriminate|].
    destruct (reach_defs _ _ _ R) as [D N]. pose proof (option_effect _ _ _ _ _ _ _ _ D N Eo acc Hx) as H1.
    destruct (option_adhoc _ _ _ _ _ _ _ _ Eo) as [ha [rs [F Hm]]].
    specialize (IH (h ++ ha) m1 x1 m' x' (reach_app _ _ _ _ _ _ R Hm) H _ H1).
    assert (Ef : forall ops acc, fold_left (effect_option (h ++ ha)) ops acc = fold_left (effect_option h) ops acc).
    { clear -F. induction ops as [|op ops IH]; intros acc; [reflexivity|]. cbn. now rewrite (option_effect_hist _ _ _ _ _ F), IH. }
    now rewrite Ef in IH.
Qed.

Lemma context_effect E o h m ops m' x : reach E h m -> NewContext E o m ops = Val (m', inl x) ->
  c_e x = Some (no_spaces (fold_left (effect_option h) ops (effect_named h "e"))).
Proof.
  intros R H. unfold NewContext in H. apply obind_val in H as [[[m1 x1] e1] [E1 H]].
  destruct e1; [discriminate|].
  pose proof (options_effect E o ops h m ctx0 m1 x1 R E1 (effect_named h "e") eq_refl) as H1.
  destruct (options_adhoc _ _ _ _ _ _ _ _ E1) as [ha [rs1 [Fa Ha]]].
  pose proof (reach_app _ _ _ _ _ _ R Ha) as R1.
  apply obind_val in H as [[[m2 x2] e2] [E2 H]]. apply obind_val in H as [[[m3 x3] e3] [E3 H]]. apply obind_val in H as [[[m4 x4] e4] [E4 H]].
  injection H as <- <-.
  assert (T : forall m x t m' x' e, setMatcherText E o m x t = Val (m', x', e) -> c_e x' = c_e x).
  { intros ma xa t mb xb e Ht. unfold setMatcherText in Ht. apply obind_val in Ht as [[mc r] [_ Ht]]. destruct r; injection Ht as <- <- <-; reflexivity. }
  assert (X2 : c_e x2 = c_e x1 /\ m2 = m1).
  { destruct (c_r x1); [injection E2 as <- <- <-; auto|]. cbn in E2. apply obind_val in E2 as [d [_ E2]]. injection E2 as <- <- <-. auto. }
  assert (X3 : c_e x3 = c_e x2 /\ exists hb rs, Forall (adhoc o) hb /\ mexec E m2 hb = Val (m3, rs)).
  { destruct (c_m x2).
    - injection E3 as <- <- <-. split; [reflexivity|]. exists [], []. split; [constructor|reflexivity].
    - split; [|eapply option_adhoc; eauto]. cbn [option_apply String.eqb] in E3. destruct (mget "m"%string (md_mMap m2)); [injection E3 as <- <- <-; reflexivity|]. eapply T; eauto. }
  destruct X2 as [X2 ->]. destruct X3 as [X3 [hb [rs2 [Fb Hb]]]]. pose proof (reach_app _ _ _ _ _ _ R1 Hb) as R2.
  destruct (reach_defs _ _ _ R2) as [D N].
  destruct (c_e x3) as [e|] eqn:E5.
  - injection E4 as <- <- <-. rewrite E5. f_equal. unfold e_val in H1. rewrite <- X2, <- X3 in H1. exact H1.
  - cbn in E4. injection E4 as <- <- <-. cbn [c_e]. f_equal.
    etransitivity; [apply (effect_lookup _ _ "e" D N)|]. rewrite !(adhoc_effect _ _ _ _ Fb), (adhoc_effect _ _ _ _ Fa).
    unfold e_val in H1. rewrite <- X2, <- X3 in H1.
    (* no effect option was given *)
    assert (Z : forall ops m x m' x' acc, apply_options E o m x ops = Val (m', x', None) -> c_e x' = None -> c_e x = None /\ fold_left (effect_option h) ops acc = acc).
    { clear -T. induction ops as [|op ops IH]; intros m x m' x' acc H1 H2; cbn [apply_options fold_left] in *.
      - injection H1 as <- <-. auto.
      - apply obind_val in H1 as [[[m1 x1] e1] [Eo H1]]. destruct e1; [discriminate|].
        destruct (IH _ _ _ _ (effect_option h acc op) H1 H2) as [A B]. rewrite B.
        destruct op; cbn [option_apply effect_option] in *.
        + destruct (String.eqb s ""); [injection Eo as <- <-; auto|]. destruct (mget s (md_mMap m)); [injection Eo as <- <-; auto|].
          apply T in Eo. rewrite Eo in A. auto.
        + apply T in Eo. rewrite Eo in A. auto.
        + injection Eo as <- <-. auto.
        + destruct (String.eqb s ""); [injection Eo as <- <-; auto|]. apply obind_val in Eo as [d [_ Eo]]. injection Eo as <- <-. auto.
        + injection Eo as <- <-. auto.
        + destruct (String.eqb s ""); injection Eo as <- <-; [auto|discriminate].
        + injection Eo as <- <-. discriminate.
        + injection Eo as <- <-. auto. }
    destruct (Z ops m ctx0 m1 x1 (effect_named h "e") E1 ltac:(congruence)) as [_ ->]. reflexivity.
Qed.

(** ** Enforce is the decision on what Filter reports *)
Lemma effect_ext d h l k t :
  def_text P_SEC k h = Some t -> d = NewPolicyDef k t ->
  Forall (fun r => exists v, r = k :: v) l -> map (GetEft d) l = map (rule_effect h) l.
Proof.
  intros Ht -> F. induction F as [|r l [v ->] F IH]; [reflexivity|]. cbn [map rule_effect]. now rewrite Ht, IH.
Qed.

Lemma enforce_filter E o h m ps m1 b e m2 ms err : reach E h m ->
  Enforce E o m ps = Val (m1, (b, e)) -> Filter E o m ps = Val (m2, (ms, err)) ->
  m1 = m2 /\
  ((exists e0, splitParams E o m ps = Val (m1, inr e0, vals_of ps) /\ err = Some e0 /\ e = Some e0 /\ b = false /\ ms = []) \/
   (exists k t, def_text P_SEC k h = Some t /\ Forall (fun r => exists v, r = k :: v) ms /\
      decide (no_spaces (effect_in_force h ps)) (NewPolicyDef k t) ms err = Val (b, e))).
Proof.
  intros R HE HF. unfold Enforce in HE. unfold Filter, enforcer_RangeMatches in HF.
  apply obind_val in HE as [[[m' c] rvals] [Es HE]]. rewrite Es in HF. cbn [obind] in HF.
  assert (Es2 := Es). unfold splitParams in Es2. apply obind_val in Es2 as [[m'' c'] [Ec Es2]]. injection Es2 as <- <- <-.
  destruct c' as [x|e0].
  - apply obind_val in HE as [[b' e'] [HE H1]]. injection H1 as <- <- <-.
    apply obind_val in HF as [[ms' err'] [HF H1]]. injection H1 as <- <- <-.
    split; [reflexivity|]. right.
    destruct (context_adhoc _ _ _ _ _ _ Ec) as [ha [rs [Fa Ha]]].
    pose proof (context_effect _ _ _ _ _ _ _ R Ec) as He.
    pose proof (reach_app _ _ _ _ _ _ R Ha) as R1. destruct (reach_defs _ _ _ R1) as [D N].
    unfold enforce in HE. unfold RangeMatchesWithContext in HE, HF. destruct (c_m x) as [j|]; [|discriminate].
    destruct (nth_error (md_mats m'') j) as [y|] eqn:Ej; [|discriminate].
    destruct (mget (ad_key (m_def y)) (md_p m'')) as [pDef|] eqn:Ep; [|discriminate].
    rewrite He in HE. destruct (c_r x) as [rDef|]; [|discriminate].
    assert (K : key_of P_SEC (ad_key (m_def y))) by (apply (f_keys _ _ D P_SEC); cbn; eapply DomainP5.mget_key; eauto).
    rewrite (f_p _ _ D _ K), (adhoc_def _ _ _ _ _ Fa) in Ep. destruct (def_text P_SEC (ad_key (m_def y)) h) as [t|] eqn:Et; [|discriminate].
    cbn in Ep. injection Ep as <-.
    rewrite (range_collects _ _ _ _ _ _ _ Ej) in HF. apply obind_val in HF as [[l er] [Er HF]]. cbn [fst snd] in HF. injection HF as <- <-.
    rewrite (range_reported _ _ _ _ _ _ _ _ _ _ _ Ej Er) in HE.
    exists (ad_key (m_def y)), t. split; [exact Et|]. split; [apply Forall_forall; intros r Hr; apply in_map_iff in Hr as [v [<- _]]; eauto|].
    unfold decide, effect_in_force. destruct (range_vals _ _ _) as [st' [|]]; exact HE.
  - injection HE as <- <- <-. injection HF as <- <- <-. split; [reflexivity|]. left. exists e0. repeat split; auto.
Qed.

(** ** Calls that name matchers and request definitions of the model *)
Lemma options_named E o m mk rk j d ops : mk <> ""%string -> rk <> ""%string ->
  mget mk (md_mMap m) = Some j -> mget rk (md_r m) = Some d ->
  Forall (fun op => match op with OMatcher s => s = ""%string \/ s = mk | OMatcherDef _ | OMatcherVal _ => False | _ => True end) ops ->
  Forall (fun op => match op with ORequest s => s = ""%string \/ s = rk | ORequestDef _ => False | _ => True end) ops ->
  forall x, (c_m x = None \/ c_m x = Some j) -> (c_r x = None \/ c_r x = Some d) ->
  exists x', apply_options E o m x ops = Val (m, x', None) /\
    (c_m x' = Some j \/ (c_m x' = c_m x /\ ~ In (OMatcher mk) ops)) /\ (c_r x' = Some d \/ (c_r x' = c_r x /\ ~ In (ORequest rk) ops)).
Proof.
  intros Nm Nr Hm Hr Fm Fr. induction ops as [|op ops IH]; intros x Cm Cr.
  - exists x. cbn. split; [reflexivity|]. split; right; auto.
  - inversion Fm as [|? ? Om Fm']; subst. inversion Fr as [|? ? Or Fr']; subst. specialize (IH Fm' Fr').
    assert (S : forall x1, (c_m x1 = None \/ c_m x1 = Some j) -> (c_r x1 = None \/ c_r x1 = Some d) ->
       option_apply E o m x op = Val (m, x1, None) ->
       (op = OMatcher mk -> c_m x1 = Some j) -> (op <> OMatcher mk -> c_m x1 = c_m x) ->
       (op = ORequest rk -> c_r x1 = Some d) -> (op <> ORequest rk -> c_r x1 = c_r x) ->
       exists x', apply_options E o m x (op :: ops) = Val (m, x', None) /\
        (c_m x' = Some j \/ (c_m x' = c_m x /\ ~ In (OMatcher mk) (op :: ops))) /\ (c_r x' = Some d \/ (c_r x' = c_r x /\ ~ In (ORequest rk) (op :: ops)))).
    { intros x1 C1 C2 Ea Q1 Q2 Q3 Q4. destruct (IH x1 C1 C2) as [x' [A [B C]]]. exists x'. cbn [apply_options]. rewrite Ea. cbn [obind].
      split; [exact A|].
      assert (Dm : op = OMatcher mk \/ op <> OMatcher mk).
      { destruct op; try (right; discriminate). destruct (string_dec s mk) as [->|]; [now left|right; congruence]. }
      assert (Dr : op = ORequest rk \/ op <> ORequest rk).
      { destruct op; try (right; discriminate). destruct (string_dec s rk) as [->|]; [now left|right; congruence]. }
      split.
      - destruct B as [B|[B1 B2]]; [now left|]. destruct Dm as [Dm|Dm]; [left; rewrite B1; auto|].
        right. split; [rewrite B1; auto|]. intros [X|X]; auto.
      - destruct C as [C|[C3 C4]]; [now left|]. destruct Dr as [Dr|Dr]; [left; rewrite C3; auto|].
        right. split; [rewrite C3; auto|]. intros [X|X]; auto. }
    destruct op; cbn [option_apply] in *; try contradiction.
    + destruct (String.eqb_spec s "") as [->|Hs].
      * apply (S x); auto; try discriminate. intros X. injection X as X. congruence.
      * destruct Om as [Om|Om]; [congruence|]. subst s. rewrite Hm in *. eapply S; [| |reflexivity|..]; cbn; auto; try discriminate. congruence.
    + destruct (String.eqb_spec s "") as [->|Hs].
      * apply (S x); auto; try discriminate. intros X. injection X as X. congruence.
      * destruct Or as [Or|Or]; [congruence|]. subst s. unfold GetRequestDef in S |- *. rewrite Hr in *. cbn [obind] in *.
        eapply S; [| |reflexivity|..]; cbn; auto; try discriminate. congruence.
    + destruct (String.eqb s ""); (eapply S; [| |reflexivity|..]; cbn; auto; discriminate).
    + eapply S; [| |reflexivity|..]; cbn; auto; discriminate.
    + eapply S; [| |reflexivity|..]; cbn; auto; discriminate.
Qed.

Lemma context_named E o m mk rk j d ps : mk <> ""%string -> rk <> ""%string ->
  mget mk (md_mMap m) = Some j -> mget rk (md_r m) = Some d -> uses_matcher mk ps -> uses_request rk ps ->
  exists x, splitParams E o m ps = Val (m, inl x, vals_of ps) /\ c_m x = Some j /\ c_r x = Some d.
Proof.
  intros Nm Nr Hm Hr [Fm Dm] [Fr Dr].
  destruct (options_named E o m mk rk j d (opts_of ps) Nm Nr Hm Hr Fm Fr ctx0) as [x [A [B C]]]; [now left|now left|].
  unfold splitParams, NewContext. rewrite A. cbn [obind].
  assert (X : exists x1, (match c_r x with None => option_apply E o m x (ORequest "r") | Some _ => Val (m, x, None) end) = Val (m, x1, None) /\
            c_r x1 = Some d /\ c_m x1 = c_m x).
  { destruct C as [C|[C1 C2]].
    - rewrite C. exists x. auto.
    - destruct Dr as [->|]; [|contradiction]. rewrite C1. cbn. unfold GetRequestDef. rewrite Hr. cbn. eexists. split; [reflexivity|]. cbn. auto. }
  destruct X as [x1 [-> [X1 X2]]]. cbn [obind].
  assert (X : exists x2, (match c_m x1 with None => option_apply E o m x1 (OMatcher "m") | Some _ => Val (m, x1, None) end) = Val (m, x2, None) /\
            c_r x2 = Some d /\ c_m x2 = Some j).
  { rewrite X2. destruct B as [B|[B1 B2]].
    - rewrite B. exists x1. split; [reflexivity|]. split; congruence.
    - destruct Dm as [->|]; [|contradiction]. rewrite B1. cbn. rewrite Hm. eexists. split; [reflexivity|]. cbn. auto. }
  destruct X as [x2 [-> [Y1 Y2]]]. cbn [obind].
  destruct (c_e x2); cbn [obind].
  - exists x2. auto.
  - cbn. eexists. split; [reflexivity|]. cbn. auto.
Qed.

Lemma key_of_ne s k : key_of s k -> k <> ""%string.
Proof. intros [c [_ H]] ->. discriminate. Qed.

Lemma in_service_lives E h m rs mk root ptext h1 h2 : good_m h -> mexec E (NewModel E) h = Val (m, rs) ->
  in_service E h mk root ptext h1 h2 ->
  exists j y, mget mk (md_mMap m) = Some j /\ nth_error (md_mats m) j = Some y /\
    lives (NewPolicyDef (GetPolicyKey root) ptext) root h1 h2 y /\ mget (GetPolicyKey root) (md_p m) = Some (NewPolicyDef (GetPolicyKey root) ptext) /\
    p_history (GetPolicyKey root) h = Some (h1 ++ h2).
Proof.
  intros G H (K & Kp & ha & o & c & hb & m1 & rs1 & m2 & x & expr & -> & Hc & Ha & Hs & Hx & Ht & HB & F & Hp & H1 & ->).
  apply Forall_app in G as [Ga Gb]. inversion Gb as [|? ? Go Gb']; subst. cbn in Go.
  pose proof H as H0. apply mexec_app in H as [m1' [ra [rb [Ha' [Hb Hrs]]]]]. rewrite Ha in Ha'. injection Ha' as <- <-.
  cbn [mexec] in Hb. rewrite Hs in Hb. cbn [obind] in Hb. apply obind_val in Hb as [[m3 rs3] [Hb E3]]. injection E3 as E3 _. subst m3.
  destruct (matcher_lives E ha o c hb mk m1 rs1 m2 x m rs3 expr root Ga Go Gb' Hc Ha Hs Hx Hb K Ht HB Kp F)
    as [pt [ops [j [y [A1 [A2 [A3 [A4 A5]]]]]]]].
  rewrite Hp in A1. injection A1 as <-. rewrite H1 in A2. injection A2 as <-.
  exists j, y. split; [exact A3|]. split; [exact A4|]. split; [exact A5|].
  pose proof (defs_exec _ _ _ _ H0) as D.
  assert (Hd : def_text P_SEC (GetPolicyKey root) (ha ++ (o, c) :: hb) = Some ptext).
  { clear -Hp F Hc. revert Hp. unfold def_text. rewrite map_app, fold_left_app. cbn [map fold_left snd]. intros ->.
    assert (Ec : def_step P_SEC (GetPolicyKey root) (Some ptext) c = Some ptext) by (destruct Hc as [-> | ->]; reflexivity).
    rewrite Ec. clear Ec Hc. induction F as [|[o' c'] hb Hc F IH]; [reflexivity|]. cbn [map fold_left snd].
    assert (Ec : def_step P_SEC (GetPolicyKey root) (Some ptext) c' = Some ptext); [|now rewrite Ec].
    cbn in Hc. destruct c'; cbn [def_step]; try reflexivity; destruct s; cbn [sec_eqb andb]; try reflexivity;
      (destruct (String.eqb_spec key (GetPolicyKey root)); [congruence|reflexivity]). }
  split.
  - rewrite (f_p _ _ D); [now rewrite Hd|]. exists "p"%char. auto.
  - destruct (p_history_more (GetPolicyKey root) mk (ha ++ [(o, c)]) hb h1 F) as [P1 _].
    + rewrite p_history_snoc, H1. destruct Hc as [-> | ->]; reflexivity.
    + rewrite <- app_assoc in P1. exact P1.
Qed.

(** Filter and Enforce through a matcher in service. *)
Lemma query_in_service E h m rs mk root ptext h1 h2 rk rtext o ps : good_m h -> mexec E (NewModel E) h = Val (m, rs) ->
  in_service E h mk root ptext h1 h2 -> uses_matcher mk ps -> uses_request rk ps -> key_of R_SEC rk -> def_text R_SEC rk h = Some rtext ->
  exists y, lives (NewPolicyDef (GetPolicyKey root) ptext) root h1 h2 y /\
    Filter E o m ps = obind (reported (e_eval E (functions o m)) (o_match o) y (NewRequestDef rk rtext) (vals_of ps))
                        (fun r => Val (m, (map (cons (GetPolicyKey root)) (fst r), snd r))) /\
    forall l err, reported (e_eval E (functions o m)) (o_match o) y (NewRequestDef rk rtext) (vals_of ps) = Val (l, err) ->
      Enforce E o m ps =
      obind (decide (no_spaces (effect_in_force h ps)) (NewPolicyDef (GetPolicyKey root) ptext) (map (cons (GetPolicyKey root)) l) err)
        (fun r => Val (m, r)).
Proof.
  intros G H S Um Ur Kr Hr. destruct (in_service_lives _ _ _ _ _ _ _ _ _ G H S) as [j [y [A1 [A2 [A3 [A4 A5]]]]]].
  pose proof (defs_exec _ _ _ _ H) as D. destruct S as [Km _].
  assert (Er : mget rk (md_r m) = Some (NewRequestDef rk rtext)) by (rewrite (f_r _ _ D _ Kr), Hr; reflexivity).
  destruct (context_named E o m mk rk j (NewRequestDef rk rtext) ps (key_of_ne _ _ Km) (key_of_ne _ _ Kr) A1 Er Um Ur) as [x [B1 [B2 B3]]].
  assert (Dy : m_def y = NewPolicyDef (GetPolicyKey root) ptext).
  { destruct A3 as (p1 & es1 & p2 & es2 & l & m0 & _ & _ & _ & Hn & He). apply NewMatcher_def in Hn as [Hd _].
    apply m_events_def in He as [He _]. congruence. }
  assert (Ky : ad_key (m_def y) = GetPolicyKey root) by now rewrite Dy.
  exists y. split; [exact A3|]. split.
  - unfold Filter, enforcer_RangeMatches. rewrite B1. cbn [obind]. unfold RangeMatchesWithContext. rewrite B2, B3.
    rewrite (range_collects _ _ _ _ _ _ _ A2), Ky. destruct (reported _ _ _ _ _) as [[l err]|]; reflexivity.
  - intros l err Hl. unfold Enforce. rewrite B1. cbn [obind]. unfold enforce. rewrite B2, A2, Ky, A4.
    assert (R : reach E h m) by now exists rs.
    assert (He : c_e x = Some (no_spaces (effect_in_force h ps))).
    { unfold splitParams in B1. apply obind_val in B1 as [[m' c] [Ec B1]]. injection B1 as -> ->.
      exact (context_effect _ _ _ _ _ _ _ R Ec). }
    rewrite He. unfold RangeMatchesWithContext. rewrite B2, B3, (range_reported _ _ _ _ _ _ _ _ _ _ _ A2 Hl), Ky.
    unfold decide. destruct (range_vals _ _ _) as [st [|]]; reflexivity.
Qed.
