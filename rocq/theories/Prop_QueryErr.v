(** Property C65: when Enforce and Filter panic instead of returning an error. *)
From Verif Require Import GoBase GoBaseP DefsM DefsP PolicyM PolicySpec EffectorM EffectorP MatcherDefM MatcherDefSpec MatcherM MatcherSpec MatcherP
  RbacM RbacSpec DomainM DomainSpec EvalM ModelM ModelSpec ModelP ModelP2 ModelP3 ModelP4 ModelP5 ModelP6 EnforcerM EnforcerSpec EnforcerP SafeSpec SafeP SimP Prop_Model Prop_Enforce Prop_Query Prop_Safe Prop_Pure.

(** ** The search

    The conditions that are evaluated: all but the root, whose text is empty. *)
Fixpoint conditions (s : stage) : list string :=
  match s with Stage _ cs => flat_map (fun c => stage_expr c :: conditions c) cs end.
Lemma walk_total E ord d rd vals tree : narrow tree = true ->
  (forall e r, In e (conditions tree) -> ev E e (ParamGet d r rd vals) <> Panic) ->
  forall at_ n (S : Type) (fn : S -> rule -> S * bool) st, rangeMatchesHelper E ord d rd vals fn tree at_ n st <> Panic.
Proof.
  intros N Ev. revert N Ev. induction tree as [e cs IH] using stage_ind2. intros N Ev. cbn [narrow] in N. cbn [conditions] in Ev. apply andb_true_iff in N as [Nl Nc]. apply Nat.leb_le in Nl.
  intros at_ n S fn st. cbn [rangeMatchesHelper].
  assert (G : forall cs', Forall (fun s => narrow s = true -> (forall e r, In e (conditions s) -> ev E e (ParamGet d r rd vals) <> Panic) -> forall at_ n (S : Type) (fn : S -> rule -> S * bool) st,
      rangeMatchesHelper E ord d rd vals fn s at_ n st <> Panic) cs' -> forallb narrow cs' = true ->
     (forall e r, In e (flat_map (fun c => stage_expr c :: conditions c) cs') -> ev E e (ParamGet d r rd vals) <> Panic) ->
     forall i st, i + List.length cs' <= 2 ->
     (fix go (cs : list stage) (i : nat) (st : S) : outcome (S * rres) :=
           match cs with
           | [] => Val (st, (true, None))
           | c :: cs' =>
               let! m := child n i in
               let! res := rangeMatches E d rd vals c (ord at_ i m)
                 (fun st k nextNode =>
                    let rec_ st := 
                      let! r := rangeMatchesHelper E ord d rd vals fn c ((i, k) :: at_) nextNode st in
                      match r with
                      | (st', (cont, err)) =>
                          Val (st', match err with Some _ => false | None => cont end)
                      end in
                    if IsLeafNode c then
                      let (st', b) := fn st (node_rule nextNode) in
                      if b then rec_ st' else Val (st', false)
                    else rec_ st) st in
               match res with
               | (st', (_, Some e)) => Val (st', (false, Some e))
               | (st', (false, None)) => Val (st', (false, None))
               | (st', (true, None)) => go cs' (Datatypes.S i) st'
               end
           end) cs' i st <> Panic).
  { clear. intros cs' F. induction F as [|c cs' Hc F IHF]; intros Hn Ev i st Hi; [discriminate|]. cbn [flat_map] in Ev.
    assert (Ev1 : forall e r, In e (conditions c) -> ev E e (ParamGet d r rd vals) <> Panic) by (intros e r He; apply Ev; right; apply in_or_app; now left).
    cbn [forallb] in Hn. apply andb_true_iff in Hn as [Hn1 Hn2]. cbn [List.length] in Hi.
    assert (Ec : exists m, child n i = Val m) by (apply child_Val; lia). destruct Ec as [m ->]. cbn [obind].
    set (call := fun (st0 : S) k nextNode => _).
    assert (Hcall : forall st k nn, call st k nn <> Panic).
    { intros st0 k nn. unfold call. cbv zeta. specialize (Hc Hn1 Ev1 ((i, k) :: at_) nn S fn).
      assert (R : forall st, (let! r := rangeMatchesHelper E ord d rd vals fn c ((i, k) :: at_) nn st in
         match r with (st', (cont, err)) => Val (st', match err with Some _ => false | None => cont end) end) <> Panic).
      { intros st1. specialize (Hc st1). destruct (rangeMatchesHelper E ord d rd vals fn c ((i, k) :: at_) nn st1) as [[? [? ?]]|]; [discriminate|contradiction]. }
      destruct (IsLeafNode c); [|apply R]. destruct (fn st0 (node_rule nn)) as [st' [|]]; [apply R|discriminate]. }
    assert (Hr : forall st, rangeMatches E d rd vals c (ord at_ i m) call st <> Panic).
    { intros st0. unfold rangeMatches. destruct (parses E (stage_expr c)); [|discriminate].
      match goal with |- range_entries _ _ _ _ _ _ ?l _ <> _ => generalize l end. intros l. revert st0.
      induction l as [|[k nn] l IHl]; intros st0; cbn [range_entries]; [discriminate|].
      unfold eval_stage. specialize (Ev (stage_expr c) (node_rule nn) (or_introl eq_refl)).
      destruct (ev E (stage_expr c) (ParamGet d (node_rule nn) rd vals)) as [[v|er]|]; [|discriminate|contradiction].
      destruct v as [|[|]|]; try apply IHl.
      specialize (Hcall st0 k nn). destruct (call st0 k nn) as [[st' [|]]|]; [apply IHl|discriminate|contradiction]. }
    specialize (Hr st). destruct (rangeMatches E d rd vals c (ord at_ i m) call st) as [[st' [[|] [er|]]]|]; try discriminate; [|contradiction].
    cbn [obind]. apply IHF; [exact Hn2| |lia]. intros e r He. apply Ev. right. apply in_or_app. now right. }
  apply G; [exact IH|exact Nc|exact Ev|cbn; lia].
Qed.
Lemma range_total {S} E o m j y rd vals (fn : S -> rule -> S * bool) st : nth_error (md_mats m) j = Some y -> narrow (m_tree y) = true ->
  (forall e d r rd, In e (conditions (m_tree y)) -> ev (e_eval E (functions o m)) e (ParamGet d r rd vals) <> Panic) ->
  exists r, model_RangeMatches E o m j rd vals fn st = Val r.
Proof.
  intros Hj N Ev. unfold model_RangeMatches. rewrite Hj. unfold RangeMatches.
  pose proof (walk_total (e_eval E (functions o m)) (o_match o) (m_def y) rd vals (m_tree y) N (fun e r => Ev e (m_def y) r rd) [] (m_root y) S
    (fun st r => fn st (ad_key (m_def y) :: r)) st) as W.
  destruct (rangeMatchesHelper _ _ _ _ _ _ _ _ _ _) as [[st' [c e]]|]; [cbn; eauto|contradiction].
Qed.

(** ** What a query needs

    Every request definition that an option names is defined, and "r" is defined
    or an option chooses another. *)
Definition picks_request (op : copt) : Prop := match op with ORequest s => s <> ""%string | ORequestDef _ => True | _ => False end.
Definition requests_defined (m : model) (ps : list param) : Prop :=
  Forall (fun op => match op with ORequest s => s = ""%string \/ GetDef m R_SEC s <> None | _ => True end) (opts_of ps) /\
  (GetDef m R_SEC "r" <> None \/ Exists picks_request (opts_of ps)).
(** There is a matcher "m" or an option chooses one. *)
Definition picks_matcher (op : copt) : Prop := match op with OMatcher s => s <> ""%string | OMatcherDef _ | OMatcherVal _ => True | _ => False end.
Definition matcher_chosen (m : model) (ps : list param) : Prop :=
  mget "m"%string (md_mMap m) <> None \/ Exists picks_matcher (opts_of ps).
(** No condition of the model's matchers and of the texts in the call panics when
    it is evaluated on a rule with the request values. *)
Definition tree_returns (E : env) (o : orders) (m : model) (ps : list param) (tree : stage) : Prop :=
  forall e d r rd, In e (conditions tree) -> ev (e_eval E (functions o m)) e (ParamGet d r rd (vals_of ps)) <> Panic.
Definition conditions_return (E : env) (o : orders) (m : model) (ps : list param) : Prop :=
  (forall j y, nth_error (md_mats m) j = Some y -> tree_returns E o m ps (m_tree y)) /\
  Forall (fun op => match op with
                    | OMatcher t | OMatcherDef t => forall fns root, Build (e_grow E) (e_parse E fns) t = inl root -> tree_returns E o m ps root
                    | _ => True
                    end) (opts_of ps).

Record Ready (m m1 : model) (x : ctx) : Prop := mkReady {
  d_core : exists g, Core m1 g;
  d_narrow : all_narrow (md_mats m1);
  d_ext : Ext m m1;
  d_m : forall j, c_m x = Some j -> j < List.length (md_mats m1)
}.
Section Context.
  Variables (E : env) (o : orders) (m : model).
  Hypothesis Go : good_orders o.
  Variable P : matcher -> Prop.
  Definition all_P (m1 : model) : Prop := forall j y, nth_error (md_mats m1) j = Some y -> P y.
  Definition builds_P (t : string) : Prop := forall m1 m2 j y, Ext m m1 -> BuildMatcherFromDef E o m1 t = Val (m2, inl j) ->
    nth_error (md_mats m2) (List.length (md_mats m1)) = Some y -> P y.

  Lemma build_prefix m1 t m2 j : BuildMatcherFromDef E o m1 t = Val (m2, inl j) -> exists y, md_mats m2 = md_mats m1 ++ [y] /\ j = List.length (md_mats m1).
  Proof.
    intros H. unfold BuildMatcherFromDef in H. destruct (Build _ _ _); [|discriminate]. destruct (first_byte _); [|discriminate].
    destruct (if Ascii.eqb _ "p" then _ else _); [|discriminate]. destruct (GetPolicy _ _); [|discriminate]. destruct (nth_error _ _); [|discriminate].
    apply obind_val in H as [y [_ H]]. injection H as <- <-. exists y. auto.
  Qed.
  Lemma build_error m1 t m2 e : BuildMatcherFromDef E o m1 t = Val (m2, inr e) -> m2 = m1.
  Proof.
    intros H. unfold BuildMatcherFromDef in H. destruct (Build _ _ _); [|congruence]. destruct (first_byte _); [|discriminate].
    destruct (if Ascii.eqb _ "p" then _ else _); [|congruence]. destruct (GetPolicy _ _); [|congruence]. destruct (nth_error _ _); [|discriminate].
    apply obind_val in H as [y [_ H]]. discriminate.
  Qed.
  Lemma text_ready m1 x t : Ready m m1 x -> all_P m1 -> at_most_two E t -> builds_P t ->
    exists m2 x2 e, setMatcherText E o m1 x t = Val (m2, x2, e) /\ Ready m m2 x2 /\ all_P m2 /\ c_r x2 = c_r x /\ c_e x2 = c_e x /\
      (e = None -> c_m x2 <> None) /\ (c_m x <> None -> c_m x2 <> None).
  Proof.
    intros [[g V] N X D] Hp Ht HP. destruct (buildfrom_total E o m1 g t V N Ht) as [m2 [r [Hb N2]]].
    destruct (buildfrom_step _ _ _ _ _ _ _ Go V Hb) as [g2 [V2 _]]. pose proof (ext_build _ _ _ _ _ _ _ X Hb) as X2.
    unfold setMatcherText. rewrite Hb. cbn [obind]. destruct r as [j|e].
    - destruct (build_prefix _ _ _ _ Hb) as [y [Hy Hj]]. eexists _, _, _. split; [reflexivity|]. split; [|split; [|repeat split; cbn; auto; discriminate]].
      + constructor; [eauto|exact N2|exact X2|]. cbn. intros i Hi. injection Hi as <-. rewrite Hj, Hy, app_length. cbn. lia.
      + intros i z Hz. pose proof Hz as Hz'. rewrite Hy in Hz. destruct (Nat.lt_ge_cases i (List.length (md_mats m1))) as [L|L].
        * rewrite nth_error_app1 in Hz by exact L. eauto.
        * assert (i = List.length (md_mats m1)).
          { assert (Q : i < List.length (md_mats m1 ++ [y])) by (apply nth_error_Some; congruence). rewrite app_length in Q. cbn in Q. lia. }
          subst i. exact (HP m1 m2 j z X Hb Hz').
    - apply build_error in Hb. subst m2. eexists _, _, _. split; [reflexivity|]. split; [constructor; eauto|]. split; [exact Hp|]. repeat split; auto. discriminate.
  Qed.
  Definition opt_ok (op : copt) : Prop :=
    match op with
    | OMatcher s | OMatcherDef s => at_most_two E s /\ builds_P s
    | OMatcherVal j => j < List.length (md_mats m)
    | ORequest s => s = ""%string \/ GetDef m R_SEC s <> None
    | _ => True
    end.
  Lemma option_ready m1 x op : Ready m m1 x -> all_P m1 -> opt_ok op ->
    exists m2 x2 e, option_apply E o m1 x op = Val (m2, x2, e) /\ Ready m m2 x2 /\ all_P m2 /\
      (e = None -> (picks_request op -> c_r x2 <> None) /\ (picks_matcher op -> c_m x2 <> None)) /\
      (c_r x <> None -> c_r x2 <> None) /\ (c_m x <> None -> c_m x2 <> None) /\ (c_e x <> None -> c_e x2 <> None) /\
      (match op with OEffect s => s <> ""%string | OEffectDef _ => True | _ => False end -> c_e x2 <> None).
  Proof.
    intros R Hp Ho. pose proof R as [C N X D].
    assert (Rx : forall x2, c_m x2 = c_m x -> Ready m m1 x2) by (intros x2 Hx; constructor; auto; rewrite Hx; exact D).
    destruct op; cbn [option_apply opt_ok picks_request picks_matcher] in *.
    - destruct (String.eqb_spec s "") as [->|Ns].
      + eexists _, _, _. split; [reflexivity|]. split; [exact R|]. split; [exact Hp|]. tauto.
      + destruct (mget s (md_mMap m1)) as [j|] eqn:Ej.
        * eexists _, _, _. split; [reflexivity|]. split; [|split; [exact Hp|repeat split; cbn; auto; try discriminate; tauto]].
          constructor; auto. cbn. intros i Hi. injection Hi as <-. destruct C as [g V]. exact (v_mm m1 g V s j Ej).
        * destruct Ho as [H1 H2]. destruct (text_ready m1 x s R Hp H1 H2) as (m2 & x2 & e & A & B & C' & D1 & D2 & D3 & D4).
          exists m2, x2, e. split; [exact A|]. split; [exact B|]. split; [exact C'|]. rewrite D1, D2. intuition.
    - destruct Ho as [H1 H2]. destruct (text_ready m1 x expr R Hp H1 H2) as (m2 & x2 & e & A & B & C' & D1 & D2 & D3 & D4).
      exists m2, x2, e. split; [exact A|]. split; [exact B|]. split; [exact C'|]. rewrite D1, D2. intuition.
    - eexists _, _, _. split; [reflexivity|]. split; [|split; [exact Hp|repeat split; cbn; auto; try discriminate; tauto]].
      constructor; auto. cbn. intros i Hi. injection Hi as <-. destruct X as [_ _ [xs Hx]]. rewrite Hx, app_length. lia.
    - destruct (String.eqb_spec s "") as [->|Ns].
      + eexists _, _, _. split; [reflexivity|]. split; [exact R|]. split; [exact Hp|]. tauto.
      + unfold GetRequestDef. destruct X as [(A1 & _) _ _]. rewrite A1. destruct Ho as [Ho|Ho]; [contradiction|]. cbn [GetDef] in Ho.
        destruct (mget s (md_r m)) as [dd|]; [|now cbn in Ho]. cbn [obind]. eexists _, _, _. split; [reflexivity|].
        split; [now apply Rx|]. split; [exact Hp|]. cbn. repeat split; auto; try discriminate; tauto.
    - eexists _, _, _. split; [reflexivity|]. split; [now apply Rx|]. split; [exact Hp|]. cbn. repeat split; auto; try discriminate; tauto.
    - destruct (String.eqb_spec s "") as [->|Ns].
      + eexists _, _, _. split; [reflexivity|]. split; [exact R|]. split; [exact Hp|]. tauto.
      + eexists _, _, _. split; [reflexivity|]. split; [now apply Rx|]. split; [exact Hp|]. cbn. repeat split; auto; try discriminate; tauto.
    - eexists _, _, _. split; [reflexivity|]. split; [now apply Rx|]. split; [exact Hp|]. cbn. repeat split; auto; try discriminate; tauto.
    - eexists _, _, _. split; [reflexivity|]. split; [exact R|]. split; [exact Hp|]. tauto.
  Qed.
  Lemma options_ready ops : forall m1 x, Ready m m1 x -> all_P m1 -> Forall opt_ok ops ->
    exists m2 x2 e, apply_options E o m1 x ops = Val (m2, x2, e) /\ Ready m m2 x2 /\ all_P m2 /\
      (e = None -> (c_r x <> None \/ Exists picks_request ops -> c_r x2 <> None) /\ (c_m x <> None \/ Exists picks_matcher ops -> c_m x2 <> None)).
  Proof.
    induction ops as [|op ops IH]; intros m1 x R Hp F; cbn [apply_options].
    - eexists _, _, _. split; [reflexivity|]. split; [exact R|]. split; [exact Hp|]. intros _. split; (intros [H|H]; [exact H|inversion H]).
    - inversion F as [|? ? F1 F2]; subst. destruct (option_ready m1 x op R Hp F1) as (m2 & x2 & e & A & B & C & D & D1 & D2 & D3 & D4).
      rewrite A. cbn [obind]. destruct e as [e|].
      + eexists _, _, _. split; [reflexivity|]. split; [exact B|]. split; [exact C|]. discriminate.
      + destruct (IH m2 x2 B C F2) as (m3 & x3 & e3 & A3 & B3 & C3 & G3). exists m3, x3, e3. split; [exact A3|]. split; [exact B3|]. split; [exact C3|].
        intros Hn. destruct (G3 Hn) as [Q1 Q2]. destruct (D eq_refl) as [E1 E2]. split; intros [H|H].
        * apply Q1. left. auto.
        * apply Q1. inversion H; subst; auto.
        * apply Q2. left. auto.
        * apply Q2. inversion H; subst; auto.
  Qed.
  Hypothesis Hcore : exists g, Core m g.
  Hypothesis Hnar : all_narrow (md_mats m).
  Hypothesis HP : all_P m.
  Lemma context_ready ps : Forall opt_ok (opts_of ps) ->
    (GetDef m R_SEC "r" <> None \/ Exists picks_request (opts_of ps)) ->
    (mget "m"%string (md_mMap m) <> None \/ Exists picks_matcher (opts_of ps)) ->
    (exists m1 e, NewContext E o m (opts_of ps) = Val (m1, inr e)) \/
    (exists m1 x j y rd ex, NewContext E o m (opts_of ps) = Val (m1, inl x) /\ Ext m m1 /\ all_narrow (md_mats m1) /\
       c_m x = Some j /\ nth_error (md_mats m1) j = Some y /\ P y /\ c_r x = Some rd /\ c_e x = Some ex).
  Proof.
    intros F Hr Hm.
    assert (R0 : Ready m m ctx0) by (constructor; [exact Hcore|exact Hnar|apply ext_refl|discriminate]).
    destruct (options_ready (opts_of ps) m ctx0 R0 HP F) as (m1 & x1 & e1 & A1 & B1 & C1 & D1).
    unfold NewContext. rewrite A1. cbn [obind]. destruct e1 as [e|]; [left; eauto|]. right. destruct (D1 eq_refl) as [Q1 Q2]. clear D1.
    assert (S2 : exists x2, (match c_r x1 with None => option_apply E o m1 x1 (ORequest "r") | Some _ => Val (m1, x1, None) end) = Val (m1, x2, None) /\
              c_r x2 <> None /\ c_m x2 = c_m x1).
    { destruct (c_r x1) eqn:Er; [exists x1; split; [reflexivity|]; split; [congruence|reflexivity]|].
      destruct Hr as [Hr|Hr]; [|exfalso; apply Q1; auto]. cbn [option_apply]. destruct (String.eqb_spec "r" ""); [discriminate|].
      unfold GetRequestDef. destruct (x_maps _ _ (d_ext _ _ _ B1)) as [Ar _]. rewrite Ar. cbn [GetDef] in Hr.
      destruct (mget "r"%string (md_r m)); [|now cbn in Hr]. cbn [obind]. eexists. split; [reflexivity|]. cbn. split; [discriminate|reflexivity]. }
    destruct S2 as [x2 [-> [Nr Em]]]. cbn [obind].
    assert (S3 : exists x3, (match c_m x2 with None => option_apply E o m1 x2 (OMatcher "m") | Some _ => Val (m1, x2, None) end) = Val (m1, x3, None) /\
              c_r x3 <> None /\ exists j, c_m x3 = Some j /\ j < List.length (md_mats m1)).
    { destruct (c_m x2) as [j|] eqn:Ej.
      - exists x2. split; [reflexivity|]. split; [exact Nr|]. exists j. split; [exact Ej|]. apply (d_m _ _ _ B1). congruence.
      - destruct Hm as [Hm|Hm]; [|exfalso; apply Q2; auto; congruence]. cbn [option_apply]. destruct (String.eqb_spec "m" ""); [discriminate|].
        destruct (x_maps _ _ (d_ext _ _ _ B1)) as (_ & _ & _ & _ & _ & _ & _ & _ & Am & _). rewrite Am.
        destruct (mget "m"%string (md_mMap m)) as [j|] eqn:Ej'; [|now cbn in Hm]. eexists. split; [reflexivity|]. cbn. split; [exact Nr|].
        exists j. split; [reflexivity|]. destruct (d_core _ _ _ B1) as [g V]. apply (v_mm m1 g V "m"%string). rewrite Am. exact Ej'. }
    destruct S3 as [x3 [-> [Nr3 [j [Ej Lj]]]]]. cbn [obind].
    assert (S4 : exists x4, (match c_e x3 with None => option_apply E o m1 x3 (OEffect "e") | Some _ => Val (m1, x3, None) end) = Val (m1, x4, None) /\
              c_r x4 = c_r x3 /\ c_m x4 = c_m x3 /\ c_e x4 <> None).
    { destruct (c_e x3) eqn:Ee; [exists x3; split; [reflexivity|]; repeat split; congruence|]. cbn [option_apply].
      destruct (String.eqb_spec "e" ""); [discriminate|]. eexists. split; [reflexivity|]. cbn. repeat split. discriminate. }
    destruct S4 as [x4 [-> [E1 [E2 E3]]]]. cbn [obind].
    destruct (nth_error (md_mats m1) j) as [y|] eqn:Ey; [|apply nth_error_None in Ey; lia].
    destruct (c_r x4) as [rd|] eqn:Erd; [|exfalso; apply Nr3; congruence]. destruct (c_e x4) as [ex|] eqn:Eex; [|congruence].
    exists m1, x4, j, y, rd, ex. split; [reflexivity|]. split; [apply (d_ext _ _ _ B1)|]. split; [apply (d_narrow _ _ _ B1)|].
    split; [congruence|]. split; [exact Ey|]. split; [exact (C1 j y Ey)|]. auto.
  Qed.
End Context.

Lemma ext_functions o m m1 : Ext m m1 -> functions o m1 = functions o m.
Proof. intros [(_ & _ & _ & _ & _ & _ & _ & _ & _ & A & B) _ _]. unfold functions. now rewrite A, B. Qed.

Lemma builds_tree E o m (Q : stage -> Prop) t : (forall fns root, Build (e_grow E) (e_parse E fns) t = inl root -> Q root) ->
  builds_P E o m (fun y => Q (m_tree y)) t.
Proof.
  intros Ht m1 m2 j y X Hb Hy. unfold BuildMatcherFromDef in Hb. destruct (Build _ _ t) as [root|] eqn:Eb; [|discriminate].
  destruct (first_byte _); [|discriminate]. destruct (if Ascii.eqb _ "p" then _ else _) as [d|]; [|discriminate].
  destruct (GetPolicy m1 _) as [i|]; [|discriminate]. destruct (nth_error (md_objs m1) i) as [ob|]; [|discriminate].
  apply obind_val in Hb as [z [Hz Hb]]. injection Hb as <- <-. cbn in Hy. rewrite nth_error_app2, Nat.sub_diag in Hy by lia. injection Hy as <-.
  apply NewMatcher_def in Hz as [_ ->]. eauto.
Qed.

(** ** Filter

    Partial: programs as in C67; request definitions and a matcher are there;
    ad-hoc texts give at most two alternatives at each point; conditions do not
    panic.  Then Filter returns, with rules or an error. *)
Theorem C65_filter_partial :
  forall E h m rs o ps,
    good_m h -> good_orders o -> calm E h -> mexec E (NewModel E) h = Val (m, rs) ->
    narrow_texts E ps -> own_matchers m ps -> requests_defined m ps -> matcher_chosen m ps -> conditions_return E o m ps ->
    exists m' ms err, Filter E o m ps = Val (m', (ms, err)).
Proof.
  intros E h m rs o ps G Go C H [_ N] O [R1 R2] M [Ev Et].
  destruct (run_total E h G C) as [m0 [rs0 [H0 K]]]. rewrite H in H0. injection H0 as <- <-.
  destruct (reachable_ok E h m rs G H) as [g [V W]].
  assert (F : Forall (opt_ok E o m (fun y => tree_returns E o m ps (m_tree y))) (opts_of ps)).
  { unfold own_matchers in O. rewrite Forall_forall in *. intros op Hop. specialize (N op Hop). specialize (O op Hop). specialize (R1 op Hop). specialize (Et op Hop).
    destruct op; cbn in *; auto; (split; [exact N|]); now apply builds_tree. }
  destruct (context_ready E o m Go _ (ex_intro _ g V) (k_mats _ _ _ K) Ev ps F R2 M)
    as [[m1 [e He]]|(m1 & x & j & y & rd & ex & Hc & X & Nn & Ej & Ey & Py & Er & _)].
  - unfold Filter, enforcer_RangeMatches, splitParams. rewrite He. cbn. eauto.
  - unfold Filter, enforcer_RangeMatches, splitParams. rewrite Hc. cbn [obind]. unfold RangeMatchesWithContext. rewrite Ej, Er.
    destruct (range_total E o m1 j y rd (vals_of ps) (fun l r => (l ++ [r], true)) [] Ey (Nn _ _ Ey)) as [[l e] ->].
    + intros e d r rd0. rewrite (ext_functions o m m1 X). apply Py.
    + cbn. eauto.
Qed.
Print Assumptions C65_filter_partial.

(** ** Enforce

    Moreover every matcher is on a policy section that is still defined, and the
    ad-hoc texts name policy sections. *)
Definition on_policies (m : model) : Prop :=
  forall j y, nth_error (md_mats m) j = Some y -> GetDef m P_SEC (ad_key (m_def y)) <> None.
Definition texts_on_policies (E : env) (ps : list param) : Prop :=
  Forall (fun op => match op with
                    | OMatcher t | OMatcherDef t => forall fns root, Build (e_grow E) (e_parse E fns) t = inl root -> p_key (GetPolicyKey root)
                    | _ => True
                    end) (opts_of ps).
Theorem C65_enforce_partial :
  forall E h m rs o ps,
    good_m h -> good_orders o -> calm E h -> mexec E (NewModel E) h = Val (m, rs) ->
    narrow_texts E ps -> own_matchers m ps -> requests_defined m ps -> matcher_chosen m ps -> conditions_return E o m ps ->
    on_policies m -> texts_on_policies E ps ->
    exists m' b err, Enforce E o m ps = Val (m', (b, err)).
Proof.
  intros E h m rs o ps G Go C H [_ N] O [R1 R2] M [Ev Et] Op Tp.
  destruct (run_total E h G C) as [m0 [rs0 [H0 K]]]. rewrite H in H0. injection H0 as <- <-.
  destruct (reachable_ok E h m rs G H) as [g [V W]]. pose proof (defs_exec _ _ _ _ H) as D.
  set (P1 := fun y => GetDef m P_SEC (ad_key (m_def y)) <> None).
  set (P := fun y => P1 y /\ tree_returns E o m ps (m_tree y)).
  assert (F : Forall (opt_ok E o m P) (opts_of ps)).
  { assert (B : forall t, (forall fns root, Build (e_grow E) (e_parse E fns) t = inl root -> p_key (GetPolicyKey root)) -> builds_P E o m P1 t).
    { intros t Ht m1 m2 j y X Hb Hy. unfold BuildMatcherFromDef in Hb. destruct (Build _ _ t) as [root|] eqn:Eb; [|discriminate].
      pose proof (Ht _ _ Eb) as Kp. unfold p_key in Kp. rewrite Kp in Hb. cbn [Ascii.eqb Bool.eqb] in Hb.
      destruct (x_maps _ _ X) as (_ & Ap & _). rewrite Ap in Hb. destruct (mget (GetPolicyKey root) (md_p m)) as [d|] eqn:Ed; [|discriminate].
      destruct (GetPolicy m1 (GetPolicyKey root)) as [i|]; [|discriminate]. destruct (nth_error (md_objs m1) i) as [ob|]; [|discriminate].
      apply obind_val in Hb as [z [Hz Hb]]. injection Hb as <- <-. cbn in Hy. rewrite nth_error_app2, Nat.sub_diag in Hy by lia. injection Hy as <-.
      apply NewMatcher_def in Hz as [Hd _]. unfold P1. rewrite Hd.
      assert (Kd : ad_key d = GetPolicyKey root).
      { rewrite (f_p _ _ D) in Ed by (exists "p"%char; auto). destruct (def_text P_SEC (GetPolicyKey root) h); [|discriminate]. injection Ed as <-. reflexivity. }
      rewrite Kd. cbn [GetDef]. rewrite Ed. discriminate. }
    unfold own_matchers, texts_on_policies in *. rewrite Forall_forall in *. intros op Hop. specialize (N op Hop). specialize (O op Hop). specialize (R1 op Hop). specialize (Tp op Hop). specialize (Et op Hop).
    destruct op; cbn in *; auto; (split; [exact N|]); intros m1 m2 j y X Hb Hy;
      (split; [exact (B _ Tp _ _ _ _ X Hb Hy)|exact (builds_tree E o m (tree_returns E o m ps) _ Et _ _ _ _ X Hb Hy)]). }
  destruct (context_ready E o m Go P (ex_intro _ g V) (k_mats _ _ _ K) (fun j y Hy => conj (Op j y Hy) (Ev j y Hy)) ps F R2 M)
    as [[m1 [e He]]|(m1 & x & j & y & rd & ex & Hc & X & Nn & Ej & Ey & [Py Pt] & Er & Ee)].
  - unfold Enforce, splitParams. rewrite He. cbn. eauto.
  - unfold Enforce, splitParams. rewrite Hc. cbn [obind]. unfold enforce. rewrite Ej, Ey, Ee.
    destruct (x_maps _ _ X) as (_ & Ap & _). rewrite Ap. unfold P1 in Py. cbn [GetDef] in Py.
    destruct (mget (ad_key (m_def y)) (md_p m)) as [pd|]; [|now cbn in Py].
    unfold RangeMatchesWithContext. rewrite Ej, Er.
    assert (Hrep : exists l err, reported (e_eval E (functions o m1)) (o_match o) y rd (vals_of ps) = Val (l, err)).
    { destruct (range_total E o m1 j y rd (vals_of ps) (fun l r => (l ++ [r], true)) [] Ey (Nn _ _ Ey)) as [[l e] Hr].
      - intros e d r rd0. rewrite (ext_functions o m m1 X). apply Pt.
      - rewrite (range_collects _ _ _ _ _ _ _ Ey) in Hr. destruct (reported _ _ _ _ _) as [[l0 e0]|]; [eauto|discriminate]. }
    destruct Hrep as [l [err Hl]]. rewrite (range_reported _ _ _ _ _ _ _ _ _ _ _ Ey Hl).
    assert (Hd : exists res, decide ex pd (map (cons (ad_key (m_def y))) l) err = Val res).
    { assert (Dec : supported ex \/ ~ supported ex).
      { unfold supported. destruct (string_dec ex SOME_ALLOW); [tauto|]. destruct (string_dec ex NO_DENY); [tauto|]. destruct (string_dec ex SOME_ALLOW_NO_DENY); tauto. }
      destruct Dec as [Ds|Ds].
      - rewrite decide_supported by exact Ds. destruct (forallb _ _); [destruct err; eauto|eauto].
      - rewrite decide_unsupported by exact Ds. destruct (map (cons (ad_key (m_def y))) l), err; eauto. }
    destruct Hd as [[b e] Hd]. unfold decide in Hd. destruct (range_vals _ _ _) as [st [|]]; cbn [obind]; rewrite Hd; cbn; eauto.
Qed.
Print Assumptions C65_enforce_partial.

(** ** What goes wrong otherwise

    An option that names an undefined request definition: both calls panic. *)
Theorem C65_unknown_request :
  forall E o m s ps, s <> ""%string -> GetDef m R_SEC s = None ->
    Enforce E o m (POpt (ORequest s) :: ps) = Panic /\ Filter E o m (POpt (ORequest s) :: ps) = Panic.
Proof.
  intros E o m s ps Ns Hr. cbn [GetDef] in Hr.
  assert (X : NewContext E o m (opts_of (POpt (ORequest s) :: ps)) = Panic).
  { unfold NewContext. cbn [opts_of flat_map app apply_options option_apply]. destruct (String.eqb_spec s ""); [contradiction|].
    unfold GetRequestDef. destruct (mget s (md_r m)); [discriminate|reflexivity]. }
  unfold Enforce, Filter, enforcer_RangeMatches, splitParams. rewrite X. auto.
Qed.
Print Assumptions C65_unknown_request.

(** Without options: both panic unless "r" and "m" are there. *)
Theorem C65_defaults_missing :
  forall E o m ps, opts_of ps = [] ->
    GetDef m R_SEC "r" = None \/
    (mget "m"%string (md_mMap m) = None /\ exists e, Build (e_grow E) (e_parse E (mkeys (md_fm m))) "m" = inr e) ->
    Enforce E o m ps = Panic /\ Filter E o m ps = Panic.
Proof.
  intros E o m ps Ho H. unfold Enforce, Filter, enforcer_RangeMatches, splitParams. rewrite Ho. unfold NewContext.
  cbn [apply_options obind c_r ctx0 option_apply]. change (String.eqb "r" "") with false. cbv iota. unfold GetRequestDef.
  destruct H as [Hr|[Hm [e He]]].
  - cbn [GetDef] in Hr. destruct (mget "r"%string (md_r m)); [discriminate|]. auto.
  - destruct (mget "r"%string (md_r m)) as [d|]; [|auto]. cbn [obind c_m]. change (c_m ctx0) with (@None nat). cbv iota.
    change (String.eqb "m" "") with false. cbv iota. rewrite Hm. unfold setMatcherText, BuildMatcherFromDef. rewrite He. cbn. auto.
Qed.
Print Assumptions C65_defaults_missing.

(** The property is false of the code: on reachable models
    - a call that names an unknown request definition panics;
    - a call before BuildMatchers panics;
    - once the policy definition is removed, Filter answers and Enforce panics;
    - with a matcher on a grouping section, Filter answers and Enforce panics;
    - a request value that is not a string makes a role function panic. *)
Definition err_env : env :=
  mkEnv (fun n => n)
    (fun fns s => if String.eqb s "r_sub == g_user" then Some [mkTok KOther "r_sub == g_user"] else e_parse ex_env fns s)%string (e_eval ex_env) [].
Definition err_h : list (orders * mcall) :=
  [(ex_o, CSetDef R_SEC "r" "sub, obj"); (ex_o, CSetDef P_SEC "p" "sub, obj"); (ex_o, CSetDef M_SEC "m" basic_text);
   (ex_o, CSetDef G_SEC "g" "_, _"); (ex_o, CAdd ["p"; "alice"; "data1"]); (ex_o, CAdd ["g"; "alice"; "admin"])]%string.
Definition err_rbac : list (orders * mcall) :=
  [(ex_o, CSetDef R_SEC "r" "sub, obj, act"); (ex_o, CSetDef P_SEC "p" "sub, obj, act"); (ex_o, CSetDef G_SEC "g" "_, _");
   (ex_o, CSetDef M_SEC "m" rbac_text); (ex_o, CBuild); (ex_o, CAdd ["p"; "alice"; "data1"; "read"])]%string.
Definition err_run (h : list (orders * mcall)) : model := match mexec err_env (NewModel err_env) h with Val (m, _) => m | Panic => NewModel err_env end.
Definition err_ask : list param := [PVal (VStr "alice"); PVal (VStr "data1")]%string.
Theorem C65_errors_refuted :
  exists h1 h2 h3 : list (orders * mcall),
    (forall h, In h [err_h; h1; h2; h3] -> good_m h /\ calm err_env h /\
       exists rs, mexec err_env (NewModel err_env) h = Val (err_run h, rs) /\ Forall (fun r => x_err r = None) rs) /\
    Enforce err_env ex_o (err_run h1) (POpt (ORequest "r2") :: err_ask) = Panic /\
    Filter err_env ex_o (err_run h1) (POpt (ORequest "r2") :: err_ask) = Panic /\
    Enforce err_env ex_o (err_run err_h) err_ask = Panic /\ Filter err_env ex_o (err_run err_h) err_ask = Panic /\
    (exists m, Filter err_env ex_o (err_run h2) err_ask = Val (m, ([["p"; "alice"; "data1"]], None))) /\
    Enforce err_env ex_o (err_run h2) err_ask = Panic /\
    (exists m, Filter err_env ex_o (err_run h1) (POpt (OMatcher "r.sub == g.user") :: err_ask) = Val (m, ([["g"; "alice"; "admin"]], None))) /\
    Enforce err_env ex_o (err_run h1) (POpt (OMatcher "r.sub == g.user") :: err_ask) = Panic /\
    Enforce err_env ex_o (err_run h3) [PVal (VBool true); PVal (VStr "data1"); PVal (VStr "read")] = Panic.
Proof.
  exists (err_h ++ [(ex_o, CBuild)]), (err_h ++ [(ex_o, CBuild); (ex_o, CRemoveDef P_SEC "p")]), err_rbac.
  assert (T : forall t, t = basic_text \/ t = rbac_text -> at_most_two err_env t).
  { intros t Ht fns root H. assert (X : Build (e_grow ex_env) (e_parse ex_env fns) t = inl root) by (destruct Ht as [-> | ->]; exact H).
    exact (ex_texts t fns root X). }
  split.
  - intros h Hh. split.
    + repeat (destruct Hh as [<-|Hh]; [repeat (apply Forall_cons; [apply ex_o_good|]); apply Forall_nil|]). destruct Hh.
    + split.
      * repeat (destruct Hh as [<-|Hh]; [repeat (apply Forall_cons; [cbn; repeat split; try discriminate; try (intros _; apply T; auto); auto with arith|]); apply Forall_nil|]). destruct Hh.
      * repeat (destruct Hh as [<-|Hh]; [eexists; split; [vm_compute; reflexivity|repeat constructor]|]). destruct Hh.
  - split; [vm_compute; reflexivity|]. split; [vm_compute; reflexivity|]. split; [vm_compute; reflexivity|]. split; [vm_compute; reflexivity|].
    split; [eexists; vm_compute; reflexivity|]. split; [vm_compute; reflexivity|]. split; [eexists; vm_compute; reflexivity|].
    split; vm_compute; reflexivity.
Qed.
Print Assumptions C65_errors_refuted.

(** ** The hypotheses are met

    By the policies of [err_h] with a matcher, asked with an ad-hoc text. *)
Definition ex_params : list param := POpt (OMatcher basic_text) :: POpt (OEffect "some(where (p.eft == allow))") :: err_ask.
Example C65_ex :
  let h := err_h ++ [(ex_o, CBuild)] in
  let m := err_run h in
  let ps := ex_params in
  narrow_texts ex_env ps /\ own_matchers m ps /\ requests_defined m ps /\ matcher_chosen m ps /\ conditions_return ex_env ex_rev m ps /\
  on_policies m /\ texts_on_policies ex_env ps /\ exists m', Enforce ex_env ex_rev m ps = Val (m', (true, None)).
Proof.
  cbv zeta.
  assert (R : forall fns root, Build (e_grow ex_env) (e_parse ex_env fns) basic_text = inl root ->
     tree_returns ex_env ex_rev (err_run (err_h ++ [(ex_o, CBuild)])) (ex_params) root).
  { intros fns root H. vm_compute in H. injection H as <-. intros e d r rd He.
    assert (He' : e = "r_sub == p_sub"%string \/ e = "r_obj == p_obj"%string) by (vm_compute in He; intuition). clear He.
    assert (P : forall c s, exists v, ParamGet d r rd (vals_of (ex_params)) (String c s) = Val v).
    { intros c s. unfold ParamGet. destruct (Ascii.eqb c "p" || Ascii.eqb c "g"); [eauto|]. destruct (Ascii.eqb c "r"); eauto. }
    destruct He' as [-> | ->]; unfold ex_env, e_eval, mini, ev; change 3 with (S 2); cbn [mini_ev].
    - change (shape_of "r_sub == p_sub") with (SEq "r_sub" "p_sub"). cbn [operands operand].
      destruct (P "r"%char "_sub"%string) as [[v|] ->]; [|discriminate]. destruct (P "p"%char "_sub"%string) as [[w|] ->]; discriminate.
    - change (shape_of "r_obj == p_obj") with (SEq "r_obj" "p_obj"). cbn [operands operand].
      destruct (P "r"%char "_obj"%string) as [[v|] ->]; [|discriminate]. destruct (P "p"%char "_obj"%string) as [[w|] ->]; discriminate. }
  split; [split; [apply ex_texts|]; repeat constructor; apply ex_texts|]. split; [repeat constructor|].
  split; [split; [repeat constructor|left; discriminate]|]. split; [left; discriminate|]. split.
  - split; [|repeat constructor; exact R]. intros [|j] y Hy.
    + vm_compute in Hy. injection Hy as <-. apply (R []). vm_compute. reflexivity.
    + vm_compute in Hy. destruct j; discriminate.
  - split; [|split; [|eexists; vm_compute; reflexivity]].
    + intros [|j] y Hy; vm_compute in Hy; [injection Hy as <-; vm_compute; discriminate|destruct j; discriminate].
    + repeat constructor. intros fns root H. vm_compute in H. injection H as <-. reflexivity.
Qed.
