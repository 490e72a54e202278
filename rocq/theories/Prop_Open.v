(** Property C115: alternatives about the request alone, from rules to Enforce. *)
From Verif Require Import GoBase GoBaseP DefsM DefsP PolicyM PolicySpec PolicyP EffectorM MatcherDefM MatcherDefSpec MatcherDefP MatcherM MatcherSpec
  RbacM RbacSpec DomainM DomainSpec EvalM ModelM ModelSpec ModelP EnforcerM EnforcerSpec AppSpec MultiSpec LogicSpec RoleAccessSpec LeftoverSpec OpenSpec.
From Verif Require Import BuiltinM FunctionsSpec Prop_Effect Prop_Defs Prop_Model Prop_Query Prop_App Prop_Apps Prop_Multi Prop_Columns Prop_Logic Prop_Monotone LeftoverP Prop_Leftover.
Local Open Scope list_scope.

Lemma open_value rt pt vals r r' a u : (forall x, a <> TPol x) -> term_value rt pt vals r a u -> term_value rt pt vals r' a u.
Proof. intros N. destruct a; cbn; auto. now destruct (N x). Qed.
Lemma open_test E d h rt pt vals r r' t : about_request t -> test_true E d h rt pt vals r t -> test_true E d h rt pt vals r' t.
Proof.
  intros A. assert (V : forall a u, In a (test_terms t) -> term_value rt pt vals r a u -> term_value rt pt vals r' a u).
  { intros a u Ha. apply open_value. intros x ->. exact (A x Ha). }
  destruct t as [a b|a b|g args|a s1 s2 ss]; cbn [test_true test_terms] in *.
  - intros (x & H1 & H2). exists x. split; apply V; cbn; auto.
  - intros (x & y & H1 & H2 & H3). exists x, y. split; [|split]; [apply V; cbn; auto|apply V; cbn; auto|exact H3].
  - intros (us & H1 & H2). exists us. split; [|exact H2]. clear H2 A. induction H1; constructor; [apply V; [now left|assumption]|]. apply IHForall2. intros; apply V; [now right|assumption].
  - intros (x & H1 & H2). exists x. split; [apply V; cbn; auto|exact H2].
Qed.
Lemma open_iff E d h rt pt vals r t : about_request t -> (test_true E d h rt pt vals r t <-> open_for E d h rt pt vals t).
Proof. intros A. split; [intros H r'; now apply (open_test E d h rt pt vals r)|intros H; apply H]. Qed.
Lemma by_true E d h rt pt vals r t : test_by (call_true E d h) rt pt vals r t = test_true E d h rt pt vals r t.
Proof. destruct t; reflexivity. Qed.

Lemma open_says E d h rt pk pt f t vals e : about_request t ->
  (says E d h rt pk pt (MOr f (MTest t)) vals e <->
   says E d h rt pk pt f vals e \/ (open_for E d h rt pt vals t /\ exists r, present h (pk :: r) /\ rule_effect pt r e)).
Proof.
  intros A. split.
  - intros (r & Hp & [Hs|Hs] & He); [left; exists r; auto|right]. split; [|eauto]. now apply (open_iff E d h rt pt vals r t A).
  - intros [(r & Hp & Hs & He)|[Ho (r & Hp & He)]]; exists r; (split; [exact Hp|]); (split; [|exact He]); [now left|right]. apply Ho.
Qed.
Lemma open_left E d h rt pk pt f t vals : about_request t ->
  (leftover (call_true E d h) h rt pk pt (MOr f (MTest t)) vals <->
   leftover (call_true E d h) h rt pk pt f vals \/
   (open_for E d h rt pt vals t /\ ((forall r, ~ remembered pk h r) \/ ((exists r, remembered pk h r) /\ forall r, ~ present h (pk :: r))))).
Proof.
  intros A. unfold leftover. cbn [alternatives]. split.
  - intros (pre & t' & Ha & Ht & Hc). apply in_app_or in Ha as [Ha|[Ha|[]]]; [left; exists pre, t'; auto|right].
    apply (app_inj_tail [] pre) in Ha as [<- <-]. rewrite by_true in Ht. split; [now apply (open_iff E d h rt pt vals _ t A) in Ht|].
    destruct Hc as [[Hn _]|(r & Hr & _ & Hn)]; [now left|right]. split; [eauto|]. intros r' Hp. apply (Hn r' Hp). constructor.
  - intros [(pre & t' & Ha & Hr)|[Ho Hc]]; [exists pre, t'; split; [apply in_or_app; now left|exact Hr]|].
    exists [], t. split; [apply in_or_app; right; now left|]. rewrite by_true. split; [apply Ho|].
    destruct Hc as [Hn|[[r Hr] Hn]]; [left; split; [exact Hn|constructor]|right]. exists r. split; [exact Hr|]. split; [constructor|]. intros r' Hp. destruct (Hn r' Hp).
Qed.

(** ** C115

    Every model file whose matcher is [f || t], where [t] speaks of the request and of
    literals only; every history of rules and every order of map visits; every request
    of strings whose calls have answers.  A request for which [t] is true is decided as
    if every present rule applied to it, and is allowed if there is no rule at all; any
    other request is decided by [f] alone. *)
Theorem C115_open_requests :
  forall E d R h, well_formed d -> readings E d R -> file_history d h -> good_m h ->
    exists m rs, mexec E (NewModel E) h = Val (m, rs) /\
      forall mk rk pk rt pt f t, logical E d R mk rk pk rt pt (MOr f (MTest t)) -> names_columns rk pk (MOr f (MTest t)) -> about_request t ->
      forall o ps vals, good_orders o -> uses_matcher mk ps -> uses_request rk ps ->
        vals_of ps = map VStr vals -> List.length vals = List.length (named_columns rt) ->
        calls_answer E d h rt pk pt (MOr f (MTest t)) vals ->
        let e := effect_in_force h ps in
        let says := says E d h rt pk pt f vals in
        let left := leftover (call_true E d h) h rt pk pt f vals in
        let open := open_for E d h rt pt vals t in
        let some_rule eff := exists r, present h (pk :: r) /\ rule_effect pt r eff in
        let no_rule := forall r, ~ present h (pk :: r) in
        (spells e "some(where (p.eft == allow))" ->
           exists b, Enforce E o m ps = Val (m, (b, None)) /\
             (b = true <-> says Allow \/ left \/ (open /\ (some_rule Allow \/ no_rule)))) /\
        (spells e "!some(where (p.eft == deny))" ->
           exists b, Enforce E o m ps = Val (m, (b, None)) /\ (b = true <-> ~ says Deny /\ ~ (open /\ some_rule Deny))) /\
        (spells e "some(where (p.eft == allow)) && !some(where (p.eft == deny))" -> ~ says Indeterminate -> ~ some_rule Indeterminate ->
           exists b, Enforce E o m ps = Val (m, (b, None)) /\
             (b = true <-> (says Allow \/ left \/ (open /\ (some_rule Allow \/ no_rule))) /\ ~ says Deny /\ ~ (open /\ some_rule Deny))).
Proof.
  intros E d R h W U Ah G. destruct (C99_with_leftovers E d R h W U Ah G) as (m & rs & Hm & T). exists m, rs. split; [exact Hm|].
  intros mk rk pk rt pt f t C Nc Ar o ps vals Go Um Ur Vp Lv Ca e sy left open some_rule no_rule.
  destruct (T mk rk pk rt pt _ C Nc o ps vals Go Um Ur Vp Lv Ca) as (_ & T1 & T2 & T3). fold e in T1, T2, T3. cbv zeta in T1, T2, T3.
  assert (SE : forall eff, says E d h rt pk pt (MOr f (MTest t)) vals eff <-> sy eff \/ (open /\ some_rule eff)) by (intros; now apply open_says).
  assert (LE := open_left E d h rt pk pt f t vals Ar). fold left open in LE.
  assert (PR : forall r, present h (pk :: r) -> remembered pk h r).
  { destruct (file_query E d R h W U Ah G) as (m' & rs' & Hm' & Dq). destruct (lg_matcher _ _ _ _ _ _ _ _ _ C) as [mt Im].
    specialize (Dq mk mt pt rk rt o ps Im). rewrite (lg_reading _ _ _ _ _ _ _ _ _ C) in Dq. cbn [fst snd] in Dq.
    destruct (Dq (lg_policy _ _ _ _ _ _ _ _ _ C) (lg_request _ _ _ _ _ _ _ _ _ C) Um Ur Go) as (h1 & h2 & _ & _ & Sp & Rec & _). intros r Hp. apply Rec, present_recorded, Sp, Hp. }
  (* a granted request, decided by the answer itself *)
  assert (AL : forall (b : bool) (X : Prop), (b = true <-> (says E d h rt pk pt (MOr f (MTest t)) vals Allow \/ leftover (call_true E d h) h rt pk pt (MOr f (MTest t)) vals) /\ X) ->
                 (b = true <-> (sy Allow \/ left \/ (open /\ (some_rule Allow \/ no_rule))) /\ X)).
  { intros b X Hb. split.
    - intros H. apply Hb in H as [H HX]. split; [|exact HX]. rewrite SE, LE in H. destruct H as [[H|[H1 H2]]|[H|[H1 [H2|[_ H2]]]]]; auto.
      right; right. split; [exact H1|]. right. intros r Hp. exact (H2 r (PR r Hp)).
    - intros [[H|[H|[H1 [H2|H2]]]] HX]; [apply Hb; split; [left; apply SE; now left|exact HX]|apply Hb; split; [right; apply LE; now left|exact HX]|apply Hb; split; [left; apply SE; auto|exact HX]|].
      destruct b; [reflexivity|]. exfalso. assert (Nl : ~ leftover (call_true E d h) h rt pk pt (MOr f (MTest t)) vals).
      { intros Y. assert (false = true) by (apply Hb; auto). discriminate. }
      apply Nl, LE. right. split; [exact H1|]. left. intros r Hr. apply Nl, LE. right. split; [exact H1|]. right. split; [eauto|exact H2]. }
  split; [|split].
  - intros Hs. destruct (T1 Hs) as (b & Hb & Hi). exists b. split; [exact Hb|].
    assert (Y : b = true <-> (sy Allow \/ left \/ (open /\ (some_rule Allow \/ no_rule))) /\ True) by (apply AL; rewrite Hi; split; [intros X; split; [exact X|exact I]|intros [X _]; exact X]).
    rewrite Y. split; [intros [X _]; exact X|intros X; split; [exact X|exact I]].
  - intros Hs. destruct (T2 Hs) as (b & Hb & Hi). exists b. split; [exact Hb|]. rewrite Hi, SE. split; [intros X; split; intros Y; apply X; [now left|now right]|intros [X Y] [Z|Z]; [exact (X Z)|exact (Y Z)]].
  - intros Hs N1 N2. assert (NI : ~ says E d h rt pk pt (MOr f (MTest t)) vals Indeterminate) by (rewrite SE; intros [X|[_ X]]; [exact (N1 X)|exact (N2 X)]).
    destruct (T3 Hs NI) as (b & Hb & Hi). exists b. split; [exact Hb|].
    assert (Y : b = true <-> (sy Allow \/ left \/ (open /\ (some_rule Allow \/ no_rule))) /\ ~ (sy Deny \/ (open /\ some_rule Deny))) by (apply AL; rewrite <- SE; exact Hi).
    rewrite Y. split; (intros [Z1 Z2]; split; [exact Z1|]); [split; intros X; apply Z2; [now left|now right]|intros [X|X]; [exact (proj1 Z2 X)|exact (proj2 Z2 X)]].
Qed.
Print Assumptions C115_open_requests.

(** Without an effect column every rule allows, so that an open request is allowed
    whatever rules there are and were. *)
Theorem C115_open_without_effects :
  forall E d R h, well_formed d -> readings E d R -> file_history d h -> good_m h ->
    exists m rs, mexec E (NewModel E) h = Val (m, rs) /\
      forall mk rk pk rt pt f t, logical E d R mk rk pk rt pt (MOr f (MTest t)) -> names_columns rk pk (MOr f (MTest t)) -> about_request t ->
      ~ In "eft"%string (named_columns pt) ->
      forall o ps vals, good_orders o -> uses_matcher mk ps -> uses_request rk ps ->
        vals_of ps = map VStr vals -> List.length vals = List.length (named_columns rt) ->
        calls_answer E d h rt pk pt (MOr f (MTest t)) vals ->
        spells (effect_in_force h ps) "some(where (p.eft == allow))" ->
        exists b, Enforce E o m ps = Val (m, (b, None)) /\
          (b = true <-> open_for E d h rt pt vals t \/
             (exists r, present h (pk :: r) /\ LogicSpec.satisfies E d h rt pt f vals r) \/ leftover (call_true E d h) h rt pk pt f vals).
Proof.
  intros E d R h W U Ah G. destruct (C115_open_requests E d R h W U Ah G) as (m & rs & Hm & T). exists m, rs. split; [exact Hm|].
  intros mk rk pk rt pt f t C Nc Ar Ne o ps vals Go Um Ur Vp Lv Ca Hs. destruct (T mk rk pk rt pt f t C Nc Ar o ps vals Go Um Ur Vp Lv Ca) as (T1 & _ & _).
  destruct (T1 Hs) as (b & Hb & Hi). exists b. split; [exact Hb|].
  assert (Ef : forall r, rule_effect pt r Allow) by (intros r; left; auto).
  assert (SA : says E d h rt pk pt f vals Allow <-> exists r, present h (pk :: r) /\ LogicSpec.satisfies E d h rt pt f vals r).
  { split; intros (r & H1 & H2); exists r; [destruct H2; auto|auto]. }
  rewrite SA in Hi. split; [rewrite Hi; tauto|]. intros [H|[H|H]]; [|apply Hi; auto..].
  destruct b; [reflexivity|]. assert (N : ~ false = true) by discriminate. exfalso. apply N, Hi. right; right. split; [exact H|]. right. intros r Hp. apply N, Hi. right; right. split; [exact H|]. left. exists r. auto.
Qed.
Print Assumptions C115_open_without_effects.

(** ** rbac_model_matcher_using_in_op.conf *)
Definition inop_text : string := "g(r.sub, p.sub) && r.obj == p.obj && r.act == p.act || r.obj in ('data2', 'data3')".
Definition inop_defs : deflist :=
  [(R_SEC, "r", "sub, obj, act"); (P_SEC, "p", "sub, obj, act"); (G_SEC, "g", "_, _"); (E_SEC, "e", "some(where (p.eft == allow))"); (M_SEC, "m", inop_text)]%string.
Definition inop_rules : mform :=
  MAnd (MAnd (MTest (Call "g" [TReq "sub"; TPol "sub"])) (MTest (Equal (TReq "obj") (TPol "obj")))) (MTest (Equal (TReq "act") (TPol "act"))).
Definition inop_open : test := Among (TReq "obj") "data2" "data3" [].
Definition inop : mform := MOr inop_rules (MTest inop_open).
Lemma inop_wf : well_formed inop_defs.
Proof.
  split; [repeat (apply NoDup_cons; [cbn; intuition discriminate|]); apply NoDup_nil|].
  intros s k t H. repeat (destruct H as [H|H]; [injection H as <- <- <-; eexists; split; reflexivity|]). destruct H.
Qed.
Lemma inop_columns : names_columns "r" "p" inop.
Proof.
  assert (A1 : p_args (test_text "r" "p" (Call "g" [TReq "sub"; TPol "sub"])) = ["p_sub"%string]) by (vm_compute; reflexivity).
  assert (A2 : p_args (test_text "r" "p" (Equal (TReq "obj") (TPol "obj"))) = ["p_obj"%string]) by (vm_compute; reflexivity).
  assert (A3 : p_args (test_text "r" "p" (Equal (TReq "act") (TPol "act"))) = ["p_act"%string]) by (vm_compute; reflexivity).
  assert (A4 : p_args (test_text "r" "p" inop_open) = []) by (vm_compute; reflexivity).
  intros t x [<-|[<-|[<-|[<-|[]]]]]; [rewrite A1|rewrite A2|rewrite A3|rewrite A4; split; [intros []|intros (y & [] & _)]];
    (split; [intros [<-|[]]; eexists; split; [left; reflexivity|reflexivity]|intros (y & [<-|[]] & ->); left; reflexivity]).
Qed.
Lemma present_added_to pk h r : p_key pk -> present h (pk :: r) -> added_to pk h r.
Proof.
  intros Kp [[_ [ops [Ho Hr]]]|[X _]]; [|destruct (pg_key _ Kp X)].
  assert (Hi : In (PAdd r) ops) by (rewrite <- (app_nil_r ops); now apply recorded_adds).
  destruct (pk_adds pk r _ _ _ Ho Hi) as [[l [X _]]|X]; [discriminate|exact X].
Qed.
Lemma sub_col u (r : list string) : (exists n, nth_error (named_columns "sub, obj, act") n = Some "sub"%string /\ nth_error r n = Some u) <-> nth_error r 0 = Some u.
Proof. split; [|intros H; exists 0; split; [reflexivity|exact H]]. intros (n & H1 & H2). destruct n as [|[|[|n]]]; try discriminate H1; [exact H2|]. destruct n; discriminate H1. Qed.
Lemma obj_col u (r : list string) : (exists n, nth_error (named_columns "sub, obj, act") n = Some "obj"%string /\ nth_error r n = Some u) <-> nth_error r 1 = Some u.
Proof. split; [|intros H; exists 1; split; [reflexivity|exact H]]. intros (n & H1 & H2). destruct n as [|[|[|n]]]; try discriminate H1; [exact H2|]. destruct n; discriminate H1. Qed.
Lemma act_col u (r : list string) : (exists n, nth_error (named_columns "sub, obj, act") n = Some "act"%string /\ nth_error r n = Some u) <-> nth_error r 2 = Some u.
Proof. split; [|intros H; exists 2; split; [reflexivity|exact H]]. intros (n & H1 & H2). destruct n as [|[|[|n]]]; try discriminate H1; [exact H2|]. destruct n; discriminate H1. Qed.

(** Every history of rules around the build, every request with an action: allowed are
    all requests for data2 and data3, whoever asks, and the requests a present rule
    grants to the subject or to a role it has. *)
Theorem C115_in_op_file :
  forall E h, readings E inop_defs (over_p inop) ->
    logical E inop_defs (over_p inop) "m" "r" "p" "sub, obj, act" "sub, obj, act" inop ->
    file_history inop_defs h -> good_m h ->
    exists m rs, mexec E (NewModel E) h = Val (m, rs) /\
      forall o sub obj act, good_orders o -> act <> ""%string ->
        exists b, Enforce E o m [PVal (VStr sub); PVal (VStr obj); PVal (VStr act)] = Val (m, (b, None)) /\
          (b = true <-> (obj = "data2" \/ obj = "data3")%string \/
             exists role, (sub = role \/ exists n, 1 <= n <= 9 /\ chain (fun x y => present h ["g"; x; y]%string) n sub role) /\
                          present h ["p"; role; obj; act]%string).
Proof.
  intros E h U C Ah G. destruct (C115_open_without_effects E inop_defs _ h inop_wf U Ah G) as (m & rs & Hm & T). exists m, rs. split; [exact Hm|].
  intros o sub obj act Go Ha.
  destruct (T "m" "r" "p" "sub, obj, act" "sub, obj, act" inop_rules inop_open)%string with (o := o) (ps := [PVal (VStr sub); PVal (VStr obj); PVal (VStr act)]) (vals := [sub; obj; act])
    as (b & Hb & Hi); try assumption; try reflexivity.
  - exact inop_columns.
  - intros x [X|[]]. discriminate X.
  - vm_compute. intuition discriminate.
  - split; [constructor|now left].
  - split; [constructor|now left].
  - intros r g args us Ht _ Hu. repeat (destruct Ht as [Ht|Ht]; [first [discriminate Ht|injection Ht as <- <-]|]); [|destruct Ht]. args_tac.
    left. eexists _, _, _, _. split; [cbn; tauto|]. split; [reflexivity|]. apply Forall_nil.
  - unfold effect_in_force. cbn [opts_of flat_map fold_left]. unfold effect_named. cbn [first_byte].
    assert (D : def_text E_SEC "e" h = Some "some(where (p.eft == allow))"%string) by (apply (file_def inop_defs h E_SEC "e" _ inop_wf Ah); cbn; tauto). rewrite D. reflexivity.
  - exists b. split; [exact Hb|]. rewrite Hi. clear Hb Hi.
    assert (Op : open_for E inop_defs h "sub, obj, act" "sub, obj, act" [sub; obj; act] inop_open <-> (obj = "data2" \/ obj = "data3")%string).
    { rewrite <- (open_iff E inop_defs h _ _ _ [] inop_open) by (intros x [X|[]]; discriminate X). cbn [test_true inop_open term_value]. split.
      - intros (x & H1 & H2). apply obj_col in H1. injection H1 as <-. destruct H2 as [H2|[H2|[]]]; auto.
      - intros H. exists obj. split; [now apply obj_col|]. cbn. destruct H as [H|H]; auto. }
    assert (Le : ~ leftover (call_true E inop_defs h) h "sub, obj, act" "p" "sub, obj, act" inop_rules [sub; obj; act]).
    { intros (pre & t & [X|[]] & Ht & _). change ([Call "g" [TReq "sub"; TPol "sub"]; Equal (TReq "obj") (TPol "obj")] ++ [Equal (TReq "act") (TPol "act")] = pre ++ [t]) in X.
      apply app_inj_tail in X as [_ <-]. destruct Ht as (x & H1 & H2). cbn [term_value] in H1, H2. apply act_col in H1, H2. cbn in H1, H2. congruence. }
    assert (Sa : forall r, present h ("p"%string :: r) ->
              (LogicSpec.satisfies E inop_defs h "sub, obj, act" "sub, obj, act" inop_rules [sub; obj; act] r <->
               exists role, r = [role; obj; act] /\ (sub = role \/ exists n, 1 <= n <= 9 /\ chain (fun x y => present h ["g"; x; y]%string) n sub role))).
    { intros r Hp. assert (L : List.length r = 3).
      { apply (added_columns inop_defs h "p" "sub, obj, act" r inop_wf Ah); [cbn; tauto|]. now apply present_added_to. }
      destruct r as [|a [|b0 [|c [|]]]]; try discriminate L. unfold LogicSpec.satisfies, inop_rules. cbn [form_true]. split.
      - intros [[Hg Ho] Hc]. destruct Ho as (x & H1 & H2), Hc as (y & H3 & H4). cbn [term_value] in *. apply obj_col in H1, H2. apply act_col in H3, H4. cbn in H1, H2, H3, H4.
        assert (b0 = obj) by congruence. assert (c = act) by congruence. subst. exists a. split; [reflexivity|].
        destruct Hg as (us & Hu & Hc). args_tac. cbn [term_value] in *.
        repeat match goal with H : exists n, nth_error _ n = Some "sub"%string /\ _ |- _ => apply sub_col in H; cbn in H; injection H as <- end.
        destruct Hc as [(gt & a1 & b1 & ds & Hg & Hu & Hl)|[Hn _]]; [|destruct Hn; exists "_, _"%string; cbn; tauto].
        injection Hu as <- <- <-. assert (gt = "_, _"%string) as -> by (cbn in Hg; intuition congruence).
        destruct Hl as [Hl|(n & N1 & N2 & N3)]; [now left|right; exists n; auto].
      - intros (role & X & Hr). injection X as -> -> ->. split; [split|].
        + exists [sub; role]. split; [repeat constructor; cbn [term_value]; now apply sub_col|]. left. exists "_, _"%string, sub, role, []. split; [cbn; tauto|]. split; [reflexivity|].
          destruct Hr as [Hr|(n & [N1 N2] & N3)]; [now left|right; exists n; split; [exact N1|split; [exact N2|exact N3]]].
        + exists obj. split; now apply obj_col.
        + exists act. split; now apply act_col. }
    rewrite Op. split.
    + intros [H|[(r & Hp & Hs)|H]]; [now left| |contradiction]. right. apply (Sa r Hp) in Hs as (role & -> & Hr). eauto.
    + intros [H|(role & Hr & Hp)]; [now left|right; left]. exists [role; obj; act]. split; [exact Hp|]. apply (Sa _ Hp). eauto.
Qed.
Print Assumptions C115_in_op_file.

(** A govaluate that reads this matcher and evaluates its conditions, and a history:
    alice is an editor, who may write data1; the right to read data2, which everybody
    has anyway, is added and revoked. *)
Definition inop_ev (V : evaluator) : evaluator :=
  let e := test_text "r" "p" inop_open in
  mkEvaluator (fun s => if String.eqb s e then true else parses V s)
    (fun s get => if String.eqb s e then
                    match get "r_obj"%string with
                    | Val (Some (VStr u)) => Val (inl (VBool (existsb (String.eqb u) ["data2"; "data3"]%string)))
                    | Val (Some _) => Val (inl (VBool false))
                    | Val None => Val (inr ErrEval)
                    | Panic => Panic
                    end
                  else ev V s get).
Definition inop_env (L : lib) : env :=
  let B := one_env ["g"%string] inop_text (as_form "r" "p" inop) L in
  mkEnv (e_grow B) (e_parse B) (fun F => inop_ev (e_eval B F)) (e_builtins B).
Lemma inop_reads L : readings (inop_env L) inop_defs (over_p inop).
Proof.
  intros mk t H. repeat (destruct H as [H|H]; [first [discriminate H|injection H as <- <-]|]); [|destruct H]. split; [|eexists; cbn; tauto].
  assert (X : reads_over (one_env ["g"%string] inop_text (as_form "r" "p" inop) L) inop_defs inop_text (as_form "r" "p" inop) "p").
  { apply one_reads; try reflexivity; [atom_tac|repeat split| |plain_tac]. intros k [<-|[]]. left. eexists; cbn; tauto. }
  destruct X. constructor; assumption.
Qed.
Lemma inop_logical L : logical (inop_env L) inop_defs (over_p inop) "m" "r" "p" "sub, obj, act" "sub, obj, act" inop.
Proof.
  constructor; [eexists; cbn; tauto|reflexivity|cbn; tauto|cbn; tauto|apply distinct_columns; reflexivity|apply distinct_columns; reflexivity|terms_tac|columns_tac|].
  assert (C : forall F : string -> option gofn, e_eval (inop_env L) F = inop_ev (mini (flat_map (fun k => match F k with Some f => [(k, f)] | None => [] end) ["g"]%string))) by reflexivity.
  apply Forall_cons; [|apply Forall_cons; [eq_tac|apply Forall_cons; [eq_tac|apply Forall_cons; [|apply Forall_nil]]]].
  - intros F Hf; specialize (Hf _ _ eq_refl); rewrite C; cbn [flat_map]; destruct (F "g"%string) eqn:E1; try contradiction; call_of_tac.
  - intros F _. split; [reflexivity|]. split.
    + intros get get' A B. rewrite C. cbn [ev inop_ev]. rewrite String.eqb_refl. rewrite (B "r_obj"%string) by discriminate. reflexivity.
    + intros get u Hu. rewrite C. cbn [ev inop_ev]. rewrite String.eqb_refl. cbn in Hu. rewrite Hu. reflexivity.
Qed.
Definition inop_l1 : list mcall := [CAdd ["p"; "editor"; "data1"; "write"]; CAdd ["p"; "bob"; "data2"; "read"]; CAdd ["g"; "alice"; "editor"]]%string.
Definition inop_l2 : list mcall := [CRemove ["p"; "bob"; "data2"; "read"]]%string.
Example C115_ex : forall L,
  readings (inop_env L) inop_defs (over_p inop) /\
  logical (inop_env L) inop_defs (over_p inop) "m" "r" "p" "sub, obj, act" "sub, obj, act" inop /\
  about_request inop_open /\ names_columns "r" "p" inop /\
  file_history inop_defs (after inop_defs inop_l1 inop_l2) /\ good_m (after inop_defs inop_l1 inop_l2) /\
  ask (inop_env L) (after inop_defs inop_l1 inop_l2) ["alice"; "data1"; "write"]%string = Val (true, None) /\
  ask (inop_env L) (after inop_defs inop_l1 inop_l2) ["bob"; "data1"; "write"]%string = Val (false, None) /\
  ask (inop_env L) (after inop_defs inop_l1 inop_l2) ["bob"; "data2"; "read"]%string = Val (true, None) /\
  ask (inop_env L) (after inop_defs inop_l1 inop_l2) ["carol"; "data3"; "delete"]%string = Val (true, None) /\
  ask (inop_env L) (after inop_defs [] []) ["carol"; "data3"; "delete"]%string = Val (true, None).
Proof.
  intros L. split; [apply inop_reads|]. split; [apply inop_logical|]. split; [intros x [X|[]]; discriminate X|]. split; [exact inop_columns|].
  destruct (after_file inop_defs inop_l1 inop_l2) as [H1 H2]; [unfold inop_l1; dom_tac|unfold inop_l2; dom_tac|]. split; [exact H1|]. split; [exact H2|].
  repeat split; vm_compute; reflexivity.
Qed.
