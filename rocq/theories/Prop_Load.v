(** Properties C54 (a model's text reads back as the model) and C68 (loading a
    model text). *)
From Verif Require Import GoBase GoBaseP DefsM DefsP PolicyM PolicySpec PolicyP MatcherDefM MatcherM MatcherSpec
  RbacM RbacSpec DomainM DomainSpec Prop_Rbac EvalM ModelM ModelSpec ModelP ModelP2 ModelP3 ModelP4 ModelP5 ModelP6 Prop_Model
  Prop_ModelDefs.
From Coq Require Import Sorted.

(** ** Specification *)

(** A configuration as the text parser (go-ini, outside the model) hands it
    over: the sections in the order of the text, each with its keys and values in
    the order of the text. *)
Definition config : Type := list (string * list (string * string)).

(** The section names a model text may use. *)
Definition section_names : list (string * sec) :=
  [("request_definition", R_SEC); ("policy_definition", P_SEC); ("role_definition", G_SEC); ("policy_effect", E_SEC); ("matchers", M_SEC)]%string.
Definition named (name : string) (s : sec) : bool := existsb (fun p => String.eqb name (fst p) && sec_eqb s (snd p)) section_names.

(** The definitions a configuration asks for, in the order of the text: those of
    sections with a known name. *)
Definition defs_in (cfg : config) : list (sec * string * string) :=
  flat_map (fun sect => flat_map (fun s => if named (fst sect) s then map (fun kv => (s, fst kv, snd kv)) (snd sect) else [])
                          [R_SEC; P_SEC; G_SEC; E_SEC; M_SEC]) cfg.

(** Calls made one after another until one of them returns an error. *)
Fixpoint until_error (E : env) (o : orders) (m : model) (cs : list mcall) : outcome (model * option goerr) :=
  match cs with
  | [] => Val (m, None)
  | c :: cs => let! (m, x) := mstep E o m c in
               match x_err x with Some e => Val (m, Some e) | None => until_error E o m cs end
  end.
Definition set_call (d : sec * string * string) : mcall := CSetDef (fst (fst d)) (snd (fst d)) (snd d).

(** ** C68 *)

Lemma defs_in_cons name kvs cfg :
  defs_in ((name, kvs) :: cfg) =
  match secByName name with Some s => map (fun kv => (s, fst kv, snd kv)) kvs | None => [] end ++ defs_in cfg.
Proof.
  unfold defs_in at 1. cbn [flat_map fst snd]. fold (defs_in cfg). f_equal. unfold named, section_names, secByName.
  cbn [existsb fst snd sec_eqb].
  repeat match goal with |- context [String.eqb name ?s] => destruct (String.eqb_spec name s) as [->|]; [cbn; now rewrite ?app_nil_r|] end.
  reflexivity.
Qed.

Lemma until_app E o cs cs' : forall m,
  until_error E o m (cs ++ cs') = let! (m', e) := until_error E o m cs in match e with Some _ => Val (m', e) | None => until_error E o m' cs' end.
Proof.
  induction cs as [|c cs IH]; intros m; cbn [app until_error]; [reflexivity|].
  destruct (mstep E o m c) as [[m1 x]|]; cbn [obind]; [|reflexivity]. destruct (x_err x); [reflexivity|apply IH].
Qed.

Lemma set_defs_calls E o s kvs : forall m,
  set_defs m s kvs = until_error E o m (map set_call (map (fun kv => (s, fst kv, snd kv)) kvs)).
Proof.
  induction kvs as [|[k v] kvs IH]; intros m; cbn [set_defs map until_error set_call fst snd mstep]; [reflexivity|].
  destruct (SetDef m s k v) as [[m1 [e|]]|]; cbn [obind x_err]; [reflexivity|apply IH|reflexivity].
Qed.
Lemma load_calls E o cfg : forall m, load_sections m cfg = until_error E o m (map set_call (defs_in cfg)).
Proof.
  induction cfg as [|[name kvs] cfg IH]; intros m; [reflexivity|]. rewrite defs_in_cons, map_app, until_app. cbn [load_sections].
  destruct (secByName name) as [s|]; [|apply IH]. rewrite <- set_defs_calls.
  destruct (set_defs m s kvs) as [[m1 [e|]]|]; cbn [obind]; [reflexivity|apply IH|reflexivity].
Qed.

(** Loading a configuration into any model is the calls SetDef for its
    definitions in the order of the text, and BuildMatchers, up to the first call
    that returns an error, which is what loading returns.  Sections of another
    name are ignored. *)
Theorem C68_load_is_calls :
  forall E o m cfg,
    loadModelFromConfig E o m cfg = until_error E o m (map set_call (defs_in cfg) ++ [CBuild]).
Proof.
  intros E o m cfg. unfold loadModelFromConfig. rewrite until_app, <- load_calls.
  destruct (load_sections m cfg) as [[m1 [e|]]|]; cbn [obind]; [reflexivity| |reflexivity]. cbn [until_error mstep].
  destruct (BuildMatchers E o m1) as [[m2 [e|]]|]; reflexivity.
Qed.
Print Assumptions C68_load_is_calls.

Lemma until_ok E o cs : forall m m', until_error E o m cs = Val (m', None) ->
  exists rs, mexec E m (map (fun c => (o, c)) cs) = Val (m', rs) /\ Forall (fun x => x_err x = None) rs.
Proof.
  induction cs as [|c cs IH]; intros m m' H; cbn [until_error map mexec] in *.
  - injection H as <-. exists []. auto.
  - apply obind_val in H as [[m1 x] [Es H]]. cbn beta iota zeta in H. destruct (x_err x) eqn:Ex; [discriminate|].
    destruct (IH _ _ H) as [rs [A B]]. exists (x :: rs). rewrite Es. cbn [obind]. rewrite A. auto.
Qed.

Lemma sec_eqb_eq a b : a <> OtherSec -> sec_eqb a b = true <-> a = b.
Proof. destruct a, b; cbn; split; congruence. Qed.
Lemma def_text_sets o s k ds h :
  def_text s k (h ++ map (fun c => (o, c)) (map set_call ds)) =
  fold_left (fun acc d => if sec_eqb (fst (fst d)) s && String.eqb (snd (fst d)) k then Some (snd d) else acc) ds (def_text s k h).
Proof.
  unfold def_text. rewrite map_app, fold_left_app. generalize (fold_left (def_step s k) (map snd h) None).
  induction ds as [|d ds IH]; intros a; cbn [map fold_left snd set_call def_step]; [reflexivity|apply IH].
Qed.

(** The value a configuration gives a definition: the last one in the text. *)
Definition last_value (s : sec) (k : string) (cfg : config) : option string :=
  match find (fun d => sec_eqb (fst (fst d)) s && String.eqb (snd (fst d)) k) (rev (defs_in cfg)) with
  | Some d => Some (snd d)
  | None => None
  end.
Lemma fold_last (f : sec * string * string -> bool) ds : forall a,
  fold_left (fun acc d => if f d then Some (snd d) else acc) ds a =
  match find f (rev ds) with Some d => Some (snd d) | None => a end.
Proof.
  induction ds as [|d ds IH] using rev_ind; intros a; [reflexivity|]. rewrite fold_left_app, rev_app_distr. cbn [fold_left rev app find].
  destruct (f d); [reflexivity|]. apply IH.
Qed.

(** What is defined after a load that succeeded, on a model with any history: the
    configuration's definitions, and for the other keys what was defined before. *)
Theorem C68_loaded_definitions :
  forall E h m rs o cfg m', mexec E (NewModel E) h = Val (m, rs) -> loadModelFromConfig E o m cfg = Val (m', None) ->
    forall s k, key_of s k ->
      GetDef m' s k = match last_value s k cfg with Some v => Some (shown s k v) | None => GetDef m s k end.
Proof.
  intros E h m rs o cfg m' H L s k K. rewrite C68_load_is_calls in L. apply until_ok in L as [rs' [L _]].
  assert (H' : mexec E (NewModel E) (h ++ map (fun c => (o, c)) (map set_call (defs_in cfg) ++ [CBuild])) = Val (m', rs ++ rs')).
  { apply mexec_app. exists m, rs, rs'. auto. }
  rewrite (C56_definitions _ _ _ _ s k H' K), (C56_definitions _ _ _ _ s k H K).
  rewrite map_app, app_assoc. cbn [map]. rewrite def_text_snoc. cbn [def_step]. rewrite def_text_sets, fold_last.
  unfold last_value. destruct (find _ _); reflexivity.
Qed.
Print Assumptions C68_loaded_definitions.

(** When the definitions are accepted: exactly if every key begins with the
    letter of its section.  Otherwise the definitions before the first other key
    are set, and it is answered with an error, or with a panic if it is empty. *)
Lemma SetDef_ok m s k v : key_of s k -> exists m', SetDef m s k v = Val (m', None).
Proof. intros [c [K1 K2]]. unfold SetDef. rewrite K1, K2, Ascii.eqb_refl. eauto. Qed.
Theorem C68_bad_key :
  forall E o m cfg pre d post, defs_in cfg = pre ++ d :: post ->
    Forall (fun d => key_of (fst (fst d)) (snd (fst d))) pre -> ~ key_of (fst (fst d)) (snd (fst d)) ->
    exists m' rs, mexec E m (map (fun c => (o, c)) (map set_call pre)) = Val (m', rs) /\
      (snd (fst d) = ""%string -> loadModelFromConfig E o m cfg = Panic) /\
      (snd (fst d) <> ""%string -> exists e, loadModelFromConfig E o m cfg = Val (m', Some e)).
Proof.
  intros E o m cfg pre [[s k] v] post Hd Hp Hk. cbn [fst snd] in *.
  assert (A : exists m', until_error E o m (map set_call pre) = Val (m', None)).
  { clear - Hp. revert m. induction Hp as [|[[s k] v] pre K _ IH]; intros m; [now exists m|]. cbn [map set_call fst snd until_error mstep] in *.
    destruct (SetDef_ok m s k v K) as [m1 ->]. cbn [obind x_err]. apply IH. }
  destruct A as [m' A]. destruct (until_ok _ _ _ _ _ A) as [rs [B _]]. exists m', rs. split; [exact B|].
  rewrite C68_load_is_calls, Hd. rewrite map_app, <- app_assoc, until_app, A. cbn [obind map app until_error set_call fst snd mstep].
  assert (Hs : keyPrefix s <> None).
  { assert (In (s, k, v) (defs_in cfg)) as Hin by (rewrite Hd; apply in_elt). unfold defs_in in Hin.
    apply in_flat_map in Hin as [x [_ Hin]]. apply in_flat_map in Hin as [s' [Hs' Hin]]. destruct (named (fst x) s'); [|destruct Hin].
    apply in_map_iff in Hin as [kv [Ekv _]]. injection Ekv as -> _ _. cbn in Hs'. intuition (subst; discriminate). }
  split.
  - intros ->. now rewrite C56_empty_key_panics.
  - intros N. destruct (C56_bad_key m' s k v N Hk) as [e ->]. exists e. reflexivity.
Qed.
Print Assumptions C68_bad_key.

(** ** C54: the text of a model, loaded into a new model *)

(** The text of a configuration. *)
Definition config_text (cfg : config) : string :=
  String.concat "" (map (fun sect => "[" ++ fst sect ++ "]" ++ nl ++
    String.concat "" (map (fun kv => fst kv ++ " = " ++ snd kv ++ nl) (snd sect)) ++ nl)%string cfg).

(** The text a definition prints after its key. *)
Definition canon (s : sec) (v : string) : string :=
  match s with
  | R_SEC | P_SEC => join ", " (split_char "," (no_spaces v))
  | G_SEC => join "," (repeat "_" (List.length (split_char "," v)))
  | E_SEC => no_spaces v
  | M_SEC | OtherSec => v
  end%string.
Lemma canon_shown s k v : s <> OtherSec -> shown s k v = (k ++ " = " ++ canon s v)%string.
Proof. destruct s; intros H; try reflexivity; congruence. Qed.
Lemma canon_canon s v : canon s (canon s v) = canon s v.
Proof.
  destruct s; cbn [canon]; try reflexivity; try (now rewrite args_back).
  - pose proof (split_char_nonempty "," v) as N. destruct (split_char "," v) as [|x l] eqn:E; [congruence|].
    rewrite split_join; [now rewrite repeat_length|discriminate|].
    apply Forall_forall. intros y Hy. apply repeat_spec in Hy as ->. reflexivity.
  - apply no_spaces_free, free_no_spaces.
Qed.

Lemma before_trans a b c : before a b -> before b c -> before a c.
Proof.
  unfold before. revert b c. induction a as [|x a IH]; intros [|y b] [|z c]; cbn; try discriminate; auto.
  unfold Ascii.compare. destruct (N.compare_spec (Ascii.N_of_ascii x) (Ascii.N_of_ascii y)) as [E1|L1|]; try discriminate;
    destruct (N.compare_spec (Ascii.N_of_ascii y) (Ascii.N_of_ascii z)) as [E2|L2|]; try discriminate; intros H1 H2.
  - rewrite E1, E2, N.compare_refl. eauto.
  - rewrite E1. now apply N.compare_lt_iff in L2 as ->.
  - rewrite <- E2. now apply N.compare_lt_iff in L1 as ->.
  - assert (L : (Ascii.N_of_ascii x < Ascii.N_of_ascii z)%N) by lia. now apply N.compare_lt_iff in L as ->.
Qed.
Lemma before_irrefl a : ~ before a a.
Proof.
  unfold before. intros H. pose proof (String.compare_antisym a a) as A. rewrite H in A. discriminate A.
Qed.
Lemma sorted_unique l l' : Sorted before l -> Sorted before l' -> (forall k, In k l <-> In k l') -> l = l'.
Proof.
  intros S S'. apply Sorted_StronglySorted in S; [|exact before_trans]. apply Sorted_StronglySorted in S'; [|exact before_trans].
  revert l' S'. induction S as [|x l S IH Hx]; intros l' S' H.
  - destruct l' as [|y l']; [reflexivity|]. destruct (proj2 (H y)); now left.
  - destruct S' as [|y l' S' Hy]; [destruct (proj1 (H x)); now left|].
    rewrite Forall_forall in Hx, Hy.
    assert (Hxy : x = y).
    { destruct (proj1 (H x) (or_introl eq_refl)) as [->|I1]; [reflexivity|]. destruct (proj2 (H y) (or_introl eq_refl)) as [->|I2]; [reflexivity|].
      exfalso. apply (before_irrefl x). eapply before_trans; eauto. }
    subst y. f_equal. apply IH; [exact S'|]. intros k. split; intros Hk.
    + destruct (proj1 (H k) (or_intror Hk)) as [<-|]; [|assumption]. exfalso. apply (before_irrefl x). auto.
    + destruct (proj2 (H k) (or_intror Hk)) as [<-|]; [|assumption]. exfalso. apply (before_irrefl x). auto.
Qed.

Definition the_config (ks : sec -> list string) (val : sec -> string -> string) : config :=
  flat_map (fun p => match ks (snd p) with [] => [] | l => [(fst p, map (fun k => (k, val (snd p) k)) l)] end) section_names.

Lemma the_config_defs ks val : defs_in (the_config ks val) =
  flat_map (fun s => map (fun k => (s, k, val s k)) (ks s)) [R_SEC; P_SEC; G_SEC; E_SEC; M_SEC].
Proof.
  assert (A : forall c1 c2, defs_in (c1 ++ c2) = defs_in c1 ++ defs_in c2) by (intros; unfold defs_in; apply flat_map_app).
  assert (B : forall name s, secByName name = Some s ->
    defs_in (match ks s with [] => [] | l => [(name, map (fun k => (k, val s k)) l)] end) = map (fun k => (s, k, val s k)) (ks s)).
  { intros name s Hn. destruct (ks s) as [|k l]; [reflexivity|]. rewrite defs_in_cons, Hn, app_nil_r, map_map. reflexivity. }
  unfold the_config, section_names. cbn [flat_map fst snd]. rewrite !A. rewrite !B by reflexivity. reflexivity.
Qed.

Lemma concat_app (l l' : list string) : String.concat "" (l ++ l') = (String.concat "" l ++ String.concat "" l')%string.
Proof.
  assert (App : forall a b c : string, ((a ++ b) ++ c)%string = (a ++ b ++ c)%string) by (intros a b c; induction a as [|x a IH]; cbn; congruence).
  assert (C : forall x l, String.concat "" (x :: l) = (x ++ String.concat "" l)%string).
  { intros x [|y l0]; [cbn; induction x as [|c x IH]; cbn; congruence|reflexivity]. }
  induction l as [|x l IH]; [reflexivity|]. cbn [app]. rewrite !C, IH, App. reflexivity.
Qed.
Lemma the_config_text h ks val :
  (forall s k, s <> OtherSec -> In k (ks s) -> def_shown h s k = (k ++ " = " ++ val s k)%string) ->
  config_text (the_config ks val) = model_text h ks.
Proof.
  intros Hv.
  assert (App : forall a b c : string, ((a ++ b) ++ c)%string = (a ++ b ++ c)%string) by (intros a b c; induction a as [|x a IH]; cbn; congruence).
  assert (A : forall c1 c2, config_text (c1 ++ c2) = (config_text c1 ++ config_text c2)%string) by (intros; unfold config_text; rewrite map_app; apply concat_app).
  assert (B : forall name s, s <> OtherSec ->
    config_text (match ks s with [] => [] | l => [(name, map (fun k => (k, val s k)) l)] end) = section_text s name (ks s) (def_shown h s)).
  { intros name s Hs. unfold section_text. destruct (ks s) as [|k l] eqn:Ek; [reflexivity|].
    assert (C : forall L, config_text [(name, L)] =
      ("[" ++ name ++ "]" ++ nl ++ String.concat "" (map (fun kv => fst kv ++ " = " ++ snd kv ++ nl) L) ++ nl)%string) by reflexivity.
    rewrite C, map_map. rewrite <- Ek. do 5 f_equal. f_equal. cbn [fst snd]. apply map_ext_in. intros k' Hk'. rewrite (Hv s k' Hs Hk'), !App. reflexivity. }
  unfold the_config, section_names, model_text. cbn [flat_map fst snd]. rewrite !A. rewrite !B by discriminate.
  assert (N : forall a : string, (a ++ "")%string = a) by (intros a; induction a as [|x a IH]; cbn; congruence).
  cbn [config_text map String.concat]. now rewrite N.
Qed.

(** The text of a model, after any history, is the text of a configuration, and
    loading that configuration into a new model gives a model with the same
    definitions and the same text - also if loading then reports that a matcher
    does not build. *)
Theorem C54_reload :
  forall E h m rs o, mexec E (NewModel E) h = Val (m, rs) ->
    exists cfg, model_String m = config_text cfg /\
      forall m' e, loadModelFromConfig E o (NewModel E) cfg = Val (m', e) ->
        (forall s k, GetDef m' s k = GetDef m s k) /\ model_String m' = model_String m.
Proof.
  intros E h m rs o H. destruct (C54_model_text E h m rs H) as [ks [Hs [Hk Ht]]].
  set (val := fun s k => match def_text s k h with Some v => canon s v | None => "" end%string).
  exists (the_config ks val). split.
  { rewrite Ht. symmetry. apply the_config_text. intros s k N Hin. apply Hk in Hin as [_ Hd]. unfold def_shown, val.
    destruct (def_text s k h); [|congruence]. now apply canon_shown. }
  intros m' e L. rewrite C68_load_is_calls, the_config_defs in L.
  remember (flat_map (fun s => map (fun k => (s, k, val s k)) (ks s)) [R_SEC; P_SEC; G_SEC; E_SEC; M_SEC]) as ds eqn:Eds.
  assert (Kd : forall s k t, In (s, k, t) ds <-> In k (ks s) /\ t = val s k).
  { intros s k t. subst ds. rewrite in_flat_map. split.
    - intros [s' [_ Hi]]. apply in_map_iff in Hi as [k' [Ek Hi]]. injection Ek as -> -> <-. auto.
    - intros [Hi ->]. exists s. split; [|apply in_map_iff; eauto]. apply Hk in Hi as [[c [K _]] _]. destruct s; cbn; auto 6; discriminate K. }
  assert (L' : exists rs', mexec E (NewModel E) (map (fun c => (o, c)) (map set_call ds ++ [CBuild])) = Val (m', rs')).
  { rewrite until_app in L.
    assert (A : forall m0, exists m1, until_error E o m0 (map set_call ds) = Val (m1, None)).
    { assert (F : Forall (fun d => key_of (fst (fst d)) (snd (fst d))) ds).
      { apply Forall_forall. intros [[s k] t] Hi. apply Kd in Hi as [Hi _]. now apply Hk in Hi as [K _]. }
      clear - F. induction F as [|[[s k] v] pre K _ IH]; intros m; [now exists m|]. cbn [map set_call fst snd until_error mstep] in *.
      destruct (SetDef_ok m s k v K) as [m1 ->]. cbn [obind x_err]. apply IH. }
    destruct (A (NewModel E)) as [m1 A1]. rewrite A1 in L. cbn [obind until_error] in L. apply obind_val in L as [[m2 x] [L1 L2]].
    destruct (until_ok _ _ _ _ _ A1) as [rs1 [B _]]. rewrite map_app. cbn [map]. exists (rs1 ++ [x]).
    cbv beta iota zeta in L2. replace m' with m2 by (destruct (x_err x); now injection L2). eapply mexec_snoc; eauto. }
  destruct L' as [rs' L'].
  assert (D : forall s k, key_of s k ->
    def_text s k (map (fun c => (o, c)) (map set_call ds ++ [CBuild])) = option_map (canon s) (def_text s k h)).
  { intros s k K. assert (Ns : s <> OtherSec) by (intros ->; destruct K as [c [K _]]; discriminate K).
    rewrite map_app. cbn [map]. rewrite def_text_snoc. cbn [def_step].
    pose proof (def_text_sets o s k ds []) as T. cbn [app] in T. rewrite T, fold_last.
    destruct (find _ (rev ds)) as [[[s' k'] t]|] eqn:Ef.
    - apply find_some in Ef as [Hi Hf]. cbn [fst snd] in Hf. apply andb_prop in Hf as [F1 F2]. apply String.eqb_eq in F2 as ->.
      assert (s' = s) as -> by (destruct s', s; try discriminate F1; reflexivity).
      apply in_rev, Kd in Hi as [Hi ->]. apply Hk in Hi as [_ Hd]. unfold val. cbn [snd]. destruct (def_text s k h); [reflexivity|congruence].
    - destruct (def_text s k h) as [v|] eqn:Ed; [|reflexivity]. exfalso.
      assert (Hi : In (s, k, val s k) (rev ds)). { apply in_rev. rewrite rev_involutive. apply Kd. split; [|reflexivity]. apply Hk. split; [exact K|congruence]. }
      pose proof (find_none _ _ Ef _ Hi) as Fn. cbn [fst snd] in Fn. rewrite String.eqb_refl in Fn. destruct s; try discriminate Fn; congruence. }
  assert (G : forall s k, key_of s k -> GetDef m' s k = GetDef m s k).
  { intros s k K. rewrite (C56_definitions _ _ _ _ s k L' K), (C56_definitions _ _ _ _ s k H K), (D s k K).
    assert (Ns : s <> OtherSec) by (intros ->; destruct K as [c [K _]]; discriminate K).
    destruct (def_text s k h) as [v|]; [|reflexivity]. cbn [option_map]. now rewrite !canon_shown, canon_canon. }
  split.
  - intros s k. pose proof (defs_exec _ _ _ _ H) as D1. pose proof (defs_exec _ _ _ _ L') as D2.
    assert (Dec : key_of s k \/ ~ key_of s k).
    { unfold key_of. destruct (keyPrefix s) as [c|]; [|right; intros [c [C _]]; discriminate C].
      destruct (first_byte k) as [c'|]; [|right; intros [? [_ C]]; discriminate C].
      destruct (Ascii.eqb_spec c c') as [->|N]; [left; eauto|]. right. intros [x [X1 X2]]. congruence. }
    destruct Dec as [K|K]; [auto|].
    assert (Z : forall mm hh, Defs hh mm -> GetDef mm s k = None).
    { intros mm hh DD. assert (NI : ~ In k (sec_keys mm s)) by (intros C; apply K, (f_keys _ _ DD _ _ C)).
      destruct s; cbn [GetDef sec_keys] in *; try reflexivity;
        match goal with |- context [mget k ?mp] => destruct (mget k mp) eqn:Eg; [exfalso; apply NI; eapply DomainP5.mget_key; eauto|reflexivity] end. }
    rewrite (Z _ _ D1), (Z _ _ D2). reflexivity.
  - destruct (C54_model_text E _ m' rs' L') as [ks' [Hs' [Hk' Ht']]].
    assert (Eks : forall s, ks' s = ks s).
    { intros s. apply sorted_unique; [apply Hs'|apply Hs|]. intros k. rewrite Hk, Hk'. split; intros [K Hd]; (split; [exact K|]); rewrite (D s k K) in *;
        destruct (def_text s k h); cbn in *; congruence. }
    rewrite Ht, Ht'. unfold model_text.
    assert (Es : forall s name, s <> OtherSec -> section_text s name (ks' s) (def_shown (map (fun c => (o, c)) (map set_call ds ++ [CBuild])) s) = section_text s name (ks s) (def_shown h s)).
    { intros s name Ns. rewrite Eks. unfold section_text. destruct (ks s) as [|k0 l] eqn:Ek; [reflexivity|]. rewrite <- Ek.
      do 5 f_equal. f_equal. apply map_ext_in. intros k Hi. f_equal. apply Hk in Hi as [K Hd]. unfold def_shown. rewrite (D s k K).
      destruct (def_text s k h); [|congruence]. cbn [option_map]. now rewrite !canon_shown, canon_canon. }
    rewrite !Es by discriminate. reflexivity.
Qed.
Print Assumptions C54_reload.

(** A model text with two role sections, a section of another name and a
    definition given twice. *)
Definition basic_cfg : config :=
  [("DEFAULT", []); ("request_definition", [("r", "sub,obj, act")]); ("policy_definition", [("p", "sub"); ("p2", "sub, obj")]);
   ("other", [("x", "y")]); ("role_definition", [("g", "_, _"); ("g2", "_,_,_")]); ("policy_definition", [("p", "sub, obj, act")]);
   ("matchers", [("m", "g(r.sub, p.sub) && r.obj == p.obj && r.act == p.act")])]%string.
Example C68_ex :
  List.length (defs_in basic_cfg) = 7 /\
  Forall (fun d => key_of (fst (fst d)) (snd (fst d))) (defs_in basic_cfg) /\
  last_value P_SEC "p" basic_cfg = Some "sub, obj, act"%string /\
  (exists m, loadModelFromConfig ex_env ex_o (NewModel ex_env) basic_cfg = Val (m, None) /\
     GetDef m P_SEC "p" = Some "p = sub, obj, act"%string /\ mkeys (md_mMap m) = ["m"%string]).
Proof.
  split; [reflexivity|]. split.
  { repeat (apply Forall_cons; [eexists; split; reflexivity|]). apply Forall_nil. }
  split; [reflexivity|]. eexists. split; [vm_compute; reflexivity|]. split; vm_compute; reflexivity.
Qed.
Example C68_bad_ex :
  let cfg k := [("request_definition", [("r", "sub"); (k, "sub"); ("r2", "sub")])]%string in
  loadModelFromConfig ex_env ex_o (NewModel ex_env) (cfg ""%string) = Panic /\
  (exists m e, loadModelFromConfig ex_env ex_o (NewModel ex_env) (cfg "p"%string) = Val (m, Some e) /\
     GetDef m R_SEC "r" = Some "r = sub"%string /\ GetDef m R_SEC "r2" = None).
Proof. split; [vm_compute; reflexivity|]. eexists _, _. split; [vm_compute; reflexivity|]. split; vm_compute; reflexivity. Qed.
Example C54_reload_ex :
  match loadModelFromConfig ex_env ex_o (NewModel ex_env) basic_cfg with
  | Val (m, _) => model_String m
  | Panic => ""%string
  end = config_text
   [("request_definition", [("r", "sub, obj, act")]); ("policy_definition", [("p", "sub, obj, act"); ("p2", "sub, obj")]);
    ("role_definition", [("g", "_,_"); ("g2", "_,_,_")]);
    ("matchers", [("m", "g(r.sub, p.sub) && r.obj == p.obj && r.act == p.act")])]%string.
Proof. vm_compute. reflexivity. Qed.
