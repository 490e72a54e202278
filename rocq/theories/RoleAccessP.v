(** Lemmas for C98: a model whose role managers are used directly next to the
    model that only gets the calls on the model. *)
From Verif Require Import GoBase GoBaseP DefsM PolicyM PolicySpec MatcherDefM MatcherM MatcherSpec PathM RbacM RbacSpec DomainM DomainSpec ModelM ModelSpec ModelP ModelP2 ModelP3 ModelP4 ModelP5 ModelP6 SafeSpec SafeP FunctionsSpec FunctionsP EnforcerM EnforcerSpec EnforcerP MultiSpec LogicSpec RoleAccessM RoleAccessSpec.
From Verif Require Import Prop_Model Prop_App Prop_Multi Prop_Columns.
Local Open Scope list_scope.

(** The role objects of the sections of [d] stand at [ix], their managers at [rx];
    nobody listens to them. *)
Record roles_at (d : deflist) (ix rx : string -> nat) (m : model) : Prop := {
  ra_r : forall k t, In (G_SEC, k, t) d -> mget k (md_rpMap m) = Some (ix k) /\ nth_error (md_objs m) (ix k) = Some (mkObj (ORole (rx k)) []);
  ra_n : forall k, g_key k -> mget k (md_pMap m) = None;
  ra_p : forall k i, mget k (md_pMap m) = Some i -> exists p ls, nth_error (md_objs m) i = Some (mkObj (OPolicy p) ls);
  ra_dp : forall k t, In (P_SEC, k, t) d -> mget k (md_pMap m) <> None;
  ra_inj : forall k t k' t', In (G_SEC, k, t) d -> In (G_SEC, k', t') d -> rx k = rx k' -> k = k'
}.

Lemma act_policy_twin o m i a p ls m' b d ix rx : nth_error (md_objs m) i = Some (mkObj (OPolicy p) ls) -> roles_at d ix rx m -> act o m i a = Val (m', b) ->
  roles_at d ix rx m' /\ forall X, act o (set_rms m X) i a = Val (set_rms m' X, b).
Proof.
  intros Hi R H. unfold act in *. rewrite Hi in H. cbn [o_body o_listeners] in H. destruct (PolicyM.pstep p a) as [[p' b'] es] eqn:Ep.
  destruct (notify_all (md_mats m) ls es) as [ms|] eqn:En; cbn [obind] in H; [|discriminate]. injection H as <- <-. split.
  - destruct R as [A B C D0 D]. constructor; cbn; auto.
    + intros k t Hk. destruct (A k t Hk) as [A1 A2]. split; [exact A1|]. rewrite nth_set_nth by (eapply nth_lt; eauto).
      destruct (Nat.eqb_spec (ix k) i) as [E|]; [rewrite E in A2; congruence|exact A2].
    + intros k j Hj. destruct (C k j Hj) as [q [l Hq]]. rewrite nth_set_nth by (eapply nth_lt; eauto). destruct (Nat.eqb_spec j i) as [->|]; eauto.
  - intros X. cbn. rewrite Hi. cbn [o_body o_listeners]. rewrite Ep. cbn. rewrite En. reflexivity.
Qed.

Definition role_pop (a : pop) (c : dcall) : Prop :=
  match a with
  | PAdd (x :: y :: ds) => c = DAdd x y ds
  | PRemove (x :: y :: ds) => c = DDel x y ds
  | PClear => c = DClear
  | _ => False
  end.
Lemma act_role_twin o m i r a c m' b d ix rx : nth_error (md_objs m) i = Some (mkObj (ORole r) []) -> roles_at d ix rx m -> role_pop a c -> act o m i a = Val (m', b) ->
  roles_at d ix rx m' /\ (forall X, set_rms m' X = set_rms m X) /\
  forall X x x' y, nth_error X r = Some x -> dstep (o_names o) x c = Val (x', y) -> exists b', act o (set_rms m X) i a = Val (set_rms m (set_nth X r x'), b').
Proof.
  intros Hi R Hc H. unfold act in H. rewrite Hi in H. cbn [o_body o_listeners] in H.
  destruct (nth_error (md_rms m) r) as [z|]; [|discriminate]. destruct (act_role (o_names o) z a) as [[[z' b1] es]|]; cbn [obind] in H; [|discriminate].
  assert (N : forall ms (l : list event), notify_all ms [] l = Val ms). { clear. intros ms l. induction l as [|e l IH]; cbn; [reflexivity|exact IH]. }
  rewrite N in H. cbn [obind] in H. injection H as <- <-. split; [|split].
  - destruct R as [A B C D0 D]. constructor; cbn; auto.
  - reflexivity.
  - intros X x x' y Hx Hs. unfold act. cbn [md_objs set_rms]. rewrite Hi. cbn [o_body o_listeners md_rms md_mats set_rms]. rewrite Hx.
    assert (S : exists b' es', act_role (o_names o) x a = Val (x', b', es')).
    { destruct a as [[|n1 [|n2 ds]]|[|n1 [|n2 ds]]|]; cbn in Hc; try contradiction; subst c; cbn [dstep act_role] in *.
      - destruct (i_Add (o_names o) x n1 n2 ds) as [[u v]|]; cbn [obind] in *; [|discriminate]. injection Hs as -> _. eauto.
      - destruct (i_Del (o_names o) x n1 n2 ds) as [[u v]|]; cbn [obind] in *; [|discriminate]. injection Hs as -> _. eauto.
      - injection Hs as -> _. eauto. }
    destruct S as [b' [es' S]]. rewrite S. cbn [obind]. rewrite N. cbn [obind]. eauto.
Qed.

Lemma key_p k : first_byte k = Some "p"%char -> first_byte k = Some "g"%char -> False.
Proof. congruence. Qed.

(** One call on the model. *)
Lemma file_step_twin E d ix rx o m c m' y : key_byte d -> file_call d c -> roles_at d ix rx m -> mstep E o m c = Val (m', y) ->
  roles_at d ix rx m' /\
  ((forall gk gt, In (G_SEC, gk, gt) d -> section_call gk (XM c) = []) /\ (forall X, mstep E o (set_rms m X) c = Val (set_rms m' X, y)) \/
   exists k t dc, In (G_SEC, k, t) d /\ section_call k (XM c) = [RC dc] /\ (forall gk, gk <> k -> section_call gk (XM c) = []) /\
     (forall X, set_rms m' X = set_rms m X) /\
     forall X x x' z, nth_error X (rx k) = Some x -> dstep (o_names o) x dc = Val (x', z) ->
       exists y', mstep E o (set_rms m X) c = Val (set_rms m (set_nth X (rx k) x'), y')).
Proof.
  intros KB Hc R H. destruct c as [| |rl|rl|k| | | | | |]; cbn in Hc; try contradiction.
  - destruct Hc as [(k & t & r & -> & Hk & _)|(k & t & a & b & ds & -> & Hk & _)]; cbn [mstep model_AddRule] in *.
    + destruct (KB _ _ _ Hk) as [c0 [E0 Kk]]. injection E0 as <-. rewrite Kk in *. cbn in H. change (Ascii.eqb "p" "p") with true in *. cbn iota in *.
      destruct (mget k (md_pMap m)) as [i|] eqn:Ei; cbn [obind] in H.
      * destruct (ra_p _ _ _ _ R k i Ei) as [p [ls Hi]]. destruct (act o m i (PAdd r)) as [[m1 b1]|] eqn:Ea; cbn [obind] in H; [|discriminate]. injection H as <- <-.
        destruct (act_policy_twin _ _ _ _ _ _ _ _ _ _ _ Hi R Ea) as [R' T]. split; [exact R'|]. left. split.
        -- intros gk gt Hg. cbn. destruct (String.eqb_spec k gk) as [->|]; [|reflexivity]. destruct (KB _ _ _ Hg) as [c1 [E1 K1]]. injection E1 as <-. congruence.
        -- intros X. cbn [set_rms md_pMap]. rewrite Ei. cbn. rewrite T. reflexivity.
      * injection H as <- <-. split; [exact R|]. left. split.
        -- intros gk gt Hg. cbn. destruct (String.eqb_spec k gk) as [->|]; [|reflexivity]. destruct (KB _ _ _ Hg) as [c1 [E1 K1]]. injection E1 as <-. congruence.
        -- intros X. cbn [set_rms md_pMap]. rewrite Ei. reflexivity.
    + destruct (KB _ _ _ Hk) as [c0 [E0 Kk]]. injection E0 as <-. rewrite Kk in *. change (Ascii.eqb "g" "p") with false in *. change (Ascii.eqb "g" "g") with true in *. cbn iota in *.
      destruct (ra_r _ _ _ _ R k t Hk) as [Ei Hi]. rewrite Ei in H. destruct (act o m (ix k) (PAdd (a :: b :: ds))) as [[m1 b1]|] eqn:Ea; cbn [obind] in H; [|discriminate]. injection H as <- <-.
      destruct (act_role_twin _ _ _ _ (PAdd (a :: b :: ds)) (DAdd a b ds) _ _ _ _ _ Hi R eq_refl Ea) as [R' [S T]]. split; [exact R'|]. right. exists k, t, (DAdd a b ds).
      split; [exact Hk|]. split; [cbn; now rewrite String.eqb_refl|]. split; [intros gk Hn; cbn; destruct (String.eqb_spec k gk); congruence|]. split; [exact S|].
      intros X x x' z Hx Hs. destruct (T X x x' z Hx Hs) as [b' Ea']. cbn [set_rms md_rpMap]. rewrite Ei. cbn. rewrite Ea'. cbn. eauto.
  - destruct Hc as [(k & t & r & -> & Hk & _)|(k & t & a & b & ds & -> & Hk & _)]; cbn [mstep model_RemoveRule] in *.
    + destruct (KB _ _ _ Hk) as [c0 [E0 Kk]]. injection E0 as <-. rewrite Kk in *. change (Ascii.eqb "p" "p") with true in *. cbn iota in *.
      destruct (mget k (md_pMap m)) as [i|] eqn:Ei; cbn [obind] in H.
      * destruct (ra_p _ _ _ _ R k i Ei) as [p [ls Hi]]. destruct (act o m i (PRemove r)) as [[m1 b1]|] eqn:Ea; cbn [obind] in H; [|discriminate]. injection H as <- <-.
        destruct (act_policy_twin _ _ _ _ _ _ _ _ _ _ _ Hi R Ea) as [R' T]. split; [exact R'|]. left. split.
        -- intros gk gt Hg. cbn. destruct (String.eqb_spec k gk) as [->|]; [|reflexivity]. destruct (KB _ _ _ Hg) as [c1 [E1 K1]]. injection E1 as <-. congruence.
        -- intros X. cbn [set_rms md_pMap]. rewrite Ei. cbn. rewrite T. reflexivity.
      * injection H as <- <-. split; [exact R|]. left. split.
        -- intros gk gt Hg. cbn. destruct (String.eqb_spec k gk) as [->|]; [|reflexivity]. destruct (KB _ _ _ Hg) as [c1 [E1 K1]]. injection E1 as <-. congruence.
        -- intros X. cbn [set_rms md_pMap]. rewrite Ei. reflexivity.
    + destruct (KB _ _ _ Hk) as [c0 [E0 Kk]]. injection E0 as <-. rewrite Kk in *. change (Ascii.eqb "g" "p") with false in *. change (Ascii.eqb "g" "g") with true in *. cbn iota in *.
      destruct (ra_r _ _ _ _ R k t Hk) as [Ei Hi]. rewrite Ei in H. destruct (act o m (ix k) (PRemove (a :: b :: ds))) as [[m1 b1]|] eqn:Ea; cbn [obind] in H; [|discriminate]. injection H as <- <-.
      destruct (act_role_twin _ _ _ _ (PRemove (a :: b :: ds)) (DDel a b ds) _ _ _ _ _ Hi R eq_refl Ea) as [R' [S T]]. split; [exact R'|]. right. exists k, t, (DDel a b ds).
      split; [exact Hk|]. split; [cbn; now rewrite String.eqb_refl|]. split; [intros gk Hn; cbn; destruct (String.eqb_spec k gk); congruence|]. split; [exact S|].
      intros X x x' z Hx Hs. destruct (T X x x' z Hx Hs) as [b' Ea']. cbn [set_rms md_rpMap]. rewrite Ei. cbn. rewrite Ea'. cbn. eauto.
  - destruct Hc as [t Hc]. cbn [mstep] in *. unfold ClearPolicy, GetPolicy in *. destruct Hc as [Hk|Hk]; destruct (KB _ _ _ Hk) as [c0 [E0 Kk]]; injection E0 as <-.
    + assert (Hs : forall gk gt, In (G_SEC, gk, gt) d -> section_call gk (XM (CClear k)) = []).
      { intros gk gt Hg. cbn. destruct (String.eqb_spec k gk) as [->|]; [|reflexivity]. destruct (KB _ _ _ Hg) as [c1 [E1 K1]]. injection E1 as <-. congruence. }
      destruct (mget k (md_pMap m)) as [i|] eqn:Ei.
      * destruct (ra_p _ _ _ _ R k i Ei) as [p [ls Hi]]. destruct (act o m i PClear) as [[m1 b1]|] eqn:Ea; cbn [obind] in H; [|discriminate]. injection H as <- <-.
        destruct (act_policy_twin _ _ _ _ _ _ _ _ _ _ _ Hi R Ea) as [R' T]. split; [exact R'|]. left. split; [exact Hs|].
        intros X. cbn [set_rms md_pMap]. rewrite Ei. cbn. rewrite T. reflexivity.
      * destruct (ra_dp _ _ _ _ R k t Hk Ei).
    + rewrite (ra_n _ _ _ _ R k Kk) in H. destruct (ra_r _ _ _ _ R k t Hk) as [Ei Hi]. rewrite Ei in H.
      destruct (act o m (ix k) PClear) as [[m1 b1]|] eqn:Ea; cbn [obind] in H; [|discriminate]. injection H as <- <-.
      destruct (act_role_twin _ _ _ _ PClear DClear _ _ _ _ _ Hi R eq_refl Ea) as [R' [S T]]. split; [exact R'|]. right. exists k, t, DClear.
      split; [exact Hk|]. split; [cbn; now rewrite String.eqb_refl|]. split; [intros gk Hn; cbn; destruct (String.eqb_spec k gk); congruence|]. split; [exact S|].
      intros X x x' z Hx Hs. destruct (T X x x' z Hx Hs) as [b' Ea']. cbn [set_rms md_rpMap md_pMap]. rewrite (ra_n _ _ _ _ R k Kk), Ei. cbn. rewrite Ea'. cbn. eauto.
Qed.

(** Calls on the model and direct calls, one after the other. *)
Lemma nth_put {A} (X : list A) r x y : nth_error X r = Some y -> nth_error (set_nth X r x) r = Some x.
Proof. intros H. rewrite nth_set_nth by (eapply nth_lt; eauto). now rewrite Nat.eqb_refl. Qed.
Lemma nth_other {A} (X : list A) r r' x y : nth_error X r = Some y -> r' <> r -> nth_error (set_nth X r x) r' = nth_error X r'.
Proof. intros H Hn. rewrite nth_set_nth by (eapply nth_lt; eauto). destruct (Nat.eqb_spec r' r); [contradiction|reflexivity]. Qed.

Lemma twin_run E d ix rx : key_byte d -> forall hx m X m' rs,
  roles_at d ix rx m -> Forall (fun x => known_call d (snd x)) hx -> mexec E m (model_calls hx) = Val (m', rs) ->
  (forall k t, In (G_SEC, k, t) d -> exists x y ys, nth_error X (rx k) = Some x /\ role_exec x (section_calls k hx) = Val (y, ys)) ->
  exists X' ys, xexec E (set_rms m X) hx = Val (set_rms m' X', ys) /\ roles_at d ix rx m' /\
    forall k t, In (G_SEC, k, t) d -> exists x y zs, nth_error X (rx k) = Some x /\ role_exec x (section_calls k hx) = Val (y, zs) /\ nth_error X' (rx k) = Some y.
Proof.
  intros KB. induction hx as [|[o c] hx IH]; intros m X m' rs R Hc Hm Hx.
  - injection Hm as <- <-. exists X, []. split; [reflexivity|]. split; [exact R|]. intros k t Hk. destruct (Hx k t Hk) as (x & y & ys & A & B). injection B as <- <-. exists x, x, []. auto.
  - inversion Hc as [|? ? Hc1 Hc2]; subst. cbn [snd] in Hc1. destruct c as [c|key c].
    + cbn [model_calls flat_map snd fst app] in Hm. fold (model_calls hx) in Hm. cbn [mexec] in Hm.
      destruct (mstep E o m c) as [[m1 y1]|] eqn:Es; cbn [obind] in Hm; [|discriminate].
      destruct (mexec E m1 (model_calls hx)) as [[m2 rs2]|] eqn:Em; cbn [obind] in Hm; [|discriminate]. injection Hm as <- <-.
      destruct (file_step_twin E d ix rx o m c m1 y1 KB Hc1 R Es) as [R1 [[Hn T]|(k & t & dc & Hk & Hs & Ho & Eq & T)]].
      * destruct (IH m1 X m2 rs2 R1 Hc2 Em) as (X' & ys & A & B & C).
        { intros gk gt Hg. destruct (Hx gk gt Hg) as (x & y & zs & P & Q). exists x, y, zs. split; [exact P|].
          unfold section_calls in Q. cbn [flat_map snd fst] in Q. rewrite (Hn gk gt Hg) in Q. exact Q. }
        exists X'. eexists. split; [|split; [exact B|]].
        -- cbn [xexec xstep]. rewrite T. cbn [obind]. rewrite A. reflexivity.
        -- intros gk gt Hg. unfold section_calls. cbn [flat_map snd fst]. rewrite (Hn gk gt Hg). exact (C gk gt Hg).
      * destruct (Hx k t Hk) as (x & y & zs & P & Q). unfold section_calls in Q. cbn [flat_map snd fst] in Q. rewrite Hs in Q. cbn [map app role_exec role_step] in Q.
        destruct (dstep (o_names o) x dc) as [[x' z]|] eqn:Ed; cbn [obind] in Q; [|discriminate].
        destruct (role_exec x' _) as [[y0 zs0]|] eqn:Er in Q; cbn [obind] in Q; [|discriminate]. injection Q as <- <-.
        destruct (T X x x' z P Ed) as [y' Ey].
        destruct (IH m1 (set_nth X (rx k) x') m2 rs2 R1 Hc2 Em) as (X' & ys & A & B & C).
        { intros gk gt Hg. destruct (string_dec gk k) as [->|Hne].
          - exists x', y0, zs0. split; [eapply nth_put; eauto|exact Er].
          - destruct (Hx gk gt Hg) as (u & v & us & P' & Q'). exists u, v, us. split.
            + rewrite (nth_other _ _ _ _ _ P); [exact P'|]. intros X0. apply Hne. exact (ra_inj _ _ _ _ R _ _ _ _ Hg Hk X0).
            + unfold section_calls in Q'. cbn [flat_map snd fst] in Q'. rewrite (Ho gk Hne) in Q'. exact Q'. }
        exists X'. eexists. split; [|split; [exact B|]].
        -- cbn [xexec xstep]. rewrite Ey. cbn [obind]. rewrite <- Eq, A. reflexivity.
        -- intros gk gt Hg. destruct (C gk gt Hg) as (u & v & us & P' & Q' & S'). unfold section_calls. cbn [flat_map snd fst]. destruct (string_dec gk k) as [->|Hne].
           ++ rewrite (nth_put _ _ _ _ P) in P'. injection P' as <-. exists x, v. eexists. split; [exact P|]. split; [|exact S'].
              rewrite Hs. cbn [map app role_exec role_step]. rewrite Ed. cbn [obind]. fold (section_calls k hx). rewrite Q'. reflexivity.
           ++ rewrite (nth_other _ _ _ _ _ P) in P' by (intros X0; apply Hne; exact (ra_inj _ _ _ _ R _ _ _ _ Hg Hk X0)).
              rewrite (Ho gk Hne). exists u, v, us. auto.
    + destruct Hc1 as [t Hk]. cbn [model_calls flat_map snd fst app] in Hm. fold (model_calls hx) in Hm.
      destruct (Hx key t Hk) as (x & y & zs & P & Q). unfold section_calls in Q. cbn [flat_map snd fst section_call] in Q. rewrite String.eqb_refl in Q. cbn [map app role_exec] in Q.
      destruct (role_step (o_names o) x c) as [[x' z]|] eqn:Ed; cbn [obind] in Q; [|discriminate].
      destruct (role_exec x' _) as [[y0 zs0]|] eqn:Er in Q; cbn [obind] in Q; [|discriminate]. injection Q as <- <-.
      destruct (IH m (set_nth X (rx key) x') m' rs R Hc2 Hm) as (X' & ys & A & B & C).
      { intros gk gt Hg. destruct (string_dec gk key) as [->|Hne].
        - exists x', y0, zs0. split; [eapply nth_put; eauto|exact Er].
        - destruct (Hx gk gt Hg) as (u & v & us & P' & Q'). exists u, v, us. split.
          + rewrite (nth_other _ _ _ _ _ P); [exact P'|]. intros X0. apply Hne. exact (ra_inj _ _ _ _ R _ _ _ _ Hg Hk X0).
          + unfold section_calls in Q'. cbn [flat_map snd fst section_call] in Q'. destruct (String.eqb_spec key gk) as [->|]; [congruence|]. exact Q'. }
      exists X'. eexists. split; [|split; [exact B|]].
      * cbn [xexec xstep]. unfold model_role_call, model_GetRoleManager. cbn [set_rms md_rpMap md_objs md_rms]. destruct (ra_r _ _ _ _ R key t Hk) as [Ei Hi]. rewrite Ei, Hi. cbn [obind].
        rewrite P, Ed. cbn [obind]. change (set_rms (set_rms m X) (set_nth X (rx key) x')) with (set_rms m (set_nth X (rx key) x')). rewrite A. reflexivity.
      * intros gk gt Hg. destruct (C gk gt Hg) as (u & v & us & P' & Q' & S'). unfold section_calls. cbn [flat_map snd fst section_call]. destruct (string_dec gk key) as [->|Hne].
        -- rewrite (nth_put _ _ _ _ P) in P'. injection P' as <-. exists x, v. eexists. split; [exact P|]. split; [|exact S'].
           rewrite String.eqb_refl. cbn [map app role_exec]. rewrite Ed. cbn [obind]. fold (section_calls key hx). rewrite Q'. reflexivity.
        -- rewrite (nth_other _ _ _ _ _ P) in P' by (intros X0; apply Hne; exact (ra_inj _ _ _ _ R _ _ _ _ Hg Hk X0)).
           destruct (String.eqb_spec key gk) as [->|]; [congruence|]. exists u, v, us. auto.
Qed.

(** ** Nobody listens to the role objects of a file *)
Definition quiet (m : model) : Prop := forall i r ls, nth_error (md_objs m) i = Some (mkObj (ORole r) ls) -> ls = [].
Lemma quiet_same m m' : md_objs m' = md_objs m -> quiet m -> quiet m'.
Proof. unfold quiet. intros ->. auto. Qed.
Lemma quiet_snoc m m' b : md_objs m' = md_objs m ++ [mkObj b []] -> quiet m -> quiet m'.
Proof.
  unfold quiet. intros -> Q i r ls. rewrite nth_snoc. destruct (Nat.eqb i _); [|apply Q]. congruence.
Qed.
Lemma act_quiet o m i a m' b : act o m i a = Val (m', b) -> quiet m -> quiet m'.
Proof.
  unfold act. intros H Q. destruct (nth_error (md_objs m) i) as [[bo ls]|] eqn:Ei; [|discriminate]. cbn [o_body o_listeners] in H. destruct bo as [p|rm].
  - destruct (PolicyM.pstep p a) as [[p' b'] es]. destruct (notify_all _ _ _) as [ms|]; cbn in H; [|discriminate]. injection H as <- <-.
    intros j r ls'. cbn. rewrite nth_set_nth by (eapply nth_lt; eauto). destruct (Nat.eqb_spec j i) as [->|]; [discriminate|apply Q].
  - destruct (nth_error (md_rms m) rm) as [x|]; [|discriminate]. destruct (act_role _ _ _) as [[[x' b'] es]|]; cbn in H; [|discriminate].
    destruct (notify_all _ _ _) as [ms|]; cbn in H; [|discriminate]. injection H as <- <-. exact Q.
Qed.
Definition plain_step (c : mcall) : Prop := match c with CSetDef _ _ _ | CAdd _ | CRemove _ | CClear _ => True | _ => False end.
Lemma quiet_step E o m c m' y : plain_step c -> mstep E o m c = Val (m', y) -> quiet m -> quiet m'.
Proof.
  intros Hc H Q. destruct c; try contradiction; cbn [mstep] in H.
  - unfold SetDef in H. destruct (keyPrefix s) as [cc|]; [|injection H as <- <-; exact Q]. destruct (first_byte key) as [c'|]; [|discriminate].
    destruct (Ascii.eqb c' cc); [|injection H as <- <-; exact Q]. injection H as <- <-. destruct s; try exact Q; eapply quiet_snoc; try exact Q; reflexivity.
  - destruct r as [|k r]; [discriminate|]. cbn [model_AddRule] in H. destruct (first_byte k) as [cc|]; [|discriminate].
    destruct (Ascii.eqb cc "p"); [|destruct (Ascii.eqb cc "g")].
    + destruct (mget k (md_pMap m)) as [i|]; cbn in H; [|injection H as <- <-; exact Q].
      destruct (act o m i (PAdd r)) as [[m1 b1]|] eqn:Ea; cbn in H; [|discriminate]. injection H as <- <-. eapply act_quiet; eauto.
    + destruct (mget k (md_rpMap m)) as [i|]; cbn in H; [|injection H as <- <-; exact Q].
      destruct (act o m i (PAdd r)) as [[m1 b1]|] eqn:Ea; cbn in H; [|discriminate]. injection H as <- <-. eapply act_quiet; eauto.
    + injection H as <- <-; exact Q.
  - destruct r as [|k r]; [discriminate|]. cbn [model_RemoveRule] in H. destruct (first_byte k) as [cc|]; [|discriminate].
    destruct (Ascii.eqb cc "p"); [|destruct (Ascii.eqb cc "g")].
    + destruct (mget k (md_pMap m)) as [i|]; cbn in H; [|injection H as <- <-; exact Q].
      destruct (act o m i (PRemove r)) as [[m1 b1]|] eqn:Ea; cbn in H; [|discriminate]. injection H as <- <-. eapply act_quiet; eauto.
    + destruct (mget k (md_rpMap m)) as [i|]; cbn in H; [|injection H as <- <-; exact Q].
      destruct (act o m i (PRemove r)) as [[m1 b1]|] eqn:Ea; cbn in H; [|discriminate]. injection H as <- <-. eapply act_quiet; eauto.
    + injection H as <- <-; exact Q.
  - unfold ClearPolicy in H. destruct (GetPolicy m key) as [i|]; [|injection H as <- <-; exact Q].
    destruct (act o m i PClear) as [[m1 b1]|] eqn:Ea; cbn in H; [|discriminate]. injection H as <- <-. eapply act_quiet; eauto.
Qed.
Lemma quiet_exec E h : Forall (fun x => plain_step (snd x)) h -> forall m m' rs, mexec E m h = Val (m', rs) -> quiet m -> quiet m'.
Proof.
  induction 1 as [|[o c] h Hc F IH]; intros m m' rs H Q; cbn [mexec] in H; [injection H as <- <-; exact Q|].
  destruct (mstep E o m c) as [[m1 y]|] eqn:Es; cbn in H; [|discriminate]. destruct (mexec E m1 h) as [[m2 rs2]|] eqn:Em; cbn in H; [|discriminate]. injection H as <- <-.
  eapply IH; [exact Em|]. eapply quiet_step; eauto.
Qed.
Lemma file_plain d c : file_call d c -> plain_step c.
Proof. destruct c; cbn; tauto. Qed.
Lemma file_quiet E d R h m rs : well_formed d -> readings E d R -> file_history d h -> good_m h -> mexec E (NewModel E) h = Val (m, rs) -> quiet m.
Proof.
  intros W U (hd & hr1 & ob & hr2 & -> & Hd & H1 & H2) G H.
  destruct (o_run E d R hd hr1 hr2 ob W U Hd H1 H2 G) as (m1 & rs1 & m2 & x & m0 & rs0 & Ra & Rb & Rx & Eb & Rm).
  rewrite H in Rm. injection Rm as <- <-.
  assert (EQ : hd ++ hr1 ++ (ob, CBuild) :: hr2 = (hd ++ hr1) ++ (ob, CBuild) :: hr2) by now rewrite <- app_assoc.
  rewrite EQ in H, G. apply mexec_app in H as [m1' [rs1' [rs2 [Ha [Hb _]]]]]. rewrite Ra in Ha. injection Ha as <- <-.
  cbn [mexec] in Hb. rewrite Rb in Hb. cbn [obind] in Hb. apply obind_val in Hb as [[m3 rs3] [Hb X]]. injection X as <- _.
  apply (quiet_exec E hr2) with (m := m2) (rs := rs3); [eapply Forall_impl; [|exact H2]; intros a; apply file_plain|exact Hb|].
  assert (Q1 : quiet m1).
  { apply (quiet_exec E (hd ++ hr1)) with (m := NewModel E) (rs := rs1); [|exact Ra|].
    - apply Forall_app. split.
      + apply (ohd_calls d hd Hd). unfold set_all. apply Forall_map, Forall_forall. intros a _. exact Logic.I.
      + eapply Forall_impl; [|exact H1]; intros a; apply file_plain.
    - intros i r ls X. cbn in X. destruct i; discriminate. }
  assert (Ga : good_m (hd ++ hr1)) by (apply Forall_app in G; apply G).
  assert (Gb : good_orders ob) by (apply Forall_app in G as [_ G]; exact (Forall_inv G)).
  destruct (reachable_ok E (hd ++ hr1) m1 rs1 Ga Ra) as [g [V W']].
  pose proof (defs_exec _ _ _ _ Ra) as D.
  assert (Hp : forall pk pt, In (P_SEC, pk, pt) d -> exists i, mget pk (md_pMap m1) = Some i).
  { intros pk pt Hi. pose proof (p_byte _ _ _ (proj2 W) Hi) as Kp. pose proof (v_phist _ _ _ W' pk Kp) as X.
    destruct (o_phist d hd hr1 hr2 W Hd H1 H2 pk pt Hi) as [h1 [h2 [Y _]]]. rewrite Y in X. destruct (mget pk (md_pMap m1)); [eauto|discriminate]. }
  assert (Ks : forall k t, mget k (md_m m1) = Some t -> In (M_SEC, k, t) d).
  { intros k t Hk. apply (o_def d hd hr1 W Hd H1). rewrite <- Hk. symmetry.
    apply (f_m _ _ D k). apply (f_keys _ _ D M_SEC). cbn. apply mget_In in Hk. apply in_map_iff. exists (k, t). auto. }
  cbn [mstep] in Rb. apply obind_val in Rb as [[m2' e] [Rb Y]]. injection Y as <- _. unfold BuildMatchers in Rb.
  assert (Inv : forall keys m, md_m m = md_m m1 -> md_fm m = md_fm m1 -> md_pMap m = md_pMap m1 ->
     (forall k i, mget k (md_pMap m) = Some i -> exists p ls, nth_error (md_objs m) i = Some (mkObj (OPolicy p) ls)) -> quiet m ->
     forall m2, build_loop E ob m keys = Val (m2, e) -> quiet m2).
  { clear - Eb U Hp Ks. induction keys as [|k keys IH]; intros m Em Ef Ep Po Q m2 Hs; cbn [build_loop] in Hs; [injection Hs as <- _; exact Q|].
    apply obind_val in Hs as [[m3 e3] [Hk Hs]]. unfold BuildMatcher in Hk. destruct (mget k (md_m m)) as [t|] eqn:Et.
    2:{ injection Hk as <- <-. injection Hs as <- _. exact Q. }
    rewrite Em in Et. apply Ks in Et.
    apply obind_val in Hk as [[m4 r] [Hk X]]. destruct (U k t Et) as [Ur [pt Hpt]]. pose proof (o_key _ _ _ _ _ Ur) as Kf.
    destruct (Hp _ _ Hpt) as [i Hpm]. rewrite <- Ep in Hpm. destruct (Po _ _ Hpm) as [p [ls Hi]].
    assert (S : m4 = m \/ exists x, m4 = set_mats (set_objs m (set_nth (md_objs m) i (mkObj (OPolicy p) (ls ++ [List.length (md_mats m)])))) x).
    { unfold BuildMatcherFromDef in Hk. rewrite Ef, (Eb _ _ Et), Kf in Hk. destruct (first_byte (snd (R k))); [|discriminate].
      destruct (if Ascii.eqb _ _ then _ else _); [|injection Hk as <- <-; now left]. unfold GetPolicy in Hk. rewrite Hpm, Hi in Hk.
      apply obind_val in Hk as [y [_ Hk]]. injection Hk as <- <-. right. eexists. reflexivity. }
    assert (Q4 : quiet m4 /\ md_m m4 = md_m m /\ md_fm m4 = md_fm m /\ md_pMap m4 = md_pMap m /\
       forall k i, mget k (md_pMap m4) = Some i -> exists p ls, nth_error (md_objs m4) i = Some (mkObj (OPolicy p) ls)).
    { destruct S as [->|[x ->]]; [auto 6|]. split; [|split; [reflexivity|split; [reflexivity|split; [reflexivity|]]]].
      - intros j r' ls'. cbn. rewrite nth_set_nth by (eapply nth_lt; eauto). destruct (Nat.eqb_spec j i); [discriminate|apply Q].
      - intros k' j Hj. cbn in *. rewrite nth_set_nth by (eapply nth_lt; eauto). destruct (Nat.eqb_spec j i); [eauto|]. exact (Po _ _ Hj). }
    destruct Q4 as (Q4 & B1 & B2 & B3 & B4). destruct r as [j|e4]; injection X as <- <-.
    - eapply IH; [..|exact Hs]; cbn; try congruence; [exact B4|exact Q4].
    - injection Hs as <- _. exact Q4. }
  eapply Inv; [reflexivity..| |exact Q1|exact Rb].
  intros k i Hk. destruct (v_p _ _ V k i Hk) as [_ X]. exact X.
Qed.

(** Where the role objects of a file are, and what their managers have been
    told. *)
Lemma file_roles_at E d R h m rs : well_formed d -> readings E d R -> file_history d h -> good_m h -> mexec E (NewModel E) h = Val (m, rs) ->
  exists ix rx, roles_at d ix rx m /\
    forall k t, In (G_SEC, k, t) d -> exists x xs cl, nth_error (md_rms m) (rx k) = Some x /\ g_history k h = Some (fresh_manager t, cl) /\ dexec (fresh_manager t) cl = Val (x, xs).
Proof.
  intros W U Ah G H. pose proof (file_quiet E d R h m rs W U Ah G H) as Q. destruct (reachable_ok E h m rs G H) as [g [V Hh]].
  exists (fun k => match mget k (md_rpMap m) with Some i => i | None => 0 end).
  exists (fun k => match mget k (md_rpMap m) with Some i => match nth_error (md_objs m) i with Some (mkObj (ORole r) _) => r | _ => 0 end | None => 0 end).
  assert (S : forall k t, In (G_SEC, k, t) d -> exists i r cl, mget k (md_rpMap m) = Some i /\ nth_error (md_objs m) i = Some (mkObj (ORole r) []) /\
            g_history k h = Some (fresh_manager t, cl) /\ g_rh g r = (fresh_manager t, cl)).
  { intros k t Hk. destruct (file_links d h k t W Ah Hk) as [cl Hl]. pose proof (v_ghist _ _ _ Hh k (g_byte _ _ _ (proj2 W) Hk)) as X. rewrite Hl in X.
    destruct (mget k (md_rpMap m)) as [i|]; [|discriminate]. destruct X as [r [ls [X Y]]]. pose proof (Q _ _ _ X) as ->. injection Y as Y. exists i, r, cl. auto. }
  split; [constructor|].
  - intros k t Hk. destruct (S k t Hk) as (i & r & cl & A & B & _). rewrite A, B. auto.
  - intros k Kg. destruct (mget k (md_pMap m)) as [i|] eqn:Ei; [|reflexivity]. destruct (v_p _ _ V k i Ei) as [X _]. destruct (pg_key _ X Kg).
  - intros k i Hk. apply (v_p _ _ V k i Hk).
  - intros k t Hk X. pose proof (v_phist _ _ _ Hh k (p_byte _ _ _ (proj2 W) Hk)) as Y. rewrite X in Y. cbn in Y.
    destruct Ah as (hd & hr1 & ob & hr2 & -> & Hd & H1 & H2). unfold p_history in Y. rewrite !map_app, !fold_left_app, Hd, (p_defs k t) in Y by exact Hk.
    destruct (fp_more d k hr1 (proj2 W) (p_byte _ _ _ (proj2 W) Hk) H1 []) as [l1 [Y1 _]]. rewrite Y1 in Y. cbn [map snd fold_left p_step] in Y.
    destruct (fp_more d k hr2 (proj2 W) (p_byte _ _ _ (proj2 W) Hk) H2 ([] ++ l1)) as [l2 [Y2 _]]. rewrite Y2 in Y. discriminate.
  - intros k t k' t' Hk Hk'. destruct (S k t Hk) as (i & r & cl & A & B & _). destruct (S k' t' Hk') as (i' & r' & cl' & A' & B' & _).
    rewrite A, B, A', B'. intros <-. pose proof (v_rminj _ _ V _ _ _ _ _ B B') as ->. exact (v_rinj _ _ V _ _ _ A A').
  - intros k t Hk. destruct (S k t Hk) as (i & r & cl & A & B & C & D). rewrite A, B. pose proof (v_rmb _ _ V _ _ _ B) as L.
    destruct (nth_error (md_rms m) r) as [x|] eqn:Ex; [|apply nth_error_None in Ex; lia]. destruct (v_rm _ _ V r x Ex) as [xs X]. rewrite D in X. cbn in X.
    exists x, xs, cl. auto.
Qed.

(** ** Queries look at the managers through the role functions only *)
Lemma file_named E d R h m rs mk mt rk rt : well_formed d -> readings E d R -> file_history d h -> good_m h -> mexec E (NewModel E) h = Val (m, rs) ->
  In (M_SEC, mk, mt) d -> In (R_SEC, rk, rt) d ->
  mk <> ""%string /\ rk <> ""%string /\ (exists j, mget mk (md_mMap m) = Some j) /\ exists rd, mget rk (md_r m) = Some rd.
Proof.
  intros W U Ah G H Im Ir.
  assert (Nm : mk <> ""%string) by (intros ->; destruct (proj2 W _ _ _ Im) as [c [_ X]]; discriminate).
  assert (Nr : rk <> ""%string) by (intros ->; destruct (proj2 W _ _ _ Ir) as [c [_ X]]; discriminate).
  split; [exact Nm|]. split; [exact Nr|].
  destruct Ah as (hd & hr1 & ob & hr2 & -> & Hd & H1 & H2).
  destruct (o_run E d R hd hr1 hr2 ob W U Hd H1 H2 G) as (m1 & rs1 & m2 & x & m0 & rs0 & Ra & Rb & Rx & Eb & Rm). rewrite H in Rm. injection Rm as <- <-.
  pose proof (fun s k t => proj2 (o_def' d hd hr1 hr2 ob W Hd H1 H2 s k t)) as Df.
  pose proof (fun s k t => proj2 (o_def d hd hr1 W Hd H1 s k t)) as Da.
  assert (EQ : hd ++ hr1 ++ (ob, CBuild) :: hr2 = (hd ++ hr1) ++ (ob, CBuild) :: hr2) by now rewrite <- app_assoc.
  split.
  - destruct (U mk mt Im) as [Rm' [pt Ip]]. pose proof (o_key _ _ _ _ _ Rm') as Kf. pose proof (p_byte _ _ _ (proj2 W) Ip) as Kp.
    destruct (o_phist d hd hr1 hr2 W Hd H1 H2 _ pt Ip) as (h1 & h2 & P1 & P2 & F1 & F2).
    destruct (in_service_lives E _ m rs mk (f_root (fst (R mk))) pt h1 h2 G H) as (j & y & X & _); [|eauto].
    split; [exact (proj2 W _ _ _ Im)|]. rewrite Kf. split; [exact Kp|].
    exists (hd ++ hr1), ob, CBuild, hr2, m1, rs1, m2, x, mt.
    split; [exact EQ|]. split; [now left|]. split; [exact Ra|]. split; [exact Rb|]. split; [exact Rx|]. split; [now apply Da|].
    split; [now apply Eb|]. split; [|split; [now apply Da|split; [exact P1|exact P2]]].
    eapply Forall_impl; [|exact H2]. intros [o0 c0]. cbn [snd]. destruct c0; cbn; tauto.
  - pose proof (defs_exec _ _ _ _ H) as D. exists (NewRequestDef rk rt). rewrite (f_r _ _ D) by exact (proj2 W _ _ _ Ir). rewrite (Df _ _ _ Ir). reflexivity.
Qed.

Section Twin.
  Variables (E1 E2 : env) (o : orders) (m : model) (X : list irm) (mk : string) (j : nat).
  Hypothesis Hm : mget mk (md_mMap m) = Some j.

  Definition named_op (op : copt) : Prop := match op with OMatcher s => s = ""%string \/ s = mk | OMatcherDef _ | OMatcherVal _ => False | _ => True end.
  Lemma apply_twin x op : named_op op -> forall m' y e, option_apply E1 o m x op = Val (m', y, e) ->
    m' = m /\ option_apply E2 o (set_rms m X) x op = Val (set_rms m X, y, e).
  Proof.
    intros Hn m' y e H. destruct op as [s|t|i|s|dd|s|t|]; cbn [option_apply named_op] in *; try contradiction; cbn [md_mMap md_eMap set_rms].
    - destruct (String.eqb_spec s "") as [->|Hs]; [injection H as <- <- <-; auto|]. destruct Hn as [->| ->]; [congruence|]. rewrite Hm in *. injection H as <- <- <-. auto.
    - destruct (String.eqb s ""); [injection H as <- <- <-; auto|]. unfold GetRequestDef in *. cbn [md_r set_rms]. destruct (mget s (md_r m)) as [d|]; cbn [obind] in *; [|discriminate]. injection H as <- <- <-. auto.
    - injection H as <- <- <-. auto.
    - destruct (String.eqb s ""); injection H as <- <- <-; auto.
    - injection H as <- <- <-. auto.
    - injection H as <- <- <-. auto.
  Qed.
  Lemma options_twin ops : Forall named_op ops -> forall x m' y e, apply_options E1 o m x ops = Val (m', y, e) ->
    m' = m /\ apply_options E2 o (set_rms m X) x ops = Val (set_rms m X, y, e).
  Proof.
    induction 1 as [|op ops Hop F IH]; intros x m' y e H; cbn [apply_options] in *; [injection H as <- <- <-; auto|].
    destruct (option_apply E1 o m x op) as [[[m1 x1] e1]|] eqn:Ea; cbn [obind] in H; [|discriminate].
    destruct (apply_twin _ _ Hop _ _ _ Ea) as [-> Eb]. rewrite Eb. cbn [obind]. destruct e1; [injection H as <- <- <-; auto|]. now apply IH.
  Qed.
  Lemma split_twin ps x vs : mk = "m"%string \/ In (OMatcher mk) (opts_of ps) -> mk <> ""%string ->
    Forall named_op (opts_of ps) -> splitParams E1 o m ps = Val (m, inl x, vs) -> splitParams E2 o (set_rms m X) ps = Val (set_rms m X, inl x, vs).
  Proof.
    intros Dm Nm F H. unfold splitParams, NewContext in *.
    destruct (apply_options E1 o m ctx0 (opts_of ps)) as [[[m1 x1] e1]|] eqn:Ea; cbn [obind] in H; [|discriminate].
    destruct (options_twin _ F _ _ _ _ Ea) as [-> Eb]. rewrite Eb. cbn [obind]. destruct e1; [discriminate|].
    assert (Sm : c_m x1 = None -> mk = "m"%string).
    { destruct Dm as [Dm|Dm]; [auto|]. intros Hx. exfalso. clear - Ea Hx Dm F Hm Nm E2 X.
      assert (G : forall ops, Forall named_op ops -> forall x, apply_options E1 o m x ops = Val (m, x1, None) -> c_m x = None /\ ~ In (OMatcher mk) ops).
      { induction 1 as [|op ops Hop F' IH]; intros x H; cbn [apply_options] in H; [injection H as <-; split; [exact Hx|intros []]|].
        destruct (option_apply E1 o m x op) as [[[m2 x2] e2]|] eqn:Ea2; cbn [obind] in H; [|discriminate].
        destruct e2 as [e2|]; [discriminate|]. destruct (apply_twin _ _ Hop _ _ _ Ea2) as [-> _]. destruct (IH _ H) as [A B].
        destruct op as [s|t|i|s|dd|s|t|]; cbn [option_apply named_op] in *; try contradiction.
        - destruct (String.eqb_spec s "") as [->|Hs].
          + injection Ea2 as <-. split; [exact A|]. intros [Y|Y]; [injection Y as <-; congruence|contradiction].
          + destruct Hop as [->| ->]; [congruence|]. rewrite Hm in Ea2. injection Ea2 as <-. discriminate.
        - destruct (String.eqb s ""); [injection Ea2 as <-|destruct (GetRequestDef m s); cbn in Ea2; [|discriminate]; injection Ea2 as <-]; (split; [exact A|intros [Y|Y]; [discriminate|contradiction]]).
        - injection Ea2 as <-. split; [exact A|intros [Y|Y]; [discriminate|contradiction]].
        - destruct (String.eqb s ""); injection Ea2 as <-; (split; [exact A|intros [Y|Y]; [discriminate|contradiction]]).
        - injection Ea2 as <-. split; [exact A|intros [Y|Y]; [discriminate|contradiction]].
        - injection Ea2 as <-. split; [exact A|intros [Y|Y]; [discriminate|contradiction]]. }
      destruct (G _ F _ Ea) as [_ Y]. contradiction. }
    destruct (match c_r x1 with Some _ => _ | None => _ end) as [[[m2 x2] e2]|] eqn:E2' in H; cbn [obind] in H; [|discriminate].
    assert (S2 : m2 = m /\ (c_m x2 = c_m x1) /\ match c_r x1 with Some _ => Val (set_rms m X, x1, None) | None => option_apply E2 o (set_rms m X) x1 (ORequest "r") end = Val (set_rms m X, x2, e2)).
    { destruct (c_r x1); [injection E2' as <- <- <-; auto|]. destruct (apply_twin x1 (ORequest "r") Logic.I _ _ _ E2') as [-> Y]. split; [reflexivity|]. split; [|exact Y].
      cbn in E2'. destruct (GetRequestDef m "r"); cbn in E2'; [|discriminate]. now injection E2' as <- _. }
    destruct S2 as [-> [Ec ->]]. cbn [obind].
    destruct (match c_m x2 with Some _ => _ | None => _ end) as [[[m3 x3] e3]|] eqn:E3' in H; cbn [obind] in H; [|discriminate].
    assert (S3 : m3 = m /\ match c_m x2 with Some _ => Val (set_rms m X, x2, None) | None => option_apply E2 o (set_rms m X) x2 (OMatcher "m") end = Val (set_rms m X, x3, e3)).
    { destruct (c_m x2) eqn:Ex2; [injection E3' as <- <- <-; auto|]. refine (apply_twin x2 (OMatcher "m") _ _ _ _ E3'). right. symmetry. apply Sm. congruence. }
    destruct S3 as [-> ->]. cbn [obind].
    destruct (match c_e x3 with Some _ => _ | None => _ end) as [[[m4 x4] e4]|] eqn:E4' in H; cbn [obind] in H; [|discriminate]. injection H as -> <- <-.
    assert (S4 : match c_e x3 with Some _ => Val (set_rms m X, x3, None) | None => option_apply E2 o (set_rms m X) x3 (OEffect "e") end = Val (set_rms m X, x4, e4)).
    { destruct (c_e x3); [injection E4' as <- <-; auto|]. now destruct (apply_twin x3 (OEffect "e") Logic.I _ _ _ E4') as [_ Y]. }
    rewrite S4. reflexivity.
  Qed.
End Twin.

(** Answers: the environment [E'] evaluates with the functions of the other
    model. *)
Definition env_with (E : env) (F : string -> option gofn) : env := mkEnv (e_grow E) (e_parse E) (fun _ => e_eval E F) (e_builtins E).
Lemma query_twin E o m X mk rk j rd ps : mk <> ""%string -> rk <> ""%string -> mget mk (md_mMap m) = Some j -> mget rk (md_r m) = Some rd ->
  uses_matcher mk ps -> uses_request rk ps ->
  let E' := env_with E (functions o (set_rms m X)) in
  (forall r, Filter E' o m ps = Val (m, r) -> Filter E o (set_rms m X) ps = Val (set_rms m X, r)) /\
  (forall r, Enforce E' o m ps = Val (m, r) -> Enforce E o (set_rms m X) ps = Val (set_rms m X, r)).
Proof.
  intros Nm Nr Hm Hr Um Ur E'. destruct (context_named E' o m mk rk j rd ps Nm Nr Hm Hr Um Ur) as [x [Hs _]].
  pose proof (split_twin E' E o m X mk j Hm ps x _ (proj2 Um) Nm (proj1 Um) Hs) as Ht. unfold Filter, Enforce, enforcer_RangeMatches. rewrite Hs, Ht. cbn [obind]. split; intros r.
  - change (RangeMatchesWithContext E o (set_rms m X) x (vals_of ps) (fun (l : list rule) (r0 : rule) => (l ++ [r0], true)) [])
      with (RangeMatchesWithContext E' o m x (vals_of ps) (fun (l : list rule) (r0 : rule) => (l ++ [r0], true)) []).
    destruct (RangeMatchesWithContext _ _ _ _ _ _ _) as [z|]; cbn [obind]; [|discriminate]. congruence.
  - change (enforce E o (set_rms m X) x (vals_of ps)) with (enforce E' o m x (vals_of ps)).
    destruct (enforce _ _ _ _ _) as [z|]; cbn [obind]; [|discriminate]. congruence.
Qed.
Lemma loop_env E F o keys : forall m, build_loop (env_with E F) o m keys = build_loop E o m keys.
Proof.
  induction keys as [|k keys IH]; intros m; [reflexivity|]. cbn [build_loop]. change (BuildMatcher (env_with E F) o m k) with (BuildMatcher E o m k).
  destruct (BuildMatcher E o m k) as [[m1 [e|]]|]; cbn [obind]; auto.
Qed.
Lemma mexec_env E F h : forall m, mexec (env_with E F) m h = mexec E m h.
Proof.
  induction h as [|[o c] h IH]; intros m; [reflexivity|]. cbn [mexec]. assert (S : mstep (env_with E F) o m c = mstep E o m c).
  { destruct c; try reflexivity. cbn [mstep]. unfold BuildMatchers. now rewrite loop_env. }
  rewrite S. destruct (mstep E o m c) as [[m1 r]|]; cbn [obind]; [|reflexivity]. now rewrite IH.
Qed.
