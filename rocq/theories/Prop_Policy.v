(** Properties C01, C02, C07 and C55, on one policy object (model/policy).
    Prop_Model.v lifts C01 and C07 to the model API. *)
From Verif Require Import GoBase GoBaseP PolicyM PolicySpec PolicyP.

(** ** C01: the rules of a policy form a set. *)
Theorem C01_policy_set :
  forall (h : list pop) (r : rule),
    Forall (op_ok comma_free) h -> comma_free r ->
    let p := fst (pexec NewPolicy h) in
    snd (fst (AddRule p r)) = negb (set_of h r) /\
    snd (fst (RemoveRule p r)) = set_of h r /\
    enumerates (mvals p) (set_of h) comma_free /\
    Forall comma_free (mvals p).
Proof.
  intros h r Hh Hr p. subst p. destruct (pexec NewPolicy h) as [p es] eqn:E. cbn [fst].
  destruct (repr_exec _ comma_free_inj h _ _ _ _ (repr_nil comma_free) Hh E) as [Hrep _].
  fold (set_of h) in Hrep.
  destruct (AddRule p r) as [[p1 b1] e1] eqn:Ea. destruct (RemoveRule p r) as [[p2 b2] e2] eqn:Er.
  pose proof (repr_step _ comma_free_inj p _ (PAdd r) _ _ _ Hrep Hr Ea) as [_ [_ Ha]].
  pose proof (repr_step _ comma_free_inj p _ (PRemove r) _ _ _ Hrep Hr Er) as [_ [_ Hb]].
  cbn. split; [exact Ha|]. split; [exact Hb|]. split; [now apply repr_enumerates|apply Hrep].
Qed.
Print Assumptions C01_policy_set.

Example C01_policy_set_ex :
  let h := [PAdd ["alice"; "data1"; "read"]; PAdd ["bob"; "data2"; "write"];
            PRemove ["alice"; "data1"; "read"]; PAdd ["bob"; "data2"; "write"]] in
  Forall (op_ok comma_free) h /\ comma_free ["alice"; "data1"; "read"] /\
  set_of h ["bob"; "data2"; "write"] = true /\ set_of h ["alice"; "data1"; "read"] = false.
Proof.
  cbn. repeat split; repeat constructor; try discriminate.
Qed.

(** ** C02: adding or removing one rule leaves every other rule alone. *)

(** The full statement, for all rules, is false: values may contain the
    separator. *)
Theorem C02_no_interference_refuted :
  exists (r r' : rule),
    r <> r' /\
    (let p := fst (fst (AddRule NewPolicy r)) in
     (* [r'] was never added, yet adding it is refused ... *)
     snd (fst (AddRule p r')) = false /\
     (* ... and removing it removes [r]. *)
     mvals (fst (fst (RemoveRule p r'))) = []) /\
    mvals (fst (fst (AddRule NewPolicy r))) = [r].
Proof.
  exists ["a,b"; "c"], ["a"; "b,c"]. split; [discriminate|]. vm_compute. auto.
Qed.
Print Assumptions C02_no_interference_refuted.

(** It holds for all histories and rules whose values contain no comma. *)
Theorem C02_no_interference_partial :
  forall (h : list pop) (r r' : rule),
    Forall (op_ok comma_free) h -> comma_free r -> comma_free r' -> r <> r' ->
    let p := fst (pexec NewPolicy h) in
    (In r' (mvals (fst (fst (AddRule p r)))) <-> In r' (mvals p)) /\
    (In r' (mvals (fst (fst (RemoveRule p r)))) <-> In r' (mvals p)) /\
    In r (mvals (fst (fst (AddRule p r)))) /\
    ~ In r (mvals (fst (fst (RemoveRule p r)))).
Proof.
  intros h r r' Hh Hr Hr' Hne p. subst p. destruct (pexec NewPolicy h) as [p es] eqn:E. cbn [fst].
  destruct (repr_exec _ comma_free_inj h _ _ _ _ (repr_nil comma_free) Hh E) as [Hrep _].
  destruct (AddRule p r) as [[p1 b1] e1] eqn:Ea. destruct (RemoveRule p r) as [[p2 b2] e2] eqn:Er.
  pose proof (repr_step _ comma_free_inj p _ (PAdd r) _ _ _ Hrep Hr Ea) as [Ha _].
  pose proof (repr_step _ comma_free_inj p _ (PRemove r) _ _ _ Hrep Hr Er) as [Hb _].
  apply repr_enumerates in Ha as [_ Ha]. apply repr_enumerates in Hb as [_ Hb].
  apply repr_enumerates in Hrep as [_ Hp].
  cbn [fst]. rewrite (Ha r' Hr'), (Hb r' Hr'), (Hp r' Hr'), (Ha r Hr), (Hb r Hr).
  cbn. unfold set_add, set_remove.
  destruct (rule_eqb_spec r' r); [congruence|]. destruct (rule_eqb_spec r r); [|congruence].
  cbn. intuition congruence.
Qed.
Print Assumptions C02_no_interference_partial.

(** Exactly when two rules collide, for arbitrary values and histories: when
    their comma-joined texts are equal. *)
Theorem C02_collision_exact :
  forall (h : list pop) (r : rule),
    let p := fst (pexec NewPolicy h) in
    (snd (fst (AddRule p r)) = false <->
       exists r0, In r0 (mvals p) /\ join "," r0 = join "," r) /\
    (forall r0, In r0 (mvals (fst (fst (RemoveRule p r)))) <->
       In r0 (mvals p) /\ join "," r0 <> join "," r).
Proof.
  intros h r p. subst p. destruct (pexec NewPolicy h) as [p es] eqn:E. cbn [fst].
  pose proof (keyed_exec _ _ _ _ keyed_nil E) as Hk. split.
  - unfold AddRule. destruct (mget (Hash r) p) as [r0|] eqn:Eg; cbn.
    + split; [|reflexivity]. intros _. exists r0.
      pose proof (keyed_mget _ _ _ Hk Eg) as Hh. split; [|symmetry; exact Hh].
      rewrite keyed_In_vals by exact Hk. now rewrite <- Hh.
    + split; [discriminate|]. intros [r0 [Hin Hj]].
      rewrite keyed_In_vals in Hin by exact Hk. unfold Hash in *. rewrite Hj in Hin. congruence.
  - intros r0. destruct (RemoveRule p r) as [[p2 b2] e2] eqn:Er. cbn [fst].
    pose proof (keyed_RemoveRule _ _ _ _ _ Hk Er) as Hk2.
    rewrite !keyed_In_vals by assumption. unfold RemoveRule in Er.
    destruct (mget (Hash r) p) eqn:Eg; injection Er as <- <- <-.
    + rewrite mget_del. fold (Hash r0) (Hash r).
      destruct (String.eqb_spec (Hash r0) (Hash r)); intuition congruence.
    + fold (Hash r0) (Hash r). intuition congruence.
Qed.
Print Assumptions C02_collision_exact.

Example C02_partial_ex :
  let h := [PAdd ["alice"; "data1"; "read"]; PAdd ["bob"; "data2"; "write"]] in
  Forall (op_ok comma_free) h /\ comma_free ["alice"; "data1"; "read"] /\
  comma_free ["bob"; "data2"; "write"] /\
  In ["bob"; "data2"; "write"] (mvals (fst (pexec NewPolicy h))).
Proof.
  split; [|split; [|split]].
  - repeat constructor; discriminate.
  - repeat constructor; discriminate.
  - repeat constructor; discriminate.
  - vm_compute. auto.
Qed.

(** ** C07: an observer that replays the event stream has the policy's rules. *)
Theorem C07_events_mirror :
  forall (h : list pop),
    Forall (op_ok comma_free) h ->
    let (p, es) := pexec NewPolicy h in
    enumerates (mvals p) (replay es) comma_free.
Proof.
  intros h Hh. destruct (pexec NewPolicy h) as [p es] eqn:E.
  destruct (repr_exec _ comma_free_inj h _ _ _ _ (repr_nil comma_free) Hh E) as [_ Hrep].
  apply repr_enumerates. now apply Hrep.
Qed.
Print Assumptions C07_events_mirror.

(** Events are only emitted for effective changes: one per changing call. *)
Theorem C07_one_event_per_change :
  forall (h : list pop) (r : rule),
    let p := fst (pexec NewPolicy h) in
    snd (AddRule p r) = (if snd (fst (AddRule p r)) then [EvtAdded r] else []) /\
    snd (RemoveRule p r) = (if snd (fst (RemoveRule p r)) then [EvtRemoved r] else []).
Proof.
  intros h r p. unfold AddRule, RemoveRule. destruct (mget (Hash r) p); split; reflexivity.
Qed.
Print Assumptions C07_one_event_per_change.

Example C07_ex :
  let h := [PAdd ["a"; "b"]; PClear; PAdd ["c"; "d"]; PRemove ["x"; "y"]] in
  Forall (op_ok comma_free) h /\
  replay (snd (pexec NewPolicy h)) ["c"; "d"] = true /\
  replay (snd (pexec NewPolicy h)) ["a"; "b"] = false.
Proof. cbn. repeat split; repeat constructor; try discriminate. Qed.

(** ** C55: GetDistinct returns each combination of column values once. *)
Theorem C55_get_distinct :
  forall (h : list pop) (columns : list nat) ord ord',
    Forall (op_ok comma_free) h -> columns <> [] ->
    (forall l, Permutation (ord l) l) -> (forall l, Permutation (ord' l) l) ->
    let p := fst (pexec NewPolicy h) in
    (forall r c, In r (mvals p) -> In c columns -> c < List.length r) ->
    exists l, GetDistinct ord ord' p columns = Val l /\ NoDup l /\
      forall vs, In vs l <-> exists r, In r (mvals p) /\ columns_of r columns vs.
Proof.
  intros h columns ord ord' Hh Hne Hord Hord' p Hcols. subst p.
  destruct (pexec NewPolicy h) as [p es] eqn:E. cbn [fst] in *.
  destruct (repr_exec _ comma_free_inj h _ _ _ _ (repr_nil comma_free) Hh E) as [[_ [Hcf _]] _].
  unfold GetDistinct.
  destruct (distinct_loop columns (ord (mvals p)) []) as [res|] eqn:Ed; cbn.
  2:{ exfalso. apply distinct_loop_panic in Ed as [r [Hin Hp]].
      apply project_panic in Hp as [c [Hc Hl]].
      specialize (Hcols r c (Permutation_in _ (Hord _) Hin) Hc). lia. }
  destruct (distinct_loop_spec _ _ _ _ Ed keyed_nil) as [Hk [Hsub Hsup]].
  exists (ord' (mvals res)). split; [reflexivity|]. split.
  { eapply Permutation_NoDup; [symmetry; apply Hord'|]. now apply keyed_NoDup_vals. }
  assert (Hpcf : forall r vs, In r (mvals p) -> columns_of r columns vs -> comma_free vs).
  { intros r vs Hr Hc. rewrite Forall_forall in Hcf. destruct (Hcf r Hr) as [_ Hcr].
    unfold columns_of in Hc. split.
    - intros ->. inversion Hc; subst. congruence.
    - clear -Hcr Hc. induction Hc as [|c v cs vs Hn Hc IH]; constructor; [|exact IH].
      rewrite Forall_forall in Hcr. apply Hcr. eapply nth_error_In; eauto. }
  intros vs. split.
  - intros Hin. apply (Permutation_in _ (Hord' _)) in Hin.
    destruct (Hsub vs Hin) as [[]|[r [Hr Hp]]]. exists r. split.
    + eapply Permutation_in; [apply Hord|exact Hr].
    + now apply project_spec.
  - intros [r [Hr Hc]]. apply (Permutation_in _ (Permutation_sym (Hord' _))).
    destruct (Hsup (Hash vs)) as [v [Hv Hh']].
    { right. exists r, vs. split; [eapply Permutation_in; [symmetry; apply Hord|exact Hr]|].
      split; [now apply project_spec|reflexivity]. }
    destruct (Hsub v Hv) as [[]|[r2 [Hr2 Hp2]]]. apply project_spec in Hp2.
    apply (Permutation_in _ (Hord _)) in Hr2.
    apply Hash_inj in Hh'; [now subst v|exact (Hpcf _ _ Hr2 Hp2)|exact (Hpcf _ _ Hr Hc)].
Qed.
Print Assumptions C55_get_distinct.

(** A column that some rule does not have is an index panic, never a wrong
    answer. *)
Theorem C55_missing_column_panics :
  forall (p : policy) (columns : list nat) ord ord',
    (forall l, Permutation (ord l) l) ->
    (GetDistinct ord ord' p columns = Panic <->
     exists r c, In r (mvals p) /\ In c columns /\ List.length r <= c).
Proof.
  intros p columns ord ord' Hord. unfold GetDistinct.
  destruct (distinct_loop columns (ord (mvals p)) []) as [res|] eqn:Ed; cbn.
  - split; [discriminate|]. intros [r [c [Hr [Hc Hl]]]]. exfalso.
    assert (Hp : distinct_loop columns (ord (mvals p)) [] = Panic); [|congruence].
    apply distinct_loop_panic. exists r. split.
    + eapply Permutation_in; [symmetry; apply Hord|exact Hr].
    + apply project_panic. eauto.
  - split; [|reflexivity]. intros _. apply distinct_loop_panic in Ed as [r [Hr Hp]].
    apply project_panic in Hp as [c [Hc Hl]]. exists r, c. split; [|auto].
    eapply Permutation_in; [apply Hord|exact Hr].
Qed.
Print Assumptions C55_missing_column_panics.

Example C55_ex :
  let p := fst (pexec NewPolicy [PAdd ["alice"; "data1"; "read"]; PAdd ["alice"; "data1"; "write"];
                                 PAdd ["bob"; "data2"; "read"]]) in
  GetDistinct (fun l => l) (fun l => l) p [0; 1] = Val [["alice"; "data1"]; ["bob"; "data2"]].
Proof. reflexivity. Qed.
