(** Property C66: a role function in a matcher answers from the current rules of
    its grouping section. *)
From Verif Require Import GoBase GoBaseP DefsM PolicyM PolicySpec PolicyP MatcherDefM MatcherM MatcherSpec
  RbacM RbacSpec RbacP RbacP2 RbacP3 RbacP4 Prop_Rbac DomainM DomainSpec DomainP DomainP2 DomainP5 Prop_Domain ModelM ModelSpec ModelP ModelP2 ModelP3 ModelP4 ModelP5 ModelP6
  FunctionsSpec FunctionsP Prop_Model.

(** Which functions a matcher can call: exactly the names the history leaves
    registered; a function set by the user is the one called. *)
Theorem C66_registered :
  forall E h m rs o k,
    mexec E (NewModel E) h = Val (m, rs) ->
    (functions o m k = None -> fn_source E k h = None \/ fn_source E k h = Some FRole) /\
    (fn_source E k h = None -> functions o m k = None) /\
    (forall f, fn_source E k h = Some (FUser f) -> functions o m k = Some f).
Proof.
  intros E h m rs o k H. pose proof (fns_exec _ _ _ _ H k) as F. unfold functions.
  destruct (fn_source E k h) as [[f|]|].
  - rewrite F. split; [discriminate|]. split; [discriminate|]. congruence.
  - split; [auto|]. split; discriminate.
  - rewrite F. split; [auto|]. split; [auto|discriminate].
Qed.
Print Assumptions C66_registered.

(** A grouping section with two places: [k](a, b) is true exactly when a is b or
    there is a chain of at most nine present rules from a to b.  Further
    arguments are ignored.  Every history of rules, definitions and matchers, and
    every order of map visits. *)
Theorem C66_role_function :
  forall E h m rs o k calls,
    good_m h -> good_orders o -> tame h -> mexec E (NewModel E) h = Val (m, rs) -> g_key k -> fn_source E k h = Some FRole ->
    g_history k h = Some (IRole (NewRoleManager 10), calls) ->
    exists G, functions o m k = Some G /\
      forall a b ds, exists r, G (VStr a :: VStr b :: map VStr ds) = Val (inl (VBool r)) /\
        (r = true <-> a = b \/ exists n, 1 <= n <= 9 /\ chain (fun x y => present h [k; x; y]) n a b).
Proof.
  intros E h m rs o k calls G [Ho _] T H Kg Hf Hh.
  destruct (role_function E h m rs k G H Kg Hf) as [x0 [calls' [x [xs [Hh' [Hx Hfn]]]]]].
  rewrite Hh in Hh'. injection Hh' as <- <-.
  destruct (g_tame h k _ _ T G Kg Hh) as [_ [Hor [Hgd _]]].
  destruct (dexec_role _ _ _ _ Hx) as [rm1 [-> Hr]].
  exists (GenerateGFunction (o_names o) (IRole rm1)). split; [apply Hfn|]. intros a b ds.
  destruct (C26_bounded_reachability 10 (direct_calls calls) (o_names o) a b (good_direct _ Hgd) Ho) as [rm [ys [rm' [r [A [B C]]]]]].
  rewrite Hr in A. injection A as <- <-. exists r. split.
  - unfold GenerateGFunction. cbn [as_strings].
    assert (As : as_strings (map VStr ds) = Some ds) by (clear; induction ds as [|d ds IH]; [reflexivity|]; cbn; now rewrite IH).
    rewrite As. cbn [option_map]. unfold i_Has, fuel. cbn [i_query]. rewrite B. reflexivity.
  - rewrite C. assert (X : forall n u v, chain (edge (links_of (direct_calls calls))) n u v <-> chain (fun x y => present h [k; x; y]) n u v).
    { assert (Y : forall u v, edge (links_of (direct_calls calls)) u v <-> present h [k; u; v]).
      { intros u v. rewrite g_present by exact Kg. split.
        - intros He. exists (IRole (NewRoleManager 10), calls), u, v, []. auto.
        - intros [s [a' [b' [ds' [Es [Er L]]]]]]. rewrite Hh in Es. injection Es as <-. injection Er as -> -> <-. exact L. }
      intros n u v. split; intros Hc; induction Hc; econstructor; eauto; now apply Y. }
    split; (intros [->|[n [H1 Hn]]]; [now left|right; exists n]).
    + split; [lia|]. now apply X.
    + split; [lia|]. split; [lia|]. now apply X.
Qed.
Print Assumptions C66_role_function.

(** A grouping section with domains: [k](a, b, domains) follows the rules of that
    domain path, at most eight links minus the number of domains. *)
Theorem C66_domain_function :
  forall E h m rs o k calls ds,
    good_m h -> good_orders o -> tame h -> mexec E (NewModel E) h = Val (m, rs) -> g_key k -> fn_source E k h = Some FRole ->
    g_history k h = Some (IDom (NewDomainManager 10), calls) -> unreserved ds ->
    exists G, functions o m k = Some G /\
      forall a b, exists r, G (VStr a :: VStr b :: map VStr ds) = Val (inl (VBool r)) /\
        (r = true <-> a = b \/ exists n, 1 <= n /\ n + List.length ds <= 8 /\ chain (fun x y => present h (k :: x :: y :: ds)) n a b).
Proof.
  intros E h m rs o k calls ds G [Ho _] T H Kg Hf Hh Hu.
  destruct (role_function E h m rs k G H Kg Hf) as [x0 [calls' [x [xs [Hh' [Hx Hfn]]]]]].
  rewrite Hh in Hh'. injection Hh' as <- <-.
  destruct (g_tame h k _ _ T G Kg Hh) as [_ [Hor [Hgd _]]].
  exists (GenerateGFunction (o_names o) x). split; [apply Hfn|]. intros a b.
  destruct (C33_bounded_reachability_partial 10 ds calls (o_names o) a b Hgd Hor Ho Hu) as [y [ys [y' [r [A [B C]]]]]].
  change (domains_with 10 None None) with (IDom (NewDomainManager 10)) in A. rewrite Hx in A. injection A as <- <-. exists r. split.
  - unfold GenerateGFunction. cbn [as_strings].
    assert (As : as_strings (map VStr ds) = Some ds) by (clear; induction ds as [|d ds IH]; [reflexivity|]; cbn; now rewrite IH).
    rewrite As. cbn [option_map]. cbn [dstep] in B. apply obind_val in B as [[z q] [B Eq]]. injection Eq as <- <-. rewrite B. reflexivity.
  - rewrite C. assert (X : forall n u v, chain (edge (links_of (calls_in ds calls))) n u v <-> chain (fun x y => present h (k :: x :: y :: ds)) n u v).
    { assert (Y : forall u v, edge (links_of (calls_in ds calls)) u v <-> present h (k :: u :: v :: ds)).
      { intros u v. rewrite g_present by exact Kg. split.
        - intros He. exists (IDom (NewDomainManager 10), calls), u, v, ds. auto.
        - intros [s [a' [b' [ds' [Es [Er L]]]]]]. rewrite Hh in Es. injection Es as <-. injection Er as -> -> <-. exact L. }
      intros n u v. split; intros Hc; induction Hc; econstructor; eauto; now apply Y. }
    split; (intros [->|[n [H1 Hn]]]; [now left|right; exists n]).
    + destruct Hn as [Hn Hc]. split; [lia|]. split; [lia|]. now apply X.
    + destruct Hn as [Hn Hc]. split; [lia|]. split; [lia|]. now apply X.
Qed.
Print Assumptions C66_domain_function.

(** Called with anything else than strings, two at least, a role function panics. *)
Theorem C66_other_arguments :
  forall E h m rs o k,
    good_m h -> mexec E (NewModel E) h = Val (m, rs) -> g_key k -> fn_source E k h = Some FRole ->
    exists G, functions o m k = Some G /\
      forall args, (forall a b ds, args <> VStr a :: VStr b :: map VStr ds) -> G args = Panic.
Proof.
  intros E h m rs o k Go H Kg Hf. destruct (role_function E h m rs k Go H Kg Hf) as [x0 [calls [x [xs [_ [_ Hfn]]]]]].
  exists (GenerateGFunction (o_names o) x). split; [apply Hfn|]. intros args N.
  assert (As : forall l ss, as_strings l = Some ss -> l = map VStr ss).
  { induction l as [|v l IH]; intros ss; cbn; [now intros [= <-]|]. destruct v; try discriminate. destruct (as_strings l) as [t|]; [|discriminate]. intros [= <-]. cbn. f_equal. now apply IH. }
  unfold GenerateGFunction. destruct (as_strings args) as [[|a [|b ds]]|] eqn:X; try reflexivity. exfalso. exact (N a b ds (As _ _ X)).
Qed.
Print Assumptions C66_other_arguments.

(** RemoveFunction answers whether the name was registered; afterwards it is not,
    and the other functions are as before. *)
Theorem C66_remove_answer :
  forall E h m rs o n m' b,
    mexec E (NewModel E) h = Val (m, rs) -> RemoveFunction m n = (m', b) ->
    (b = true <-> fn_source E n h <> None) /\ functions o m' n = None /\
    (forall k, k <> n -> functions o m' k = functions o m k).
Proof.
  intros E h m rs o n m' b H Hr. injection Hr as <- <-. pose proof (fns_exec _ _ _ _ H n) as F. split; [|split].
  - rewrite mhas_true. destruct (fn_source E n h) as [[f|]|].
    + split; [discriminate|eauto].
    + destruct F as [i [rm [ls [_ [_ F]]]]]. split; [discriminate|eauto].
    + rewrite F. split; [intros [v X]; discriminate|congruence].
  - unfold functions. cbn [md_fm set_fm]. rewrite mget_del, String.eqb_refl. reflexivity.
  - intros k Hk. unfold functions. cbn [md_fm md_rms set_fm]. rewrite mget_del. destruct (String.eqb_spec k n); [congruence|reflexivity].
Qed.
Print Assumptions C66_remove_answer.

(** Example: the sections "g" and "g2" of Prop_Model.v. *)
Definition fn_h : list (orders * mcall) := ex_h ++ [(ex_o, CSetFn "twice" (fun vs => Val (inl (VBool true))))].
Definition call (k : string) (vs : list value) : outcome (option (outcome (value + goerr))) :=
  let! (m, _) := mexec ex_env (NewModel ex_env) fn_h in Val (option_map (fun G => G vs) (functions ex_rev m k)).
Example C66_ex :
  good_m fn_h /\ tame fn_h /\ g_key "g" /\ fn_source ex_env "g" fn_h = Some FRole /\ fn_source ex_env "g2" fn_h = Some FRole /\
  option_map fst (g_history "g" fn_h) = Some (IRole (NewRoleManager 10)) /\ option_map fst (g_history "g2" fn_h) = Some (IDom (NewDomainManager 10)) /\
  call "g" [VStr "alice"; VStr "admin"] = Val (Some (Val (inl (VBool true)))) /\
  call "g2" [VStr "dave"; VStr "admin"; VStr "d1"] = Val (Some (Val (inl (VBool true)))) /\
  call "g2" [VStr "carol"; VStr "admin"; VStr "d1"] = Val (Some (Val (inl (VBool false)))) /\
  call "twice" [] = Val (Some (Val (inl (VBool true)))) /\ call "g3" [] = Val None.
Proof.
  split; [apply Forall_app; split; [exact ex_good|]; repeat constructor; apply ex_o_good|].
  split; [apply Forall_app; split; [exact ex_tame|]; repeat constructor|].
  repeat split; vm_compute; reflexivity.
Qed.
Example C66_remove_ex :
  (let! (m, _) := mexec ex_env (NewModel ex_env) fn_h in
   Val (snd (RemoveFunction m "twice"), snd (RemoveFunction m "g2"), snd (RemoveFunction m "thrice"))) = Val (true, true, false).
Proof. vm_compute. reflexivity. Qed.
