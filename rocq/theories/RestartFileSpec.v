(** Processes with any model file (MultiSpec) that keep their rules in a policy
    file. *)
From Verif Require Import GoBase DefsM PolicyM PolicySpec ModelM ModelSpec StorageM StorageSpec EnforcerM FileM FileSpec FileWorldM PersistSpec RestartSpec EffectorM Prop_Effect MatcherDefM MatcherDefSpec MatcherM EnforcerSpec AppSpec MultiSpec LogicSpec.

(** The model file is loaded and its matchers built. *)
Definition file_start (d : deflist) (hs : list (orders * mcall)) : Prop := map snd hs = set_all d ++ [CBuild].

(** A rule of a section of the model file of which [Q] holds, with no names beyond
    the first two in a grouping section without domains. *)
Definition kept_by (Q : rule -> Prop) (d : deflist) (rl : rule) : Prop :=
  file_rule d rl /\ Q rl /\
  forall k t a b ds, In (G_SEC, k, t) d -> rl = k :: a :: b :: ds -> rd_nargs (NewRoleDef "" t) = 2 -> ds = [].
(** What a process does: it adds and removes such rules, one by one and in batches,
    flushes and saves. *)
Definition file_ecall_by (Q : rule -> Prop) (d : deflist) (x : ecall) : Prop :=
  match x with
  | EModel (CAdd rl) | EModel (CRemove rl) => kept_by Q d rl
  | EAddRules rs | ERemoveRules rs => Forall (kept_by Q d) rs
  | EFlush | ESave => True
  | _ => False
  end.
(** Rules that a policy file can hold (C46), and calls with such rules. *)
Definition kept_rule : deflist -> rule -> Prop := kept_by plain_line.
Definition file_ecall : deflist -> ecall -> Prop := file_ecall_by plain_line.

(** The calls on the model that these are. *)
Definition calls_made (h : list ((nat -> orders) * ecall)) : list (orders * mcall) :=
  flat_map (fun x => match snd x with
                     | EModel c => [(fst x 0, c)]
                     | EAddRules rs => rule_calls (fst x) CAdd rs
                     | ERemoveRules rs => rule_calls (fst x) CRemove rs
                     | _ => []
                     end) h.

(** A process on the file [d0]: the model is set up, the enforcer made with the file
    adapter and autosave, the file is loaded, and the calls [h] follow; no call
    panics or returns an error, and the process ends with [e]. *)
Definition process (E : env) (P : fileadapter) (d0 : disk) (files : string -> disk) (hs : list (orders * mcall)) (os os1 : nat -> orders)
    (h : list ((nat -> orders) * ecall)) (e : enforcer) : Prop :=
  exists m rs0 e0 rs, mexec E (NewModel E) hs = Val (m, rs0) /\
    NewEnforcer E (file_world P d0 files) os m (ArgAdapter (AExt 0)) [OptAutosave true] = Val (inl e0) /\
    eexec E (file_world P d0 files) e0 ((os1, ELoad) :: h) = Val (e, rs) /\ Forall (fun r => y_err r = None) rs.

(** A process that loads what adapter [id] holds, without an error. *)
Definition started_from (E : env) (W : world) (id : nat) (hs : list (orders * mcall)) (os : nat -> orders) (opts : list eoption) (os2 : nat -> orders) (e : enforcer) : Prop :=
  exists m rs0 e0, mexec E (NewModel E) hs = Val (m, rs0) /\ NewEnforcer E W os m (ArgAdapter (AExt id)) opts = Val (inl e0) /\
    eexec E W e0 [(os2, ELoad)] = Val (e, [mkERes None None]).

(** The file can be read and holds rules of the model file only. *)
Definition file_holds (d : deflist) (x : disk) (held : list rule) : Prop := load_file x = (held, None) /\ Forall (kept_rule d) held.

(** Processes one after the other on the same file: [r_setup] sets up the model of
    a process, [r_os] and [r_os1] are the orders in which NewEnforcer and LoadPolicy
    visit maps, [r_calls] are the calls. *)
Record lifetime : Type := Life { r_setup : list (orders * mcall); r_os : nat -> orders; r_os1 : nat -> orders; r_calls : list ((nat -> orders) * ecall) }.
Definition lifetime_ok (d : deflist) (r : lifetime) : Prop :=
  file_start d (r_setup r) /\ good_m (r_setup r) /\ (forall n, good_orders (r_os1 r n)) /\ Forall (fun x => file_ecall d (snd x)) (r_calls r) /\ eorders (r_calls r).
Inductive lifetimes (E : env) (P : fileadapter) (files : string -> disk) : disk -> list lifetime -> disk -> Prop :=
| no_life d0 : lifetimes E P files d0 [] d0
| one_life d0 r rs e d2 : process E P d0 files (r_setup r) (r_os r) (r_os1 r) (r_calls r) e ->
    lifetimes E P files (the_file P d0 (f_log e)) rs d2 -> lifetimes E P files d0 (r :: rs) d2.

(** Two models, the first with the history [h], answer every request with every
    matcher of comparisons and function calls alike (C92 says what [calls_answer],
    [last_tests] and the three effects are about): Filter reports the same rules and
    Enforce returns the same decision, in every order of visiting maps. *)
Definition same_decisions (E : env) (d : deflist) (R : string -> form * string) (h : list (orders * mcall)) (m m' : model) : Prop :=
  forall mk rk pk rt pt f, logical E d R mk rk pk rt pt f ->
  forall o o' ps vals, good_orders o -> good_orders o' -> uses_matcher mk ps -> uses_request rk ps ->
    vals_of ps = map VStr vals -> List.length vals = List.length (named_columns rt) ->
    calls_answer E d h rt pk pt f vals ->
    (forall t, In t (last_tests f) -> ~ test_true E d h rt pt vals (repeat ""%string (List.length (named_columns pt))) t) ->
    (exists ms ms', Filter E o m ps = Val (m, (ms, None)) /\ Filter E o' m' ps = Val (m', (ms', None)) /\ forall x, In x ms <-> In x ms') /\
    (spells (effect_in_force h ps) "some(where (p.eft == allow))" \/ spells (effect_in_force h ps) "!some(where (p.eft == deny))" \/
     spells (effect_in_force h ps) "some(where (p.eft == allow)) && !some(where (p.eft == deny))" /\ ~ says E d h rt pk pt f vals Indeterminate ->
       exists b, Enforce E o m ps = Val (m, (b, None)) /\ Enforce E o' m' ps = Val (m', (b, None))).
