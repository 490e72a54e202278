(** Applications (AppSpec) that keep their rules in a policy file. *)
From Verif Require Import GoBase DefsM PolicyM PolicySpec ModelM ModelSpec StorageM StorageSpec EnforcerM FileM FileSpec FileWorldM PersistSpec AppSpec.

(** The model file is loaded and its matcher built. *)
Definition app_start (c : config) (hs : list (orders * mcall)) : Prop := map snd hs = config_defs c ++ [CBuild].

(** A rule of the application that a policy file can hold (C47), with no names
    beyond the first two in a grouping section without domains. *)
Definition file_rule (c : config) (rl : rule) : Prop :=
  app_rule c rl /\ plain_line rl /\
  forall t a b ds, cf_g c = Some t -> rl = "g"%string :: a :: b :: ds -> rd_nargs (NewRoleDef "" t) = 2 -> ds = [].

(** What the application does: it adds and removes rules, one by one and in
    batches, flushes and saves. *)
Definition app_ecall (c : config) (x : ecall) : Prop :=
  match x with
  | EModel (CAdd rl) | EModel (CRemove rl) => file_rule c rl
  | EAddRules rs | ERemoveRules rs => Forall (file_rule c) rs
  | EFlush | ESave => True
  | _ => False
  end.

(** The first process: the model is set up, the enforcer made with the file
    adapter and autosave, and the calls [h] succeed and lead to [e]. *)
Definition first_run (E : env) (P : fileadapter) (d0 : disk) (files : string -> disk) (hs : list (orders * mcall)) (os : nat -> orders)
    (h : list ((nat -> orders) * ecall)) (e : enforcer) : Prop :=
  exists m rs0 e0 rs, mexec E (NewModel E) hs = Val (m, rs0) /\
    NewEnforcer E (file_world P d0 files) os m (ArgAdapter (AExt 0)) [OptAutosave true] = Val (inl e0) /\
    eexec E (file_world P d0 files) e0 h = Val (e, rs).
(** The second process: the model is set up, the enforcer made with the file
    adapter and any options, and LoadPolicy returns no error and leads to [e]. *)
Definition second_run (E : env) (P : fileadapter) (d : disk) (files : string -> disk) (hs : list (orders * mcall)) (os : nat -> orders)
    (opts : list eoption) (os2 : nat -> orders) (e : enforcer) : Prop :=
  exists m rs0 e0, mexec E (NewModel E) hs = Val (m, rs0) /\
    NewEnforcer E (file_world P d files) os m (ArgAdapter (AExt 0)) opts = Val (inl e0) /\
    eexec E (file_world P d files) e0 [(os2, ELoad)] = Val (e, [mkERes None None]).
(** Both processes set up configuration [c]; the file is empty at first and can
    be read and written; the calls are those of the application; maps are visited
    in any order. *)
Definition runs (P : fileadapter) (d0 : disk) (hs : list (orders * mcall)) (h : list ((nat -> orders) * ecall)) (hs2 : list (orders * mcall))
    (os2 : nat -> orders) (c : config) : Prop :=
  app_start c hs /\ good_m hs /\ app_start c hs2 /\ good_m hs2 /\ working P /\ load_file d0 = ([], None) /\
  Forall (fun x => app_ecall c (snd x)) h /\ eorders h /\ forall n, good_orders (os2 n).
(** Both answer the request, without an error, in the same way. *)
Definition same_answer (E : env) (o : orders) (m : model) (o' : orders) (m' : model) (ps : list param) : Prop :=
  exists b, Enforce E o m ps = Val (m, (b, None)) /\ Enforce E o' m' ps = Val (m', (b, None)).
