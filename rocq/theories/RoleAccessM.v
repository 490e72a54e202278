(** Direct calls on the role managers of a model: [GetModel().GetRoleManager(key)]
    and then a method of the manager, as in example_matcher_test.go:61-67 and
    model_test.go:306-338. *)
From Verif Require Import GoBase DefsM PolicyM MatcherDefM PathM RbacM DomainM ModelM.

(** rbac/role_manager_api.go: the methods of a role manager.  [Range] and [String]
    change nothing and are left out. *)
Inductive role_call : Type :=
| RC (c : dcall)
| RCSetMatcher (m : option imatcher)
| RCSetDomainMatcher (m : option imatcher).

Definition role_step (ord : RbacM.order) (x : irm) (c : role_call) : outcome (irm * answer) :=
  match c with
  | RC c => dstep ord x c
  | RCSetMatcher m => let! x := i_SetMatcher ord x m in Val (x, AUnit)
  | RCSetDomainMatcher m => let! x := i_SetDomainMatcher ord x m in Val (x, AUnit)
  end.

Fixpoint role_exec (x : irm) (h : list (RbacM.order * role_call)) : outcome (irm * list answer) :=
  match h with
  | [] => Val (x, [])
  | (ord, c) :: h' =>
      let! (x, r) := role_step ord x c in
      let! (x, rs) := role_exec x h' in
      Val (x, r :: rs)
  end.

(** model/model.go:329-332 and then the call.  The manager is shared with the
    role policy and with the role function; nobody is told of the call: the events of
    a section come from rbac/role_policy.go:18-34, which is not involved. *)
Definition model_role_call (o : orders) (m : model) (key : string) (c : role_call) : outcome (model * answer) :=
  let! r := model_GetRoleManager m key in
  match nth_error (md_rms m) r with
  | None => Panic                           (* unreachable: r is a position *)
  | Some x => let! (x, a) := role_step (o_names o) x c in Val (set_rms m (set_nth (md_rms m) r x), a)
  end.

(** Histories of calls on the model and on its managers. *)
Inductive xcall : Type :=
| XM (c : mcall)
| XRole (key : string) (c : role_call).

Definition xstep (E : env) (o : orders) (m : model) (c : xcall) : outcome (model * (mresult + answer)) :=
  match c with
  | XM c => let! (m, r) := mstep E o m c in Val (m, inl r)
  | XRole k c => let! (m, a) := model_role_call o m k c in Val (m, inr a)
  end.

Fixpoint xexec (E : env) (m : model) (h : list (orders * xcall)) : outcome (model * list (mresult + answer)) :=
  match h with
  | [] => Val (m, [])
  | (o, c) :: h' =>
      let! (m, r) := xstep E o m c in
      let! (m, rs) := xexec E m h' in
      Val (m, r :: rs)
  end.
