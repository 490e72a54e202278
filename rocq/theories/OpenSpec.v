(** Matchers with an alternative about the request alone (the files
    basic_with_root_model.conf and rbac_model_matcher_using_in_op.conf of examples/). *)
From Verif Require Import GoBase DefsM PolicyM PolicySpec MatcherDefSpec ModelM ModelSpec AppSpec MultiSpec LogicSpec.

(** A test that speaks of the request and of literals only. *)
Definition about_request (t : test) : Prop := forall x, ~ In (TPol x) (test_terms t).
(** It is true of the request [vals] (of the request and any rule). *)
Definition open_for (E : env) (d : deflist) (h : list (orders * mcall)) (rt pt : string) (vals : list string) (t : test) : Prop :=
  forall r, test_true E d h rt pt vals r t.
