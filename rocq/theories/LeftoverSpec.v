(** What the rules a matcher remembers leave behind, in terms of its formula. *)
From Verif Require Import GoBase DefsM PolicyM PolicySpec MatcherDefM MatcherDefSpec ModelM ModelSpec MultiSpec LogicSpec RoleAccessSpec Prop_Defs.

(** The alternatives of a formula, each the list of its tests from left to right. *)
Fixpoint alternatives (f : mform) : list (list test) :=
  match f with
  | MTest t => [[t]]
  | MPar f => alternatives f
  | MAnd f g => flat_map (fun a => map (app a) (alternatives g)) (alternatives f)
  | MOr f g => alternatives f ++ alternatives g
  end.

(** The rules of section [pk] that were present when the matchers were built or were
    added later, since the section was last cleared; removals do not count. *)
Definition remember_step (pk : string) (H : rule -> Prop) (c : mcall) : rule -> Prop :=
  match c with
  | CAdd rl => fun r => rl = pk :: r \/ H r
  | CClear k => if String.eqb k pk then fun _ => False else H
  | _ => H
  end.
Definition remembered (pk : string) (h : list (orders * mcall)) (r : rule) : Prop :=
  exists hb o ha, h = hb ++ (o, CBuild) :: ha /\
    fold_left (remember_step pk) (map snd ha) (fun r => present hb (pk :: r)) r.

(** Two rules have the same values in the columns a test names; for a test that names
    none, they are the same rule. *)
Definition policy_columns (t : test) : list string :=
  flat_map (fun a => match a with TPol x => [x] | _ => [] end) (test_terms t).
Definition agree (pt : string) (t : test) (r r' : rule) : Prop :=
  match policy_columns t with
  | [] => r = r'
  | cs => forall x n, In x cs -> nth_error (named_columns pt) n = Some x -> nth_error r n = nth_error r' n
  end.
(** The text of each test names, as policy arguments, just the columns of the rule
    that are its terms (no literal is spelled like one). *)
Definition names_columns (rk pk : string) (f : mform) : Prop :=
  forall t x, In t (tests f) -> (In x (p_args (test_text rk pk t)) <-> exists y, In y (policy_columns t) /\ x = (pk ++ "_" ++ y)%string).

(** The formula is true of something that is no present rule: for some alternative,
    the last test is true of the rule of empty values, and the earlier ones are true
    - of the rule of empty values, if no rule is remembered, or
    - of a remembered rule, and no present rule agrees with it on all of them. *)
Section Leftover.
  Variable CT : string -> list string -> Prop.
  Definition empty_rule (pt : string) : rule := repeat ""%string (List.length (named_columns pt)).
  Definition leftover (h : list (orders * mcall)) (rt pk pt : string) (f : mform) (vals : list string) : Prop :=
    exists pre t, In (pre ++ [t]) (alternatives f) /\ test_by CT rt pt vals (empty_rule pt) t /\
      (((forall r, ~ remembered pk h r) /\ Forall (test_by CT rt pt vals (empty_rule pt)) pre) \/
       (exists r, remembered pk h r /\ Forall (test_by CT rt pt vals r) pre /\
          forall r', present h (pk :: r') -> ~ Forall (fun t => agree pt t r r') pre)).
End Leftover.
