(** What path matching means, on lists of segments. *)
From Verif Require Import GoBase.

(** The segments of a path: "a/b//c" has the segments "a", "b", "", "c". *)
Definition segments (path : string) : list string := split_char "/" path.

(** [dyn s]: pattern segment [s] stands for one arbitrary segment. *)
Inductive seg_match (dyn : string -> Prop) : list string -> list string -> Prop :=
| sm_nil : seg_match dyn [] []
| sm_lit s path pat : seg_match dyn path pat -> seg_match dyn (s :: path) (s :: pat)
| sm_dyn s d path pat : dyn d -> seg_match dyn path pat -> seg_match dyn (s :: path) (d :: pat)
| sm_star xs path pat : xs <> [] -> seg_match dyn path pat -> seg_match dyn (xs ++ path) ("*"%string :: pat).

(** ":name" *)
Definition colon_name (s : string) : Prop := exists t, s = (":" ++ t)%string.
(** "{name}" *)
Definition brace_name (s : string) : Prop := exists t, s = ("{" ++ t ++ "}")%string.

(** The same, except that a "*" segment that is not the last one of the pattern
    takes no further segment after a path segment that is itself "*". *)
Inductive seg_match_code (dyn : string -> Prop) : list string -> list string -> Prop :=
| smc_nil : seg_match_code dyn [] []
| smc_lit s path pat : seg_match_code dyn path pat -> seg_match_code dyn (s :: path) (s :: pat)
| smc_dyn s d path pat : dyn d -> seg_match_code dyn path pat -> seg_match_code dyn (s :: path) (d :: pat)
| smc_last xs : xs <> [] -> seg_match_code dyn xs ["*"%string]
| smc_star xs x path pat :
    ~ In "*"%string xs -> seg_match_code dyn path pat ->
    seg_match_code dyn (xs ++ x :: path) ("*"%string :: pat).
