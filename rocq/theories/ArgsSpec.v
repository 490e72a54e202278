(** The arguments a text names: [p_sub], [r2_obj], [g_x], ... *)
From Verif Require Import GoBase DefsM.

Fixpoint only (f : ascii -> bool) (s : string) : Prop :=
  match s with EmptyString => True | String c s' => f c = true /\ only f s' end.

(** A letter of [heads], digits, an underscore, and a name of letters, digits and
    underscores: [argument heads k x] where [k] is what comes before the underscore. *)
Definition argument (heads : list ascii) (k x : string) : Prop :=
  exists h ds id, In h heads /\ only is_digit ds /\ id <> ""%string /\ only is_ident id /\
    k = String h ds /\ x = (k ++ "_" ++ id)%string.

(** [x] is part of the text, and its last letter is the last of a word. *)
Definition part_of (x text : string) : Prop :=
  exists pre post, text = (pre ++ x ++ post)%string /\
    match post with EmptyString => True | String c _ => is_ident c = false end.

(** [x] stands in the text as a word of its own, not after a point. *)
Definition word_of (x text : string) : Prop :=
  exists pre post, text = (pre ++ x ++ post)%string /\
    match post with EmptyString => True | String c _ => is_ident c = false end /\
    (pre = ""%string \/ exists a z, pre = (a ++ String z "")%string /\ is_ident z = false /\ z <> "."%char).

Definition policy_heads : list ascii := ["p"%char; "g"%char].
Definition request_heads : list ascii := ["r"%char].
