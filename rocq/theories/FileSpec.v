(** Which rules a text file of comma separated values can hold.  Independent of
    the reader and the writer. *)
From Verif Require Import GoBase.

(** The white space characters of Unicode, in UTF-8. *)
Definition bytes (l : list nat) : string := fold_right (fun n s => String (ascii_of_nat n) s) EmptyString l.
Definition unicode_spaces : list string :=
  map bytes ([[9]; [10]; [11]; [12]; [13]; [32]; [194; 133]; [194; 160]; [225; 154; 128]] ++
             map (fun n => [226; 128; n]) [128; 129; 130; 131; 132; 133; 134; 135; 136; 137; 138; 168; 169; 175] ++
             [[226; 129; 159]; [227; 128; 128]]).
Definition starts_with (p s : string) : Prop := exists t, s = (p ++ t)%string.
Definition ends_with (p s : string) : Prop := exists t, s = (t ++ p)%string.
Definition contains (p s : string) : Prop := exists a b, s = (a ++ p ++ b)%string.

(** A value without comma, quote and newline that does not start with white
    space. *)
Definition plain_value (v : string) : Prop :=
  ~ contains "," v /\ ~ contains (bytes [34]) v /\ ~ contains (bytes [10]) v /\ forall p, In p unicode_spaces -> ~ starts_with p v.

(** A rule of plain values that is neither empty nor the single empty value, does
    not start with '#', does not end with a carriage return, and whose text fits
    into a line. *)
Definition plain_line (r : list string) : Prop :=
  r <> [] /\ r <> [""%string] /\ Forall plain_value r /\ ~ starts_with "#" (hd ""%string r) /\ ~ ends_with (bytes [13]) (last r ""%string) /\
  (N.of_nat (String.length (join ", " r)) < 65536)%N.

(** The pieces make up the text. *)
Definition pieces_of (chunk : string -> list string) : Prop := forall t, fold_right append ""%string (chunk t) = t.
