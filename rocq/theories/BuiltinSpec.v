(** What the built-in functions mean.  Independent of the model of package net. *)
From Verif Require Import GoBase DefsM.
From Coq Require Import NArith.
From Coq Require Import DecimalString.
From Coq Require DecimalN.

(** Decimal text of a number (Coq's own conversion). *)
Definition dec (n : N) : string := NilEmpty.string_of_uint (N.to_uint n).
(** The dotted text of an IPv4 address. *)
Definition dotted (a b c d : N) : string := (dec a ++ "." ++ dec b ++ "." ++ dec c ++ "." ++ dec d)%string.
Definition is_byte (x : N) : Prop := (x < 256)%N.

(** The bits of an address, most significant first. *)
Definition byte_bits (x : N) : list bool := map (N.testbit x) [7; 6; 5; 4; 3; 2; 1; 0]%N.
Definition bits (l : list N) : list bool := flat_map byte_bits l.
(** The address lies in the network given by an address and a prefix length. *)
Definition in_network (len : nat) (net addr : list N) : Prop := firstn len (bits addr) = firstn len (bits net).

(** An IPv4 address among the IPv6 addresses: ::ffff:a.b.c.d *)
Definition v4_mapped (l : list N) : Prop := exists l4, l = ([0; 0; 0; 0; 0; 0; 0; 0; 0; 0; 255; 255] ++ l4)%N.
Definition address16 (l : list N) : Prop := List.length l = 16 /\ Forall is_byte l.
