(** Reference LRU cache: the entries as a list, most recently used first. *)
From Verif Require Import GoBase CacheM.

Section Spec.
  Context {V : Type}.

  Definition entries := list (string * V).

  (** Reading moves the entry to the front. *)
  Definition touch (k : string) (l : entries) : entries :=
    match mget k l with
    | Some v => (k, v) :: mdel k l
    | None => l
    end.

  (** Writing a key that is present replaces its value and moves it to the
      front; otherwise the entry is put in front and, when the cache is full,
      the last (least recently used) entry is dropped. *)
  Definition lru_put (cap : nat) (k : string) (v : V) (l : entries) : entries :=
    if mhas k l then (k, v) :: mdel k l
    else (k, v) :: (if Nat.leb cap (List.length l) then removelast l else l).

  (** The same, except that a present key keeps the value it already has. *)
  Definition lru_put_keep (cap : nat) (k : string) (v : V) (l : entries) : entries :=
    match mget k l with
    | Some v0 => (k, v0) :: mdel k l
    | None => (k, v) :: (if Nat.leb cap (List.length l) then removelast l else l)
    end.

  Definition spec_step (put : nat -> string -> V -> entries -> entries) (cap : nat)
      (l : entries) (o : cop V) : entries :=
    match o with
    | CGet k => touch k l
    | CPut k v => put cap k v l
    end.

  (** State after a whole history, starting empty. *)
  Definition lru_of cap (h : list (cop V)) : entries := fold_left (spec_step lru_put cap) h [].
  Definition lru_keep_of cap (h : list (cop V)) : entries :=
    fold_left (spec_step lru_put_keep cap) h [].
End Spec.

(** ** Observations *)
Section Obs.
  Context {V : Type}.

  (** The keys met when following the next (prev) pointers from address [p]
      until the address [stop]; [None] if a pointer is nil or the walk does not
      arrive within [fuel] steps. *)
  Fixpoint walk (dir : node V -> option nat) (fuel : nat) (h : list (node V)) (p : option nat) (stop : nat)
    : option (list (option string)) :=
    match fuel with
    | O => None
    | S f =>
        match p with
        | None => None
        | Some a =>
            if Nat.eqb a stop then Some []
            else match nth_error h a with
                 | None => None
                 | Some n => match walk dir f h (dir n) stop with
                             | None => None
                             | Some l => Some (n_key n :: l)
                             end
                 end
        end
    end.

  (** List and map hold the same nodes: both walks between the sentinels reach
      the other end and meet exactly the keys of the map, once each. *)
  Definition consistent (c : lru V) : Prop :=
    exists ks,
      walk n_next (S (S (List.length (l_heap c)))) (l_heap c) (Some a_head) a_tail = Some (None :: map Some ks) /\
      walk n_prev (S (S (List.length (l_heap c)))) (l_heap c) (Some a_tail) a_head = Some (None :: map Some (rev ks)) /\
      NoDup ks /\ Permutation ks (mkeys (l_map c)).

  (** What [Get] answers (without looking at the state it leaves). *)
  Definition lookup (c : lru V) (k : string) : option V :=
    match Get c k with Val (_, r) => r | Panic => None end.

  (** Number of calls since the last call about key [k] (the most recent call
      comes first in [h]). *)
  Definition about (o : cop V) : string := match o with CGet k => k | CPut k _ => k end.
  Fixpoint idle (k : string) (h : list (cop V)) : nat :=
    match h with
    | [] => 0
    | o :: h' => if String.eqb (about o) k then 0 else S (idle k h')
    end.
  (** [a] was used more recently than [b] in the history [h]. *)
  Definition fresher (h : list (cop V)) (a b : string) : Prop := idle a (rev h) < idle b (rev h).
End Obs.
