(** Model of util/cache.go at the level of its pointers.

    Addresses are list positions in [heap]; nil is [None].  Reading or writing
    through nil (or a dangling address, which cannot occur in Go) is [Panic].
    Simplification: keys are strings (fastac only uses string keys,
    rbac/role_manager.go:62-71, rbac/domain_manager.go:89-98); the value type is arbitrary. *)
From Verif Require Import GoBase.

Section Cache.
  Context {V : Type}.

  (** cache.go:5-10 [node]; the two sentinels have a nil key. *)
  Record node : Type := mkNode {
    n_key : option string;
    n_value : option V;
    n_prev : option nat;
    n_next : option nat
  }.

  (** cache.go:12-17 [LRUCache]; [head] is address 0 and [tail] is address 1
      (cache.go:24-31). *)
  Record lru : Type := mkLru {
    l_cap : nat;
    l_map : smap nat;
    l_heap : list node
  }.
  Definition a_head : nat := 0.
  Definition a_tail : nat := 1.

  (** cache.go:19-34 [NewLRUCache]. *)
  Definition NewLRUCache (capacity : nat) : lru :=
    mkLru capacity []
      [mkNode None None None (Some a_tail); mkNode None None (Some a_head) None].

  (** Pointer reads and writes. *)
  Fixpoint upd (h : list node) (a : nat) (f : node -> node) : list node :=
    match h, a with
    | [], _ => []
    | x :: h', O => f x :: h'
    | x :: h', S a' => x :: upd h' a' f
    end.

  Definition deref (h : list node) (p : option nat) : outcome (nat * node) :=
    match p with
    | None => Panic
    | Some a => match nth_error h a with None => Panic | Some n => Val (a, n) end
    end.

  Definition get_next (h : list node) (p : option nat) : outcome (option nat) :=
    let! an := deref h p in Val (n_next (snd an)).
  Definition get_prev (h : list node) (p : option nat) : outcome (option nat) :=
    let! an := deref h p in Val (n_prev (snd an)).
  Definition set_next (h : list node) (p q : option nat) : outcome (list node) :=
    let! an := deref h p in
    Val (upd h (fst an) (fun n => mkNode (n_key n) (n_value n) (n_prev n) q)).
  Definition set_prev (h : list node) (p q : option nat) : outcome (list node) :=
    let! an := deref h p in
    Val (upd h (fst an) (fun n => mkNode (n_key n) (n_value n) q (n_next n))).

  (** cache.go:40-41: the list part of [remove]. *)
  Definition unlink (h : list node) (n : option nat) : outcome (list node) :=
    let! p := get_prev h n in
    let! q := get_next h n in
    let! h := set_next h p q in
    let! q := get_next h n in
    let! p := get_prev h n in
    set_prev h q p.

  (** cache.go:48-52: the list part of [add]. *)
  Definition link (h : list node) (n : option nat) : outcome (list node) :=
    let! headNext := get_next h (Some a_head) in
    let! h := set_next h (Some a_head) n in
    let! h := set_prev h headNext n in
    let! h := set_next h n headNext in
    set_prev h n (Some a_head).

  (** cache.go:36-42 [remove]. *)
  Definition remove (c : lru) (n : option nat) (listOnly : bool) : outcome lru :=
    let! an := deref (l_heap c) n in
    let m := if listOnly then l_map c
             else match n_key (snd an) with Some k => mdel k (l_map c) | None => l_map c end in
    let! h := unlink (l_heap c) n in
    Val (mkLru (l_cap c) m h).

  (** cache.go:44-53 [add]. *)
  Definition add (c : lru) (n : nat) (listOnly : bool) : outcome lru :=
    let! an := deref (l_heap c) (Some n) in
    let m := if listOnly then l_map c
             else match n_key (snd an) with Some k => mput k n (l_map c) | None => l_map c end in
    let! h := link (l_heap c) (Some n) in
    Val (mkLru (l_cap c) m h).

  (** cache.go:55-58 [moveToHead]. *)
  Definition moveToHead (c : lru) (n : nat) : outcome lru :=
    let! c := remove c (Some n) true in
    add c n true.

  (** cache.go:60-68 [Get]. *)
  Definition Get (c : lru) (key : string) : outcome (lru * option V) :=
    match mget key (l_map c) with
    | Some n =>
        let! c := moveToHead c n in
        let! an := deref (l_heap c) (Some n) in
        Val (c, n_value (snd an))
    | None => Val (c, None)
    end.

  (** cache.go:70-81 [Put]. *)
  Definition Put (c : lru) (key : string) (value : V) : outcome lru :=
    match mget key (l_map c) with
    | Some n =>
        let! c := remove c (Some n) false in
        add c n false
    | None =>
        let n := List.length (l_heap c) in
        let c := mkLru (l_cap c) (l_map c) (l_heap c ++ [mkNode (Some key) (Some value) None None]) in
        let! c := (if Nat.leb (l_cap c) (List.length (l_map c))
                   then let! last := get_prev (l_heap c) (Some a_tail) in
                        remove c last false
                   else Val c) in
        add c n false
    end.

  (** A history of calls. *)
  Inductive cop : Type := CGet (k : string) | CPut (k : string) (v : V).

  Definition cstep (c : lru) (o : cop) : outcome (lru * option V) :=
    match o with
    | CGet k => Get c k
    | CPut k v => let! c := Put c k v in Val (c, None)
    end.

  Fixpoint cexec (c : lru) (h : list cop) : outcome lru :=
    match h with
    | [] => Val c
    | o :: h' => let! cr := cstep c o in cexec (fst cr) h'
    end.
End Cache.
Arguments node : clear implicits.
Arguments lru : clear implicits.
Arguments cop : clear implicits.
