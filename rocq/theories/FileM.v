(** Model of storage/adapter/fileadapter.go and util/util.go:19-27.

    - encoding/csv is modelled for a single line without line breaks, with Comma
      ',', Comment '#', TrimLeadingSpace and strict quotes, as
      fileadapter.go:35-40 sets it up.
    - bufio.Scanner is modelled with its default line splitting and buffer limit.
    - One file is modelled: its content, or that it does not exist.  Errors while
      reading an existing file are not modelled; every operation of saving may
      fail, and the process may die at any point. *)
From Verif Require Import GoBase PolicyM.

Definition LF : ascii := "010"%char.
Definition CR : ascii := "013"%char.
Definition DQ : ascii := "034"%char.

(** ** encoding/csv *)

(** unicode.IsSpace, in UTF-8 (one, two and three bytes). *)
Definition space1 (c : ascii) : bool :=
  let n := nat_of_ascii c in (((9 <=? n) && (n <=? 13)) || (n =? 32))%nat.
Definition space2 (c d : ascii) : bool :=
  let m := nat_of_ascii c in let n := nat_of_ascii d in
  ((m =? 194) && ((n =? 133) || (n =? 160)))%nat.
Definition space3 (c d e : ascii) : bool :=
  let l := nat_of_ascii c in let m := nat_of_ascii d in let n := nat_of_ascii e in
  (((l =? 225) && (m =? 154) && (n =? 128)) ||
  ((l =? 226) && (m =? 128) && (((128 <=? n) && (n <=? 138)) || (n =? 168) || (n =? 169) || (n =? 175))) ||
  ((l =? 226) && (m =? 129) && (n =? 159)) ||
  ((l =? 227) && (m =? 128) && (n =? 128)))%nat.
(** TrimLeadingSpace *)
Fixpoint trim (s : string) : string :=
  match s with
  | EmptyString => EmptyString
  | String c s1 =>
      if space1 c then trim s1
      else match s1 with
           | EmptyString => s
           | String d s2 =>
               if space2 c d then trim s2
               else match s2 with
                    | EmptyString => s
                    | String e s3 => if space3 c d e then trim s3 else s
                    end
           end
  end.

(** An unquoted field: up to the next comma; what follows the comma, if any. *)
Fixpoint cut_comma (s : string) : string * option string :=
  match s with
  | EmptyString => (EmptyString, None)
  | String c s' =>
      if Ascii.eqb c "," then (EmptyString, Some s')
      else let (f, r) := cut_comma s' in (String c f, r)
  end.
(** A quoted field, after the opening quote; [None] is ErrQuote. *)
Fixpoint quoted (s : string) : option (string * option string) :=
  match s with
  | EmptyString => None
  | String c s1 =>
      if Ascii.eqb c DQ then
        match s1 with
        | EmptyString => Some (EmptyString, None)
        | String d s2 =>
            if Ascii.eqb d DQ then
              match quoted s2 with Some (f, r) => Some (String DQ f, r) | None => None end
            else if Ascii.eqb d "," then Some (EmptyString, Some s2)
            else None
        end
      else match quoted s1 with Some (f, r) => Some (String c f, r) | None => None end
  end.
Definition field (s : string) : option (string * option string) :=
  match trim s with
  | String c s1 =>
      if Ascii.eqb c DQ then quoted s1
      else let (f, r) := cut_comma (trim s) in if has_char DQ f then None else Some (f, r)
  | EmptyString => Some (EmptyString, None)
  end.
(** The fields of a line; [fuel] bounds the number of fields. *)
Fixpoint fields (fuel : nat) (s : string) : option (list string) :=
  match fuel with
  | O => None
  | S fuel' =>
      match field s with
      | None => None
      | Some (f, None) => Some [f]
      | Some (f, Some rest) => match fields fuel' rest with Some l => Some (f :: l) | None => None end
      end
  end.

(** ** Reading *)
Inductive ferr : Type := FNotExist | FParse | FEof | FTooLong | FIO.

(** One trailing carriage return is dropped by the line splitting of
    bufio.Scanner, and another one by csv at the end of its input. *)
Fixpoint drop_cr (s : string) : string :=
  match s with
  | EmptyString => EmptyString
  | String c EmptyString => if Ascii.eqb c CR then EmptyString else s
  | String c s' => String c (drop_cr s')
  end.

(** fileadapter.go:30-47 [LoadPolicyLine]: the rule given to AddRule, if any.
    csv skips an empty line, so that Read returns io.EOF. *)
Definition load_line (line : string) : option rule + ferr :=
  if String.eqb line "" || prefix "#" line then inl None
  else let l := drop_cr line in
       if String.eqb l "" then inr FEof
       else match fields (S (String.length l)) l with
            | Some tokens => inl (Some tokens)
            | None => inr FParse
            end.

(** bufio.Scanner: lines end at a newline, the last one may lack it; a line that
    does not fit into the buffer of 65536 bytes ends the scan with an error. *)
Fixpoint no_last_empty (ls : list string) : list string :=
  match ls with
  | [] => []
  | [l] => if String.eqb l "" then [] else [l]
  | l :: ls' => l :: no_last_empty ls'
  end.
Definition max_line : N := 65536.
(** fileadapter.go:81-96 [LoadPolicy]: the rules given to AddRule, in order, and
    the error after them.  AddRule is assumed to succeed; loading into a model
    that returns an error is [load_from] in StorageM. *)
Fixpoint load_lines (ls : list string) : list rule * option ferr :=
  match ls with
  | [] => ([], None)
  | l :: ls' =>
      if (max_line <=? N.of_nat (String.length l))%N then ([], Some FTooLong)
      else match load_line (drop_cr l) with
           | inr e => ([], Some e)
           | inl None => load_lines ls'
           | inl (Some r) => let (rs, e) := load_lines ls' in (r :: rs, e)
           end
  end.
Definition load_text (text : string) : list rule * option ferr :=
  load_lines (no_last_empty (split_char LF text)).
Definition disk : Type := option string.
Definition load_file (d : disk) : list rule * option ferr :=
  match d with
  | None => ([], Some FNotExist)
  | Some text => load_text text
  end.

(** ** Writing *)

(** fileadapter.go:121-126: the text that is written. *)
Definition save_line (r : rule) : string := (join ", " r ++ String LF EmptyString)%string.
Fixpoint save_text (rs : list rule) : string :=
  match rs with
  | [] => EmptyString
  | r :: rs' => (save_line r ++ save_text rs')%string
  end.

(** The operations on the file.  [chunks] are the pieces in which bufio.Writer
    hands the text to the file. *)
Inductive fsop : Type := OStat | ORemove | OCreate | OOpen | OWrite (s : string).
Definition fs_step (d : disk) (o : fsop) : disk :=
  match o with
  | OStat | OOpen => d
  | ORemove => None
  | OCreate => Some EmptyString
  | OWrite s => match d with Some c => Some (c ++ s)%string | None => None end
  end.
(** An operation that is interrupted or fails: a write may have written the first
    [k] bytes. *)
Definition fs_part (k : nat) (d : disk) (o : fsop) : disk :=
  match o with
  | OWrite s => fs_step d (OWrite (substring 0 k s))
  | _ => d
  end.
(** fileadapter.go:98-132 [getWriter], [SavePolicy]. *)
Definition save_ops (d : disk) (chunks : list string) : list fsop :=
  OStat :: (match d with Some _ => [ORemove] | None => [] end) ++ [OCreate; OOpen] ++ map OWrite chunks.
(** [fault n = Some k]: the n-th operation fails (a write after k bytes); the
    error ends the call. *)
Fixpoint fs_run (fault : nat -> option nat) (d : disk) (ops : list fsop) : disk * option ferr :=
  match ops with
  | [] => (d, None)
  | o :: ops' =>
      match fault 0 with
      | Some k => (fs_part k d o, Some FIO)
      | None => fs_run (fun n => fault (S n)) (fs_step d o) ops'
      end
  end.
Definition SavePolicy (fault : nat -> option nat) (chunk : string -> list string) (d : disk) (rs : list rule) : disk * option ferr :=
  fs_run fault d (save_ops d (chunk (save_text rs))).
(** The process dies during SavePolicy (116-132): some operations are complete and
    the next one may be, as far as it got. *)
Definition killed (n k : nat) (chunk : string -> list string) (d : disk) (rs : list rule) : disk :=
  let ops := save_ops d (chunk (save_text rs)) in
  let d' := fold_left fs_step (firstn n ops) d in
  match skipn n ops with
  | [] => d'
  | o :: _ => fs_part k d' o
  end.

(** ** Edits *)

(** fileadapter.go:134-192: AddRule, RemoveRule, AddRules, RemoveRules load the
    file into a RuleSet (53-66: a policy.Policy), change it, and save it in the
    order in which the map is visited. *)
Definition edit (fault : nat -> option nat) (chunk : string -> list string) (ord : list rule -> list rule) (d : disk) (changes : list pop)
    : disk * option ferr :=
  let (rs, err) := load_file d in
  match err with
  | Some e => (d, Some e)
  | None =>
      let p := fst (pexec NewPolicy (map PAdd rs ++ changes)) in
      SavePolicy fault chunk d (ord (mvals p))
  end.
Definition AddRules fault chunk ord d (rs : list rule) := edit fault chunk ord d (map PAdd rs).
Definition RemoveRules fault chunk ord d (rs : list rule) := edit fault chunk ord d (map PRemove rs).
Definition AddRule fault chunk ord d (r : rule) := edit fault chunk ord d [PAdd r].
Definition RemoveRule fault chunk ord d (r : rule) := edit fault chunk ord d [PRemove r].
