(** Model of /repo/gensim/models/keyedvectors.py 1633-1691 (`intersect_word2vec_format`).

    Simplifications: of the keyed vectors only the string keys with their indexes, the rows and the lock factors are kept (get_index of a string is the dictionary's).  Files and scalars
    are those of W2vFormat_Model; a header with a negative number is a ValueError.  [None]: the call does not return (at the end of a binary file the loop reading a word goes on for ever).
    `self.wv` in the last line does not exist in KeyedVectors, so that a call that gets there raises AttributeError. *)
From Verif Require Import Base Str KeyedVectors_Model W2vFormat_Model.
Local Open Scope nat_scope.

Section Intersect.
Context {A L : Type}.
Variable F : sfmt A.
Record store : Type := Store { s_keys : dict pystr nat; s_vectors : list (list A); s_lockf : list L }.

(** 1677-1680, 1687-1690 *)
Definition merge_one (d : nat) (lockf : L) (st : store) (word : pystr) (weights : list A) : result unit * store :=
  match dget (s_keys st) word with
  | None => (Ok tt, st)
  | Some i =>
    if negb (i <? length (s_vectors st)) then (Err IndexError, st) else
    match shape d weights with
    | Err e => (Err e, st)
    | Ok v =>
      let st1 := Store (s_keys st) (set_nth (s_vectors st) i v) (s_lockf st) in
      if i <? length (s_lockf st) then (Ok tt, Store (s_keys st1) (s_vectors st1) (set_nth (s_lockf st) i lockf)) else (Err IndexError, st1)
    end
  end.
(** 1682-1690 *)
Fixpoint merge_text (d : nat) (lockf : L) (lines : list pystr) (st : store) : result unit * store :=
  match lines with
  | [] => (Ok tt, st)
  | line :: rest =>
    if negb (length (split_on chr_sp (rstrip is_bspace line)) =? d + 1) then (Err ValueError, st) else
    match line_to_vector F line with
    | Err e => (Err e, st)
    | Ok (word, weights) =>
      match merge_one d lockf st word weights with
      | (Ok _, st') => merge_text d lockf rest st'
      | (Err e, st') => (Err e, st')
      end
    end
  end.
(** 1668-1674: the bytes of a word and what follows it; None at the end of the file *)
Fixpoint read_word (bs : list N) : option (list N * list N) :=
  match bs with
  | [] => None
  | b :: r => if (b =? chr_sp)%N then Some ([], r) else match read_word r with None => None | Some (w, r') => Some (if (b =? chr_nl)%N then w else b :: w, r') end
  end.
(** 1676: what is left of the file may be too short *)
Definition read_weights (d : nat) (bs : list N) : result (list A) :=
  let got := firstn (4 * d) bs in
  if length got mod 4 =? 0 then Ok (unpack F (length got / 4) got) else Err ValueError.
(** 1666-1680 *)
Fixpoint merge_binary (d : nat) (lockf : L) (n : nat) (bs : list N) (st : store) : option (result unit * store) :=
  match n with
  | 0 => Some (Ok tt, st)
  | S n' =>
    match read_word bs with
    | None => None
    | Some (w, r) =>
      match utf8_decode w with
      | None => Some (Err UnicodeErr, st)
      | Some word =>
        match read_weights d r with
        | Err e => Some (Err e, st)
        | Ok weights =>
          match merge_one d lockf st word weights with
          | (Ok _, st') => merge_binary d lockf n' (skipn (4 * d) r) st'
          | (Err e, st') => Some (Err e, st')
          end
        end
      end
    end
  end.
(** 1659-1691; [d]: the size of the vectors of the model *)
Definition last_line (r : result unit * store) : result unit * store := match r with (Ok _, st) => (Err AttributeErr, st) | r => r end.
Definition intersect_text (d : nat) (lockf : L) (file : pystr) (st : store) : option (result unit * store) :=
  let '(line, body) := readline file in
  Some (match parse_header line with
        | Err e => (Err e, st)
        | Ok (_, d') => if negb (d' =? d) then (Err ValueError, st) else last_line (merge_text d lockf (file_lines body) st)
        end).
Definition intersect_binary (d : nat) (lockf : L) (file : list N) (st : store) : option (result unit * store) :=
  let '(line, body) := readline file in
  match utf8_decode line with
  | None => Some (Err UnicodeErr, st)
  | Some line' =>
    match parse_header line' with
    | Err e => Some (Err e, st)
    | Ok (n, d') => if negb (d' =? d) then Some (Err ValueError, st) else option_map last_line (merge_binary d lockf n body st)
    end
  end.
End Intersect.
Arguments store : clear implicits.
