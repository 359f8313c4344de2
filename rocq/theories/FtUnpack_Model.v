(** Model of /repo/gensim/models/fasttext.py 1201-1283 (`_pad_random`, `_unpack`).

    Simplifications: a matrix is the list of its rows; the rows that are drawn (or filled) are given. *)
From Verif Require Import Base.

Fixpoint put {A} (l : list A) (n : nat) (x : A) : list A :=
  match l, n with [], _ => [] | _ :: l', 0 => x :: l' | y :: l', S n' => y :: put l' n' x end.
(** 1281: m[[h, i]] = m[[i, h]] *)
Definition swap_rows {A} (m : list A) (h i : nat) : result (list A) :=
  match nth_error m i, nth_error m h with Some a, Some b => Ok (put (put m h a) i b) | _, _ => Err IndexError end.
Fixpoint swap_all {A} (m : list A) (swap : list (nat * nat)) : result (list A) :=
  match swap with
  | [] => Ok m
  | (h, i) :: rest => if Nat.eqb h i then Err AssertionErr else let* m' := swap_rows m h i in swap_all m' rest
  end.
(** 1277-1278 *)
Definition swaps (orig_rows : nat) (hash2index : dict nat nat) : list (nat * nat) :=
  filter (fun hi => Nat.ltb (fst hi) (snd hi) && Nat.ltb (snd hi) orig_rows) hash2index ++ filter (fun hi => Nat.leb orig_rows (fst hi)) hash2index.
Definition unpack {A} (m : list A) (num_rows : nat) (hash2index : dict nat nat) (draw : nat -> list A) : result (list A) :=
  let orig_rows := length m in
  if Nat.eqb orig_rows num_rows then Ok m else
  if negb (Nat.ltb orig_rows num_rows) then Err AssertionErr else
  swap_all (m ++ draw (num_rows - orig_rows)%nat) (swaps orig_rows hash2index).
