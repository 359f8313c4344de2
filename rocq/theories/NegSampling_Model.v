(** Model of the table for negative sampling and of drawing from it: /repo/gensim/models/word2vec.py 796-817 ([make_cum_table])
    and /repo/gensim/models/word2vec_inner.pyx 142-157 ([bisect_left], [random_int32]), 222 and 432 (the draw).

    The powers count**ns_exponent are arbitrary reals here.  Every float operation is the exact operation followed by an
    arbitrary rounding function [rnd]; the theorems assume of it only what IEEE 754 guarantees.  The entries are integers
    (the uint32 array holds them all, see the theorem on their range). *)

From Verif Require Import Base.
From Coq Require Import Reals.
Local Open Scope R_scope.

(** Python's [round]: to the nearest integer, ties to the even one. *)
Definition py_floor (x : R) : Z := (up x - 1)%Z.
Definition py_round (x : R) : Z :=
  let f := py_floor x in
  let d := x - IZR f in
  if Rlt_dec d (1/2) then f
  else if Rlt_dec (1/2) d then (f + 1)%Z
  else if Z.even f then f else (f + 1)%Z.

Section Table.
Variable rnd : R -> R.

(** 806-810 *)
Definition float_sum (ws : list R) : R := fold_left (fun c w => rnd (c + w)) ws 0.
(** 811-815 *)
Fixpoint cumulate (z domain c : R) (ws : list R) : list Z :=
  match ws with
  | [] => []
  | w :: r => let c' := rnd (c + w) in py_round (rnd (rnd (c' / z) * domain)) :: cumulate z domain c' r
  end.
(** 816-817.  With a total of zero the quotient is not a number and [round] raises a ValueError. *)
Definition make_cum_table (domain : Z) (ws : list R) : result (list Z) :=
  let z := float_sum ws in
  match ws with
  | [] => Ok []
  | _ => if Req_EM_T z 0 then Err ValueError
         else let t := cumulate z (IZR domain) 0 ws in
              if (last t 0 =? domain)%Z then Ok t else Err AssertionErr
  end.
End Table.

(** word2vec_inner.pyx 142-150.  The loop ends because [hi - lo] shrinks; reading past the end of the table is an error here. *)
Local Open Scope nat_scope.
Fixpoint bisect_loop (fuel : nat) (a : list Z) (x : Z) (lo hi : nat) : option nat :=
  if lo <? hi then
    match fuel with
    | O => None
    | S f => let mid := (lo + hi) / 2 in
             match nth_error a mid with
             | None => None
             | Some y => if (x <=? y)%Z then bisect_loop f a x lo mid else bisect_loop f a x (mid + 1) hi
             end
    end
  else Some lo.
Definition bisect_left (a : list Z) (x : Z) (lo hi : nat) : option nat := bisect_loop (hi - lo) a x lo hi.

(** 154-157 (unsigned 64-bit arithmetic; the mask keeps 48 bits). *)
Definition next_random (s : Z) : Z := ((s * 25214903917 + 11) mod 2 ^ 64) mod 2 ^ 48.
Definition random_int32 (s : Z) : Z * Z := (s / 2 ^ 16, next_random s)%Z.

(** 222: the remainder by zero is undefined behaviour, hence [None]. *)
Definition draw (t : list Z) (r : Z) : option nat :=
  let l := last t 0%Z in if (l =? 0)%Z then None else bisect_left t (r mod l) 0 (length t).
