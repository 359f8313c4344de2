(** Random projections (property C103). *)
From Coq Require Import Reals.
From Verif Require Import Base.
Local Open Scope R_scope.

Fixpoint total (l : list R) : R := match l with [] => 0 | x :: l' => x + total l' end.
Definition sq (x : R) : R := x * x.
(** All rows of n signs, all matrices of k rows *)
Fixpoint all_rows (n : nat) : list (list nat) := match n with O => [[]] | S n' => map (cons 0%nat) (all_rows n') ++ map (cons 1%nat) (all_rows n') end.
Fixpoint all_draws (k n : nat) : list (list (list nat)) := match k with O => [[]] | S k' => concat (map (fun r => map (cons r) (all_draws k' n)) (all_rows n)) end.
(** Documents: distinct ids below n *)
Definition document (n : nat) (d : list (Z * R)) : Prop := NoDup (map fst d) /\ Forall (fun iv => 0 <= fst iv < Z.of_nat n)%Z d.
Definition value (d : list (Z * R)) (j : nat) : R := total (map snd (filter (fun iv => (fst iv =? Z.of_nat j)%Z) d)).
Definition sign (b : nat) : R := match b with O => 1 | _ => - 1 end.
Definition inner (d e : list (Z * R)) (n : nat) : R := total (map (fun j => value d j * value e j) (seq 0 n)).
(** Coordinate of a document along a row of signs *)
Definition along (row : list nat) (k : nat) (d : list (Z * R)) : R := total (map (fun iv => sign (nth (Z.to_nat (fst iv)) row 0%nat) * snd iv) d) / sqrt (INR k).
