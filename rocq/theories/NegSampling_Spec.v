(** What a cumulative table should be. *)

From Verif Require Import Base.
From Coq Require Import Reals.
Local Open Scope Z_scope.

Definition nondecreasing (t : list Z) : Prop := forall i j x y, (i <= j)%nat -> nth_error t i = Some x -> nth_error t j = Some y -> x <= y.
(** The first index whose entry is at least [x] (the length if there is none). *)
Definition insertion_point (t : list Z) (x : Z) (i : nat) : Prop :=
  (i <= length t)%nat /\ (forall j y, (j < i)%nat -> nth_error t j = Some y -> y < x) /\ (forall j y, (i <= j)%nat -> nth_error t j = Some y -> x <= y).
(** The numbers below [n]. *)
Definition below (n : Z) : list Z := map Z.of_nat (seq 0 (Z.to_nat n)).
(** Entry [i] minus the entry before it. *)
Definition increment (t : list Z) (i : nat) : Z := nth i t 0 - match i with O => 0 | S j => nth j t 0 end.
(** What IEEE 754 guarantees of rounding to double precision, as far as it is needed here. *)
Definition rounding (rnd : R -> R) (domain : Z) : Prop :=
  (forall x y, (x <= y)%R -> (rnd x <= rnd y)%R) /\ (forall x, rnd (rnd x) = rnd x) /\ rnd 0%R = 0%R /\ rnd 1%R = 1%R /\ rnd (IZR domain) = IZR domain.
(** The [n]-th iterate. *)
Fixpoint iterate {A} (f : A -> A) (n : nat) (x : A) : A := match n with O => x | S m => f (iterate f m x) end.
