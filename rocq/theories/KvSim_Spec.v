(** Cosines of vectors and what queries by cosine must give. *)
From Coq Require Import Reals.
From Verif Require Import Base Str KvSim_Model Lsi_Spec.
Local Open Scope R_scope.

(** One row per key. *)
Definition one_row_each (m : kvs) : Prop :=
  NoDup (ks_keys m) /\ length (ks_rows m) = length (ks_keys m) /\
  forall k i, dget (ks_index m) k = Some i <-> nth_error (ks_keys m) i = Some k.
Definition row_of (m : kvs) (k : pystr) (v : nat -> R) : Prop :=
  exists i, nth_error (ks_keys m) i = Some k /\ nth_error (ks_rows m) i = Some v.

Section Dim.
Variable d : nat.
Definition zero_vec (v : nat -> R) : Prop := forall i, (i < d)%nat -> v i = 0.
Definition cosine (x y : nat -> R) : R := dotv d x y / (sqrt (dotv d x x) * sqrt (dotv d y y)).
Definition same_direction (x y : nat -> R) : Prop := exists c, 0 < c /\ forall i, (i < d)%nat -> y i = c * x i.
(** The weighted sum of some vectors, each made as long as the others. *)
Definition direction_sum (vs : list ((nat -> R) * R)) : nat -> R :=
  fun i => fold_right Rplus 0 (map (fun vw => snd vw * (fst vw i / sqrt (dotv d (fst vw) (fst vw)))) vs).
Definition plain_sum (vs : list (nat -> R)) : nat -> R := fun i => fold_right Rplus 0 (map (fun v => v i) vs).
End Dim.
