(** The soft cosine measure. *)
From Verif Require Import Base SoftCosine_Model.
From Coq Require Import Reals.
Local Open Scope R_scope.

Definition sum (n : nat) (f : nat -> R) : R := rsum (seq 0 n) f.
(** x^T M y, x^T x *)
Definition product (n : nat) (M : mat) (x y : nat -> R) : R := sum n (fun i => sum n (fun j => x i * M i j * y j)).
Definition length2 (n : nat) (x : nat -> R) : R := sum n (fun i => x i * x i).
Definition mat_symmetric (n : nat) (M : mat) : Prop := forall i j, (i < n)%nat -> (j < n)%nat -> M i j = M j i.
Definition mat_positive (n : nat) (M : mat) : Prop := forall x, (exists i, (i < n)%nat /\ x i <> 0) -> 0 < product n M x x.
(** A bag of words: at least one index, each once, in range, no zero weights. *)
Definition proper (n : nat) (X : vec) : Prop := X <> [] /\ NoDup (map fst X) /\ forall i w, In (i, w) X -> (i < n)%nat /\ w <> 0.
(** The factor by which normalisation divides. *)
Definition scale (n : nat) (M : mat) (nz : norm) (x : nat -> R) : R :=
  match nz with NFalse => 1 | NTrue => sqrt (product n M x x) | NMaintain => sqrt (product n M x x / length2 n x) end.
Definition soft (n : nat) (M : mat) (nx ny : norm) (x y : nat -> R) : R := product n M x y / (scale n M nx x * scale n M ny y).
Definition weight (X : vec) (i : nat) : R := dget_or X i 0.
