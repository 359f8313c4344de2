(** Moving one distribution to another at the least cost. *)
From Coq Require Import Reals.
From Verif Require Import Base Str.
Local Open Scope R_scope.

Definition Sum {A} (W : list A) (f : A -> R) : R := fold_right Rplus 0 (map f W).
Definition is_glb (E : R -> Prop) (x : R) : Prop := (forall c, E c -> x <= c) /\ (forall y, (forall c, E c -> y <= c) -> y <= x).

(** [p] is a distribution over the points [W]. *)
Definition distribution {A} (W : list A) (p : A -> R) : Prop := (forall a, In a W -> 0 <= p a) /\ Sum W p = 1.
(** [T a b] is moved from [a] to [b]. *)
Definition plan {A} (W : list A) (p q : A -> R) (T : A -> A -> R) : Prop :=
  (forall a b, In a W -> In b W -> 0 <= T a b) /\
  (forall a, In a W -> Sum W (fun b => T a b) = p a) /\ (forall b, In b W -> Sum W (fun a => T a b) = q b).
Definition cost {A} (W : list A) (D T : A -> A -> R) : R := Sum W (fun a => Sum W (fun b => T a b * D a b)).
Definition least_cost {A} (W : list A) (p q : A -> R) (D : A -> A -> R) (x : R) : Prop :=
  is_glb (fun c => exists T, plan W p q T /\ c = cost W D T) x.

(** What is asked of a routine for the earth mover's distance of two distributions on [0 .. n-1]: the least cost, as long as the
    distances are not negative and leaving the mass common to the two in place costs nothing and does not hurt. *)
Definition emd_correct (emd : nat -> (nat -> R) -> (nat -> R) -> (nat -> nat -> R) -> R) : Prop :=
  forall n p q D, distribution (seq 0 n) p -> distribution (seq 0 n) q ->
    (forall i j, (i < n)%nat -> (j < n)%nat -> 0 <= D i j) ->
    (forall i, (i < n)%nat -> 0 < p i -> 0 < q i -> D i i = 0) ->
    (forall i j k, (i < n)%nat -> (j < n)%nat -> (k < n)%nat -> 0 < p i -> 0 < p j -> 0 < q j -> 0 < q k -> D i k <= D i j + D j k) ->
    least_cost (seq 0 n) p q D (emd n p q D).

(** The share of a word in a document. *)
Definition share (doc : list pystr) (w : pystr) : R := INR (count_occ eq_dec doc w) / INR (length doc).

(** How far apart two vectors are after each is made one long. *)
Definition norm_of (d : nat) (x : nat -> R) : R := sqrt (Sum (seq 0 d) (fun i => x i * x i)).
Definition chord (d : nat) (x y : nat -> R) : R := norm_of d (fun i => x i / norm_of d x - y i / norm_of d y).
(** The average of unit vectors of words, by the shares of the words. *)
Definition average (d : nat) (W : list pystr) (p : pystr -> R) (row : pystr -> nat -> R) : nat -> R :=
  fun i => Sum W (fun w => p w * (row w i / norm_of d (row w))).
