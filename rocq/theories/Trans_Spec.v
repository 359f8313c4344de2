(** What translation by a linear map should be. *)
From Coq Require Import Reals Permutation.
From Verif Require Import Base Str LdaTrain_Model SoftCosine_Model.
Local Open Scope R_scope.

Definition dot (d : nat) (x y : nat -> R) : R := sumn d (fun i => x i * y i).
Definition len (d : nat) (x : nat -> R) : R := sqrt (dot d x x).
Definition hat (d : nat) (x : nat -> R) : nat -> R := fun i => x i / len d x.
Definition cosine (d : nat) (x y : nat -> R) : R := dot d x y / (len d x * len d y).
(** [x W] *)
Definition image (d1 : nat) (W : mat) (x : nat -> R) : nat -> R := fun j => sumn d1 (fun i => x i * W i j).
(** How well the target vector [y] fits the source vector [x] *)
Definition score (d1 d2 : nat) (W : mat) (x y : nat -> R) : R := dot d2 (hat d2 y) (image d1 W (hat d1 x)).

(** What the libraries promise: an order of a set, a sorting permutation, a least squares solution *)
Definition set_order (order : list pystr -> list pystr) : Prop := forall l, NoDup (order l) /\ forall x, In x (order l) <-> In x l.
Definition sorts (argsort : list R -> list nat) : Prop := forall l,
  Permutation (argsort l) (seq 0 (length l)) /\ forall i j, (i < j < length l)%nat -> nth (nth i (argsort l) 0%nat) l 0 <= nth (nth j (argsort l) 0%nat) l 0.
Definition misfit (d1 d2 : nat) (W : mat) (xy : (nat -> R) * (nat -> R)) : R := let e := fun j => image d1 W (fst xy) j - snd xy j in dot d2 e e.
Definition total_misfit (d1 d2 : nat) (m1 m2 : list (nat -> R)) (W : mat) : R := fold_right Rplus 0 (map (misfit d1 d2 W) (combine m1 m2)).
Definition least_misfit (d1 d2 : nat) (m1 m2 : list (nat -> R)) (W : mat) : Prop := forall W', total_misfit d1 d2 m1 m2 W <= total_misfit d1 d2 m1 m2 W'.
(** [ws]: the [n] best of the [words], the best first *)
Definition best_first (f : pystr -> R) (words : list pystr) (n : nat) (ws : list pystr) : Prop :=
  length ws = n /\ NoDup ws /\ incl ws words /\ (forall i j, (i < j < n)%nat -> f (nth j ws []) <= f (nth i ws [])) /\ (forall w w', In w ws -> In w' words -> ~ In w' ws -> f w' <= f w).
(** The vector of a word *)
Definition vector (kv : list (pystr * (nat -> R))) (w : pystr) : nat -> R := match find (fun p => eqb (fst p) w) kv with Some p => snd p | None => fun _ => 0 end.
(** How many of the [words] have a larger value, how many have not a smaller one *)
Definition larger (f : pystr -> R) (words : list pystr) (w : pystr) : nat := length (filter (fun x => if Rlt_dec (f w) (f x) then true else false) words).
Definition not_smaller (f : pystr -> R) (words : list pystr) (w : pystr) : nat := length (filter (fun x => if Rlt_dec (f x) (f w) then false else true) words).
