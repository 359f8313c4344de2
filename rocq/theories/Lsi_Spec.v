(** What latent semantic indexing is, independently of how it is computed: eigenvectors of the term covariance. *)
From Coq Require Import Reals.
From Verif Require Import Base LdaTrain_Model.
Local Open Scope R_scope.

Definition dotv (m : nat) (x y : nat -> R) : R := sumn m (fun i => x i * y i).
(** [T x] and [x^T T x] *)
Definition apply (m : nat) (T : nat -> nat -> R) (x : nat -> R) : nat -> R := fun i => sumn m (fun j => T i j * x j).
Definition quad (m : nat) (T : nat -> nat -> R) (x : nat -> R) : R := dotv m x (apply m T x).
Definition trace (m : nat) (T : nat -> nat -> R) : R := sumn m (fun i => T i i).
(** how strongly terms [i] and [j] go together in a list of documents *)
Definition cov (docs : list (nat -> R)) : nat -> nat -> R := fun i j => fold_right Rplus 0 (map (fun d => d i * d j) docs).
(** [u diag(s)^2 u^T] *)
Definition gram (n : nat) (u : nat -> nat -> R) (s : nat -> R) : nat -> nat -> R := fun i j => sumn n (fun a => s a ^ 2 * (u i a * u j a)).
(** the columns of [u] are [n] unit vectors, perpendicular to one another *)
Definition orthonormal_cols (m n : nat) (u : nat -> nat -> R) : Prop :=
  forall a b, (a < n)%nat -> (b < n)%nat -> dotv m (fun i => u i a) (fun i => u i b) = if (a =? b)%nat then 1 else 0.
(** the columns of [u] are eigenvectors of [T] with the eigenvalues [s ^ 2], in descending order, and nothing else that is perpendicular to them
    is stretched more than the last of them *)
Record top_eigen (m : nat) (T : nat -> nat -> R) (n : nat) (u : nat -> nat -> R) (s : nat -> R) : Prop := {
  te_orth : orthonormal_cols m n u;
  te_eigen : forall a i, (a < n)%nat -> (i < m)%nat -> apply m T (fun j => u j a) i = s a ^ 2 * u i a;
  te_desc : forall a b, (a <= b)%nat -> (b < n)%nat -> s b <= s a;
  te_pos : forall a, (a < n)%nat -> 0 < s a;
  te_rest : forall x, (forall a, (a < n)%nat -> dotv m x (fun i => u i a) = 0) ->
            forall a, (a < n)%nat -> quad m T x <= s a ^ 2 * dotv m x x;
}.
(** the least number of leading energies, at least one and at most [k], that leaves at most the fraction [thr] of the whole *)
Record least_leading (n : nat) (e : nat -> R) (k : nat) (thr : R) (j : nat) : Prop := {
  ll_pos : (1 <= j <= k)%nat;
  ll_len : (j <= n)%nat;
  ll_rest : (j < k)%nat -> sumn n e - sumn j e <= thr * sumn n e;
  ll_least : forall i, (1 <= i < j)%nat -> thr * sumn n e < sumn n e - sumn i e;
}.

(** what keeping the leading factors of [T] means: [n] of them, as few as leave at most the fraction [discard] (or 1 / k) of the
    energy, but at most [k]; what is left out is a sum of squares *)
Record kept (m : nat) (T : nat -> nat -> R) (k : nat) (discard : R) (n : nat) (u : nat -> nat -> R) (s : nat -> R) : Prop := {
  k_range : (1 <= n <= k)%nat;
  k_top : 0 < trace m T -> top_eigen m T n u s;
  k_loss : (n < k)%nat -> trace m T - trace m (gram n u s) <= Rmin discard (1 / INR k) * trace m T;
  k_least : 0 < trace m T -> forall i, (1 <= i < n)%nat -> Rmin discard (1 / INR k) * trace m T < trace m T - trace m (gram i u s);
  k_rest : exists N V, forall i j, (i < m)%nat -> (j < m)%nat -> T i j = gram n u s i j + sumn N (fun a => V i a * V j a);
}.

(** a document projected on the columns of [q] *)
Definition onto (m p : nat) (q : nat -> nat -> R) (d : nat -> R) : nat -> R := fun i => sumn p (fun a => sumn m (fun k => q k a * d k) * q i a).
(** [d] is a linear combination of the columns of [y] *)
Definition combines (m n : nat) (y : nat -> nat -> R) (d : nat -> R) : Prop := exists z : nat -> R, forall i, (i < m)%nat -> d i = sumn n (fun a => y i a * z a).
