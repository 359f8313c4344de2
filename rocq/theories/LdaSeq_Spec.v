(** What the dynamic topic model should compute, without the model's functions. *)
From Coq Require Import Reals.
From Verif Require Import Base LdaTrain_Model SoftCosine_Model.
Local Open Scope R_scope.

(** The Gaussian chain b_0, ..., b_T: b_0 with variance 1000 q, steps with variance q, and observations of b_1, ..., b_T with variance r.  Minus
    the logarithm of its density, without constants: *)
Definition energy (T : nat) (r q : R) (obs b : nat -> R) : R :=
  b 0%nat ^ 2 / (2 * (1000 * q)) + sumn T (fun t => (b (t + 1)%nat - b t) ^ 2 / (2 * q) + (obs t - b (t + 1)%nat) ^ 2 / (2 * r)).
(** [m] and [v] are the means and the variances of b_0, ..., b_T given the observations: with b_t = x the least energy is
    the least energy of all plus (x - m_t)^2 / (2 v_t). *)
Definition marginals (T : nat) (r q : R) (obs m v : nat -> R) : Prop := forall t, (t <= T)%nat ->
  0 < v t /\
  (forall b, energy T r q obs m + (b t - m t) ^ 2 / (2 * v t) <= energy T r q obs b) /\
  (forall x, exists b, b t = x /\ energy T r q obs b = energy T r q obs m + (x - m t) ^ 2 / (2 * v t)).

(** [f] has, when only the variable [i] of its argument moves, the derivative [d] at [x]. *)
Definition partial_at (f : (nat -> R) -> R) (x : nat -> R) (i : nat) (d : R) : Prop :=
  derivable_pt_lim (fun y => f (fun j => if (j =? i)%nat then y else x j)) (x i) d.

(** The bound of a chain: the terms of all words in all slices. *)
Definition full_bound (W T : nat) (q : R) (mean var : mat) (zeta : nat -> R) (sstats : mat) (totals : nat -> R) : R :=
  sumn W (fun w => var w 0%nat - var w T) / 2 * q +
  sumn T (fun t => sumn W (fun w => sstats w t * mean w (t + 1)%nat) - totals t * ln (zeta t) +
    sumn W (fun w => ln (var w (t + 1)%nat) / 2) -
    sumn W (fun w => (mean w (t + 1)%nat - mean w t) ^ 2 / (2 * q) - var w (t + 1)%nat / q - ln q)).

(** A distribution over [n] things *)
Definition distribution (n : nat) (p : nat -> R) : Prop := (forall i, (i < n)%nat -> 0 < p i) /\ sumn n p = 1.

(** The slice of the document with number [d], when the sizes of the slices are [ts] *)
Fixpoint slice_of (ts : list nat) (d : nat) : nat :=
  match ts with [] => 0%nat | n :: ts' => if (d <? n)%nat then 0%nat else S (slice_of ts' (d - n)) end.
(** How often the word is in the document *)
Definition count_in (w : nat) (d : doc) : R := fold_right (fun wc s => (if (fst wc =? w)%nat then snd wc else 0) + s) 0 d.
