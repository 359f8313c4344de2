(** What a factorization is judged by. *)
From Coq Require Import Reals.
From Verif Require Import Base LdaTrain_Model.
Local Open Scope R_scope.

(** How far the topics, with weights [h], are from the document [v]. *)
Definition sqerr (m K : nat) (W : nat -> nat -> R) (v h : nat -> R) : R := sumn m (fun i => (v i - sumn K (fun k => W i k * h k)) ^ 2).
Definition nonneg (K : nat) (h : nat -> R) : Prop := forall k, (k < K)%nat -> 0 <= h k.
(** No other weights are nearer to the document. *)
Definition best_fit (m K : nat) (W : nat -> nat -> R) (v h : nat -> R) : Prop :=
  nonneg K h /\ forall x, nonneg K x -> sqerr m K W v h <= sqerr m K W v x.
Definition empty_topic (m : nat) (W : nat -> nat -> R) (k : nat) : Prop := forall i, (i < m)%nat -> W i k = 0.
(** What W may be: no weight below zero, no topic longer than 1. *)
Definition feasible (m K : nat) (W : nat -> nat -> R) : Prop :=
  (forall i k, (i < m)%nat -> (k < K)%nat -> 0 <= W i k) /\ (forall k, (k < K)%nat -> sumn m (fun i => W i k ^ 2) <= 1).
Definition symmetric_in (K : nat) (A : nat -> nat -> R) : Prop := forall k l, (k < K)%nat -> (l < K)%nat -> A k l = A l k.
