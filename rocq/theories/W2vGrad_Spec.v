(** What a training step of Word2Vec and Doc2Vec is to climb (properties C79, C80): the log-likelihood of the outputs under the
    logistic model, over the real numbers. *)
From Coq Require Import Reals.
From Verif Require Import Base.
Local Open Scope R_scope.

Definition sigma (x : R) : R := / (1 + exp (- x)).
(** The probability that an output with score [f] is right ([true]) or wrong, in logarithm. *)
Definition logp (b : bool) (f : R) : R := ln (if b then sigma f else 1 - sigma f).
Fixpoint inner (x y : list R) : R :=
  match x, y with
  | a :: x', b :: y' => a * b + inner x' y'
  | _, _ => 0
  end.
Fixpoint likelihood (score : nat -> R) (ts : list (nat * bool)) : R :=
  match ts with
  | [] => 0
  | (r, b) :: ts' => logp b (score r) + likelihood score ts'
  end.
Definition entry (v : list R) (j : nat) : R := nth j v 0.
(** Vectors and matrices with one coordinate replaced. *)
Fixpoint put {A} (l : list A) (j : nat) (t : A) : list A :=
  match l, j with
  | [], _ => []
  | _ :: l', O => t :: l'
  | a :: l', S j' => a :: put l' j' t
  end.
Definition slope (f : R -> R) (x d : R) : Prop := derivable_pt_lim f x d.
