(** What log-entropy weights are (property C102). *)
From Coq Require Import Reals.
From Verif Require Import Base.
Local Open Scope R_scope.

Fixpoint total (l : list R) : R := match l with [] => 0 | x :: l' => x + total l' end.
(** Each document counts a term at most once, and the counts are positive. *)
Definition counts (d : list (Z * R)) : Prop := NoDup (map fst d) /\ Forall (fun iv => 0 < snd iv) d.
(** The counts of a term, one per document that contains it *)
Inductive counted (t : Z) : list (list (Z * R)) -> list R -> Prop :=
| c_nil : counted t [] []
| c_has : forall d ds f fs, In (t, f) d -> counted t ds fs -> counted t (d :: ds) (f :: fs)
| c_not : forall d ds fs, ~ In t (map fst d) -> counted t ds fs -> counted t (d :: ds) fs.
(** Entropy of the term over the documents *)
Definition entropy (fs : list R) : R := - total (map (fun f => f / total fs * ln (f / total fs)) fs).
Definition weight (ndocs : nat) (fs : list R) : R := 1 - entropy fs / ln (INR ndocs + 1).
