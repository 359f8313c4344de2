(** The variational lower bound of latent Dirichlet allocation. *)
From Coq Require Import Reals.
From Verif Require Import Base MatReal_Model LdaTrain_Model.
Local Open Scope R_scope.

Section Spec.
Variables psi lgam : R -> R.
(** The expectation of the logarithm of a Dirichlet variable *)
Definition elog (n : nat) (v : nat -> R) (k : nat) : R := psi (v k) - psi (sumn n v).
(** The expectation, under the Dirichlet distribution with parameter [g], of the logarithm of the density with parameter [a] *)
Definition elog_density (n : nat) (a g : nat -> R) : R := lgam (sumn n a) - sumn n (fun k => lgam (a k)) + sumn n (fun k => (a k - 1) * elog n g k).
(** E[log p(words, topics of words | theta, beta)] - E[log q(topics of words)] when the word [w] has topic [k] with probability [phi w k] *)
Definition words_part (K : nat) (gamma : nat -> R) (elogbeta : nat -> nat -> R) (phi : nat -> nat -> R) (d : doc) : R :=
  Rsum (map (fun wc => snd wc * sumn K (fun k => phi (fst wc) k * (elog K gamma k + elogbeta k (fst wc) - ln (phi (fst wc) k)))) d).
(** E[log p] - E[log q] for one document *)
Definition elbo (K : nat) (alpha gamma : nat -> R) (elogbeta : nat -> nat -> R) (phi : nat -> nat -> R) (d : doc) : R :=
  words_part K gamma elogbeta phi d + elog_density K alpha gamma - elog_density K gamma gamma.
(** E[log p(beta | eta)] - E[log q(beta | lambda)] *)
Definition topics_part (K V : nat) (eta lam : nat -> nat -> R) : R := sumn K (fun k => elog_density V (eta k) (lam k) - elog_density V (lam k) (lam k)).
(** The logarithm of the multivariate beta function lies above its tangents (it is convex, and [psi] is the derivative of [lgam]) *)
Definition log_beta (n : nat) (v : nat -> R) : R := sumn n (fun k => lgam (v k)) - lgam (sumn n v).
Definition above_tangents (n : nat) : Prop := forall a g, (forall k, (k < n)%nat -> 0 < a k) -> (forall k, (k < n)%nat -> 0 < g k) ->
  log_beta n g + sumn n (fun k => (a k - g k) * elog n g k) <= log_beta n a.
(** The bound of a document with [eps] added to the probability of each word, as inference does *)
Definition doc_bound (K : nat) (eps : R) (alpha : nat -> R) (elogbeta : nat -> nat -> R) (d : doc) (gamma : nat -> R) : R :=
  Rsum (map (fun wc => snd wc * ln (sumn K (fun k => exp (elog K gamma k + elogbeta k (fst wc))) + eps)) d) + elog_density K alpha gamma - elog_density K gamma gamma.
Definition corpus_bound (K V : nat) (eps : R) (alpha : nat -> R) (eta lam : nat -> nat -> R) (corpus : list doc) (gammas : list (nat -> R)) : R :=
  Rsum (map (fun dg => doc_bound K eps alpha (fun k => elog V (lam k)) (fst dg) (snd dg)) (combine corpus gammas)) + topics_part K V eta lam.
End Spec.
Definition positive (n : nat) (v : nat -> R) : Prop := forall k, (k < n)%nat -> 0 < v k.
Definition proper (V : nat) (d : doc) : Prop := NoDup (map fst d) /\ Forall (fun wc => (fst wc < V)%nat /\ 0 <= snd wc) d.
Definition distribution (n : nat) (p : nat -> R) : Prop := (forall k, (k < n)%nat -> 0 < p k) /\ sumn n p = 1.
