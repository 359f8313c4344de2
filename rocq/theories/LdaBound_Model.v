(** Model of /repo/gensim/models/ldamodel.py 459-475 and 523-589 (priors), 806-833 (`log_perplexity`), 1065-1125 (`bound`), 1401-1508 (`diff`), with
    /repo/gensim/matutils.py 843-915 (`kullback_leibler`, `jensen_shannon` of dense arrays).

    Simplifications: as in LdaTrain_Model (real numbers, arrays are functions).  The digamma function [psi] and the logarithm [lgam] of the gamma function are
    parameters.  `diff` gets the distances of the topics and the sets of their words as functions; [order] is Python's order of a set. *)
From Coq Require Import Reals.
From Verif Require Import Base Str MatReal_Model LdaTrain_Model.
Local Open Scope R_scope.

(** ** Priors, 523-589 *)
Inductive prior_arg : Type := ANone | AStr (s : pystr) | AList (l : list R) | AMatrix (l : list (list R)) | AReal (r : R) | AOther.
Inductive array : Type := Arr1 (l : list R) | Arr2 (l : list (list R)).
Definition s_symmetric : pystr := [115;121;109;109;101;116;114;105;99]%N.
Definition s_asymmetric : pystr := [97;115;121;109;109;101;116;114;105;99]%N.
Definition s_auto : pystr := [97;117;116;111]%N.
Definition init_dir_prior (K shape : nat) (prior : prior_arg) : result (array * bool) :=
  let prior := match prior with ANone => AStr s_symmetric | p => p end in
  match prior with
  | AStr s =>
      if eqb s s_symmetric then Ok (Arr1 (map (fun _ => 1 / INR K) (seq 0 shape)), false)
      else if eqb s s_asymmetric then
        let l := map (fun i => 1 / (INR i + sqrt (INR shape))) (seq 0 shape) in Ok (Arr1 (map (fun x => x / Rsum l) l), false)
      else if eqb s s_auto then Ok (Arr1 (map (fun _ => 1 / INR K) (seq 0 shape)), true)
      else Err ValueError
  | AList l => Ok (Arr1 l, false)
  | AMatrix l => Ok (Arr2 l, false)
  | AReal r => Ok (Arr1 (map (fun _ => r) (seq 0 shape)), false)
  | _ => Err ValueError
  end.
(** 459-475 *)
Definition new_priors (K V : nat) (alpha eta : prior_arg) : result (list R * bool * (array * bool)) :=
  let* a := init_dir_prior K K alpha in
  match fst a with
  | Arr2 _ => Err AssertionErr
  | Arr1 al =>
      if negb (Nat.eqb (length al) K) then Err AssertionErr else
      if (match eta with AStr s => eqb s s_asymmetric | _ => false end) then Err ValueError else
      let* e := init_dir_prior K V eta in
      let ok := match fst e with Arr1 l => Nat.eqb (length l) V | Arr2 l => Nat.eqb (length l) K && forallb (fun r => Nat.eqb (length r) V) l end in
      if ok then Ok (al, snd a, e) else Err AssertionErr
  end.

(** ** The bound, 1065-1125 *)
Inductive prior : Type := PScalar (e : R) | PVector (e : nat -> R) | PMatrix (e : nat -> nat -> R).
Definition eta_at (eta : prior) (k w : nat) : R := match eta with PScalar e => e | PVector e => e w | PMatrix e => e k w end.
Section Bound.
Variables K V : nat.
Variables psi lgam : R -> R.
(** matutils.dirichlet_expectation *)
Definition dir_exp (n : nat) (v : nat -> R) (k : nat) : R := psi (v k) - psi (sumn n v).
Definition edirp (n : nat) (v : nat -> R) (k : nat) : R := exp (dir_exp n v k).
Definition logsumexp (n : nat) (f : nat -> R) : R := ln (sumn n (fun k => exp (f k))).
(** 1104-1110 *)
Definition doc_score (alpha : nat -> R) (elogbeta : nat -> nat -> R) (d : doc) (gamma : nat -> R) : R :=
  let elogtheta := dir_exp K gamma in
  Rsum (map (fun wc => snd wc * logsumexp K (fun k => elogtheta k + elogbeta k (fst wc))) d)
  + sumn K (fun k => (alpha k - gamma k) * elogtheta k)
  + sumn K (fun k => lgam (gamma k) - lgam (alpha k))
  + (lgam (sumn K alpha) - lgam (sumn K gamma)).
(** 1117-1123 *)
Definition sum_eta (eta : prior) : R := match eta with PScalar e => e * INR V | PVector e => sumn V e | PMatrix e => sumn K (fun k => sumn V (e k)) end.
Definition topic_score (eta : prior) (lam : nat -> nat -> R) : R :=
  sumn K (fun k => sumn V (fun w => (eta_at eta k w - lam k w) * dir_exp V (lam k) w))
  + sumn K (fun k => sumn V (fun w => lgam (lam k w) - lgam (eta_at eta k w)))
  + sumn K (fun k => lgam (sum_eta eta) - lgam (sumn V (lam k))).
Definition score_all (alpha : nat -> R) (eta : prior) (lam : nat -> nat -> R) (corpus : list doc) (gammas : list (nat -> R)) (ratio : R) : R :=
  Rsum (map (fun dg => doc_score alpha (fun k => dir_exp V (lam k)) (fst dg) (snd dg)) (combine corpus gammas)) * ratio + topic_score eta lam.
Definition bound (alpha : nat -> R) (eta : prior) (lam : nat -> nat -> R) (corpus : list doc) (gammas : list (nat -> R)) (ratio : R) : result R :=
  if (length gammas <? length corpus)%nat then Err IndexError else
  if forallb (in_vocab V) corpus then Ok (score_all alpha eta lam corpus gammas ratio) else Err IndexError.
(** 1097: without [gamma] each document is inferred by itself *)
Variable eps : R.
Variable draw : nat -> nat -> R.
Definition infer_each (m : lda) (corpus : list doc) : result (list (nat -> R)) :=
  rmapM (fun id => let* gs := inference K V eps edirp draw (model_params m) (m_draws m + fst id)%nat [snd id] in match fst gs with g :: _ => Ok g | [] => Err IndexError end)
    (combine (seq 0 (length corpus)) corpus).
Definition bound_inferred (m : lda) (eta : prior) (corpus : list doc) (ratio : R) : result R :=
  let* gammas := infer_each m corpus in bound (m_alpha m) eta (lambda (m_state_eta m) (m_state m)) corpus gammas ratio.
(** 823-833 *)
Definition corpus_words (chunk : list doc) : R := Rsum (map (fun d => Rsum (map snd d)) chunk).
Definition log_perplexity (m : lda) (eta : prior) (chunk : list doc) (total_docs : option nat) : result R :=
  let total := match total_docs with Some t => t | None => length chunk end in
  if Nat.eqb (length chunk) 0 then Err ZeroDivErr else
  let ratio := 1 * INR total / INR (length chunk) in
  let* b := bound_inferred m eta chunk ratio in
  Ok (b / (ratio * corpus_words chunk)).
Definition perplexity (perwordbound : R) : R := Rpower 2 (- perwordbound).
End Bound.

(** ** Differences of topics *)
(** scipy's entropy of arrays that sum to one, `kullback_leibler` 887-888, `jensen_shannon` 913-915 *)
Definition kullback (n : nat) (p q : nat -> R) : R := sumn n (fun i => p i * ln (p i / q i)).
Definition jensen (n : nat) (p q : nat -> R) : R := let a := fun i => (1 / 2) * (p i + q i) in (1 / 2) * (kullback n p a + kullback n q a).
Fixpoint max_of (x : R) (l : list R) : R := match l with [] => x | y :: l' => max_of (Rmax x y) l' end.
(** diff, 1448-1508: the cells with their values *)
Definition cells (t1 t2 : nat) (diagonal : bool) : list (nat * nat) := if diagonal then map (fun i => (i, i)) (seq 0 t1) else flat_map (fun i => map (fun j => (i, j)) (seq 0 t2)) (seq 0 t1).
Definition normalise (z : list ((nat * nat) * R)) : list ((nat * nat) * R) :=
  match map snd z with
  | [] => z
  | x :: l => let top := max_of x l in if Rlt_dec (1 / 100000000) (Rabs top) then map (fun c => (fst c, snd c / top)) z else z
  end.
Definition diff (known_distance same_class : bool) (t1 t2 : nat) (dist : nat -> nat -> R) (diagonal normed : bool) : result (list ((nat * nat) * R)) :=
  if negb known_distance then Err ValueError else
  if negb same_class then Err AttributeErr else
  if diagonal && negb (Nat.eqb t1 t2) then Err AssertionErr else
  let z := map (fun c => (c, dist (fst c) (snd c))) (cells t1 t2 diagonal) in
  Ok (if normed then normalise z else z).
(** 1489-1496 *)
Definition annotate (order : list pystr -> list pystr) (a b : list pystr) (n : nat) : list pystr * list pystr :=
  let pos := order (filter (fun w => memb w b) a) in
  let neg := order (filter (fun w => negb (memb w b)) a ++ filter (fun w => negb (memb w a)) b) in
  (firstn (min (length pos) n) pos, firstn (min (length neg) n) neg).
