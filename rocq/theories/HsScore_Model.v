(** Model of [Word2Vec.score] for one sentence: /repo/gensim/models/word2vec_inner.pyx 689-794 ([score_sentence_sg],
    [score_pair_sg_hs]), 796-906 ([score_sentence_cbow], [score_pair_cbow_hs]).

    Simplifications: real numbers with the exact logistic function (its table is in W2vTable_Model).  A sentence is the rows of
    its known words, at most 10000; [paths] gives the points and codes of a word.  The local variable [inv_count] of
    [score_pair_cbow_hs] is not set when there are no other words: [unset] is its value then. *)
From Coq Require Import Reals.
From Verif Require Import Base KeyedVectors_Model TrainJobs_Model W2vStep_Model W2vGrad_Spec W2vGrad_Properties.
Local Open Scope R_scope.

(** 787-794 and 898-906: [sgn] is 1 for the code 0 and -1 for 1. *)
Definition score_output (h : list R) (W : list (list R)) (work : R) (pc : nat * bool) : R :=
  let f := dot 0 Rplus Rmult h (row W (fst pc)) in
  let f := (if snd pc then -1 else 1) * f in
  if rskip f then work else work + ln (sigma f).
Definition score_pair (h : list R) (W : list (list R)) (path : list (nat * bool)) (work : R) : R := fold_left (score_output h W) path work.

(** 760-774 and 855-866: the words around position [i] whose path is not empty. *)
Definition around (paths : nat -> list (nat * bool)) (window : nat) (sentence : list nat) (i : nat) : list nat :=
  filter (fun w => negb (length (paths w) =? 0)%nat) (map (fun j => nth j sentence 0%nat) (window_of window (fun _ => 0%nat) 0 (length sentence) i)).

Definition score_sentence_sg (X W : list (list R)) (paths : nat -> list (nat * bool)) (window : nat) (sentence : list nat) : R :=
  fold_left (fun work i =>
    let path := paths (nth i sentence 0%nat) in
    if (length path =? 0)%nat then work
    else fold_left (fun work w => score_pair (row X w) W path work) (around paths window sentence i) work) (seq 0 (length sentence)) 0.

(** 885-897 *)
Definition score_input (unset : R) (cbow_mean : bool) (size : nat) (X : list (list R)) (ws : list nat) : list R :=
  let neu1 := sum_rows 1 Rplus Rmult X ws (repeat 0 size) in
  if cbow_mean then sscal Rmult (if (length ws =? 0)%nat then unset else / INR (length ws)) neu1 else neu1.
Definition score_sentence_cbow (unset : R) (cbow_mean : bool) (size : nat) (X W : list (list R)) (paths : nat -> list (nat * bool)) (window : nat) (sentence : list nat) : R :=
  fold_left (fun work i =>
    let path := paths (nth i sentence 0%nat) in
    if (length path =? 0)%nat then work
    else score_pair (score_input unset cbow_mean size X (around paths window sentence i)) W path work) (seq 0 (length sentence)) 0.
