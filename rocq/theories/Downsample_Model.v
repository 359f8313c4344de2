(** Model of the downsampling of frequent words: /repo/gensim/models/word2vec.py 694-718 (in [prepare_vocab]) and
    /repo/gensim/models/word2vec_inner.pyx 548 (the decision for one word).  Over the mathematical reals; float rounding is
    not modelled.  The report values are sums over the words and left out except [downsample_unique]. *)

From Verif Require Import Base NegSampling_Model.
From Coq Require Import Reals.
Local Open Scope R_scope.

(** 694-704.  [int()] truncates; its argument is positive here, so it is the floor. *)
Definition threshold_count (sample : R) (retain_total : nat) : R :=
  if Req_EM_T sample 0 then INR retain_total
  else if Rlt_dec sample 1 then sample * INR retain_total
  else IZR (py_floor (sample * (3 + sqrt 5) / 2)).
(** 706-715: the probability before and after capping. *)
Definition word_probability (threshold : R) (v : nat) : R := (sqrt (INR v / threshold) + 1) * (threshold / INR v).
Definition capped (p : R) : R := if Rlt_dec p 1 then p else 1.
(** 717-718: conversion to uint32 truncates. *)
Definition sample_int (threshold : R) (v : nat) : Z := py_floor (capped (word_probability threshold v) * (2 ^ 32 - 1)).
Definition downsampled (threshold : R) (v : nat) : bool := if Rlt_dec (word_probability threshold v) 1 then true else false.
(** word2vec_inner.pyx 548: whether an occurrence is skipped for the random number [r]. *)
Definition skipped (si r : Z) : bool := (si <? r)%Z.
