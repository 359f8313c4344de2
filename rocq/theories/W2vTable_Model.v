(** Model of the table of the logistic function: /repo/gensim/models/word2vec_inner.pyx 40-41 (sizes), 928-931 ([init]) and e.g. 117
    and 230 (look-up), also in doc2vec_inner.pyx 52 and fasttext_inner.pyx.

    Simplifications: real numbers.  [EXP_TABLE_SIZE / MAX_EXP / 2] divides compile-time integers: that is 83 if Cython
    reads the file as Python 2 (its default before version 3) and 250/3 otherwise; both are treated.  The conversion to [int]
    cuts off the fraction; its argument is not negative. *)
From Coq Require Import Reals ZArith.
Local Open Scope R_scope.

Definition table_size : R := 1000.
Definition max_exp : R := 6.
Definition table_arg (k : Z) : R := (IZR k / table_size * 2 - 1) * max_exp.
Definition exp_table (k : Z) : R := exp (table_arg k) / (exp (table_arg k) + 1).
Definition log_table (k : Z) : R := ln (exp_table k).
Definition factor (int_division : bool) : R := if int_division then IZR (1000 / 6 / 2)%Z else table_size / max_exp / 2.
Definition table_index (int_division : bool) (f : R) : Z := Int_part ((f + max_exp) * factor int_division).
