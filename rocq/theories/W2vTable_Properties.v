(** The table of the logistic function and its logarithm (property C80). *)
From Coq Require Import Reals ZArith Lra Lia Bool.
From Verif Require Import W2vGrad_Spec W2vGrad_Properties W2vTable_Model.
Local Open Scope R_scope.

Lemma factor_value : forall d, factor d = if d then 83 else 250 / 3.
Proof. intros [|]; unfold factor, table_size, max_exp; [reflexivity | lra]. Qed.
Lemma exp_table_sigma : forall k, exp_table k = sigma (table_arg k).
Proof. intros k. unfold exp_table, sigma. rewrite exp_Ropp. pose proof (exp_pos (table_arg k)). field. lra. Qed.
Lemma index_floor : forall (d : bool) f, IZR (table_index d f) <= (f + 6) * factor d < IZR (table_index d f) + 1.
Proof. intros d f. unfold table_index, max_exp. destruct (base_Int_part ((f + 6) * factor d)). lra. Qed.
(** Every score that is not left out has a place in the table. *)
Theorem table_index_range : forall (d : bool) f, -6 < f < 6 -> (0 <= table_index d f < 1000)%Z.
Proof.
  intros d f H. pose proof (index_floor d f) as K. rewrite factor_value in K. split.
  - enough (-1 < table_index d f)%Z by lia. apply lt_IZR. destruct d; lra.
  - apply lt_IZR. destruct d; lra.
Qed.
(** The argument the table has at that place is not more than [f] and not much less. *)
Lemma table_arg_near : forall (d : bool) f, -6 < f < 6 -> f - (if d then 6 / 100 else 12 / 1000) <= table_arg (table_index d f) <= f.
Proof.
  intros d f H. pose proof (index_floor d f) as K. rewrite factor_value in K. unfold table_arg, table_size, max_exp. destruct d; lra.
Qed.
Lemma sigma_mvt : forall a b, a < b -> exists c, sigma b - sigma a = sigma c * (1 - sigma c) * (b - a) /\ a < c < b.
Proof. intros a b H. apply (MVT_cor2 sigma (fun c => sigma c * (1 - sigma c)) a b H). intros c _. apply sigma_slope. Qed.
Lemma sigma_lipschitz : forall a b, a <= b -> 0 <= sigma b - sigma a <= (b - a) / 4.
Proof.
  intros a b [H | ->]; [|lra]. destruct (sigma_mvt a b H) as (c & E & _). rewrite E. pose proof (sigma_pos c) as P. pose proof (Rle_0_sqr (sigma c - 1 / 2)) as Q. unfold Rsqr in Q.
  assert (A : 0 <= sigma c * (1 - sigma c) <= / 4) by (split; nra). set (m := sigma c * (1 - sigma c)) in *. split; nra.
Qed.
Lemma lnsigma_lipschitz : forall a b, a <= b -> 0 <= ln (sigma b) - ln (sigma a) <= b - a.
Proof.
  intros a b [H | ->]; [|lra]. destruct (MVT_cor2 (logp true) (fun c => 1 - sigma c) a b H) as (c & E & _); [intros c _; apply (logp_slope true)|].
  unfold logp in E. rewrite E. pose proof (sigma_pos c) as P. nra.
Qed.
(** The table never gives more than the logistic function and at most 0.015 (0.003) less; its logarithm at most 0.06 (0.012)
    less.  So the error [label - f] of an output has the right sign. *)
Theorem table_error : forall (d : bool) f, -6 < f < 6 ->
  0 <= sigma f - exp_table (table_index d f) <= (if d then 15 / 1000 else 3 / 1000) /\
  0 <= ln (sigma f) - log_table (table_index d f) <= (if d then 6 / 100 else 12 / 1000).
Proof.
  intros d f H. destruct (table_arg_near d f H) as [A B]. unfold log_table. rewrite exp_table_sigma.
  pose proof (sigma_lipschitz _ _ B). pose proof (lnsigma_lipschitz _ _ B). destruct d; lra.
Qed.
Theorem table_sign : forall (d : bool) f, 0 < exp_table (table_index d f) < 1 /\
  (forall alpha, 0 < alpha -> 0 < (1 - exp_table (table_index d f)) * alpha /\ (0 - exp_table (table_index d f)) * alpha < 0).
Proof.
  intros d f. rewrite exp_table_sigma. pose proof (sigma_pos (table_arg (table_index d f))). split; [assumption|]. intros alpha P. split; nra.
Qed.
Print Assumptions table_index_range.
Print Assumptions table_error.
Print Assumptions table_sign.

Lemma int_part_eq : forall z r, IZR z <= r < IZR z + 1 -> Int_part r = z.
Proof. intros z r H. destruct (base_Int_part r). enough (z <= Int_part r < z + 1 /\ Int_part r < z + 1)%Z by lia. repeat split; try apply Zlt_succ_le; try apply lt_IZR; unfold Z.succ; rewrite ?plus_IZR; lra. Qed.
Example table_ex : table_index true 0 = 498%Z /\ table_index false 0 = 500%Z /\ exp_table 500 = 1 / 2 /\ exp_table (table_index true 0) <> sigma 0.
Proof.
  assert (A : table_index true 0 = 498%Z) by (unfold table_index, max_exp; rewrite factor_value; apply int_part_eq; lra).
  split; [exact A|]. split; [unfold table_index, max_exp; rewrite factor_value; apply int_part_eq; lra|].
  split; [rewrite exp_table_sigma; unfold table_arg, table_size, max_exp; replace ((500 / 1000 * 2 - 1) * 6) with 0 by lra; apply sigma_0|].
  rewrite A, exp_table_sigma. unfold table_arg, table_size, max_exp. destruct (sigma_mvt ((498 / 1000 * 2 - 1) * 6) 0) as (c & E & _); [lra|]. pose proof (sigma_pos c). nra.
Qed.
(** With the integer division the last places of the table are never used, and the score 0 is not taken for 1/2. *)
Theorem table_unused_refuted : exists k : Z, (0 <= k < 1000)%Z /\ forall f, -6 < f < 6 -> table_index true f <> k.
Proof.
  exists 999%Z. split; [lia|]. intros f H E. pose proof (index_floor true f) as K. rewrite E, factor_value in K. lra.
Qed.
Print Assumptions table_unused_refuted.
