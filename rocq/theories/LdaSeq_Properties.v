(** Properties of the dynamic topic model. *)
From Coq Require Import Reals Lra Psatz Lia.
From Verif Require Import Base MatReal_Model LdaTrain_Model LdaTrain_Proofs2 SoftCosine_Model Lsi_Linear LdaSeq_Model LdaSeq_Spec LdaSeq_Proofs LdaSeq_Proofs2 LdaSeq_Proofs3 LdaSeq_Proofs4 LdaSeq_Proofs5.
Local Open Scope R_scope.

(** ** Variances and means *)
(** C104: the smoothed means and variances of a word are the means and variances of the Gaussian chain given all observations. *)
Theorem smoother_marginals : forall T r q v0 f0 obs m0 fm0, 0 < r -> 0 < q ->
  let (v, f) := post_variance T r q v0 f0 in
  let (m, fm) := post_mean T r q f obs m0 fm0 in
  marginals T r q obs m v.
Proof.
  intros T r q v0 f0 obs m0 fm0 Hr Hq. unfold post_variance, post_mean. pose proof (fwd_variance_is T r q Hr f0) as F.
  eapply (marginals_ok T r q Hr Hq _ _ _ _ _ F); [now apply (bwd_variance_is T r q Hr Hq) | now apply fwd_mean_is | now apply (bwd_mean_is T r q Hr Hq)].
Qed.
Print Assumptions smoother_marginals.
(** There is only one such pair. *)
Theorem marginals_unique : forall T r q obs m v m' v', marginals T r q obs m v -> marginals T r q obs m' v' -> forall t, (t <= T)%nat -> m t = m' t /\ v t = v' t.
Proof.
  intros T r q obs m v m' v' A B t H. destruct (A t H) as [A1 [A2 A3]]. destruct (B t H) as [B1 [B2 B3]].
  assert (SQ : forall a c, 0 < c -> 0 <= a ^ 2 / (2 * c)).
  { intros a c Hc. apply Rmult_le_pos; [apply pow2_ge_0|]. apply Rlt_le, Rinv_0_lt_compat. lra. }
  assert (E : energy T r q obs m = energy T r q obs m').
  { pose proof (A2 m') as X. pose proof (B2 m) as Y. pose proof (SQ (m' t - m t) (v t) A1). pose proof (SQ (m t - m' t) (v' t) B1). lra. }
  assert (M : m t = m' t).
  { pose proof (A2 m') as X. pose proof (SQ (m' t - m t) (v t) A1) as Y. rewrite <- E in X. assert (Z0 : (m' t - m t) ^ 2 / (2 * v t) = 0) by lra.
    assert (Z1 : (m' t - m t) ^ 2 = 0). { apply (f_equal (fun x => x * (2 * v t))) in Z0. unfold Rdiv in Z0. rewrite Rmult_assoc, Rinv_l in Z0 by lra. lra. }
    nra. }
  split; [exact M|]. destruct (A3 (m t + 1)) as [b [Eb1 Eb2]]. destruct (B3 (m t + 1)) as [b' [Eb1' Eb2']].
  pose proof (B2 b) as X. pose proof (A2 b') as Y. rewrite Eb1, Eb2 in X. rewrite Eb1', Eb2' in Y. rewrite <- M in X, Y. rewrite E in *.
  replace (m t + 1 - m t) with 1 in * by ring.
  assert (I1 : / v' t <= / v t) by (apply Rmult_le_reg_l with (/ 2); [lra|]; rewrite <- !Rinv_mult; unfold Rdiv in *; lra).
  assert (I2 : / v t <= / v' t) by (apply Rmult_le_reg_l with (/ 2); [lra|]; rewrite <- !Rinv_mult; unfold Rdiv in *; lra).
  rewrite <- (Rinv_inv (v t)), <- (Rinv_inv (v' t)). f_equal. lra.
Qed.
Print Assumptions marginals_unique.
(** The forward values at t are those of the chain that ends at t. *)
Theorem forward_values : forall T r q v0 f0 obs m0 fm0 t, 0 < r -> 0 < q -> (t <= T)%nat ->
  let (_, f) := post_variance T r q v0 f0 in
  let (_, fm) := post_mean T r q f obs m0 fm0 in
  exists m v, marginals t r q obs m v /\ m t = fm t /\ v t = f t.
Proof.
  intros T r q v0 f0 obs m0 fm0 t Hr Hq Ht. unfold post_variance, post_mean. pose proof (fwd_variance_is T r q Hr f0) as [F1 F2]. set (f := fwd_variance T r q f0) in *.
  pose proof (fwd_mean_is T r q Hr Hq f obs fm0 (conj F1 F2)) as [M1 M2]. set (fm := fwd_mean T r q f obs fm0) in *.
  assert (F : is_fvar t r q f) by (split; [exact F1 | intros s Hs; apply F2; lia]). assert (M : is_fmean t r q f obs fm) by (split; [exact M1 | intros s Hs; apply M2; lia]).
  pose proof (bwd_variance_is t r q Hr Hq f v0 F) as V. pose proof (bwd_mean_is t r q Hr Hq f fm m0 F) as B.
  exists (bwd_mean t q f fm m0), (bwd_variance t q f v0). split; [exact (marginals_ok t r q Hr Hq f obs fm _ _ F V M B)|]. split; [apply B | apply V].
Qed.
Print Assumptions forward_values.
(** Later observations only make a value more certain. *)
Theorem smoothing_helps : forall T r q v0 f0, 0 < r -> 0 < q -> let (v, f) := post_variance T r q v0 f0 in
  (forall t, (t <= T)%nat -> 0 < v t <= f t) /\ (forall t, (t < T)%nat -> v t < f t /\ f (S t) < r /\ f (S t) < f t + q).
Proof.
  intros T r q v0 f0 Hr Hq. unfold post_variance. pose proof (fwd_variance_is T r q Hr f0) as F. set (f := fwd_variance T r q f0) in *.
  pose proof (bwd_variance_is T r q Hr Hq f v0 F) as V. pose proof (var_pos T r q Hr Hq f _ F V) as VP. pose proof (fvar_pos T r q Hr Hq f F) as P. split.
  - intros t H. apply (VP (T - t)%nat). lia.
  - intros t H. destruct (VP (T - t)%nat t ltac:(lia)) as [_ L]. split; [apply L; lia|]. pose proof (P t ltac:(lia)) as Pt. destruct F as [_ F]. rewrite (F t H).
    split; apply Rmult_lt_reg_r with (f t + q + r); try lra; unfold Rdiv; rewrite Rmult_assoc, Rinv_l by lra; nra.
Qed.
Print Assumptions smoothing_helps.
Example smoothing_example : let (v, f) := post_variance 1 1 1 (fun _ => 0) (fun _ => 0) in
  let (m, fm) := post_mean 1 1 1 f (fun _ => 1) (fun _ => 0) (fun _ => 0) in
  f 0%nat = 1000 /\ f 1%nat = 1001 / 1002 /\ v 0%nat = 2000 / 1002 /\ m 1%nat = 1001 / 1002 /\ m 0%nat = 1000 / 1002.
Proof.
  unfold post_variance, post_mean. pose proof (fwd_variance_is 1 1 1 Rlt_0_1 (fun _ => 0)) as F. set (f := fwd_variance 1 1 1 (fun _ => 0)) in *.
  destruct (bwd_variance_is 1 1 1 Rlt_0_1 Rlt_0_1 f (fun _ => 0) F) as [V1 V2]. destruct (fwd_mean_is 1 1 1 Rlt_0_1 Rlt_0_1 f (fun _ => 1) (fun _ => 0) F) as [M1 M2].
  destruct (bwd_mean_is 1 1 1 Rlt_0_1 Rlt_0_1 f (fwd_mean 1 1 1 f (fun _ => 1) (fun _ => 0)) (fun _ => 0) F) as [B1 B2]. destruct F as [F1 F2].
  assert (E0 : f 0%nat = 1000) by lra. assert (E1 : f 1%nat = 1001 / 1002) by (rewrite (F2 0%nat) by lia; rewrite E0; field).
  split; [exact E0|]. split; [exact E1|]. split; [rewrite (V2 0%nat), V1, E1, E0 by lia; field|].
  assert (EM : fwd_mean 1 1 1 f (fun _ => 1) (fun _ => 0) 1%nat = 1001 / 1002) by (rewrite (M2 0%nat) by lia; rewrite M1, E0; field).
  split; [rewrite B1; exact EM|]. rewrite (B2 0%nat), B1, EM, M1, E0 by lia. field.
Qed.

(** ** Derivatives *)
(** C105: a smoothed mean has, in the observation [i], the derivative that compute_mean_deriv computes from the forward variances. *)
Theorem mean_derivative : forall T r q v0 f0 m0 fm0 d0 x i t, 0 < r -> 0 < q -> (t <= T)%nat ->
  let (_, f) := post_variance T r q v0 f0 in
  partial_at (fun y => fst (post_mean T r q f y m0 fm0) t) x i (mean_deriv T r q f i d0 t).
Proof.
  intros T r q v0 f0 m0 fm0 d0 x i t Hr Hq Ht. unfold post_variance, partial_at. pose proof (fwd_variance_is T r q Hr f0) as F. set (f := fwd_variance T r q f0) in *.
  apply (dl_ext (fun y => fst (post_mean T r q f x m0 fm0) t + (y - x i) * mean_deriv T r q f i d0 t)); [|apply dl_lin].
  intros y. symmetry. exact (mean_affine T r q Hr Hq f x i y m0 fm0 m0 fm0 d0 F t Ht).
Qed.
Print Assumptions mean_derivative.
(** With these derivatives df_obs is the gradient of f_obs. *)
Theorem objective_gradient : forall s counts totals word x i v0 f0 mtx, 0 < s_r s -> 0 < s_q s -> s_fvar s word = snd (post_variance (s_T s) (s_r s) (s_q s) v0 f0) ->
  (forall j t, (j < s_T s)%nat -> (t <= s_T s)%nat -> mtx j t = mean_deriv (s_T s) (s_r s) (s_q s) (s_fvar s word) j (fun _ => 0) t) -> (i < s_T s)%nat ->
  partial_at (f_obs s counts totals word) x i (df_obs s counts totals mtx word x i).
Proof.
  intros s counts totals word x i v0 f0 mtx Hr Hq F HM Hi. apply f_obs_slope; try assumption. rewrite F. now apply fwd_variance_is.
Qed.
Print Assumptions objective_gradient.
(** But the code hands over the smoothed variances, for which the derivatives are too small: the gradient is wrong for every chain. *)
Theorem mean_deriv_too_small : forall T r q v0 f0, 0 < r -> 0 < q -> (0 < T)%nat -> let (v, f) := post_variance T r q v0 f0 in
  0 < mean_deriv T r q v (T - 1) (fun _ => 0) T < mean_deriv T r q f (T - 1) (fun _ => 0) T.
Proof.
  intros T r q v0 f0 Hr Hq HT. unfold post_variance. pose proof (fwd_variance_is T r q Hr f0) as F. set (f := fwd_variance T r q f0) in *.
  pose proof (bwd_variance_is T r q Hr Hq f v0 F) as V. set (v := bwd_variance T q f v0) in *. pose proof (var_pos T r q Hr Hq f v F V) as VP.
  rewrite (mean_deriv_last T r q Hr Hq f _ (fvar_pos T r q Hr Hq f F) HT).
  rewrite (mean_deriv_last T r q Hr Hq v); [| intros t H; destruct (VP (T - t)%nat t ltac:(lia)) as [A _]; lra | exact HT].
  destruct (VP 1%nat (T - 1)%nat ltac:(lia)) as [P L]. specialize (L ltac:(lia)). set (a := v (T - 1)%nat) in *. set (c := f (T - 1)%nat) in *. clearbody a c.
  assert (r / (a + q + r) < 1) by (apply Rmult_lt_reg_r with (a + q + r); [lra|]; unfold Rdiv; rewrite Rmult_assoc, Rinv_l by lra; lra).
  assert (r / (c + q + r) < r / (a + q + r)) by (unfold Rdiv; apply Rmult_lt_compat_l; [exact Hr|]; apply Rinv_lt_contravar; [apply Rmult_lt_0_compat|]; lra). lra.
Qed.
Print Assumptions mean_deriv_too_small.
Theorem gradient_always_wrong : forall s word v0 f0, 0 < s_r s -> 0 < s_q s -> (0 < s_T s)%nat -> (s_var s word, s_fvar s word) = post_variance (s_T s) (s_r s) (s_q s) v0 f0 ->
  exists counts totals x i, (i < s_T s)%nat /\ ~ partial_at (f_obs s counts totals word) x i (df_obs s counts totals (deriv_mtx s word) word x i).
Proof.
  intros s word v0 f0 Hr Hq HT E. exists (fun t => if (t =? s_T s - 1)%nat then 1 else 0), (fun _ => 0), (fun _ => 0), (s_T s - 1)%nat. split; [lia|]. intros N.
  assert (F : is_fvar (s_T s) (s_r s) (s_q s) (s_fvar s word)) by (apply (f_equal snd) in E; cbn in E; rewrite E; now apply fwd_variance_is).
  pose proof (f_obs_slope s (fun t => if (t =? s_T s - 1)%nat then 1 else 0) (fun _ => 0) word (fun _ => 0) (s_T s - 1) Hr Hq F
    (fun j => mean_deriv (s_T s) (s_r s) (s_q s) (s_fvar s word) j (fun _ => 0)) (fun j t _ _ => eq_refl) ltac:(lia)) as Y.
  pose proof (uniqueness_limite _ _ _ _ N Y) as U. rewrite !df_at_zero in U by assumption. unfold deriv_mtx in U.
  pose proof (mean_deriv_too_small (s_T s) (s_r s) (s_q s) v0 f0 Hr Hq HT) as X. rewrite <- E in X. lra.
Qed.
Print Assumptions gradient_always_wrong.
Theorem gradient_refuted : exists s counts totals word x i, 0 < s_r s /\ 0 < s_q s /\ (i < s_T s)%nat /\ (exists s0, s = all_variances s0) /\
  ~ partial_at (f_obs s counts totals word) x i (df_obs s counts totals (deriv_mtx s word) word x i).
Proof.
  set (s := all_variances (new_sslm 1 1 1 1)).
  destruct (gradient_always_wrong s 0%nat (fun _ => 0) (fun _ => 0)) as [counts [totals [x [i [Hi N]]]]]; [exact Rlt_0_1 | exact Rlt_0_1 | cbn; lia | reflexivity|].
  exists s, counts, totals, 0%nat, x, i. split; [exact Rlt_0_1|]. split; [exact Rlt_0_1|]. split; [exact Hi|]. split; [now exists (new_sslm 1 1 1 1)|]. exact N.
Qed.
Print Assumptions gradient_refuted.
