From Coq Require Import Reals Lra Psatz.
From Verif Require Import Base Str MatReal_Model MatReal_Proofs LdaTrain_Model Lsi_Spec Lsi_Linear KvSim_Model KvSim_Spec.
Local Open Scope R_scope.

Section Dim.
Variable d : nat.
Notation DOT := (dotv d).
Notation NRM := (vnorm d).

Lemma nrm_nonneg : forall v, 0 <= NRM v.
Proof. intros. apply sqrt_pos. Qed.
Lemma nrm_sq : forall v, NRM v * NRM v = DOT v v.
Proof. intros. apply sqrt_sqrt. apply dotv_self. Qed.
Lemma zero_nrm : forall v, zero_vec d v <-> NRM v = 0.
Proof.
  intros v. split.
  - intros H. unfold vnorm. replace (DOT v v) with 0; [apply sqrt_0|]. symmetry. apply sumn_all0. intros k L. rewrite (H k L). ring.
  - intros H. assert (E : DOT v v = 0) by (rewrite <- nrm_sq, H; ring). exact (dotv_0 d v E).
Qed.
Lemma pos_nrm : forall v, ~ zero_vec d v <-> 0 < NRM v.
Proof. intros v. rewrite zero_nrm. pose proof (nrm_nonneg v). split; lra. Qed.
Lemma dot_scal_l : forall c x y, DOT (fun i => c * x i) y = c * DOT x y.
Proof. intros. rewrite dotv_sym, dotv_scal_r, dotv_sym. reflexivity. Qed.
Lemma dot_zero_l : forall x y, zero_vec d x -> DOT x y = 0.
Proof. intros x y H. apply sumn_all0. intros k L. rewrite (H k L). ring. Qed.

Lemma cs : forall x y, Rabs (DOT x y) <= NRM x * NRM y.
Proof.
  intros x y. pose proof (nrm_nonneg x). pose proof (nrm_nonneg y).
  rewrite <- (Rabs_pos_eq (NRM x * NRM y)) by nra. apply Rsqr_le_abs_0. unfold Rsqr.
  replace (NRM x * NRM y * (NRM x * NRM y)) with ((NRM x * NRM x) * (NRM y * NRM y)) by ring. rewrite !nrm_sq.
  pose proof (cauchy_schwarz x y (seq 0 d)) as C. unfold dotv, sumn. 
  rewrite (Rsum_ext (fun i => x i * x i) (fun i => x i ^ 2)) by (intros; ring). rewrite (Rsum_ext (fun i => y i * y i) (fun i => y i ^ 2)) by (intros; ring).
  lra.
Qed.

Lemma unit_scal : forall v, exists c, (forall i, unitvec d v i = c * v i) /\ (0 < NRM v -> c = / NRM v).
Proof.
  intros v. unfold unitvec. destruct (Rlt_dec 0 (NRM v)) as [P|N].
  - exists (/ NRM v). split; [intros; field; lra | reflexivity].
  - exists 1. split; [intros; ring | lra].
Qed.
Lemma unit_dot : forall x y, DOT (unitvec d x) (unitvec d y) = cosine d x y.
Proof.
  intros x y. destruct (unit_scal x) as (a & A & A1). destruct (unit_scal y) as (b & B & B1).
  rewrite (dotv_ext d (unitvec d x) (unitvec d y) (fun i => a * x i) (fun i => b * y i)) by auto. rewrite dot_scal_l, dotv_scal_r.
  unfold cosine. fold (NRM x) (NRM y). pose proof (nrm_nonneg x). pose proof (nrm_nonneg y).
  destruct (Req_dec (NRM x) 0) as [X|X].
  { rewrite (dot_zero_l x y) by (apply zero_nrm; exact X). unfold Rdiv. ring. }
  destruct (Req_dec (NRM y) 0) as [Y|Y].
  { rewrite (dotv_sym d x y), (dot_zero_l y x) by (apply zero_nrm; exact Y). unfold Rdiv. ring. }
  rewrite A1, B1 by lra. field. lra.
Qed.
Lemma dot_unit_r : forall x y, DOT x (unitvec d y) / NRM x = cosine d x y.
Proof.
  intros x y. destruct (unit_scal y) as (b & B & B1).
  rewrite (dotv_ext d x (unitvec d y) x (fun i => b * y i)) by auto. rewrite dotv_scal_r.
  unfold cosine. fold (NRM x) (NRM y). pose proof (nrm_nonneg x). pose proof (nrm_nonneg y).
  destruct (Req_dec (NRM x) 0) as [X|X].
  { rewrite (dot_zero_l x y) by (apply zero_nrm; exact X). unfold Rdiv. ring. }
  destruct (Req_dec (NRM y) 0) as [Y|Y].
  { rewrite (dotv_sym d x y), (dot_zero_l y x) by (apply zero_nrm; exact Y). unfold Rdiv. ring. }
  rewrite B1 by lra. field. lra.
Qed.
Lemma cosine_sym : forall x y, cosine d x y = cosine d y x.
Proof. intros. unfold cosine. rewrite (dotv_sym d x y), (Rmult_comm (sqrt _)). reflexivity. Qed.
Lemma cosine_zero : forall x y, zero_vec d x -> cosine d x y = 0.
Proof. intros x y Hx. unfold cosine. rewrite dot_zero_l by exact Hx. unfold Rdiv. ring. Qed.
Lemma cosine_bound : forall x y, -1 <= cosine d x y <= 1.
Proof.
  intros x y. unfold cosine. fold (NRM x) (NRM y). pose proof (nrm_nonneg x). pose proof (nrm_nonneg y). pose proof (cs x y) as C.
  destruct (Req_dec (NRM x) 0) as [X|X].
  { rewrite (dot_zero_l x y) by (apply zero_nrm; exact X). unfold Rdiv. rewrite Rmult_0_l. lra. }
  destruct (Req_dec (NRM y) 0) as [Y|Y].
  { rewrite (dotv_sym d x y), (dot_zero_l y x) by (apply zero_nrm; exact Y). unfold Rdiv. rewrite Rmult_0_l. lra. }
  assert (P : 0 < NRM x * NRM y) by nra.
  apply Rabs_le_between in C || (unfold Rabs in C; destruct (Rcase_abs (DOT x y))).
  - split; [apply Rmult_le_reg_r with (NRM x * NRM y); [exact P|]; unfold Rdiv; rewrite Rmult_assoc, Rinv_l by lra; lra |
            apply Rmult_le_reg_r with (NRM x * NRM y); [exact P|]; unfold Rdiv; rewrite Rmult_assoc, Rinv_l by lra; lra].
  - split; [apply Rmult_le_reg_r with (NRM x * NRM y); [exact P|]; unfold Rdiv; rewrite Rmult_assoc, Rinv_l by lra; lra |
            apply Rmult_le_reg_r with (NRM x * NRM y); [exact P|]; unfold Rdiv; rewrite Rmult_assoc, Rinv_l by lra; lra].
Qed.
Lemma nrm_scal : forall c x y, 0 <= c -> (forall i, (i < d)%nat -> y i = c * x i) -> NRM y = c * NRM x.
Proof.
  intros c x y P H. unfold vnorm. rewrite (dotv_ext d y y (fun i => c * x i) (fun i => c * x i)) by auto.
  rewrite dot_scal_l, dotv_scal_r. rewrite <- Rmult_assoc, sqrt_mult by (pose proof (dotv_self d x); nra). rewrite sqrt_square by exact P. reflexivity.
Qed.
Lemma cosine_dir : forall x x' y, same_direction d x x' -> cosine d x' y = cosine d x y.
Proof.
  intros x x' y (c & P & H). unfold cosine. fold (NRM x) (NRM x') (NRM y). rewrite (nrm_scal c x x') by (assumption || lra).
  rewrite (dotv_ext d x' y (fun i => c * x i) y) by auto. rewrite dot_scal_l. pose proof (nrm_nonneg x). pose proof (nrm_nonneg y).
  destruct (Req_dec (NRM x) 0) as [X|X].
  { rewrite (dot_zero_l x y) by (apply zero_nrm; exact X). unfold Rdiv. ring. }
  destruct (Req_dec (NRM y) 0) as [Y|Y].
  { rewrite (dotv_sym d x y), (dot_zero_l y x) by (apply zero_nrm; exact Y). unfold Rdiv. ring. }
  field. lra.
Qed.
Lemma cosine_ext : forall x x' y, (forall i, (i < d)%nat -> x' i = x i) -> cosine d x' y = cosine d x y.
Proof. intros x x' y H. apply cosine_dir. exists 1. split; [lra|]. intros i L. rewrite (H i L). ring. Qed.
Lemma cosine_self : forall x, ~ zero_vec d x -> cosine d x x = 1.
Proof. intros x NZ. apply pos_nrm in NZ. unfold cosine. fold (NRM x). rewrite <- nrm_sq. field. lra. Qed.
(** How far apart the unit vectors are. *)
Lemma cosine_chord : forall x y, ~ zero_vec d x -> ~ zero_vec d y ->
  DOT (fun i => x i / NRM x - y i / NRM y) (fun i => x i / NRM x - y i / NRM y) = 2 * (1 - cosine d x y).
Proof.
  intros x y X Y. apply pos_nrm in X. apply pos_nrm in Y. rewrite dotv_sub_r, !dotv_sub_l.
  assert (SC : forall u v a b, DOT (fun i => u i / a) (fun i => v i / b) = / a * / b * DOT u v).
  { intros u v a b. rewrite (dotv_ext d (fun i => u i / a) (fun i => v i / b) (fun i => / a * u i) (fun i => / b * v i)) by (intros; unfold Rdiv; ring).
    rewrite dot_scal_l, dotv_scal_r. ring. }
  rewrite !SC. unfold cosine. fold (NRM x) (NRM y). rewrite <- !nrm_sq, (dotv_sym d y x). field. lra.
Qed.
Lemma cosine_one : forall x y, ~ zero_vec d x -> ~ zero_vec d y -> cosine d x y = 1 <-> same_direction d x y.
Proof.
  intros x y X Y. split.
  - intros E. pose proof (cosine_chord x y X Y) as C. rewrite E in C. replace (2 * (1 - 1)) with 0 in C by ring.
    pose proof (dotv_0 d _ C) as Z0. apply pos_nrm in X. apply pos_nrm in Y. exists (NRM y / NRM x). split; [apply Rdiv_lt_0_compat; assumption|].
    intros i L. specialize (Z0 i L). cbv beta in Z0.
    assert (Q : y i / NRM y = x i / NRM x) by lra. replace (y i) with (y i / NRM y * NRM y) by (field; lra). rewrite Q. field. lra.
  - intros SD. rewrite cosine_sym, (cosine_dir x y x SD). apply cosine_self. exact X.
Qed.
Lemma mean_dir : forall vs, vs <> [] -> same_direction d (plain_sum vs) (mean vs).
Proof.
  intros vs NE. exists (/ INR (length vs)). split; [apply Rinv_0_lt_compat; apply lt_0_INR; destruct vs; [contradiction | cbn; lia]|].
  intros i _. apply Rmult_comm.
Qed.
Lemma cosine_mean_r : forall x vs, vs <> [] -> cosine d x (mean vs) = cosine d x (plain_sum vs).
Proof. intros x vs NE. rewrite cosine_sym, (cosine_dir _ _ x (mean_dir vs NE)). apply cosine_sym. Qed.
Lemma plain_sum_perm : forall vs vs' i, Permutation vs vs' -> plain_sum vs i = plain_sum vs' i.
Proof. intros vs vs' i P. unfold plain_sum. apply (Rsum_perm (map (fun v => v i) vs) (map (fun v => v i) vs')). apply Permutation_map. exact P. Qed.
End Dim.
