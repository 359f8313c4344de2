(** Lemmas about the geometry of Poincaré embeddings. *)
From Coq Require Import Reals Lra Psatz.
From Verif Require Import Base KeyedVectors_Model MatReal_Model MatReal_Proofs W2vGrad_Spec PoincareGeo_Model.
Local Open Scope R_scope.

(** ** Linear algebra *)
Lemma lin_length : forall x y c, length x = length y -> length (lin x y c) = length x.
Proof. induction x as [|a x IH]; intros [|b y] c H; cbn in *; try discriminate; [reflexivity|]. f_equal. apply IH. congruence. Qed.
Lemma scale_length : forall c x, length (scale c x) = length x.
Proof. intros. apply map_length. Qed.
Lemma zero_length : forall n, length (zero n) = n.
Proof. intros. apply repeat_length. Qed.
Lemma inner_comm : forall x y, inner x y = inner y x.
Proof. induction x as [|a x IH]; intros [|b y]; cbn [inner]; try reflexivity. rewrite IH. lra. Qed.
Lemma inner_lin_l : forall x y w c, length x = length y -> inner (lin x y c) w = inner x w + c * inner y w.
Proof.
  induction x as [|a x IH]; intros [|b y] w c H; cbn in H; try discriminate; [cbn; lra|]. destruct w as [|d w]; cbn [lin inner]; [lra|].
  rewrite IH by congruence. lra.
Qed.
Lemma inner_lin_r : forall x y w c, length x = length y -> inner w (lin x y c) = inner w x + c * inner w y.
Proof. intros. rewrite inner_comm, inner_lin_l by assumption. rewrite (inner_comm x w), (inner_comm y w). reflexivity. Qed.
Lemma inner_scale_l : forall c x w, inner (scale c x) w = c * inner x w.
Proof. intros c. induction x as [|a x IH]; intros [|d w]; cbn [scale map inner]; try lra. fold (scale c x). rewrite IH. lra. Qed.
Lemma inner_scale_r : forall c x w, inner w (scale c x) = c * inner w x.
Proof. intros. rewrite inner_comm, inner_scale_l, inner_comm. reflexivity. Qed.
Lemma inner_zero_l : forall n w, inner (zero n) w = 0.
Proof. unfold zero. induction n as [|n IH]; intros [|d w]; cbn [repeat inner]; try lra. rewrite IH. lra. Qed.
Lemma sumsq_inner : forall x, sumsq x = inner x x.
Proof. unfold sumsq. induction x as [|a x IH]; cbn [map inner]; [reflexivity|]. rewrite Rsum_cons, IH. reflexivity. Qed.
Lemma inner_pos : forall x, 0 <= inner x x.
Proof. intros. induction x as [|a x IH]; cbn [inner]; [lra|]. pose proof (Rle_0_sqr a) as H. unfold Rsqr in H. lra. Qed.
Lemma norm_pos : forall x, 0 <= norm x.
Proof. intros. apply sqrt_pos. Qed.
Lemma norm_sq : forall x, norm x ^ 2 = inner x x.
Proof. intros. unfold norm. rewrite sumsq_inner. rewrite pow2_sqrt; [reflexivity | apply inner_pos]. Qed.
Lemma norm_lt : forall x c, 0 < c -> (norm x < c <-> inner x x < c ^ 2).
Proof.
  intros x c P. rewrite <- norm_sq. pose proof (norm_pos x). split; intros L; [nra|]. destruct (Rlt_dec (norm x) c); [assumption|]. nra.
Qed.
Lemma norm_lt1 : forall x, norm x < 1 <-> 0 < alpha_of x.
Proof. intros x. unfold alpha_of. rewrite norm_sq, (norm_lt x 1) by lra. lra. Qed.
Lemma inner_sub_sq : forall u v, length u = length v -> inner (vsub u v) (vsub u v) = inner u u - 2 * inner u v + inner v v.
Proof.
  intros u v H. unfold vsub. rewrite inner_lin_l by assumption. rewrite !inner_lin_r by assumption. rewrite (inner_comm v u). lra.
Qed.
Lemma vsub_zero : forall u v, length u = length v -> inner (vsub u v) (vsub u v) = 0 -> u = v.
Proof.
  unfold vsub. induction u as [|a u IH]; intros [|b v] H E; cbn in H; try discriminate; [reflexivity|]. cbn [lin inner] in E.
  pose proof (inner_pos (lin u v (-1))). pose proof (Rle_0_sqr (a + -1 * b)) as Q. unfold Rsqr in Q. f_equal.
  - assert ((a + -1 * b) * (a + -1 * b) = 0) as Q0 by lra. apply Rmult_integral in Q0. lra.
  - apply IH; [congruence | lra].
Qed.
Lemma vsub_self : forall u, inner (vsub u u) (vsub u u) = 0.
Proof. intros. rewrite inner_sub_sq by reflexivity. lra. Qed.
Lemma inner_cs : forall x y, inner x y * inner x y <= inner x x * inner y y.
Proof.
  intros x y. assert (D : forall a b : vec, length a = length b -> inner a b * inner a b <= inner a a * inner b b).
  { intros a b H. pose proof (inner_pos b) as Pb. destruct (Req_EM_T (inner b b) 0) as [Z0|NZ].
    - assert (b = zero (length b)) as Eb.
      { clear - Z0. induction b as [|c b IH]; [reflexivity|]. cbn [inner] in Z0. pose proof (inner_pos b). pose proof (Rle_0_sqr c) as Q. unfold Rsqr in Q. cbn [length zero repeat]. f_equal.
        - assert (c * c = 0) as Q0 by lra. apply Rmult_integral in Q0. tauto.
        - apply IH. lra. }
      rewrite Z0, Eb, (inner_comm a), inner_zero_l. lra.
    - pose proof (inner_pos (lin a b (- (inner a b / inner b b)))) as P. rewrite inner_lin_l in P by assumption. rewrite !inner_lin_r in P by assumption. rewrite (inner_comm b a) in P.
      set (p := inner a b) in *. set (q := inner b b) in *. set (r := inner a a) in *. assert (0 < q) by lra.
      assert (E : r + - (p / q) * p + - (p / q) * (p + - (p / q) * q) = r - p * p / q) by (field; lra). rewrite E in P.
      apply (Rmult_le_compat_r q) in P; [|lra]. rewrite Rmult_0_l in P. replace ((r - p * p / q) * q) with (r * q - p * p) in P by (field; lra). lra. }
  (* different lengths: the common part *)
  assert (C : forall a b : vec, exists a1 b1, length a1 = length b1 /\ inner a b = inner a1 b1 /\ inner a1 a1 <= inner a a /\ inner b1 b1 <= inner b b).
  { induction a as [|c a IH]; intros b; [exists [], []; cbn [inner length]; pose proof (inner_pos b); repeat split; lra|]. destruct b as [|d b]; [exists [], []; cbn [inner length]; pose proof (inner_pos (c :: a)) as Q; cbn [inner] in Q; repeat split; lra|].
    destruct (IH b) as (a1 & b1 & L & E & A & B). exists (c :: a1), (d :: b1). cbn [inner length]. rewrite E. repeat split; [congruence | lra | lra]. }
  destruct (C x y) as (a1 & b1 & L & E & A & B). rewrite E. pose proof (D a1 b1 L). pose proof (inner_pos a1). pose proof (inner_pos b1). pose proof (inner_pos x). pose proof (inner_pos y).
  apply (Rle_trans _ (inner a1 a1 * inner b1 b1)); [assumption|]. apply Rmult_le_compat; assumption.
Qed.

(** ** arccosh *)
Lemma arccosh_arg : forall x, 1 <= x -> 1 <= x + sqrt (x ^ 2 - 1).
Proof. intros x H. pose proof (sqrt_pos (x ^ 2 - 1)). lra. Qed.
Lemma arccosh_pos : forall x, 1 <= x -> 0 <= arccosh x.
Proof. intros x H. unfold arccosh. pose proof (arccosh_arg x H) as [L|E]; [left; rewrite <- ln_1; apply ln_increasing; lra | rewrite <- E, ln_1; lra]. Qed.
Lemma arccosh_lt : forall x y, 1 <= x -> x < y -> arccosh x < arccosh y.
Proof.
  intros x y H L. unfold arccosh. apply ln_increasing; [pose proof (arccosh_arg x H); lra|].
  assert (sqrt (x ^ 2 - 1) <= sqrt (y ^ 2 - 1)) by (apply sqrt_le_1; nra). lra.
Qed.
Lemma arccosh_le : forall x y, 1 <= x -> x <= y -> arccosh x <= arccosh y.
Proof. intros x y H [L| ->]; [left; now apply arccosh_lt | lra]. Qed.
Lemma arccosh_1 : arccosh 1 = 0.
Proof. unfold arccosh. replace (1 ^ 2 - 1) with 0 by ring. rewrite sqrt_0, Rplus_0_r. apply ln_1. Qed.
Lemma arccosh_zero : forall x, 1 <= x -> (arccosh x = 0 <-> x = 1).
Proof. intros x H. split; [|intros ->; apply arccosh_1]. intros E. destruct H as [L|L]; [|congruence]. pose proof (arccosh_lt 1 x (Rle_refl 1) L). rewrite arccosh_1 in *. lra. Qed.
Lemma arccosh_plus : forall x y, 1 <= x -> 1 <= y -> arccosh x + arccosh y = arccosh (x * y + sqrt (x ^ 2 - 1) * sqrt (y ^ 2 - 1)).
Proof.
  intros x y Hx Hy. unfold arccosh. assert (Qx : 0 <= x ^ 2 - 1) by nra. assert (Qy : 0 <= y ^ 2 - 1) by nra.
  pose proof (sqrt_pos (x ^ 2 - 1)) as Px. pose proof (sqrt_pos (y ^ 2 - 1)) as Py. pose proof (pow2_sqrt _ Qx) as Ex. pose proof (pow2_sqrt _ Qy) as Ey.
  set (a := sqrt (x ^ 2 - 1)) in *. set (b := sqrt (y ^ 2 - 1)) in *.
  rewrite <- ln_mult by lra. f_equal. replace ((x * y + a * b) ^ 2 - 1) with ((x * b + a * y) ^ 2).
  - rewrite sqrt_pow2; [ring|]. apply Rplus_le_le_0_compat; apply Rmult_le_pos; lra.
  - replace ((x * b + a * y) ^ 2) with (x ^ 2 * b ^ 2 + 2 * x * y * a * b + a ^ 2 * y ^ 2) by ring. replace ((x * y + a * b) ^ 2) with (x ^ 2 * y ^ 2 + 2 * x * y * a * b + a ^ 2 * b ^ 2) by ring. rewrite Ex, Ey. ring.
Qed.

(** ** The distance *)
Definition in_ball (n : nat) (u : vec) : Prop := length u = n /\ norm u < 1.
Lemma ball_alpha : forall n u, in_ball n u -> 0 < alpha_of u.
Proof. intros n u [_ H]. now apply norm_lt1. Qed.
Lemma euclid_sq : forall u v, euclid u v ^ 2 = inner (vsub u v) (vsub u v).
Proof. intros. apply norm_sq. Qed.
Lemma gamma_ge : forall n u v, in_ball n u -> in_ball n v -> 1 <= gamma u v /\ (gamma u v = 1 <-> u = v).
Proof.
  intros n u v Hu Hv. pose proof (ball_alpha n u Hu) as Pu. pose proof (ball_alpha n v Hv) as Pv. assert (P : 0 < alpha_of u * alpha_of v) by (apply Rmult_lt_0_compat; assumption).
  unfold gamma. rewrite euclid_sq. pose proof (inner_pos (vsub u v)) as E. assert (Q : 0 <= inner (vsub u v) (vsub u v) / (alpha_of u * alpha_of v)) by (apply Rmult_le_pos; [assumption | left; now apply Rinv_0_lt_compat]).
  split; [lra|]. split.
  - intros H. apply vsub_zero; [destruct Hu, Hv; congruence|]. assert (inner (vsub u v) (vsub u v) / (alpha_of u * alpha_of v) = 0) as Z0 by lra. unfold Rdiv in Z0. apply Rmult_integral in Z0. destruct Z0 as [|Z0]; [assumption|]. pose proof (Rinv_0_lt_compat _ P). lra.
  - intros ->. rewrite vsub_self. unfold Rdiv. lra.
Qed.
Lemma gamma_sym : forall u v, length u = length v -> gamma u v = gamma v u.
Proof. intros u v H. unfold gamma. rewrite !euclid_sq, !inner_sub_sq by auto. rewrite (inner_comm u v), (Rmult_comm (alpha_of u)). do 3 f_equal. lra. Qed.
Lemma distance_gamma : forall u v, vector_distance u v = pdist u v.
Proof. reflexivity. Qed.

(** The hyperboloid. *)
Definition h0 (u : vec) : R := (1 + inner u u) / (1 - inner u u).
Definition hs (u : vec) : vec := scale (2 / (1 - inner u u)) u.
Definition B (x0 : R) (x : vec) (y0 : R) (y : vec) : R := inner x y - x0 * y0.
Lemma hyper_gamma : forall u v, length u = length v -> 0 < alpha_of u -> 0 < alpha_of v -> B (h0 u) (hs u) (h0 v) (hs v) = - gamma u v.
Proof.
  intros u v L Pu Pv. unfold B, h0, hs, gamma. rewrite inner_scale_l, inner_scale_r, euclid_sq, inner_sub_sq by exact L. unfold alpha_of in *. rewrite !norm_sq in *. field. lra.
Qed.
Lemma hyper_unit : forall u, 0 < alpha_of u -> B (h0 u) (hs u) (h0 u) (hs u) = -1.
Proof. intros u P. unfold B, h0, hs. rewrite inner_scale_l, inner_scale_r. unfold alpha_of in P. rewrite norm_sq in P. field. lra. Qed.
Lemma orthogonal_pos : forall w0 w y0 y, B y0 y y0 y = -1 -> B w0 w y0 y = 0 -> 0 <= B w0 w w0 w.
Proof.
  unfold B. intros w0 w y0 y E O. pose proof (inner_cs w y) as CS. pose proof (inner_pos w) as P. pose proof (inner_pos y) as Py.
  assert (E1 : inner w y = w0 * y0) by lra. assert (E2 : inner y y = y0 * y0 - 1) by lra. rewrite E1, E2 in CS.
  assert (1 <= y0 * y0) by lra. set (a := inner w w) in *. assert (H1 : w0 * w0 * (y0 * y0) <= a * (y0 * y0)) by nra. apply Rmult_le_reg_r in H1; lra.
Qed.
Lemma discriminant : forall a b c, 0 <= c -> (forall s, 0 <= a + 2 * b * s + c * s ^ 2) -> b ^ 2 <= a * c.
Proof.
  intros a b c [Pc| <-] H.
  - specialize (H (- b / c)). replace (a + 2 * b * (- b / c) + c * (- b / c) ^ 2) with (a - b ^ 2 / c) in H by (field; lra). apply (Rmult_le_compat_r c) in H; [|lra]. replace ((a - b ^ 2 / c) * c) with (a * c - b ^ 2) in H by (field; lra). lra.
  - destruct (Req_EM_T b 0) as [->|N]; [lra|]. exfalso. specialize (H (- (a + 1) / (2 * b))). replace (a + 2 * b * (- (a + 1) / (2 * b)) + 0 * (- (a + 1) / (2 * b)) ^ 2) with (-1) in H by (field; lra). lra.
Qed.
Lemma gamma_triangle : forall n u v w, in_ball n u -> in_ball n v -> in_ball n w ->
  gamma u w <= gamma u v * gamma v w + sqrt (gamma u v ^ 2 - 1) * sqrt (gamma v w ^ 2 - 1).
Proof.
  intros n u v w Hu Hv Hw. pose proof (ball_alpha n u Hu) as Pu. pose proof (ball_alpha n v Hv) as Pv. pose proof (ball_alpha n w Hw) as Pw.
  destruct (gamma_ge n u v Hu Hv) as [Guv _]. destruct (gamma_ge n v w Hv Hw) as [Gvw _].
  destruct Hu as [Lu _], Hv as [Lv _], Hw as [Lw _].
  pose proof (hyper_gamma u v ltac:(congruence) Pu Pv) as Buv. pose proof (hyper_gamma v w ltac:(congruence) Pv Pw) as Bvw. pose proof (hyper_gamma u w ltac:(congruence) Pu Pw) as Buw.
  pose proof (hyper_unit u Pu) as Bu. pose proof (hyper_unit v Pv) as Bv. pose proof (hyper_unit w Pw) as Bw.
  assert (Lx : length (hs u) = n /\ length (hs v) = n /\ length (hs w) = n) by (unfold hs; rewrite !scale_length; auto). destruct Lx as (Lx & Ly & Lz).
  set (g1 := gamma u v) in *. set (g2 := gamma v w) in *. set (g := gamma u w) in *. clearbody g1 g2 g.
  set (x0 := h0 u) in *. set (x := hs u) in *. set (y0 := h0 v) in *. set (y := hs v) in *. set (z0 := h0 w) in *. set (z := hs w) in *. clearbody x0 x y0 y z0 z.
  assert (D : (g1 * g2 - g) ^ 2 <= (g1 ^ 2 - 1) * (g2 ^ 2 - 1)).
  { apply discriminant; [nra|]. intros s.
    assert (Lxy : length (lin x y (- g1)) = length (lin z y (- g2))) by (rewrite !lin_length; congruence).
    pose proof (orthogonal_pos ((x0 - g1 * y0) + s * (z0 - g2 * y0)) (lin (lin x y (- g1)) (lin z y (- g2)) s) y0 y Bv) as Q. unfold B in *.
    assert (E1 : inner x x = x0 * x0 - 1) by lra. assert (E2 : inner y y = y0 * y0 - 1) by lra. assert (E3 : inner z z = z0 * z0 - 1) by lra.
    assert (E4 : inner x y = x0 * y0 - g1) by lra. assert (E5 : inner y z = y0 * z0 - g2) by lra. assert (E6 : inner x z = x0 * z0 - g) by lra.
    assert (F : forall q, inner (lin (lin x y (- g1)) (lin z y (- g2)) s) q = inner x q + - g1 * inner y q + s * (inner z q + - g2 * inner y q)).
    { intros q. rewrite inner_lin_l by exact Lxy. rewrite !inner_lin_l by congruence. reflexivity. }
    rewrite !F in Q. rewrite !(inner_comm _ (lin _ _ _)) in Q. rewrite !F in Q. rewrite (inner_comm y x), (inner_comm z x), (inner_comm z y) in Q. rewrite E1, E2, E3, E4, E5, E6 in Q.
    match type of Q with (?e = 0) -> _ => assert (Q0 : e = 0) by ring end. specialize (Q Q0). match type of Q with 0 <= ?e => replace e with (g1 ^ 2 - 1 + 2 * (g1 * g2 - g) * s + (g2 ^ 2 - 1) * s ^ 2) in Q by ring end. exact Q. }
  assert (P1 : 0 <= g1 ^ 2 - 1) by nra. assert (P2 : 0 <= g2 ^ 2 - 1) by nra. rewrite <- sqrt_mult by assumption.
  assert (S1 : Rabs (g1 * g2 - g) <= sqrt ((g1 ^ 2 - 1) * (g2 ^ 2 - 1))).
  { rewrite <- (sqrt_Rsqr_abs (g1 * g2 - g)). apply sqrt_le_1_alt. unfold Rsqr. lra. }
  pose proof (Rle_abs (g - g1 * g2)) as A. rewrite Rabs_minus_sym in A. lra.
Qed.

(** ** Slopes *)
Lemma slope_ext : forall f g x d, (forall t, f t = g t) -> slope f x d -> slope g x d.
Proof. intros f g x d E H eps P. destruct (H eps P) as (del & D). exists del. intros h N L. rewrite <- !E. apply D; assumption. Qed.
Lemma slope_eq : forall f x d d', d = d' -> slope f x d -> slope f x d'.
Proof. intros f x d d' <-. auto. Qed.
Lemma slope_const : forall c x, slope (fun _ => c) x 0.
Proof. intros. apply derivable_pt_lim_const. Qed.
Lemma slope_plus : forall f g x a b, slope f x a -> slope g x b -> slope (fun t => f t + g t) x (a + b).
Proof. intros. apply (derivable_pt_lim_plus f g); assumption. Qed.
Lemma slope_mult : forall f g x a b, slope f x a -> slope g x b -> slope (fun t => f t * g t) x (a * g x + f x * b).
Proof. intros. apply (derivable_pt_lim_mult f g); assumption. Qed.
Lemma slope_scal : forall f c x a, slope f x a -> slope (fun t => c * f t) x (c * a).
Proof. intros. apply (derivable_pt_lim_scal f); assumption. Qed.
Lemma slope_div : forall f g x a b, slope f x a -> slope g x b -> g x <> 0 -> slope (fun t => f t / g t) x ((a * g x - b * f x) / Rsqr (g x)).
Proof. intros. apply (derivable_pt_lim_div f g); assumption. Qed.
Lemma slope_comp : forall f g x a b, slope f x a -> slope g (f x) b -> slope (fun t => g (f t)) x (b * a).
Proof. intros. apply (derivable_pt_lim_comp f g); assumption. Qed.
Lemma slope_id : forall x, slope (fun t => t) x 1.
Proof. intros. apply derivable_pt_lim_id. Qed.
Lemma slope_quad : forall p q r, slope (fun t => p + q * t + r * t ^ 2) 0 q.
Proof.
  intros. eapply slope_eq; [|apply (slope_plus (fun t => p + q * t) (fun t => r * t ^ 2) 0)].
  3: apply slope_scal, (derivable_pt_lim_pow 0 2).
  2: apply slope_plus; [apply slope_const | apply slope_scal, slope_id].
  cbn. ring.
Qed.
Lemma slope_arccosh : forall x, 1 < x -> slope arccosh x (/ sqrt (x ^ 2 - 1)).
Proof.
  intros x H. assert (P : 0 < x ^ 2 - 1) by nra. pose proof (sqrt_lt_R0 _ P) as Q. unfold arccosh.
  eapply slope_eq; [|apply (slope_comp (fun t => t + sqrt (t ^ 2 - 1)) ln)].
  2: { apply slope_plus; [apply slope_id|]. apply (slope_comp (fun t => t ^ 2 - 1) sqrt).
       - apply (slope_ext (fun t => t ^ 2 + -1)); [intros; ring|]. apply slope_plus; [apply (derivable_pt_lim_pow x 2) | apply slope_const].
       - apply derivable_pt_lim_sqrt. exact P. }
  2: { apply derivable_pt_lim_ln. lra. }
  replace (INR 2) with 2 by (cbn; ring). cbn [Nat.pred]. rewrite pow_1. field. lra.
Qed.
Lemma inner_line_sq : forall u a s, length u = length a -> inner (lin u a s) (lin u a s) = inner u u + 2 * inner u a * s + inner a a * s ^ 2.
Proof. intros u a s H. rewrite inner_lin_l by exact H. rewrite !inner_lin_r by exact H. rewrite (inner_comm a u). ring. Qed.
Lemma inner_line_sub : forall u a v b s, length u = length a -> length v = length b -> length u = length v ->
  inner (vsub (lin u a s) (lin v b s)) (vsub (lin u a s) (lin v b s)) =
  inner (vsub u v) (vsub u v) + 2 * (inner u a - inner v a - inner u b + inner v b) * s + (inner a a - 2 * inner a b + inner b b) * s ^ 2.
Proof.
  intros u a v b s H1 H2 H3. rewrite !inner_sub_sq; [|congruence | rewrite !lin_length; congruence]. rewrite !inner_line_sq by assumption.
  rewrite inner_lin_l by exact H1. rewrite !inner_lin_r by exact H2. rewrite (inner_comm a v). ring.
Qed.
Lemma lin_0 : forall x y, length x = length y -> lin x y 0 = x.
Proof. induction x as [|a x IH]; intros [|b y] H; cbn in *; try discriminate; [reflexivity|]. f_equal; [lra|]. apply IH. congruence. Qed.

(** The slope of the distance of two moving points. *)
Lemma gamma_slope : forall n u a v b, in_ball n u -> in_ball n v -> length a = n -> length b = n ->
  slope (fun s => gamma (lin u a s) (lin v b s)) 0
    (4 / (alpha_of u * alpha_of v) * (inner (vsub (scale ((euclid u v ^ 2 + alpha_of u) / alpha_of u) u) v) a + inner (vsub (scale ((euclid u v ^ 2 + alpha_of v) / alpha_of v) v) u) b)).
Proof.
  intros n u a v b Hu Hv La Lb. pose proof (ball_alpha n u Hu) as Pu. pose proof (ball_alpha n v Hv) as Pv. destruct Hu as [Lu _], Hv as [Lv _].
  set (E := inner (vsub u v) (vsub u v)). set (e1 := 2 * (inner u a - inner v a - inner u b + inner v b)). set (e2 := inner a a - 2 * inner a b + inner b b).
  apply (slope_ext (fun s => 1 + 2 * ((E + e1 * s + e2 * s ^ 2) / ((alpha_of u + - (2 * inner u a) * s + - inner a a * s ^ 2) * (alpha_of v + - (2 * inner v b) * s + - inner b b * s ^ 2))))).
  { intros s. unfold gamma. rewrite euclid_sq, inner_line_sub by congruence. unfold alpha_of. rewrite !norm_sq, !inner_line_sq by congruence. fold E e1 e2. do 4 f_equal; ring. }
  eapply slope_eq; [|apply slope_plus; [apply slope_const|]; apply slope_scal; apply (slope_div (fun s => E + e1 * s + e2 * s ^ 2)); [apply slope_quad | apply slope_mult; apply slope_quad |]].
  - unfold vsub. rewrite !inner_lin_l by (rewrite scale_length; congruence). rewrite !inner_scale_l, !euclid_sq. fold E. unfold Rsqr, e1. clearbody E.
    assert (F : forall p q r, p + q * 0 + r * 0 ^ 2 = p) by (intros; ring). rewrite !F. field. lra.
  - assert (F : forall p q r, p + q * 0 + r * 0 ^ 2 = p) by (intros; ring). rewrite !F. apply Rgt_not_eq. apply Rmult_lt_0_compat; assumption.
Qed.
Lemma pdist_slope : forall n u a v b, in_ball n u -> in_ball n v -> length a = n -> length b = n -> u <> v ->
  slope (fun s => pdist (lin u a s) (lin v b s)) 0 (inner (dgrad_u u v) a + inner (dgrad_v u v) b).
Proof.
  intros n u a v b Hu Hv La Lb N. destruct (gamma_ge n u v Hu Hv) as [G1 G2]. assert (G : 1 < gamma u v) by (destruct G1 as [|E]; [assumption|]; exfalso; apply N, G2; congruence).
  pose proof (ball_alpha n u Hu) as Pu. pose proof (ball_alpha n v Hv) as Pv. assert (Q : 0 < sqrt (gamma u v ^ 2 - 1)) by (apply sqrt_lt_R0; nra).
  unfold pdist. eapply slope_eq; [|apply (slope_comp (fun s => gamma (lin u a s) (lin v b s)) arccosh); [apply (gamma_slope n); assumption|]].
  2: { destruct Hu as [Lu _], Hv as [Lv _]. rewrite !lin_0 by congruence. apply slope_arccosh. exact G. }
  unfold dgrad_u, dgrad_v. destruct (Req_EM_T (gamma u v) 1) as [|_]; [lra|]. rewrite !inner_scale_l. unfold coef. field. lra.
Qed.

Definition lines (vs bs : list vec) (s : R) : list vec := map (fun p => lin (fst p) (snd p) s) (combine vs bs).
Lemma exp_slope : forall n u a v b, in_ball n u -> in_ball n v -> length a = n -> length b = n -> u <> v ->
  slope (fun s => expnd (lin u a s) (lin v b s)) 0 (- expnd u v * (inner (dgrad_u u v) a + inner (dgrad_v u v) b)).
Proof.
  intros n u a v b Hu Hv La Lb N. unfold expnd. eapply slope_eq; [|apply (slope_comp (fun s => - pdist (lin u a s) (lin v b s)) exp)].
  2: { apply (slope_ext (fun s => -1 * pdist (lin u a s) (lin v b s))); [intros; ring|]. apply slope_scal. apply (pdist_slope n); assumption. }
  2: apply derivable_pt_lim_exp.
  destruct Hu as [Lu _], Hv as [Lv _]. rewrite !lin_0 by congruence. ring.
Qed.
Lemma Zsum_slope : forall n u a vs bs, in_ball n u -> length a = n -> Forall (in_ball n) vs -> Forall (fun b => length b = n) bs -> length bs = length vs -> ~ In u vs ->
  slope (fun s => Zsum (lin u a s) (lines vs bs s)) 0 (Rsum (map (fun p => - expnd u (fst p) * (inner (dgrad_u u (fst p)) a + inner (dgrad_v u (fst p)) (snd p))) (combine vs bs))).
Proof.
  intros n u a vs bs Hu La F. revert bs. induction F as [|v vs Hv F IH]; intros [|b bs] Fb L N; try discriminate.
  - apply (slope_const 0 0).
  - inversion Fb as [|? ? Lb Fb']; subst. cbn [combine map]. rewrite Rsum_cons. cbn [fst snd]. apply (slope_ext (fun s => expnd (lin u a s) (lin v b s) + Zsum (lin u a s) (lines vs bs s))); [intros; reflexivity|].
    apply slope_plus; [apply (exp_slope (length a)); auto; intros ->; apply N; now left|]. apply IH; [assumption | cbn in L; congruence | intros H; apply N; now right].
Qed.
Lemma expnd_pos : forall u v, 0 < expnd u v.
Proof. intros. apply exp_pos. Qed.
Lemma Zsum_pos : forall u v vs, 0 < Zsum u (v :: vs).
Proof.
  intros. unfold Zsum. cbn [map]. rewrite Rsum_cons. pose proof (expnd_pos u v). assert (0 <= Rsum (map (expnd u) vs)); [|lra].
  apply Rsum_nonneg. intros x Hx. apply in_map_iff in Hx. destruct Hx as (w & <- & _). left. apply expnd_pos.
Qed.
Lemma lines_0 : forall n vs bs, Forall (fun v => length v = n) vs -> Forall (fun b => length b = n) bs -> length bs = length vs -> lines vs bs 0 = vs.
Proof.
  intros n vs bs F. revert bs. induction F as [|v vs Hv F IH]; intros [|b bs] Fb L; try discriminate; [reflexivity|]. inversion Fb; subst. unfold lines in *. cbn [combine map fst snd].
  rewrite lin_0 by congruence. f_equal. apply IH; [assumption | cbn in L; congruence].
Qed.
Lemma total_inner : forall n l w acc, length acc = n -> Forall (fun x => length x = n) l ->
  inner (fold_left (fun a x => lin a x 1) l acc) w = inner acc w + Rsum (map (fun x => inner x w) l) /\ length (fold_left (fun a x => lin a x 1) l acc) = n.
Proof.
  intros n l w. induction l as [|x l IH]; intros acc La F; cbn [fold_left map]; [cbn; split; [lra | exact La]|]. inversion F; subst. 
  destruct (IH (lin acc x 1)) as [A B0]; [rewrite lin_length; congruence | assumption|]. rewrite A, Rsum_cons, inner_lin_l by congruence. split; [lra | exact B0].
Qed.
Lemma dgrad_u_length : forall u v, length u = length v -> length (dgrad_u u v) = length u.
Proof. intros u v L. unfold dgrad_u. destruct (Req_EM_T _ _); [apply zero_length|]. rewrite scale_length. unfold vsub. rewrite lin_length; rewrite scale_length; congruence. Qed.
Lemma dgrad_v_length : forall u v, length u = length v -> length (dgrad_v u v) = length u.
Proof. intros u v L. unfold dgrad_v. destruct (Req_EM_T _ _); [apply zero_length|]. rewrite scale_length. unfold vsub. rewrite lin_length; rewrite scale_length; congruence. Qed.
Lemma grad_u_length : forall n u vs, length u = n -> Forall (fun v => length v = n) vs -> length (grad_u u vs) = n.
Proof.
  intros n u vs Lu F. unfold grad_u. destruct vs as [|v0 vs]; [rewrite zero_length; exact Lu|]. inversion F; subst.
  assert (T : length (total (length u) (map (fun v => scale (/ Zsum u (v0 :: vs)) (scale (- expnd u v) (dgrad_u u v))) (v0 :: vs))) = length u).
  { unfold total. apply (fun l F => proj2 (total_inner (length u) l [] (zero (length u)) (zero_length _) F)). apply Forall_forall. intros x Hx. apply in_map_iff in Hx. destruct Hx as (v & <- & Hv). rewrite !scale_length. apply dgrad_u_length. rewrite Forall_forall in F. symmetry. apply F. exact Hv. }
  rewrite lin_length; [exact T | rewrite T, dgrad_u_length; congruence].
Qed.
Lemma grad_v_length : forall n reg u vs, length u = n -> Forall (fun v => length v = n) vs -> length (grad_v reg u vs) = length vs /\ Forall (fun g => length g = n) (grad_v reg u vs).
Proof.
  intros n reg u vs Lu F. unfold grad_v. destruct vs as [|v0 vs]; [split; [reflexivity | constructor]|]. cbn [length]. rewrite map_length. split; [reflexivity|]. inversion F as [|? ? L0 F']; subst. 
  assert (S : forall v, length v = length u -> length (scale (/ Zsum u (v0 :: vs)) (scale (- expnd u v) (dgrad_v u v))) = length u) by (intros v Lv; rewrite !scale_length; apply dgrad_v_length; congruence).
  constructor.
  - rewrite lin_length; rewrite lin_length; rewrite S; rewrite ?dgrad_v_length; congruence.
  - apply Forall_forall. intros x Hx. apply in_map_iff in Hx. destruct Hx as (v & <- & Hv). rewrite Forall_forall in F'. apply S. apply F'. exact Hv.
Qed.
Lemma loss_slope : forall n reg u a vs bs, in_ball n u -> length a = n -> vs <> [] -> Forall (in_ball n) vs -> Forall (fun b => length b = n) bs -> length bs = length vs -> ~ In u vs ->
  slope (fun s => loss_fn reg (lin u a s) (lines vs bs s)) 0 (inner (grad_u u vs) a + Rsum (map (fun p => inner (fst p) (snd p)) (combine (grad_v reg u vs) bs))).
Proof.
  intros n reg u a vs bs Hu La Ne F Fb L N. destruct vs as [|v0 vs]; [congruence|]. destruct bs as [|b0 bs]; [discriminate|].
  pose proof (Zsum_slope n u a (v0 :: vs) (b0 :: bs) Hu La F Fb L N) as ZS. inversion F as [|? ? H0 F']; subst. inversion Fb as [|? ? L0 Fb']; subst.
  assert (N0 : u <> v0) by (intros ->; apply N; now left). pose proof (pdist_slope (length a) u a v0 b0 Hu H0 eq_refl L0 N0) as DS. pose proof (Zsum_pos u v0 vs) as ZP.
  assert (L1 : length u = length a /\ length v0 = length a) by (destruct Hu, H0; auto). destruct L1 as [Lu Lv0].
  apply (slope_ext (fun s => pdist (lin u a s) (lin v0 b0 s) + ln (Zsum (lin u a s) (lines (v0 :: vs) (b0 :: bs) s)) + reg * (inner v0 v0 + 2 * inner v0 b0 * s + inner b0 b0 * s ^ 2))).
  { intros s. unfold loss_fn. cbn [lines combine map fst snd]. fold (lines vs bs s). rewrite norm_sq, inner_line_sq by congruence. f_equal.
    transitivity (- ln (expnd (lin u a s) (lin v0 b0 s) / Zsum (lin u a s) (lin v0 b0 s :: lines vs bs s))); [|reflexivity].
    pose proof (Zsum_pos (lin u a s) (lin v0 b0 s) (lines vs bs s)) as P. pose proof (expnd_pos (lin u a s) (lin v0 b0 s)) as P0.
    unfold Rdiv. rewrite ln_mult by (try apply Rinv_0_lt_compat; assumption). rewrite ln_Rinv by exact P. unfold expnd at 1. rewrite ln_exp. change (lines (v0 :: vs) (b0 :: bs) s) with (lin v0 b0 s :: lines vs bs s). ring. }
  eapply slope_eq; [|apply slope_plus; [apply slope_plus; [exact DS|]; apply (slope_comp (fun s => Zsum (lin u a s) (lines (v0 :: vs) (b0 :: bs) s)) ln); [exact ZS|] | apply slope_scal, slope_quad]].
  2: { apply derivable_pt_lim_ln. rewrite lin_0 by congruence. rewrite (lines_0 (length a)); [exact ZP | | exact Fb | exact L]. apply Forall_forall. intros v Hv. rewrite Forall_forall in F. apply F. exact Hv. }
  rewrite lin_0 by congruence. rewrite (lines_0 (length a)); [| | exact Fb | exact L]. 2: { apply Forall_forall. intros v Hv. rewrite Forall_forall in F. apply F. exact Hv. }
  set (z := Zsum u (v0 :: vs)) in *.
  assert (LF : forall v, In v (v0 :: vs) -> length v = length u) by (intros v Hv; rewrite Forall_forall in F; rewrite Lu; apply F; exact Hv).
  (* the right side *)
  unfold grad_u, grad_v. fold z. rewrite inner_lin_l.
  2: { destruct (total_inner (length u) (map (fun v => scale (/ z) (scale (- expnd u v) (dgrad_u u v))) (v0 :: vs)) [] (zero (length u)) (zero_length _)) as [_ T].
       - apply Forall_forall. intros x Hx. apply in_map_iff in Hx. destruct Hx as (v & <- & Hv). rewrite !scale_length. apply dgrad_u_length. symmetry. auto.
       - unfold total. rewrite T. rewrite dgrad_u_length; congruence. }
  destruct (total_inner (length u) (map (fun v => scale (/ z) (scale (- expnd u v) (dgrad_u u v))) (v0 :: vs)) a (zero (length u)) (zero_length _)) as [T _].
  { apply Forall_forall. intros x Hx. apply in_map_iff in Hx. destruct Hx as (v & <- & Hv). rewrite !scale_length. apply dgrad_u_length. symmetry. auto. }
  unfold total. rewrite T, inner_zero_l, map_map. clear T.
  rewrite (Rsum_ext _ (fun v => / z * (- expnd u v * inner (dgrad_u u v) a))) by (intros; rewrite !inner_scale_l; reflexivity). rewrite (Rsum_scal (fun v => - expnd u v * inner (dgrad_u u v) a)).
  cbn [combine map]. rewrite !Rsum_cons. cbn [fst snd].
  assert (DV0 : length (dgrad_v u v0) = length u) by (apply dgrad_v_length; congruence).
  rewrite (inner_lin_l _ v0) by (rewrite lin_length; rewrite !scale_length; congruence). rewrite inner_lin_l by (rewrite !scale_length; reflexivity). rewrite !inner_scale_l.
  clearbody z.
  assert (Q : Rsum (map (fun p => inner (fst p) (snd p)) (combine (map (fun v => scale (/ z) (scale (- expnd u v) (dgrad_v u v))) vs) bs)) = / z * Rsum (map (fun p => - expnd u (fst p) * inner (dgrad_v u (fst p)) (snd p)) (combine vs bs))).
  { clear. revert bs. induction vs as [|v vs IH]; intros [|b bs]; cbn [map combine]; try (cbn; lra). rewrite !Rsum_cons, IH. cbn [fst snd]. rewrite !inner_scale_l. ring. }
  rewrite Q.
  assert (S : Rsum (map (fun p => - expnd u (fst p) * (inner (dgrad_u u (fst p)) a + inner (dgrad_v u (fst p)) (snd p))) (combine vs bs)) =
    Rsum (map (fun v => - expnd u v * inner (dgrad_u u v) a) vs) + Rsum (map (fun p => - expnd u (fst p) * inner (dgrad_v u (fst p)) (snd p)) (combine vs bs))).
  { clear - L. assert (L' : length bs = length vs) by (cbn in L; congruence). clear L. revert bs L'. induction vs as [|v vs IH]; intros [|b bs] L; try discriminate; [cbn; lra|]. cbn [map combine]. rewrite !Rsum_cons, IH by (cbn in L; congruence). cbn [fst snd]. ring. }
  rewrite S. field. lra.
Qed.
