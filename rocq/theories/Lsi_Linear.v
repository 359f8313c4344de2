(** Finite sums, orthonormal families and spectral expansions. *)
From Coq Require Import Reals Lra.
From Verif Require Import Base MatReal_Model MatReal_Proofs Utils_Model LdaTrain_Model LdaTrain_Proofs2 Lsi_Model Lsi_Spec.
From Coq Require Import ZifyBool ZifyNat.
Local Open Scope R_scope.

(** ** Sums *)
Lemma sumn_S : forall n f, sumn (S n) f = sumn n f + f n.
Proof. intros n f. unfold sumn. rewrite seq_S, map_app, Rsum_app. cbn. lra. Qed.
Lemma sumn_0 : forall f, sumn 0 f = 0.
Proof. reflexivity. Qed.
Lemma sumn_split : forall n k f, sumn (n + k) f = sumn n f + sumn k (fun j => f (n + j)%nat).
Proof.
  intros n k f. induction k as [|k IH]; [rewrite Nat.add_0_r, sumn_0; lra|]. rewrite Nat.add_succ_r, !sumn_S, IH. lra.
Qed.
Lemma sumn_scal_r : forall n f c, sumn n (fun k => f k * c) = sumn n f * c.
Proof. intros. rewrite (sumn_ext n _ (fun k => c * f k)) by (intros; ring). rewrite sumn_scal. ring. Qed.
Lemma sumn_minus : forall n f g, sumn n (fun k => f k - g k) = sumn n f - sumn n g.
Proof. intros. rewrite (sumn_ext n _ (fun k => f k + -1 * g k)) by (intros; ring). rewrite sumn_plus, sumn_scal. ring. Qed.
Lemma sumn_swap2 : forall n k F, sumn n (fun i => sumn k (fun j => F i j)) = sumn k (fun j => sumn n (fun i => F i j)).
Proof. intros. unfold sumn at 2. rewrite sumn_swap. reflexivity. Qed.
Lemma sumn_all0 : forall n f, (forall k, (k < n)%nat -> f k = 0) -> sumn n f = 0.
Proof. intros n f H. rewrite (sumn_ext n f (fun _ => 0) H). apply sumn_zero. Qed.
Lemma sumn_delta : forall n a f, (a < n)%nat -> sumn n (fun k => f k * delta k a) = f a.
Proof.
  intros n a f. induction n as [|n IH]; intros H; [lia|]. rewrite sumn_S. unfold delta at 2. destruct (Nat.eqb_spec n a) as [->|NE].
  - rewrite sumn_all0; [ring|]. intros k Hk. unfold delta. destruct (Nat.eqb_spec k a); [lia|ring].
  - rewrite IH by lia. ring.
Qed.
Lemma delta_sym : forall a b, delta a b = delta b a.
Proof. intros. unfold delta. destruct (Nat.eqb_spec a b), (Nat.eqb_spec b a); subst; congruence. Qed.
Lemma sumn_delta' : forall n a f, (a < n)%nat -> sumn n (fun k => delta a k * f k) = f a.
Proof. intros. rewrite <- (sumn_delta n a f H). apply sumn_ext. intros. rewrite (delta_sym a k). ring. Qed.
Lemma sumn_sq0 : forall n f, sumn n (fun i => f i * f i) = 0 -> forall i, (i < n)%nat -> f i = 0.
Proof.
  intros n f. induction n as [|n IH]; intros H i Hi; [lia|]. rewrite sumn_S in H.
  assert (0 <= sumn n (fun i => f i * f i)) by (apply sumn_nonneg; intros; nra).
  assert (P : f n * f n = 0) by nra. destruct (Nat.eq_dec i n) as [->|NE]; [nra|]. apply IH; [nra|lia].
Qed.

(** ** Products of vectors *)
Lemma dotv_sym : forall m x y, dotv m x y = dotv m y x.
Proof. intros. unfold dotv. apply sumn_ext. intros. ring. Qed.
Lemma dotv_ext : forall m x y x' y', (forall i, (i < m)%nat -> x i = x' i) -> (forall i, (i < m)%nat -> y i = y' i) -> dotv m x y = dotv m x' y'.
Proof. intros. unfold dotv. apply sumn_ext. intros. rewrite H, H0 by auto. ring. Qed.
Lemma dotv_sum_r : forall m t x (F : nat -> nat -> R), dotv m x (fun i => sumn t (fun a => F a i)) = sumn t (fun a => dotv m x (F a)).
Proof.
  intros. unfold dotv. rewrite sumn_swap2. apply sumn_ext. intros i _. rewrite <- sumn_scal. reflexivity.
Qed.
Lemma dotv_scal_r : forall m c x y, dotv m x (fun i => c * y i) = c * dotv m x y.
Proof. intros. unfold dotv. rewrite <- sumn_scal. apply sumn_ext. intros. ring. Qed.
Lemma dotv_sub_r : forall m x y z, dotv m x (fun i => y i - z i) = dotv m x y - dotv m x z.
Proof. intros. unfold dotv. rewrite <- sumn_minus. apply sumn_ext. intros. ring. Qed.
Lemma dotv_sub_l : forall m x y z, dotv m (fun i => y i - z i) x = dotv m y x - dotv m z x.
Proof. intros. rewrite dotv_sym, dotv_sub_r, (dotv_sym m x y), (dotv_sym m x z). reflexivity. Qed.
Lemma dotv_self : forall m x, 0 <= dotv m x x.
Proof. intros. apply sumn_nonneg. intros. nra. Qed.
Lemma dotv_0 : forall m x, dotv m x x = 0 -> forall i, (i < m)%nat -> x i = 0.
Proof. intros m x H. apply sumn_sq0. exact H. Qed.
(** [(C w) . (C w')] *)
Lemma dotv_apply : forall m n (C : mat) w w',
  dotv m (fun i => sumn n (fun j => C i j * w j)) (fun i => sumn n (fun j => C i j * w' j))
  = sumn n (fun j => sumn n (fun j' => w j * w' j' * sumn m (fun i => C i j * C i j'))).
Proof.
  intros. unfold dotv.
  rewrite (sumn_ext m _ (fun i => sumn n (fun j => sumn n (fun j' => w j * w' j' * (C i j * C i j'))))).
  - rewrite sumn_swap2. apply sumn_ext. intros j _. rewrite sumn_swap2. apply sumn_ext. intros j' _. apply sumn_scal.
  - intros i _. rewrite <- sumn_scal_r. apply sumn_ext. intros j _. rewrite <- sumn_scal. apply sumn_ext. intros. ring.
Qed.

(** ** Orthonormal families *)
Lemma orth_cols : forall m t u, orthonormal m t u <-> orthonormal_cols m t u.
Proof. intros. unfold orthonormal, orthonormal_cols, mmul, tr, dotv, delta. tauto. Qed.
Lemma bessel : forall m t b x, orthonormal_cols m t b -> sumn t (fun a => dotv m x (fun i => b i a) ^ 2) <= dotv m x x.
Proof.
  intros m t b x O. set (p := fun a => dotv m x (fun i => b i a)).
  assert (P : forall y, dotv m y (fun i => sumn t (fun a => p a * b i a)) = sumn t (fun a => p a * dotv m y (fun i => b i a))).
  { intros y. rewrite (dotv_sum_r m t y (fun a i => p a * b i a)). apply sumn_ext. intros a _. now rewrite dotv_scal_r. }
  set (y := fun i => sumn t (fun a => p a * b i a)) in *.
  assert (XY : dotv m x y = sumn t (fun a => p a ^ 2)) by (rewrite P; apply sumn_ext; intros a _; unfold p; ring).
  assert (YY : dotv m y y = sumn t (fun a => p a ^ 2)).
  { rewrite P. apply sumn_ext. intros a Ha. rewrite dotv_sym, P.
    rewrite (sumn_ext t _ (fun a' => p a' * delta a' a)); [rewrite sumn_delta by exact Ha; ring|].
    intros a' Ha'. rewrite dotv_sym. unfold delta. rewrite (O a' a Ha' Ha). reflexivity. }
  assert (H := dotv_self m (fun i => x i - y i)).
  rewrite dotv_sub_r, !dotv_sub_l, (dotv_sym m y x), XY, YY in H.
  change (sumn t (fun a => p a ^ 2) <= dotv m x x). lra.
Qed.

(** ** Spectral expansions *)
(** [T] is the sum of [s a ^ 2 * b a * (b a)^T] over [a < r], with orthonormal [b] and positive, descending [s] *)
Record spectral (m : nat) (T : mat) (r : nat) (b : mat) (s : nat -> R) : Prop := {
  sp_orth : orthonormal_cols m r b;
  sp_pos : forall a, (a < r)%nat -> 0 < s a;
  sp_desc : forall a a', (a <= a')%nat -> (a' < r)%nat -> s a' <= s a;
  sp_sum : forall i j, (i < m)%nat -> (j < m)%nat -> T i j = gram r b s i j;
}.

Lemma positive_prefix : forall t s, (forall a, (a < t)%nat -> 0 <= s a) -> (forall a b, (a <= b)%nat -> (b < t)%nat -> s b <= s a) ->
  exists r, (r <= t)%nat /\ (forall a, (a < r)%nat -> 0 < s a) /\ forall a, (r <= a)%nat -> (a < t)%nat -> s a = 0.
Proof.
  induction t as [|t IH]; intros s NN D; [exists O; repeat split; intros; lia|].
  destruct (IH s) as (r & Hr & P & Zr); [intros; apply NN; lia|intros; apply D; lia|].
  destruct (Rlt_dec 0 (s t)) as [L|L].
  - exists (S t). repeat split; [lia| |intros; lia]. intros a Ha. assert (s t <= s a) by (apply D; lia). lra.
  - exists r. repeat split; [lia|exact P|]. intros a H1 H2. destruct (Nat.eq_dec a t) as [->|NE]; [assert (0 <= s t) by (apply NN; lia); lra|apply Zr; lia].
Qed.

Lemma gram_prefix : forall t r u s i j, (r <= t)%nat -> (forall a, (r <= a)%nat -> (a < t)%nat -> s a = 0) -> gram t u s i j = gram r u s i j.
Proof.
  intros t r u s i j H Z0. unfold gram. replace t with (r + (t - r))%nat by lia. rewrite sumn_split, (sumn_all0 (t - r)); [lra|].
  intros k Hk. rewrite Z0 by lia. ring.
Qed.

Lemma gram_apply : forall m r b s x i, sumn m (fun j => gram r b s i j * x j) = sumn r (fun a => s a ^ 2 * b i a * dotv m x (fun j => b j a)).
Proof.
  intros. unfold gram.
  rewrite (sumn_ext m _ (fun j => sumn r (fun a => s a ^ 2 * b i a * (x j * b j a)))) by (intros j _; rewrite <- sumn_scal_r; apply sumn_ext; intros; ring).
  rewrite sumn_swap2. apply sumn_ext. intros a _. rewrite sumn_scal. reflexivity.
Qed.

Lemma gram_quad : forall m r b s x, quad m (gram r b s) x = sumn r (fun a => s a ^ 2 * dotv m x (fun j => b j a) ^ 2).
Proof.
  intros. unfold quad. rewrite (dotv_ext m x _ x (fun i => sumn r (fun a => s a ^ 2 * dotv m x (fun j => b j a) * b i a))); [|reflexivity|].
  - rewrite (dotv_sum_r m r x (fun a i => s a ^ 2 * dotv m x (fun j => b j a) * b i a)). apply sumn_ext. intros a _.
    rewrite dotv_scal_r. ring.
  - intros i _. unfold apply. rewrite gram_apply. apply sumn_ext. intros. ring.
Qed.

Lemma quad_ext : forall m T T' x, (forall i j, (i < m)%nat -> (j < m)%nat -> T i j = T' i j) -> quad m T x = quad m T' x.
Proof. intros. unfold quad. apply dotv_ext; [reflexivity|]. intros i Hi. unfold apply. apply sumn_ext. intros j Hj. now rewrite H. Qed.

Lemma trace_gram : forall m n u s, trace m (gram n u s) = sumn n (fun a => s a ^ 2 * dotv m (fun i => u i a) (fun i => u i a)).
Proof. intros. unfold trace, gram. rewrite sumn_swap2. apply sumn_ext. intros a _. now rewrite sumn_scal. Qed.

Lemma trace_orth : forall m n u s, orthonormal_cols m n u -> trace m (gram n u s) = sumn n (fun a => s a ^ 2).
Proof. intros. rewrite trace_gram. apply sumn_ext. intros a Ha. rewrite H by exact Ha. rewrite Nat.eqb_refl. ring. Qed.

Lemma trace_ext : forall m T T', (forall i j, (i < m)%nat -> (j < m)%nat -> T i j = T' i j) -> trace m T = trace m T'.
Proof. intros. unfold trace. apply sumn_ext. intros. apply H; lia. Qed.

Lemma spectral_top : forall m T r b s n, spectral m T r b s -> (n <= r)%nat -> top_eigen m T n b s.
Proof.
  intros m T r b s n [O P D E] Hn. split.
  - intros a a' Ha Ha'. apply O; lia.
  - intros a i Ha Hi. unfold apply. rewrite (sumn_ext m _ (fun j => gram r b s i j * b j a)) by (intros; rewrite E by assumption; reflexivity).
    rewrite gram_apply. rewrite (sumn_ext r _ (fun c => s c ^ 2 * b i c * delta c a)).
    + rewrite sumn_delta by lia. reflexivity.
    + intros c Hc. rewrite (O a c) by lia. rewrite delta_sym. reflexivity.
  - intros a a' H1 H2. apply D; lia.
  - intros a Ha. apply P. lia.
  - intros x Hx a Ha. rewrite (quad_ext m T (gram r b s) x E), gram_quad.
    apply Rle_trans with (sumn r (fun c => s a ^ 2 * dotv m x (fun j => b j c) ^ 2)).
    + apply sumn_le. intros c Hc. destruct (le_lt_dec n c) as [L|L].
      * apply Rmult_le_compat_r; [nra|]. assert (s c <= s a) by (apply D; lia). assert (0 < s c) by (apply P; lia). nra.
      * rewrite (Hx c L). lra.
    + rewrite sumn_scal. apply Rmult_le_compat_l; [nra|]. apply bessel. exact O.
Qed.

(** ** Singular values *)
Lemma svd_gram : forall m n K u s i j, svd_of m n K u s -> (i < m)%nat -> (j < m)%nat ->
  mmul n K (tr K) i j = gram (Nat.min m n) u s i j.
Proof.
  intros m n K u s i j (_ & _ & _ & v & OV & E) Hi Hj. set (t := Nat.min m n) in *. unfold mmul, tr.
  rewrite (sumn_ext n _ (fun l => sumn t (fun a => sumn t (fun b => (u i a * s a) * (u j b * s b) * (v l a * v l b))))).
  - rewrite sumn_swap2. unfold gram. apply sumn_ext. intros a Ha. rewrite sumn_swap2.
    rewrite (sumn_ext t _ (fun b => u i a * s a * (u j b * s b) * delta b a)).
    + rewrite sumn_delta by exact Ha. ring.
    + intros b Hb. rewrite sumn_scal, (delta_sym b a). f_equal. exact (OV a b Ha Hb).
  - intros l Hl. rewrite (E i l Hi Hl), (E j l Hj Hl). rewrite <- sumn_scal_r. apply sumn_ext. intros a _. rewrite <- sumn_scal. apply sumn_ext. intros. ring.
Qed.

Definition psd (m : nat) (X : mat) : Prop := forall x, 0 <= quad m X x.
Definition symmetric (m : nat) (X : mat) : Prop := forall i j, (i < m)%nat -> (j < m)%nat -> X i j = X j i.

(** the decomposition of a symmetric matrix without negative eigenvalues is its spectral decomposition *)
Lemma svd_psd : forall m X u s i j, svd_of m m X u s -> symmetric m X -> psd m X -> (i < m)%nat -> (j < m)%nat ->
  X i j = sumn m (fun a => s a * (u i a * u j a)).
Proof.
  intros m X u s i j (OU & NN & _ & v & OV & E) SY PS Hi Hj. rewrite Nat.min_id in *.
  (* X v_a = s_a u_a and X u_a = s_a v_a *)
  assert (XV : forall a k, (a < m)%nat -> (k < m)%nat -> apply m X (fun l => v l a) k = s a * u k a).
  { intros a k Ha Hk. unfold apply. rewrite (sumn_ext m _ (fun l => sumn m (fun b => u k b * s b * (v l b * v l a)))).
    - rewrite sumn_swap2. rewrite (sumn_ext m _ (fun b => u k b * s b * delta b a)); [rewrite sumn_delta by exact Ha; ring|].
      intros b Hb. rewrite sumn_scal. f_equal. exact (OV b a Hb Ha).
    - intros l Hl. rewrite (E k l Hk Hl), <- sumn_scal_r. apply sumn_ext. intros. ring. }
  assert (XU : forall a k, (a < m)%nat -> (k < m)%nat -> apply m X (fun l => u l a) k = s a * v k a).
  { intros a k Ha Hk. unfold apply. rewrite (sumn_ext m _ (fun l => sumn m (fun b => v k b * s b * (u l b * u l a)))).
    - rewrite sumn_swap2. rewrite (sumn_ext m _ (fun b => v k b * s b * delta b a)); [rewrite sumn_delta by exact Ha; ring|].
      intros b Hb. rewrite sumn_scal. f_equal. exact (OU b a Hb Ha).
    - intros l Hl. rewrite (SY k l Hk Hl), (E l k Hl Hk), <- sumn_scal_r. apply sumn_ext. intros. ring. }
  (* with y = v_a - u_a: X y = - s_a y *)
  assert (EQ : forall a k, (a < m)%nat -> (k < m)%nat -> s a * v k a = s a * u k a).
  { intros a k Ha Hk. set (y := fun l => v l a - u l a).
    assert (XY : forall l, (l < m)%nat -> apply m X y l = - s a * y l).
    { intros l Hl. unfold apply, y. rewrite (sumn_ext m _ (fun j0 => X l j0 * v j0 a - X l j0 * u j0 a)) by (intros; ring).
      rewrite sumn_minus. change (apply m X (fun l0 => v l0 a) l - apply m X (fun l0 => u l0 a) l = - s a * (v l a - u l a)).
      rewrite XV, XU by assumption. ring. }
    assert (Q : quad m X y = - s a * dotv m y y).
    { unfold quad. rewrite (dotv_ext m y _ y (fun l => - s a * y l)); [apply dotv_scal_r|reflexivity|exact XY]. }
    assert (P := PS y). assert (SA := NN a Ha). assert (DY := dotv_self m y).
    destruct (Req_dec (s a) 0) as [->|NZ]; [ring|]. assert (DZ : dotv m y y = 0) by nra.
    assert (Y0 := dotv_0 m y DZ k Hk). unfold y in Y0. f_equal. lra. }
  rewrite (E i j Hi Hj). apply sumn_ext. intros a Ha. rewrite Rmult_assoc, (EQ a j Ha Hj). ring.
Qed.

Lemma outer_sym : forall m n K, symmetric m (mmul n K (tr K)).
Proof. intros m n K i j _ _. unfold mmul, tr. apply sumn_ext. intros. ring. Qed.
Lemma outer_psd : forall m n K, psd m (mmul n K (tr K)).
Proof.
  intros m n K x. rewrite (quad_ext m _ (gram n K (fun _ => 1))).
  - rewrite gram_quad. apply sumn_nonneg. intros. nra.
  - intros i j _ _. unfold mmul, tr, gram. apply sumn_ext. intros. ring.
Qed.
Lemma pow_sqrt : forall x, 0 <= x -> sqrt x ^ 2 = x.
Proof. intros x H. cbn. rewrite Rmult_1_r. now apply sqrt_sqrt. Qed.

Lemma svd_square_gram : forall m X u s i j, svd_of m m X u s -> symmetric m X -> psd m X -> (i < m)%nat -> (j < m)%nat ->
  X i j = gram m u (fun a => sqrt (s a)) i j.
Proof.
  intros m X u s i j SV SY PS Hi Hj. rewrite (svd_psd m X u s i j SV SY PS Hi Hj). unfold gram. apply sumn_ext. intros a Ha.
  destruct SV as (_ & NN & _). rewrite Nat.min_id in NN. rewrite pow_sqrt by (apply NN; exact Ha). reflexivity.
Qed.

(** as many orthonormal columns as rows: the rows are orthonormal, too *)
Lemma square_orth : forall m q, orthonormal_cols m m q -> forall i j, (i < m)%nat -> (j < m)%nat -> sumn m (fun a => q i a * q j a) = delta i j.
Proof.
  intros m q O. set (len := fun i => sumn m (fun a => q i a * q i a)).
  assert (B : forall i, (i < m)%nat -> len i <= 1).
  { intros i Hi. assert (H := bessel m m q (fun k => delta k i) O).
    assert (E : forall a, dotv m (fun k => delta k i) (fun k => q k a) = q i a).
    { intros a. unfold dotv. rewrite (sumn_ext m _ (fun k => q k a * delta k i)) by (intros; ring). now rewrite sumn_delta. }
    rewrite (sumn_ext m _ (fun a => q i a * q i a)) in H by (intros a _; rewrite E; ring).
    unfold dotv in H. rewrite sumn_delta in H by exact Hi. unfold delta in H. rewrite Nat.eqb_refl in H. exact H. }
  assert (S1 : sumn m len = INR m).
  { unfold len. rewrite sumn_swap2. rewrite (sumn_ext m _ (fun _ => 1)).
    - clear. induction m as [|m IH]; [reflexivity|]. rewrite sumn_S, IH, S_INR. reflexivity.
    - intros a Ha. assert (H := O a a Ha Ha). rewrite Nat.eqb_refl in H. exact H. }
  assert (L1 : forall i, (i < m)%nat -> len i = 1).
  { intros i Hi. assert (D : sumn m (fun i => 1 - len i) = 0).
    { rewrite sumn_minus, S1. assert (sumn m (fun _ => 1) = INR m); [|lra]. clear. induction m as [|m IH]; [reflexivity|]. rewrite sumn_S, IH, S_INR. reflexivity. }
    assert (Q : forall i, (i < m)%nat -> sqrt (1 - len i) = 0).
    { apply sumn_sq0. rewrite <- D. apply sumn_ext. intros k Hk. apply sqrt_sqrt. specialize (B k Hk). lra. }
    specialize (Q i Hi). apply sqrt_eq_0 in Q; [lra|]. specialize (B i Hi). lra. }
  (* z = delta_i - Q Q^T delta_i has length 0 *)
  intros i j Hi Hj. set (y := fun k => sumn m (fun a => q i a * q k a)).
  assert (P : forall x, dotv m x y = sumn m (fun a => q i a * dotv m x (fun k => q k a))).
  { intros x. unfold y. rewrite (dotv_sum_r m m x (fun a k => q i a * q k a)). apply sumn_ext. intros. apply dotv_scal_r. }
  assert (E : forall a, dotv m (fun k => delta k i) (fun k => q k a) = q i a).
  { intros a. unfold dotv. rewrite (sumn_ext m _ (fun k => q k a * delta k i)) by (intros; ring). now rewrite sumn_delta. }
  assert (XY : dotv m (fun k => delta k i) y = 1) by (rewrite P, <- (L1 i Hi); apply sumn_ext; intros; now rewrite E).
  assert (YY : dotv m y y = 1).
  { rewrite P, <- (L1 i Hi). apply sumn_ext. intros a Ha. f_equal. rewrite dotv_sym, P.
    rewrite (sumn_ext m _ (fun b => q i b * delta b a)); [now rewrite sumn_delta|]. intros b Hb. f_equal.
    rewrite delta_sym. exact (O a b Ha Hb). }
  assert (XX : dotv m (fun k => delta k i) (fun k => delta k i) = 1).
  { unfold dotv. rewrite sumn_delta by exact Hi. unfold delta. now rewrite Nat.eqb_refl. }
  assert (D0 : dotv m (fun k => delta k i - y k) (fun k => delta k i - y k) = 0).
  { rewrite dotv_sub_r, !dotv_sub_l, (dotv_sym m y), XX, XY, YY. ring. }
  assert (F := dotv_0 _ _ D0 j Hj). cbv beta in F. unfold y in F. rewrite (delta_sym i j). lra.
Qed.

(** ** clip_spectrum *)
Lemma sumn_mono : forall n e i j, (forall a, (a < n)%nat -> 0 <= e a) -> (i <= j)%nat -> (j <= n)%nat -> sumn i e <= sumn j e.
Proof.
  intros n e i j NN H1 H2. replace j with (i + (j - i))%nat by lia. rewrite sumn_split.
  assert (0 <= sumn (j - i) (fun k => e (i + k)%nat)) by (apply sumn_nonneg; intros; apply NN; lia). lra.
Qed.
Lemma filter_prefix_len : forall n (f : nat -> bool), (forall i j, (i <= j)%nat -> (j < n)%nat -> f j = true -> f i = true) ->
  let c := length (filter f (seq 0 n)) in (c <= n)%nat /\ (forall i, (i < c)%nat -> f i = true) /\ forall i, (c <= i)%nat -> (i < n)%nat -> f i = false.
Proof.
  induction n as [|n IH]; intros f M; cbv zeta; [cbn; repeat split; intros; lia|].
  rewrite seq_S, filter_app, app_length. cbn [Nat.add filter]. destruct (IH f) as (L & A & B); [intros; eapply M; eauto; lia|].
  set (c := length (filter f (seq 0 n))) in *. destruct (f n) eqn:E; cbn [length].
  - assert (c = n). { destruct (le_lt_dec n c); [lia|]. assert (f c = true) by (apply (M c n); [lia|lia|exact E]). rewrite (B c) in H; [discriminate|lia|lia]. }
    repeat split; [lia| |intros; lia]. intros i Hi. destruct (Nat.eq_dec i n) as [->|]; [exact E|apply A; lia].
  - rewrite Nat.add_0_r. repeat split; [lia|exact A|]. intros i H1 H2. destruct (Nat.eq_dec i n) as [->|]; [exact E|apply B; lia].
Qed.

Lemma clip_spec : forall n e k discard, (0 < n)%nat -> (0 < k)%nat -> 0 <= discard -> (forall a, (a < n)%nat -> 0 <= e a) ->
  exists j, clip_spectrum n e k discard = Ok j /\
    (sumn n e = 0 -> j = 1%nat) /\ (0 < sumn n e -> least_leading n e k (Rmin discard (1 / INR k)) j).
Proof.
  intros n e k discard Hn Hk Hd NN. unfold clip_spectrum. destruct (Nat.eqb_spec k 0) as [->|_]; [lia|].
  set (total := sumn n e). set (thr := Rmin discard (1 / INR k)).
  assert (TN : 0 <= total) by (apply sumn_nonneg; exact NN).
  assert (IK : 0 < INR k) by (apply lt_0_INR; lia).
  assert (TH : 0 <= thr) by (apply Rmin_glb; [exact Hd|unfold Rdiv; rewrite Rmult_1_l; apply Rlt_le, Rinv_0_lt_compat; exact IK]).
  destruct (Req_EM_T total 0) as [T0|T0].
  - assert (F : forall l, filter (fun _ : nat => false) l = []) by (induction l; auto). rewrite F. cbn [length].
    replace (Nat.min k (1 + 0)) with 1%nat by lia. destruct (Nat.ltb_spec (1 - 1) n); [|lia]. exists 1%nat. repeat split; lra.
  - set (f := fun i => if Rlt_dec thr (Rabs (1 - sumn (S i) (fun j => e j / total))) then true else false).
    assert (REL : forall i, (i < n)%nat -> Rabs (1 - sumn (S i) (fun j => e j / total)) = (total - sumn (S i) e) / total).
    { intros i Hi. rewrite (sumn_ext (S i) _ (fun j => e j * / total)) by reflexivity. rewrite sumn_scal_r.
      assert (sumn (S i) e <= total) by (apply (sumn_mono n); [exact NN|lia|lia]).
      replace (1 - sumn (S i) e * / total) with ((total - sumn (S i) e) / total) by (field; exact T0).
      apply Rabs_right. apply Rle_ge. apply Rmult_le_pos; [lra|]. apply Rlt_le, Rinv_0_lt_compat. lra. }
    assert (FT : forall i, (i < n)%nat -> f i = true <-> thr * total < total - sumn (S i) e).
    { intros i Hi. unfold f. rewrite (REL i Hi). assert (0 < total) by lra.
      assert (EQ : (total - sumn (S i) e) / total * total = total - sumn (S i) e) by (field; lra).
      destruct (Rlt_dec thr ((total - sumn (S i) e) / total)) as [L|L]; split; intros H'; try discriminate; try reflexivity.
      - rewrite <- EQ. apply Rmult_lt_compat_r; assumption.
      - exfalso. apply L. apply Rmult_lt_reg_r with total; [lra|]. rewrite EQ. exact H'. }
    destruct (filter_prefix_len n f) as (L & A & B).
    { intros i j H1 H2 H3. apply FT; [lia|]. apply FT in H3; [|lia]. assert (sumn (S i) e <= sumn (S j) e) by (apply (sumn_mono n); [exact NN|lia|lia]). lra. }
    set (c := length (filter f (seq 0 n))) in *.
    assert (CN : (c < n)%nat).
    { destruct (le_lt_dec n c); [|assumption]. exfalso. assert (c = n) by lia. assert (X : f (n - 1)%nat = true) by (apply A; lia).
      apply FT in X; [|lia]. replace (S (n - 1)) with n in X by lia. fold total in X. nra. }
    exists (Nat.min k (1 + c)). destruct (Nat.ltb_spec (Nat.min k (1 + c) - 1) n); [|lia]. split; [reflexivity|]. split; [lra|]. intros _. split.
    + lia.
    + lia.
    + intros H'. assert (F := B c). replace (Nat.min k (1 + c)) with (S c) by lia.
      destruct (Rle_dec (sumn n e - sumn (S c) e) (thr * sumn n e)) as [Y|Y]; [exact Y|]. exfalso.
      assert (f c = true) by (apply FT; [lia|]; fold total in Y; lra). rewrite F in H0; [discriminate|lia|lia].
    + intros i Hi. assert (X : f (i - 1)%nat = true) by (apply A; lia). apply FT in X; [|lia]. replace (S (i - 1)) with i in X by lia. exact X.
Qed.
