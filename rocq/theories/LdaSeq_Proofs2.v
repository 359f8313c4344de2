(** The derivatives of the objective; the bound of a chain. *)
From Coq Require Import Reals Lra Psatz Lia.
From Verif Require Import Base MatReal_Model LdaTrain_Model LdaTrain_Proofs2 SoftCosine_Model Lsi_Linear LdaSeq_Model LdaSeq_Spec LdaSeq_Proofs.
Local Open Scope R_scope.

Lemma dl_ext : forall f g x d, (forall y, f y = g y) -> derivable_pt_lim f x d -> derivable_pt_lim g x d.
Proof. intros f g x d E H eps He. destruct (H eps He) as [delta D]. exists delta. intros h Hh Hd. rewrite <- !E. now apply D. Qed.
Lemma dl_val : forall f x d d', d = d' -> derivable_pt_lim f x d -> derivable_pt_lim f x d'.
Proof. intros; now subst. Qed.
Lemma dl_sumn : forall n (F : nat -> R -> R) (D : nat -> R) x, (forall k, (k < n)%nat -> derivable_pt_lim (F k) x (D k)) -> derivable_pt_lim (fun y => sumn n (fun k => F k y)) x (sumn n D).
Proof.
  intros n F D x. induction n as [|n IH]; intros H.
  - apply (dl_ext (fun _ => 0)); [intros; now rewrite sumn_0|]. rewrite sumn_0. apply derivable_pt_lim_const.
  - apply (dl_ext (fun y => sumn n (fun k => F k y) + F n y)); [intros; now rewrite sumn_S|]. rewrite sumn_S.
    apply (derivable_pt_lim_plus (fun y => sumn n (fun k => F k y)) (F n)); [apply IH; intros; apply H; lia | apply H; lia].
Qed.
Lemma dl_lin : forall a b x, derivable_pt_lim (fun y => a + (y - x) * b) x b.
Proof.
  intros a b x. apply (dl_val _ _ (0 + ((1 - 0) * b + (x - x) * 0))); [ring|].
  apply (derivable_pt_lim_plus (fun _ => a) (fun t => (t - x) * b)); [apply derivable_pt_lim_const|].
  apply (derivable_pt_lim_mult (fun t => t - x) (fun _ => b)); [|apply derivable_pt_lim_const].
  apply (derivable_pt_lim_minus (fun t => t) (fun _ => x)); [apply derivable_pt_lim_id | apply derivable_pt_lim_const].
Qed.
Lemma dl_sq : forall a b x, derivable_pt_lim (fun y => (a + (y - x) * b) * (a + (y - x) * b)) x (2 * (a * b)).
Proof.
  intros a b x. eapply dl_val; [|apply (derivable_pt_lim_mult (fun y => a + (y - x) * b) (fun y => a + (y - x) * b)); apply dl_lin]. cbn beta. ring.
Qed.
Lemma dl_exp : forall a b x c, derivable_pt_lim (fun y => exp (a + (y - x) * b + c)) x (exp (a + c) * b).
Proof.
  intros a b x c. apply (dl_val _ _ (exp (a + (x - x) * b + c) * (b + 0))).
  { replace (a + (x - x) * b + c) with (a + c) by ring. ring. }
  apply (derivable_pt_lim_comp (fun y => a + (y - x) * b + c) exp); [|apply derivable_pt_lim_exp].
  apply (derivable_pt_lim_plus (fun y => a + (y - x) * b) (fun _ => c)); [apply dl_lin | apply derivable_pt_lim_const].
Qed.
Lemma dl_scal : forall f x d a, derivable_pt_lim f x d -> derivable_pt_lim (fun y => a * f y) x (a * d).
Proof. intros. now apply (derivable_pt_lim_scal f). Qed.
Lemma dl_plus : forall f g x d e, derivable_pt_lim f x d -> derivable_pt_lim g x e -> derivable_pt_lim (fun y => f y + g y) x (d + e).
Proof. intros. now apply (derivable_pt_lim_plus f g). Qed.

Section Grad.
Variables (T : nat) (r q : R).
Hypotheses (Hr : 0 < r) (Hq : 0 < q).

Lemma mean_deriv_is : forall f time d0, (forall t, (t <= T)%nat -> 0 < f t) -> exists g,
  g 0%nat = 0 /\ (forall t, (t < T)%nat -> g (S t) = (r * g t + (if (time =? t)%nat then f t + q else 0)) / (f t + q + r)) /\ is_mean T q f g (mean_deriv T r q f time d0).
Proof.
  intros f time d0 P. unfold mean_deriv. destruct (Rlt_dec 0 r) as [_|N]; [|lra]. destruct (Req_EM_T q 0) as [E|_]; [lra|].
  destruct (fold_up (fun t x => r / (f (t - 1)%nat + q + r) * x + (if (time =? t - 1)%nat then 1 - r / (f (t - 1)%nat + q + r) else 0)) T (put d0 0%nat 0)) as [A [B _]].
  cbn zeta in A, B |- *. set (g := fold_left _ (seq 1 T) _) in *. exists g.
  destruct (fold_down (fun t x y => q / (f t + q) * x + (1 - q / (f t + q)) * y) T g) as [C D]. cbn zeta in C, D.
  split; [rewrite A; apply put_same|]. split.
  - intros t H. rewrite (B t H). replace (S t - 1)%nat with t by lia. pose proof (P t ltac:(lia)). destruct (time =? t)%nat; field; lra.
  - split; [apply C; lia|]. intros t H. rewrite (D t H). replace (t + 1)%nat with (S t) by lia. pose proof (P t ltac:(lia)). field. lra.
Qed.
Lemma mean_affine : forall f obs i y m0 fm0 m1 fm1 d0, is_fvar T r q f -> forall t, (t <= T)%nat ->
  fst (post_mean T r q f (put obs i y) m1 fm1) t = fst (post_mean T r q f obs m0 fm0) t + (y - obs i) * mean_deriv T r q f i d0 t.
Proof.
  intros f obs i y m0 fm0 m1 fm1 d0 F. unfold post_mean. cbn [fst].
  pose proof (fwd_mean_is T r q Hr Hq f (put obs i y) fm1 F) as [A1 A2]. pose proof (fwd_mean_is T r q Hr Hq f obs fm0 F) as [B1 B2].
  set (g1 := fwd_mean T r q f (put obs i y) fm1) in *. set (g0 := fwd_mean T r q f obs fm0) in *.
  pose proof (bwd_mean_is T r q Hr Hq f g1 m1 F) as [C1 C2]. pose proof (bwd_mean_is T r q Hr Hq f g0 m0 F) as [D1 D2].
  set (h1 := bwd_mean T q f g1 m1) in *. set (h0 := bwd_mean T q f g0 m0) in *.
  destruct (mean_deriv_is f i d0 (fvar_pos T r q Hr Hq f F)) as [g [E1 [E2 [E3 E4]]]]. set (md := mean_deriv T r q f i d0) in *.
  assert (G : forall t, (t <= T)%nat -> g1 t = g0 t + (y - obs i) * g t).
  { intros t. induction t as [|t IH]; intros H; [rewrite A1, B1, E1; ring|].
    rewrite A2, B2, E2 by lia. rewrite IH by lia. pose proof (fvar_pos T r q Hr Hq f F t ltac:(lia)). unfold put.
    rewrite (Nat.eqb_sym i t). destruct (t =? i)%nat eqn:Ei; [apply Nat.eqb_eq in Ei; subst i|]; field; lra. }
  assert (K : forall n t, (t + n = T)%nat -> h1 t = h0 t + (y - obs i) * md t).
  { intros n. induction n as [|n IH]; intros t H.
    - replace t with T by lia. rewrite C1, D1, E3. apply G. lia.
    - rewrite C2, D2, E4 by lia. rewrite (IH (S t)) by lia. rewrite G by lia. pose proof (fvar_pos T r q Hr Hq f F t ltac:(lia)). field. lra. }
  intros t H. apply (K (T - t)%nat). lia.
Qed.
Lemma mean_deriv_last : forall f d0, (forall t, (t <= T)%nat -> 0 < f t) -> (0 < T)%nat -> mean_deriv T r q f (T - 1) d0 T = 1 - r / (f (T - 1)%nat + q + r).
Proof.
  intros f d0 P H. destruct (mean_deriv_is f (T - 1) d0 P) as [g [E1 [E2 [E3 _]]]]. rewrite E3.
  assert (Z0 : forall t, (t < T)%nat -> g t = 0).
  { intros t. induction t as [|t IH]; intros Ht; [exact E1|]. rewrite E2 by lia. rewrite IH by lia.
    destruct (T - 1 =? t)%nat eqn:E; [apply Nat.eqb_eq in E; lia|]. pose proof (P t ltac:(lia)). field. lra. }
  destruct T as [|n]; [lia|]. replace (S n - 1)%nat with n in * by lia. rewrite E2 by lia. rewrite (Z0 n) by lia. rewrite Nat.eqb_refl.
  pose proof (P n ltac:(lia)). field. lra.
Qed.
End Grad.

Lemma f_obs_slope : forall s counts totals word x i, 0 < s_r s -> 0 < s_q s -> is_fvar (s_T s) (s_r s) (s_q s) (s_fvar s word) ->
  forall mtx, (forall j t, (j < s_T s)%nat -> (t <= s_T s)%nat -> mtx j t = mean_deriv (s_T s) (s_r s) (s_q s) (s_fvar s word) j (fun _ => 0) t) -> (i < s_T s)%nat ->
  partial_at (f_obs s counts totals word) x i (df_obs s counts totals mtx word x i).
Proof.
  intros s counts totals word x i Hr Hq F mtx HM Hi. unfold partial_at, df_obs, obs_deriv, f_obs.
  destruct (Rlt_dec 0 (s_q s)) as [_|N]; [|lra]. destruct (Req_EM_T (s_q s) 0) as [E|_]; [lra|].
  set (T := s_T s) in *. set (q := s_q s) in *. set (r := s_r s) in *. set (f := s_fvar s word) in *.
  set (M := fst (post_mean T r q f x (s_mean s word) (s_fmean s word))). set (D := mean_deriv T r q f i (fun _ => 0)).
  assert (AF : forall y t, (t <= T)%nat -> fst (post_mean T r q f (fun j => if (j =? i)%nat then y else x j) (s_mean s word) (s_fmean s word)) t = M t + (y - x i) * D t).
  { intros y t Ht. exact (mean_affine T r q Hr Hq f x i y _ _ _ _ (fun _ => 0) F t Ht). }
  apply (dl_ext (fun y =>
     / (2 * q) * sumn T (fun u => ((M (u + 1)%nat - M u) + (y - x i) * (D (u + 1)%nat - D u)) * ((M (u + 1)%nat - M u) + (y - x i) * (D (u + 1)%nat - D u))) +
     / (2 * 1000 * q) * ((M 0%nat + (y - x i) * D 0%nat) * (M 0%nat + (y - x i) * D 0%nat)) +
     -1 * sumn T (fun u => counts u * (M (u + 1)%nat + (y - x i) * D (u + 1)%nat) + (- (totals u / s_zeta s u)) * exp (M (u + 1)%nat + (y - x i) * D (u + 1)%nat + s_var s word (u + 1)%nat / 2)))).
  { intros y.
    specialize (AF y). set (My := fst (post_mean T r q f (fun j => if (j =? i)%nat then y else x j) (s_mean s word) (s_fmean s word))) in *.
    rewrite (sumn_ext T (fun u => (My (u + 1)%nat - My u) * (My (u + 1)%nat - My u))
      (fun u => ((M (u + 1)%nat - M u) + (y - x i) * (D (u + 1)%nat - D u)) * ((M (u + 1)%nat - M u) + (y - x i) * (D (u + 1)%nat - D u)))).
    2: { intros u Hu. rewrite !AF by lia. ring. }
    rewrite (sumn_ext T (fun u => counts u * My (u + 1)%nat - totals u * exp (My (u + 1)%nat + s_var s word (u + 1)%nat / 2) / s_zeta s u)
      (fun u => counts u * (M (u + 1)%nat + (y - x i) * D (u + 1)%nat) + (- (totals u / s_zeta s u)) * exp (M (u + 1)%nat + (y - x i) * D (u + 1)%nat + s_var s word (u + 1)%nat / 2))).
    2: { intros u Hu. rewrite !AF by lia. unfold Rdiv. ring. }
    rewrite !AF by lia. unfold Rdiv. ring. }
  rewrite (sumn_ext T (fun u => (M (u + 1)%nat - M u) * _) (fun u => (M (u + 1)%nat - M u) * (D (u + 1)%nat - D u))) by (intros u Hu; unfold D; rewrite !HM by lia; reflexivity).
  rewrite (sumn_ext T (fun u => (counts u - _) * _) (fun u => counts u * D (u + 1)%nat + (- (totals u / s_zeta s u)) * (exp (M (u + 1)%nat + s_var s word (u + 1)%nat / 2) * D (u + 1)%nat)))
    by (intros u Hu; unfold D; rewrite !HM by lia; unfold Rdiv; ring).
  rewrite HM by lia. change (mean_deriv T r q f i (fun _ => 0) 0%nat) with (D 0%nat).
  eapply dl_val; [|apply dl_plus; [apply dl_plus|]].
  2: { apply dl_scal. apply dl_sumn. intros k Hk. apply dl_sq. }
  2: { apply dl_scal. apply dl_sq. }
  2: { apply dl_scal. apply dl_sumn. intros k Hk. apply dl_plus; apply dl_scal; [apply dl_lin | apply dl_exp]. }
  cbn beta. rewrite sumn_scal. field. lra.
Qed.

Lemma zero_mean : forall T r q f m0 fm0 x, 0 < r -> 0 < q -> is_fvar T r q f -> (forall t, (t < T)%nat -> x t = 0) -> forall t, (t <= T)%nat -> fst (post_mean T r q f x m0 fm0) t = 0.
Proof.
  intros T r q f m0 fm0 x Hr Hq F X. unfold post_mean. cbn [fst].
  pose proof (fwd_mean_is T r q Hr Hq f x fm0 F) as [A1 A2]. set (g := fwd_mean T r q f x fm0) in *.
  pose proof (bwd_mean_is T r q Hr Hq f g m0 F) as [B1 B2]. set (h := bwd_mean T q f g m0) in *.
  assert (G : forall t, (t <= T)%nat -> g t = 0).
  { intros t. induction t as [|t IH]; intros H; [exact A1|]. rewrite A2, IH, X by lia. pose proof (fvar_pos T r q Hr Hq f F t ltac:(lia)). field. lra. }
  assert (K : forall n t, (t + n = T)%nat -> h t = 0).
  { intros n. induction n as [|n IH]; intros t H; [replace t with T by lia; rewrite B1; apply G; lia|].
    rewrite B2, (IH (S t)), G by lia. pose proof (fvar_pos T r q Hr Hq f F t ltac:(lia)). field. lra. }
  intros t H. apply (K (T - t)%nat). lia.
Qed.
Lemma df_at_zero : forall s word mtx, 0 < s_r s -> 0 < s_q s -> is_fvar (s_T s) (s_r s) (s_q s) (s_fvar s word) -> (0 < s_T s)%nat ->
  df_obs s (fun t => if (t =? s_T s - 1)%nat then 1 else 0) (fun _ => 0) mtx word (fun _ => 0) (s_T s - 1)%nat = - mtx (s_T s - 1)%nat (s_T s).
Proof.
  intros s word mtx Hr Hq F HT. unfold df_obs, obs_deriv. destruct (Req_EM_T (s_q s) 0) as [E|_]; [lra|].
  pose proof (zero_mean (s_T s) (s_r s) (s_q s) (s_fvar s word) (s_mean s word) (s_fmean s word) (fun _ => 0) Hr Hq F (fun _ _ => eq_refl)) as Z0.
  set (M := fst (post_mean _ _ _ _ _ _ _)) in *.
  rewrite (sumn_ext (s_T s) (fun u => (M (u + 1)%nat - M u) * _) (fun _ => 0)) by (intros u Hu; rewrite !Z0 by lia; ring).
  rewrite sumn_zero, (Z0 0%nat) by lia. destruct (s_T s) as [|n] eqn:ET; [lia|]. replace (S n - 1)%nat with n by lia.
  rewrite sumn_S.
  rewrite (sumn_ext n _ (fun _ => 0)).
  2: { intros u Hu. destruct (u =? n)%nat eqn:E; [apply Nat.eqb_eq in E; lia|]. unfold Rdiv. ring. }
  rewrite sumn_zero, Nat.eqb_refl. replace (n + 1)%nat with (S n) by lia. unfold Rdiv. ring.
Qed.

(** ** The bound *)
Definition slice_terms (q : R) (mean var : mat) (zeta : row) (sstats : mat) (totals : row) (n t : nat) : R :=
  sumn n (fun w => sstats w t * mean w (t + 1)%nat) - totals t * ln (zeta t) + sumn n (fun w => ln (var w (t + 1)%nat) / 2) -
  sumn n (fun w => (mean w (t + 1)%nat - mean w t) ^ 2 / (2 * q) - var w (t + 1)%nat / q - ln q).
Lemma bound_fold : forall s sstats totals n a val w,
  fold_left (bound_step s sstats totals) (seq (S a) n) (val, w) =
  (val + sumn n (fun j => slice_terms (s_q s) (s_mean s) (s_var s) (s_zeta s) sstats totals (w - j) (a + j)), (w - n)%nat).
Proof.
  intros s sstats totals n. induction n as [|n IH]; intros a val w.
  - cbn. unfold sumn. cbn. f_equal; [ring | lia].
  - cbn [seq fold_left]. unfold bound_step at 2. rewrite IH. f_equal; [|destruct w; lia].
    change (S n) with (1 + n)%nat. rewrite (sumn_split 1 n). unfold sumn at 5. cbn [seq map]. rewrite Nat.sub_0_r, Nat.add_0_r.
    rewrite (sumn_ext n (fun j => slice_terms _ _ _ _ _ _ (w - (1 + j)) (a + (1 + j))) (fun j => slice_terms (s_q s) (s_mean s) (s_var s) (s_zeta s) sstats totals (match w with O => O | S w' => w' end - j) (S a + j)))
      by (intros j _; f_equal; destruct w; lia).
    unfold Rsum. cbn [fold_right]. unfold slice_terms at 2, term1. replace (S a - 1)%nat with a by lia. replace (a + 1)%nat with (S a) by lia. ring.
Qed.
Lemma compute_bound_is : forall s sstats totals s1 b, compute_bound s sstats totals = Ok (s1, b) ->
  (0 < s_W s)%nat /\ s1 = update_zeta (all_means s) /\
  b = sumn (s_W s1) (fun w => s_var s1 w 0%nat - s_var s1 w (s_T s1)) / 2 * s_q s1 +
      sumn (s_T s1) (fun t => slice_terms (s_q s1) (s_mean s1) (s_var s1) (s_zeta s1) sstats totals (s_W s1 - t) t).
Proof.
  intros s sstats totals s1 b H. unfold compute_bound in H. destruct (s_W s =? 0)%nat eqn:E; [discriminate|]. apply Nat.eqb_neq in E.
  injection H as H1 H2. split; [lia|]. split; [now symmetry|]. rewrite <- H1. rewrite (bound_fold _ sstats totals _ 0) in H2. cbn [fst] in H2. rewrite <- H2.
  f_equal. 
Qed.
