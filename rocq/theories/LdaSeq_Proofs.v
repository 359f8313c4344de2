(** Variances and means of a chain. *)
From Coq Require Import Reals Lra Psatz Lia.
From Verif Require Import Base MatReal_Model LdaTrain_Model LdaTrain_Proofs2 SoftCosine_Model Lsi_Linear LdaSeq_Model LdaSeq_Spec.
Local Open Scope R_scope.

Lemma put_same : forall A (f : nat -> A) i x, put f i x i = x.
Proof. intros; unfold put; now rewrite Nat.eqb_refl. Qed.
Lemma put_other : forall A (f : nat -> A) i j x, j <> i -> put f i x j = f j.
Proof. intros A f i j x H; unfold put; now rewrite (proj2 (Nat.eqb_neq j i) H). Qed.

Lemma fold_up : forall (F : nat -> R -> R) T f0,
  let f := fold_left (fun f t => put f t (F t (f (t - 1)%nat))) (seq 1 T) f0 in
  f 0%nat = f0 0%nat /\ (forall t, (t < T)%nat -> f (S t) = F (S t) (f t)) /\ (forall t, (T < t)%nat -> f t = f0 t).
Proof.
  intros F T f0. induction T as [|T IH]; [cbn; repeat split; intros; lia || reflexivity|].
  rewrite seq_S, fold_left_app. cbn [fold_left Nat.add]. set (g := fold_left _ (seq 1 T) f0) in *. destruct IH as [A [B C]].
  replace (1 + T)%nat with (S T) by lia. replace (S T - 1)%nat with T by lia. repeat split.
  - rewrite put_other by lia. exact A.
  - intros t H. destruct (Nat.eq_dec t T) as [->|H'].
    + rewrite put_same, put_other by lia. reflexivity.
    + rewrite !put_other by lia. apply B. lia.
  - intros t H. rewrite put_other by lia. apply C. lia.
Qed.
Lemma fold_down : forall (G : nat -> R -> R -> R) T v0,
  let v := fold_left (fun v t => put v t (G t (v t) (v (t + 1)%nat))) (rev (seq 0 T)) v0 in
  (forall t, (T <= t)%nat -> v t = v0 t) /\ (forall t, (t < T)%nat -> v t = G t (v0 t) (v (t + 1)%nat)).
Proof.
  intros G T. induction T as [|T IH]; intros v0; [cbn; split; intros; lia || reflexivity|].
  rewrite seq_S, rev_app_distr. cbn [rev app fold_left Nat.add]. specialize (IH (put v0 T (G T (v0 T) (v0 (T + 1)%nat)))). cbn zeta in IH |- *.
  set (v := fold_left _ (rev (seq 0 T)) _) in *. destruct IH as [A B]. split.
  - intros t H. rewrite A by lia. apply put_other. lia.
  - intros t H. destruct (Nat.eq_dec t T) as [->|H'].
    + rewrite A by lia. rewrite put_same. rewrite A by lia. rewrite put_other by lia. reflexivity.
    + rewrite B by lia. now rewrite put_other by lia.
Qed.

(** ** The recursions, with both variances positive *)
Section Chain.
Variables (T : nat) (r q : R).
Hypotheses (Hr : 0 < r) (Hq : 0 < q).

Definition is_fvar (f : row) : Prop := f 0%nat = 1000 * q /\ forall t, (t < T)%nat -> f (S t) = r * (f t + q) / (f t + q + r).
Definition is_var (f v : row) : Prop := v T = f T /\ forall t, (t < T)%nat -> v t = f t * q / (f t + q) + (f t / (f t + q)) ^ 2 * v (S t).
Definition is_fmean (f obs m : row) : Prop := m 0%nat = 0 /\ forall t, (t < T)%nat -> m (S t) = (r * m t + (f t + q) * obs t) / (f t + q + r).
Definition is_mean (f fm m : row) : Prop := m T = fm T /\ forall t, (t < T)%nat -> m t = (q * fm t + f t * m (S t)) / (f t + q).

Lemma fvar_pos : forall f, is_fvar f -> forall t, (t <= T)%nat -> 0 < f t.
Proof.
  intros f [A B] t. induction t as [|t IH]; intros H; [rewrite A; lra|].
  rewrite B by lia. specialize (IH ltac:(lia)). apply Rdiv_lt_0_compat; [apply Rmult_lt_0_compat|]; lra.
Qed.
Lemma fwd_variance_is : forall f0, is_fvar (fwd_variance T r q f0).
Proof.
  intros f0. unfold fwd_variance. destruct (Req_EM_T r 0) as [E|_]; [lra|].
  destruct (fold_up (fun _ x => r / (x + q + r) * (x + q)) T (put f0 0%nat (q * 1000))) as [A [B _]]. cbn zeta in A, B. cbn zeta.
  split; [rewrite A, put_same; ring|]. intros t H. rewrite (B t H). unfold Rdiv. ring.
Qed.
Lemma bwd_variance_is : forall f v0, is_fvar f -> is_var f (bwd_variance T q f v0).
Proof.
  intros f v0 F. unfold bwd_variance.
  destruct (fold_down (fun t _ y => (if Rlt_dec 0 (f t) then (f t / (f t + q)) ^ 2 else 0) * (y - q) + (1 - (if Rlt_dec 0 (f t) then (f t / (f t + q)) ^ 2 else 0)) * f t) T (put v0 T (f T))) as [A B].
  cbn zeta in A, B |- *. split; [rewrite A by lia; apply put_same|]. intros t H. rewrite (B t H).
  pose proof (fvar_pos f F t ltac:(lia)) as P. destruct (Rlt_dec 0 (f t)) as [_|N]; [|lra]. replace (t + 1)%nat with (S t) by lia. field. lra.
Qed.
Lemma fwd_mean_is : forall f obs m0, is_fvar f -> is_fmean f obs (fwd_mean T r q f obs m0).
Proof.
  intros f obs m0 F. unfold fwd_mean.
  destruct (fold_up (fun t x => r / (f (t - 1)%nat + q + r) * x + (1 - r / (f (t - 1)%nat + q + r)) * obs (t - 1)%nat) T (put m0 0%nat 0)) as [A [B _]]. cbn zeta in A, B |- *.
  split; [rewrite A; apply put_same|]. intros t H. rewrite (B t H). replace (S t - 1)%nat with t by lia.
  pose proof (fvar_pos f F t ltac:(lia)) as P. field. lra.
Qed.
Lemma bwd_mean_is : forall f fm m0, is_fvar f -> is_mean f fm (bwd_mean T q f fm m0).
Proof.
  intros f fm m0 F. unfold bwd_mean. destruct (Req_EM_T q 0) as [E|_]; [lra|].
  destruct (fold_down (fun t _ y => q / (f t + q) * fm t + (1 - q / (f t + q)) * y) T (put m0 T (fm T))) as [A B]. cbn zeta in A, B |- *.
  split; [rewrite A by lia; apply put_same|]. intros t H. rewrite (B t H). replace (t + 1)%nat with (S t) by lia.
  pose proof (fvar_pos f F t ltac:(lia)) as P. field. lra.
Qed.
Lemma var_pos : forall f v, is_fvar f -> is_var f v -> forall n t, (t + n = T)%nat -> 0 < v t <= f t /\ ((0 < n)%nat -> v t < f t).
Proof.
  intros f v F [A B] n. induction n as [|n IH]; intros t H.
  - replace t with T by lia. rewrite A. pose proof (fvar_pos f F T ltac:(lia)). split; [lra|lia].
  - destruct (IH (S t) ltac:(lia)) as [P _]. rewrite (B t) by lia. pose proof (fvar_pos f F t ltac:(lia)) as Pt.
    assert (F1 : f (S t) < f t + q).
    { destruct F as [_ F]. rewrite F by lia. apply Rmult_lt_reg_r with (f t + q + r); [lra|]. unfold Rdiv. rewrite Rmult_assoc, Rinv_l by lra. nra. }
    set (x := f t) in *. set (g := x / (x + q)). assert (G : 0 < g) by (unfold g; apply Rdiv_lt_0_compat; lra).
    assert (E : x * q / (x + q) = q * g) by (unfold g; field; lra). rewrite E.
    assert (E2 : q * g + g ^ 2 * (x + q) = x) by (unfold g; field; lra).
    assert (0 < g ^ 2) by nra. assert (g ^ 2 * v (S t) < g ^ 2 * (x + q)) by nra. repeat split; try lra; nra.
Qed.

(** Completing the squares from the front *)
Lemma energy_squares : forall f obs fm, is_fvar f -> is_fmean f obs fm -> forall n b, (n <= T)%nat ->
  energy n r q obs b = sumn n (fun t => (obs t - fm t) ^ 2 / (2 * (f t + q + r))) + (b n - fm n) ^ 2 / (2 * f n) +
    sumn n (fun t => (f t + q) / (2 * (f t * q)) * (b t - (q * fm t + f t * b (S t)) / (f t + q)) ^ 2).
Proof.
  intros f obs fm F M n b. induction n as [|n IH]; intros H.
  - unfold energy. rewrite !sumn_0. destruct F as [F _], M as [M _]. rewrite F, M. field. lra.
  - assert (E : energy (S n) r q obs b = energy n r q obs b + ((b (n + 1)%nat - b n) ^ 2 / (2 * q) + (obs n - b (n + 1)%nat) ^ 2 / (2 * r)))
      by (unfold energy; rewrite sumn_S; ring).
    rewrite E, IH, !sumn_S by lia. replace (n + 1)%nat with (S n) by lia.
    pose proof (fvar_pos f F n ltac:(lia)) as P. destruct F as [_ F], M as [_ M]. rewrite (F n), (M n) by lia.
    set (x := f n) in *. set (y := fm n). set (b' := b (S n)). set (bn := b n). set (o := obs n). set (S1 := sumn n _). set (S2 := sumn n _). field. lra.
Qed.
(** Measured from the means *)
Lemma energy_from_mean : forall f obs fm m, is_fvar f -> is_fmean f obs fm -> is_mean f fm m -> forall b,
  energy T r q obs b = energy T r q obs m + ((b T - m T) ^ 2 / (2 * f T) +
    sumn T (fun t => (f t + q) / (2 * (f t * q)) * ((b t - m t) - f t / (f t + q) * (b (S t) - m (S t))) ^ 2)).
Proof.
  intros f obs fm m F M [A B] b. rewrite (energy_squares f obs fm F M T b) by lia. rewrite (energy_squares f obs fm F M T m) by lia.
  rewrite A. pose proof (fvar_pos f F T ltac:(lia)) as PT.
  rewrite (sumn_ext T (fun t => _ * (m t - _) ^ 2) (fun _ => 0)).
  2: { intros t H. rewrite (B t H). pose proof (fvar_pos f F t ltac:(lia)). field. lra. }
  rewrite sumn_zero.
  rewrite (sumn_ext T (fun t => _ * (b t - _) ^ 2) (fun t => (f t + q) / (2 * (f t * q)) * ((b t - m t) - f t / (f t + q) * (b (S t) - m (S t))) ^ 2)).
  2: { intros t H. f_equal. f_equal. rewrite (B t H). pose proof (fvar_pos f F t ltac:(lia)). field. lra. }
  field. lra.
Qed.
Lemma two_squares : forall g w V x y, 0 < w -> 0 < V ->
  1 / (2 * w) * (x - g * y) ^ 2 + y ^ 2 / (2 * V) = x ^ 2 / (2 * (w + g ^ 2 * V)) + (g * V * x - (w + g ^ 2 * V) * y) ^ 2 / (2 * w * V * (w + g ^ 2 * V)).
Proof. intros g w V x y Hw HV. assert (0 <= g ^ 2 * V) by (apply Rmult_le_pos; nra). field. repeat split; nra. Qed.

Section Tail.
Variables (f v : row).
Hypotheses (F : is_fvar f) (Vv : is_var f v).
Definition piece (d : row) (t : nat) : R := (f t + q) / (2 * (f t * q)) * (d t - f t / (f t + q) * d (S t)) ^ 2.
Definition tail (d : row) (n t : nat) : R := d T ^ 2 / (2 * f T) + sumn n (fun j => piece d (t + j)%nat).
Lemma tail_step : forall d n t, tail d (S n) t = piece d t + tail d n (S t).
Proof.
  intros d n t. unfold tail. change (S n) with (1 + n)%nat. rewrite (sumn_split 1 n). unfold sumn at 1. cbn [seq map Rsum]. rewrite Nat.add_0_r.
  rewrite (sumn_ext n (fun j => piece d (t + (1 + j))%nat) (fun j => piece d (S t + j)%nat)) by (intros; f_equal; lia). unfold Rsum; cbn [fold_right]. ring.
Qed.
Lemma v_step : forall t, (t < T)%nat -> 0 < f t * q / (f t + q) /\ 0 < v (S t) /\ v t = f t * q / (f t + q) + (f t / (f t + q)) ^ 2 * v (S t) /\ (f t + q) / (2 * (f t * q)) = 1 / (2 * (f t * q / (f t + q))).
Proof.
  intros t H. pose proof (fvar_pos f F t ltac:(lia)) as P. destruct (var_pos f v F Vv (T - S t) (S t) ltac:(lia)) as [Q _]. destruct Vv as [_ B].
  split; [apply Rdiv_lt_0_compat; nra|]. split; [lra|]. split; [now apply B|]. field. lra.
Qed.
Lemma tail_ge : forall d n t, (t + n = T)%nat -> d t ^ 2 / (2 * v t) <= tail d n t.
Proof.
  intros d n. induction n as [|n IH]; intros t H.
  - replace t with T by lia. unfold tail. rewrite sumn_0. destruct Vv as [A _]. rewrite A. lra.
  - rewrite tail_step. specialize (IH (S t) ltac:(lia)). destruct (v_step t ltac:(lia)) as [Pw [Pv [E1 E2]]]. unfold piece. rewrite E2.
    pose proof (two_squares (f t / (f t + q)) _ _ (d t) (d (S t)) Pw Pv) as TS. rewrite <- E1 in TS.
    destruct (var_pos f v F Vv (S n) t H) as [Q _].
    assert (0 <= (f t / (f t + q) * v (S t) * d t - v t * d (S t)) ^ 2 / (2 * (f t * q / (f t + q)) * v (S t) * v t)).
    { apply Rmult_le_pos; [apply pow2_ge_0|]. apply Rlt_le, Rinv_0_lt_compat. set (w := f t * q / (f t + q)) in *. clearbody w. repeat apply Rmult_lt_0_compat; lra. }
    lra.
Qed.
Lemma tail_eq : forall d n t, (t + n = T)%nat -> (forall s, (t <= s < T)%nat -> v s * d (S s) = f s / (f s + q) * v (S s) * d s) -> tail d n t = d t ^ 2 / (2 * v t).
Proof.
  intros d n. induction n as [|n IH]; intros t H E.
  - replace t with T by lia. unfold tail. rewrite sumn_0. destruct Vv as [A _]. rewrite A. lra.
  - rewrite tail_step. rewrite (IH (S t)) by (try lia; intros; apply E; lia). destruct (v_step t ltac:(lia)) as [Pw [Pv [E1 E2]]]. unfold piece. rewrite E2.
    pose proof (two_squares (f t / (f t + q)) _ _ (d t) (d (S t)) Pw Pv) as TS. rewrite <- E1 in TS.
    specialize (E t ltac:(lia)). rewrite TS. replace (f t / (f t + q) * v (S t) * d t - v t * d (S t)) with 0 by lra.
    destruct (var_pos f v F Vv (S n) t H) as [Q _]. field. repeat split; nra.
Qed.
Lemma deviations : forall t a, (t <= T)%nat -> exists d, d t = a /\ (forall s, (s < t)%nat -> d s = f s / (f s + q) * d (S s)) /\
  (forall s, (t <= s < T)%nat -> v s * d (S s) = f s / (f s + q) * v (S s) * d s).
Proof.
  intros t a H.
  set (up := fix up n := match n with O => a | S n' => f (t + n')%nat / (f (t + n')%nat + q) * v (S (t + n')) * up n' / v (t + n')%nat end).
  set (dn := fix dn n := match n with O => a | S n' => f (t - S n')%nat / (f (t - S n')%nat + q) * dn n' end).
  exists (fun s => if (s <? t)%nat then dn (t - s)%nat else up (s - t)%nat). repeat split.
  - rewrite (proj2 (Nat.ltb_ge t t)) by lia. now rewrite Nat.sub_diag.
  - intros s Hs. rewrite (proj2 (Nat.ltb_lt s t) Hs). destruct (t - s)%nat as [|k] eqn:Ek; [lia|]. cbn [dn]. replace (t - S k)%nat with s by lia.
    destruct (S s <? t)%nat eqn:L.
    + apply Nat.ltb_lt in L. now replace (t - S s)%nat with k by lia.
    + apply Nat.ltb_ge in L. replace k with 0%nat by lia. now replace (S s - t)%nat with 0%nat by lia.
  - intros s Hs. rewrite (proj2 (Nat.ltb_ge (S s) t)), (proj2 (Nat.ltb_ge s t)) by lia.
    replace (S s - t)%nat with (S (s - t)) by lia. cbn [up]. replace (t + (s - t))%nat with s by lia.
    destruct (var_pos f v F Vv (T - s) s ltac:(lia)) as [Q _]. pose proof (fvar_pos f F s ltac:(lia)). field. lra.
Qed.
End Tail.

Lemma marginals_ok : forall f obs fm m v, is_fvar f -> is_var f v -> is_fmean f obs fm -> is_mean f fm m -> marginals T r q obs m v.
Proof.
  intros f obs fm m v F Vv M Mm t H. destruct (var_pos f v F Vv (T - t) t ltac:(lia)) as [Q _]. split; [lra|].
  assert (SP : forall d, sumn T (piece f d) = sumn t (piece f d) + sumn (T - t) (fun j => piece f d (t + j)%nat)).
  { intros d. rewrite <- sumn_split. f_equal. lia. }
  assert (E : forall b, energy T r q obs b = energy T r q obs m + (sumn t (piece f (fun s => b s - m s)) + tail f (fun s => b s - m s) (T - t) t)).
  { intros b. rewrite (energy_from_mean f obs fm m F M Mm b). unfold tail. change (fun t0 => _ * (b t0 - m t0 - _) ^ 2) with (piece f (fun s => b s - m s)). rewrite SP. ring. }
  assert (NN : forall d n, (n <= T)%nat -> 0 <= sumn n (piece f d)).
  { intros d n Hn. apply sumn_nonneg. intros s Hs. unfold piece. apply Rmult_le_pos; [|apply pow2_ge_0]. pose proof (fvar_pos f F s ltac:(lia)).
    apply Rlt_le, Rdiv_lt_0_compat; nra. }
  split.
  - intros b. rewrite (E b). pose proof (tail_ge f v F Vv (fun s => b s - m s) (T - t) t ltac:(lia)) as G. cbn beta in G.
    specialize (NN (fun s => b s - m s) t H). lra.
  - intros x. destruct (deviations f v F Vv t (x - m t) H) as [d [D0 [D1 D2]]]. exists (fun s => d s + m s). split; [rewrite D0; ring|].
    rewrite (E (fun s => d s + m s)).
    rewrite (sumn_ext t _ (fun _ => 0)).
    2: { intros s Hs. unfold piece. rewrite (D1 s Hs). ring. }
    rewrite sumn_zero, (tail_eq f v F Vv _ (T - t) t) by (try lia; intros s Hs; specialize (D2 s Hs); cbn beta; lra).
    cbn beta. rewrite D0. replace (x - m t + m t - m t) with (x - m t) by ring. ring.
Qed.
End Chain.
