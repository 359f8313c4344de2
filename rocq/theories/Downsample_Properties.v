(** Theorems about downsampling (property C63). *)

From Verif Require Import Base NegSampling_Model NegSampling_Spec NegSampling_Properties Downsample_Model.
From Coq Require Import Reals Lra Lia ZifyNat ZifyBool.
Local Open Scope R_scope.

(** The square of the golden ratio. *)
Definition phi2 : R := (3 + sqrt 5) / 2.
Definition phi : R := (1 + sqrt 5) / 2.
Lemma sqrt5 : 2 < sqrt 5 < 3 /\ sqrt 5 * sqrt 5 = 5.
Proof.
  assert (E : sqrt 5 * sqrt 5 = 5) by (apply sqrt_sqrt; lra). assert (P : 0 <= sqrt 5) by apply sqrt_pos. split; [|exact E]. split; nra.
Qed.
Lemma phi_sq : phi * phi = phi2 /\ phi2 = phi + 1 /\ 1 < phi.
Proof. unfold phi, phi2. destruct sqrt5 as [A B]. repeat split; nra. Qed.

(** With x = v / threshold the probability is (sqrt x + 1) / x. *)
Lemma prob_x : forall t v, 0 < t -> (0 < v)%nat -> exists s, 0 < s /\ s * s = INR v / t /\ word_probability t v = (s + 1) / (s * s).
Proof.
  intros t v T V. assert (Vp : 0 < INR v) by (apply lt_0_INR; exact V). assert (Xp : 0 < INR v / t) by (apply Rdiv_lt_0_compat; assumption).
  exists (sqrt (INR v / t)). split; [apply sqrt_lt_R0; exact Xp|]. assert (E : sqrt (INR v / t) * sqrt (INR v / t) = INR v / t) by (apply sqrt_sqrt; lra). split; [exact E|].
  unfold word_probability. rewrite E. unfold Rdiv at 2. rewrite (Rmult_comm t). unfold Rdiv. rewrite Rinv_mult, Rinv_inv. ring.
Qed.

(** A word is downsampled exactly if it occurs more than phi^2 (about 2.618) times the threshold. *)
Theorem downsampled_iff : forall t v, 0 < t -> (0 < v)%nat -> (downsampled t v = true <-> t * phi2 < INR v).
Proof.
  intros t v T V. destruct (prob_x t v T V) as (s & S & Es & Ep). destruct phi_sq as (F1 & F2 & F3). unfold downsampled. rewrite Ep.
  assert (Ev : INR v = t * (s * s)) by (rewrite Es; field; lra). rewrite Ev.
  assert (A : (s + 1) / (s * s) < 1 <-> s + 1 < s * s).
  { split; intros H.
    - apply (Rmult_lt_compat_r (s * s)) in H; [|nra]. unfold Rdiv in H. rewrite Rmult_assoc, Rinv_l, Rmult_1_r, Rmult_1_l in H by nra. exact H.
    - apply (Rmult_lt_reg_r (s * s)); [nra|]. unfold Rdiv. rewrite Rmult_assoc, Rinv_l, Rmult_1_r, Rmult_1_l by nra. exact H. }
  assert (B : s + 1 < s * s <-> phi < s) by (split; intros H; nra).
  assert (C : phi < s <-> t * phi2 < t * (s * s)) by (rewrite <- F1; split; intros H; [apply Rmult_lt_compat_l; nra | apply Rmult_lt_reg_l in H; [nra | exact T]]).
  destruct (Rlt_dec _ _) as [H|H]; split; intros G; try reflexivity; try discriminate; tauto.
Qed.
Print Assumptions downsampled_iff.

(** More frequent words are never kept with a higher probability; they keep at least the share threshold/count. *)
Theorem probability_decreasing : forall t v v', 0 < t -> (0 < v <= v')%nat -> word_probability t v' <= word_probability t v.
Proof.
  intros t v v' T [V L]. assert (V' : (0 < v')%nat) by lia. destruct (prob_x t v T V) as (s & S & Es & ->). destruct (prob_x t v' T V') as (s' & S' & Es' & ->).
  assert (Ss : s * s <= s' * s') by (rewrite Es, Es'; apply Rmult_le_compat_r; [apply Rlt_le, Rinv_0_lt_compat, T | apply le_INR, L]). assert (Sl : s <= s') by nra.
  replace ((s + 1) / (s * s)) with (/ s + / s * / s) by (field; lra). replace ((s' + 1) / (s' * s')) with (/ s' + / s' * / s') by (field; lra).
  assert (I : / s' <= / s) by (apply Rinv_le_contravar; assumption). assert (0 < / s') by (apply Rinv_0_lt_compat; assumption). nra.
Qed.
Print Assumptions probability_decreasing.
Lemma probability_pos : forall t v, 0 < t -> (0 < v)%nat -> 0 < word_probability t v.
Proof. intros t v T V. destruct (prob_x t v T V) as (s & S & _ & ->). apply Rdiv_lt_0_compat; nra. Qed.

(** The stored integer fits into 32 bits, and the share of the 2^32 random numbers for which an occurrence is kept is the
    probability to within 2^-32. *)
Theorem sample_int_ok : forall t v, 0 < t -> (0 < v)%nat ->
  (0 <= sample_int t v <= 2 ^ 32 - 1)%Z /\
  Z.of_nat (length (filter (fun r => negb (skipped (sample_int t v) r)) (below (2 ^ 32)))) = (sample_int t v + 1)%Z /\
  Rabs (IZR (sample_int t v + 1) / 2 ^ 32 - capped (word_probability t v)) <= / 2 ^ 32.
Proof.
  intros t v T V. set (p := capped (word_probability t v)).
  assert (P : 0 < p <= 1) by (pose proof (probability_pos t v T V); unfold p, capped; destruct (Rlt_dec _ _); lra).
  pose proof (py_floor_spec (p * (2 ^ 32 - 1))) as F. fold (sample_int t v) in F. change (py_floor (p * (2 ^ 32 - 1))) with (sample_int t v) in F.
  assert (E32 : (2 ^ 32 : R) = 4294967296) by lra.
  rewrite E32 in *. assert (R : (0 <= sample_int t v <= 2 ^ 32 - 1)%Z).
  { change (2 ^ 32 - 1)%Z with 4294967295%Z. assert (A : (-1 < sample_int t v)%Z) by (apply lt_IZR; change (IZR (-1)) with (-1); nra). assert (B : (sample_int t v <= 4294967295)%Z) by (apply le_IZR; nra). lia. }
  split; [exact R|]. split.
  - rewrite (count_range (2 ^ 32) _ (-1) (sample_int t v)); [lia | lia | lia | lia|]. intros r Hr. unfold skipped. lia.
  - rewrite plus_IZR. change (IZR 1) with 1. set (q := sample_int t v) in *. clearbody q. assert (Hd : (IZR q + 1) / 4294967296 - p = (IZR q + 1 - p * 4294967296) / 4294967296) by (field; lra). rewrite Hd.
    unfold Rdiv. rewrite Rabs_mult, (Rabs_right (/ 4294967296)) by (apply Rle_ge, Rlt_le, Rinv_0_lt_compat; lra). rewrite <- (Rmult_1_l (/ 4294967296)) at 2. apply Rmult_le_compat_r; [apply Rlt_le, Rinv_0_lt_compat; lra|]. apply Rabs_le. nra.
Qed.
Print Assumptions sample_int_ok.

(** Without sampling no occurrence is ever skipped. *)
Theorem no_sampling : forall total v r, (0 < v <= total)%nat -> (0 <= r < 2 ^ 32)%Z -> skipped (sample_int (threshold_count 0 total) v) r = false.
Proof.
  intros total v r [V L] R. unfold threshold_count. destruct (Req_EM_T 0 0) as [_|]; [|lra]. assert (T : 0 < INR total) by (apply lt_0_INR; lia).
  assert (D : downsampled (INR total) v = false).
  { destruct (downsampled (INR total) v) eqn:E; [|reflexivity]. apply (downsampled_iff _ _ T V) in E. apply le_INR in L. destruct phi_sq as (_ & F2 & F3). exfalso. nra. }
  unfold downsampled in D. destruct (Rlt_dec _ _) as [|N] eqn:E in D; [discriminate|]. unfold sample_int, capped. rewrite E. unfold skipped. rewrite Rmult_1_l.
  replace (py_floor (2 ^ 32 - 1)) with (2 ^ 32 - 1)%Z; [lia|]. symmetry. apply py_floor_unique. change (2 ^ 32 - 1)%Z with 4294967295%Z. lra.
Qed.
Print Assumptions no_sampling.

(** As a share of the corpus: a word is downsampled exactly if its share exceeds about 2.618 times [sample]. *)
Theorem fraction_sampling : forall sample total v, 0 < sample < 1 -> (0 < v <= total)%nat ->
  (downsampled (threshold_count sample total) v = true <-> sample * phi2 < INR v / INR total).
Proof.
  intros sample total v S [V L]. unfold threshold_count. destruct (Req_EM_T sample 0); [lra|]. destruct (Rlt_dec sample 1); [|lra]. assert (T : 0 < INR total) by (apply lt_0_INR; lia).
  rewrite downsampled_iff; [|apply Rmult_lt_0_compat; lra | exact V]. split; intros H.
  - apply (Rmult_lt_reg_r (INR total)); [exact T|]. replace (INR v / INR total * INR total) with (INR v) by (field; lra). lra.
  - apply (Rmult_lt_compat_r (INR total)) in H; [|exact T]. replace (INR v / INR total * INR total) with (INR v) in H by (field; lra). lra.
Qed.
Print Assumptions fraction_sampling.

(** As a count: the comment says that words more frequent than [sample] are downsampled.  No word with a count up to
    4 * sample is. *)
Theorem count_sampling_lenient : forall sample total v, 1 <= sample -> (0 < v)%nat -> INR v <= 4 * sample -> downsampled (threshold_count sample total) v = false.
Proof.
  intros sample total v S V L. unfold threshold_count. destruct (Req_EM_T sample 0); [lra|]. destruct (Rlt_dec sample 1); [lra|]. set (f := IZR (py_floor (sample * (3 + sqrt 5) / 2))).
  pose proof (py_floor_spec (sample * (3 + sqrt 5) / 2)) as F. fold f in F. destruct sqrt5 as [A B]. assert (B2 : 2.2 < sqrt 5) by nra.
  assert (Fp : 1.6 * sample <= f) by nra. assert (T : 0 < f) by lra. destruct (downsampled f v) eqn:E; [|reflexivity]. apply (downsampled_iff _ _ T V) in E. unfold phi2 in E. exfalso. nra.
Qed.
Print Assumptions count_sampling_lenient.
Theorem count_sampling_refuted : exists sample total v, 1 <= sample /\ sample < INR v /\ downsampled (threshold_count sample total) v = false.
Proof.
  exists 10, 1000%nat, 40%nat. replace (INR 40) with 40 by (cbn; lra). split; [lra|]. split; [lra|]. apply count_sampling_lenient; [lra | lia |]. replace (INR 40) with 40 by (cbn; lra). lra.
Qed.
(** Dividing by phi^2 would give what the comment promises. *)
Theorem count_sampling_intended : forall sample v, 1 <= sample -> (0 < v)%nat -> (downsampled (sample / phi2) v = true <-> sample < INR v).
Proof.
  intros sample v S V. destruct phi_sq as (_ & F2 & F3). assert (P : 0 < phi2) by lra. rewrite downsampled_iff; [|apply Rdiv_lt_0_compat; lra | exact V].
  unfold Rdiv. rewrite Rmult_assoc, Rinv_l, Rmult_1_r by lra. reflexivity.
Qed.
Print Assumptions count_sampling_intended.
(** A concrete word: four times the threshold, probability (2 + 1) / 4. *)
Example sample_ex : word_probability 10 40 = 3 / 4 /\ sample_int 10 40 = 3221225471%Z /\ downsampled 10 40 = true.
Proof.
  assert (E : word_probability 10 40 = 3 / 4).
  { unfold word_probability. replace (INR 40) with 40 by (cbn; lra). replace (40 / 10) with (2 * 2) by lra. rewrite sqrt_square by lra. lra. }
  split; [exact E|]. split.
  - unfold sample_int, capped. rewrite E. destruct (Rlt_dec _ _); [|lra]. apply py_floor_unique. lra.
  - unfold downsampled. rewrite E. destruct (Rlt_dec _ _); [reflexivity | lra].
Qed.
