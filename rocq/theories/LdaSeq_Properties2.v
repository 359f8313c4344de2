(** Properties of the dynamic topic model: the bound, documents, slices, training. *)
From Coq Require Import Reals Lra Psatz Lia.
From Verif Require Import Base MatReal_Model LdaTrain_Model LdaTrain_Proofs2 SoftCosine_Model Lsi_Linear LdaSeq_Model LdaSeq_Spec LdaSeq_Proofs LdaSeq_Proofs2 LdaSeq_Proofs3 LdaSeq_Proofs4 LdaSeq_Proofs5.
Local Open Scope R_scope.

(** ** The bound of a chain *)
Definition word_term (s : sslm) (sstats : mat) (t w : nat) : R :=
  sstats w t * s_mean s w (t + 1)%nat + ln (s_var s w (t + 1)%nat) / 2 - ((s_mean s w (t + 1)%nat - s_mean s w t) ^ 2 / (2 * s_q s) - s_var s w (t + 1)%nat / s_q s - ln (s_q s)).
Lemma slice_terms_split : forall s sstats totals n k t,
  slice_terms (s_q s) (s_mean s) (s_var s) (s_zeta s) sstats totals (n + k) t = slice_terms (s_q s) (s_mean s) (s_var s) (s_zeta s) sstats totals n t + sumn k (fun j => word_term s sstats t (n + j)).
Proof.
  intros s sstats totals n k t. assert (G : forall n k a b c x, sumn (n + k) a - x + sumn (n + k) b - sumn (n + k) c = sumn n a - x + sumn n b - sumn n c + sumn k (fun j => a (n + j)%nat + b (n + j)%nat - c (n + j)%nat)).
  { intros n0 k0 a b c x. rewrite !(sumn_split n0 k0). rewrite (sumn_minus k0 (fun j => a (n0 + j)%nat + b (n0 + j)%nat) (fun j => c (n0 + j)%nat)), (sumn_plus k0 (fun j => a (n0 + j)%nat) (fun j => b (n0 + j)%nat)). ring. }
  apply G.
Qed.
(** C106: in slice t (from 0) the last t words are missing from the bound. *)
Theorem bound_exact : forall s sstats totals s1 b, compute_bound s sstats totals = Ok (s1, b) ->
  b = full_bound (s_W s1) (s_T s1) (s_q s1) (s_mean s1) (s_var s1) (s_zeta s1) sstats totals - sumn (s_T s1) (fun t => sumn (Nat.min t (s_W s1)) (fun j => word_term s1 sstats t (s_W s1 - t + j))).
Proof.
  intros s sstats totals s1 b H. destruct (compute_bound_is s sstats totals s1 b H) as [_ [_ ->]]. unfold full_bound. unfold Rminus at 2. rewrite Rplus_assoc. f_equal.
  rewrite <- (Rplus_0_r (sumn (s_T s1) _)). change (_ + 0) with (sumn (s_T s1) (fun t => slice_terms (s_q s1) (s_mean s1) (s_var s1) (s_zeta s1) sstats totals (s_W s1 - t) t) + 0).
  rewrite Rplus_0_r. apply (Rplus_eq_reg_r (sumn (s_T s1) (fun t => sumn (Nat.min t (s_W s1)) (fun j => word_term s1 sstats t (s_W s1 - t + j))))).
  rewrite <- sumn_plus. rewrite Rplus_assoc, Rplus_opp_l, Rplus_0_r. apply sumn_ext. intros t _. rewrite <- slice_terms_split. replace (s_W s1 - t + Nat.min t (s_W s1))%nat with (s_W s1) by lia. reflexivity.
Qed.
Print Assumptions bound_exact.
(** With one slice it is complete. *)
Theorem bound_one_slice : forall s sstats totals s1 b, (s_T s <= 1)%nat -> compute_bound s sstats totals = Ok (s1, b) ->
  b = full_bound (s_W s1) (s_T s1) (s_q s1) (s_mean s1) (s_var s1) (s_zeta s1) sstats totals.
Proof.
  intros s sstats totals s1 b HT H. rewrite (bound_exact _ _ _ _ _ H). destruct (compute_bound_is s sstats totals s1 b H) as [_ [E _]]. assert (ET : s_T s1 = s_T s) by (rewrite E; reflexivity).
  rewrite (sumn_all0 (s_T s1)); [ring|]. intros t Ht. replace (Nat.min t (s_W s1)) with 0%nat by lia. apply sumn_0.
Qed.
Print Assumptions bound_one_slice.
(** The counts of the missing words do not matter. *)
Theorem late_counts_ignored : forall s sstats sstats' totals, (forall w t, (w + t < s_W s)%nat -> sstats w t = sstats' w t) -> compute_bound s sstats totals = compute_bound s sstats' totals.
Proof.
  intros s sstats sstats' totals E. unfold compute_bound. destruct (s_W s =? 0)%nat; [reflexivity|]. f_equal. f_equal. rewrite !(bound_fold _ _ totals _ 0). cbn [fst]. f_equal.
  apply sumn_ext. intros t _. unfold slice_terms. f_equal. f_equal. f_equal. apply sumn_ext. intros w Hw. cbn [Nat.add]. rewrite E; [reflexivity|]. cbn in Hw. lia.
Qed.
Print Assumptions late_counts_ignored.
(** With two slices the value is not the bound: the word terms of the second slice are missing from it. *)
Theorem chain_bound_refuted : exists s sstats s1 b, 0 < s_r s /\ 0 < s_q s /\ compute_bound s sstats (fun t => sumn (s_W s) (fun w => sstats w t)) = Ok (s1, b) /\
  b <> full_bound (s_W s1) (s_T s1) (s_q s1) (s_mean s1) (s_var s1) (s_zeta s1) sstats (fun t => sumn (s_W s) (fun w => sstats w t)).
Proof.
  set (s := with_obs (all_variances (new_sslm 1 2 1 1)) (fun _ _ => 1)).
  assert (CB : forall sstats, exists b, compute_bound s sstats (fun t => sumn (s_W s) (fun w => sstats w t)) = Ok (update_zeta (all_means s), b)) by (intros sstats; eexists; reflexivity).
  set (s1 := update_zeta (all_means s)) in *.
  assert (PM : 0 < s_mean s1 0%nat 2%nat).
  { unfold s1, s. cbn [s_mean update_zeta with_zeta all_means with_mean s_T s_r s_q s_fvar s_obs s_fmean with_obs all_variances with_var new_sslm]. unfold post_mean, post_variance. cbn [fst snd].
    pose proof (fwd_variance_is 2 1 1 Rlt_0_1 (fun _ => 0)) as F. set (f := fwd_variance 2 1 1 (fun _ => 0)) in *.
    destruct (bwd_mean_is 2 1 1 Rlt_0_1 Rlt_0_1 f (fwd_mean 2 1 1 f (fun _ => 1) (fun _ => 0)) (fun _ => 0) F) as [B _]. rewrite B.
    destruct (fwd_mean_is 2 1 1 Rlt_0_1 Rlt_0_1 f (fun _ => 1) (fun _ => 0) F) as [M1 M2].
    pose proof (fvar_pos 2 1 1 Rlt_0_1 Rlt_0_1 f F 0%nat ltac:(lia)). pose proof (fvar_pos 2 1 1 Rlt_0_1 Rlt_0_1 f F 1%nat ltac:(lia)).
    rewrite (M2 1%nat), (M2 0%nat), M1 by lia. apply Rdiv_lt_0_compat; [|lra]. assert (0 < (1 * 0 + (f 0%nat + 1) * 1) / (f 0%nat + 1 + 1)) by (apply Rdiv_lt_0_compat; lra). lra. }
  assert (D : forall sstats b, compute_bound s sstats (fun t => sumn (s_W s) (fun w => sstats w t)) = Ok (s1, b) ->
    b = full_bound (s_W s1) (s_T s1) (s_q s1) (s_mean s1) (s_var s1) (s_zeta s1) sstats (fun t => sumn (s_W s) (fun w => sstats w t)) - word_term s1 sstats 1 0).
  { intros sstats b H. rewrite (bound_exact _ _ _ _ _ H). f_equal. unfold sumn. cbn. ring. }
  assert (X : forall sstats, word_term s1 sstats 1 0 <> 0 -> exists b, compute_bound s sstats (fun t => sumn (s_W s) (fun w => sstats w t)) = Ok (s1, b) /\
    b <> full_bound (s_W s1) (s_T s1) (s_q s1) (s_mean s1) (s_var s1) (s_zeta s1) sstats (fun t => sumn (s_W s) (fun w => sstats w t))).
  { intros sstats N. destruct (CB sstats) as [b Hb]. exists b. split; [exact Hb|]. pose proof (D sstats b Hb). lra. }
  destruct (Req_dec (word_term s1 (fun _ _ => 0) 1 0) 0) as [E|E].
  - assert (E1 : word_term s1 (fun _ _ => 1) 1 0 <> 0) by (unfold word_term in *; change (1 + 1)%nat with 2%nat in *; lra).
    destruct (X _ E1) as [b [Hb N]]. exists s, (fun _ _ => 1), s1, b. split; [exact Rlt_0_1|]. split; [exact Rlt_0_1|]. split; assumption.
  - destruct (X _ E) as [b [Hb N]]. exists s, (fun _ _ => 0), s1, b. split; [exact Rlt_0_1|]. split; [exact Rlt_0_1|]. split; assumption.
Qed.
Print Assumptions chain_bound_refuted.

(** ** One document *)
(** C107: after update_phi the row of every word of the document is a distribution over the topics, proportional to exp(psi(gamma) + topics), and the other array is
    its logarithm; the rows behind the document stay. *)
Theorem phi_rows : forall psi m d p n, (0 < l_K m)%nat -> (n < length d)%nat ->
  let p' := update_phi psi m d p in
  let w := fst (nth n d (0%nat, 0)) in
  distribution (l_K m) (p_phi p' n) /\ (forall k, p_log p' n k = ln (p_phi p' n k)) /\
  (forall k j, p_phi p' n k * exp (psi (p_gamma p j) + l_topics m w j) = p_phi p' n j * exp (psi (p_gamma p k) + l_topics m w k)).
Proof.
  intros psi m d p n HK Hn p' w. pose proof (numbered_has _ d n (0%nat, 0) Hn) as I. split; [now apply update_phi_rows|].
  assert (ER := fun k => update_phi_row psi m HK d p n _ I k). pose proof (part_pos psi m HK (p_gamma p) w) as PP. fold w in ER. unfold raw_phi in ER. split.
  - intros k. destruct (ER k) as [E1 E2]. unfold p'. rewrite E1, E2. unfold Rdiv. rewrite ln_mult, ln_exp, ln_Rinv; [reflexivity | exact PP | apply exp_pos | now apply Rinv_0_lt_compat].
  - intros k j. destruct (ER k) as [E1 _]. destruct (ER j) as [E2 _]. unfold p'. rewrite E1, E2. field. lra.
Qed.
Print Assumptions phi_rows.
(** Of all distributions for the words, with the same gamma, it gives the largest bound. *)
Theorem phi_update_best : forall psi lgam m d p p', (0 < l_K m)%nat -> Forall (fun wc => 0 <= snd wc) d -> p_gamma p' = p_gamma p ->
  (forall n, (n < length d)%nat -> (forall k, (k < l_K m)%nat -> 0 <= p_phi p' n k) /\ sumn (l_K m) (p_phi p' n) = 1) ->
  (forall n k, (n < length d)%nat -> (k < l_K m)%nat -> 0 < p_phi p' n k -> p_log p' n k = ln (p_phi p' n k)) ->
  lda_lhood psi lgam m d p' <= lda_lhood psi lgam m d (update_phi psi m d p).
Proof. intros psi lgam m d p p' HK. now apply phi_best. Qed.
Print Assumptions phi_update_best.
(** Inference: whatever was there before, gamma is alpha plus the words, the words are shared out among the topics, the number returned is the bound, and there
    are at most one more rounds than asked for. *)
Theorem posterior_of_document : forall psi lgam m d mi p p' lh it, (0 < l_K m)%nat -> fit_post psi lgam m d mi p = Ok (p', lh, it) ->
  sumn (l_K m) (p_gamma p') = sumn (l_K m) (l_alpha m) + total d /\
  (Forall (fun wc => 0 <= snd wc) d -> forall k, (k < l_K m)%nat -> l_alpha m k <= p_gamma p' k) /\
  (forall n, (n < length d)%nat -> distribution (l_K m) (p_phi p' n)) /\
  lh = lda_lhood psi lgam m d p' /\ (1 <= it <= S mi)%nat.
Proof.
  intros psi lgam m d mi p p' lh it HK H. destruct (fit_post_ok psi lgam m HK d mi p p' lh it H) as [_ [RD [L I]]].
  split; [now apply (rounded_gamma_sum psi m)|]. split; [intros C; now apply (rounded_gamma_ge psi m d)|]. split; [now apply (rounded_rows psi m)|]. auto.
Qed.
Print Assumptions posterior_of_document.
Theorem posterior_total : forall psi lgam m d mi p, (exists r, fit_post psi lgam m d mi p = Ok r) <-> Forall (fun wc => (fst wc < l_W m)%nat) d.
Proof.
  intros psi lgam m d mi p. split; [|apply fit_post_total]. intros [r H]. unfold fit_post in H. destruct (forallb _ d) eqn:E; [|discriminate]. apply Forall_forall. intros wc Hw.
  rewrite forallb_forall in E. apply Nat.ltb_lt. now apply E.
Qed.
Print Assumptions posterior_total.
(** A document adds its counts, once, to the slice and to no other. *)
Theorem statistics_of_document : forall m time d p suff w t, (forall n, (n < length d)%nat -> distribution (l_K m) (p_phi p n)) ->
  sumn (l_K m) (fun k => seq_ss m time d p suff k w t) = sumn (l_K m) (fun k => suff k w t) + (if (t =? time)%nat then count_in w d else 0).
Proof. intros m time d p suff w t RO. now apply seq_ss_mass. Qed.
Print Assumptions statistics_of_document.
(** The mixture of a new document is a distribution. *)
Theorem mixture_distribution : forall psi lgam K W alphas chains T d theta, (0 < K)%nat -> (forall k, (k < K)%nat -> 0 < alphas k) -> (0 < T)%nat -> Forall (fun wc => 0 <= snd wc) d ->
  get_item psi lgam K W alphas chains T d = Ok theta -> distribution K theta.
Proof.
  intros psi lgam K W alphas chains T d theta HK HA HT HC H. unfold get_item in H.
  destruct (rfold _ (seq 0 T) _) as [p|e] eqn:E; [|discriminate]. cbn [rbind] in H. injection H as <-.
  assert (G : forall k, (k < K)%nat -> 0 < p_gamma p k).
  { destruct T as [|T']; [lia|]. rewrite seq_S in E. cbn [Nat.add] in E.
    assert (RA : forall (f : post -> nat -> result post) l x p0 p1, rfold f (l ++ [x]) p0 = Ok p1 -> exists q, f q x = Ok p1).
    { intros f l. induction l as [|y l IH]; intros x p0 p1 Hf; cbn [app rfold] in Hf.
      - destruct (f p0 x) as [q|e] eqn:Eq; [|discriminate]. cbn [rbind] in Hf. injection Hf as <-. eauto.
      - destruct (f p0 y) as [q|e]; [|discriminate]. cbn [rbind] in Hf. now apply (IH x q). }
    destruct (RA _ _ _ _ _ E) as [q Hq]. destruct (make_slice K W alphas chains T') as [l|e] eqn:El; [|discriminate]. cbn [rbind] in Hq.
    destruct (fit_post psi lgam l d 25 q) as [[[p1 lh] it]|e] eqn:Ef; [|discriminate]. cbn [rbind fst] in Hq. injection Hq as <-.
    destruct (make_slice_shape K W alphas chains T' l El) as [A [B [C _]]]. assert (HKl : (0 < l_K l)%nat) by lia.
    destruct (posterior_of_document psi lgam l d 25 q p1 lh it HKl Ef) as [_ [P _]]. intros k Hk. specialize (P HC k ltac:(lia)). rewrite C in P. specialize (HA k Hk). lra. }
  assert (PS : 0 < sumn K (p_gamma p)) by (apply sumn_pos; assumption). split.
  - intros k Hk. apply Rdiv_lt_0_compat; [now apply G | exact PS].
  - unfold Rdiv. rewrite sumn_scal_r. apply Rinv_r. lra.
Qed.
Print Assumptions mixture_distribution.
Example phi_example : let m := mkLda 2 1 (fun _ => 1) (fun _ k => if (k =? 0)%nat then ln 3 else 0) in
  let p := update_phi (fun _ => 0) m [(0%nat, 2)] (mkP (fun _ => 1) (fun _ _ => 0) (fun _ _ => 0)) in
  p_phi p 0%nat 0%nat = 3 / 4 /\ p_phi p 0%nat 1%nat = 1 / 4 /\ p_gamma (update_gamma m [(0%nat, 2)] p) 0%nat = 5 / 2.
Proof.
  cbn zeta. set (m := mkLda 2 1 _ _). set (p := mkP _ _ _). assert (HK : (0 < l_K m)%nat) by (cbn; lia).
  assert (ER := fun k => update_phi_row (fun _ => 0) m HK [(0%nat, 2)] p 0 (0%nat, 2) ltac:(now left) k).
  assert (PE : part (fun _ => 0) m (p_gamma p) (fst (0%nat, 2)) = 4) by (unfold part, raw_phi, sumn; cbn; rewrite !Rplus_0_l, exp_ln, exp_0 by lra; lra).
  destruct (ER 0%nat) as [E0 _]. destruct (ER 1%nat) as [E1 _]. rewrite PE in E0, E1. unfold raw_phi in E0, E1. cbn [l_topics m fst Nat.eqb] in E0, E1. rewrite Rplus_0_l in E0, E1. rewrite exp_ln in E0 by lra. rewrite exp_0 in E1.
  split; [exact E0|]. split; [exact E1|]. rewrite update_gamma_is. unfold numbered. cbn [length seq combine map fst snd]. rewrite E0. unfold Rsum. cbn. lra.
Qed.

(** ** Documents and slices *)
(** C108: with non-empty slices, document d is treated with the slice of document d - 1. *)
Theorem slice_of_documents : forall psi lgam K W alphas chains ts mi corpus st, (0 < K)%nat -> Forall (fun n => 0 < n)%nat ts -> (length corpus <= S (sum_nat ts))%nat ->
  infer psi lgam K W alphas chains ts mi corpus = Ok st -> i_times st = map (fun d => slice_of ts (d - 1)) (seq 0 (length corpus)).
Proof. intros psi lgam K W alphas chains ts mi corpus st HK P L H. now apply (times_are psi lgam K W alphas HK chains ts mi). Qed.
Print Assumptions slice_of_documents.
(** The statistics of slice t have, for each word, the counts of the documents that were treated with it. *)
Theorem statistics_of_slices : forall psi lgam K W alphas chains ts mi corpus st w t, (0 < K)%nat -> infer psi lgam K W alphas chains ts mi corpus = Ok st ->
  sumn K (fun k => i_suff st k w t) = fold_right Rplus 0 (map (fun td => if (fst td =? t)%nat then count_in w (snd td) else 0) (combine (i_times st) corpus)).
Proof. intros psi lgam K W alphas chains ts mi corpus st w t HK H. destruct (infer_inv psi lgam K W alphas HK chains ts mi corpus st H) as [I _]. exact (v_mass _ _ _ _ _ _ _ _ _ _ I w t). Qed.
Print Assumptions statistics_of_slices.
(** The mixtures: one row for each document, with the sum of the priors and the length of the document. *)
Theorem mixtures_of_documents : forall psi lgam K W alphas chains ts mi corpus st n, (0 < K)%nat -> infer psi lgam K W alphas chains ts mi corpus = Ok st -> (n < length corpus)%nat ->
  sumn K (i_gammas st n) = sumn K alphas + total (nth n corpus []).
Proof.
  intros psi lgam K W alphas chains ts mi corpus st n HK H Hn. destruct (infer_inv psi lgam K W alphas HK chains ts mi corpus st H) as [I _].
  destruct (v_docs _ _ _ _ _ _ _ _ _ _ I) as [lhs [_ [_ D]]]. destruct (D n Hn) as [l [p [p' [it [A [B C]]]]]]. rewrite C. destruct (make_slice_shape _ _ _ _ _ _ A) as [E1 [_ [E2 _]]].
  assert (HKl : (0 < l_K l)%nat) by lia. destruct (posterior_of_document _ _ _ _ _ _ _ _ _ HKl B) as [X _]. now rewrite E1, E2 in X.
Qed.
Print Assumptions mixtures_of_documents.
(** It runs through if the words are in the vocabulary, also with one document more than the slices have. *)
Theorem inference_total : forall psi lgam K W alphas chains ts mi (corpus : list doc), (0 < K)%nat -> ts <> [] -> Forall (fun n => 0 < n)%nat ts -> (length corpus <= S (sum_nat ts))%nat ->
  Forall (fun c => s_T c = length ts) chains -> Forall (Forall (fun wc => (fst wc < W)%nat)) corpus -> exists st, infer psi lgam K W alphas chains ts mi corpus = Ok st.
Proof. intros psi lgam K W alphas chains ts mi corpus HK. now apply infer_total. Qed.
Print Assumptions inference_total.
(** The first document of each slice but the first is counted in the slice before; a last slice of one document stays empty. *)
Theorem slices_refuted : forall psi lgam, exists K W alphas chains ts mi corpus st, Forall (fun n => 0 < n)%nat ts /\ length corpus = sum_nat ts /\
  infer psi lgam K W alphas chains ts mi corpus = Ok st /\ i_times st <> map (slice_of ts) (seq 0 (length corpus)) /\
  sumn K (fun k => i_suff st k 0%nat 1%nat) = 0 /\ count_in 0 (nth 1 corpus []) = 1.
Proof.
  intros psi lgam. set (chains := [new_sslm 1 2 1 1]). set (corpus := [[(0%nat, 1)]; [(0%nat, 1)]] : list doc).
  destruct (inference_total psi lgam 1 1 (fun _ => 1) chains [1; 1]%nat 5 corpus) as [st H];
    [lia | discriminate | repeat constructor | cbn; lia | repeat constructor | repeat constructor|].
  pose proof (slice_of_documents psi lgam 1 1 (fun _ => 1) chains [1; 1]%nat 5 corpus st ltac:(lia) ltac:(repeat constructor) ltac:(cbn; lia) H) as E. cbn in E.
  exists 1%nat, 1%nat, (fun _ => 1), chains, [1; 1]%nat, 5%nat, corpus, st. split; [repeat constructor|]. split; [reflexivity|]. split; [exact H|]. split; [rewrite E; discriminate|]. split.
  - rewrite (statistics_of_slices psi lgam 1 1 (fun _ => 1) chains [1; 1]%nat 5 corpus st 0 1 ltac:(lia) H), E. cbn. ring.
  - cbn. ring.
Qed.
Print Assumptions slices_refuted.
Example slices_example : map (fun d => slice_of [2; 3; 1]%nat (d - 1)) (seq 0 6) = [0; 0; 0; 1; 1; 1]%nat /\ map (slice_of [2; 3; 1]%nat) (seq 0 6) = [0; 0; 1; 1; 1; 2]%nat.
Proof. split; reflexivity. Qed.

(** ** Training *)
Definition belongs (s : sslm) : Prop :=
  (forall w, marginals (s_T s) (s_r s) (s_q s) (s_obs s w) (s_mean s w) (s_var s w)) /\
  (forall t, s_zeta s t = sumn (s_W s) (fun w => exp (s_mean s w (t + 1)%nat + s_var s w (t + 1)%nat / 2))) /\
  (forall w t, s_elog s w t = s_mean s w (t + 1)%nat - ln (s_zeta s t)).
(** C109: whatever the optimiser returns, after fitting a chain the means and variances belong to the observations, and zeta and the
    topics to them. *)
Theorem fitted_chain : forall cg s sstats s' b, fit_sslm cg s sstats = Ok (s', b) -> 0 < s_r s -> 0 < s_q s ->
  belongs s' /\ s_W s' = s_W s /\ s_T s' = s_T s /\ s_r s' = s_r s /\ s_q s' = s_q s.
Proof.
  intros cg s sstats s' b H Hr Hq. destruct (fit_sslm_settled cg s sstats s' b H Hr Hq) as [[_ [A B]] [C [D1 [D2 [D3 [D4 _]]]]]]. repeat split; try assumption; now apply A.
Qed.
Print Assumptions fitted_chain.
Theorem fitting_total : forall cg s sstats, (exists r, fit_sslm cg s sstats = Ok r) <-> (0 < s_W s)%nat.
Proof.
  intros cg s sstats. split; [|apply fit_sslm_total]. intros [r H]. unfold fit_sslm in H. destruct (s_W s =? 0)%nat eqn:E; [discriminate|]. apply Nat.eqb_neq in E. lia.
Qed.
Print Assumptions fitting_total.
(** At the start every slice has the smoothed proportions of the statistics. *)
Theorem initial_chain : forall s r q sstats, 0 < r -> 0 < q -> (0 < s_W s)%nat -> (forall w, (w < s_W s)%nat -> 0 <= sstats w) -> 0 < sumn (s_W s) sstats ->
  let s' := counts_init s r q sstats in
  belongs s' /\ s_r s' = r /\ s_q s' = q /\
  (forall t, sumn (s_W s) (fun w => exp (s_obs s' w t)) = 1) /\
  (forall w t, (w < s_W s)%nat -> exp (s_obs s' w t) = (sstats w / sumn (s_W s) sstats + 1 / INR (s_W s)) / 2).
Proof.
  intros s r q sstats Hr Hq HW HN HS s'. set (tot := sumn (s_W s) sstats) in *. assert (PW : 0 < INR (s_W s)) by (now apply lt_0_INR).
  assert (S2 : sumn (s_W s) (fun w => sstats w / tot + 1 / INR (s_W s)) = 2).
  { rewrite sumn_plus. unfold Rdiv. rewrite sumn_scal_r. fold tot. assert (G : forall n c, sumn n (fun _ => c) = INR n * c).
    { intros n c. induction n as [|n IH]; [rewrite sumn_0; cbn; ring|]. rewrite sumn_S, IH, S_INR. ring. }
    rewrite G. field. split; lra. }
  assert (E : forall w t, (w < s_W s)%nat -> exp (s_obs s' w t) = (sstats w / tot + 1 / INR (s_W s)) / 2).
  { intros w t Hw. cbn [s' counts_init expected_log_prob with_elog update_zeta with_zeta all_means with_mean all_variances with_var with_obs s_obs]. unfold norm_counts. fold tot. rewrite S2. apply exp_ln.
    apply Rdiv_lt_0_compat; [|lra]. specialize (HN w Hw). assert (0 <= sstats w / tot) by (apply Rmult_le_pos; [exact HN | apply Rlt_le; now apply Rinv_0_lt_compat]).
    assert (0 < 1 / INR (s_W s)) by (apply Rdiv_lt_0_compat; lra). lra. }
  split; [|split; [reflexivity|split; [reflexivity|split; [|exact E]]]].
  - unfold s', counts_init. set (s1 := with_obs _ _). pose proof (means_settled (all_variances s1) (all_variances_good s1 Hr Hq)) as [_ [A B]]. split; [exact A|]. split; [exact B | reflexivity].
  - intros t. rewrite (sumn_ext _ _ (fun w => (sstats w / tot + 1 / INR (s_W s)) * / 2) (fun w Hw => E w t Hw)). rewrite sumn_scal_r, S2. lra.
Qed.
Print Assumptions initial_chain.
(** A printed topic is the softmax of the means, and a distribution; unnormalised the topics are too small. *)
Theorem topic_softmax : forall s time p, belongs s -> (0 < s_W s)%nat -> topic_dist s time = Ok p ->
  distribution (s_W s) p /\ forall w v, (w < s_W s)%nat -> (v < s_W s)%nat -> p w * exp (s_mean s v (time + 1)%nat) = p v * exp (s_mean s w (time + 1)%nat).
Proof.
  intros s time p [_ [_ L]] HW H. unfold topic_dist in H. destruct (time <? s_T s)%nat; [|discriminate]. injection H as <-.
  assert (PS : 0 < sumn (s_W s) (fun v => exp (s_elog s v time))) by (apply sumn_pos; [exact HW|]; intros; apply exp_pos). split.
  - split; [intros w _; apply Rdiv_lt_0_compat; [apply exp_pos | exact PS]|]. unfold Rdiv. rewrite sumn_scal_r. apply Rinv_r. lra.
  - intros w v _ _. rewrite !L. unfold Rminus. rewrite !exp_plus. unfold Rdiv. ring.
Qed.
Print Assumptions topic_softmax.
Theorem topic_mass : forall s time, belongs s -> (0 < s_W s)%nat -> (time < s_T s)%nat -> 0 < sumn (s_W s) (fun w => exp (s_elog s w time)) < 1.
Proof.
  intros s time [M [Z0 L]] HW HT. split; [apply sumn_pos; [exact HW|]; intros; apply exp_pos|].
  set (a := fun w => exp (s_mean s w (time + 1)%nat)). set (c := fun w => exp (s_mean s w (time + 1)%nat + s_var s w (time + 1)%nat / 2)).
  assert (LT : forall n, (0 < n)%nat -> sumn n a < sumn n c).
  { intros n. induction n as [|n IH]; intros Hn; [lia|]. rewrite !sumn_S. assert (a n < c n). { unfold a, c. apply exp_increasing. destruct (M n (time + 1)%nat ltac:(lia)) as [P _]. lra. }
    destruct n as [|n]; [rewrite !sumn_0; lra|]. specialize (IH ltac:(lia)). lra. }
  assert (PC : 0 < sumn (s_W s) c) by (apply sumn_pos; [exact HW|]; intros; apply exp_pos).
  rewrite (sumn_ext _ _ (fun w => a w * / sumn (s_W s) c)).
  - rewrite sumn_scal_r. apply Rmult_lt_reg_r with (sumn (s_W s) c); [exact PC|]. rewrite Rmult_assoc, Rinv_l by lra. specialize (LT _ HW). lra.
  - intros w _. rewrite L, Z0. fold c. unfold Rminus. rewrite exp_plus, exp_Ropp, exp_ln by exact PC. reflexivity.
Qed.
Print Assumptions topic_mass.
(** A word that is not rare gets what the optimiser returns for its counts, the first rare word what it returns for no counts, every further rare word keeps
    its observations. *)
Theorem fitted_words : forall cg s sstats totals w, (w < s_W s)%nat -> let s' := update_obs cg s sstats totals in
  (~ rare (s_T s) sstats w -> exists s0 mtx, fst (fst (cg s0 w (sstats w) totals mtx)) = s_obs s' w) /\
  (rare (s_T s) sstats w -> (forall v, (v < w)%nat -> ~ rare (s_T s) sstats v) -> exists s0 mtx, fst (fst (cg s0 w (fun _ => 0) totals mtx)) = s_obs s' w) /\
  (rare (s_T s) sstats w -> (exists v, (v < w)%nat /\ rare (s_T s) sstats v) -> s_obs s' w = s_obs s w).
Proof.
  intros cg s sstats totals w Hw s'. destruct (update_obs_word cg s sstats totals w Hw) as [s0 [c [B [C [O0 E]]]]]. unfold s'. rewrite E. destruct B as [_ [BT _]].
  unfold obs_step, counts_norm. unfold rare at 1 2 4. rewrite <- BT. destruct (Rlt_dec _ 2) as [L|L].
  - split; [tauto|]. split.
    + intros _ NV. assert (c = false) by (destruct c; [exfalso; destruct (proj1 C eq_refl) as [v [H1 H2]]; rewrite BT in NV; exact (NV v H1 H2) | reflexivity]). subst c. cbn [andb].
      exists s0, (deriv_mtx s0 w). destruct (cg s0 w _ totals (deriv_mtx s0 w)) as [[o m] f] eqn:Ec. cbn. now rewrite put_same.
    + intros _ [v [H1 H2]]. assert (c = true) by (apply C; exists v; rewrite BT in H2; auto). subst c. cbn [andb fst]. exact O0.
  - split; [|split; intros X; exfalso; now apply L]. intros _. exists s0, (deriv_mtx s0 w). cbn [andb]. destruct (cg s0 w _ totals (deriv_mtx s0 w)) as [[o m] f] eqn:Ec. cbn. now rewrite put_same.
Qed.
Print Assumptions fitted_words.
(** The rounds of the training: always as many as allowed, and one more than em_max_iter, unless the change of the bound is nan or exactly the threshold. *)
Theorem training_rounds : forall St (step : nat -> nat -> St -> result (R * St)) mi em_min em_max s s' b it mi' c, em_fit step mi em_min em_max s = Ok (s', b, it, mi', c) ->
  (1 <= it)%nat /\ (em_min <= it <= Nat.max em_min (S em_max))%nat /\ (it = Nat.max em_min (S em_max) \/ c = Nan \/ c = Fin (1 / 10000)).
Proof.
  intros St step mi em_min em_max s s' b it mi' c H. unfold em_fit in H. pose proof H as H0.
  apply em_loop_rounds in H0; [|unfold not_small, em_tol; lra | lia | lia]. destruct H0 as [A [_ B]]. split; [|split; [exact A | exact B]].
  replace (em_min + em_max + 1)%nat with (S (em_min + em_max)) in H by lia. cbn [em_loop] in H. assert (AB : above (Fin (em_tol + 1)) em_tol = true) by (cbn; destruct (Rlt_dec _ _); [reflexivity | lra]).
  rewrite AB in H. cbn [Nat.leb andb] in H. rewrite orb_true_r in H. destruct (step 0%nat mi s) as [[b1 s1]|e]; [|discriminate]. cbn [rbind] in H.
  assert (G : forall fuel it0 mi0 b0 c0 x, em_loop step fuel em_min em_max it0 mi0 b0 c0 x = Ok (s', b, it, mi', c) -> (it0 <= it)%nat).
  { intros fuel. induction fuel as [|fuel IH]; intros it0 mi0 b0 c0 x Hx; cbn [em_loop] in Hx; [injection Hx; lia|]. destruct (_ || _); [|injection Hx; lia].
    destruct (step it0 mi0 x) as [[b2 s2]|e]; [|discriminate]. cbn [rbind] in Hx. apply IH in Hx. lia. }
  apply G in H. exact H.
Qed.
Print Assumptions training_rounds.
(** It does not stop when the bound does not change any more. *)
Theorem convergence_refuted : exists St (step : nat -> nat -> St -> result (R * St)) s, (forall it mi x, step it mi x = Ok (-1, s)) /\
  forall mi em_max, exists mi' c, em_fit step mi 0 em_max s = Ok (s, -1, S em_max, mi', c).
Proof.
  exists unit, (fun _ _ _ => Ok (-1, tt)), tt. split; [reflexivity|]. intros mi em_max.
  assert (G : forall fuel it mi0 b0 c0, (b0 = 0 \/ b0 = -1) -> above c0 em_tol = true -> (it + fuel = em_max + 1)%nat -> (0 < fuel)%nat ->
    exists mi' c, em_loop (fun _ _ _ => Ok (-1, tt)) fuel 0 em_max it mi0 b0 c0 tt = Ok (tt, -1, S em_max, mi', c)).
  { intros fuel. induction fuel as [|fuel IH]; intros it mi0 b0 c0 HB HC HF HP; [lia|]. cbn [em_loop]. rewrite HC, (proj2 (Nat.leb_le it em_max)) by lia. rewrite orb_true_r. cbn [rbind fst snd].
    destruct fuel as [|fuel]; [cbn [em_loop]; replace (S it) with (S em_max) by lia; eauto|]. apply IH; [now right | | lia | lia].
    unfold rel_change. destruct HB as [-> | ->].
    - destruct (Req_EM_T 0 0) as [_|N]; [|lra]. destruct (Req_EM_T (-1 - 0) 0) as [N|_]; [lra|]. reflexivity.
    - destruct (Req_EM_T (-1) 0) as [N|_]; [lra|]. unfold below. replace ((-1 - -1) / -1) with 0 by lra. rewrite Rabs_R0. unfold em_tol. destruct (Rlt_dec 0 (1 / 10000)) as [_|N]; [|lra].
      cbn. destruct (Rlt_dec _ 1) as [_|N]; [reflexivity | exfalso; apply N; lra]. }
  unfold em_fit. apply G; [now left | cbn; destruct (Rlt_dec _ _); [reflexivity | lra] | lia | lia].
Qed.
Print Assumptions convergence_refuted.
(** The trained model is what the last round gives, and its number the bound of that round. *)
Lemma em_loop_last : forall St (step : nat -> nat -> St -> result (R * St)) (P : St -> Prop), (forall it mi s b s', P s -> step it mi s = Ok (b, s') -> P s') ->
  forall fuel em_min em_max it mi b c s s' b' it' mi' c', P s -> em_loop step fuel em_min em_max it mi b c s = Ok (s', b', it', mi', c') ->
  it' = it \/ exists it0 mi0 s0, P s0 /\ step it0 mi0 s0 = Ok (b', s').
Proof.
  intros St step P HP fuel. induction fuel as [|fuel IH]; intros em_min em_max it mi b c s s' b' it' mi' c' Hs H; cbn [em_loop] in H; [left; injection H; auto|].
  destruct (_ || _); [|left; injection H; auto]. destruct (step it mi s) as [[b1 s1]|e] eqn:E; [|discriminate]. cbn [rbind fst snd] in H. right.
  pose proof (HP _ _ _ _ _ Hs E) as H1. destruct (IH _ _ _ _ _ _ _ _ _ _ _ _ H1 H) as [E1|X]; [|exact X]. subst it'.
  destruct fuel as [|fuel]; cbn [em_loop] in H.
  - injection H as <- <- _ _. eauto.
  - destruct (_ || _).
    + destruct (step (S it) _ s1) as [[b2 s2]|e] eqn:E2; [|discriminate]. cbn [rbind fst snd] in H. exfalso.
      assert (G : forall fuel it0 mi0 b0 c0 x, em_loop step fuel em_min em_max it0 mi0 b0 c0 x = Ok (s', b', S it, mi', c') -> (it0 <= S it)%nat).
      { intros f. induction f as [|f IHf]; intros it0 mi0 b0 c0 x Hx; cbn [em_loop] in Hx; [injection Hx; lia|]. destruct (_ || _); [|injection Hx; lia].
        destruct (step it0 mi0 x) as [[b3 s3]|e]; [|discriminate]. cbn [rbind] in Hx. apply IHf in Hx. lia. }
      apply G in H. lia.
    + injection H as <- <- _ _. eauto.
Qed.
Lemma fit_topics_chains : forall cg W T r q suff, 0 < r -> 0 < q -> forall chains k chains' b, Forall (fun s => s_W s = W /\ s_T s = T /\ s_r s = r /\ s_q s = q) chains ->
  fit_topics cg chains suff k = Ok (chains', b) -> length chains' = length chains /\ Forall (fun s => belongs s /\ s_W s = W /\ s_T s = T /\ s_r s = r /\ s_q s = q) chains'.
Proof.
  intros cg W T r q suff Hr Hq chains. induction chains as [|s chains IH]; intros k chains' b F H; cbn [fit_topics] in H; [injection H as <- _; split; [reflexivity | constructor]|].
  destruct (fit_sslm cg s (suff k)) as [[s1 b1]|e] eqn:E1; [|discriminate]. cbn [rbind fst snd] in H. destruct (fit_topics cg chains suff (S k)) as [[c2 b2]|e] eqn:E2; [|discriminate].
  cbn [rbind fst snd] in H. injection H as <- _. destruct (Forall_inv F) as [A [B [C D]]]. destruct (IH _ _ _ (Forall_inv_tail F) E2) as [L G]. split; [cbn; now rewrite L|]. constructor; [|exact G].
  destruct (fitted_chain cg s (suff k) s1 b1 E1 ltac:(now rewrite C) ltac:(now rewrite D)) as [X [Y1 [Y2 [Y3 Y4]]]]. split; [exact X|]. repeat split; congruence.
Qed.
Theorem trained_model : forall psi lgam cg W r q alphas ts (corpus : list doc) K init mi em_min em_max chains gammas b it mi' c, (0 < K)%nat -> 0 < r -> 0 < q ->
  fit_lda_seq psi lgam cg W r q alphas ts corpus K init mi em_min em_max = Ok ((chains, gammas), b, it, mi', c) ->
  length chains = K /\ Forall (fun s => belongs s /\ s_W s = W /\ s_T s = length ts /\ s_r s = r /\ s_q s = q) chains /\
  (forall n, (n < length corpus)%nat -> sumn K (gammas n) = sumn K alphas + total (nth n corpus [])).
Proof.
  intros psi lgam cg W r q alphas ts corpus K init mi em_min em_max chains gammas b it mi' c HK Hr Hq H. unfold fit_lda_seq in H.
  destruct (training_rounds _ _ _ _ _ _ _ _ _ _ _ H) as [I1 _]. unfold em_fit in H.
  set (P := fun s : list sslm * mat => length (fst s) = K /\ Forall (fun s => s_W s = W /\ s_T s = length ts /\ s_r s = r /\ s_q s = q) (fst s)).
  assert (ST : forall it mi (s : list sslm * mat) b s', P s -> em_step psi lgam cg K W alphas ts corpus it mi s = Ok (b, s') ->
    length (fst s') = K /\ Forall (fun s => belongs s /\ s_W s = W /\ s_T s = length ts /\ s_r s = r /\ s_q s = q) (fst s') /\
    (forall n, (n < length corpus)%nat -> sumn K (snd s' n) = sumn K alphas + total (nth n corpus []))).
  { intros it1 mi1 s b1 s' [L F] E. unfold em_step in E. destruct (infer _ _ _ _ _ _ _ _ _) as [i|e] eqn:Ei; [|discriminate]. cbn [rbind] in E.
    destruct (fit_topics cg (fst s) (i_suff i) 0) as [[c1 b2]|e] eqn:Et; [|discriminate]. cbn [rbind fst snd] in E. injection E as _ <-. cbn [fst snd].
    destruct (fit_topics_chains cg W (length ts) r q _ Hr Hq _ _ _ _ F Et) as [A B]. split; [congruence|]. split; [exact B|]. intros n Hn. now apply (mixtures_of_documents psi lgam K W alphas _ _ _ corpus i n HK Ei). }
  assert (HP : forall it mi (s : list sslm * mat) b s', P s -> em_step psi lgam cg K W alphas ts corpus it mi s = Ok (b, s') -> P s').
  { intros it1 mi1 s b1 s' Ps E. destruct (ST _ _ _ _ _ Ps E) as [A [B _]]. split; [exact A|]. eapply Forall_impl; [|exact B]. intros x X. apply X. }
  refine (_ (em_loop_last _ _ P HP _ _ _ _ _ _ _ _ _ _ _ _ _ _ H)).
  - intros [E|[it0 [mi0 [s0 [P0 E0]]]]]; [lia | exact (ST _ _ _ _ _ P0 E0)].
  - split; cbn [fst]; [now rewrite map_length, seq_length|]. apply Forall_forall. intros x Hx. apply in_map_iff in Hx. destruct Hx as [k [<- _]]. cbn. auto.
Qed.
Print Assumptions trained_model.
(** A chain of one word: the topic is certain, but its logarithm is not 0. *)
Example topic_example : let s := counts_init (new_sslm 1 2 1 1) 1 1 (fun _ => 5) in
  topic_dist s 0 = Ok (fun w => exp (s_elog s w 0%nat) / sumn 1 (fun v => exp (s_elog s v 0%nat))) /\ exp (s_elog s 0%nat 0%nat) < 1 /\ exp (s_elog s 0%nat 0%nat) / sumn 1 (fun v => exp (s_elog s v 0%nat)) = 1.
Proof.
  intros s. split; [reflexivity|]. assert (S1 : sumn 1 (fun v => exp (s_elog s v 0%nat)) = exp (s_elog s 0%nat 0%nat)) by (rewrite sumn_S, sumn_0; ring).
  assert (B : belongs s) by (apply (initial_chain (new_sslm 1 2 1 1) 1 1 (fun _ => 5)); [lra | lra | cbn; lia | intros; lra | cbn [s_W new_sslm]; rewrite sumn_S, sumn_0; lra]).
  pose proof (topic_mass s 0 B ltac:(cbn; lia) ltac:(cbn; lia)) as M. change (s_W s) with 1%nat in M. rewrite S1 in M. split; [apply M|]. rewrite S1. field. lra.
Qed.
