(** Rounds of inference and batch updates never lower the bound. *)
From Coq Require Import Reals Lra Psatz Lia.
From Verif Require Import Base MatReal_Model LdaTrain_Model LdaTrain_Proofs2 Lsi_Model Lsi_Linear LdaBound_Model LdaBound_Spec.
Local Open Scope R_scope.

Lemma rs_plus : forall {A} (f g : A -> R) l, Rsum (map (fun x => f x + g x) l) = Rsum (map f l) + Rsum (map g l).
Proof. intros A f g l. induction l as [|x l IH]; cbn; [ring|]. unfold Rsum in *. rewrite IH. ring. Qed.
Lemma rs_scal : forall {A} c (f : A -> R) l, Rsum (map (fun x => c * f x) l) = c * Rsum (map f l).
Proof. intros A c f l. induction l as [|x l IH]; cbn; [ring|]. unfold Rsum in *. rewrite IH. ring. Qed.
Lemma rs_le : forall {A} (f g : A -> R) l, (forall x, In x l -> f x <= g x) -> Rsum (map f l) <= Rsum (map g l).
Proof.
  intros A f g l. induction l as [|x l IH]; intros H; cbn; [lra|]. pose proof (H x (or_introl eq_refl)). specialize (IH (fun y Hy => H y (or_intror Hy))). unfold Rsum in IH. lra.
Qed.
Lemma rs_ext : forall {A} (f g : A -> R) l, (forall x, In x l -> f x = g x) -> Rsum (map f l) = Rsum (map g l).
Proof. intros A f g l H. f_equal. now apply map_ext_in. Qed.
Lemma ln_tangent : forall x m, 0 < x -> 0 < m -> ln x <= ln m + x / m - 1.
Proof.
  intros x m Hx Hm. assert (Q : 0 < x / m) by (apply Rdiv_lt_0_compat; assumption). pose proof (exp_ineq1_le (ln (x / m))) as E. rewrite exp_ln in E by exact Q. unfold Rdiv in E at 1. rewrite ln_mult, ln_Rinv in E; [lra | exact Hm | exact Hx | now apply Rinv_0_lt_compat].
Qed.
Lemma ln_jensen : forall K phi x phi0, (forall k, (k < K)%nat -> 0 <= phi k) -> 0 <= phi0 -> sumn K phi + phi0 = 1 -> (forall k, (k < K)%nat -> 0 < x k) -> 0 < sumn K (fun k => phi k * x k) + phi0 ->
  sumn K (fun k => phi k * ln (x k)) <= ln (sumn K (fun k => phi k * x k) + phi0).
Proof.
  intros K phi x phi0 P P0 S1 X M. set (m := sumn K (fun k => phi k * x k) + phi0) in *.
  assert (T : sumn K (fun k => phi k * ln (x k)) <= sumn K (fun k => phi k * (ln m - 1) + phi k * x k * / m)).
  { apply sumn_le. intros k Hk. pose proof (ln_tangent (x k) m (X k Hk) M). replace (phi k * (ln m - 1) + phi k * x k * / m) with (phi k * (ln m + x k / m - 1)) by (unfold Rdiv; ring). apply Rmult_le_compat_l; [now apply P | exact H]. }
  rewrite sumn_plus, !sumn_scal_r in T. replace (sumn K (fun k => phi k * x k)) with (m - phi0) in T by (unfold m; ring). replace (sumn K phi) with (1 - phi0) in T by lra.
  pose proof (ln_tangent 1 m ltac:(lra) M) as T1. rewrite ln_1 in T1. assert (E : (m - phi0) * / m = 1 - phi0 / m) by (field; lra). rewrite E in T.
  assert (Q : phi0 * 0 <= phi0 * (ln m + 1 / m - 1)) by (apply Rmult_le_compat_l; assumption). replace (phi0 * (ln m + 1 / m - 1)) with (phi0 * ln m + phi0 / m - phi0) in Q by (field; lra). lra.
Qed.
(** The weights of the topics for a word when the logarithms of the terms are [e] *)
Definition wt (K : nat) (eps : R) (e : nat -> R) (k : nat) : R := exp (e k) / (sumn K (fun k => exp (e k)) + eps).
Lemma total_pos : forall K eps e, (0 < K)%nat -> 0 <= eps -> 0 < sumn K (fun k => exp (e k)) + eps.
Proof. intros K eps e HK He. pose proof (sumn_pos K (fun k => exp (e k)) HK (fun k _ => exp_pos _)). lra. Qed.
Lemma word_step : forall K eps (e e' : nat -> R), (0 < K)%nat -> 0 <= eps ->
  ln (sumn K (fun k => exp (e k)) + eps) + sumn K (fun k => wt K eps e k * (e' k - e k)) <= ln (sumn K (fun k => exp (e' k)) + eps).
Proof.
  intros K eps e e' HK He. pose proof (total_pos K eps e HK He) as ZP. pose proof (total_pos K eps e' HK He) as ZP'. set (Zt := sumn K (fun k => exp (e k)) + eps) in *. set (Zt' := sumn K (fun k => exp (e' k)) + eps) in *.
  assert (S1 : sumn K (wt K eps e) + eps / Zt = 1) by (unfold wt; fold Zt; unfold Rdiv; rewrite sumn_scal_r; replace (sumn K (fun k => exp (e k))) with (Zt - eps) by (unfold Zt; ring); field; lra).
  assert (M : sumn K (fun k => wt K eps e k * exp (e' k - e k)) + eps / Zt = Zt' / Zt).
  { rewrite (sumn_ext _ _ (fun k => exp (e' k) * / Zt)); [rewrite sumn_scal_r; unfold Zt'; field; lra|]. intros k _. unfold wt. fold Zt. unfold Rminus. rewrite exp_plus, exp_Ropp. field. split; [lra | apply Rgt_not_eq, exp_pos]. }
  assert (MP : 0 < Zt' / Zt) by (apply Rdiv_lt_0_compat; assumption).
  pose proof (ln_jensen K (wt K eps e) (fun k => exp (e' k - e k)) (eps / Zt)) as J. cbv beta in J. rewrite M in J.
  assert (J' : sumn K (fun k => wt K eps e k * ln (exp (e' k - e k))) <= ln (Zt' / Zt)).
  { apply J; [| |exact S1|intros; apply exp_pos|exact MP].
    - intros k _. unfold wt. fold Zt. apply Rlt_le, Rdiv_lt_0_compat; [apply exp_pos | exact ZP].
    - unfold Rdiv. apply Rmult_le_pos; [exact He | apply Rlt_le, Rinv_0_lt_compat, ZP]. }
  rewrite (sumn_ext _ _ (fun k => wt K eps e k * (e' k - e k))) in J' by (intros; now rewrite ln_exp). unfold Rdiv in J'. rewrite ln_mult, ln_Rinv in J'; [lra | exact ZP | exact ZP' | now apply Rinv_0_lt_compat].
Qed.
Section Rounds.
Variables psi lgam : R -> R.
Notation E := (elog psi).
Notation AT := (above_tangents psi lgam).
Lemma density_gap : forall n a g, elog_density psi lgam n a g - elog_density psi lgam n g g = log_beta lgam n g - log_beta lgam n a + sumn n (fun k => (a k - g k) * E n g k).
Proof.
  intros n a g. unfold elog_density, log_beta. rewrite (sumn_ext n (fun k => (a k - g k) * E n g k) (fun k => (a k - 1) * E n g k - (g k - 1) * E n g k)) by (intros; ring). rewrite sumn_minus. ring.
Qed.
(** One more distribution of the mass can only help. *)
Lemma gap_step : forall n eta g s, AT n -> positive n g -> positive n (fun k => eta k + s k) ->
  let g' := fun k => eta k + s k in
  elog_density psi lgam n eta g - elog_density psi lgam n g g <= elog_density psi lgam n eta g' - elog_density psi lgam n g' g' + sumn n (fun k => s k * (E n g' k - E n g k)).
Proof.
  intros n eta g s HT Pg Ps g'. rewrite !density_gap. pose proof (HT g' g Ps Pg) as T.
  rewrite (sumn_ext n (fun k => s k * (E n g' k - E n g k)) (fun k => s k * E n g' k - s k * E n g k)) by (intros; ring). rewrite sumn_minus.
  assert (X1 : sumn n (fun k => (eta k - g' k) * E n g' k) = - sumn n (fun k => s k * E n g' k)).
  { rewrite <- (Rmult_1_l (sumn n (fun k => s k * E n g' k))), Ropp_mult_distr_l, <- sumn_scal. apply sumn_ext. intros k _. unfold g'. ring. }
  assert (X2 : sumn n (fun k => (g' k - g k) * E n g k) = sumn n (fun k => (eta k - g k) * E n g k) + sumn n (fun k => s k * E n g k)) by (rewrite <- sumn_plus; apply sumn_ext; intros k _; unfold g'; ring).
  lra.
Qed.
Variables K : nat.
Variable eps : R.
Hypothesis HK : (0 < K)%nat.
Hypothesis He : 0 <= eps.
Lemma step_shares : forall alpha elb g d k, gamma_step K eps alpha (fun k w => exp (elb k w)) (edirp psi K g) d k = alpha k + Rsum (map (fun wc => snd wc * wt K eps (fun k => E K g k + elb k (fst wc)) k) d).
Proof.
  intros alpha elb g d k. unfold gamma_step. f_equal. rewrite <- rs_scal. apply rs_ext. intros [w c] _. cbn [fst snd]. unfold wt, phinorm, edirp. change (dir_exp psi) with (elog psi).
  rewrite (sumn_ext _ (fun k => exp (E K g k) * exp (elb k w)) (fun k => exp (E K g k + elb k w))) by (intros; now rewrite exp_plus). rewrite exp_plus. pose proof (total_pos K eps (fun k => E K g k + elb k w) HK He). field. lra.
Qed.
Lemma shares_nonneg : forall (d : doc) (e : nat -> nat -> R) k, Forall (fun wc => 0 <= snd wc) d -> 0 <= Rsum (map (fun wc => snd wc * wt K eps (fun k => e k (fst wc)) k) d).
Proof.
  intros d e k F. induction F as [|wc d H F IH]; cbn; [lra|]. unfold Rsum in IH. apply Rplus_le_le_0_compat; [|exact IH]. apply Rmult_le_pos; [exact H|]. unfold wt. apply Rlt_le, Rdiv_lt_0_compat; [apply exp_pos | now apply total_pos].
Qed.
Lemma words_step : forall (d : doc) (e e' : nat -> nat -> R), Forall (fun wc => 0 <= snd wc) d ->
  Rsum (map (fun wc => snd wc * ln (sumn K (fun k => exp (e k (fst wc))) + eps)) d) + Rsum (map (fun wc => snd wc * sumn K (fun k => wt K eps (fun k => e k (fst wc)) k * (e' k (fst wc) - e k (fst wc)))) d)
  <= Rsum (map (fun wc => snd wc * ln (sumn K (fun k => exp (e' k (fst wc))) + eps)) d).
Proof.
  intros d e e' F. rewrite <- rs_plus. apply rs_le. intros wc I. rewrite Forall_forall in F. specialize (F wc I). rewrite <- Rmult_plus_distr_l. apply Rmult_le_compat_l; [exact F|]. now apply (word_step K eps (fun k => e k (fst wc)) (fun k => e' k (fst wc))).
Qed.
Lemma round_raises : forall alpha elb g d, AT K -> positive K alpha -> positive K g -> Forall (fun wc => 0 <= snd wc) d ->
  positive K (gamma_step K eps alpha (fun k w => exp (elb k w)) (edirp psi K g) d) /\
  doc_bound psi lgam K eps alpha elb d g <= doc_bound psi lgam K eps alpha elb d (gamma_step K eps alpha (fun k w => exp (elb k w)) (edirp psi K g) d).
Proof.
  intros alpha elb g d HT Pa Pg F. set (s := fun k => Rsum (map (fun wc => snd wc * wt K eps (fun k => E K g k + elb k (fst wc)) k) d)).
  assert (EG : gamma_step K eps alpha (fun k w => exp (elb k w)) (edirp psi K g) d = fun k => alpha k + s k) by (apply FunctionalExtensionality.functional_extensionality; intros k; apply step_shares).
  rewrite EG. assert (Sn : forall k, 0 <= s k) by (intros k; apply (shares_nonneg d (fun k w => E K g k + elb k w) k F)).
  assert (Ps : positive K (fun k => alpha k + s k)) by (intros k Hk; specialize (Sn k); specialize (Pa k Hk); lra). split; [exact Ps|].
  set (g' := fun k => alpha k + s k) in *. unfold doc_bound. pose proof (gap_step K alpha g s HT Pg Ps) as G. cbv zeta in G. fold g' in G.
  pose proof (words_step d (fun k w => E K g k + elb k w) (fun k w => E K g' k + elb k w) F) as Wd.
  assert (SW : Rsum (map (fun wc => snd wc * sumn K (fun k => wt K eps (fun k => E K g k + elb k (fst wc)) k * (E K g' k + elb k (fst wc) - (E K g k + elb k (fst wc))))) d) = sumn K (fun k => s k * (E K g' k - E K g k))).
  { unfold s. rewrite (rs_ext _ (fun wc => sumn K (fun k => snd wc * wt K eps (fun k => E K g k + elb k (fst wc)) k * (E K g' k - E K g k)))) by (intros wc _; rewrite <- sumn_scal; apply sumn_ext; intros; ring).
    rewrite <- (sumn_swap _ K (fun k (wc : nat * R) => snd wc * wt K eps (fun k => E K g k + elb k (fst wc)) k * (E K g' k - E K g k))). apply sumn_ext. intros k _.
    rewrite Rmult_comm, <- rs_scal. apply rs_ext. intros wc _. ring. }
  cbv beta in Wd. rewrite SW in Wd. lra.
Qed.
Lemma iterate_raises : forall n t alpha elb d g, AT K -> positive K alpha -> positive K g -> Forall (fun wc => 0 <= snd wc) d ->
  let g' := fst (iterate K eps (edirp psi) n t alpha (fun k w => exp (elb k w)) d g (edirp psi K g)) in
  positive K g' /\ doc_bound psi lgam K eps alpha elb d g <= doc_bound psi lgam K eps alpha elb d g'.
Proof.
  intros n. induction n as [|n IH]; intros t alpha elb d g HT Pa Pg F; cbn [iterate]; cbv zeta; [cbn [fst]; split; [exact Pg | lra]|].
  destruct (round_raises alpha elb g d HT Pa Pg F) as [P1 R1]. destruct (Rlt_dec _ t) as [L|L]; cbn [fst]; [split; assumption|].
  destruct (IH t alpha elb d _ HT Pa P1 F) as [P2 R2]. cbv zeta in P2, R2. split; [exact P2 | lra].
Qed.
End Rounds.

(** ** The statistics *)
Lemma last_count_some : forall (d : doc) w c, last_count d w = Some c -> In w (map fst d).
Proof.
  induction d as [|[w' c'] d IH]; intros w c H; cbn [last_count] in H; [discriminate|]. destruct (last_count d w) as [c2|] eqn:L; [right; exact (IH _ _ L)|]. destruct (Nat.eqb_spec w w') as [->|]; [now left | discriminate].
Qed.
Lemma sum_last : forall V (d : doc) (f : nat -> R -> R), NoDup (map fst d) -> Forall (fun wc => (fst wc < V)%nat) d ->
  sumn V (fun w => match last_count d w with Some c => f w c | None => 0 end) = Rsum (map (fun wc => f (fst wc) (snd wc)) d).
Proof.
  intros V d f. induction d as [|[w' c] d IH]; intros ND F; [apply sumn_zero|]. cbn [map] in ND. inversion ND as [|x l N ND' EQ]. clear EQ. specialize (IH ND' (Forall_inv_tail F)). pose proof (Forall_inv F) as Hw. cbn in Hw.
  assert (NL : last_count d w' = None) by (destruct (last_count d w') as [c'|] eqn:L; [exfalso; exact (N (last_count_some d w' c' L)) | reflexivity]).
  cbn [map fst snd Rsum fold_right]. fold (Rsum (map (fun wc => f (fst wc) (snd wc)) d)). rewrite <- IH. rewrite <- (sumn_delta V w' (fun w => f w c) Hw), <- sumn_plus. apply sumn_ext. intros w _. cbn [last_count]. unfold delta.
  destruct (Nat.eqb_spec w w') as [->|NE]; [rewrite NL; ring | destruct (last_count d w); ring].
Qed.
Section Stats.
Variables K V : nat.
Variable eps : R.
Variable edir : nat -> (nat -> R) -> nat -> R.
Variable draw : nat -> nat -> R.
Lemma infer_loop_sum : forall p chunk r acc gs, Forall (proper V) chunk -> infer_loop K V eps edir draw p r chunk acc = Ok gs -> forall k (X : nat -> R),
  sumn V (fun w => snd gs k w * X w) = sumn V (fun w => acc k w * X w) +
    Rsum (map (fun dg => Rsum (map (fun wc => edir K (snd dg) k * (snd wc / phinorm K eps (p_beta p) (edir K (snd dg)) (fst wc)) * X (fst wc)) (fst dg))) (combine chunk (fst gs))).
Proof.
  intros p chunk. induction chunk as [|d chunk IH]; intros r acc gs F H k X; cbn [infer_loop] in H; [injection H as <-; cbn; lra|].
  destruct (in_vocab V d); [|discriminate]. destruct (infer_loop K V eps edir draw p (S r) chunk _) as [rest|e] eqn:Er; [|discriminate]. cbn [rbind] in H. injection H as <-. cbn [fst snd combine map Rsum fold_right].
  rewrite (IH _ _ _ (Forall_inv_tail F) Er k X). destruct (Forall_inv F) as [ND FV]. rewrite <- Rplus_assoc. f_equal.
  unfold infer_doc. rewrite iterate_theta. set (g := fst (iterate K eps edir _ _ _ _ d (draw r) _)). set (f := fun w c => edir K g k * (c / phinorm K eps (p_beta p) (edir K g) w) * X w).
  match goal with |- _ = _ + ?r => replace r with (Rsum (map (fun wc => f (fst wc) (snd wc)) d)) by (apply rs_ext; intros; reflexivity) end.
  rewrite <- (sum_last V d f ND) by (eapply Forall_impl; [|exact FV]; intros a Ha; apply Ha). rewrite <- sumn_plus. apply sumn_ext. intros w _. unfold scatter. destruct (last_count d w) as [c|]; [unfold f; ring | ring].
Qed.
Lemma infer_loop_len : forall p chunk r acc gs, infer_loop K V eps edir draw p r chunk acc = Ok gs -> length (fst gs) = length chunk.
Proof.
  intros p chunk. induction chunk as [|d chunk IH]; intros r acc gs H; cbn [infer_loop] in H; [injection H as <-; reflexivity|]. destruct (in_vocab V d); [|discriminate]. destruct (infer_loop K V eps edir draw p (S r) chunk _) as [rest|e] eqn:Er; [|discriminate]. cbn [rbind] in H. injection H as <-. cbn. f_equal. exact (IH _ _ _ Er).
Qed.
End Stats.

(** ** A batch update *)
Section Batch.
Variables psi lgam : R -> R.
Variables K V : nat.
Variable eps : R.
Variable draw : nat -> nat -> R.
Hypothesis HK : (0 < K)%nat.
Hypothesis He : 0 <= eps.
Notation E := (elog psi).
Definition synced_dir (m : lda) : Prop := m_beta m = fun k w => exp (E V (lambda (m_state_eta m) (m_state m) k) w).
Lemma topics_raise : forall alpha (eta lam S : nat -> nat -> R) (corpus : list doc) (gammas : list (nat -> R)), above_tangents psi lgam V ->
  (forall k, (k < K)%nat -> positive V (lam k)) -> (forall k, (k < K)%nat -> positive V (fun w => eta k w + S k w)) -> Forall (proper V) corpus ->
  (forall k X, (k < K)%nat -> sumn V (fun w => S k w * X w) = Rsum (map (fun dg => Rsum (map (fun wc => snd wc * wt K eps (fun k => E K (snd dg) k + E V (lam k) (fst wc)) k * X (fst wc)) (fst dg))) (combine corpus gammas))) ->
  corpus_bound psi lgam K V eps alpha eta lam corpus gammas <= corpus_bound psi lgam K V eps alpha eta (fun k w => eta k w + S k w) corpus gammas.
Proof.
  intros alpha eta lam S corpus gammas HT Pl PS F HS. unfold corpus_bound, topics_part. set (lam' := fun k w => eta k w + S k w).
  assert (T : sumn K (fun k => elog_density psi lgam V (eta k) (lam k) - elog_density psi lgam V (lam k) (lam k)) <=
    sumn K (fun k => (elog_density psi lgam V (eta k) (lam' k) - elog_density psi lgam V (lam' k) (lam' k)) + sumn V (fun w => S k w * (E V (lam' k) w - E V (lam k) w)))).
  { apply sumn_le. intros k Hk. apply (gap_step psi lgam V (eta k) (lam k) (S k) HT (Pl k Hk) (PS k Hk)). }
  rewrite sumn_plus in T.
  set (gain := fun dg : doc * (nat -> R) => Rsum (map (fun wc => snd wc * sumn K (fun k => wt K eps (fun k => E K (snd dg) k + E V (lam k) (fst wc)) k * (E V (lam' k) (fst wc) - E V (lam k) (fst wc)))) (fst dg))).
  assert (D : Rsum (map (fun dg => doc_bound psi lgam K eps alpha (fun k => E V (lam k)) (fst dg) (snd dg) + gain dg) (combine corpus gammas)) <= Rsum (map (fun dg => doc_bound psi lgam K eps alpha (fun k => E V (lam' k)) (fst dg) (snd dg)) (combine corpus gammas))).
  { apply rs_le. intros [d g] I. cbn [fst snd]. unfold doc_bound, gain. cbn [fst snd]. apply in_combine_l in I. rewrite Forall_forall in F. destruct (F d I) as [_ Fd].
    assert (Fc : Forall (fun wc => 0 <= snd wc) d) by (eapply Forall_impl; [|exact Fd]; intros a Ha; apply Ha).
    pose proof (words_step K eps HK He d (fun k w => E K g k + E V (lam k) w) (fun k w => E K g k + E V (lam' k) w) Fc) as Wd. cbv beta in Wd.
    rewrite (rs_ext (fun wc => snd wc * sumn K (fun k => wt K eps (fun k => E K g k + E V (lam k) (fst wc)) k * (E K g k + E V (lam' k) (fst wc) - (E K g k + E V (lam k) (fst wc)))))
      (fun wc => snd wc * sumn K (fun k => wt K eps (fun k => E K g k + E V (lam k) (fst wc)) k * (E V (lam' k) (fst wc) - E V (lam k) (fst wc))))) in Wd by (intros wc _; f_equal; apply sumn_ext; intros; ring). lra. }
  rewrite rs_plus in D.
  assert (Q : sumn K (fun k => sumn V (fun w => S k w * (E V (lam' k) w - E V (lam k) w))) = Rsum (map gain (combine corpus gammas))).
  { rewrite (sumn_ext _ _ (fun k => Rsum (map (fun dg => Rsum (map (fun wc => snd wc * wt K eps (fun k => E K (snd dg) k + E V (lam k) (fst wc)) k * (E V (lam' k) (fst wc) - E V (lam k) (fst wc))) (fst dg))) (combine corpus gammas)))).
    2: { intros k Hk. exact (HS k (fun w => E V (lam' k) w - E V (lam k) w) Hk). }
    rewrite (sumn_swap _ K (fun k (dg : doc * (nat -> R)) => Rsum (map (fun wc => snd wc * wt K eps (fun k => E K (snd dg) k + E V (lam k) (fst wc)) k * (E V (lam' k) (fst wc) - E V (lam k) (fst wc))) (fst dg)))).
    apply rs_ext. intros dg _. unfold gain. rewrite (sumn_swap _ K (fun k (wc : nat * R) => snd wc * wt K eps (fun k => E K (snd dg) k + E V (lam k) (fst wc)) k * (E V (lam' k) (fst wc) - E V (lam k) (fst wc)))).
    apply rs_ext. intros wc _. rewrite <- sumn_scal. apply sumn_ext. intros. ring. }
  rewrite Q in T. pose proof (Rplus_le_compat _ _ _ _ D T) as DT. match type of DT with (?a + ?g) + ?t <= ?c + (?u + ?g2) => change (a + t <= c + u); lra end.
Qed.
(** The statistics of the expectation step are the expected counts *)
Lemma estep_counts : forall p r corpus gs (lam : nat -> nat -> R), p_beta p = (fun k w => exp (E V (lam k) w)) -> Forall (proper V) corpus -> inference K V eps (edirp psi) draw p r corpus = Ok gs -> forall k X,
  sumn V (fun w => snd gs k w * X w) = Rsum (map (fun dg => Rsum (map (fun wc => snd wc * wt K eps (fun k => E K (snd dg) k + E V (lam k) (fst wc)) k * X (fst wc)) (fst dg))) (combine corpus (fst gs))).
Proof.
  intros p r corpus gs lam HB F H k X. unfold inference in H. destruct (infer_loop K V eps (edirp psi) draw p r corpus (fun _ _ => 0)) as [gs'|e] eqn:EI; [|discriminate]. cbn [rbind] in H. injection H as <-. cbn [fst snd].
  pose proof (infer_loop_sum K V eps (edirp psi) draw p corpus r _ gs' F EI k (fun w => p_beta p k w * X w)) as L. cbv beta in L.
  rewrite (sumn_ext V (fun w => snd gs' k w * p_beta p k w * X w) (fun w => snd gs' k w * (p_beta p k w * X w))) by (intros; ring). rewrite L, (sumn_ext V (fun w => 0 * (p_beta p k w * X w)) (fun _ => 0)) by (intros; ring). rewrite sumn_zero, Rplus_0_l.
  apply rs_ext. intros dg _. apply rs_ext. intros [w c] _. cbn [fst snd]. unfold wt, phinorm, edirp. change (dir_exp psi) with (elog psi). rewrite HB.
  rewrite (sumn_ext _ (fun k0 => exp (E K (snd dg) k0) * exp (E V (lam k0) w)) (fun k0 => exp (E K (snd dg) k0 + E V (lam k0) w))) by (intros; now rewrite exp_plus). rewrite exp_plus. pose proof (total_pos K eps (fun k0 => E K (snd dg) k0 + E V (lam k0) w) HK He). field. lra.
Qed.
End Batch.
