(** Theorems about the bound, the perplexity, the priors and the differences of topics. *)
From Coq Require Import Reals Lra Psatz Lia Permutation.
From Verif Require Import Base Str MatReal_Model LdaTrain_Model LdaTrain_Proofs2 LdaTrain_Properties Lsi_Model Lsi_Linear LdaBound_Model LdaBound_Spec LdaBound_Proofs.
Local Open Scope R_scope.

(** A pair of functions with the property required of digamma and log gamma *)
Definition xlnx (x : R) : R := x * ln x - x.
Lemma log_sum : forall n (a g : nat -> R), (forall k, (k < n)%nat -> 0 < a k) -> (forall k, (k < n)%nat -> 0 < g k) -> (0 < n)%nat -> sumn n (fun k => a k * (ln (g k) - ln (a k))) <= sumn n a * (ln (sumn n g) - ln (sumn n a)).
Proof.
  intros n a g Ha Hg Hn. pose proof (sumn_pos n a Hn Ha) as PA. pose proof (sumn_pos n g Hn Hg) as PG.
  assert (S1 : sumn n (fun k => a k / sumn n a) + 0 = 1) by (unfold Rdiv; rewrite sumn_scal_r; field; lra).
  assert (M : sumn n (fun k => a k / sumn n a * (g k / a k)) + 0 = sumn n g / sumn n a).
  { rewrite (sumn_ext _ _ (fun k => g k * / sumn n a)) by (intros k Hk; pose proof (Ha k Hk); field; lra). rewrite sumn_scal_r. unfold Rdiv. ring. }
  pose proof (ln_jensen n (fun k => a k / sumn n a) (fun k => g k / a k) 0) as J. cbv beta in J. rewrite M in J.
  assert (J' : sumn n (fun k => a k / sumn n a * ln (g k / a k)) <= ln (sumn n g / sumn n a)).
  { apply J; [| lra | exact S1 | | now apply Rdiv_lt_0_compat]; intros k Hk; [apply Rlt_le|]; apply Rdiv_lt_0_compat; auto. }
  rewrite (sumn_ext _ _ (fun k => a k * (ln (g k) - ln (a k)) * / sumn n a)) in J'.
  - rewrite sumn_scal_r in J'. unfold Rdiv in J'. rewrite ln_mult, ln_Rinv in J'; [| assumption | assumption | now apply Rinv_0_lt_compat].
    apply (Rmult_le_compat_r (sumn n a)) in J'; [|lra]. rewrite Rmult_assoc, Rinv_l in J' by lra. lra.
  - intros k Hk. unfold Rdiv. rewrite ln_mult, ln_Rinv; [ring | auto | auto | apply Rinv_0_lt_compat; auto].
Qed.
Example tangents_consistent : forall n, above_tangents ln xlnx n.
Proof.
  intros n a g Ha Hg. destruct n as [|n]; [unfold log_beta, xlnx, sumn; cbn; lra|]. pose proof (log_sum (S n) a g Ha Hg ltac:(lia)) as L. revert L. generalize (S n). clear. intros n L. unfold log_beta, elog, xlnx.
  rewrite (sumn_ext n (fun k => a k * (ln (g k) - ln (a k))) (fun k => a k * ln (g k) - a k * ln (a k))) in L by (intros; ring). rewrite sumn_minus in L.
  rewrite !sumn_minus. rewrite (sumn_ext n (fun k => (a k - g k) * (ln (g k) - ln (sumn n g))) (fun k => (a k * ln (g k) - a k * ln (sumn n g)) - (g k * ln (g k) - g k * ln (sumn n g)))) by (intros; ring).
  rewrite !sumn_minus, !sumn_scal_r. lra.
Qed.

(** ** C115: what [bound] computes *)
Lemma score_doc : forall psi lgam K alpha elb d g, doc_score K psi lgam alpha elb d g = doc_bound psi lgam K 0 alpha elb d g.
Proof.
  intros. unfold doc_score, doc_bound. pose proof (density_gap psi lgam K alpha g) as D. unfold log_beta in D. unfold logsumexp. change (dir_exp psi) with (elog psi). rewrite sumn_minus.
  rewrite (rs_ext (fun wc => snd wc * ln (sumn K (fun k => exp (elog psi K g k + elb k (fst wc))) + 0)) (fun wc => snd wc * ln (sumn K (fun k => exp (elog psi K g k + elb k (fst wc)))))) by (intros; now rewrite Rplus_0_r). lra.
Qed.
Lemma best_topics : forall K (e p : nat -> R), (0 < K)%nat -> distribution K p -> sumn K (fun k => p k * (e k - ln (p k))) <= ln (sumn K (fun k => exp (e k))).
Proof.
  intros K e p HK [P S1]. pose proof (sumn_pos K (fun k => exp (e k)) HK (fun k _ => exp_pos _)) as ZP.
  assert (M : sumn K (fun k => p k * (exp (e k) / p k)) + 0 = sumn K (fun k => exp (e k))) by (rewrite Rplus_0_r; apply sumn_ext; intros k Hk; pose proof (P k Hk); field; lra).
  pose proof (ln_jensen K p (fun k => exp (e k) / p k) 0) as J. cbv beta in J. rewrite M in J.
  assert (J' : sumn K (fun k => p k * ln (exp (e k) / p k)) <= ln (sumn K (fun k => exp (e k)))).
  { apply J; [intros k Hk; apply Rlt_le; auto | lra | lra | intros k Hk; apply Rdiv_lt_0_compat; [apply exp_pos | auto] | exact ZP]. }
  rewrite (sumn_ext _ _ (fun k => p k * (e k - ln (p k)))) in J'; [exact J'|]. intros k Hk. unfold Rdiv. rewrite ln_mult, ln_Rinv, ln_exp; [reflexivity | auto | apply exp_pos | apply Rinv_0_lt_compat; auto].
Qed.
(** The score of a document is the greatest value of the variational bound over the topics of its words. *)
Theorem bound_is_best : forall psi lgam K alpha elb (d : doc) gamma, (0 < K)%nat -> Forall (fun wc => 0 <= snd wc) d ->
  (forall phi, (forall w, distribution K (phi w)) -> elbo psi lgam K alpha gamma elb phi d <= doc_score K psi lgam alpha elb d gamma) /\
  (exists phi, (forall w, distribution K (phi w)) /\ elbo psi lgam K alpha gamma elb phi d = doc_score K psi lgam alpha elb d gamma).
Proof.
  intros psi lgam K alpha elb d gamma HK F. rewrite score_doc. unfold elbo, doc_bound, words_part. split.
  - intros phi HP. assert (T : Rsum (map (fun wc => snd wc * sumn K (fun k => phi (fst wc) k * (elog psi K gamma k + elb k (fst wc) - ln (phi (fst wc) k)))) d) <= Rsum (map (fun wc => snd wc * ln (sumn K (fun k => exp (elog psi K gamma k + elb k (fst wc))) + 0)) d)); [|lra].
    apply rs_le. intros wc I. rewrite Forall_forall in F. apply Rmult_le_compat_l; [exact (F wc I)|]. rewrite Rplus_0_r. exact (best_topics K (fun k => elog psi K gamma k + elb k (fst wc)) (phi (fst wc)) HK (HP _)).
  - exists (fun w => wt K 0 (fun k => elog psi K gamma k + elb k w)). split.
    + intros w. pose proof (total_pos K 0 (fun k => elog psi K gamma k + elb k w) HK ltac:(lra)) as ZP. split; [intros k _; unfold wt; apply Rdiv_lt_0_compat; [apply exp_pos | exact ZP]|].
      unfold wt, Rdiv. rewrite sumn_scal_r. rewrite Rplus_0_r in *. field. lra.
    + f_equal. f_equal. apply rs_ext. intros [w c] _. cbn [fst snd]. f_equal. set (e := fun k => elog psi K gamma k + elb k w). pose proof (total_pos K 0 e HK ltac:(lra)) as ZP.
      rewrite (sumn_ext _ _ (fun k => wt K 0 e k * ln (sumn K (fun k => exp (e k)) + 0))).
      * rewrite sumn_scal_r. unfold wt at 1, Rdiv. rewrite sumn_scal_r. change (sumn K (fun k => exp (elog psi K gamma k + elb k w))) with (sumn K (fun k => exp (e k))). set (Zs := sumn K (fun k => exp (e k))) in *. rewrite !Rplus_0_r in *. field. lra.
      * intros k _. f_equal. unfold wt. unfold Rdiv. rewrite ln_mult, ln_Rinv, ln_exp; [unfold e; lra | exact ZP | apply exp_pos | now apply Rinv_0_lt_compat].
Qed.
Print Assumptions bound_is_best.
Definition flat_prior (eta : prior) : Prop := match eta with PMatrix _ => False | _ => True end.
(** For priors that are numbers or vectors the whole score is the variational bound. *)
Lemma topics_score : forall psi lgam K V eta lam, topic_score K V psi lgam eta lam = topics_part psi lgam K V (eta_at eta) lam + sumn K (fun k => lgam (sum_eta K V eta) - lgam (sumn V (eta_at eta k))).
Proof.
  intros. unfold topic_score, topics_part. rewrite <- !sumn_plus. apply sumn_ext. intros k _. rewrite density_gap. unfold log_beta. change (dir_exp psi) with (elog psi). rewrite sumn_minus. lra.
Qed.
Theorem score_is_bound : forall psi lgam K V alpha eta lam corpus gammas, flat_prior eta -> length gammas = length corpus -> forallb (in_vocab V) corpus = true ->
  bound K V psi lgam alpha eta lam corpus gammas 1 = Ok (corpus_bound psi lgam K V 0 alpha (eta_at eta) lam corpus gammas).
Proof.
  intros psi lgam K V alpha eta lam corpus gammas HF HL HV. unfold bound. rewrite HL, Nat.ltb_irrefl, HV. f_equal. unfold score_all, corpus_bound. rewrite topics_score, Rmult_1_r.
  assert (Z0 : sumn K (fun k => lgam (sum_eta K V eta) - lgam (sumn V (eta_at eta k))) = 0).
  { rewrite (sumn_ext _ _ (fun _ => 0)); [apply sumn_zero|]. intros k _. destruct eta as [e|e|e]; [|change (lgam (sumn V e) - lgam (sumn V e) = 0); lra|contradiction]. change (lgam (e * INR V) - lgam (sumn V (fun _ => e)) = 0).
    replace (sumn V (fun _ => e)) with (e * INR V); [lra|]. clear. induction V as [|n IH]; [rewrite sumn_0; cbn; lra|]. rewrite sumn_S, <- IH, S_INR. ring. }
  rewrite Z0, Rplus_0_r. f_equal. apply rs_ext. intros dg _. apply score_doc.
Qed.
Print Assumptions score_is_bound.
Theorem bound_fails : forall psi lgam K V alpha eta lam corpus gammas r, length gammas = length corpus -> (bound K V psi lgam alpha eta lam corpus gammas r = Err IndexError <-> exists d wc, In d corpus /\ In wc d /\ (V <= fst wc)%nat).
Proof.
  intros psi lgam K V alpha eta lam corpus gammas r HL. unfold bound. rewrite HL, Nat.ltb_irrefl. destruct (forallb (in_vocab V) corpus) eqn:Fb.
  - split; [discriminate|]. intros [d [wc [I1 [I2 L]]]]. rewrite forallb_forall in Fb. specialize (Fb d I1). unfold in_vocab in Fb. rewrite forallb_forall in Fb. specialize (Fb wc I2). apply Nat.ltb_lt in Fb. lia.
  - split; [|reflexivity]. intros _. clear HL. induction corpus as [|d c IH]; [discriminate|]. cbn in Fb. destruct (in_vocab V d) eqn:Vd.
    + destruct (IH Fb) as [d' [wc [I1 I2]]]. exists d', wc. split; [now right | exact I2].
    + unfold in_vocab in Vd. clear - Vd. assert (X : exists wc, In wc d /\ (V <= fst wc)%nat). { induction d as [|x d IH]; [discriminate|]. cbn [forallb] in Vd. destruct (Nat.ltb_spec (fst x) V); [destruct (IH Vd) as [wc [I1 I2]]; exists wc; split; [now right | exact I2] | exists x; split; [now left | assumption]]. }
      destruct X as [wc [I1 I2]]. exists d, wc. split; [now left | now split].
Qed.
Print Assumptions bound_fails.
(** With one prior per topic the code adds the priors of all topics: two topics over one word, all parameters one. *)
Theorem matrix_prior_refuted : exists psi lgam K V alpha eta lam b, (forall n, above_tangents psi lgam n) /\
  bound K V psi lgam alpha (PMatrix eta) lam [] [] 1 = Ok b /\ b > corpus_bound psi lgam K V 0 alpha eta lam [] [].
Proof.
  exists ln, xlnx, 2%nat, 1%nat, (fun _ => 1), (fun _ _ => 1), (fun _ _ => 1). eexists. split; [exact tangents_consistent|]. split; [reflexivity|].
  unfold score_all, corpus_bound. rewrite topics_score. cbn [map combine Rsum fold_right]. rewrite Rmult_0_l. change (eta_at (PMatrix (fun _ _ : nat => 1))) with (fun _ _ : nat => 1). unfold sum_eta, sumn. cbn. unfold xlnx. replace (1 + 0 + (1 + 0 + 0)) with 2 by ring. replace (1 + 0) with 1 by ring. rewrite ln_1.
  pose proof (ln_tangent 1 2 ltac:(lra) ltac:(lra)) as T. rewrite ln_1 in T. pose proof (exp_ineq1 (ln (1/2)) ) as E1. rewrite exp_ln in E1 by lra. unfold Rdiv in E1. rewrite ln_mult, ln_1, ln_Rinv in E1 by lra. assert (L2 : 0 < ln 2) by (rewrite <- ln_1; apply ln_increasing; lra). specialize (E1 ltac:(intros X; lra)). lra.
Qed.
Print Assumptions matrix_prior_refuted.

(** ** C116: training raises the bound *)
(** Every round of inference, hence the whole loop, raises the bound of the document *)
Theorem inference_raises : forall psi lgam K V eps draw p r corpus gs elb, (0 < K)%nat -> 0 <= eps -> above_tangents psi lgam K -> positive K (p_alpha p) -> p_beta p = (fun k w => exp (elb k w)) ->
  Forall (fun d => Forall (fun wc : nat * R => 0 <= snd wc) d) corpus -> (forall i, positive K (draw i)) -> inference K V eps (edirp psi) draw p r corpus = Ok gs ->
  forall i d, nth_error corpus i = Some d -> exists g, nth_error (fst gs) i = Some g /\ positive K g /\ doc_bound psi lgam K eps (p_alpha p) elb d (draw (r + i)%nat) <= doc_bound psi lgam K eps (p_alpha p) elb d g.
Proof.
  intros psi lgam K V eps draw p r corpus gs elb HK He HT Pa HB F PD H i d Hd. destruct (gammas_each K V eps (edirp psi) draw p r corpus gs H) as [_ G]. eexists. split; [exact (G i d Hd)|].
  unfold infer_doc. rewrite HB. apply (iterate_raises psi lgam K eps HK He); try assumption; [apply PD|]. rewrite Forall_forall in F. apply F. exact (nth_error_In _ _ Hd).
Qed.
Print Assumptions inference_raises.
(** A batch step with the whole corpus (weight one) raises the bound for the inferred documents *)
Theorem batch_raises : forall psi lgam K V eps draw na ne m corpus m1 gammas other pass x, (0 < K)%nat -> 0 <= eps -> above_tangents psi lgam V -> synced_dir psi V m ->
  (forall k, (k < K)%nat -> positive V (m_state_eta m k)) -> (forall k, (k < K)%nat -> positive V (lambda (m_state_eta m) (m_state m) k)) -> Forall (proper V) corpus -> numdocs (m_state m) = length corpus ->
  do_estep K V eps (edirp psi) draw m corpus fresh = Ok (m1, gammas, other) -> let m2 := do_mstep V (edirp psi) ne (set_alpha m1 na) pass 1 other x in
  synced_dir psi V m2 /\
  corpus_bound psi lgam K V eps na (m_state_eta m) (lambda (m_state_eta m) (m_state m)) corpus gammas <= corpus_bound psi lgam K V eps na (m_state_eta m2) (lambda (m_state_eta m2) (m_state m2)) corpus gammas.
Proof.
  intros psi lgam K V eps draw na ne m corpus m1 gammas other pass x HK He HT HS Pe Pl F HN H m2. unfold do_estep in H. destruct (inference K V eps (edirp psi) draw (model_params m) (m_draws m) corpus) as [gs|e] eqn:EI; [|discriminate]. cbn [rbind] in H. injection H as <- <- <-.
  split; [reflexivity|]. unfold m2, do_mstep. cbn [m_state m_state_eta set_alpha set_draws].
  assert (LG : length (fst gs) = length corpus) by (destruct (gammas_each K V eps (edirp psi) draw _ _ _ _ EI); assumption).
  assert (EL : lambda (m_state_eta m) (blend 1 (m_state m) {| stats := fun k w => stats fresh k w + snd gs k w; numdocs := numdocs fresh + length (fst gs); seen := seen fresh ++ corpus |} None) = fun k w => m_state_eta m k w + snd gs k w).
  { apply FunctionalExtensionality.functional_extensionality. intros k. apply FunctionalExtensionality.functional_extensionality. intros w. unfold lambda, blend. cbn [stats numdocs fresh]. cbn [Nat.add]. rewrite LG, HN. unfold stretch at 2. rewrite Nat.eqb_refl, orb_true_r. ring. }
  match goal with |- _ <= corpus_bound _ _ _ _ _ _ _ ?L _ _ => replace L with (fun k w => m_state_eta m k w + snd gs k w) by (symmetry; exact EL) end. cbn [m_state_eta set_alpha set_draws]. pose proof (estep_counts psi K V eps draw HK He (model_params m) (m_draws m) corpus gs (lambda (m_state_eta m) (m_state m)) HS F EI) as C.
  apply (topics_raise psi lgam K V eps HK He na (m_state_eta m) _ (snd gs) corpus (fst gs) HT Pl); [|exact F|intros k X _; apply C].
  intros k Hk w Hw. pose proof (Pe k Hk w Hw) as P0. pose proof (C k (fun v => delta v w)) as Cw. cbv beta in Cw. rewrite (sumn_delta V w (fun v => snd gs k v) Hw) in Cw.
  assert (0 <= snd gs k w); [|lra]. rewrite Cw. clear - HK He F. generalize (fst gs). intros l. revert l. induction F as [|d corpus [_ Fd] F IH]; intros [|g l]; cbn; try lra. apply Rplus_le_le_0_compat; [|apply IH].
  clear - HK He Fd. induction Fd as [|wc d [_ H] Fd IH]; cbn; [lra|]. apply Rplus_le_le_0_compat; [|exact IH]. apply Rmult_le_pos; [apply Rmult_le_pos; [exact H|]|].
  - unfold wt. apply Rlt_le, Rdiv_lt_0_compat; [apply exp_pos | now apply total_pos].
  - unfold delta. destruct (fst wc =? w)%nat; lra.
Qed.
Print Assumptions batch_raises.
(** The bound that inference raises and the bound that [bound] reports differ by the constant added to the probabilities only *)
Theorem constant_close : forall psi lgam K eps alpha elb (d : doc) g, (0 < K)%nat -> 0 <= eps -> Forall (fun wc => 0 <= snd wc) d ->
  0 <= doc_bound psi lgam K eps alpha elb d g - doc_score K psi lgam alpha elb d g <= eps * Rsum (map (fun wc => snd wc / sumn K (fun k => exp (elog psi K g k + elb k (fst wc)))) d).
Proof.
  intros psi lgam K eps alpha elb d g HK He F. rewrite score_doc. unfold doc_bound. rewrite <- rs_scal.
  assert (A : forall wc, In wc d -> let Z0 := sumn K (fun k => exp (elog psi K g k + elb k (fst wc))) in 0 < Z0 /\ ln (Z0 + 0) <= ln (Z0 + eps) /\ ln (Z0 + eps) <= ln (Z0 + 0) + eps / Z0).
  { intros wc I Z0. pose proof (sumn_pos K (fun k => exp (elog psi K g k + elb k (fst wc))) HK (fun k _ => exp_pos _)) as ZP. fold Z0 in ZP. split; [exact ZP|]. rewrite Rplus_0_r. split.
    - destruct (Req_dec eps 0) as [->|NE]; [rewrite Rplus_0_r; lra | apply Rlt_le, ln_increasing; lra].
    - pose proof (ln_tangent (Z0 + eps) Z0 ltac:(lra) ZP) as T. replace ((Z0 + eps) / Z0) with (1 + eps / Z0) in T by (field; lra). lra. }
  rewrite Forall_forall in F.
  assert (B1 : Rsum (map (fun wc => snd wc * ln (sumn K (fun k => exp (elog psi K g k + elb k (fst wc))) + 0)) d) <= Rsum (map (fun wc => snd wc * ln (sumn K (fun k => exp (elog psi K g k + elb k (fst wc))) + eps)) d)).
  { apply rs_le. intros wc I. destruct (A wc I) as [_ [L _]]. apply Rmult_le_compat_l; [exact (F wc I) | exact L]. }
  assert (B2 : Rsum (map (fun wc => snd wc * ln (sumn K (fun k => exp (elog psi K g k + elb k (fst wc))) + eps)) d) <= Rsum (map (fun wc => snd wc * ln (sumn K (fun k => exp (elog psi K g k + elb k (fst wc))) + 0) + eps * (snd wc / sumn K (fun k => exp (elog psi K g k + elb k (fst wc))))) d)).
  { apply rs_le. intros wc I. destruct (A wc I) as [ZP [_ L]]. replace (eps * (snd wc / sumn K (fun k => exp (elog psi K g k + elb k (fst wc))))) with (snd wc * (eps / sumn K (fun k => exp (elog psi K g k + elb k (fst wc))))) by (field; lra). rewrite <- Rmult_plus_distr_l. apply Rmult_le_compat_l; [exact (F wc I) | exact L]. }
  rewrite rs_plus in B2. lra.
Qed.
Print Assumptions constant_close.
(** A model of two topics and three words and a corpus of two documents that meet the conditions *)
Definition corpus_x : list doc := [[(0%nat, 2); (2%nat, 1)]; [(1%nat, 3)]].
Definition model_x : lda := Lda (LState (fun k w => INR (k + w)) 2 []) (fun k w => exp (elog ln 3 (lambda (fun _ _ => 1 / 2) (LState (fun k w => INR (k + w)) 2 []) k) w)) (fun _ => 1 / 2) (fun _ _ => 1 / 2) (fun _ _ => 1 / 2) 0 0 false false 50 (1 / 1000) [].
Example batch_x : exists m1 gammas other, do_estep 2 3 (1 / 10) (edirp ln) (fun i k => 1 + INR k) model_x corpus_x fresh = Ok (m1, gammas, other) /\ length gammas = 2%nat /\
  let m2 := do_mstep 3 (edirp ln) (fun _ _ _ _ => 0) (set_alpha m1 (m_alpha m1)) 0 1 other false in
  corpus_bound ln xlnx 2 3 (1 / 10) (m_alpha m1) (m_state_eta model_x) (lambda (m_state_eta model_x) (m_state model_x)) corpus_x gammas
  <= corpus_bound ln xlnx 2 3 (1 / 10) (m_alpha m1) (m_state_eta m2) (lambda (m_state_eta m2) (m_state m2)) corpus_x gammas.
Proof.
  eexists. eexists. eexists. split; [reflexivity|]. split; [reflexivity|]. cbv zeta.
  eapply (batch_raises ln xlnx 2 3 (1 / 10) (fun i k => 1 + INR k) _ _ model_x corpus_x); [lia | lra | apply tangents_consistent | reflexivity | intros k _ w _; cbn; lra | | | reflexivity | reflexivity].
  - intros k _ w _. unfold lambda. cbn [model_x m_state m_state_eta stats]. pose proof (pos_INR (k + w)). lra.
  - repeat constructor; cbn; try lia; try lra; intros H; repeat destruct H as [H|H]; try discriminate H; try contradiction.
Qed.
