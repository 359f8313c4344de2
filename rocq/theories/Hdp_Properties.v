(** C99: the hierarchical Dirichlet process.  The training keeps columns of the topics that are discounted only when their words appear again;
    this is the same as discounting everything after every chunk. *)
From Coq Require Import Reals Lra Lia FunctionalExtensionality Permutation.
From Verif Require Import Base MatReal_Model MatReal_Proofs Utils_Model Utils_Properties LdaTrain_Model LdaTrain_Proofs2 Lsi_Model Lsi_Linear Hdp_Model Hdp_Spec Hdp_Proofs Hdp_Proofs2.
Local Open Scope R_scope.

Section Runs.
Variable psi : R -> R.
Variable order : nat -> (nat -> R) -> nat -> nat.
Variable lik : doc -> mat -> mat -> mat -> R.
Variable o : opts.
Fixpoint lazy_run (opt_o : bool) (s : hdp) (chunks : list (list doc)) : option hdp :=
  match chunks with
  | [] => Some s
  | c :: rest => match update_chunk psi order lik o opt_o s c with Some s' => lazy_run opt_o s' rest | None => None end
  end.
Lemma lazy_run_rep : forall opt_o chunks s e, o_converge o < 1 -> rho_ok o -> Forall (chunk_ok o) chunks -> Rep o s e ->
  exists s' e', lazy_run opt_o s chunks = Some s' /\ eager_run psi order lik o opt_o e chunks = Some e' /\ Rep o s' e'.
Proof.
  intros opt_o chunks. induction chunks as [|c chunks IH]; intros s e Hc Hr HC R0; [exists s, e; auto|].
  inversion HC; subst. pose proof (chunk_rep psi lik o order opt_o s e c R0 H1 (Hr _)) as X. cbn [lazy_run eager_run].
  destruct (eager_chunk psi order lik o opt_o e c) as [e1|] eqn:E.
  - destruct X as [s1 [-> [R1 _]]]. apply IH; auto.
  - exfalso. unfold eager_chunk in E. destruct (says_spec psi lik o c (e_elog psi o e) (expect_log_sticks psi (o_T o) (fst (e_sticks e)) (snd (e_sticks e))) Hc) as [m [q [E2 _]]].
    rewrite E2 in E. discriminate E.
Qed.
End Runs.

(** Laziness: after any chunks, each column of the stored topics, times its pending discount, is the column that eager training has; the sums are
    those of the eager matrix; the rest is equal; and bringing everything up to date gives exactly the eager topics and expectations. *)
Theorem lazy_is_eager : forall psi order lik o opt_o draw chunks, o_converge o < 1 -> (forall ct, 0 <= rhot o ct < 1) -> Forall (Forall (doc_ok (o_W o))) chunks ->
  exists s e, lazy_run psi order lik o opt_o (new_hdp psi o draw) chunks = Some s /\ eager_run psi order lik o opt_o (new_eager o draw) chunks = Some e /\
  (forall t w, (w < o_W o)%nat -> exists last r, Some last = List.last (m_r s) None /\ Some r = nth (m_time s w) (m_r s) None /\ e_lambda e t w = m_lambda s t w * exp (last - r)) /\
  (forall t, m_lambda_sum s t = sumn (o_W o) (e_lambda e t)) /\ m_varphi s = e_varphi e /\ m_sticks s = e_sticks e /\ m_ct s = e_ct e /\
  exists s', update_expectations psi o s = Some s' /\ forall t w, (w < o_W o)%nat -> m_lambda s' t w = e_lambda e t w /\
    m_elog s' t w = psi (o_eta o + e_lambda e t w) - psi (INR (o_W o) * o_eta o + sumn (o_W o) (e_lambda e t)).
Proof.
  intros psi order lik o opt_o draw chunks Hc Hr HC. destruct (lazy_run_rep psi order lik o opt_o chunks _ _ Hc Hr HC (new_rep psi o draw)) as [s [e [E1 [E2 R0]]]].
  exists s, e. split; [auto|]. split; [auto|]. split; [|split; [apply (rep_sum o s e R0)|]].
  - intros t w Hw. destruct (rep_r o s e R0) as [RL RS]. destruct (factor_some (m_r s) (m_time s w) RS) as [x [y [EX [EY [_ EF]]]]]; [pose proof (rep_time o s e R0 w Hw); lia|].
    exists x, y. split; [auto|]. split; [auto|]. rewrite (rep_lambda o s e R0 t w Hw). unfold eff. rewrite EF. reflexivity.
  - split; [apply (rep_varphi o s e R0)|]. split; [apply (rep_sticks o s e R0)|]. split; [apply (rep_ct o s e R0)|].
    destruct (expectations_rep psi o s e R0) as [s' [E' [_ [_ [L _]]]]]. exists s'. split; [auto|]. intros t w Hw. apply (L t w Hw).
Qed.
Print Assumptions lazy_is_eager.

(** The learning rate is between 0 and 1 for a positive slow-down, exponent and scale (at most 1). *)
Theorem learning_rate : forall o ct, 0 < o_scale o <= 1 -> 0 < o_tau o -> 0 < o_kappa o -> 0 < rhot o ct < 1.
Proof. intros o ct. apply rhot_range. Qed.
Print Assumptions learning_rate.

(** With a learning rate of 1, as after `tau=0`, the logarithm of the discount is minus infinity and the topics are no numbers. *)
Theorem tau_zero_refuted : exists o, o_tau o = 0 /\ o_scale o = 1 /\ forall psi order lik draw (chunk : list doc) s late rounds, (0 < length chunk <= 2)%nat -> (exists d w, In d chunk /\ In w (map fst d) /\ (w < o_W o)%nat) ->
  (update_chunk psi order lik o true (new_hdp psi o draw) chunk = Some s -> update_expectations psi o s = None) /\
  forall s', update psi order lik o (S rounds) late chunk (new_hdp psi o draw) <> Done s'.
Proof.
  exists (mkOpts 2 1 3 2 1 1 (1 / 100) 0 1 1 (1 / 10000) 2 (Some 1%nat) false). split; [reflexivity|]. split; [reflexivity|].
  intros psi order lik draw chunk s late rounds HL [d [w [Hd [Hw HW]]]]. set (o := mkOpts _ _ _ _ _ _ _ _ _ _ _ _ _ _) in *.
  assert (RHO : rhot o 0 = 1). { unfold rhot, o. cbn [o_scale o_tau o_kappa INR]. replace (0 + 1 + 0) with 1 by ring. unfold Rpower. rewrite ln_1, Rmult_0_r, exp_0. destruct (Rlt_dec (1 * 1) 0); lra. }
  assert (MAIN : forall s1, update_chunk psi order lik o true (new_hdp psi o draw) chunk = Some s1 -> forall n, update_expectations psi o (count_docs n s1) = None /\ update_expectations psi o s1 = None).
  { intros s1 E n. assert (X : m_r s1 = [Some 0; None] /\ m_time s1 w = 1%nat).
    { unfold update_chunk in E. destruct (refresh psi o (word_list chunk) (new_hdp psi o draw)) as [s2|] eqn:ER; [|discriminate E].
      destruct (stats_of _ _ _ _ _ _ _ _) as [ss|]; [|discriminate E]. unfold refresh in ER. destruct (forallb _ _); [|discriminate ER]. injection ER as <-.
      unfold update_lambda in E. cbn [m_ct m_r m_time new_hdp] in E. rewrite RHO in E. unfold next_r in E. destruct (Rlt_dec (1 - 1) 0); [lra|]. destruct (Req_EM_T (1 - 1) 0); [|lra]. injection E as <-.
      cbn [m_r m_time app]. split; [reflexivity|]. rewrite (proj2 (memb_nat w (word_list chunk))); [reflexivity|]. apply word_list_In. eauto. }
    destruct X as [X1 X2].
    assert (F : forallb (fun w0 => is_some (factor (m_r s1) (m_time s1 w0))) (seq 0 (o_W o)) = false).
    { destruct (forallb _ _) eqn:F; [|reflexivity]. rewrite forallb_forall in F. specialize (F w ltac:(apply in_seq; lia)). rewrite X1, X2 in F. cbn in F. discriminate F. }
    unfold update_expectations, refresh. cbn [count_docs m_r m_time]. rewrite F. auto. }
  split; [intros E; apply (MAIN s E 0%nat)|]. intros s'. unfold update. cbn [update_loop].
  assert (CH : @chunkize_serial doc chunk (o_chunksize o) = [chunk]).
  { unfold o. cbn [o_chunksize]. destruct chunk as [|a [|b [|c chunk]]]; cbn [length] in HL; [lia | reflexivity | reflexivity | lia]. }
  rewrite CH. cbn [pass]. destruct (update_chunk psi order lik o true (new_hdp psi o draw) chunk) as [s1|] eqn:E; [|discriminate]. destruct (MAIN s1 eq_refl (length chunk)) as [M1 _].
  replace (update_finished o late 1 (m_docs (count_docs (length chunk) s1))) with true by reflexivity. rewrite M1. discriminate.
Qed.
Print Assumptions tau_zero_refuted.

(** Training keeps all parameters of the distributions positive, so that the digamma function is never asked at a pole. *)
Theorem parameters_positive : forall psi order lik o opt_o draw chunks, o_converge o < 1 -> (forall ct, 0 <= rhot o ct < 1) -> 0 < o_eta o -> 0 < o_gamma o -> (0 < o_D o)%nat -> (0 < o_T o)%nat ->
  (forall t w, 0 < draw t w) -> Forall (Forall (doc_ok (o_W o))) chunks ->
  exists s s', lazy_run psi order lik o opt_o (new_hdp psi o draw) chunks = Some s /\ update_expectations psi o s = Some s' /\ m_ct s' = length chunks /\
  (forall t w, (w < o_W o)%nat -> 0 < o_eta o + m_lambda s' t w) /\ (forall t, (0 < o_W o)%nat -> 0 < INR (o_W o) * o_eta o + m_lambda_sum s' t) /\
  (forall t, 0 < fst (m_sticks s') t) /\ (forall t, (t < o_T o - 1)%nat -> 0 < snd (m_sticks s') t).
Proof.
  intros psi order lik o opt_o draw chunks Hc Hr He Hg HD HT Hd HC.
  destruct (lazy_run_rep psi order lik o opt_o chunks _ _ Hc Hr HC (new_rep psi o draw)) as [s [e [E1 [E2 R0]]]].
  destruct (eager_run_pos psi order lik o opt_o chunks (new_eager o draw) Hc Hr He Hg HC (new_pos o draw Hd HD HT)) as [e' [E3 [P C]]]. rewrite E2 in E3. injection E3 as <-.
  destruct (expectations_rep psi o s e R0) as [s' [E4 [R4 [_ [L _]]]]]. exists s, s'. split; [auto|]. split; [auto|]. split; [rewrite (rep_ct o s' e R4); exact C|].
  rewrite (rep_sticks o s' e R4). split; [|split; [|split; [apply (pos_a o e P) | apply (pos_b o e P)]]].
  - intros t w Hw. rewrite (proj1 (L t w Hw)). apply (pos_lambda o e P); auto.
  - intros t HW. rewrite (rep_sum o s' e R4). unfold e_sum. rewrite <- (sumn_const (o_W o) (o_eta o)), <- sumn_plus. apply sumn_pos; [auto|]. intros w Hw. apply (pos_lambda o e P); auto.
Qed.
Print Assumptions parameters_positive.

(** What a chunk says: summed over the topics, exactly the counts of each word; and each document with words counts once for each of its [K] topics. *)
Theorem chunk_mass : forall psi order lik o e chunk, o_converge o < 1 -> (0 < o_T o)%nat -> (0 < o_K o)%nat -> order_ok order -> Forall (doc_ok (o_W o)) chunk ->
  exists e', eager_chunk psi order lik o true e chunk = Some e' /\
  (forall w, sumn (o_T o) (fun t => e_lambda e' t w) = (1 - rhot o (e_ct e)) * sumn (o_T o) (fun t => e_lambda e t w) + rhot o (e_ct e) * (INR (o_D o) * chunk_count chunk w / INR (length chunk))) /\
  sumn (o_T o) (e_varphi e') = (1 - rhot o (e_ct e)) * sumn (o_T o) (e_varphi e) + rhot o (e_ct e) * (INR (o_D o) * (INR (o_K o) * INR (length (filter full chunk))) / INR (length chunk)).
Proof.
  intros psi order lik o e chunk Hc HT HK HO HC. unfold eager_chunk.
  destruct (says_spec psi lik o chunk (e_elog psi o e) (expect_log_sticks psi (o_T o) (fst (e_sticks e)) (snd (e_sticks e))) Hc) as [m [q [-> [_ [_ M]]]]]. destruct (M HT HK) as [M1 M2].
  eexists. split; [reflexivity|]. cbn [e_lambda e_varphi]. cbv zeta. set (rho := rhot o (e_ct e)). split.
  - intros w. rewrite (order_sum order (o_T o) _ (fun t => (1 - rho) * e_lambda e t w + rho * (INR (o_D o) * m t w / INR (length chunk))) HO). rewrite sumn_plus, sumn_scal. f_equal.
    rewrite <- M1. rewrite sumn_scal. f_equal. unfold Rdiv. rewrite sumn_scal_r, sumn_scal. reflexivity.
  - rewrite (order_sum order (o_T o) _ (fun t => (1 - rho) * e_varphi e t + rho * (INR (o_D o) * q t / INR (length chunk))) HO). rewrite sumn_plus, sumn_scal. f_equal.
    rewrite <- M2. rewrite sumn_scal. f_equal. unfold Rdiv. rewrite sumn_scal_r, sumn_scal. reflexivity.
Qed.
Print Assumptions chunk_mass.

(** An id that is twice in a document loses one of its counts. *)
Theorem duplicate_ids_refuted : exists o d, o_converge o < 1 /\ forall psi lik elog s1, exists ss,
  stats_of psi lik o (word_list [d]) elog s1 [d] ((fun _ => 0), mzero) = Some ss /\ sumn (o_T o) (fun t => snd ss t 0%nat) < count_in 0 d.
Proof.
  exists (mkOpts 1 1 3 2 1 1 (1 / 100) 64 1 1 (1 / 10000) 2 None false), [(0%nat, 1); (0%nat, 2)]. set (o := mkOpts _ _ _ _ _ _ _ _ _ _ _ _ _ _). assert (Hc : o_converge o < 1) by (cbn; lra). split; [auto|].
  intros psi lik elog s1. rewrite stats_cons. destruct (doc_step_some psi lik o [(0%nat, 1); (0%nat, 2)] elog s1 Hc) as [[vp phi] [E [_ [_ [S3 S4]]]]]. rewrite E. cbn [stats_of]. eexists. split; [reflexivity|].
  cbn [fst snd] in S3, S4. specialize (S3 0%nat ltac:(cbn; lia)). specialize (S4 1%nat ltac:(cbn; lia)). unfold o in S3, S4. cbn [o_T o_K] in S3, S4. unfold sumn, Rsum in *. cbn in S3, S4. cbn.
  unfold count_in. cbn. unfold mzero. assert (vp 0%nat 0%nat = 1) as -> by lra. assert (phi 1%nat 0%nat = 1) as -> by lra. cbn. lra.
Qed.
Print Assumptions duplicate_ids_refuted.

(** The model for inference: weights of the topics that are not negative and sum to alpha, topics that are distributions over the words. *)
Theorem lda_of_hdp : forall psi o s e, Final psi o s e -> Pos o e -> (0 < o_T o)%nat -> (0 < o_W o)%nat -> 0 <= o_alpha o ->
  exists alpha beta, m_lda s = Some (alpha, beta) /\ (forall t, (t < o_T o)%nat -> 0 <= alpha t) /\ sumn (o_T o) alpha = o_alpha o /\
  (forall t w, (w < o_W o)%nat -> 0 < beta t w) /\ (forall t, sumn (o_W o) (beta t) = 1) /\ (forall t w, (w < o_W o)%nat -> beta t w = get_topics o s t w).
Proof.
  intros psi o s e [R0 [L ML]] P HT HW Ha. exists (lda_alpha o s), (lda_beta o s). split; [exact ML|]. set (st := fun k => fst (m_sticks s) k / (fst (m_sticks s) k + snd (m_sticks s) k)).
  assert (ST : forall i, (i < o_T o - 1)%nat -> 0 <= st i <= 1).
  { intros i Hi. unfold st. rewrite (rep_sticks o s e R0). pose proof (pos_a o e P i). pose proof (pos_b o e P i Hi). set (a := fst _ i) in *. set (b := snd _ i) in *. clearbody a b. split.
    - apply Rmult_le_pos; [lra | apply Rlt_le, Rinv_0_lt_compat; lra].
    - apply (Rmult_le_reg_r (a + b)); [lra|]. unfold Rdiv. rewrite Rmult_assoc, Rinv_l by lra. lra. }
  assert (DEN : forall t, INR (o_W o) * o_eta o + m_lambda_sum s t = sumn (o_W o) (fun w => m_lambda s t w + o_eta o)).
  { intros t. rewrite (rep_sum o s e R0). unfold e_sum. rewrite sumn_plus. rewrite sumn_const. rewrite (sumn_ext (o_W o) (e_lambda e t) (m_lambda s t)); [ring|]. intros w Hw. symmetry. apply (L t w Hw). }
  assert (DP : forall t, 0 < sumn (o_W o) (fun w => m_lambda s t w + o_eta o)).
  { intros t. apply sumn_pos; [auto|]. intros w Hw. rewrite (proj1 (L t w Hw)). pose proof (pos_lambda o e P t w Hw). lra. }
  repeat split.
  - intros t Ht. unfold lda_alpha. fold st. apply Rmult_le_pos; [|auto]. destruct (Nat.ltb_spec t (o_T o - 1)).
    + apply Rmult_le_pos; [apply ST; auto | apply left_nonneg; intros; apply ST; lia].
    + apply left_nonneg. intros; apply ST; lia.
  - unfold lda_alpha. fold st. rewrite sumn_scal_r. rewrite <- (Rmult_1_l (o_alpha o)) at 2. f_equal. rewrite <- (stick_sum st (o_T o - 1)).
    replace (o_T o) with (S (o_T o - 1)) at 1 by lia. rewrite sumn_S, Nat.ltb_irrefl. f_equal. apply sumn_ext. intros k Hk. rewrite (proj2 (Nat.ltb_lt _ _) Hk). reflexivity.
  - intros t w Hw. unfold lda_beta. rewrite DEN. apply Rmult_lt_0_compat; [|apply Rinv_0_lt_compat; auto]. rewrite (proj1 (L t w Hw)). pose proof (pos_lambda o e P t w Hw). lra.
  - intros t. unfold lda_beta. rewrite DEN. unfold Rdiv. rewrite sumn_scal_r. apply Rinv_r. specialize (DP t). lra.
  - intros t w Hw. unfold lda_beta, get_topics. rewrite DEN. reflexivity.
Qed.
Print Assumptions lda_of_hdp.

(** ** How long training lasts *)
Section Update.
Variable o : opts.
Definition no_limits : Prop := max_chunks o = None /\ has_max_time o = false.
Lemma finished_no_limits : forall late n docs, no_limits -> update_finished o late n docs = (o_D o <=? docs)%nat.
Proof. intros late n docs [A B]. unfold update_finished. rewrite A, B. reflexivity. Qed.
Lemma stop_all : forall late chunks n docs, no_limits -> Forall (fun c => c <> []) chunks -> chunks <> [] -> (docs + length (concat chunks) = o_D o)%nat -> stop_at o late n docs chunks = Some (length chunks).
Proof.
  intros late chunks. induction chunks as [|c chunks IH]; intros n docs NL F NE E; [congruence|]. inversion F; subst. cbn [stop_at length]. rewrite finished_no_limits by auto.
  cbn [concat] in E. rewrite app_length in E. destruct chunks as [|c' chunks].
  - cbn in E. rewrite (proj2 (Nat.leb_le _ _)) by lia. reflexivity.
  - assert (0 < length c')%nat by (inversion H2; subst; destruct c'; [congruence | cbn; lia]). cbn [concat] in E. rewrite app_length in E.
    destruct (Nat.leb_spec (o_D o) (docs + length c)); [lia|]. rewrite IH; auto; [discriminate|]. cbn [concat]. rewrite app_length. lia.
Qed.
Lemma chunks_ok : forall corpus, Forall (doc_ok (o_W o)) corpus -> (0 < o_chunksize o)%nat -> Forall (chunk_ok o) (chunkize_serial corpus (o_chunksize o)).
Proof.
  intros corpus HC H1. destruct (chunkize_serial_exact corpus (o_chunksize o) H1) as [E _]. apply Forall_forall. intros c Hc. unfold chunk_ok. apply Forall_forall. intros d Hd.
  rewrite Forall_forall in HC. apply HC. rewrite <- E. apply in_concat. eauto.
Qed.
End Update.

Definition sane (o : opts) : Prop := o_converge o < 1 /\ (forall ct, 0 <= rhot o ct < 1) /\ 0 < o_eta o /\ 0 < o_gamma o /\ (0 < o_chunksize o)%nat.

(** Without limits, a new model that is given its corpus sees each chunk exactly once, in one round, and then shows the eager result. *)
Theorem update_once : forall psi order lik o late corpus draw rounds, sane o -> no_limits o -> Forall (doc_ok (o_W o)) corpus -> corpus <> [] -> o_D o = length corpus -> (0 < o_T o)%nat -> (forall t w, 0 < draw t w) ->
  exists s e, update psi order lik o (S rounds) late corpus (new_hdp psi o draw) = Done s /\ eager_run psi order lik o true (new_eager o draw) (chunkize_serial corpus (o_chunksize o)) = Some e /\
  Final psi o s e /\ Pos o e /\ m_docs s = length corpus /\ m_ct s = length (chunkize_serial corpus (o_chunksize o)).
Proof.
  intros psi order lik o late corpus draw rounds [Hc [Hr [He [Hg Hz]]]] NL HC NE HD HT Hd. destruct (chunkize_serial_exact corpus (o_chunksize o) Hz) as [CE [CN _]]. set (cs := chunkize_serial corpus (o_chunksize o)) in *.
  assert (HD0 : (0 < o_D o)%nat) by (rewrite HD; destruct corpus; [congruence | cbn; lia]).
  pose proof (pass_spec psi order lik o late cs 0 (new_hdp psi o draw) (new_eager o draw) Hc Hr He Hg (chunks_ok o corpus HC Hz) (new_rep psi o draw) (new_pos o draw Hd HD0 HT)) as PS.
  assert (CS : cs <> []) by (intros E; rewrite E in CE; cbn in CE; congruence).
  rewrite (stop_all o late cs 0 (m_docs (new_hdp psi o draw)) NL) in PS; [|eapply Forall_impl; [|exact CN]; intros c [? _]; auto | auto | change (length (concat cs) = o_D o); rewrite CE; auto].
  destruct PS as [s [e [A [B [C [D E]]]]]]. rewrite firstn_all in B, E. exists s, e. unfold update. cbn [update_loop]. fold cs. rewrite A. split; [auto|]. split; [auto|]. split; [auto|]. split; [auto|]. split; [rewrite CE in E; exact E|].
  destruct C as [R0 _]. rewrite (rep_ct o s e R0). destruct (eager_run_pos psi order lik o true cs (new_eager o draw) Hc Hr He Hg (chunks_ok o corpus HC Hz) (new_pos o draw Hd HD0 HT)) as [e' [E' [_ C']]]. rewrite B in E'. injection E' as <-. exact C'.
Qed.
Print Assumptions update_once.

(** A model that has seen its corpus ends every later training after one chunk: the rest of the documents is ignored. *)
Theorem update_again_one_chunk : forall psi order lik o late corpus s e c rest rounds, sane o -> no_limits o -> Forall (doc_ok (o_W o)) corpus -> Rep o s e -> Pos o e -> (o_D o <= m_docs s)%nat ->
  chunkize_serial corpus (o_chunksize o) = c :: rest ->
  exists s' e', update psi order lik o (S rounds) late corpus s = Done s' /\ eager_chunk psi order lik o true e c = Some e' /\ Final psi o s' e' /\ Pos o e' /\ m_ct s' = S (m_ct s).
Proof.
  intros psi order lik o late corpus s e c rest rounds [Hc [Hr [He [Hg Hz]]]] NL HC R0 P HD EC. pose proof (chunks_ok o corpus HC Hz) as CK. rewrite EC in CK.
  pose proof (pass_spec psi order lik o late (c :: rest) 0 s e Hc Hr He Hg CK R0 P) as PS. cbn [stop_at] in PS. rewrite (finished_no_limits o late 1 _ NL) in PS.
  rewrite (proj2 (Nat.leb_le _ _)) in PS by lia. destruct PS as [s' [e' [A [B [C [D E]]]]]]. exists s', e'. unfold update. cbn [update_loop]. rewrite EC, A. cbn [firstn eager_run] in B.
  destruct (eager_chunk_pos psi order lik o true e c Hc (Hr _) He Hg ltac:(inversion CK; auto) P) as [e1 [E1 [_ C1]]]. rewrite E1 in B. injection B as <-. split; [auto|]. split; [auto|]. split; [auto|]. split; [auto|].
  destruct C as [R1 _]. rewrite (rep_ct o s' e1 R1), C1, (rep_ct o s e R0). reflexivity.
Qed.
Print Assumptions update_again_one_chunk.

(** so that `update` with four further documents trains on two of them *)
Definition ex_o : opts := mkOpts 2 1 3 4 1 1 (1 / 100) 64 1 1 (1 / 10000) 2 None false.
Definition ex_corpus : list doc := [[(0%nat, 1)]; [(1%nat, 2)]; [(2%nat, 1); (0%nat, 3)]; []].
Lemma ex_sane : sane ex_o.
Proof. unfold sane. cbn [ex_o o_converge o_eta o_gamma o_chunksize]. split; [lra|]. split; [intros ct; pose proof (learning_rate ex_o ct); cbn [ex_o o_scale o_tau o_kappa] in *; lra|]. split; [lra|]. split; [lra | lia]. Qed.
Lemma ex_ok : Forall (doc_ok (o_W ex_o)) ex_corpus.
Proof. unfold ex_corpus. repeat constructor; cbn; try lra; try lia; intuition discriminate. Qed.
Theorem update_again_refuted : forall psi order lik late, exists s s', update psi order lik ex_o 1 late ex_corpus (new_hdp psi ex_o (fun _ _ => 1)) = Done s /\ m_ct s = 2%nat /\
  update psi order lik ex_o 1 late ex_corpus s = Done s' /\ m_ct s' = 3%nat.
Proof.
  intros psi order lik late. destruct (update_once psi order lik ex_o late ex_corpus (fun _ _ => 1) 0 ex_sane (conj eq_refl eq_refl) ex_ok ltac:(discriminate) eq_refl ltac:(cbn; lia) ltac:(intros; lra)) as [s [e [A [B [C [D [E F]]]]]]].
  destruct C as [R0 _].
  destruct (update_again_one_chunk psi order lik ex_o late ex_corpus s e [[(0%nat, 1)]; [(1%nat, 2)]] [[[(2%nat, 1); (0%nat, 3)]; []]] 0 ex_sane (conj eq_refl eq_refl) ex_ok R0 D ltac:(rewrite E; cbn; lia) eq_refl) as [s' [e' [A' [_ [_ [_ F']]]]]].
  exists s, s'. split; [auto|]. split; [exact F|]. split; [auto|]. rewrite F', F. reflexivity.
Qed.
Print Assumptions update_again_refuted.

(** With a limit of chunks, training takes exactly so many, going round the corpus as often as necessary. *)
Theorem update_max_chunks : forall psi order lik o late corpus m draw rounds, sane o -> max_chunks o = Some (S m) -> has_max_time o = false -> Forall (doc_ok (o_W o)) corpus ->
  (0 < o_T o)%nat -> (0 < o_D o)%nat -> (forall t w, 0 < draw t w) -> (S m <= rounds * length (chunkize_serial corpus (o_chunksize o)))%nat ->
  exists s e, update psi order lik o rounds late corpus (new_hdp psi o draw) = Done s /\
  eager_run psi order lik o true (new_eager o draw) (firstn (S m) (concat (repeat (chunkize_serial corpus (o_chunksize o)) rounds))) = Some e /\ Final psi o s e /\ Pos o e /\ m_ct s = S m.
Proof.
  intros psi order lik o late corpus m draw rounds [Hc [Hr [He [Hg Hz]]]] EM EB HC HT HD Hd HR. pose proof (chunks_ok o corpus HC Hz) as CK. unfold update. set (cs := chunkize_serial corpus (o_chunksize o)) in *.
  assert (FIN : forall n docs, update_finished o late n docs = (n =? S m)%nat). { intros n docs. unfold update_finished. rewrite EM, EB. cbn [andb orb negb]. rewrite !orb_false_r. reflexivity. }
  assert (STOP : forall chunks n docs, (n < S m)%nat -> stop_at o late n docs chunks = if (S m <=? n + length chunks)%nat then Some (S m - n)%nat else None).
  { induction chunks as [|c chunks IH]; intros n docs Hn; cbn [stop_at length].
    - destruct (Nat.leb_spec (S m) (n + 0)); [lia | reflexivity].
    - rewrite FIN. destruct (Nat.eqb_spec (S n) (S m)) as [E|NE].
      + rewrite (proj2 (Nat.leb_le _ _)) by lia. f_equal. lia.
      + rewrite IH by lia. replace (S n + length chunks)%nat with (n + S (length chunks))%nat by lia. destruct (Nat.leb_spec (S m) (n + S (length chunks))); cbn [option_map]; [f_equal; lia | reflexivity]. }
  assert (LOOP : forall r n s e, (n < S m)%nat -> (S m <= n + r * length cs)%nat -> Rep o s e -> Pos o e -> e_ct e = n ->
    exists s' e', update_loop psi order lik o r late corpus n s = Done s' /\ eager_run psi order lik o true e (firstn (S m - n) (concat (repeat cs r))) = Some e' /\ Final psi o s' e' /\ Pos o e' /\ m_ct s' = S m).
  { induction r as [|r IH]; intros n s e Hn HL R0 P CT; [lia|]. cbn [update_loop]. fold cs. pose proof (pass_spec psi order lik o late cs n s e Hc Hr He Hg CK R0 P) as PS. rewrite STOP in PS by auto.
    cbn [repeat concat]. destruct (Nat.leb_spec (S m) (n + length cs)) as [L|L].
    - destruct PS as [s' [e' [A [B [C [D E]]]]]]. exists s', e'. rewrite A. split; [auto|]. rewrite firstn_app. replace (S m - n - length cs)%nat with 0%nat by lia. cbn [firstn]. rewrite app_nil_r.
      split; [auto|]. split; [auto|]. split; [auto|]. destruct C as [R1 _]. rewrite (rep_ct o s' e' R1).
      destruct (eager_run_pos psi order lik o true (firstn (S m - n) cs) e Hc Hr He Hg) as [e2 [E2 [_ C2]]]; [|auto|].
      + rewrite Forall_forall in CK |- *. intros c Hcc. apply CK. rewrite <- (firstn_skipn (S m - n) cs). apply in_or_app. auto.
      + rewrite B in E2. injection E2 as <-. rewrite C2, firstn_length. lia.
    - destruct PS as [s' [e' [A [B [C [D E]]]]]]. rewrite A. rewrite firstn_app, firstn_all2 by lia.
      assert (CT' : e_ct e' = (n + length cs)%nat).
      { destruct (eager_run_pos psi order lik o true cs e Hc Hr He Hg CK P) as [e2 [E2 [_ C2]]]. rewrite B in E2. injection E2 as <-. lia. }
      destruct (IH (n + length cs)%nat s' e' L ltac:(cbn [Nat.mul] in HL; lia) C D CT') as [s2 [e2 [A2 [B2 [C2 [D2 F2]]]]]]. exists s2, e2. split; [auto|]. split; [|auto].
      rewrite eager_run_app, B. replace (S m - n - length cs)%nat with (S m - (n + length cs))%nat by lia. exact B2. }
  destruct (LOOP rounds 0%nat (new_hdp psi o draw) (new_eager o draw) ltac:(lia) ltac:(lia) (new_rep psi o draw) (new_pos o draw Hd HD HT) eq_refl) as [s [e H]]. exists s, e. rewrite Nat.sub_0_r in H. exact H.
Qed.
Print Assumptions update_max_chunks.

(** An empty corpus: the training never ends. *)
Theorem empty_corpus_refuted : exists o, sane o /\ forall psi order lik late s rounds, update psi order lik o rounds late [] s = Running.
Proof.
  exists ex_o. split; [exact ex_sane|]. intros psi order lik late s rounds. unfold update. generalize 0%nat. induction rounds as [|r IH]; intros n; [reflexivity|]. cbn [update_loop]. change (chunkize_serial (@nil doc) (o_chunksize ex_o)) with (@nil (list doc)). cbn [pass]. apply IH.
Qed.
Print Assumptions empty_corpus_refuted.

(** A model without a corpus: all parameters of its topics are 0, where the digamma function has a pole. *)
Theorem no_corpus_refuted : exists o, sane o /\ forall psi draw t w, 0 < draw t w -> o_eta o + m_lambda (new_hdp psi o draw) t w = 0.
Proof.
  exists (mkOpts 2 1 3 0 1 1 (1 / 100) 64 1 1 (1 / 10000) 2 None false). split.
  - destruct ex_sane as [A [B [C [D E]]]]. split; [exact A|]. split; [exact B|]. split; [exact C|]. split; [exact D | exact E].
  - intros psi draw t w _. cbn [new_hdp m_lambda o_eta o_D INR]. unfold Rdiv. ring.
Qed.
Print Assumptions no_corpus_refuted.

(** ** Topics *)
(** After a chunk the topics are in the order of their weights. *)
Theorem topics_ordered : forall psi order lik o s e chunk s', order_ok order -> Rep o s e -> Forall (doc_ok (o_W o)) chunk -> (forall ct, 0 <= rhot o ct < 1) -> update_chunk psi order lik o true s chunk = Some s' ->
  forall i j, (i < j < o_T o)%nat -> m_lambda_sum s' j <= m_lambda_sum s' i.
Proof.
  intros psi order lik o s e chunk s' HO R0 HC Hr E i j Hij. pose proof (chunk_rep psi lik o order true s e chunk R0 HC (Hr _)) as X.
  destruct (eager_chunk psi order lik o true e chunk) as [e'|] eqn:EE; [|congruence]. destruct X as [s2 [E2 [R2 _]]]. rewrite E in E2. injection E2 as <-. rewrite !(rep_sum o s' e' R2). unfold e_sum.
  unfold eager_chunk in EE. destruct (chunk_says _ _ _ _ _ _) as [[m q]|]; [|discriminate EE]. injection EE as <-. cbn [e_lambda]. cbv zeta.
  set (f := fun t => sumn (o_W o) (fun w => (1 - rhot o (e_ct e)) * e_lambda e t w + rhot o (e_ct e) * (INR (o_D o) * m t w / INR (length chunk)))). exact (proj2 (HO (o_T o) f) i j Hij).
Qed.
Print Assumptions topics_ordered.

(** If no two weights are equal, the topics that are shown have the numbers that `__getitem__` and `get_topics` use. *)
Theorem numbering_agrees : forall psi order o s e k w, order_ok order -> Final psi o s e -> (forall i j, (i < j < o_T o)%nat -> m_lambda_sum s j < m_lambda_sum s i) -> (k < o_T o)%nat ->
  formatted order o s k w = get_topics o s k w.
Proof.
  intros psi order o s e k w HO [R0 [L _]] D Hk. unfold formatted, get_topics. rewrite (order_id order (o_T o)); auto. intros i j Hij.
  assert (X : forall t, sumn (o_W o) (fun w0 => m_lambda s t w0 + o_eta o) = e_sum o e t + INR (o_W o) * o_eta o).
  { intros t. rewrite sumn_plus, sumn_const. f_equal. unfold e_sum. apply sumn_ext. intros w0 Hw0. apply (L t w0 Hw0). }
  rewrite !X. specialize (D i j Hij). rewrite !(rep_sum o s e R0) in D. lra.
Qed.
Print Assumptions numbering_agrees.

(** The suggested LDA model infers with the topics of this model, but what it shows as its topics does not depend on this model at all. *)
Theorem suggested_topics_refuted : forall o s s' draw, l_expElogbeta (suggested_lda_model o s draw) = lda_beta o s /\ l_alpha (suggested_lda_model o s draw) = lda_alpha o s /\
  lda_topics o (suggested_lda_model o s draw) = lda_topics o (suggested_lda_model o s' draw).
Proof. intros. split; [reflexivity | split; reflexivity]. Qed.
Print Assumptions suggested_topics_refuted.

(** -1, documented as "all topics", shows none. *)
Theorem show_topics_count : forall o n, (0 <= n)%Z -> topics_shown o n = Z.min n (Z.of_nat (o_T o)).
Proof. intros o n H. unfold topics_shown. lia. Qed.
Print Assumptions show_topics_count.
Theorem show_all_topics_refuted : exists o, (0 < o_T o)%nat /\ topics_shown o (-1) = 0%Z.
Proof. exists ex_o. split; [cbn; lia | reflexivity]. Qed.
Print Assumptions show_all_topics_refuted.

(** ** Inference *)
Theorem getitem_untrained : forall psi o tiny eps s d, m_lda s = None -> getitem psi o tiny eps s d = Err RuntimeErr.
Proof. intros psi o tiny eps s d H. unfold getitem. rewrite H. reflexivity. Qed.
Print Assumptions getitem_untrained.
(** The shares of a document: those of at least [eps], from weights that are at least the prior and exceed it in total by at most the counts. *)
Theorem getitem_shares : forall psi o tiny eps s alpha beta d, m_lda s = Some (alpha, beta) -> 0 <= tiny -> (0 < o_T o)%nat -> (forall t, (t < o_T o)%nat -> 0 <= alpha t) -> 0 < sumn (o_T o) alpha ->
  (forall t w, (w < o_W o)%nat -> 0 < beta t w) -> doc_ok (o_W o) d -> d <> [] ->
  exists g l, getitem psi o tiny eps s d = Ok l /\ (forall t, (t < o_T o)%nat -> alpha t <= g t) /\ sumn (o_T o) alpha <= sumn (o_T o) g <= sumn (o_T o) alpha + Rsum (map snd d) /\
  (tiny = 0 -> sumn (o_T o) g = sumn (o_T o) alpha + Rsum (map snd d)) /\
  (forall t x, In (t, x) l <-> (t < o_T o)%nat /\ x = g t / sumn (o_T o) g /\ eps <= x) /\ (forall t x, In (t, x) l -> 0 <= x <= 1).
Proof.
  intros psi o tiny eps s alpha beta d ML Ht HT Ha Hs Hb [ND HD] NE. unfold getitem. rewrite ML. destruct d as [|wc d]; [congruence|]. set (dd := wc :: d) in *. set (g := lda_e_step psi o dd alpha beta tiny).
  assert (B : (forall t, (t < o_T o)%nat -> alpha t <= g t) /\ sumn (o_T o) alpha <= sumn (o_T o) g <= sumn (o_T o) alpha + Rsum (map snd dd) /\ (tiny = 0 -> sumn (o_T o) g = sumn (o_T o) alpha + Rsum (map snd dd))).
  { unfold g, lda_e_step. destruct (iterate_last (o_T o) tiny (edir psi) 100 (1 / 100000) alpha beta dd (fun _ => 1) ltac:(lia)) as [g' ->]. apply gamma_bounds; auto.
    - eapply Forall_impl; [|exact HD]. intros x [_ ?]; auto.
    - intros t w _ Hw. apply Hb. apply in_map_iff in Hw. destruct Hw as [x [<- Hx]]. rewrite Forall_forall in HD. apply (HD x Hx).
    - intros t. apply exp_pos. }
  destruct B as [B1 [B2 B3]]. destruct (Req_EM_T (sumn (o_T o) g) 0); [lra|]. eexists g, _. split; [reflexivity|]. split; [auto|]. split; [auto|]. split; [auto|].
  assert (IFF : forall t x, In (t, x) (filter (fun tv => if Rle_dec eps (snd tv) then true else false) (map (fun t => (t, g t / sumn (o_T o) g)) (seq 0 (o_T o)))) <-> (t < o_T o)%nat /\ x = g t / sumn (o_T o) g /\ eps <= x).
  { intros t x. rewrite filter_In, in_map_iff. split.
    - intros [[t' [E I0]] F]. injection E as <- <-. apply in_seq in I0. cbn [snd] in F. destruct (Rle_dec eps _); [|discriminate F]. split; [lia | auto].
    - intros [L [-> F]]. split; [exists t; split; [auto | apply in_seq; lia]|]. cbn [snd]. destruct (Rle_dec _ _); [auto | contradiction]. }
  split; [exact IFF|]. intros t x I0. apply IFF in I0. destruct I0 as [L [-> _]]. assert (G0 : forall k, (k < o_T o)%nat -> 0 <= g k) by (intros k Hk; specialize (Ha k Hk); specialize (B1 k Hk); lra).
  assert (GT : g t <= sumn (o_T o) g). { rewrite <- (sumn_delta (o_T o) t g L). apply sumn_le. intros k Hk. unfold delta. destruct (Nat.eqb_spec k t); specialize (G0 k Hk); lra. }
  assert (SP : 0 < sumn (o_T o) g) by lra. specialize (G0 t L). split; [apply Rmult_le_pos; [auto | apply Rlt_le, Rinv_0_lt_compat; auto]|].
  apply (Rmult_le_reg_r (sumn (o_T o) g)); [auto|]. unfold Rdiv. rewrite Rmult_assoc, Rinv_l by lra. lra.
Qed.
Print Assumptions getitem_shares.
Theorem getitem_empty : forall psi o tiny eps s ab, m_lda s = Some ab -> getitem psi o tiny eps s [] = Ok [].
Proof. intros psi o tiny eps s [a b] H. unfold getitem. rewrite H. rewrite sumn_zero. destruct (Req_EM_T 0 0); [reflexivity | congruence]. Qed.
Print Assumptions getitem_empty.

(** ** Examples *)
Example ex_words : word_list [[(2%nat, 1); (0%nat, 3)]; []; [(0%nat, 1); (5%nat, 1)]] = [2; 0; 5]%nat.
Proof. reflexivity. Qed.
Example ex_update_once : forall psi order lik late, exists s e, update psi order lik ex_o 1 late ex_corpus (new_hdp psi ex_o (fun _ _ => 1)) = Done s /\ Final psi ex_o s e /\ m_ct s = 2%nat /\
  exists alpha beta, m_lda s = Some (alpha, beta) /\ sumn 2 alpha = 1 /\ (forall t, sumn 3 (beta t) = 1).
Proof.
  intros psi order lik late. destruct (update_once psi order lik ex_o late ex_corpus (fun _ _ => 1) 0 ex_sane (conj eq_refl eq_refl) ex_ok ltac:(discriminate) eq_refl ltac:(cbn; lia) ltac:(intros; lra)) as [s [e [A [B [C [D [E F]]]]]]].
  exists s, e. split; [auto|]. split; [auto|]. split; [exact F|]. destruct (lda_of_hdp psi ex_o s e C D) as [al [be [G1 [_ [G2 [_ [G3 _]]]]]]]; try (cbn; lia); [cbn; lra|]. exists al, be. split; [auto|]. split; [exact G2 | exact G3].
Qed.
Example ex_rate : rhot ex_o 0 = 1 / 65.
Proof. unfold rhot. cbn [ex_o o_scale o_tau o_kappa INR]. replace (64 + 1 + 0) with 65 by ring. rewrite Rpower_Ropp, Rpower_1 by lra. destruct (Rlt_dec (1 * / 65) 0); lra. Qed.
Example ex_alpha : forall T b, lda_alpha (mkOpts 3 1 3 4 1 1 (1 / 100) 64 1 1 (1 / 10000) 2 None false) (mkHdp b (fun _ => 0) b ((fun _ => 1), (fun _ => 1)) (fun _ => 0) 0 (fun _ => 0%nat) [Some 0] 0 None) T =
  match T with 0%nat => 1 / 2 | _ => 1 / 4 end.
Proof. intros T b. unfold lda_alpha. destruct T as [|[|[|T]]]; cbn; field. Qed.
(** Sorting is such an order. *)
Definition sort_order (n : nat) (f : nat -> R) (k : nat) : nat := nth k (isort (fun i j => if Rle_dec (f j) (f i) then true else false) (seq 0 n)) 0%nat.
Lemma map_nth_seq : forall (l : list nat) n, length l = n -> map (fun k => nth k l 0%nat) (seq 0 n) = l.
Proof.
  induction l as [|x l IH]; intros n <-; [reflexivity|]. cbn [length seq map nth]. f_equal. rewrite <- seq_shift, map_map. apply IH. reflexivity.
Qed.
Lemma sorted_nth : forall (P : nat -> nat -> Prop) l i j, Sorted.StronglySorted P l -> (i < j < length l)%nat -> P (nth i l 0%nat) (nth j l 0%nat).
Proof.
  intros P l. induction l as [|x l IH]; intros i j H Hij; [cbn in Hij; lia|]. inversion H; subst. destruct j as [|j]; [lia|]. cbn in Hij. destruct i as [|i]; cbn [nth].
  - rewrite Forall_forall in H3. apply H3, nth_In. lia.
  - apply IH; [auto | lia].
Qed.
Example ex_order : order_ok sort_order.
Proof.
  intros n f. set (le := fun i j => if Rle_dec (f j) (f i) then true else false).
  assert (LEN : length (isort le (seq 0 n)) = n) by (rewrite length_isort; apply seq_length). split.
  - unfold sort_order. fold le. rewrite (map_nth_seq _ n LEN). apply Permutation_sym, Permutation_isort.
  - intros i j Hij. unfold sort_order. fold le. apply (sorted_nth (fun a b => f b <= f a)); [|rewrite LEN; auto].
    assert (SS : Sorted.StronglySorted (fun a b => le a b = true) (isort le (seq 0 n))).
    { apply isort_StronglySorted.
      - intros x y. unfold le. destruct (Rle_dec (f y) (f x)); [left; auto|]. right. destruct (Rle_dec (f x) (f y)); [auto | lra].
      - intros x y z. unfold le. destruct (Rle_dec (f y) (f x)), (Rle_dec (f z) (f y)), (Rle_dec (f z) (f x)); try discriminate; auto. lra. }
    clear -SS. induction SS; constructor; auto. eapply Forall_impl; [|exact H]. intros b. unfold le. cbv beta. destruct (Rle_dec _ _); [auto | discriminate].
Qed.
