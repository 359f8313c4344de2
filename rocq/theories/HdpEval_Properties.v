(** Evaluation of a hierarchical Dirichlet process on a test corpus, and its output directory. *)
From Coq Require Import Reals Lra.
From Verif Require Import Base Str MatReal_Model MatReal_Proofs Utils_Model LdaTrain_Model Lsi_Model Hdp_Model Hdp_Properties HdpEval_Model.
Local Open Scope R_scope.

(** ** Spec *)
Definition known_words (W : nat) (c : list doc) : Prop := forall d w x, In d c -> In (w, x) d -> (w < W)%nat.
Definition tokens (c : list doc) : R := Rsum (map snd (concat c)).
(** the documents that say something *)
Definition full (c : list doc) : list doc := filter (fun d => match d with [] => false | _ => true end) c.
Definition same_parameters (s s' : hdp) : Prop :=
  m_lambda s' = m_lambda s /\ m_lambda_sum s' = m_lambda_sum s /\ m_elog s' = m_elog s /\ m_sticks s' = m_sticks s /\ m_varphi s' = m_varphi s /\
  m_ct s' = m_ct s /\ m_time s' = m_time s /\ m_r s' = m_r s /\ m_docs s' = m_docs s.

(** ** Proofs *)
Section P.
Variable lik : doc -> (nat -> R) -> mat -> R.
Variable o : opts.
Lemma cache_topics : forall s, topics_of o (cache_lda o s) = topics_of o s /\ m_lda (cache_lda o s) = Some (topics_of o s) /\ same_parameters s (cache_lda o s).
Proof. intros s. unfold topics_of, cache_lda. destruct (m_lda s) as [ab|] eqn:E; [rewrite E|]; (split; [reflexivity|]; split; [reflexivity|]; repeat split). Qed.
Lemma eval_loop : forall ab c acc, known_words (o_W o) c ->
  rfold (eval_doc lik o ab) c acc = Ok (fst acc + Rsum (map (fun d => lik d (fst ab) (snd ab)) (full c)), snd acc + tokens c).
Proof.
  intros ab. induction c as [|d c IH]; intros acc K.
  - cbn. unfold tokens. cbn. rewrite !Rplus_0_r. destruct acc; reflexivity.
  - assert (K' : known_words (o_W o) c) by (intros d' w x H; apply (K d' w x); right; exact H). cbn [rfold]. destruct d as [|x d].
    + cbn [eval_doc rbind]. rewrite (IH acc K'). reflexivity.
    + assert (F : forallb (fun wc => (fst wc <? o_W o)%nat) (x :: d) = true). { apply forallb_forall. intros [w y] H. cbn [fst]. apply Nat.ltb_lt. apply (K _ w y (or_introl eq_refl) H). }
      unfold eval_doc at 1. rewrite F. cbn [rbind]. rewrite (IH _ K'). cbn [fst snd full filter]. f_equal. f_equal.
      * unfold full, Rsum. cbn [map fold_right]. ring.
      * unfold tokens. cbn [concat]. rewrite map_app, Rsum_app. ring.
Qed.
Lemma eval_loop_unknown : forall ab c acc, ~ known_words (o_W o) c -> rfold (eval_doc lik o ab) c acc = Err IndexError.
Proof.
  intros ab. induction c as [|d c IH]; intros acc K; [exfalso; apply K; intros d w x []|]. cbn [rfold].
  destruct (forallb (fun wc => (fst wc <? o_W o)%nat) d) eqn:F.
  - assert (K' : ~ known_words (o_W o) c). { intros K'. apply K. intros d' w x [<-|H] H2; [|apply (K' d' w x H H2)]. rewrite forallb_forall in F. specialize (F _ H2). apply Nat.ltb_lt in F. exact F. }
    destruct d as [|x d]; [cbn [eval_doc rbind]; apply IH, K'|]. unfold eval_doc at 1. rewrite F. cbn [rbind]. apply IH, K'.
  - destruct d as [|x d]; [discriminate F|]. unfold eval_doc at 1. rewrite F. reflexivity.
Qed.
End P.

(** The evaluation is the sum of the likelihoods of the documents under the topics kept with the model, or those of the present parameters if none
    were kept; empty documents count nothing; the parameters stay as they are. *)
Theorem hdp_eval_exact : forall lik o s c, known_words (o_W o) c -> tokens c <> 0 ->
  exists s', evaluate lik o true s c = (s', Ok (Rsum (map (fun d => lik d (fst (topics_of o s)) (snd (topics_of o s))) (full c)))) /\
  m_lda s' = Some (topics_of o s) /\ same_parameters s s'.
Proof.
  intros lik o s c K N. exists (cache_lda o s). destruct (cache_topics o s) as (A & B & C). split; [|auto]. unfold evaluate. rewrite A, (eval_loop lik o _ c (0, 0) K). cbn [rbind fst snd].
  destruct (Req_EM_T (0 + tokens c) 0); [lra|]. rewrite Rplus_0_l. reflexivity.
Qed.
Print Assumptions hdp_eval_exact.
(** And it fails exactly with a word outside the vocabulary, with no tokens to divide by, or with a corpus that has no length: after all the work. *)
Theorem hdp_eval_fails : forall lik o sized s c e, snd (evaluate lik o sized s c) = Err e <->
  (~ known_words (o_W o) c /\ e = IndexError) \/ (known_words (o_W o) c /\ tokens c = 0 /\ e = ZeroDivErr) \/ (known_words (o_W o) c /\ tokens c <> 0 /\ sized = false /\ e = TypeError).
Proof.
  intros lik o sized s c e. assert (D : known_words (o_W o) c \/ ~ known_words (o_W o) c).
  { destruct (forallb (fun d => forallb (fun wc => (fst wc <? o_W o)%nat) d) c) eqn:F.
    - left. intros d w x H H2. rewrite forallb_forall in F. specialize (F _ H). rewrite forallb_forall in F. specialize (F _ H2). apply Nat.ltb_lt in F. exact F.
    - right. intros K. assert (T : forallb (fun d => forallb (fun wc => (fst wc <? o_W o)%nat) d) c = true); [|congruence].
      apply forallb_forall. intros d Hd. apply forallb_forall. intros [w x] Hw. apply Nat.ltb_lt. apply (K d w x Hd Hw). }
  unfold evaluate. cbn [snd]. destruct D as [K|K].
  - rewrite (eval_loop lik o _ c (0, 0) K). cbn [rbind fst snd]. rewrite !Rplus_0_l. destruct (Req_EM_T (tokens c) 0) as [Z|Z].
    + split; [intros H; injection H as <-; right; left; auto | intros [[X _]|[(_ & _ & ->)|(_ & X & _)]]; [contradiction | reflexivity | contradiction]].
    + destruct sized.
      * split; [discriminate | intros [[X _]|[(_ & X & _)|(_ & _ & X & _)]]; [contradiction | contradiction | discriminate]].
      * split; [intros H; injection H as <-; right; right; auto | intros [[X _]|[(_ & X & _)|(_ & _ & _ & ->)]]; [contradiction | contradiction | reflexivity]].
  - rewrite (eval_loop_unknown lik o _ c (0, 0) K). cbn [rbind]. split; [intros H; injection H as <-; left; auto | intros [[_ ->]|[(X & _)|(X & _)]]; [reflexivity | contradiction | contradiction]].
Qed.
Print Assumptions hdp_eval_fails.
(** The order of the documents does not matter, and two corpora evaluated one after the other give the sum of both together. *)
Lemma full_app : forall c1 c2, full (c1 ++ c2) = full c1 ++ full c2.
Proof. intros. apply filter_app. Qed.
Lemma tokens_app : forall c1 c2, tokens (c1 ++ c2) = tokens c1 + tokens c2.
Proof. intros. unfold tokens. rewrite concat_app, map_app. apply Rsum_app. Qed.
Lemma tokens_perm : forall c c', Permutation c c' -> tokens c = tokens c'.
Proof. induction 1; unfold tokens in *; cbn [concat]; rewrite ?map_app, ?Rsum_app in *; try lra; reflexivity. Qed.
Theorem hdp_eval_order : forall lik o s c c' x, Permutation c c' -> snd (evaluate lik o true s c) = Ok x -> snd (evaluate lik o true s c') = Ok x.
Proof.
  intros lik o s c c' x P H.
  assert (E : forall e, snd (evaluate lik o true s c) <> Err e) by (intros e; rewrite H; discriminate).
  assert (K : forall c0, (forall e, snd (evaluate lik o true s c0) <> Err e) -> exists y, snd (evaluate lik o true s c0) = Ok y) by (intros c0 N; destruct (snd (evaluate lik o true s c0)) as [y|e] eqn:X; [eauto | destruct (N e eq_refl)]).
  assert (KW : known_words (o_W o) c /\ tokens c <> 0).
  { destruct (forallb (fun d => forallb (fun wc => (fst wc <? o_W o)%nat) d) c) eqn:F.
    - assert (K1 : known_words (o_W o) c). { intros d w y Hd Hw. rewrite forallb_forall in F. specialize (F _ Hd). rewrite forallb_forall in F. specialize (F _ Hw). apply Nat.ltb_lt in F. exact F. }
      split; [exact K1|]. intros Z. apply (E ZeroDivErr). apply hdp_eval_fails. right; left. auto.
    - exfalso. apply (E IndexError). apply hdp_eval_fails. left. split; [|reflexivity]. intros K1.
      assert (T : forallb (fun d => forallb (fun wc => (fst wc <? o_W o)%nat) d) c = true); [|congruence]. apply forallb_forall. intros d Hd. apply forallb_forall. intros [w y] Hw. apply Nat.ltb_lt. apply (K1 d w y Hd Hw). }
  destruct KW as [K1 N]. destruct (hdp_eval_exact lik o s c K1 N) as (s1 & E1 & _). rewrite E1 in H. cbn [snd] in H. injection H as <-.
  assert (K2 : known_words (o_W o) c') by (intros d w y Hd; apply (K1 d w y); apply (Permutation_in d (Permutation_sym P)); exact Hd).
  destruct (hdp_eval_exact lik o s c' K2) as (s2 & E2 & _); [rewrite <- (tokens_perm c c' P); exact N|]. rewrite E2. cbn [snd]. f_equal. apply Rsum_perm, Permutation_map, Permutation_filter, Permutation_sym, P.
Qed.
Print Assumptions hdp_eval_order.
Theorem hdp_eval_parts : forall lik o s c1 c2 s1 x1 x2, known_words (o_W o) (c1 ++ c2) -> tokens c1 <> 0 -> tokens c2 <> 0 -> tokens (c1 ++ c2) <> 0 ->
  evaluate lik o true s c1 = (s1, Ok x1) -> snd (evaluate lik o true s1 c2) = Ok x2 -> snd (evaluate lik o true s (c1 ++ c2)) = Ok (x1 + x2).
Proof.
  intros lik o s c1 c2 s1 x1 x2 K N1 N2 N E1 E2.
  destruct (hdp_eval_exact lik o s (c1 ++ c2) K N) as (s' & -> & _). cbn [snd].
  destruct (hdp_eval_exact lik o s c1) as (s1' & F1 & L1 & _); [intros d w x H; apply (K d w x); apply in_or_app; left; exact H | exact N1|]. rewrite E1 in F1. injection F1 as <- ->.
  destruct (hdp_eval_exact lik o s1 c2) as (s2' & F2 & _); [intros d w x H; apply (K d w x); apply in_or_app; right; exact H | exact N2|]. rewrite F2 in E2. cbn [snd] in E2. injection E2 as <-.
  assert (T : topics_of o s1 = topics_of o s) by (unfold topics_of at 1; rewrite L1; reflexivity). rewrite T, full_app, map_app, Rsum_app. reflexivity.
Qed.
Print Assumptions hdp_eval_parts.
(** After training the topics are those of the trained parameters. *)
Theorem hdp_eval_trained : forall psi order lik0 o rounds late corpus s s', update psi order lik0 o rounds late corpus s = Done s' -> topics_of o s' = hdp_to_lda o s'.
Proof.
  intros psi order lik0 o rounds late corpus s s'. unfold update. generalize 0%nat as n.
  assert (Pa : forall chunks n s, match pass psi order lik0 o late chunks n s with inl (Done s1) => topics_of o s1 = hdp_to_lda o s1 | _ => True end).
  { induction chunks as [|c r IH]; intros n s0; cbn [pass]; [exact I|]. destruct (update_chunk psi order lik0 o true s0 c) as [s1|]; [|exact I].
    destruct (update_finished o late (S n) (m_docs (count_docs (length c) s1))).
    - destruct (update_expectations psi o (count_docs (length c) s1)) as [s3|]; [reflexivity | exact I].
    - destruct (Nat.modulo (S n) (save_freq o) =? 0)%nat; [|apply IH]. destruct (update_expectations psi o (count_docs (length c) s1)) as [s3|]; [apply IH | exact I]. }
  revert s. induction rounds as [|r IH]; intros s n H; [discriminate H|]. cbn [update_loop] in H. specialize (Pa (chunkize_serial corpus (o_chunksize o)) n s).
  destruct (pass psi order lik0 o late (chunkize_serial corpus (o_chunksize o)) n s) as [e|[n' s1]]; [subst e; exact Pa | apply (IH _ _ H)].
Qed.
Print Assumptions hdp_eval_trained.

(** ** Violations *)
(** Evaluating a model that was not trained makes it answer queries with its random topics, where it raised an error before. *)
Theorem hdp_eval_untrained_refuted : exists o draw c, forall psi lik tiny eps d,
  let s := new_hdp psi o draw in getitem psi o tiny eps s d = Err RuntimeErr /\ exists l, getitem psi o tiny eps (fst (evaluate lik o true s c)) d = Ok l.
Proof.
  exists ex_o, (fun _ _ => 1), ex_corpus. intros psi lik tiny eps d s. split; [apply getitem_untrained; reflexivity|]. unfold getitem. unfold evaluate. cbn [fst].
  unfold cache_lda, s. cbn [new_hdp m_lda with_lda hdp_to_lda]. destruct (Req_EM_T _ 0); eauto.
Qed.
Print Assumptions hdp_eval_untrained_refuted.
(** Later chunks given to update_chunk do not reach the evaluation: it keeps the topics of its first call. *)
Theorem hdp_eval_stale : forall psi order lik0 lik o opt_o s s' chunk c, m_lda s <> None -> update_chunk psi order lik0 o opt_o s chunk = Some s' ->
  snd (evaluate lik o true s' c) = snd (evaluate lik o true s c).
Proof.
  intros psi order lik0 lik o opt_o s s' chunk c N H. assert (L : m_lda s' = m_lda s).
  { unfold update_chunk in H. destruct (refresh psi o (word_list chunk) s) as [s1|] eqn:R; [|discriminate H]. destruct (stats_of _ _ _ _ _ _ _ _) as [ss|]; [|discriminate H].
    unfold refresh in R. destruct (forallb _ _); [|discriminate R]. injection R as <-. unfold update_lambda in H. destruct (next_r _ _); [|discriminate H]. injection H as <-. reflexivity. }
  unfold evaluate. cbn [snd]. unfold cache_lda. rewrite L. destruct (m_lda s) as [ab|] eqn:E; [|congruence]. unfold topics_of. rewrite L, E. reflexivity.
Qed.
Print Assumptions hdp_eval_stale.
Definition one_o : opts := mkOpts 1 1 1 1 1 1 (1 / 100) 64 1 1 (1 / 10000) 1 None false.
Theorem hdp_eval_stale_refuted : exists o draw chunk, forall psi order lik0 lik c,
  let s := fst (evaluate lik o true (new_hdp psi o draw) c) in
  exists s', update_chunk psi order lik0 o false s chunk = Some s' /\ topics_of o s' = topics_of o s /\ topics_of o s = hdp_to_lda o s /\
  lda_beta o s' 0%nat 0%nat <> lda_beta o s 0%nat 0%nat.
Proof.
  exists one_o, (fun _ _ => 1), [[]]. intros psi order lik0 lik c s. destruct (learning_rate one_o 0) as [R1 R2]; cbn [one_o o_scale o_tau o_kappa]; try lra.
  assert (NR : next_r [Some 0] (rhot one_o 0) = Some [Some 0; Some (0 + ln (1 - rhot one_o 0))]).
  { unfold next_r. destruct (Rlt_dec (1 - rhot one_o 0) 0); [lra|]. destruct (Req_EM_T (1 - rhot one_o 0) 0); [lra|]. reflexivity. }
  unfold update_chunk. change (word_list [[]]) with (@nil nat). unfold refresh. cbn [forallb stats_of]. unfold update_lambda. cbn [m_ct m_r m_lda].
  change (m_ct s) with 0%nat. change (m_r s) with [Some 0]. rewrite NR. eexists. split; [reflexivity|]. split; [reflexivity|]. split; [reflexivity|].
  assert (L : m_lambda s 0%nat 0%nat = 100 - 1 / 100) by (cbn; field). assert (L2 : m_lambda_sum s 0%nat = 100 - 1 / 100) by (cbn; field).
  unfold lda_beta. cbn [m_lambda m_lambda_sum index_of snd length]. rewrite L, L2. cbn [one_o o_W o_eta o_D]. change (INR 1) with 1. cbn [sumn]. set (rho := rhot one_o 0) in *. intros E.
  assert (D : 0 < 1 * (1 / 100) + ((1 - rho) * (100 - 1 / 100) + rho * 1 * 0 / INR (length [@nil (nat * R)]))).
  { change (INR (length [@nil (nat * R)])) with 1. assert (0 < (1 - rho) * (100 - 1 / 100)) by (apply Rmult_lt_0_compat; lra). lra. }
  apply (f_equal (fun z => z * (1 * (1 / 100) + ((1 - rho) * (100 - 1 / 100) + rho * 1 * 0 / INR (length [@nil (nat * R)]))))) in E. unfold Rdiv at 1 in E. rewrite Rmult_assoc, Rinv_l in E by lra.
  change (memb 0%nat []) with false in E. cbv iota in E. change (INR (length [@nil (nat * R)])) with 1 in E. replace ((100 - 1 / 100 + 1 / 100) / (1 * (1 / 100) + (100 - 1 / 100))) with 1 in E by field. lra.
Qed.
Print Assumptions hdp_eval_stale_refuted.

(** ** Output directory *)
(** Without an output directory no file is touched and the model is the trained one. *)
Theorem hdp_no_outputdir : forall psi order lik0 o draw rounds late dirs show corpus fs outputdir, outputdir = None \/ outputdir = Some [] ->
  construct psi order lik0 o draw rounds late dirs show outputdir corpus fs =
  (fs, Ok (match corpus with None => Done (new_hdp psi o draw) | Some c => update psi order lik0 o rounds late c (new_hdp psi o draw) end)).
Proof. intros psi order lik0 o draw rounds late dirs show corpus fs outputdir [->| ->]; reflexivity. Qed.
Print Assumptions hdp_no_outputdir.
(** With one, there is never a model: the options are texts, and their file takes bytes only.  What was in the file is lost; no other file changes. *)
Theorem hdp_outputdir_refuted : exists name : pystr, forall psi order lik0 o draw rounds late dirs show corpus fs (outputdir : pystr), outputdir <> [] ->
  exists fs', construct psi order lik0 o draw rounds late dirs show (Some outputdir) corpus fs = (fs', Err (if memb outputdir dirs then TypeError else OSErr)) /\
  (forall f, f <> outputdir ++ [47%N] ++ name -> dget fs' f = dget fs f) /\
  (In outputdir dirs -> dget fs' (outputdir ++ [47%N] ++ name) = Some []) /\ (~ In outputdir dirs -> fs' = fs).
Proof.
  exists (str "options.dat"). intros psi order lik0 o draw rounds late dirs show corpus fs outputdir N. destruct outputdir as [|x l]; [congruence|].
  unfold construct, save_options. change (str "/options.dat") with ([47%N] ++ str "options.dat"). match goal with |- context [@memb ?A ?E ?a dirs] => destruct (@memb A E a dirs) eqn:M end.
  - exists (dset fs ((x :: l) ++ [47%N] ++ str "options.dat") []). split; [reflexivity|]. split; [|split].
    + intros f Nf. apply dget_dset_other. congruence.
    + intros _. apply dget_dset_same.
    + intros X. apply memb_true in M. contradiction.
  - exists fs. split; [reflexivity|]. split; [reflexivity|]. split; [intros X; apply memb_false in M; contradiction | reflexivity].
Qed.
Print Assumptions hdp_outputdir_refuted.

(** ** Examples *)
Example hdp_eval_ex : forall lik s, m_lda s = None ->
  snd (evaluate lik ex_o true s [[(0%nat, 1)]; []; [(1%nat, 2)]]) = Ok (lik [(0%nat, 1)] (lda_alpha ex_o s) (lda_beta ex_o s) + (lik [(1%nat, 2)] (lda_alpha ex_o s) (lda_beta ex_o s) + 0)) /\
  snd (evaluate lik ex_o true s [[]; []]) = Err ZeroDivErr /\ snd (evaluate lik ex_o false s [[(0%nat, 1)]]) = Err TypeError /\ snd (evaluate lik ex_o true s [[(3%nat, 1)]]) = Err IndexError.
Proof.
  intros lik s L. assert (T : topics_of ex_o s = hdp_to_lda ex_o s) by (unfold topics_of; rewrite L; reflexivity).
  split; [|split; [|split]].
  - destruct (hdp_eval_exact lik ex_o s [[(0%nat, 1)]; []; [(1%nat, 2)]]) as (s' & -> & _).
    + intros d w x [<-|[<-|[<-|[]]]] H; cbn in H; [destruct H as [H|[]] | destruct H | destruct H as [H|[]]]; injection H as <- _; cbn; lia.
    + unfold tokens. cbn. lra.
    + rewrite T. reflexivity.
  - apply hdp_eval_fails. right; left. split; [intros d w x [<-|[<-|[]]] []|]. split; reflexivity.
  - apply hdp_eval_fails. right; right. split; [intros d w x [<-|[]] [H|[]]; injection H as <- _; cbn; lia|]. split; [unfold tokens; cbn; lra|]. split; reflexivity.
  - apply hdp_eval_fails. left. split; [|reflexivity]. intros K. specialize (K _ 3%nat 1 (or_introl eq_refl) (or_introl eq_refl)). cbn in K. lia.
Qed.
