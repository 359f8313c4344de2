(** Hierarchical softmax is a probability distribution over the words, and what [Word2Vec.score] adds up (property C81). *)
From Coq Require Import Reals Lra Permutation.
From Verif Require Import Base MatReal_Model MatReal_Proofs Huffman_Model Huffman_Spec Huffman_Proofs Huffman_Proofs2 Huffman_Properties
  KeyedVectors_Model TrainJobs_Model W2vStep_Model W2vGrad_Spec W2vGrad_Properties HsScore_Model.
Local Open Scope R_scope.

(** The log-probability of a word with points [pts] and code [code], for the scores [s] of the inner nodes. *)
Definition word_logp (s : nat -> R) (code : list bool) (pts : list nat) : R := likelihood s (hs_targets (combine pts code)).

Fixpoint tree_prob (n : nat) (s : nat -> R) (t : item) (code : list bool) : R :=
  match code, t with
  | b :: code', Node _ k l r => (if b then 1 - sigma (s (k - n)%nat) else sigma (s (k - n)%nat)) * tree_prob n s (if b then r else l) code'
  | _, _ => 1
  end.
Lemma tree_prob_sum : forall n s t, Rsum (map (fun e => tree_prob n s t (snd (snd e))) (leaves t)) = 1.
Proof.
  intros n s. induction t as [c i|c k l IHl r IHr]; cbn [leaves map]; [cbn; lra|].
  rewrite map_app, Rsum_app, !map_map. cbn [snd fst tree_prob].
  rewrite (Rsum_scal (fun e : nat * (nat * list bool) => tree_prob n s l (snd (snd e))) (sigma (s (k - n)%nat)) (leaves l)).
  rewrite (Rsum_scal (fun e : nat * (nat * list bool) => tree_prob n s r (snd (snd e))) (1 - sigma (s (k - n)%nat)) (leaves r)).
  rewrite IHl, IHr. lra.
Qed.
Lemma exp_logp : forall b f, exp (logp b f) = if b then sigma f else 1 - sigma f.
Proof. intros b f. unfold logp. pose proof (sigma_pos f). destruct b; apply exp_ln; lra. Qed.
Lemma word_prob : forall n s code t x, subtree t code = Some x ->
  exp (word_logp s code (map (fun k => match subtree t (firstn k code) with Some y => (index y - n)%nat | None => 0%nat end) (seq 0 (length code)))) = tree_prob n s t code.
Proof.
  intros n s. unfold word_logp. induction code as [|b code IH]; intros t x H; [destruct t; cbn; apply exp_0|]. destruct t as [c i|c k l r]; [discriminate|]. cbn [subtree] in H.
  cbn [length seq map firstn combine hs_targets likelihood tree_prob fst snd]. rewrite subtree_nil. cbn [index].
  rewrite exp_plus, exp_logp. f_equal; [now destruct b|]. rewrite <- (IH _ _ H). rewrite <- seq_shift, map_map. cbn [firstn subtree]. reflexivity.
Qed.
(** The probabilities of all words add up to 1, whatever the input and the hidden layer. *)
Theorem hs_distribution : forall Q counts D (s : nat -> R), heap_contract Q -> assign_binary_codes Q counts = Ok D -> counts <> [] ->
  Rsum (map (fun i => match dget D i with Some (code, pts) => exp (word_logp s code pts) | None => 0 end) (seq 0 (length counts))) = 1.
Proof.
  intros Q counts D s H E Ne. destruct (huffman_tree Q counts H Ne) as (root & D' & E' & W & P & _ & _ & G). rewrite E in E'. injection E' as <-.
  assert (Nd : NoDup (ids root)) by (eapply Permutation_NoDup; [symmetry; exact P | apply seq_NoDup]).
  assert (Pl : Permutation (map fst (leaves root)) (seq 0 (length counts))).
  { apply NoDup_Permutation; [apply leaves_fst_nodup; exact Nd | apply seq_NoDup|]. intros i. rewrite in_seq, in_map_iff. split.
    - intros ([i' [c p]] & <- & Hi). apply leaves_subtree in Hi. apply (subtree_wf _ _ _ _ W) in Hi. cbn in Hi. cbn. lia.
    - intros Hi. destruct (huffman_total Q counts H) as (D' & E' & T). rewrite E in E'. injection E' as <-. specialize (T i). destruct (dget D i) as [[code pts]|] eqn:Ed.
      + apply G in Ed. destruct Ed as [[cnt Hs] _]. apply leaves_subtree in Hs. exists (i, (cnt, code)). auto.
      + exfalso. apply T; [lia | reflexivity]. }
  rewrite <- (tree_prob_sum (length counts) s root). rewrite (Rsum_perm _ _ (Permutation_map _ (Permutation_sym Pl))), map_map. apply Rsum_ext.
  intros [i [c p]] Hi. cbn [fst snd]. apply leaves_subtree in Hi.
  assert (Ed : dget D i = Some (p, map (fun k => match subtree root (firstn k p) with Some x => (index x - length counts)%nat | None => 0%nat end) (seq 0 (length p)))).
  { apply G. split; [eauto | reflexivity]. }
  rewrite Ed. apply (word_prob _ _ _ _ _ Hi).
Qed.
Print Assumptions hs_distribution.

(** ** [score] *)
Lemma score_output_logp : forall h W work r b, score_output h W work (r, b) = if rskip (score h W r) then work else work + logp (negb b) (score h W r).
Proof.
  intros h W work r b. unfold score_output. cbn [fst snd]. rewrite dot_inner. fold (score h W r). set (f := score h W r).
  destruct b; cbn [negb].
  - replace (-1 * f) with (- f) by lra. rewrite rskip_sym. destruct (rskip f); [reflexivity|]. unfold logp. now rewrite sigma_neg.
  - rewrite Rmult_1_l. reflexivity.
Qed.
Lemma score_pair_logp : forall h W path work, score_pair h W path work = work + likelihood (score h W) (active h W (hs_targets path)).
Proof.
  intros h W path. unfold score_pair. induction path as [|[r b] path IH]; intros work; cbn [fold_left hs_targets map active filter likelihood fst snd]; [lra|].
  rewrite IH, score_output_logp. fold (hs_targets path). fold (active h W (hs_targets path)). destruct (rskip (score h W r)); cbn [negb likelihood]; lra.
Qed.
(** The score of a sentence: the log-probabilities of its words given each word around, or given their sum or mean, added
    up; of each path only the outputs with a score between -6 and 6 count. *)
Definition pair_logp (W : list (list R)) (path : list (nat * bool)) (h : list R) : R := likelihood (score h W) (active h W (hs_targets path)).
Lemma fold_add : forall {A} (g : R -> A -> R) (k : A -> R) l work, (forall w a, g w a = w + k a) -> fold_left g l work = work + Rsum (map k l).
Proof. intros A g k l. induction l as [|a l IH]; intros work H; cbn [fold_left map]; [cbn; lra|]. rewrite IH by exact H. rewrite H, Rsum_cons. lra. Qed.
Theorem score_sg_value : forall X W paths window sentence,
  score_sentence_sg X W paths window sentence =
  Rsum (map (fun i => Rsum (map (fun w => pair_logp W (paths (nth i sentence 0%nat)) (row X w)) (around paths window sentence i))) (seq 0 (length sentence))).
Proof.
  intros. unfold score_sentence_sg. erewrite fold_add; [apply Rplus_0_l|]. intros work i. cbv beta. destruct (Nat.eqb_spec (length (paths (nth i sentence 0%nat))) 0) as [E|E].
  - destruct (paths _) as [|]; [|discriminate]. rewrite (Rsum_ext _ (fun _ => 0 * 0)); [|intros; unfold pair_logp; cbn; lra]. rewrite (Rsum_scal (fun _ => 0)). lra.
  - apply fold_add. intros w a. apply score_pair_logp.
Qed.
Theorem score_cbow_value : forall unset mean size X W paths window sentence,
  score_sentence_cbow unset mean size X W paths window sentence =
  Rsum (map (fun i => pair_logp W (paths (nth i sentence 0%nat)) (score_input unset mean size X (around paths window sentence i))) (seq 0 (length sentence))).
Proof.
  intros. unfold score_sentence_cbow. erewrite fold_add; [apply Rplus_0_l|]. intros work i. cbv beta. destruct (Nat.eqb_spec (length (paths (nth i sentence 0%nat))) 0) as [E|E].
  - destruct (paths _) as [|]; [|discriminate]. unfold pair_logp. cbn. lra.
  - apply score_pair_logp.
Qed.
Lemma logp_neg : forall b f, logp b f < 0.
Proof. intros b f. unfold logp. pose proof (sigma_pos f). rewrite <- ln_1. destruct b; apply ln_increasing; lra. Qed.
(** Leaving outputs out makes a score larger (nearer to 0). *)
Theorem pair_logp_bounds : forall W path h, likelihood (score h W) (hs_targets path) <= pair_logp W path h <= 0 /\
  (Forall (fun pc => -6 < score h W (fst pc) < 6) path -> pair_logp W path h = likelihood (score h W) (hs_targets path)).
Proof.
  intros W path h. unfold pair_logp. induction path as [|[r b] path IH]; cbn [hs_targets map active filter likelihood fst snd]; [split; [lra | reflexivity]|].
  fold (hs_targets path). fold (active h W (hs_targets path)). destruct IH as [A B]. pose proof (logp_neg (negb b) (score h W r)) as C. split.
  - destruct (rskip (score h W r)); cbn [negb likelihood]; lra.
  - intros F. inversion F as [|? ? F1 F2]; subst. rewrite rskip_in by exact F1. cbn [negb likelihood]. rewrite B by exact F2. reflexivity.
Qed.
(** A word alone does not depend on the unset variable, over the real numbers. *)
Theorem score_input_alone : forall unset unset' mean size X, score_input unset mean size X [] = score_input unset' mean size X [].
Proof. intros. unfold score_input, sum_rows, sscal. destruct mean; [|reflexivity]. cbn [fold_left]. induction size as [|n IH]; cbn [repeat map]; [reflexivity|]. rewrite IH. f_equal. lra. Qed.
(** The input of a word with others around is their sum, or their mean, entry by entry. *)
Theorem score_input_value : forall unset mean size X ws j, ws <> [] -> (forall i, In i ws -> length (row X i) = size) ->
  length (score_input unset mean size X ws) = size /\
  nth j (score_input unset mean size X ws) 0 * (if mean then INR (length ws) else 1) = Rsum (map (fun i => nth j (row X i) 0) ws).
Proof.
  intros unset mean size X ws j Ne H. destruct (sum_rows_entry X ws (repeat 0 size)) as [A B]; [intros; rewrite repeat_length; auto|]. rewrite repeat_length in A.
  assert (T : tot X j ws = Rsum (map (fun i => nth j (row X i) 0) ws)).
  { clear. induction ws as [|i ws IH]; cbn [tot map]; [cbn; lra|]. rewrite Rsum_cons, IH. reflexivity. }
  specialize (B j). rewrite entry_repeat, Rplus_0_l, T in B. unfold score_input. assert (L : length ws <> 0%nat) by (destruct ws; [congruence | discriminate]). destruct mean.
  - rewrite (proj2 (Nat.eqb_neq _ _) L). split; [unfold sscal; rewrite map_length; exact A|]. change (entry (sscal Rmult (/ INR (length ws)) (sum_rows 1 Rplus Rmult X ws (repeat 0 size))) j * INR (length ws) = Rsum (map (fun i => nth j (row X i) 0) ws)).
    rewrite sscal_entry, B. field. apply not_0_INR. exact L.
  - split; [exact A|]. rewrite Rmult_1_r. exact B.
Qed.
Example score_input_ex : score_input 0 true 2 [[1; 2]; [3; 4]; [5; 12]] [0; 2]%nat = [3; 7].
Proof. unfold score_input, sum_rows, sscal. cbn. repeat f_equal; lra. Qed.
Print Assumptions score_sg_value.
Print Assumptions score_input_value.
Print Assumptions score_cbow_value.
Print Assumptions pair_logp_bounds.
Print Assumptions score_input_alone.

(** So the scores of all words for one input add up to a probability of at least 1; of exactly 1 if no output is left out. *)
Theorem score_total : forall Q counts D h W, heap_contract Q -> assign_binary_codes Q counts = Ok D -> counts <> [] ->
  let total := Rsum (map (fun i => match dget D i with Some (code, pts) => exp (score_pair h W (combine pts code) 0) | None => 0 end) (seq 0 (length counts))) in
  1 <= total /\ ((forall k, -6 < score h W k < 6) -> total = 1).
Proof.
  intros Q counts D h W H E Ne total. rewrite <- (hs_distribution Q counts D (score h W) H E Ne) at 1 2. unfold total. split.
  - apply Rsum_le. intros i _. destruct (dget D i) as [[code pts]|]; [|lra]. rewrite score_pair_logp, Rplus_0_l.
    destruct (pair_logp_bounds W (combine pts code) h) as [[A _] _]. unfold pair_logp, word_logp in *. destruct A as [A|A]; [left; now apply exp_increasing | rewrite A; lra].
  - intros F. apply Rsum_ext. intros i _. destruct (dget D i) as [[code pts]|]; [|reflexivity]. rewrite score_pair_logp, Rplus_0_l.
    destruct (pair_logp_bounds W (combine pts code) h) as [_ A]. unfold pair_logp, word_logp in *. rewrite A; [reflexivity|]. apply Forall_forall. auto.
Qed.
Print Assumptions score_total.

(** The objective of negative sampling: the word against every drawn word that is not the word itself. *)
Theorem neg_objective : forall s w ds, likelihood s (neg_targets w ds) = ln (sigma (s w)) + Rsum (map (fun t => ln (sigma (- s t))) (remove Nat.eq_dec w ds)).
Proof.
  intros s w ds. unfold neg_targets. cbn [likelihood fst snd logp]. f_equal. induction ds as [|t ds IH]; [reflexivity|]. cbn [filter remove].
  destruct (Nat.eq_dec w t) as [<-|Ne]; [rewrite Nat.eqb_refl; exact IH|]. rewrite (proj2 (Nat.eqb_neq t w)) by congruence. cbn [negb map likelihood fst snd logp].
  rewrite Rsum_cons, IH, sigma_neg. reflexivity.
Qed.
(** A lock factor per row, or one for all. *)
Theorem lock_value : forall (junk a : R) lockf i, (lock junk [a] 1 i = a) /\ ((i < length lockf)%nat -> lock junk lockf (length lockf) i = nth i lockf junk).
Proof. intros. unfold lock. rewrite Nat.mod_1_r. split; [reflexivity|]. intros H. rewrite Nat.mod_small by exact H. reflexivity. Qed.
Print Assumptions neg_objective.
Print Assumptions lock_value.

Example hs_ex : exists D, assign_binary_codes sorted_heap [5; 2; 1]%nat = Ok D /\
  dget D 0%nat = Some ([true], [1%nat]) /\ dget D 1%nat = Some ([false; true], [1; 0]%nat) /\ dget D 2%nat = Some ([false; false], [1; 0]%nat) /\
  exp (word_logp (fun _ => 0) [true] [1%nat]) = 1 / 2 /\ exp (word_logp (fun _ => 0) [false; true] [1; 0]%nat) = 1 / 4.
Proof.
  eexists. split; [vm_compute; reflexivity|]. split; [vm_compute; reflexivity|]. split; [vm_compute; reflexivity|]. split; [vm_compute; reflexivity|].
  unfold word_logp, hs_targets. cbn [combine map likelihood fst snd]. rewrite !exp_plus, !exp_logp, exp_0. cbn [negb]. rewrite sigma_0. split; lra.
Qed.
Example around_ex : around (fun w => if (w =? 3)%nat then [] else [(w, true)]) 2 [0; 1; 2; 3; 4]%nat 2 = [0; 1; 4]%nat /\ neg_targets 3 [1; 3; 1]%nat = [(3, true); (1, false); (1, false)]%nat.
Proof. vm_compute. auto. Qed.

(** A word that the model is sure is wrong costs nothing: *)
Theorem score_left_out_refuted : exists X W paths sentence, score_sentence_sg X W paths 1 sentence = 0 /\
  likelihood (score (row X 1) W) (hs_targets (paths 0%nat)) < -6 /\ sentence = [0; 1]%nat.
Proof.
  exists [[7]; [7]], [[1]], (fun _ => [(0%nat, true)]), [0; 1]%nat. split; [|split; [|reflexivity]].
  - rewrite score_sg_value. cbn [length seq map nth]. unfold around. cbn [window_of length seq filter map nth].
    assert (S0 : forall i, (i < 2)%nat -> pair_logp [[1]] [(0%nat, true)] (row [[7]; [7]] i) = 0).
    { intros i Hi. unfold pair_logp, hs_targets, active. cbn [map filter fst snd]. assert (E : score (row [[7]; [7]] i) [[1]] 0 = 7) by (destruct i as [|[|]]; [cbn; lra | cbn; lra | lia]). rewrite E.
      unfold rskip. destruct (Rlt_dec (-6) 7); [|lra]. destruct (Rlt_dec 7 6); [exfalso; lra|]. reflexivity. }
    replace (window_of 1 (fun _ => 0%nat) 0 2 0) with [1%nat] by reflexivity. replace (window_of 1 (fun _ => 0%nat) 0 2 1) with [0%nat] by reflexivity.
    cbn [map filter Nat.eqb negb length]. rewrite (S0 0%nat), (S0 1%nat) by lia. rewrite !Rsum_cons. unfold Rsum. cbn [fold_right]. lra.
  - cbn [hs_targets map likelihood fst snd row nth negb]. unfold score. cbn. unfold logp. rewrite <- sigma_neg. unfold sigma. rewrite Ropp_involutive.
    rewrite ln_Rinv by (pose proof (exp_pos (7 * 1 + 0)); lra).
    assert (ln (exp 7) < ln (1 + exp (7 * 1 + 0))). { replace (7 * 1 + 0) with 7 by lra. apply ln_increasing; [apply exp_pos | lra]. } rewrite ln_exp in H. lra.
Qed.
Print Assumptions score_left_out_refuted.
