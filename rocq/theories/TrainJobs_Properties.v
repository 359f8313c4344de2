(** Theorems about training jobs (C42) and the preparation of batches (C65). *)

From Verif Require Import Base NegSampling_Model TrainJobs_Model TrainJobs_Spec.
From Coq Require Import Reals Lra Lia ZifyNat ZifyBool.
Local Open Scope nat_scope.

Section Jobs.
Context {D : Type}.
Variable len : D -> nat.

Lemma raw_words : forall b : list D, raw_word_count len b = words_in len b.
Proof. induction b as [|d b IH]; [reflexivity|]. cbn. rewrite IH. reflexivity. Qed.
Lemma words_app : forall a b : list D, words_in len (a ++ b) = words_in len a + words_in len b.
Proof. intros. unfold words_in. rewrite map_app, list_sum_app. reflexivity. Qed.

(** Whether the totals allow progress to be computed. *)
Definition totals_ok (te tw : option nat) : Prop := (exists t, te = Some (S t)) \/ (exists t, tw = Some (S t)).
Lemma progress_ok : forall te tw pe pw, totals_ok te tw -> exists p, epoch_progress te tw pe pw = Ok p.
Proof. intros te tw pe pw [[t ->]|[t ->]]; unfold epoch_progress; [eexists; reflexivity|]. destruct te as [[|t']|]; eexists; reflexivity. Qed.

Lemma produce_ok : forall limit te tw f data batch pe pw a, totals_ok te tw -> (words_in len batch <= limit \/ length batch = 1) ->
  exists js, produce len limit te tw f data batch (words_in len batch) pe pw a = (js, None) /\
  let bs := map fst js in
  concat bs = batch ++ data /\
  (forall b, In b bs -> words_in len b <= limit \/ length b = 1) /\
  (forall l b d b' r, bs = l ++ b :: (d :: b') :: r -> limit < words_in len b + len d) /\
  (forall l b r, bs = l ++ b :: r -> b = [] -> l = [] /\ batch = [] /\ exists d r', data = d :: r' /\ limit < len d) /\
  (bs = [] \/ exists x r, bs = (batch ++ x) :: r).
Proof.
  intros limit te tw f. induction data as [|d data IH]; intros batch pe pw a T B; cbn [produce].
  - destruct batch as [|b0 batch0] eqn:Eb.
    + exists []. cbn. repeat split; auto; try (intros [|? ?]; discriminate); try (intros ? []). all: intros; destruct l; discriminate.
    + rewrite <- Eb in *. exists [(batch, a)]. split; [reflexivity|]. cbn. repeat split.
      * intros b [<-|[]]. exact B.
      * intros l b d b' r E. destruct l as [|? [|? ?]]; discriminate.
      * destruct l as [|? [|? ?]]; [reflexivity | discriminate | discriminate].
      * destruct l as [|? [|? ?]]; [|discriminate|discriminate]. cbn in H. injection H as E1 E2. rewrite Eb in *. congruence.
      * destruct l as [|? [|? ?]]; [|discriminate|discriminate]. cbn in H. injection H as E1 E2. rewrite Eb in *. congruence.
      * right. exists [], []. rewrite app_nil_r. reflexivity.
  - destruct (words_in len batch + len d <=? limit) eqn:E.
    + assert (Ew : words_in len batch + len d = words_in len (batch ++ [d])) by (rewrite words_app; cbn; lia). rewrite Ew in *.
      destruct (IH (batch ++ [d]) pe pw a T ltac:(left; lia)) as (js & Ep & C & P2 & P3 & P4 & P5). exists js. split; [exact Ep|]. cbv zeta in *. repeat split; auto.
      * rewrite C, <- app_assoc. reflexivity.
      * apply (P4 l b r); assumption.
      * destruct (P4 l b r H H0) as (_ & Z & _). destruct batch; discriminate.
      * destruct (P4 l b r H H0) as (_ & Z & _). destruct batch; discriminate.
      * destruct P5 as [P5|(x & r & P5)]; [left; exact P5|]. right. exists ([d] ++ x), r. rewrite app_assoc. exact P5.
    + destruct (progress_ok te tw (pe + length batch) (pw + raw_word_count len batch) T) as [p ->].
      assert (Ew : len d = words_in len [d]) by (cbn; lia). rewrite Ew.
      destruct (IH [d] (pe + length batch) (pw + raw_word_count len batch) (f p) T ltac:(right; reflexivity)) as (js & Ep & C & P2 & P3 & P4 & P5). rewrite Ep.
      exists ((batch, a) :: js). split; [reflexivity|]. cbv zeta in *. cbn [map fst concat]. repeat split.
      * rewrite C. reflexivity.
      * intros b [<-|Hb]; [exact B | apply P2; exact Hb].
      * intros l b d' b' r El. destruct l as [|l0 l].
        -- cbn in El. injection El as <- E2. destruct P5 as [P5|(x & r' & P5)]; [rewrite P5 in E2; discriminate|]. rewrite P5 in E2. cbn in E2. injection E2 as -> _ _. lia.
        -- cbn in El. injection El as _ El. apply (P3 l b d' b' r El).
      * destruct l as [|l0 l]; [reflexivity|]. cbn in H. injection H as _ H. destruct (P4 l b r H H0) as (_ & Z & _). discriminate.
      * destruct l as [|l0 l]; [cbn in H; congruence|]. cbn in H. injection H as _ H. destruct (P4 l b r H H0) as (_ & Z & _). discriminate.
      * destruct l as [|l0 l]; [|cbn in H; injection H as _ H; destruct (P4 l b r H H0) as (_ & Z & _); discriminate]. cbn in H. injection H as H1 _. exists d, data. split; [reflexivity|].
        assert (Z : words_in len batch = 0) by (rewrite H1, H0; reflexivity). lia.
      * right. exists [], (map fst js). rewrite app_nil_r. reflexivity.
Qed.

(** C42: the jobs are the greedy batches of the corpus. *)
Theorem jobs_greedy : forall limit te tw f (data : list D), totals_ok te tw -> exists js, job_producer len limit te tw f data = (js, None) /\ greedy len limit data (map fst js).
Proof.
  intros limit te tw f data T. destruct (produce_ok limit te tw f data [] 0 0 (f 0%R) T ltac:(left; cbn; lia)) as (js & E & C & P2 & P3 & P4 & _). exists js. split; [exact E|].
  repeat split; auto; destruct (P4 l b r H H0) as (A & _ & B); assumption.
Qed.

(** The learning rate of each job is the schedule at the share of the epoch before it: in examples if their total is given,
    else in words. *)
Lemma produce_alpha : forall limit te tw f data batch pe pw a js, produce len limit te tw f data batch (words_in len batch) pe pw a = (js, None) ->
  match te with
  | Some (S t) => a = f (INR pe / INR (S t))%R -> map snd js = map f (shares (@length D) (S t) pe (map fst js))
  | _ => match tw with Some (S t) => a = f (INR pw / INR (S t))%R -> map snd js = map f (shares (words_in len) (S t) pw (map fst js)) | _ => True end
  end.
Proof.
  intros limit te tw f. induction data as [|d data IH]; intros batch pe pw a js H; cbn [produce] in H.
  - destruct batch as [|b0 batch]; injection H as <-; destruct te as [[|t]|]; try destruct tw as [[|t']|]; auto; intros ->; reflexivity.
  - destruct (words_in len batch + len d <=? limit).
    + assert (Ew : words_in len batch + len d = words_in len (batch ++ [d])) by (rewrite words_app; cbn; lia). rewrite Ew in H. apply (IH _ _ _ _ _ H).
    + destruct (epoch_progress te tw (pe + length batch) (pw + raw_word_count len batch)) as [p|] eqn:Ep; [|discriminate].
      assert (Ew : len d = words_in len [d]) by (cbn; lia). rewrite Ew in H. destruct (produce len limit te tw f data [d] (words_in len [d]) (pe + length batch) (pw + raw_word_count len batch) (f p)) as [js' e'] eqn:E'.
      injection H as <- ->. apply IH in E'. rewrite raw_words in Ep, E'. destruct te as [[|t]|]; cbn [epoch_progress] in Ep.
      * destruct tw as [[|t']|]; auto. injection Ep as <-. intros ->. cbn [map shares fst snd]. f_equal. apply E'. reflexivity.
      * injection Ep as <-. intros ->. cbn [map shares fst snd]. f_equal. apply E'. reflexivity.
      * destruct tw as [[|t']|]; auto. injection Ep as <-. intros ->. cbn [map shares fst snd]. f_equal. apply E'. reflexivity.
Qed.
Theorem jobs_alpha : forall limit te tw f (data : list D) js, job_producer len limit te tw f data = (js, None) ->
  match te with
  | Some (S t) => map snd js = map f (shares (@length D) (S t) 0 (map fst js))
  | _ => match tw with Some (S t) => map snd js = map f (shares (words_in len) (S t) 0 (map fst js)) | _ => True end
  end.
Proof.
  intros limit te tw f data js H. apply (produce_alpha limit te tw f data []) in H. assert (Z : forall x, (INR 0 / x)%R = 0%R) by (intros; cbn; unfold Rdiv; ring).
  destruct te as [[|t]|]; try destruct tw as [[|t']|]; auto; apply H; rewrite Z; reflexivity.
Qed.

(** Learning rates never increase within an epoch and stay between the two given ones. *)
Lemma shares_mono : forall {A} (size : list A -> nat) total done bs, (0 < total) -> forall i j x y, i <= j -> nth_error (shares size total done bs) i = Some x -> nth_error (shares size total done bs) j = Some y -> (0 <= x <= y)%R.
Proof.
  intros A size total done bs T. assert (Tp : (0 < / INR total)%R) by (apply Rinv_0_lt_compat, lt_0_INR, T).
  assert (G : forall bs done i x, nth_error (shares size total done bs) i = Some x -> (INR done / INR total <= x)%R).
  { clear bs done. induction bs as [|b bs IH]; intros done i x H; [destruct i; discriminate|]. destruct i as [|i]; cbn in H; [injection H as <-; lra|]. apply IH in H. eapply Rle_trans; [|exact H].
    apply Rmult_le_compat_r; [lra|]. apply le_INR. lia. }
  revert done. induction bs as [|b bs IH]; intros done i j x y L Hi Hj; [destruct i; discriminate|]. destruct i as [|i].
  - cbn in Hi. injection Hi as <-. split; [apply Rmult_le_pos; [apply pos_INR | lra]|]. apply (G _ _ _ _ Hj).
  - destruct j as [|j]; [lia|]. cbn in Hi, Hj. refine (IH _ i j x y _ Hi Hj). lia.
Qed.
End Jobs.
Print Assumptions jobs_greedy. Print Assumptions jobs_alpha.

Lemma alpha_mono : forall alpha mn E e p q, (mn <= alpha)%R -> (0 < E) -> (p <= q)%R -> (get_next_alpha alpha mn E e q <= get_next_alpha alpha mn E e p)%R.
Proof.
  intros alpha mn E e p q M Ep L. unfold get_next_alpha. assert (I : (0 < / INR E)%R) by (apply Rinv_0_lt_compat, lt_0_INR, Ep). apply Rle_max_compat_l. unfold Rdiv.
  assert ((INR e + p) * / INR E <= (INR e + q) * / INR E)%R by (apply Rmult_le_compat_r; lra). assert (0 <= alpha - mn)%R by lra. nra.
Qed.
Lemma alpha_range : forall alpha mn E e p, (mn <= alpha)%R -> (0 < E) -> (0 <= p)%R -> (mn <= get_next_alpha alpha mn E e p <= alpha)%R.
Proof.
  intros alpha mn E e p M Ep P. unfold get_next_alpha. assert (I : (0 < / INR E)%R) by (apply Rinv_0_lt_compat, lt_0_INR, Ep). split; [apply Rmax_l|]. apply Rmax_lub; [exact M|].
  assert (0 <= (INR e + p) / INR E)%R by (apply Rmult_le_pos; [pose proof (pos_INR e); lra | lra]). nra.
Qed.
Theorem jobs_alpha_decreasing : forall {D} (len : D -> nat) limit te tw alpha mn E e data js, totals_ok te tw -> (mn <= alpha)%R -> 0 < E ->
  job_producer len limit te tw (get_next_alpha alpha mn E e) data = (js, None) ->
  (forall a, In a (map snd js) -> (mn <= a <= alpha)%R) /\
  (forall i j x y, i <= j -> nth_error (map snd js) i = Some x -> nth_error (map snd js) j = Some y -> (y <= x)%R).
Proof.
  intros D len limit te tw alpha mn E e data js T M Ep H. apply jobs_alpha in H.
  assert (X : exists sz t, 0 < t /\ map snd js = map (get_next_alpha alpha mn E e) (shares sz t 0 (map fst js))).
  { destruct te as [[|t]|]; [|exists (@length D), (S t); split; [lia | exact H]|]; (destruct tw as [[|t']|]; [|exists (words_in len), (S t'); split; [lia | exact H]|]; destruct T as [[? ?]|[? ?]]; discriminate). }
  destruct X as (sz & t & Tp & X). rewrite X. split.
  - intros a Ha. apply in_map_iff in Ha. destruct Ha as (p & <- & Hp). apply In_nth_error in Hp. destruct Hp as [i Hi]. apply alpha_range; auto. apply (shares_mono sz t 0 _ Tp i i p p (le_n _) Hi Hi).
  - intros i j x y L Hi Hj. rewrite nth_error_map in Hi, Hj. destruct (nth_error (shares sz t 0 (map fst js)) i) as [p|] eqn:Pi; [|discriminate]. destruct (nth_error (shares sz t 0 (map fst js)) j) as [q|] eqn:Pj; [|discriminate].
    injection Hi as <-. injection Hj as <-. apply alpha_mono; auto. apply (shares_mono sz t 0 _ Tp i j p q L Pi Pj).
Qed.
Print Assumptions jobs_alpha_decreasing.
(** From one epoch to the next, if the total is not too small. *)
Theorem alpha_epochs : forall alpha mn E e p, (mn <= alpha)%R -> 0 < E -> (p <= 1)%R -> (get_next_alpha alpha mn E (S e) 0 <= get_next_alpha alpha mn E e p)%R.
Proof.
  intros alpha mn E e p M Ep P. apply Rle_trans with (get_next_alpha alpha mn E e 1); [|apply alpha_mono; assumption]. apply Req_le. unfold get_next_alpha. rewrite S_INR, Rplus_0_r. reflexivity.
Qed.
Print Assumptions alpha_epochs.
(** If the total is too small the learning rate rises again at the next epoch. *)
Theorem alpha_epochs_refuted : exists alpha mn E e p, (mn <= alpha)%R /\ (0 <= p)%R /\ (get_next_alpha alpha mn E e p < get_next_alpha alpha mn E (S e) 0)%R.
Proof.
  exists 1%R, 0%R, 4, 0, 2%R. unfold get_next_alpha. replace (INR 4) with 4%R by (cbn; lra). cbn [INR]. split; [lra|]. split; [lra|]. rewrite !Rmax_right by lra. lra.
Qed.
(** A rate meant to rise from [alpha] to a larger [min_alpha] is constantly the latter. *)
Theorem alpha_rising_refuted : forall alpha mn E e p, (alpha < mn)%R -> 0 < E -> (0 <= p)%R -> (INR e + p <= INR E)%R -> get_next_alpha alpha mn E e p = mn.
Proof.
  intros alpha mn E e p L Ep P B. unfold get_next_alpha. apply Rmax_left. assert (T : (0 < INR E)%R) by (apply lt_0_INR, Ep).
  assert (((INR e + p) / INR E <= 1)%R). { apply (Rmult_le_reg_r (INR E)); [exact T|]. unfold Rdiv. rewrite Rmult_assoc, Rinv_l, Rmult_1_r by lra. lra. }
  assert (0 <= (INR e + p) / INR E)%R by (apply Rmult_le_pos; [pose proof (pos_INR e); lra | apply Rlt_le, Rinv_0_lt_compat, T]). nra.
Qed.
Print Assumptions alpha_rising_refuted.
(** [end_alpha=0.0] is ignored. *)
Theorem end_alpha_zero_refuted : exists old, given_or (Some 0%R) old <> 0%R.
Proof. exists 1%R. unfold given_or. destruct (Req_EM_T 0 0); lra. Qed.
(** A corpus whose size is not known is cut short: the producer dies at the second job. *)
Theorem no_totals_refuted : exists js, job_producer (fun n : nat => n) 3 (Some 0) (Some 0) (fun p => p) [2; 2; 2] = (js, Some ZeroDivErr) /\ map fst js = [[2]].
Proof. eexists. split; reflexivity. Qed.

Example jobs_ex : map fst (fst (job_producer (fun n : nat => n) 5 (Some 7) None (fun p => p) [7; 2; 3; 1; 0; 9; 4])) = [[]; [7]; [2; 3]; [1; 0]; [9]; [4]] /\
  map snd (fst (job_producer (fun n : nat => n) 5 (Some 7) None (fun p => p) [7; 2; 3; 1])) = [0; INR 0 / INR 7; INR 1 / INR 7; INR 3 / INR 7]%R.
Proof. split; reflexivity. Qed.
(** A job without any sentence. *)
Theorem empty_job_refuted : exists js, job_producer (fun n : nat => n) 5 (Some 1) None (fun p => p) [7] = (js, None) /\ map fst js = [[]; [7]].
Proof. eexists. split; reflexivity. Qed.

(** ** C65: batches *)
Section Batch.
Context {W : Type}.
Variable max_len : nat.
Hypothesis Hm : 0 < max_len.
Variable index_of : W -> option nat.
Variable sample : option (nat -> Z).

Lemma firstn_short : forall {A} (l : list A) n, length l <= n -> firstn n l = l.
Proof. intros. apply firstn_all2. assumption. Qed.

Lemma prep_sentence_ok : forall sent s idx, length idx < max_len ->
  let '(l, sf) := select_words index_of sample sent s in
  let '(s', idx') := prep_sentence max_len index_of sample sent s idx in
  idx' = firstn max_len (idx ++ l) /\ (length (idx ++ l) < max_len -> s' = sf).
Proof.
  induction sent as [|w sent IH]; intros s idx L; cbn [select_words prep_sentence].
  - rewrite app_nil_r. split; [symmetry; apply firstn_short; lia | auto].
  - destruct (index_of w) as [i|]; [|apply IH; exact L].
    assert (K : forall st, let '(l, sf) := select_words index_of sample sent st in
       let '(s', idx') := (if length (idx ++ [i]) =? max_len then (st, idx ++ [i]) else prep_sentence max_len index_of sample sent st (idx ++ [i])) in
       idx' = firstn max_len (idx ++ i :: l) /\ (length (idx ++ i :: l) < max_len -> s' = sf)).
    { intros st. pose proof (IH st (idx ++ [i])) as IH'. destruct (select_words index_of sample sent st) as [l sf]. destruct (length (idx ++ [i]) =? max_len) eqn:E.
      - apply Nat.eqb_eq in E. rewrite app_length in E. cbn in E. split.
        + replace (idx ++ i :: l) with ((idx ++ [i]) ++ l) by (rewrite <- app_assoc; reflexivity). rewrite firstn_app. replace (max_len - length (idx ++ [i])) with 0 by (rewrite app_length; cbn; lia). rewrite firstn_short by (rewrite app_length; cbn; lia). cbn. rewrite app_nil_r. reflexivity.
        + rewrite app_length. cbn. lia.
      - apply Nat.eqb_neq in E. specialize (IH' ltac:(rewrite app_length in *; cbn in *; lia)). destruct (prep_sentence max_len index_of sample sent st (idx ++ [i])) as [s' idx']. rewrite <- app_assoc in IH'. exact IH'. }
    destruct sample as [si|] eqn:Es.
    + cbn [random_int32]. specialize (K (next_random s)). pose proof (IH (next_random s) idx L) as IH'. destruct (select_words index_of (Some si) sent (next_random s)) as [l sf].
      rewrite (Z.leb_antisym (si i) (s / 2 ^ 16)). destruct (si i <? s / 2 ^ 16)%Z; cbn [negb]; [exact IH' | exact K].
    + specialize (K s). destruct (select_words index_of None sent s) as [l sf]. exact K.
Qed.

Definition nonempty (l : list W) : bool := match l with [] => false | _ => true end.
Lemma prep_batch_ok : forall sents s idx sidx, length idx < max_len -> length sidx + length (filter nonempty sents) <= max_len + 1 ->
  exists s', prep_batch max_len index_of sample sents s idx sidx =
    Some (s', firstn max_len (idx ++ concat (select_all index_of sample sents s)), sidx ++ ends max_len (length idx) (map (@length nat) (select_all index_of sample sents s))).
Proof.
  induction sents as [|sent sents IH]; intros s idx sidx L B.
  - cbn. exists s. rewrite !app_nil_r. rewrite firstn_short by lia. reflexivity.
  - destruct sent as [|w0 sent0] eqn:Es; [apply IH; assumption|]. cbn [filter nonempty length] in B. cbn [prep_batch select_all]. rewrite <- Es in *.
    pose proof (prep_sentence_ok sent s idx L) as P. destruct (select_words index_of sample sent s) as [l sf]. destruct (prep_sentence max_len index_of sample sent s idx) as [s' idx'].
    destruct P as [-> P]. replace (length sidx <? max_len + 1) with true by lia. cbn [concat map ends].
    destruct (length (firstn max_len (idx ++ l)) =? max_len) eqn:E.
    + exists s'. rewrite firstn_length in *. apply Nat.eqb_eq in E. rewrite app_length in E. rewrite app_length, E. replace (max_len <=? length idx + length l) with true by lia.
      f_equal. f_equal. f_equal. rewrite app_assoc, (firstn_app max_len (idx ++ l)). replace (max_len - length (idx ++ l)) with 0 by (rewrite app_length; lia). rewrite firstn_O, app_nil_r. reflexivity.
    + apply Nat.eqb_neq in E. rewrite firstn_length, app_length in E. rewrite firstn_short by (rewrite app_length; lia). replace (max_len <=? length idx + length l) with false by lia.
      rewrite (P ltac:(rewrite app_length; lia)). destruct (IH sf (idx ++ l) (sidx ++ [length (idx ++ l)])) as (s2 & E2); [rewrite app_length; lia | rewrite app_length; cbn; lia|]. exists s2. rewrite E2. rewrite app_length.
      rewrite <- !app_assoc. reflexivity.
Qed.

(** With at most [max_len] non-empty sentences: the selected words in order, cut off after [max_len], and the ends of the
    sentences. *)
Theorem prepare_batch_ok : forall sents s, length (filter nonempty sents) <= max_len -> exists s',
  prepare_batch max_len index_of sample sents s =
  Some (s', firstn max_len (concat (select_all index_of sample sents s)), 0 :: ends max_len 0 (map (@length nat) (select_all index_of sample sents s))).
Proof. intros sents s B. destruct (prep_batch_ok sents s [] [0] Hm ltac:(cbn [length]; lia)) as (s' & E). exists s'. exact E. Qed.

(** No word is lost if the batch has at most [max_len] words. *)
Lemma select_words_length : forall sent s, length (fst (select_words index_of sample sent s)) <= length sent.
Proof.
  induction sent as [|w sent IH]; intros s; [cbn; lia|]. cbn [select_words length]. destruct (index_of w) as [i|]; [|specialize (IH s); lia]. destruct sample as [si|] eqn:Es.
  - specialize (IH (next_random s)). destruct (select_words index_of (Some si) sent (next_random s)) as [l sf]. cbn in IH. destruct (s / 2 ^ 16 <=? si i)%Z; cbn; lia.
  - specialize (IH s). destruct (select_words index_of None sent s) as [l sf]. cbn in *. lia.
Qed.
Lemma select_all_length : forall sents s, length (concat (select_all index_of sample sents s)) <= length (concat sents) /\ length (filter nonempty sents) <= length (concat sents).
Proof.
  induction sents as [|sent sents IH]; intros s; [cbn; lia|]. destruct sent as [|w0 sent0] eqn:Es; [apply IH|]. cbn [select_all filter nonempty length]. rewrite <- Es in *. cbn [concat].
  pose proof (select_words_length sent s) as L. destruct (select_words index_of sample sent s) as [l sf]. destruct (IH sf) as [A B]. cbn [fst] in L. split.
  - cbn [concat]. rewrite !app_length. lia.
  - rewrite app_length. rewrite Es. cbn [length]. lia.
Qed.
Theorem prepare_batch_all : forall sents s, length (concat sents) <= max_len -> exists s' sidx,
  prepare_batch max_len index_of sample sents s = Some (s', concat (select_all index_of sample sents s), sidx).
Proof.
  intros sents s L. destruct (select_all_length sents s) as [A B]. destruct (prepare_batch_ok sents s ltac:(lia)) as (s' & E). rewrite firstn_short in E by lia. eauto.
Qed.

(** Jobs cut with a limit up to [max_len] never overflow, and lose words only from single sentences over the limit. *)
Theorem jobs_prepared : forall limit te tw f (data : list (list W)) js b s, limit <= max_len -> totals_ok te tw ->
  job_producer (@length W) limit te tw f data = (js, None) -> In b (map fst js) ->
  exists s' sidx, prepare_batch max_len index_of sample b s = Some (s', firstn max_len (concat (select_all index_of sample b s)), sidx) /\
    (words_in (@length W) b <= limit \/ length b = 1) /\ (words_in (@length W) b <= limit -> firstn max_len (concat (select_all index_of sample b s)) = concat (select_all index_of sample b s)).
Proof.
  intros limit te tw f data js b s L T H Hb. destruct (jobs_greedy (@length W) limit te tw f data T) as (js' & E & G). rewrite H in E. injection E as <-. destruct G as (_ & G & _). specialize (G b Hb).
  assert (Wb : words_in (@length W) b = length (concat b)). { clear. induction b as [|x b IH]; [reflexivity|]. cbn [concat]. rewrite app_length, <- IH. reflexivity. }
  destruct (select_all_length b s) as [A B].
  assert (N : length (filter nonempty b) <= max_len). { destruct G as [G|G]; [lia|]. destruct b as [|x [|y b]]; try discriminate. cbn. destruct (nonempty x); cbn; lia. }
  destruct (prepare_batch_ok b s N) as (s' & E). exists s'. eexists. split; [exact E|]. split; [exact G|]. intros Lw. apply firstn_short. lia.
Qed.
End Batch.
Print Assumptions prepare_batch_ok. Print Assumptions prepare_batch_all. Print Assumptions jobs_prepared.

(** With a larger batch size unknown words overflow the array [c.sentence_idx], whatever the limit. *)
Lemma overflow_step : forall max_len n s sidx, length sidx <= max_len + 1 -> max_len + 1 < length sidx + n -> 0 < max_len ->
  prep_batch max_len (fun _ : unit => None) None (repeat [tt] n) s [] sidx = None.
Proof.
  intros max_len. induction n as [|n IH]; intros s sidx A B C; [lia|]. cbn [repeat prep_batch prep_sentence]. destruct (length sidx <? max_len + 1) eqn:E; [|reflexivity].
  cbn [length]. replace (0 =? max_len) with false by lia. apply IH; [rewrite app_length; cbn; lia | rewrite app_length; cbn; lia | exact C].
Qed.
Theorem batch_overflow_refuted : forall max_len, 0 < max_len -> exists sents : list (list unit), length (concat sents) = max_len + 1 /\ prepare_batch max_len (fun _ => None) None sents 0 = None.
Proof.
  intros max_len H. exists (repeat [tt] (max_len + 1)). split.
  - assert (X : forall n, length (concat (repeat [tt] n)) = n) by (induction n as [|n IH]; [reflexivity | cbn; rewrite IH; reflexivity]). apply X.
  - apply overflow_step; cbn [length]; lia.
Qed.
Print Assumptions batch_overflow_refuted.

Definition ex_index (w : nat) : option nat := if w <? 10 then Some w else None.
Example prepare_ex : prepare_batch 100 ex_index None [[1; 20; 2]; []; [30]; [3; 4; 5]] 0 = Some (0%Z, [1; 2; 3; 4; 5], [0; 2; 2; 5]) /\
  prepare_batch 4 ex_index None [[1; 20; 2]; []; [30]; [3; 4; 5]; [6]] 0 = Some (0%Z, [1; 2; 3; 4], [0; 2; 2; 4]) /\
  prepare_batch 100 ex_index (Some (fun i => if i =? 2 then 0%Z else (2 ^ 32)%Z)) [[1; 2; 20; 1]; [2]; [2; 3]] 5000000 = Some (4671682123422%Z, [1; 1; 3], [0; 2; 2; 3]).
Proof. vm_compute. auto. Qed.

(** ** The trained pairs *)
Lemma In_window : forall window reduced start stop i j, start <= i < stop ->
  (In j (window_of window reduced start stop i) <-> j <> i /\ start <= j < stop /\ (Z.of_nat i - Z.of_nat window + Z.of_nat (reduced i) <= Z.of_nat j <= Z.of_nat i + Z.of_nat window - Z.of_nat (reduced i))%Z).
Proof. intros window reduced start stop i j H. unfold window_of. rewrite filter_In, in_seq. cbv zeta. lia. Qed.
Lemma In_sentence_pairs : forall window reduced start stop i j, In (i, j) (sentence_pairs window reduced start stop) <->
  start <= i < stop /\ j <> i /\ start <= j < stop /\ (Z.of_nat i - Z.of_nat window + Z.of_nat (reduced i) <= Z.of_nat j <= Z.of_nat i + Z.of_nat window - Z.of_nat (reduced i))%Z.
Proof.
  intros window reduced start stop i j. unfold sentence_pairs. rewrite in_flat_map. split.
  - intros (x & Hx & H). apply in_map_iff in H. destruct H as (y & E & Hy). injection E as -> ->. apply in_seq in Hx. apply In_window in Hy; lia.
  - intros (A & B). exists i. split; [apply in_seq; lia|]. apply in_map_iff. exists j. split; [reflexivity|]. apply In_window; [lia | exact B].
Qed.
(** Two positions are trained together exactly if they are different, in the same sentence, and no further apart than the
    reduced window of the first. *)
Theorem batch_pairs_ok : forall window reduced sidx i j, In (i, j) (batch_pairs window reduced sidx) <->
  i <> j /\ same_sentence sidx i j /\ (Z.abs (Z.of_nat i - Z.of_nat j) <= Z.of_nat window - Z.of_nat (reduced i))%Z.
Proof.
  intros window reduced. induction sidx as [|a sidx IH]; intros i j.
  - cbn. split; [intros [] | intros (_ & (k & x & y & E & _) & _); destruct k; discriminate].
  - destruct sidx as [|b sidx].
    + cbn. split; [intros [] | intros (_ & (k & x & y & _ & E & _) & _); destruct k as [|[|k]]; discriminate].
    + cbn [batch_pairs]. rewrite in_app_iff, In_sentence_pairs, IH. split.
      * intros [H|(H1 & (k & x & y & Hx & Hy & H2) & H3)].
        -- split; [lia|]. split; [exists 0, a, b; cbn; repeat split; lia | lia].
        -- split; [exact H1|]. split; [exists (S k), x, y; auto | exact H3].
      * intros (H1 & (k & x & y & Hx & Hy & H2) & H3). destruct k as [|k]; cbn in Hx, Hy.
        -- injection Hx as <-. injection Hy as <-. left. lia.
        -- right. split; [exact H1|]. split; [exists k, x, y; auto | exact H3].
Qed.
Print Assumptions batch_pairs_ok.
(** Each of them once. *)
Lemma NoDup_app3 : forall {A} (l l' : list A), NoDup l -> NoDup l' -> (forall x, In x l -> ~ In x l') -> NoDup (l ++ l').
Proof.
  induction l as [|x l IH]; intros l' H H' D; [exact H'|]. inversion H as [|? ? N H1]; subst. cbn. constructor; [rewrite in_app_iff; intros [X|X]; [exact (N X) | exact (D x (or_introl eq_refl) X)]|]. apply IH; auto. intros; apply D; right; assumption.
Qed.
Lemma NoDup_map_pair : forall {A B} (i : A) (l : list B), NoDup l -> NoDup (map (pair i) l).
Proof. induction l as [|x l IH]; intros H; [constructor|]. inversion H as [|? ? N H1]; subst. cbn. constructor; [|apply IH; exact H1]. intros X. apply in_map_iff in X. destruct X as (y & E & Hy). injection E as ->. exact (N Hy). Qed.
Theorem batch_pairs_once : forall window reduced sidx, (forall k a b, nth_error sidx k = Some a -> nth_error sidx (S k) = Some b -> a <= b) -> NoDup (batch_pairs window reduced sidx).
Proof.
  intros window reduced. induction sidx as [|a sidx IH]; intros M; [constructor|]. destruct sidx as [|b sidx]; [constructor|]. cbn [batch_pairs]. apply NoDup_app3.
  - unfold sentence_pairs. generalize (seq_NoDup (b - a) a). generalize (seq a (b - a)) as l. intros l. induction l as [|i l IHl]; intros N; [constructor|]. inversion N as [|? ? N1 N2]; subst. cbn [flat_map]. apply NoDup_app3.
    + apply NoDup_map_pair. unfold window_of. apply NoDup_filter, seq_NoDup.
    + apply IHl. exact N2.
    + intros [x y] H1 H2. apply in_map_iff in H1. destruct H1 as (? & E & _). injection E as -> _. apply in_flat_map in H2. destruct H2 as (z & Hz & H2). apply in_map_iff in H2. destruct H2 as (? & E & _). injection E as <- _. exact (N1 Hz).
  - apply IH. intros k x y Hx Hy. apply (M (S k) x y); assumption.
  - intros [i j] H1 H2. apply In_sentence_pairs in H1. apply (batch_pairs_ok window reduced (b :: sidx)) in H2. destruct H2 as (_ & (k & x & y & Hx & Hy & H2) & _).
    assert (Mb : forall k x, nth_error (b :: sidx) k = Some x -> b <= x).
    { clear - M. induction k as [|k IHk]; intros x Hx; [cbn in Hx; injection Hx as <-; lia|]. destruct (nth_error (b :: sidx) k) as [z|] eqn:Ez.
      - specialize (IHk z eq_refl). assert (z <= x) by (apply (M (S k) z x); assumption). lia.
      - apply nth_error_None in Ez. assert (S k < length (b :: sidx)) by (apply nth_error_Some; congruence). lia. }
    specialize (Mb k x Hx). lia.
Qed.
Print Assumptions batch_pairs_once.
(** The sentence ends of a prepared batch are in order, so this applies to them. *)
Lemma ends_mono : forall limit lens done k a b, done <= limit -> nth_error (done :: ends limit done lens) k = Some a -> nth_error (done :: ends limit done lens) (S k) = Some b -> a <= b.
Proof.
  intros limit. induction lens as [|n lens IH]; intros done k a b L Ha Hb; [destruct k as [|[|k]]; discriminate|]. cbn [ends] in Ha, Hb. destruct (limit <=? done + n) eqn:E.
  - destruct k as [|[|k]]; cbn in Ha, Hb; try (destruct k; discriminate); try discriminate. injection Ha as <-. injection Hb as <-. exact L.
  - destruct k as [|k]; [cbn in Ha, Hb; injection Ha as <-; injection Hb as <-; lia|]. apply (IH (done + n) k a b); [lia | exact Ha | exact Hb].
Qed.
Theorem prepared_pairs_once : forall {W} max_len (index_of : W -> option nat) sample sents s window reduced, 0 < max_len -> length (filter nonempty sents) <= max_len ->
  exists s' idx sidx, prepare_batch max_len index_of sample sents s = Some (s', idx, sidx) /\ NoDup (batch_pairs window reduced sidx).
Proof.
  intros W max_len index_of sample sents s window reduced H L. destruct (prepare_batch_ok max_len H index_of sample sents s L) as (s' & E). do 3 eexists. split; [exact E|].
  apply batch_pairs_once. intros k a b Ha Hb. apply (ends_mono max_len _ 0 k a b ltac:(lia) Ha Hb).
Qed.
Print Assumptions prepared_pairs_once.
Example batch_pairs_ex : batch_pairs 2 (fun i => if i =? 1 then 1 else 0) [0; 3; 3; 5] = [(0, 1); (0, 2); (1, 0); (1, 2); (2, 0); (2, 1); (3, 4); (4, 3)] /\
  batch_pairs 1 (fun _ => 0) [0; 2; 4] = [(0, 1); (1, 0); (2, 3); (3, 2)].
Proof. vm_compute. auto. Qed.
