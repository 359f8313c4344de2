(** Training from a file: which sentences and words reach the inner loops. *)
From Verif Require Import Base Str Formats_Base W2vFormat_Model W2vFormat_Proofs Sentences_Model Sentences_Spec Sentences_Properties NegSampling_Model TrainJobs_Model TrainJobs_Spec TrainJobs_Properties CorpusFile_Model CorpusFile_Spec CorpusFile_Proofs.
Local Open Scope nat_scope.
From Coq Require Import ZifyBool ZifyNat ZifyN.

(** ** Iterating over the file *)
Lemma iter_loop_ok : forall m fuel r, 0 < m -> length (rd_rest r) < fuel ->
  iter_loop fuel m r = filter (fun c => negb (length c =? 0)) (chunks_ahead m r).
Proof.
  intros m. induction fuel as [|fuel IH]; intros r M L; [lia|]. cbn [iter_loop]. destruct (rd_eof r) eqn:E; [unfold chunks_ahead, lines_ahead; rewrite E; reflexivity|].
  pose proof (read_sentence_ok r E) as R. destruct (read_sentence r) as [sent r1]. destruct R as (A & _ & P). unfold chunks_ahead at 1. rewrite A. cbn [flat_map]. rewrite filter_app. f_equal.
  destruct (le_lt_dec fuel (length (rd_rest r1))) as [X|X].
  - destruct P as [P|[P P']]; [lia|]. rewrite P' in X. cbn in X. assert (fuel = 0) by lia. subst fuel. unfold lines_ahead. rewrite P. reflexivity.
  - apply IH; assumption.
Qed.
(** The lines from the offset on, cut into pieces of at most [m] words; what has no words is left out. *)
Theorem cython_iter_ok : forall m file offset, 0 < m ->
  exists pss, Forall2 (in_pieces m) (line_words (skipn offset file)) pss /\ cython_iter m file offset = filter (fun c => negb (length c =? 0)) (concat pss).
Proof.
  intros m file offset M. exists (map (chunk_sentence m) (line_words (skipn offset file))). split.
  - induction (line_words (skipn offset file)) as [|l ls IH]; constructor; [apply chunk_sentence_ok; exact M | exact IH].
  - unfold cython_iter. rewrite iter_loop_ok; [|exact M | cbn; rewrite skipn_length; lia]. unfold chunks_ahead, lines_ahead, open_at. cbn [rd_eof rd_rest]. rewrite flat_map_concat_map. reflexivity.
Qed.
Print Assumptions cython_iter_ok.

Lemma words_utf8_aux : forall s cur, Forall (fun c => is_space c = true -> is_bspace c = true) s ->
  words_aux is_bspace (rev (utf8 (rev cur))) (utf8 s) = map utf8 (words_aux is_space cur s).
Proof.
  assert (NE : forall x cur, exists b bs, rev (utf8 (rev (x :: cur))) = b :: bs).
  { intros x cur. cbn [rev]. rewrite utf8_app, rev_app_distr. cbn [utf8 flat_map]. rewrite app_nil_r. unfold utf8_char; repeat (destruct (_ <? _)%N); cbn [rev app]; do 2 eexists; reflexivity. }
  induction s as [|c s IH]; intros cur F.
  - cbn [utf8 flat_map words_aux]. destruct cur as [|x cur]; [reflexivity|]. destruct (NE x cur) as (b & bs & E). rewrite E. cbn [map]. rewrite <- E, rev_involutive. reflexivity.
  - inversion F as [|? ? Fc Fs]; subst. change (utf8 (c :: s)) with (utf8_char c ++ utf8 s). cbn [words_aux]. destruct (is_space c) eqn:Ec.
    + specialize (Fc eq_refl). assert (Hc : utf8_char c = [c]). { unfold is_bspace in Fc. unfold utf8_char. replace (c <? 128)%N with true by lia. reflexivity. }
      rewrite Hc. cbn [app words_aux]. rewrite Fc. specialize (IH [] Fs). cbn [rev utf8 flat_map] in IH. destruct cur as [|x cur]; [exact IH|]. destruct (NE x cur) as (b & bs & E). rewrite E. cbn [map]. rewrite <- E, rev_involutive, IH. reflexivity.
    + rewrite words_aux_word.
      * rewrite <- (IH (c :: cur) Fs). f_equal. cbn [rev]. rewrite utf8_app, rev_app_distr. f_equal. cbn [utf8 flat_map]. rewrite app_nil_r. reflexivity.
      * apply Forall_forall. intros b Hb. destruct (is_bspace b) eqn:Eb; [|reflexivity]. exfalso. destruct (utf8_char_high c b Hb) as [_ X]; [unfold is_bspace in Eb; lia|]. subst b. apply is_bspace_space in Eb. congruence.
Qed.
Lemma split_utf8 : forall s, split_on chr_nl (utf8 s) = map utf8 (split_on chr_nl s).
Proof.
  induction s as [|c s IH]; [reflexivity|]. change (utf8 (c :: s)) with (utf8_char c ++ utf8 s). cbn [split_on]. destruct (eq_dec c chr_nl) as [E|E].
  - subst c. change (utf8_char chr_nl) with [chr_nl]. cbn [app split_on]. destruct (eq_dec chr_nl chr_nl) as [_|X]; [|congruence]. rewrite IH. reflexivity.
  - assert (N : ~ In chr_nl (utf8_char c)). { intros H. apply E. symmetry. apply utf8_char_low in H; [exact H | reflexivity]. }
    assert (K : forall p q, ~ In chr_nl p -> split_on chr_nl (p ++ q) = match split_on chr_nl q with [] => [p] | w :: ws => (p ++ w) :: ws end).
    { clear. induction p as [|x p IHp]; intros q H; [cbn [app]; pose proof (split_on_nonempty chr_nl q); destruct (split_on chr_nl q); [congruence | reflexivity]|].
      cbn [app split_on]. destruct (eq_dec x chr_nl) as [X|X]; [exfalso; apply H; left; exact X|]. rewrite IHp by (intros Y; apply H; right; exact Y). destruct (split_on chr_nl q); reflexivity. }
    rewrite (K _ _ N), IH. pose proof (split_on_nonempty chr_nl s). destruct (split_on chr_nl s) as [|w ws]; [congruence|]. reflexivity.
Qed.
Lemma nl_split : forall s, ~ In chr_nl s \/ exists w s', s = w ++ chr_nl :: s' /\ ~ In chr_nl w.
Proof.
  induction s as [|c s [IH|(w & s' & E & IH)]]; [left; intros []| |]; destruct (N.eq_dec c chr_nl) as [X|X].
  - right. exists [], s. subst c. split; [reflexivity | intros []].
  - left. intros [Y|Y]; [contradiction | apply IH; exact Y].
  - right. exists [], s. subst c. split; [reflexivity | intros []].
  - right. exists (c :: w), s'. subst s. split; [reflexivity|]. intros [Y|Y]; [contradiction | apply IH; exact Y].
Qed.
Lemma lines_flat : forall {B} (f : pystr -> list B) n s, length s <= n -> f [] = [] -> (forall l, f (l ++ [chr_nl]) = f l) -> flat_map f (file_lines s) = flat_map f (split_on chr_nl s).
Proof.
  intros B f. induction n as [|n IH]; intros s L F0 F1.
  - destruct s; [|cbn in L; lia]. cbn. rewrite F0. reflexivity.
  - destruct (nl_split s) as [H|(w & s' & E & H)].
    + rewrite split_on_word by exact H. destruct s as [|c s]; [cbn; rewrite F0; reflexivity|]. rewrite file_lines_last by (try discriminate; exact H). reflexivity.
    + subst s. rewrite file_lines_cons, split_on_app by exact H. cbn [flat_map]. rewrite F1, IH; [reflexivity | rewrite app_length in L; cbn in L; lia | exact F0 | exact F1].
Qed.
Lemma slices_map : forall (f : pystr -> pystr) m fuel ws, slices fuel m (map f ws) = map (map f) (slices fuel m ws).
Proof. intros f m. induction fuel as [|fuel IH]; intros ws; [reflexivity|]. destruct ws as [|w ws]; [reflexivity|]. cbn [slices]. change (map f (w :: ws)) with (f w :: map f ws) at 1. cbn [map]. rewrite <- IH. rewrite <- !firstn_map, <- !skipn_map. reflexivity. Qed.
Lemma chunk_slices : forall m ws, 0 < m -> filter (fun c => negb (length c =? 0)) (chunk_sentence m ws) = slices (length ws) m ws.
Proof.
  intros m ws M. unfold chunk_sentence. destruct (m <? length ws) eqn:E.
  - destruct (slices_ok m (length ws) ws M (Nat.le_refl _)) as [_ B]. revert B. generalize (slices (length ws) m ws). intros ps B.
    assert (F : Forall (fun p => p <> []) ps). { apply Forall_forall. intros p H. apply in_split in H. destruct H as (a & b & ->). apply (B a p b eq_refl). }
    clear B. induction F as [|p ps Hp F IH]; [reflexivity|]. cbn [filter]. destruct p; [congruence|]. cbn [length Nat.eqb negb]. rewrite IH. reflexivity.
  - destruct ws as [|w ws]; [reflexivity|]. cbn [filter length Nat.eqb negb slices]. rewrite firstn_all2 by (cbn in *; lia). rewrite skipn_all2 by (cbn in *; lia). destruct (length ws); reflexivity.
Qed.
Lemma line_loop_flat : forall m ls, 0 < m -> Forall valid ls -> line_loop m (map utf8 ls) = (flat_map (fun l => slices (length (words is_space l)) m (words is_space l)) ls, Ended).
Proof.
  intros m ls M F. induction F as [|l ls V F IH]; [reflexivity|]. cbn [map line_loop]. rewrite tokens_of_utf8 by exact V. rewrite IH. destruct m; [lia|]. reflexivity.
Qed.
Lemma flat_map_filter : forall {A B} (f : A -> list B) (p : B -> bool) l, filter p (flat_map f l) = flat_map (fun x => filter p (f x)) l.
Proof. intros A B f p l. induction l as [|x l IH]; [reflexivity|]. cbn [flat_map]. rewrite filter_app, IH. reflexivity. Qed.
(** Where white space is ASCII white space, the file reader and [LineSentence] (used to build the vocabulary) give the same sentences. *)
Theorem cython_iter_line_sentence : forall m s, 0 < m -> valid s -> Forall (fun c => is_space c = true -> is_bspace c = true) s ->
  exists ys, line_sentence m None (utf8 s) = (ys, Ended) /\ cython_iter m (utf8 s) 0 = map (map utf8) ys.
Proof.
  intros m s M V F. unfold line_sentence. cbn [islice]. rewrite file_lines_utf8, line_loop_flat; [|exact M | apply valid_lines; exact V].
  set (f := fun l => slices (length (words is_space l)) m (words is_space l)). exists (flat_map f (file_lines s)). split; [reflexivity|].
  rewrite (lines_flat f (length s) s (Nat.le_refl _)); [| unfold f; reflexivity|].
  2: { intros l. unfold f. replace (words is_space (l ++ [chr_nl])) with (words is_space l); [reflexivity|]. rewrite words_sep by reflexivity. cbn. rewrite app_nil_r. reflexivity. }
  unfold cython_iter. rewrite iter_loop_ok; [|exact M | cbn; lia]. unfold chunks_ahead, lines_ahead, open_at, line_words. cbn [rd_eof rd_rest skipn]. rewrite flat_map_filter, split_utf8.
  assert (Fl : Forall (Forall (fun c => is_space c = true -> is_bspace c = true)) (split_on chr_nl s)).
  { clear - F. induction F as [|c s Hc F IH]; [repeat constructor|]. cbn [split_on]. destruct (eq_dec c chr_nl); [constructor; [constructor | exact IH]|].
    destruct (split_on chr_nl s); [repeat constructor; exact Hc|]. inversion IH; subst. constructor; [constructor; assumption | assumption]. }
  induction Fl as [|l ls Hl Fl IH]; [reflexivity|]. cbn [map flat_map]. rewrite IH, map_app. f_equal. rewrite chunk_slices by exact M. unfold f, words. pose proof (words_utf8_aux l [] Hl) as W. cbn [rev utf8 flat_map] in W. rewrite W.
  rewrite map_length. apply slices_map.
Qed.
Print Assumptions cython_iter_line_sentence.
(** Otherwise not: the vocabulary is built from other words than those looked up in training. *)
Theorem cython_iter_unicode_refuted : exists s ys, valid s /\ line_sentence 10 None (utf8 s) = (ys, Ended) /\ cython_iter 10 (utf8 s) 0 <> map (map utf8) ys.
Proof. exists [97; 12288; 98]%N, [[[97]; [98]]]%N. split; [repeat constructor|]. split; [vm_compute; reflexivity | vm_compute; discriminate]. Qed.
Print Assumptions cython_iter_unicode_refuted.
Theorem cython_iter_ascii_refuted : exists s ys, Forall (fun c => c < 128)%N s /\ line_sentence 10 None (utf8 s) = (ys, Ended) /\ cython_iter 10 (utf8 s) 0 <> map (map utf8) ys.
Proof. exists [97; 28; 98]%N, [[[97]; [98]]]%N. split; [repeat constructor|]. split; [vm_compute; reflexivity | vm_compute; discriminate]. Qed.
Print Assumptions cython_iter_ascii_refuted.
Example cython_iter_ex : cython_iter 2 (str "a b c" ++ [10] ++ [10] ++ str "d e" ++ [13; 10] ++ str " f")%N 0 = [[str "a"; str "b"]; [str "c"]; [str "d"; str "e"]; [str "f"]] /\
  cython_iter 2 (str "a bc d" ++ [10] ++ str "e")%N 3 = [[str "c"; str "d"]; [str "e"]].
Proof. vm_compute. split; reflexivity. Qed.

(** ** Batches *)
(** Sentences come out in order, none twice and none left out; a batch has more than [m] words and would have at most [m]
    without its last sentence - or it is the last one and everything has been handed out. *)
Theorem next_batch_spec : forall m r,
  let (b, r') := next_batch m r in
  ahead m r = b ++ ahead m r' /\
  ((m < word_count b /\ b <> [] /\ word_count (removelast b) <= m) \/ (word_count b <= m /\ ahead m r' = [])).
Proof.
  intros m r. pose proof (next_batch_ok m r) as H. destruct (next_batch m r) as [b r']. destruct H as (A & [B|(B & C & D)] & _); split; auto. right. split; [exact B|].
  unfold ahead, chunks_ahead, lines_ahead. rewrite C, D. reflexivity.
Qed.
Print Assumptions next_batch_spec.

(** ** An epoch of one worker *)
Section Epoch.
Variable m : nat.
Hypothesis Hm : 0 < m.
Variable index_of : pystr -> option nat.
Variable sample : option (nat -> Z).
Variable after : Z -> list nat -> Z.
Notation sents_of := (fun rec : batch_record => fst (fst rec)).
Notation epoch := (train_epoch m index_of sample after).

(** Whatever the worker: the sentences of its batches are, in order and without gaps, the pieces of the lines from its offset
    on.  All batches but the last have more than [m] words; each has at most [m] words before its last sentence.  It stops at the end of
    the file or after its share of the words. *)
Theorem epoch_in_order : forall file workers thread_id expected s recs total, epoch file workers thread_id expected s = Some (recs, total) ->
  exists pss left, Forall2 (in_pieces m) (line_words (skipn (length file * thread_id / workers) file)) pss /\
    concat (map sents_of recs) ++ left = concat pss /\
    (forall l rec k, recs = l ++ rec :: k -> word_count (removelast (sents_of rec)) <= m /\ (m < word_count (sents_of rec) \/ (k = [] /\ left = []))) /\
    total <= word_count (concat (map sents_of recs)).
Proof.
  intros file workers thread_id expected s recs total H. unfold train_epoch in H. apply epoch_loop_ok in H. destruct H as (r' & A & _ & _ & T & C).
  set (ls := line_words (skipn (length file * thread_id / workers) file)) in *. exists (map (chunk_sentence m) ls), (ahead m r'). repeat split.
  - clear A. induction ls as [|l ls IH]; constructor; [apply chunk_sentence_ok; exact Hm | exact IH].
  - rewrite <- A. unfold ahead. cbn [rd_buf open_at app]. unfold chunks_ahead, lines_ahead. cbn [rd_eof rd_rest open_at]. rewrite flat_map_concat_map. reflexivity.
  - destruct (C l rec k H) as [(X & Y & Z)|(X & Y & Z)]; [exact Z|]. assert (R : forall b : list (list pystr), word_count (removelast b) <= word_count b).
    { intros b. destruct b as [|x b] using rev_ind; [cbn; lia|]. rewrite removelast_last. unfold word_count. rewrite concat_app, app_length. lia. }
    specialize (R (sents_of rec)). cbn beta in *. lia.
  - destruct (C l rec k H) as [(X & Y & Z)|(X & Y & Z)]; [left; exact X | right; split; assumption].
  - lia.
Qed.

(** One worker, no line with more than [m] words, [expected] not below the number of words: every line is in exactly one batch,
    in order. *)
Theorem epoch_one_worker : forall file expected s recs total, epoch file 1 0 expected s = Some (recs, total) ->
  Forall (fun l => length l <= m) (line_words file) -> (Z.of_nat (word_count (line_words file)) <= expected)%Z ->
  concat (map sents_of recs) = line_words file.
Proof.
  intros file expected s recs total H F E. unfold train_epoch in H. replace (length file * 0 / 1) with 0 in H by (rewrite Nat.mul_0_r; reflexivity).
  destruct (epoch_loop_ok m index_of sample after _ _ _ _ _ _ _ H) as (_ & _ & _ & _ & T & _).
  destruct (epoch_loop_short m index_of sample after _ _ _ _ _ _ _ H eq_refl) as (r' & A & B); [exact F|].
  change (lines_ahead (open_at file 0)) with (line_words file) in A. destruct B as [B|B].
  - unfold lines_ahead in A. rewrite B, app_nil_r in A. symmetry. exact A.
  - exfalso. rewrite Z.quot_1_r in B. rewrite A in E. unfold word_count in *. rewrite concat_app, app_length in E. lia.
Qed.

(** It does not write past the end of [sentence_idx] if every line has no words or between 2 and [m]. *)
Lemma nonempty_two : forall sents : list (list pystr), Forall (fun l => l = [] \/ 2 <= length l) sents -> 2 * length (filter nonempty sents) <= word_count sents.
Proof.
  intros sents F. induction F as [|l ls H F IH]; [cbn; lia|]. unfold word_count in *. cbn [filter concat]. rewrite app_length. destruct l as [|w l]; cbn [nonempty length] in *; [lia|]. destruct H as [H|H]; [discriminate | lia].
Qed.
Theorem epoch_no_overflow : forall file workers thread_id expected s, Forall (fun l => l = [] \/ 2 <= length l <= m) (line_words (skipn (length file * thread_id / workers) file)) ->
  epoch file workers thread_id expected s <> None.
Proof.
  intros file workers thread_id expected s F. unfold train_epoch.
  set (Inv := fun r : reader => rd_buf r = [] /\ Forall (fun l => l = [] \/ 2 <= length l <= m) (lines_ahead r)).
  destruct (epoch_loop_some m index_of sample after Inv (2 + length file) (Z.quot expected (Z.of_nat workers)) (open_at file (length file * thread_id / workers)) s 0) as (recs & total & E).
  - intros q [I1 I2] Ee. assert (I3 : Forall (fun l => length l <= m) (lines_ahead q)). { eapply Forall_impl; [|exact I2]. intros l [->|X]; cbn; lia. }
    pose proof (next_batch_short m q I1 I3) as NS. pose proof (next_batch_ok m q) as NO. destruct (next_batch m q) as [b q']. destruct NS as (B & C & D). rewrite D in I2. apply Forall_app in I2. destruct I2 as [Fb Fq].
    split; [split; assumption|]. intros s1 t E. pose proof (prep_file_batch_ok m index_of sample after b s1 [] [0] t) as P. rewrite E in P.
    destruct (prep_batch_ok m Hm index_of sample b s1 [] [0] ltac:(cbn; lia)) as (s2 & E2); [|congruence]. cbn [length].
    destruct NO as (_ & [(N1 & N2 & N3)|(N1 & _)] & _).
    + assert (Fr : Forall (fun l : list pystr => l = [] \/ 2 <= length l) (removelast b)).
      { rewrite (app_removelast_last [] N2) in Fb. apply Forall_app in Fb. destruct Fb as [Fb _]. eapply Forall_impl; [|exact Fb]. intros l [X|X]; [left; exact X | right; lia]. }
      apply nonempty_two in Fr. assert (2 <= m). { destruct (Nat.eq_dec m 1) as [M1|M1]; [|lia]. exfalso. assert (Z0 : word_count b = 0); [|lia]. clear - Fb M1. induction Fb as [|l ls H Fb IH]; [reflexivity|]. destruct H as [->|H]; [exact IH | lia]. }
      rewrite (app_removelast_last [] N2). rewrite filter_app, app_length. cbn [filter]. destruct (nonempty (last b [])); cbn [length]; lia.
    + assert (Fr : Forall (fun l : list pystr => l = [] \/ 2 <= length l) b). { eapply Forall_impl; [|exact Fb]. intros l [X|X]; [left; exact X | right; lia]. }
      apply nonempty_two in Fr. lia.
  - split; [reflexivity | exact F].
  - pose proof (ahead_length_at m file (length file * thread_id / workers) Hm). lia.
  - rewrite E. discriminate.
Qed.
End Epoch.
Print Assumptions epoch_in_order. Print Assumptions epoch_one_worker. Print Assumptions epoch_no_overflow.

(** Without sampling the words kept are the known ones, up to [m] per batch: every batch of known words but the last loses words. *)
Lemma select_words_known : forall index_of sent s, select_words index_of None sent s = (known index_of sent, s).
Proof. intros index_of sent s. induction sent as [|w sent IH]; [reflexivity|]. cbn [select_words known]. destruct (index_of w); rewrite IH; reflexivity. Qed.
Lemma known_app : forall index_of a b, known index_of (a ++ b) = known index_of a ++ known index_of b.
Proof. intros index_of a b. induction a as [|w a IH]; [reflexivity|]. cbn [app known]. destruct (index_of w); rewrite IH; reflexivity. Qed.
Lemma select_all_known : forall index_of sents s, concat (select_all index_of None sents s) = known index_of (concat sents).
Proof.
  intros index_of sents. induction sents as [|sent sents IH]; intros s; [reflexivity|]. cbn [select_all concat]. destruct sent as [|w sent]; [apply IH|].
  rewrite select_words_known. cbn [concat]. rewrite known_app, IH. reflexivity.
Qed.
Lemma known_all : forall index_of ws, Forall (fun w => index_of w <> None) ws -> length (known index_of ws) = length ws.
Proof. intros index_of ws F. induction F as [|w ws H F IH]; [reflexivity|]. cbn [known]. destruct (index_of w); [cbn; rewrite IH; reflexivity | congruence]. Qed.
Lemma prep_known : forall m index_of sents s idx sidx s' idx' sidx', length idx < m -> prep_batch m index_of None sents s idx sidx = Some (s', idx', sidx') ->
  idx' = firstn m (idx ++ known index_of (concat sents)).
Proof.
  intros m index_of sents. induction sents as [|sent sents IH]; intros s idx sidx s' idx' sidx' L H; cbn [prep_batch] in H.
  - injection H as <- <- <-. cbn. rewrite app_nil_r, firstn_all2 by lia. reflexivity.
  - destruct sent as [|w0 sent0] eqn:Es; [cbn [concat app]; eapply IH; eassumption|]. rewrite <- Es in *. clear Es w0 sent0. pose proof (prep_sentence_ok m ltac:(lia) index_of None sent s idx L) as P.
    rewrite select_words_known in P. destruct (prep_sentence m index_of None sent s idx) as [s1 idx1]. destruct P as [-> P]. destruct (length sidx <? m + 1); [|discriminate]. cbn [concat]. rewrite known_app, app_assoc.
    destruct (length (firstn m (idx ++ known index_of sent)) =? m) eqn:E.
    + injection H as <- <- <-. apply Nat.eqb_eq in E. rewrite (firstn_app m (idx ++ known index_of sent)). replace (m - length (idx ++ known index_of sent)) with 0 by (rewrite firstn_length in E; lia). cbn. rewrite app_nil_r. reflexivity.
    + apply Nat.eqb_neq in E. rewrite firstn_length in E. rewrite (firstn_all2 (idx ++ known index_of sent)) in H by lia. eapply IH; [|exact H]. lia.
Qed.
Theorem epoch_words : forall m index_of after file workers thread_id expected s recs total, 0 < m -> train_epoch m index_of None after file workers thread_id expected s = Some (recs, total) ->
  Forall (fun rec : batch_record => let '(sents, idx, sidx) := rec in idx = firstn m (known index_of (concat sents))) recs.
Proof.
  intros m index_of after file workers thread_id expected s recs total M H. unfold train_epoch in H. apply epoch_loop_ok in H. destruct H as (_ & _ & _ & P & _).
  eapply Forall_impl; [|exact P]. intros [[sents idx] sidx] (s1 & s2 & E). unfold prepare_batch in E. apply prep_known in E; [exact E | exact M].
Qed.
Print Assumptions epoch_words.
Theorem epoch_loses_words : forall m index_of after file workers thread_id expected s recs total l sents idx sidx k, 0 < m ->
  train_epoch m index_of None after file workers thread_id expected s = Some (recs, total) -> (forall w, index_of w <> None) ->
  recs = l ++ (sents, idx, sidx) :: k -> k <> [] -> length idx = m /\ m < word_count sents.
Proof.
  intros m index_of after file workers thread_id expected s recs total l sents idx sidx k M H K E N.
  pose proof (epoch_words _ _ _ _ _ _ _ _ _ _ M H) as W. rewrite Forall_forall in W. specialize (W (sents, idx, sidx) ltac:(rewrite E; apply in_or_app; right; left; reflexivity)). cbn beta iota in W.
  destruct (epoch_in_order m M index_of None after _ _ _ _ _ _ _ H) as (pss & left & _ & _ & C & _). destruct (C l _ k E) as [_ [X|[X _]]]; [|contradiction]. cbn [fst] in X. split; [|exact X].
  subst idx. rewrite firstn_length, known_all; [unfold word_count in X; lia|]. apply Forall_forall. intros w _. apply K.
Qed.
Print Assumptions epoch_loses_words.

(** ** A file that is one long line: at most [2 * m] words are looked at and at most [m] are trained on *)
Lemma slices_two : forall m (ws : list pystr), 0 < m -> m < length ws -> exists rest, slices (length ws) m ws = firstn m ws :: firstn m (skipn m ws) :: rest.
Proof.
  intros m ws M L. destruct ws as [|w ws]; [cbn in L; lia|]. cbn [length]. change (slices (S (length ws)) m (w :: ws)) with (firstn m (w :: ws) :: slices (length ws) m (skipn m (w :: ws))).
  destruct ws as [|w2 ws]; [cbn in L; lia|]. cbn [length] in *. remember (w :: w2 :: ws) as l eqn:El. assert (Ll : length l = S (S (length ws))) by (subst l; reflexivity). clear El.
  assert (Sk : length (skipn m l) > 0) by (rewrite skipn_length; lia). destruct (skipn m l) as [|x xs] eqn:E; [cbn in Sk; lia|]. cbn [slices]. eexists. reflexivity.
Qed.
Lemma getline_none : forall s, ~ In chr_nl s -> getline s = (s, None).
Proof.
  induction s as [|c s IH]; intros H; [reflexivity|]. cbn [getline]. replace (c =? chr_nl)%N with false by (symmetry; apply N.eqb_neq; intros X; apply H; left; exact X). rewrite IH by (intros X; apply H; right; exact X). reflexivity.
Qed.
Lemma firstn_two : forall m (ws : list pystr), firstn m ws ++ firstn m (skipn m ws) = firstn (2 * m) ws.
Proof.
  intros m ws. rewrite <- (firstn_skipn m (firstn (2 * m) ws)). rewrite firstn_firstn. replace (Nat.min m (2 * m)) with m by lia. f_equal.
  rewrite skipn_firstn_comm. replace (2 * m - m) with m by lia. reflexivity.
Qed.
Lemma long_line_batch : forall m file, 0 < m -> ~ In chr_nl file -> m < length (words is_bspace file) -> exists r',
  next_batch m (open_at file 0) = ([firstn m (words is_bspace file); firstn m (skipn m (words is_bspace file))], r') /\ rd_eof r' = true.
Proof.
  intros m file M NL L. set (ws := words is_bspace file) in *. destruct (slices_two m ws M L) as (rest & S2).
  assert (F : fill (S (length file)) m [] 0 (Reader file false []) = (slices (length ws) m ws, length ws, Reader [] true [])).
  { cbn [fill rd_eof negb andb Nat.leb]. unfold read_sentence. cbn [rd_eof rd_rest rd_buf]. rewrite getline_none by exact NL. fold ws. unfold chunk_sentence. replace (m <? length ws) with true by lia. cbn [app].
    destruct (slices_ok m (length ws) ws M (Nat.le_refl _)) as [C _]. rewrite C. destruct (length file); cbn [fill rd_eof negb andb]; reflexivity. }
  unfold next_batch, open_at. cbn [rd_rest rd_eof rd_buf skipn concat length]. rewrite F. replace (m <? length ws) with true by lia.
  destruct (slices_ok m (length ws) ws M (Nat.le_refl _)) as [C _]. pose proof (find_last_ok m (slices (length ws) m ws)) as K. unfold word_count at 1 2 in K. rewrite C in K. specialize (K L). cbn zeta in K.
  assert (E2 : find_last m (length ws) (length (slices (length ws) m ws)) (rev (slices (length ws) m ws)) = 2).
  { revert K. generalize (find_last m (length ws) (length (slices (length ws) m ws)) (rev (slices (length ws) m ws))). rewrite S2. intros k (K1 & K2 & K3).
    assert (L1 : word_count [firstn m ws] = m) by (unfold word_count; cbn; rewrite app_nil_r, firstn_length; lia).
    destruct k as [|[|[|k]]]; [lia | cbn [firstn] in K2; change (word_count [firstn m ws] > m) in K2; lia | reflexivity|]. exfalso. cbn [Nat.sub firstn] in K3.
    unfold word_count in K3. cbn [firstn concat] in K3. rewrite !app_length in K3. rewrite !firstn_length, skipn_length in K3. lia. }
  rewrite E2, S2. cbn [firstn skipn rd_rest rd_eof]. eexists. split; reflexivity.
Qed.
Theorem long_line_lost : forall m index_of after file expected s, 2 <= m -> ~ In chr_nl file -> m < length (words is_bspace file) -> (0 <= expected)%Z ->
  exists sents sidx total, train_epoch m index_of None after file 1 0 expected s = Some ([(sents, firstn m (known index_of (firstn (2 * m) (words is_bspace file))), sidx)], total) /\
    concat sents = firstn (2 * m) (words is_bspace file).
Proof.
  intros m index_of after file expected s M NL L E. destruct (long_line_batch m file ltac:(lia) NL L) as (r' & NB & Ee). set (ws := words is_bspace file) in *.
  unfold train_epoch. replace (length file * 0 / 1) with 0 by (rewrite Nat.mul_0_r; reflexivity). cbn [epoch_loop Nat.add]. cbn [rd_eof open_at orb]. rewrite Z.quot_1_r. replace (expected <? Z.of_nat 0)%Z with false by lia.
  change (Reader (skipn 0 file) false []) with (open_at file 0). rewrite NB. pose proof (prep_file_batch_ok m index_of None after [firstn m ws; firstn m (skipn m ws)] s [] [0] 0) as P.
  destruct (prep_batch_ok m ltac:(lia) index_of None [firstn m ws; firstn m (skipn m ws)] s [] [0] ltac:(cbn; lia)) as (s2 & E2).
  { cbn [length filter]. destruct (nonempty (firstn m ws)), (nonempty (firstn m (skipn m ws))); cbn [length]; lia. }
  destruct (prep_file_batch m index_of None [firstn m ws; firstn m (skipn m ws)] s [] [0] 0) as [[[[s' idx] sidx] tw]|]; [|congruence].
  destruct P as [P _]. apply prep_known in P; [|cbn; lia]. cbn [app concat] in P. rewrite app_nil_r, firstn_two in P. subst idx. destruct (length file); cbn [epoch_loop]; rewrite Ee; cbn [orb];
    (exists [firstn m ws; firstn m (skipn m ws)], sidx, tw; split; [reflexivity | cbn [concat]; rewrite app_nil_r; apply firstn_two]).
Qed.
Print Assumptions long_line_lost.

(** ** One word per line, not all known: [sentence_idx] is written past its end *)
Lemma prep_unknown : forall m x n s sidx t, 0 < m -> m + 1 < length sidx + n -> 0 < length sidx <= m + 1 -> prep_file_batch m (fun _ => None) None (repeat [x] n) s [] sidx t = None.
Proof.
  intros m x. induction n as [|n IH]; intros s sidx t M A B; [lia|]. cbn [repeat prep_file_batch prep_sentence]. destruct (length sidx <? m + 1) eqn:E; [|reflexivity].
  cbn [length]. replace (0 =? m) with false by lia. apply IH; [exact M | rewrite app_length; cbn; lia | rewrite app_length; cbn; lia].
Qed.
Definition column (n : nat) : list N := concat (repeat [120; 10]%N n).
Lemma column_words : forall n, line_words (column n) = repeat [[120%N]] n ++ [[]].
Proof.
  induction n as [|n IH]; [reflexivity|]. unfold column. cbn [repeat concat]. unfold line_words. change ([120; 10]%N ++ concat (repeat [120; 10]%N n)) with ([120%N] ++ chr_nl :: column n).
  rewrite split_on_app by (intros [X|[]]; discriminate). cbn [map repeat app]. f_equal. exact IH.
Qed.
Lemma word_count_repeat : forall (x : pystr) n, word_count (repeat [x] n) = n.
Proof. intros x n. unfold word_count. induction n as [|n IH]; [reflexivity|]. cbn [repeat concat app length]. rewrite IH. reflexivity. Qed.
Theorem sentence_idx_overflow_refuted : forall m after expected s, 0 < m -> (0 <= expected)%Z ->
  exists file, length file = 2 * (m + 1) /\ train_epoch m (fun _ => None) None after file 1 0 expected s = None /\
    exists b r', next_batch m (open_at file 0) = (b, r') /\ prep_file_batch m (fun _ => None) None b s [] [0] 0 = None.
Proof.
  intros m after expected s M E. exists (column (m + 1)). split.
  { unfold column. generalize (m + 1). intros n. induction n as [|n IH]; [reflexivity|]. cbn [repeat concat]. rewrite app_length, IH. cbn [length]. lia. }
  assert (X : exists b r', next_batch m (open_at (column (m + 1)) 0) = (b, r') /\ prep_file_batch m (fun _ => None) None b s [] [0] 0 = None).
  { pose proof (next_batch_short m (open_at (column (m + 1)) 0) eq_refl) as NS. pose proof (next_batch_ok m (open_at (column (m + 1)) 0)) as NO. change (lines_ahead (open_at (column (m + 1)) 0)) with (line_words (column (m + 1))) in NS. rewrite column_words in NS.
    specialize (NS ltac:(apply Forall_app; split; [apply Forall_forall; intros l Hl; apply repeat_spec in Hl; subst l; cbn; lia | constructor; [cbn; lia | constructor]])).
    destruct (next_batch m (open_at (column (m + 1)) 0)) as [b r']. destruct NS as (A & B & C). exists b, r'. split; [reflexivity|].
    assert (Eb : b = repeat [[120%N]] (m + 1)); [|subst b; apply prep_unknown; [exact M | cbn; lia | cbn; lia]].
    assert (W : word_count (repeat [[120%N]] (m + 1) ++ [[]]) = m + 1). { unfold word_count. rewrite concat_app, app_length. change (word_count (repeat [[120%N]] (m + 1)) + 0 = m + 1). rewrite word_count_repeat. lia. }
    destruct NO as (_ & [(N1 & N2 & N3)|(N1 & N2 & N3)] & _).
    - assert (Lb : length b = m + 1).
      { assert (Hb : b = firstn (length b) (repeat [[120%N]] (m + 1) ++ [[]])) by (rewrite C, firstn_app, firstn_all, Nat.sub_diag; cbn; rewrite app_nil_r; reflexivity).
        assert (Lm : length b <= m + 2). { apply (f_equal (@length _)) in C. rewrite !app_length, repeat_length in C. cbn in C. lia. }
        destruct (Nat.eq_dec (length b) (m + 2)) as [D|D].
        - exfalso. rewrite Hb, D in N3. rewrite firstn_all2 in N3 by (rewrite app_length, repeat_length; cbn; lia). rewrite removelast_last, word_count_repeat in N3. lia.
        - destruct (le_lt_dec (m + 1) (length b)) as [G|G]; [lia|]. exfalso. rewrite Hb in N1. rewrite firstn_app in N1. replace (length b - length (repeat [[120%N]] (m + 1))) with 0 in N1 by (rewrite repeat_length; lia). cbn [firstn] in N1. rewrite app_nil_r in N1.
          assert (Rm : forall x : list pystr, firstn m (repeat x (m + 1)) = repeat x m). { intros x. rewrite repeat_app. rewrite firstn_app. rewrite repeat_length, Nat.sub_diag. cbn. rewrite app_nil_r. apply firstn_all2. rewrite repeat_length. lia. }
          assert (Q : forall l, word_count (firstn (length b) l) <= word_count (firstn m l)) by (intros l; apply word_count_firstn; lia). eapply Nat.lt_nge; [exact N1|]. eapply Nat.le_trans; [apply Q|]. rewrite Rm, word_count_repeat. apply Nat.le_refl. }
      assert (Hb : b = firstn (m + 1) (repeat [[120%N]] (m + 1) ++ [[]])) by (rewrite C, <- Lb, firstn_app, firstn_all, Nat.sub_diag; cbn; rewrite app_nil_r; reflexivity).
      rewrite Hb, firstn_app, repeat_length, Nat.sub_diag. cbn [firstn]. rewrite app_nil_r. apply firstn_all2. rewrite repeat_length. lia.
    - exfalso. assert (Z0 : lines_ahead r' = []) by (unfold lines_ahead; rewrite N2; reflexivity). rewrite Z0, app_nil_r in C. rewrite <- C, W in N1. lia. }
  split; [|exact X]. destruct X as (b & r' & NB & PB). unfold train_epoch. replace (length (column (m + 1)) * 0 / 1) with 0 by (rewrite Nat.mul_0_r; reflexivity). cbn [epoch_loop Nat.add]. cbn [rd_eof open_at orb]. rewrite Z.quot_1_r. replace (expected <? Z.of_nat 0)%Z with false by lia.
  change (Reader (skipn 0 (column (m + 1))) false []) with (open_at (column (m + 1)) 0). rewrite NB, PB. reflexivity.
Qed.
Print Assumptions sentence_idx_overflow_refuted.

(** ** Several workers *)
Definition ex_index (w : pystr) : option nat := match w with [c] => Some (N.to_nat c) | _ => None end.
Definition ex_after (s : Z) (_ : list nat) : Z := s.
(** Words are trained on twice: the second worker starts in the middle of the line that the first one reads to its end. *)
Theorem workers_overlap_refuted : exists file r0 r1, word_count (line_words file) = 4 /\
  train_epoch 10 ex_index None ex_after file 2 0 4 0 = Some ([r0], 4) /\ train_epoch 10 ex_index None ex_after file 2 1 4 0 = Some ([r1], 2) /\
  snd (fst r0) = [97; 98; 99; 100] /\ snd (fst r1) = [99; 100].
Proof. exists (str "a b c d"), ([[str "a"; str "b"; str "c"; str "d"]], [97; 98; 99; 100], [0; 4]), ([[str "c"; str "d"]], [99; 100], [0; 2]). vm_compute. repeat split; reflexivity. Qed.
(** The second worker trains on a word that is not in the file. *)
Theorem workers_cut_word_refuted : exists file r1, line_words file = [[str "abc"; str "xz"]] /\
  train_epoch 10 ex_index None ex_after file 6 5 2 0 = Some ([r1], 1) /\ fst (fst r1) = [[str "z"]] /\ snd (fst r1) = [122].
Proof. exists (str "abc xz"), ([[str "z"]], [122], [0; 1]). vm_compute. repeat split; reflexivity. Qed.
Print Assumptions workers_overlap_refuted. Print Assumptions workers_cut_word_refuted.
Example epoch_ex : train_epoch 4 ex_index None ex_after (str "a b c" ++ [10] ++ str "d zz e" ++ [10; 10] ++ str "f" ++ [10])%N 1 0 7 0 =
  Some ([([[str "a"; str "b"; str "c"]; [str "d"; str "zz"; str "e"]], [97; 98; 99; 100], [0; 3; 4]); ([[]; [str "f"]; []], [102], [0; 1])], 7).
Proof. vm_compute. reflexivity. Qed.
Example next_batch_ex : next_batch 2 (Reader (str "d e f") false [[str "a"; str "b"]; [str "c"]]) = ([[str "a"; str "b"]; [str "c"]], Reader (str "d e f") false []).
Proof. vm_compute. reflexivity. Qed.
