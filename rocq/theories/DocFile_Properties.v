(** Training document vectors from a file: which line is trained with which tag. *)
From Verif Require Import Base Str Formats_Base W2vFormat_Model W2vFormat_Proofs Sentences_Model Sentences_Spec Sentences_Properties NegSampling_Model TrainJobs_Model CorpusFile_Model CorpusFile_Spec CorpusFile_Proofs CorpusFile_Properties DocFile_Model.
Local Open Scope nat_scope.
From Coq Require Import ZifyBool ZifyNat ZifyN.

(** ** Where the workers start *)
Definition line_start (file : list N) (k : nat) : nat := length (concat (firstn k (file_lines file))).
(** [off] is where line [tag] starts, and [a] lies in that line. *)
Definition start_of_line_with (file : list N) (a : nat) (start : nat * nat) : Prop :=
  let (off, tag) := start in off = line_start file tag /\ off <= a < line_start file (S tag).

Lemma take_below_ok : forall curr prev no approx, let (o, rest) := take_below curr prev no approx in
  exists low, approx = low ++ rest /\ o = map (fun _ => (prev, no)) low /\ Forall (fun a => a < curr) low /\ match rest with [] => True | a :: _ => curr <= a end.
Proof.
  intros curr prev no approx. induction approx as [|a approx IH]; cbn [take_below]; [exists []; repeat split; constructor|]. destruct (a <? curr) eqn:E.
  - destruct (take_below curr prev no approx) as [o rest]. destruct IH as (low & -> & -> & F & R). exists (a :: low). repeat split; [constructor; [lia | exact F] | exact R].
  - exists []. repeat split; [constructor | lia].
Qed.
Lemma offsets_loop_ok : forall (P : nat -> nat * nat -> Prop) lines approx line_no prev,
  Sorted.StronglySorted le approx -> Forall (fun a => prev <= a < prev + length (concat lines)) approx ->
  (forall k a, k < length lines -> prev + length (concat (firstn k lines)) <= a < prev + length (concat (firstn (S k) lines)) -> P a (prev + length (concat (firstn k lines)), line_no + k)) ->
  Forall2 P approx (offsets_loop approx lines line_no prev).
Proof.
  intros P lines. induction lines as [|l lines IH]; intros approx line_no prev S F HP.
  - destruct approx as [|a approx]; [constructor|]. inversion F; subst. cbn in *. lia.
  - cbn [offsets_loop]. destruct approx as [|a0 approx0]; [constructor|]. remember (a0 :: approx0) as approx eqn:Ea. clear Ea a0 approx0.
    pose proof (take_below_ok (prev + length l) prev line_no approx) as T. destruct (take_below (prev + length l) prev line_no approx) as [o rest]. destruct T as (low & -> & -> & Fl & R).
    apply Forall_app in F. destruct F as [F1 F2]. apply Forall2_app.
    + assert (H : forall a, In a low -> P a (prev, line_no)). { intros a Ha. rewrite Forall_forall in F1, Fl. specialize (F1 a Ha). specialize (Fl a Ha). specialize (HP 0 a). cbn [firstn concat length] in HP. rewrite app_nil_r in HP. rewrite !Nat.add_0_r in HP. apply HP; cbn [length]; lia. }
      clear - H. induction low as [|a low IH]; cbn [map]; constructor; [apply H; left; reflexivity | apply IH; intros b Hb; apply H; right; exact Hb].
    + assert (Sr : Sorted.StronglySorted le rest). { clear - S. induction low as [|a low IH]; [exact S|]. apply IH. cbn in S. inversion S; assumption. }
      apply IH; [exact Sr| |].
      * apply Forall_forall. intros a Ha. rewrite Forall_forall in F2. specialize (F2 a Ha). cbn [concat] in F2. rewrite app_length in F2. assert (prev + length l <= a); [|lia].
        destruct rest as [|b rest]; [destruct Ha|]. inversion Sr as [|? ? _ Sb]; subst. destruct Ha as [->|Ha]; [exact R|]. rewrite Forall_forall in Sb. specialize (Sb a Ha). lia.
      * intros k a Hk Hr. specialize (HP (Datatypes.S k) a). cbn [firstn concat length] in HP. rewrite !app_length in HP. replace (Datatypes.S line_no + k) with (line_no + Datatypes.S k) by lia.
        replace (prev + length l + length (concat (firstn k lines))) with (prev + (length l + length (concat (firstn k lines)))) by lia. apply HP; [lia|]. cbn [firstn concat] in *. rewrite app_length in *. lia.
Qed.
(** For a file with at least as many bytes as workers (any non-empty file will do): one start for each worker, the beginning of
    the line in which the worker's share of the bytes begins, with the number of that line as tag. *)
Theorem offsets_ok : forall file workers, file <> [] -> 0 < workers ->
  Forall2 (start_of_line_with file) (map (fun i => length file / workers * i) (seq 0 workers)) (offsets_and_doctags file workers).
Proof.
  intros file workers NE Wk. unfold offsets_and_doctags. assert (L : 0 < length file) by (destruct file; [congruence | cbn; lia]). apply offsets_loop_ok.
  - generalize (length file / workers). intros q. generalize 0 at 1. induction workers as [|w IH]; [lia|]. clear Wk. intros b. destruct w as [|w].
    + cbn. repeat constructor.
    + cbn [seq map]. constructor; [apply (IH ltac:(lia) (S b))|]. apply Forall_forall. intros x Hx. change (In x (map (fun i => q * i) (seq (S b) (S w)))) in Hx. apply in_map_iff in Hx. destruct Hx as (i & <- & Hi). apply in_seq in Hi. apply Nat.mul_le_mono_l. lia.
  - rewrite file_lines_all. apply Forall_forall. intros a Ha. apply in_map_iff in Ha. destruct Ha as (i & <- & Hi). apply in_seq in Hi. split; [apply Nat.le_0_l|]. cbn [Nat.add].
    pose proof (Nat.mul_div_le (length file) workers ltac:(lia)) as H. destruct (Nat.eq_dec (length file / workers) 0) as [Z0|Z0]; [rewrite Z0; cbn; lia|].
    apply Nat.lt_le_trans with (length file / workers * workers); [apply Nat.mul_lt_mono_pos_l; [apply Nat.neq_0_lt_0; exact Z0 | apply Hi] | rewrite Nat.mul_comm; exact H].
  - intros k a _ H. cbn [Nat.add] in *. split; [reflexivity | exact H].
Qed.
Print Assumptions offsets_ok.
(** An empty file has no offsets, although there are workers. *)
Theorem offsets_empty_refuted : exists file workers, 0 < workers /\ file = [] /\ offsets_and_doctags file workers = [].
Proof. exists [], 3. split; [lia|]. split; reflexivity. Qed.
Print Assumptions offsets_empty_refuted.

(** ** Documents and tags *)
Definition has_words (l : list pystr) : bool := match l with [] => false | _ => true end.
Section Docs.
Variable max_len : nat.
Variable index_of : pystr -> option nat.
Variable sample : option (nat -> Z).
Variable after : Z -> nat -> list nat -> Z.
Notation doc_of := (fun rec : doc_record => fst rec).

Lemma doc_loop_ok : forall fuel limit r s tag tw recs total, doc_loop max_len index_of sample after fuel limit r s tag tw = Some (recs, total) ->
  exists ls r', lines_ahead r = ls ++ lines_ahead r' /\ (rd_eof r' = true \/ (limit < Z.of_nat total)%Z) /\
    map doc_of recs = combine (seq tag (length (filter has_words ls))) (filter has_words ls) /\ total = tw + word_count ls.
Proof.
  induction fuel as [|fuel IH]; intros limit r s tag tw recs total H; cbn [doc_loop] in H; (destruct (rd_eof r || (limit <? Z.of_nat tw)%Z) eqn:E;
    [injection H as <- <-; exists [], r; repeat split; [apply orb_true_iff in E; destruct E; [left; assumption | right; lia] | cbn; lia]|]); [discriminate|].
  apply orb_false_iff in E. destruct E as [Ee El]. pose proof (read_sentence_ok r Ee) as R. destruct (read_sentence r) as [dw r1]. destruct R as (A & _ & _).
  destruct dw as [|w dw0] eqn:Ed.
  - destruct (IH _ _ _ _ _ _ _ H) as (ls & r' & I1 & I2 & I3 & I4). exists ([] :: ls), r'. rewrite A, I1. repeat split; assumption.
  - rewrite <- Ed in *. destruct (prep_sentence max_len index_of sample dw s []) as [s1 idx]. destruct (doc_loop max_len index_of sample after fuel limit r1 (after s1 tag idx) (S tag) (tw + length dw)) as [[recs1 total1]|] eqn:E1; [|discriminate].
    injection H as <- <-. destruct (IH _ _ _ _ _ _ _ E1) as (ls & r' & I1 & I2 & I3 & I4). exists (dw :: ls), r'. rewrite A, I1. repeat split; [exact I2| |].
    + cbn [map fst filter]. replace (has_words dw) with true by (rewrite Ed; reflexivity). cbn [length seq combine]. rewrite I3. reflexivity.
    + rewrite I4. unfold word_count. cbn [concat]. rewrite app_length. lia.
Qed.
(** Lack of fuel does not happen. *)
Lemma doc_loop_some : forall fuel limit r s tag tw, length (lines_ahead r) < fuel -> doc_loop max_len index_of sample after fuel limit r s tag tw <> None.
Proof.
  induction fuel as [|fuel IH]; intros limit r s tag tw L; [lia|]. cbn [doc_loop]. destruct (rd_eof r || (limit <? Z.of_nat tw)%Z) eqn:E; [discriminate|]. apply orb_false_iff in E. destruct E as [Ee El].
  pose proof (read_sentence_ok r Ee) as R. destruct (read_sentence r) as [dw r1]. destruct R as (A & _ & _). rewrite A in L. cbn [length] in L. destruct dw as [|w dw0] eqn:Ed; [apply IH; lia|]. rewrite <- Ed.
  destruct (prep_sentence max_len index_of sample dw s []) as [s1 idx]. specialize (IH limit r1 (after s1 tag idx) (S tag) (tw + length dw) ltac:(lia)).
  destruct (doc_loop max_len index_of sample after fuel limit r1 (after s1 tag idx) (S tag) (tw + length dw)) as [[recs total]|]; [discriminate | congruence].
Qed.
Theorem docs_some : forall file workers expected start s, train_epoch_docs max_len index_of sample after file workers expected start s <> None.
Proof.
  intros file workers expected [off tag] s. unfold train_epoch_docs. apply doc_loop_some. unfold lines_ahead, line_words, open_at. cbn [fst rd_eof rd_rest]. rewrite map_length.
  assert (H : length (split_on chr_nl (skipn off file)) <= S (length (skipn off file))).
  { rewrite <- split_total. generalize (split_on chr_nl (skipn off file)). intros ls. unfold list_sum. induction ls as [|l ls IH]; [cbn; lia|]. cbn [map fold_right length]. lia. }
  rewrite skipn_length in H. lia.
Qed.

(** The documents trained on are the lines with words, from the offset on, in order; their tags count up from the start tag. *)
Theorem docs_in_order : forall file workers expected off tag s recs total, train_epoch_docs max_len index_of sample after file workers expected (off, tag) s = Some (recs, total) ->
  exists k, let docs := filter has_words (firstn k (line_words (skipn off file))) in
    map doc_of recs = combine (seq tag (length docs)) docs /\ total = word_count docs /\
    (k < length (line_words (skipn off file)) -> (Z.quot expected (Z.of_nat workers) < Z.of_nat total)%Z).
Proof.
  intros file workers expected off tag s recs total H. unfold train_epoch_docs in H. cbn [fst snd] in H. apply doc_loop_ok in H. destruct H as (ls & r' & A & B & C & D).
  change (lines_ahead (open_at file off)) with (line_words (skipn off file)) in A. exists (length ls). cbn zeta. rewrite A. rewrite firstn_app, firstn_all, Nat.sub_diag. cbn [firstn]. rewrite app_nil_r.
  split; [exact C|]. split.
  - rewrite D. unfold word_count. cbn [Nat.add]. f_equal. clear. induction ls as [|l ls IH]; [reflexivity|]. cbn [concat filter]. rewrite IH. destruct l; reflexivity.
  - intros L. destruct B as [B|B]; [|exact B]. exfalso. unfold lines_ahead in L. rewrite B, app_nil_r in L. lia.
Qed.

End Docs.
Print Assumptions docs_some. Print Assumptions docs_in_order.

(** The lines from the start of a line on. *)
Lemma file_lines_skip : forall k file, k < length (file_lines file) -> line_words (skipn (line_start file k) file) = skipn k (line_words file).
Proof.
  induction k as [|k IH]; intros file L; [reflexivity|]. destruct (nl_split file) as [H|(w & f' & E & H)].
  - destruct file as [|c file]; [cbn in L; lia|]. rewrite file_lines_last in L by (try discriminate; exact H). cbn [length] in L. lia.
  - subst file. unfold line_start in *. rewrite file_lines_cons in * by exact H. cbn [firstn concat length] in *. rewrite app_length, skipn_app. rewrite skipn_all2 by (rewrite app_length; cbn; lia). cbn [app].
    rewrite app_length. cbn [length]. replace (length w + 1 + length (concat (firstn k (file_lines f'))) - length w) with (S (length (concat (firstn k (file_lines f'))))) by lia. cbn [skipn].
    rewrite IH by lia. unfold line_words. rewrite split_on_app by exact H. reflexivity.
Qed.
Lemma start_line : forall file a off tag, start_of_line_with file a (off, tag) -> tag < length (file_lines file) /\ off = line_start file tag.
Proof.
  intros file a off tag (A & B). split; [|exact A]. destruct (le_lt_dec (length (file_lines file)) tag) as [G|G]; [|exact G]. exfalso. unfold line_start in *. rewrite !firstn_all2 in * by lia. lia.
Qed.
Lemma Forall2_nth : forall {A B} (P : A -> B -> Prop) l l' i b, Forall2 P l l' -> nth_error l' i = Some b -> exists a, nth_error l i = Some a /\ P a b.
Proof. intros A B P l l' i b F. revert i. induction F as [|x y l l' H F IH]; intros [|i] E; cbn in *; try discriminate; [injection E as <-; eauto | apply IH; exact E]. Qed.
Lemma combine_seq_nth : forall {A} (l : list A) b i p, nth_error (combine (seq b (length l)) l) i = Some p -> fst p = b + i /\ nth_error l i = Some (snd p).
Proof.
  intros A l. induction l as [|x l IH]; intros b [|i] p H; cbn in H; try discriminate.
  - injection H as <-. cbn. split; [lia | reflexivity].
  - destruct (IH _ _ _ H) as [X Y]. split; [lia | exact Y].
Qed.
Lemma filter_all : forall {A} (f : A -> bool) l, Forall (fun x => f x = true) l -> filter f l = l.
Proof. intros A f l F. induction F as [|x l H F IH]; [reflexivity|]. cbn. rewrite H, IH. reflexivity. Qed.
Lemma filter_prefix : forall (f : list pystr -> bool) lines last k, Forall (fun x => f x = true) lines -> filter f (firstn k (lines ++ [last])) = firstn (length (filter f (firstn k (lines ++ [last])))) (lines ++ [last]).
Proof.
  intros f lines last. induction lines as [|x lines IH]; intros k F.
  - destruct k as [|k]; [reflexivity|]. cbn [app firstn]. rewrite firstn_nil. cbn [filter]. destruct (f last); reflexivity.
  - destruct k as [|k]; [reflexivity|]. inversion F as [|? ? Fx Fl]; subst. cbn [app firstn filter]. rewrite Fx. cbn [length firstn]. f_equal. apply IH. exact Fl.
Qed.
(** If no line is blank (but for the end of the file), every worker trains every document with its own line number. *)
Theorem docs_own_tags : forall max_len index_of sample after file workers expected i start s recs total lines last,
  line_words file = lines ++ [last] -> Forall (fun l => l <> []) lines -> file <> [] -> 0 < workers ->
  nth_error (offsets_and_doctags file workers) i = Some start ->
  train_epoch_docs max_len index_of sample after file workers expected start s = Some (recs, total) ->
  Forall (fun rec : doc_record => nth_error (line_words file) (fst (fst rec)) = Some (snd (fst rec))) recs.
Proof.
  intros max_len index_of sample after file workers expected i [off tag] s recs total lines last EL F NE Wk Hn H.
  destruct (Forall2_nth _ _ _ _ _ (offsets_ok file workers NE Wk) Hn) as (a & _ & Ha). destruct (start_line _ _ _ _ Ha) as [Ht ->].
  destruct (docs_in_order max_len index_of sample after _ _ _ _ _ _ _ _ H) as (k & C & _). rewrite (file_lines_skip tag file Ht) in C. set (docs := filter has_words (firstn k (skipn tag (line_words file)))) in *.
  assert (Hlen : tag <= length lines).
  { assert (X : length (file_lines file) <= length (line_words file)); [|rewrite EL, app_length in X; cbn in X; lia].
    unfold line_words. rewrite map_length. clear. assert (G : forall n s, length s <= n -> length (file_lines s) <= length (split_on chr_nl s)).
    { induction n as [|n IH]; intros s L; [destruct s; [cbn; lia | cbn in L; lia]|]. destruct (nl_split s) as [H|(w & f' & E & H)].
      - destruct s as [|c s]; [cbn; lia|]. rewrite file_lines_last by (try discriminate; exact H). rewrite split_on_word by exact H. cbn. lia.
      - subst s. rewrite file_lines_cons, split_on_app by exact H. cbn [length]. rewrite app_length in L. cbn in L. specialize (IH f' ltac:(lia)). lia. }
    apply (G (length file)). lia. }
  assert (Sk : skipn tag (line_words file) = skipn tag lines ++ [last]). { rewrite EL, skipn_app. replace (tag - length lines) with 0 by lia. reflexivity. }
  assert (Dp : docs = firstn (length docs) (skipn tag (line_words file))).
  { unfold docs. rewrite Sk. apply filter_prefix. apply Forall_forall. intros x Hx. assert (Hx' : In x lines) by (rewrite <- (firstn_skipn tag lines); apply in_or_app; right; exact Hx).
    rewrite Forall_forall in F. specialize (F x Hx'). destruct x; [congruence | reflexivity]. }
  apply Forall_forall. intros rec Hr. apply in_map with (f := fun rec : doc_record => fst rec) in Hr. rewrite C in Hr. apply In_nth_error in Hr. destruct Hr as (j & Hj).
  apply combine_seq_nth in Hj. destruct Hj as [J1 J2]. rewrite J1. rewrite Dp in J2. rewrite <- J2. symmetry.
  assert (Lj : j < length docs). { apply nth_error_Some. rewrite Dp, J2. discriminate. }
  rewrite <- (firstn_skipn tag (line_words file)) at 2. rewrite nth_error_app2; rewrite firstn_length, EL, app_length, Nat.min_l by (cbn; lia); [|lia]. rewrite <- EL. replace (tag + j - tag) with j by lia.
  rewrite <- (firstn_skipn (length docs) (skipn tag (line_words file))) at 2. rewrite nth_error_app1; [reflexivity|]. rewrite <- Dp. exact Lj.
Qed.
Print Assumptions docs_own_tags.
(** One worker, no blank lines, [expected] not below the number of words: all lines, each with its number. *)
Theorem docs_one_worker : forall max_len index_of sample after file expected s recs total,
  train_epoch_docs max_len index_of sample after file 1 expected (0, 0) s = Some (recs, total) -> (Z.of_nat (word_count (line_words file)) <= expected)%Z ->
  let docs := filter has_words (line_words file) in map fst recs = combine (seq 0 (length docs)) docs.
Proof.
  intros max_len index_of sample after file expected s recs total H E. cbn zeta. destruct (docs_in_order max_len index_of sample after _ _ _ _ _ _ _ _ H) as (k & C & T & L). cbn [skipn] in *. rewrite Z.quot_1_r in L.
  destruct (le_lt_dec (length (line_words file)) k) as [G|G]; [rewrite firstn_all2 in C by exact G; exact C|]. exfalso. specialize (L G).
  assert (X : word_count (filter has_words (firstn k (line_words file))) <= word_count (line_words file)); [|lia].
  rewrite <- (firstn_skipn k (line_words file)) at 2. unfold word_count. rewrite concat_app, app_length. generalize (firstn k (line_words file)). intros ls.
  assert (Y : length (concat (filter has_words ls)) <= length (concat ls)); [|lia]. clear. induction ls as [|l ls IH]; [cbn; lia|]. cbn [filter concat]. rewrite app_length. destruct l; cbn [has_words]; [lia|]. cbn [concat]. rewrite app_length. lia.
Qed.
Print Assumptions docs_one_worker.

Definition ex_after2 (s : Z) (_ : nat) (_ : list nat) : Z := s.
(** After a blank line the tags are those of other lines: [TaggedLineDocument] and the vocabulary scan count blank lines. *)
Theorem blank_line_refuted : exists file recs, train_epoch_docs 10 ex_index None ex_after2 file 1 2 (0, 0) 0 = Some (recs, 2) /\
  map fst recs = [(0, [str "a"]); (1, [str "b"])] /\ tagged_line_documents file = Some [([str "a"], 0); ([], 1); ([str "b"], 2)].
Proof. exists (str "a" ++ [10; 10] ++ str "b" ++ [10])%N, [(0, [str "a"], [97]); (1, [str "b"], [98])]. vm_compute. repeat split; reflexivity. Qed.
Print Assumptions blank_line_refuted.
(** Several workers: one line is trained on by no worker. *)
Theorem workers_gap_refuted : exists file, word_count (line_words file) = 5 /\ offsets_and_doctags file 2 = [(0, 0); (8, 4)] /\
  map (rmap (option_map (fun x => map (fun rec => fst (fst rec)) (fst x)))) (all_docs 10 ex_index None ex_after2 file 2 5 (fun _ => 0%Z)) = [Ok (Some [0; 1; 2]); Ok (Some [4])].
Proof. exists (str "a" ++ [10] ++ str "b" ++ [10] ++ str "c" ++ [10] ++ str "d" ++ [10] ++ str "eeeeeeeeee" ++ [10])%N. vm_compute. repeat split; reflexivity. Qed.
(** ... or one line by several. *)
Theorem workers_twice_refuted : exists file, word_count (line_words file) = 3 /\
  map (rmap (option_map (fun x => map (fun rec => fst (fst rec)) (fst x)))) (all_docs 10 ex_index None ex_after2 file 2 3 (fun _ => 0%Z)) = [Ok (Some [0; 1]); Ok (Some [1; 2])].
Proof. exists (str "a" ++ [10] ++ str "b" ++ [10] ++ str "c" ++ [10])%N. vm_compute. repeat split; reflexivity. Qed.
(** On an empty file every worker fails. *)
Theorem empty_file_refuted : exists witness, witness = ex_after2 /\ (all_docs 10 ex_index None witness [] 2 3 (fun _ => 0%Z) = [Err IndexError; Err IndexError]).
Proof. exists ex_after2. split; [reflexivity|]. reflexivity. Qed.
Print Assumptions workers_gap_refuted. Print Assumptions workers_twice_refuted. Print Assumptions empty_file_refuted.
Example offsets_ex : offsets_and_doctags (str "ab" ++ [10] ++ str "cdefgh ijk" ++ [10] ++ str "l")%N 4 = [(0, 0); (3, 1); (3, 1); (3, 1)] /\
  offsets_and_doctags (str "ab" ++ [10] ++ str "cd" ++ [10; 10] ++ str "ef" ++ [10])%N 3 = [(0, 0); (3, 1); (6, 2)].
Proof. vm_compute. split; reflexivity. Qed.
Example docs_ex : train_epoch_docs 10 ex_index None ex_after2 (str "ab" ++ [10] ++ str "c d" ++ [10] ++ str "e" ++ [10])%N 2 10 (3, 1) 0 =
  Some ([(1, [str "c"; str "d"], [99; 100]); (2, [str "e"], [101])], 3).
Proof. vm_compute. reflexivity. Qed.

(** ** Concatenation mode: every worker counts its tags from zero *)
Theorem dmc_tags : forall max_len index_of sample after count file workers expected start s recs total,
  train_epoch_dmc max_len index_of sample after count file workers expected start s = Some (recs, total) -> map (fun rec : doc_record => fst (fst rec)) recs = seq 0 (length recs).
Proof.
  intros max_len index_of sample after count file workers expected start s recs total.
  assert (G : forall fuel td s recs total limit r tw, dmc_loop max_len index_of sample after count fuel limit r s td tw = Some (recs, total) -> map (fun rec : doc_record => fst (fst rec)) recs = seq td (length recs)); [|apply G].
  clear. induction fuel as [|fuel IH]; intros td s recs total limit r tw H; cbn [dmc_loop] in H; (destruct (rd_eof r || (limit <? Z.of_nat tw)%Z); [injection H as <- <-; reflexivity|]); [discriminate|].
  destruct (read_sentence r) as [dw r1]. destruct (match dw with [] => true | _ => false end || negb (td <? count)); [exact (IH _ _ _ _ _ _ _ H)|].
  destruct (prep_sentence max_len index_of sample dw s []) as [s1 idx]. destruct (dmc_loop max_len index_of sample after count fuel limit r1 (after s1 td idx) (S td) (tw + length dw)) as [[recs1 total1]|] eqn:E; [|discriminate].
  injection H as <- <-. cbn [map fst length seq]. f_equal. exact (IH _ _ _ _ _ _ _ E).
Qed.
Print Assumptions dmc_tags.
(** So the second worker trains the first documents' vectors on other documents. *)
Theorem dmc_wrong_tag_refuted : exists file recs, offsets_and_doctags file 2 = [(0, 0); (4, 1)] /\ line_words file = [[str "a"; str "b"]; [str "c"; str "d"]; []] /\
  train_epoch_dmc 10 ex_index None ex_after2 2 file 2 4 (4, 1) 0 = Some (recs, 2) /\ map fst recs = [(0, [str "c"; str "d"])].
Proof. exists (str "a b" ++ [10] ++ str "c d" ++ [10])%N, [(0, [str "c"; str "d"], [99; 100])]. vm_compute. repeat split; reflexivity. Qed.
Print Assumptions dmc_wrong_tag_refuted.
(** And the error applied to the document vector is that of a context word (the one before the last, if the window is 1 the first). *)
Theorem dmc_update_refuted : forall window (work : list nat), 0 < window -> length work = 1 + 2 * window -> NoDup work ->
  exists e, fst (dmc_updates window work) = Some e /\ Some e <> nth_error work 0 /\ In (Some e) (snd (dmc_updates window work)).
Proof.
  intros window work Hw L N. unfold dmc_updates. cbn [fst snd]. destruct (nth_error work (2 * window - 1)) as [e|] eqn:E; [|apply nth_error_None in E; lia].
  exists e. split; [reflexivity|]. split.
  - intros X. rewrite <- E in X. apply (proj1 (NoDup_nth_error work) N) in X; lia.
  - apply in_map_iff. exists (2 * window - 2). split; [rewrite <- E; f_equal; lia | apply in_seq; lia].
Qed.
Print Assumptions dmc_update_refuted.
