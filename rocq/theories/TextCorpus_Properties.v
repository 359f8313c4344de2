(** Theorems about the corpora of plain texts (property C97). *)
From Coq Require Import ZifyBool ZifyNat ZifyN Factorial.
From Verif Require Import Base Str W2vFormat_Model W2vFormat_Proofs LineCorpora_Proofs Porter_Model Text_Model Dictionary_Model Dictionary_Spec Dictionary_Proofs Dictionary_Proofs2 TextCorpus_Model TextCorpus_Spec TextCorpus_Proofs.
Local Open Scope nat_scope.

(** ** Samples *)
(** Exactly [n] documents, from the first [len], each at most once, in their order. *)
Theorem sample_exact : forall {D O} (get : D -> O) draw n len docs, (0 <= n <= len)%Z -> (len <= Z.of_nat (length docs))%Z -> legal len draw ->
  exists mask, length mask = Z.to_nat len /\ marked mask = Z.to_nat n /\ sample_texts get draw n len docs = (map get (pick mask docs), None).
Proof.
  intros D O get draw n len docs N L G. unfold sample_texts. replace (n <=? len)%Z with true by lia. replace (0 <=? n)%Z with true by lia. cbn [negb].
  destruct (loop_mask get draw len docs 0 n ltac:(lia)) as (mask & LM & E). pose proof (loop_left get draw len docs 0 n G ltac:(lia) ltac:(lia)) as Z0. rewrite E in *. cbn [fst snd] in *.
  exists mask. split; [lia|]. split; [lia|]. rewrite Z0. reflexivity.
Qed.
(** Every choice of [n] of the [L] documents comes from the same number of the L! possible sequences of draws: n! (L - n)!. *)
Theorem sample_uniform : forall L n mask, length mask = L -> marked mask = n ->
  length (filter (fun ds => eqb (fst (sample_texts (fun x => x) (fun i => Z.of_nat (nth i ds 0)) (Z.of_nat n) (Z.of_nat L) (seq 0 L))) (pick mask (seq 0 L))) (all_draws L)) = fact n * fact (L - n).
Proof.
  intros L n mask LM M. subst L. rewrite <- hits_exact by exact M. unfold hits. f_equal. apply filter_ext_in. intros ds H. apply all_draws_spec in H. destruct H as [Ld H].
  assert (LE : n <= length mask) by (subst n; unfold marked; clear; induction mask as [|x k IHk]; [reflexivity|]; cbn; destruct (Bool.bool_dec x true); lia).
  assert (G : legal (Z.of_nat (length mask)) (fun i => Z.of_nat (nth i ds 0))) by (intros i Hi; specialize (H i ltac:(lia)); lia).
  destruct (sample_exact (fun x : nat => x) _ (Z.of_nat n) (Z.of_nat (length mask)) (seq 0 (length mask)) ltac:(lia) ltac:(rewrite seq_length; lia) G) as (m & Lm & Mm & E).
  assert (F : Forall (fun d => 1 <= d) ds) by (apply Forall_forall; intros d Hd; apply (In_nth _ _ 0) in Hd; destruct Hd as (i & Hi & <-); apply H; lia).
  pose proof (loop_mask_of (fun x : nat => x) ds (seq 0 (length mask)) [] n ltac:(rewrite seq_length; lia) F) as E'. cbn [length app Nat.add] in E'. change (Z.of_nat 0) with 0%Z in E'.
  assert (EQ : m = mask_of n ds).
  { apply (pick_inj (seq 0 (length mask))); [apply seq_NoDup | rewrite seq_length; lia | rewrite mask_of_length, seq_length; lia|].
    rewrite <- (map_id (pick m _)), <- (map_id (pick (mask_of n ds) _)). rewrite <- E'. unfold sample_texts in E. replace (Z.of_nat n <=? Z.of_nat (length mask))%Z with true in E by lia. replace (0 <=? Z.of_nat n)%Z with true in E by lia. cbn [negb] in E.
    rewrite Ld. inversion E as [[E1 E2]]. reflexivity. }
  rewrite E, EQ, map_id. cbn [fst]. unfold eqb at 1. destruct (eq_dec _ _) as [X|X]; unfold eqb; destruct (eq_dec (mask_of n ds) mask) as [Y|Y]; auto.
  - exfalso. apply Y. apply (pick_inj (seq 0 (length mask))); [apply seq_NoDup | rewrite mask_of_length, seq_length; lia | rewrite seq_length; lia | congruence].
  - exfalso. apply X. rewrite Y. reflexivity.
Qed.
(** The sequences of draws, each once. *)
Theorem draws_all : forall L, NoDup (all_draws L) /\ length (all_draws L) = fact L /\
  forall ds, In ds (all_draws L) <-> length ds = L /\ forall i, i < L -> 1 <= nth i ds 0 <= L - i.
Proof. intros L. split; [apply all_draws_nodup|]. split; [apply all_draws_count | apply all_draws_spec]. Qed.
(** More documents than there are, or a negative number: nothing is yielded. *)
Theorem sample_rejects : forall {D O} (get : D -> O) draw n len docs, (n < 0 \/ len < n)%Z -> sample_texts get draw n len docs = ([], Some ValueError).
Proof.
  intros D O get draw n len docs H. unfold sample_texts. destruct (n <=? len)%Z eqn:E1; [|reflexivity]. cbn [negb]. replace (0 <=? n)%Z with false by lia. reflexivity.
Qed.
(** A length larger than the corpus: the error comes if fewer than [n] were chosen, after they were yielded. *)
Theorem sample_too_long : forall {D O} (get : D -> O) draw n len docs, (0 <= n <= len)%Z -> (Z.of_nat (length docs) < len)%Z -> legal len draw ->
  (exists mask, length mask = length docs /\ marked mask <= Z.to_nat n /\
     sample_texts get draw n len docs = (map get (pick mask docs), if marked mask =? Z.to_nat n then None else Some ValueError)) /\
  ((Z.of_nat (length docs) < n)%Z -> snd (sample_texts get draw n len docs) = Some ValueError) /\
  ((0 < n)%Z -> (n + Z.of_nat (length docs) <= len)%Z -> exists draw', legal len draw' /\ snd (sample_texts get draw' n len docs) = Some ValueError).
Proof.
  intros D O get draw n len docs N L G.
  assert (A : exists mask, length mask = length docs /\ marked mask <= Z.to_nat n /\
     sample_texts get draw n len docs = (map get (pick mask docs), if marked mask =? Z.to_nat n then None else Some ValueError)).
  { unfold sample_texts. replace (n <=? len)%Z with true by lia. replace (0 <=? n)%Z with true by lia. cbn [negb].
    destruct (loop_mask get draw len docs 0 n ltac:(lia)) as (mask & LM & E). pose proof (loop_nonneg get draw len docs 0 n G ltac:(lia) ltac:(lia)) as P. rewrite E in *. cbn [fst snd] in *.
    exists mask. split; [lia|]. split; [lia|]. f_equal. destruct (marked mask =? Z.to_nat n) eqn:X; [replace (n - Z.of_nat (marked mask) =? 0)%Z with true by lia | replace (n - Z.of_nat (marked mask) =? 0)%Z with false by lia]; reflexivity. }
  split; [exact A|]. split.
  - intros H. destruct A as (mask & LM & M & E). rewrite E. cbn [snd]. assert (LE : marked mask <= length mask) by (unfold marked; clear; induction mask as [|x k IHk]; [reflexivity|]; cbn; destruct (Bool.bool_dec x true); lia).
    replace (marked mask =? Z.to_nat n) with false by lia. reflexivity.
  - intros H H'. exists (fun i => len - Z.of_nat i)%Z. split; [intros i Hi; lia|]. unfold sample_texts. replace (n <=? len)%Z with true by lia. replace (0 <=? n)%Z with true by lia. cbn [negb snd].
    rewrite loop_largest by lia. replace (n =? 0)%Z with false by lia. reflexivity.
Qed.
Example sample_ex : let draw := fun i => nth i [4; 1; 2; 1]%Z 0%Z in
  sample_texts (fun x => x) draw 2 4 (map str ["a"; "b"; "c"; "d"]%string) = ([str "b"; str "d"], None) /\
  sample_texts (fun x => x) draw 2 4 (map str ["a"; "b"; "c"]%string) = ([str "b"], Some ValueError) /\
  map (fun m => length (filter (fun ds => eqb (fst (sample_texts (fun x => x) (fun i => Z.of_nat (nth i ds 0)) 2 4 (seq 0 4))) m) (all_draws 4))) [[0; 1]; [0; 2]; [0; 3]; [1; 2]; [1; 3]; [2; 3]] = [4; 4; 4; 4; 4; 4].
Proof. vm_compute. auto. Qed.
(** With metadata the first character is taken for the document, and the second for its metadata. *)
Theorem sample_metadata_refuted : exists line, sampled_metadata (simple_tokenize (fun c => letter c) is_digit) line = Ok ([str "g"], 111%N) /\
  simple_tokenize (fun c => letter c) is_digit line = [str "good"; str "morning"] /\
  sampled_metadata (simple_tokenize (fun c => letter c) is_digit) (str "a") = Err IndexError.
Proof. exists (str "good morning"). vm_compute. auto. Qed.

(** ** Preprocessing *)
(** Each yielded text is that after the filters so far; the tokens are those before the token filters; with one filter the last
    is what [preprocess_text] returns, if nobody read a generator before. *)
Theorem step_through_exact : forall {C T} lazy read (chars : list (C -> C)) (tok : C -> list T) filters text,
  let r := step_through lazy read chars tok filters text in
  length (fst (fst r)) = length chars /\
  (forall k c, k < length chars -> nth k (fst (fst r)) c = apply_all (firstn (S k) chars) text) /\
  snd (fst r) = preprocess_text chars tok [] text /\
  length (snd r) = length filters /\
  (lazy && read = false -> forall f, filters = [f] -> snd r = [preprocess_text chars tok filters text]) /\
  (lazy = false -> forall k d, k < length filters -> nth k (snd r) d = nth k filters (fun x => x) (preprocess_text chars tok [] text)).
Proof.
  intros C T lazy read chars tok filters text. cbn zeta. unfold step_through. cbn [fst snd]. split; [|split; [|split; [reflexivity|split; [|split]]]].
  - revert text. induction chars as [|f fs IH]; intros text; [reflexivity|]. cbn. rewrite IH. reflexivity.
  - intros k c Hk. apply char_steps_nth. exact Hk.
  - rewrite map_length, combine_length, seq_length. lia.
  - intros H f ->. cbn. replace (lazy && (read || false)) with false by (destruct lazy, read; cbn in *; congruence). reflexivity.
  - intros -> k d Hk. cbn [andb]. rewrite (nth_indep _ d ((fun kf : nat * (list T -> list T) => snd kf (tok (apply_all chars text))) (0, fun x => x))) by (rewrite map_length, combine_length, seq_length; lia).
    rewrite (map_nth (fun kf : nat * (list T -> list T) => snd kf (tok (apply_all chars text)))). rewrite combine_nth by apply seq_length. reflexivity.
Qed.
(** The filters are not chained: with the default filters the last output is that of no text, as the tokens were a generator; as a
    list, each filter sees what the tokenizer made. *)
Definition tok0 : pystr -> list pystr := simple_tokenize (fun c => letter c || is_digit c) is_digit.
Theorem step_through_refuted : exists text,
  preprocess_text [] tok0 [remove_short 3; remove_stopwords_t] text = [str "cat"; str "sleeps"] /\
  snd (step_through true false [] tok0 [remove_short 3; remove_stopwords_t] text) = [[str "the"; str "cat"; str "sleeps"]; []] /\
  snd (step_through true true [] tok0 [remove_short 3; remove_stopwords_t] text) = [[]; []] /\
  snd (step_through false true [] tok0 [remove_short 3; remove_stopwords_t] text) = [[str "the"; str "cat"; str "sleeps"]; [str "ox"; str "cat"; str "sleeps"]].
Proof. exists (str "the ox cat sleeps"). vm_compute. auto. Qed.
Example step_through_ex : step_through true false [strip_numeric] tok0 [remove_short 3] (str "b2 12 birds") = ([str "b  birds"], [str "b"; str "birds"], [[str "birds"]]).
Proof. vm_compute. reflexivity. Qed.

(** A file is read as bytes: ASCII letters become lower case, and no others. *)
Theorem lower_exact : forall s, Forall (fun c => valid_char c = true) s ->
  lower_to_unicode (utf8 s) = Some (map (fun c => if (65 <=? c) && (c <=? 90) then c + 32 else c)%N s).
Proof.
  intros s V. unfold lower_to_unicode. rewrite utf8_lower. rewrite utf8_decode_ok; [reflexivity|]. apply Forall_map. eapply Forall_impl; [|exact V]. intros c Hc. unfold bytes_lower. unfold valid_char in *. destruct ((65 <=? c) && (c <=? 90))%N eqn:E; lia.
Qed.
Theorem lower_refuted : exists s, lower_to_unicode (utf8 s) = Some s /\ s = [201; 116; 233]%N.  (* "Été": its capital stays *)
Proof. exists [201; 116; 233]%N. vm_compute. auto. Qed.

(** ** Bags of words *)
(** With its own dictionary no token of any line is lost, however often the corpus is read. *)
Theorem corpus_complete : forall pre content, (Z.of_nat (length (concat (map pre (file_lines content)))) <= 2000000)%Z ->
  exists d, init_dictionary pre (Filename content) = (Ok d, Filename content) /\
    (forall t t' i, dget (d_token2id d) t = Some i -> dget (d_token2id d) t' = Some i -> t = t') /\
    exists bows, corpus_iter pre d (Filename content) = (Ok bows, Filename content) /\
    Forall2 (fun line b => StronglySorted (fun x y => fst x < fst y) b /\ list_sum_nat (map snd b) = length (pre line) /\
        forall t, In t (pre line) -> exists i, dget (d_token2id d) t = Some i /\ In (i, count_occ eq_dec (pre line) t) b) (file_lines content) bows.
Proof.
  intros pre content L. destruct (add_known (map pre (file_lines content)) 0%N d_empty 2000000%Z d_inv_empty L) as (d & E & I0 & K).
  exists d. split; [unfold init_dictionary, get_texts, getstream; cbn [fst snd rmap rbind]; unfold d_add_documents; rewrite E; reflexivity|]. split; [apply inv_inj; exact I0|].
  exists (map (bow d) (map pre (file_lines content))). split; [reflexivity|]. rewrite map_map.
  assert (K' : forall l, In l (file_lines content) -> forall t, In t (pre l) -> In t (dkeys (d_token2id d))).
  { intros l Hl t Ht. apply K. right. apply in_concat. exists (pre l). split; [apply in_map; exact Hl | exact Ht]. }
  revert K'. generalize (file_lines content) as ls. intros ls. induction ls as [|l ls IH]; intros K'; [constructor|]. cbn [map]. constructor.
  - destruct (doc2bow_result_exact (d_token2id d) (pre l) (inv_inj _ I0)) as [S0 X]. unfold bow, d_doc2bow. cbn [orb fst snd]. split; [exact S0|]. split; [apply bow_sum; [exact I0|]; apply K'; left; reflexivity|].
    intros t Ht. specialize (K' l (or_introl eq_refl) t Ht) as Kt. apply dget_Some_key in Kt. destruct Kt as (i & Ei). exists i. split; [exact Ei|]. apply X. exists t. split; [exact Ei|]. split; [reflexivity|]. apply count_occ_In. exact Ht.
  - apply IH. intros l' Hl'. apply K'. right. exact Hl'.
Qed.
Example corpus_ex : let pre := tok0 in exists d, fst (init_dictionary pre (Filename (str "b a b
c
"))) = Ok d /\ fst (corpus_iter pre d (Filename (str "b a b
c
"))) = Ok [[(0, 1); (1, 2)]; [(2, 1)]] /\
  fst (get_texts_meta pre (Filename (str "b a b
c
"))) = Ok [([str "b"; str "a"; str "b"], 0); ([str "c"], 1)].
Proof. eexists. vm_compute. auto. Qed.
(** Documents are numbered from 0. *)
Theorem metadata_exact : forall {T} (pre : pystr -> list T) content, exists ts, fst (get_texts_meta pre (Filename content)) = Ok ts /\ length ts = length (file_lines content) /\
  forall k line, nth_error (file_lines content) k = Some line -> nth_error ts k = Some (pre line, k).
Proof.
  intros T pre content. unfold get_texts_meta, getstream. cbn [fst rmap]. eexists. split; [reflexivity|]. split; [rewrite map_length, combine_length, seq_length; lia|]. intros k line H.
  assert (Hk : k < length (file_lines content)) by (apply nth_error_Some; congruence).
  rewrite nth_error_map. rewrite (nth_error_nth' _ (0, line)) by (rewrite combine_length, seq_length; lia). rewrite combine_nth by apply seq_length. cbn [option_map fst snd]. rewrite seq_nth by exact Hk. rewrite (nth_error_nth _ _ _ H). reflexivity.
Qed.
(** An open file is closed by the first reading, which is that of the dictionary. *)
Theorem file_object_refuted : forall pre content, exists d, init_dictionary pre (FileObject content false) = (d_add_documents d_empty (map pre (file_lines content)) (Some 2000000%Z), FileObject content true) /\
  corpus_iter pre d (FileObject content true) = (Err ValueError, FileObject content true).
Proof. intros pre content. exists d_empty. split; reflexivity. Qed.

(** ** Directories *)
(** Exactly the files in the range of depths whose names are admitted, each once. *)
Theorem directory_files : forall s top m, max_depth s = Some m -> exists fs, iter_filepaths s top = Ok fs /\
  (forall path text, In (path, text) fs <-> file_at top path text /\ (min_depth s <= Z.of_nat (length path) - 1 <= m)%Z /\ admitted s (last path [])) /\
  (tree top -> NoDup (map fst fs)).
Proof.
  intros s top m M. set (g := fun d : nat * list pystr * list (pystr * pystr) => let '(depth, path, files) := d in
    if ((min_depth s <=? Z.of_nat depth) && (Z.of_nat depth <=? m))%Z then map (fun f => (path ++ [fst f], snd f)) (filter (fun f => name_ok s (fst f)) files) else []).
  assert (E : iter_filepaths s top = Ok (concat (map g (walk 0 [] top)))).
  { unfold iter_filepaths. replace (rmapM (files_of s) (walk 0 [] top)) with (Ok (map g (walk 0 [] top))); [reflexivity|]. induction (walk 0 [] top) as [|[[d p] fs] l IH]; [reflexivity|]. cbn [map rmapM]. rewrite <- IH.
    unfold files_of at 1. unfold g at 1. rewrite M. destruct (min_depth s <=? Z.of_nat d)%Z; cbn [andb]; [destruct (Z.of_nat d <=? m)%Z|]; reflexivity. }
  exists (concat (map g (walk 0 [] top))). split; [exact E|]. split.
  - intros path text. rewrite <- flat_map_concat_map, in_flat_map. split.
    + intros ([[d dir] files] & Hw & H). cbn [g] in H. unfold g in H. destruct ((min_depth s <=? Z.of_nat d) && (Z.of_nat d <=? m))%Z eqn:R; [|destruct H]. apply in_map_iff in H. destruct H as ([name t] & Ep & H). cbn [fst snd] in Ep. inversion Ep; subst. apply filter_In in H. destruct H as [Hn NK]. cbn [fst] in NK.
      destruct (proj1 (walk_files top 0 [] d (dir ++ [name]) text)) as (q & Eq & F & L); [exists dir, name, files; auto|]. cbn [app] in Eq. subst q. split; [exact F|]. split; [lia|]. rewrite last_last. apply name_ok_admitted. exact NK.
    + intros (F & R & A). destruct path as [|p0 path0] eqn:Epath; [inversion F|]. rewrite <- Epath in *. assert (LP : 0 < length path) by (rewrite Epath; cbn; lia).
      destruct (proj2 (walk_files top 0 [] (length path - 1) path text)) as (dir & name & files & Hw & Hn & Ep); [exists path; split; [reflexivity|]; split; [exact F | lia]|].
      exists (length path - 1, dir, files). split; [exact Hw|]. unfold g. replace ((min_depth s <=? Z.of_nat (length path - 1)) && (Z.of_nat (length path - 1) <=? m))%Z with true by lia. apply in_map_iff. exists (name, text). cbn [fst snd]. split; [rewrite Ep; reflexivity|]. apply filter_In. split; [exact Hn|]. cbn [fst]. apply name_ok_admitted. rewrite Ep, last_last in A. exact A.
  - intros T. pose proof (walk_dirs_nodup top 0 [] T) as ND. pose proof (walk_files_nodup top 0 [] T) as NF. clear E. induction (walk 0 [] top) as [|[[d dir] files] l IH]; [constructor|]. cbn [map concat]. rewrite map_app. cbn [map fst snd] in ND. inversion ND as [|? ? NI ND']; subst.
    assert (INC : forall path, In path (map fst (g (d, dir, files))) -> exists name, path = dir ++ [name]).
    { intros path H. unfold g in H. destruct (_ && _)%bool; [|destruct H]. rewrite map_map in H. apply in_map_iff in H. destruct H as (f & <- & _). eexists. reflexivity. }
    apply NoDup_app_disj.
    + unfold g. destruct (_ && _)%bool; [|constructor]. rewrite map_map. cbn [fst]. specialize (NF d dir files (or_introl eq_refl)). clear - NF. induction files as [|[n t] files IH]; [constructor|]. cbn [filter fst]. inversion NF as [|? ? NI NF']; subst. destruct (name_ok s n); [|apply IH; exact NF']. cbn [map fst]. constructor; [|apply IH; exact NF'].
      intros H. apply in_map_iff in H. destruct H as ([n' t'] & E & H). cbn [fst] in E. apply app_inv_head in E. inversion E; subst. apply filter_In in H. apply NI. apply in_map_iff. exists (n, t'). tauto.
    + apply IH; [exact ND'|]. intros d' dir' files' H. apply (NF d' dir'). right. exact H.
    + intros path H1 H2. apply INC in H1. destruct H1 as (name & ->). apply in_map_iff in H2. destruct H2 as ([path' t'] & E & H2). cbn [fst] in E. subst path'. apply in_concat in H2. destruct H2 as (x & Hx & H2). apply in_map_iff in Hx. destruct Hx as ([[d2 dir2] files2] & <- & Hw).
      unfold g in H2. destruct (_ && _)%bool; [|destruct H2]. apply in_map_iff in H2. destruct H2 as (f & Ef & _). inversion Ef as [[Ed Et]]. apply app_inj_tail in Ed. destruct Ed as [-> _]. apply NI. apply in_map_iff. exists (d2, dir, files2). auto.
Qed.
(** By default all files. *)
Theorem directory_default : forall top lines, exists fs, iter_filepaths (new_settings 0 None None None lines) top = Ok fs /\
  forall path text, In (path, text) fs <-> file_at top path text /\ (Z.of_nat (length path) <= 2 ^ 63)%Z.
Proof.
  intros top lines. destruct (directory_files (new_settings 0 None None None lines) top maxsize eq_refl) as (fs & E & H & _). exists fs. split; [exact E|]. intros path text. rewrite H. unfold maxsize. cbn [min_depth new_settings]. split.
  - intros (F & R & _). split; [exact F | lia].
  - intros (F & R). split; [exact F|]. split; [|split; intros p X; discriminate X]. inversion F; subst; cbn [length] in *; lia.
Qed.
(** The documents: each file, or each line of each file, without the white space around it. *)
Theorem directory_documents : forall s top fs, iter_filepaths s top = Ok fs -> exists docs, dir_stream s top = Ok docs /\
  (lines_are_documents s = false -> docs = map (fun f => strip is_space (snd f)) fs) /\
  (lines_are_documents s = true -> docs = map (strip is_space) (concat (map (fun f => file_lines (snd f)) fs))).
Proof.
  intros s top fs E. unfold dir_stream. rewrite E. cbn [rmap]. eexists. split; [reflexivity|]. split; intros H; rewrite H; unfold documents.
  - clear. induction fs as [|f fs IH]; [reflexivity|]. cbn [flat_map map app]. rewrite IH. reflexivity.
  - clear. induction fs as [|f fs IH]; [reflexivity|]. cbn [flat_map map concat]. rewrite IH, map_app. reflexivity.
Qed.
(** The length is the number of documents of the present settings, whatever was done before. *)
Lemma count_right : forall s top, count_documents s top = rmap (@length _) (dir_stream s top).
Proof.
  intros s top. unfold count_documents. destruct (lines_are_documents s) eqn:E; [reflexivity|]. unfold dir_stream. rewrite E. destruct (iter_filepaths s top) as [fs|]; [|reflexivity]. cbn [rmap]. f_equal. induction fs as [|f fs IH]; [reflexivity|]. cbn. f_equal. exact IH.
Qed.
Definition right_state (top : entry) (changed : bool) (c : dcorpus) : Prop :=
  (forall n, cached c = Some n -> rmap (@length _) (dir_stream (conf c) top) = Ok n) /\
  (changed = false -> forall n, suspended c = Some n -> rmap (@length _) (dir_stream (conf c) top) = Ok n).
Lemma run_right : forall top ops changed c, safe changed ops -> right_state top changed c -> exists ch, right_state top ch (fold_left (dstep top) ops c).
Proof.
  intros top ops. induction ops as [|o ops IH]; intros changed c SF [C1 C2]; [exists changed; split; assumption|]. cbn [fold_left].
  destruct o; cbn [safe] in SF; try (apply (IH true); [exact SF|]; split; cbn; [intros n H; discriminate H | intros H; discriminate H]).
  - apply (IH changed); [exact SF|]. cbn [dstep]. destruct (cached c) eqn:E; [split; [rewrite E in *; exact C1 | exact C2]|]. destruct (count_documents (conf c) top) as [n|] eqn:Ec; [|split; [rewrite E; exact C1 | exact C2]]. rewrite count_right in Ec. split; cbn [conf cached suspended]; [intros n' [= <-]; exact Ec | exact C2].
  - apply (IH changed); [exact SF|]. cbn [dstep]. destruct (dir_stream (conf c) top) as [l|] eqn:E; [|split; rewrite E in *; assumption]. split; cbn [conf cached suspended]; rewrite E; [intros n [= <-]; reflexivity | exact C2].
  - apply (IH false); [exact SF|]. cbn [dstep]. destruct (dir_stream (conf c) top) as [l|] eqn:E.
    + split; cbn [conf cached suspended]; rewrite E; [exact C1 | intros _ n [= <-]; reflexivity].
    + split; cbn [conf cached suspended]; rewrite E; [exact C1 | intros _ n H; discriminate H].
  - destruct SF as [-> SF]. apply (IH false); [exact SF|]. cbn [dstep]. destruct (suspended c) as [n|] eqn:E; [|split; [exact C1 | rewrite E; exact C2]]. split; cbn [conf cached suspended]; [intros n' [= <-]; apply C2; auto | intros _ n' H; discriminate H].
Qed.
Theorem directory_length : forall top s ops, safe false ops -> let c := fold_left (dstep top) ops (mkDcorpus s None None) in
  dlen top c = rmap (@length _) (dir_stream (conf c) top).
Proof.
  intros top s ops SF c. destruct (run_right top ops false (mkDcorpus s None None) SF) as (ch & C1 & _); [split; [intros n H; discriminate H | intros _ n H; discriminate H]|].
  fold c in C1. unfold dlen. destruct (cached c) as [n|]; [rewrite (C1 n eq_refl); reflexivity | apply count_right].
Qed.
Definition ex_tree : entry :=
  Dir true false [(str "b.txt", File (str " one
two ")); (str "sub", Dir true false [(str "a.txt", File (str "three")); (str "x.log", File (str "log"))]); (str "away", Dir true true [(str "c.txt", File [])]); (str "shut", Dir false false [])].
Definition is_txt (name : pystr) : bool := eqb (rev (firstn 4 (rev name))) (str ".txt").
Example directory_ex :
  iter_filepaths (new_settings 0 None (Some is_txt) None false) ex_tree = Ok [([str "b.txt"], str " one
two "); ([str "sub"; str "a.txt"], str "three")] /\
  dir_stream (new_settings 0 None None (Some is_txt) true) ex_tree = Ok [str "log"] /\
  dir_stream (new_settings 0 (Some 0%Z) None None true) ex_tree = Ok [str "one"; str "two"] /\
  iter_filepaths (new_settings 1 None None None true) ex_tree = Ok [([str "sub"; str "a.txt"], str "three"); ([str "sub"; str "x.log"], str "log")].
Proof. vm_compute. auto. Qed.
(** The end of an older stream brings the old length back. *)
Theorem directory_length_refuted : exists s ops, let c := fold_left (dstep ex_tree) ops (mkDcorpus s None None) in
  ops = [ReadMost; SetLines false; ReadEnd] /\ dlen ex_tree c = Ok 4 /\ rmap (@length _) (dir_stream (conf c) ex_tree) = Ok 3.
Proof. exists (new_settings 0 None None None true), [ReadMost; SetLines false; ReadEnd]. vm_compute. auto. Qed.
(** A file in place of a directory is an empty corpus, and so is a directory that cannot be listed; None as greatest depth is an error
    once the corpus exists. *)
Theorem no_directory_refuted : forall s text, dir_stream s (File text) = Ok [] /\ dir_stream s (Dir false false [(str "a", File text)]) = Ok [].
Proof. intros s text. split; reflexivity. Qed.
Theorem max_depth_none_refuted : forall s top, min_depth s = 0%Z -> (exists link es, top = Dir true link es) -> dlen top (dstep top (mkDcorpus s None None) (SetMax None)) = Err TypeError.
Proof.
  intros s top M (link & es & ->). unfold dlen, dstep, reset. cbn [cached conf]. rewrite count_right. unfold dir_stream, iter_filepaths. rewrite walk_dir. cbn [rmapM files_of min_depth max_depth]. rewrite M. reflexivity.
Qed.

Print Assumptions sample_exact.
Print Assumptions sample_uniform.
Print Assumptions draws_all.
Print Assumptions sample_rejects.
Print Assumptions sample_too_long.
Print Assumptions sample_metadata_refuted.
Print Assumptions step_through_exact.
Print Assumptions step_through_refuted.
Print Assumptions lower_exact.
Print Assumptions lower_refuted.
Print Assumptions corpus_complete.
Print Assumptions metadata_exact.
Print Assumptions file_object_refuted.
Print Assumptions directory_files.
Print Assumptions directory_default.
Print Assumptions directory_documents.
Print Assumptions directory_length.
Print Assumptions directory_length_refuted.
Print Assumptions no_directory_refuted.
Print Assumptions max_depth_none_refuted.
