(** Theorems about list-of-words and Mallet corpora (properties C15 and C16). *)

From Coq Require Import QArith.
From Verif Require Import Base Str SortFacts Matutils_Model Matutils_Proofs2 Dictionary_Model Utils_Model Formats_Base
  MmCorpus_Model MmCorpus_Proofs LineCorpora_Model LineCorpora_Proofs LineCorpora_Properties.
From Coq Require Import ZifyBool ZifyNat ZifyN.
Close Scope Q_scope.
Local Open Scope Z_scope.

(** ** Words of a document *)

Lemma low_words_ok : forall m n d ws, low_words (Some m) n d = Ok ws ->
  (forall p, In p d -> In (fst p) (dkeys m)) /\
  ws = concat (map (fun p => repeat (dget_or m (fst p) []) (Z.to_nat (q_int (snd p)))) d).
Proof.
  intros m n d ws H. unfold low_words in H. destruct (rmapM _ d) as [wss|e] eqn:E; cbn [rbind] in H; [|discriminate].
  apply Ok_inj in H. subst ws. apply rmapM_inv in E. induction E as [|p w d wss Hp E IH].
  - split; [intros ? []|reflexivity].
  - destruct IH as [IH1 IH2]. cbn [low_lookup] in Hp. destruct (dget m (fst p)) as [w0|] eqn:Em; [|discriminate].
    cbn [of_option rbind] in Hp. apply Ok_inj in Hp. split.
    + intros q [<-|Hq]; [apply dget_Some_key; exists w0; exact Em | auto].
    + cbn [map concat]. rewrite IH2. unfold dget_or at 2. rewrite Em, Hp. reflexivity.
Qed.

Lemma low_words_total : forall m n d, (forall p, In p d -> In (fst p) (dkeys m)) ->
  exists ws, low_words (Some m) n d = Ok ws.
Proof.
  intros m n d H. exists (concat (map (fun p => repeat (dget_or m (fst p) []) (Z.to_nat (q_int (snd p)))) d)).
  unfold low_words. rewrite (rmapM_all _ d (map (fun p => repeat (dget_or m (fst p) []) (Z.to_nat (q_int (snd p)))) d)); [reflexivity|].
  apply Forall2_refl_in. intros p Hp. cbn [low_lookup]. destruct (dget m (fst p)) as [w|] eqn:E.
  - unfold dget_or. rewrite E. reflexivity.
  - exfalso. apply dget_None in E. apply E. auto.
Qed.

Lemma low_words_tokens : forall m n d ws, Forall token (dvals m) -> low_words (Some m) n d = Ok ws -> Forall token ws.
Proof.
  intros m n d ws T H. apply low_words_ok in H. destruct H as [K ->]. apply Forall_forall. intros w Hw.
  apply in_concat in Hw. destruct Hw as (l & Hl & Hw). apply in_map_iff in Hl. destruct Hl as (p & <- & Hp).
  apply repeat_spec in Hw. subst w. rewrite Forall_forall in T. apply T. unfold dget_or.
  destruct (dget m (fst p)) as [w|] eqn:E.
  - apply dget_In in E. unfold dvals. apply in_map_iff. exists (fst p, w). auto.
  - exfalso. apply dget_None in E. apply E. apply K; auto.
Qed.

Lemma wcount_words : forall m n d ws w, low_words (Some m) n d = Ok ws -> wcount w ws = word_count m w d.
Proof.
  intros m n d ws w H. apply low_words_ok in H. destruct H as [K ->].
  induction d as [|[i v] d IH]; [reflexivity|]. cbn [map concat fst snd word_count].
  rewrite wcount_app, IH by (intros; apply K; right; auto). f_equal. rewrite wcount_repeat. unfold dget_or.
  destruct (dget m i) as [w'|] eqn:E.
  - destruct (eq_dec w' w); lia.
  - exfalso. apply dget_None in E. apply E. apply (K (i, v)). left; reflexivity.
Qed.

Lemma word_bag_count : forall m i w d, NoDup (dkeys m) -> NoDup (dvals m) -> dget m i = Some w ->
  word_count m w d = bag_count i d.
Proof.
  intros m i w d NK NV E. induction d as [|[j v] d IH]; [reflexivity|]. cbn [word_count bag_count]. rewrite IH. f_equal.
  destruct (j =? i) eqn:Eji.
  - assert (j = i) by lia. subst. rewrite E. destruct (eq_dec w w); congruence.
  - destruct (dget m j) as [w'|] eqn:Ej; [|reflexivity]. destruct (eq_dec w' w) as [->|]; [|reflexivity].
    exfalso. apply (proj2 (revdict_iff m w i NK NV)) in E. apply (proj2 (revdict_iff m w j NK NV)) in Ej.
    assert (i = j) by congruence. lia.
Qed.

Lemma bag_count_pos : forall i d, 0 < bag_count i d -> In i (map fst d).
Proof.
  intros i d. induction d as [|[j v] d IH]; cbn [bag_count map fst]; [lia|].
  destruct (j =? i) eqn:E; [left; lia|]. intros H. right. apply IH. lia.
Qed.

Lemma low_ids_bag : forall m n d ws, vocab_ok m -> low_words (Some m) n d = Ok ws ->
  same_bag d (low_doc_ids (revdict m) ws).
Proof.
  intros m n d ws [_ NK NV _] H. split.
  - apply NoDup_low_doc_ids. intros w w' i E E'. apply (revdict_iff m w i NK NV) in E. apply (revdict_iff m w' i NK NV) in E'.
    congruence.
  - intros i c. rewrite In_low_doc_ids. split.
    + intros (w & E & -> & P). apply (revdict_iff m w i NK NV) in E. split; [|exact P].
      rewrite (wcount_words _ _ _ _ w H). apply word_bag_count; auto.
    + intros [-> P]. pose proof (bag_count_pos _ _ P) as K. apply low_words_ok in H as H'. destruct H' as [KD _].
      apply in_map_iff in K. destruct K as (p & <- & Hp). specialize (KD _ Hp).
      destruct (dget m (fst p)) as [w|] eqn:E; [|apply dget_None in E; contradiction].
      exists w. split; [apply revdict_iff; auto|]. split; [|exact P].
      rewrite (wcount_words _ _ _ _ w H). symmetry. apply word_bag_count; auto.
Qed.

(** Distinct ids with positive counts come back in the stored order. *)
Lemma low_ids_exact : forall m n d ws, vocab_ok m -> NoDup (map fst d) -> (forall p, In p d -> 0 < q_int (snd p)) ->
  low_words (Some m) n d = Ok ws ->
  low_doc_ids (revdict m) ws = map (fun p => (fst p, q_int (snd p))) d.
Proof.
  intros m n d ws [_ NK NV _] ND P H. apply low_words_ok in H as H'. destruct H' as [KD Ews].
  assert (G : forall p, In p d -> dget m (fst p) = Some (dget_or m (fst p) [])).
  { intros p Hp. unfold dget_or. destruct (dget m (fst p)) eqn:E; [reflexivity|]. apply dget_None in E. exfalso; apply E; auto. }
  assert (R : forall p, In p d -> dget (revdict m) (dget_or m (fst p) []) = Some (fst p)).
  { intros p Hp. apply revdict_iff; auto. }
  assert (FI : filter (dmem (revdict m)) ws = ws).
  { assert (A : Forall (fun w => dmem (revdict m) w = true) ws).
    { apply Forall_forall. intros w Hw. rewrite Ews in Hw. apply in_concat in Hw. destruct Hw as (l & Hl & Hw).
      apply in_map_iff in Hl. destruct Hl as (p & <- & Hp). apply repeat_spec in Hw. subst w.
      unfold dmem. rewrite R by exact Hp. reflexivity. }
    clear - A. induction A as [|w ws Hw A IH]; [reflexivity|]. cbn [filter]. rewrite Hw, IH. reflexivity. }
  rewrite low_doc_ids_counter, FI.
  set (D := map (fun p => (dget_or m (fst p) [], Z.to_nat (q_int (snd p)))) d).
  assert (EC : counter ws = map (fun p => (fst p, Z.of_nat (snd p))) D).
  { unfold counter. rewrite Ews.
    replace (map (fun p => repeat (dget_or m (fst p) []) (Z.to_nat (q_int (snd p)))) d)
      with (map (fun p : pystr * nat => repeat (fst p) (snd p)) D) by (subst D; rewrite map_map; reflexivity).
    rewrite counter_blocks; [reflexivity| | intros w _ [] |].
    - subst D. rewrite map_map. cbn [fst].
      clear - ND R. induction d as [|p d IH]; [constructor|]. cbn [map] in *. inversion ND; subst. constructor.
      + intros X. apply in_map_iff in X. destruct X as (q & E & Hq). apply H1. apply in_map_iff. exists q. split; [|exact Hq].
        pose proof (R p (or_introl eq_refl)) as R1. pose proof (R q (or_intror Hq)) as R2. rewrite E in R2. congruence.
      + apply IH; auto. intros; apply R; right; auto.
    - apply Forall_forall. intros x Hx. subst D. apply in_map_iff in Hx. destruct Hx as (p & <- & Hp). cbn [snd].
      specialize (P _ Hp). lia. }
  rewrite EC. subst D. rewrite !map_map. apply map_ext_in. intros p Hp. cbn [fst snd].
  unfold dget_or at 1. rewrite R by exact Hp. specialize (P _ Hp). f_equal. lia.
Qed.

Lemma vocab_tokens : forall m, vocab_ok m -> Forall token (dvals m).
Proof. intros m V. exact (vo_tokens m V). Qed.

(** ** Files of words *)

Lemma low_save_inv : forall m corpus content offsets, Forall token (dvals m) ->
  low_save (Some m) corpus = Ok (content, offsets) ->
  exists wss, Forall2 (fun d ws => low_words (Some m) (dict_from_corpus corpus) d = Ok ws) corpus wss /\
    Forall (Forall token) wss /\
    file_lines content = (show_Z (Z.of_nat (length corpus)) ++ [chr_nl]) :: map (fun ws => join [chr_sp] ws ++ [chr_nl]) wss /\
    length offsets = length wss /\
    forall i, (i < length wss)%nat -> 0 <= nth i offsets 0 /\
      readline_at content (Z.to_nat (nth i offsets 0)) = join [chr_sp] (nth i wss []) ++ [chr_nl].
Proof.
  intros m corpus content offsets T H. unfold low_save in H.
  destruct (rmapM _ corpus) as [wss|e] eqn:E; cbn [rbind] in H; [|discriminate]. apply Ok_inj in H.
  apply rmapM_inv in E. exists wss. split; [exact E|].
  assert (TT : Forall (Forall token) wss).
  { clear H. induction E as [|d ws c wss Hd E IH]; constructor; auto. eapply low_words_tokens; eassumption. }
  split; [exact TT|].
  assert (NL : Forall (fun w => ~ In chr_nl w) (map (join [chr_sp]) wss)).
  { apply Forall_forall. intros t Ht. apply in_map_iff in Ht. destruct Ht as (ws & <- & Hws). apply join_no_nl.
    rewrite Forall_forall in TT. apply TT; auto. }
  assert (El : map (fun ws => join [chr_sp] ws ++ [chr_nl]) wss = nl_lines (map (join [chr_sp]) wss))
    by (unfold nl_lines; rewrite map_map; reflexivity).
  rewrite El in *. destruct (written_file _ _ _ _ NL H) as (Ec & Lo & Rd). split; [|split].
  - rewrite Ec, <- app_assoc. cbn [app]. rewrite file_lines_cons by (apply token_no_nl, token_show_Z).
    unfold nl_lines. rewrite file_lines_concat by exact NL. reflexivity.
  - rewrite Lo, map_length. reflexivity.
  - intros i L. destruct (Rd i) as [A B]; [rewrite map_length; exact L|]. split; [exact A|]. rewrite B. f_equal.
    exact (map_nth (join [chr_sp]) wss [] i).
Qed.

Lemma nl_space : Forall (fun c => is_space c = true) [chr_nl].
Proof. repeat constructor. Qed.

Lemma split_lines : forall wss, Forall (Forall token) wss ->
  map split_on_space (map (fun ws => join [chr_sp] ws ++ [chr_nl]) wss) = wss.
Proof.
  intros wss T. induction T as [|ws wss Hw T IH]; [reflexivity|]. cbn [map].
  rewrite IH, split_on_space_join by (auto; apply nl_space). reflexivity.
Qed.

Lemma low_header : forall n, parse_Z (strip is_space (show_Z n ++ [chr_nl])) = Some n.
Proof.
  intros n. destruct (token_show_Z n) as [NE NS]. rewrite strip_nosp_tail by (auto; apply nl_space). apply parse_show_Z.
Qed.

Lemma low_init_some : forall m content n l ls, m <> [] -> file_lines content = (show_Z n ++ [chr_nl]) :: ls -> l = tt ->
  low_init (Some m) content = Ok {| low_num_docs := n; low_id2word := m; low_word2id := revdict m |}.
Proof.
  intros m content n l ls NE E _. unfold low_init. rewrite E, low_header. cbn [of_option rbind].
  destruct m; [congruence | reflexivity].
Qed.

(** ** C15 *)

Theorem low_save_total : forall m corpus,
  (exists content offsets, low_save (Some m) corpus = Ok (content, offsets)) <->
  (forall d p, In d corpus -> In p d -> In (fst p) (dkeys m)).
Proof.
  intros m corpus. unfold low_save. generalize (dict_from_corpus corpus). intros n. split.
  - intros (c & o & H) d p Hd Hp. destruct (rmapM _ corpus) as [wss|e] eqn:E; cbn [rbind] in H; [|discriminate].
    apply rmapM_inv in E. clear H. induction E as [|d' ws cs wss Hw E IH]; [destruct Hd|].
    destruct Hd as [<-|Hd]; [|auto]. apply low_words_ok in Hw. apply Hw; auto.
  - intros H. assert (X : exists wss, rmapM (low_words (Some m) n) corpus = Ok wss).
    { induction corpus as [|d cs IH]; [exists []; reflexivity|].
      destruct IH as [wss IH]; [intros; eapply H; [right|]; eassumption|].
      destruct (low_words_total m n d) as [ws Hw]; [intros; eapply H; [left; reflexivity|]; auto|].
      exists (ws :: wss). cbn [rmapM]. rewrite Hw. cbn [rbind]. rewrite IH. reflexivity. }
    destruct X as [wss ->]. cbn [rbind]. destruct (write_lines _ _) as [c o]. exists c, o. reflexivity.
Qed.
Print Assumptions low_save_total.

Theorem low_roundtrip : forall m corpus content offsets, vocab_ok m ->
  low_save (Some m) corpus = Ok (content, offsets) ->
  exists c, low_init (Some m) content = Ok c /\ low_num_docs c = Z.of_nat (length corpus) /\ low_id2word c = m /\
    Forall2 same_bag corpus (low_iter c content) /\
    access_ok (ix_getitem (low_docbyoffset c content) (Some offsets)) (low_iter c content).
Proof.
  intros m corpus content offsets V H. destruct (low_save_inv _ _ _ _ (vocab_tokens _ V) H) as (wss & E & T & EL & Lo & Rd).
  eexists. split; [eapply low_init_some; [apply V | exact EL | reflexivity]|]. cbn [low_num_docs low_id2word].
  split; [reflexivity|]. split; [reflexivity|].
  assert (IT : low_iter {| low_num_docs := Z.of_nat (length corpus); low_id2word := m; low_word2id := revdict m |} content
               = map (low_doc_ids (revdict m)) wss).
  { unfold low_iter, low_doc_lines, low_line2doc. rewrite EL. cbn [tl low_word2id].
    rewrite <- (map_map split_on_space (low_doc_ids (revdict m))), (split_lines wss T). reflexivity. }
  rewrite IT. split.
  - clear - E V. induction E as [|d ws cs wss Hw E IH]; constructor; auto. eapply low_ids_bag; eassumption.
  - apply ix_access; [rewrite Lo, map_length; reflexivity|]. intros k d Hk.
    rewrite nth_error_map in Hk. destruct (nth_error wss k) as [ws|] eqn:Ek; [|discriminate]. injection Hk as <-.
    destruct (nth_error_nth_lt _ _ _ [] Ek) as [Lk Nk]. destruct (Rd k Lk) as [A B].
    unfold low_docbyoffset. replace (_ <? 0) with false by lia. rewrite B, Nk. unfold low_line2doc. cbn [low_word2id].
    rewrite split_on_space_join; [reflexivity| |apply nl_space]. rewrite Forall_forall in T. apply T.
    apply nth_error_In with k; exact Ek.
Qed.
Print Assumptions low_roundtrip.

Theorem low_roundtrip_exact : forall m corpus content offsets, vocab_ok m ->
  (forall d, In d corpus -> NoDup (map fst d) /\ forall p, In p d -> 0 < q_int (snd p)) ->
  low_save (Some m) corpus = Ok (content, offsets) ->
  exists c, low_init (Some m) content = Ok c /\
    low_iter c content = map (map (fun p => (fst p, q_int (snd p)))) corpus.
Proof.
  intros m corpus content offsets V G H. destruct (low_save_inv _ _ _ _ (vocab_tokens _ V) H) as (wss & E & T & EL & _ & _).
  eexists. split; [eapply low_init_some; [apply V | exact EL | reflexivity]|].
  unfold low_iter, low_doc_lines, low_line2doc. rewrite EL. cbn [tl low_word2id].
  rewrite <- (map_map split_on_space (low_doc_ids (revdict m))), (split_lines wss T).
  clear - E V G. revert E. generalize (dict_from_corpus corpus) at 1. intros n E.
  induction E as [|d ws cs wss Hw E IH]; [reflexivity|]. cbn [map].
  rewrite IH by (intros; apply G; right; auto). destruct (G d (or_introl eq_refl)).
  rewrite (low_ids_exact m _ d ws V) by eassumption. reflexivity.
Qed.
Print Assumptions low_roundtrip_exact.

(** Reading without a mapping: the collected vocabulary numbers the words in sorted order, and every
    document has the right counts word by word. *)
Lemma low_vocab_keys : forall wss, dkeys (low_vocab wss) = zrange 0 (Z.of_nat (length (dvals (low_vocab wss)))).
Proof.
  intros wss. unfold low_vocab. set (ts := isort str_leb _). unfold dkeys, dvals.
  rewrite combine_snd by (rewrite zrange_length; lia).
  assert (H : forall (a : list Z) (b : list pystr), length a = length b -> map fst (combine a b) = a).
  { induction a as [|x a IH]; intros [|y b] L; try discriminate; [reflexivity|]. cbn [combine map fst]. rewrite IH by (cbn in L; lia). reflexivity. }
  apply H. rewrite zrange_length. lia.
Qed.

Lemma low_vocab_vals : forall wss, dvals (low_vocab wss) = isort str_leb (nodup eq_dec (concat wss)).
Proof. intros wss. unfold low_vocab, dvals. rewrite combine_snd by (rewrite zrange_length; lia). reflexivity. Qed.

Theorem low_read_without_vocab : forall m corpus content offsets, Forall token (dvals m) ->
  low_save (Some m) corpus = Ok (content, offsets) ->
  exists c, low_init None content = Ok c /\ low_num_docs c = Z.of_nat (length corpus) /\
    dkeys (low_id2word c) = zrange 0 (Z.of_nat (length (dvals (low_id2word c)))) /\
    StronglySorted (fun a b => str_leb a b = true) (dvals (low_id2word c)) /\ NoDup (dvals (low_id2word c)) /\
    Forall2 (fun d out => NoDup (map fst out) /\
       forall w n, (exists i, dget (low_id2word c) i = Some w /\ In (i, n) out) <-> n = word_count m w d /\ 0 < n)
      corpus (low_iter c content).
Proof.
  intros m corpus content offsets TV H. destruct (low_save_inv _ _ _ _ TV H) as (wss & E & T & EL & _ & _).
  unfold low_init, low_iter, low_doc_lines, low_line2doc. rewrite EL, low_header. cbn [of_option rbind tl].
  rewrite (split_lines wss T). eexists. split; [reflexivity|]. cbn [low_num_docs low_id2word low_word2id].
  rewrite <- (map_map split_on_space (low_doc_ids _)), (split_lines wss T).
  assert (NV : NoDup (dvals (low_vocab wss))).
  { rewrite low_vocab_vals. eapply Permutation_NoDup; [apply Permutation_isort|]. apply NoDup_nodup. }
  assert (NK : NoDup (dkeys (low_vocab wss))).
  { rewrite low_vocab_keys. unfold zrange. apply FinFun.Injective_map_NoDup; [intros a b; lia | apply seq_NoDup]. }
  split; [reflexivity|]. split; [apply low_vocab_keys|]. split.
  { rewrite low_vocab_vals. apply isort_StronglySorted; [apply str_leb_total | apply str_leb_trans]. }
  split; [exact NV|].
  assert (IN : forall ws w, In ws wss -> In w ws -> In w (dvals (low_vocab wss))).
  { intros ws w Hws Hw. rewrite low_vocab_vals. apply In_isort. apply nodup_In. apply in_concat. eauto. }
  set (V := low_vocab wss) in *. clearbody V. clear EL H T.
  induction E as [|d ws cs wss Hw E IH]; constructor; [|apply IH; intros; eapply IN; [right|]; eassumption].
  split.
  - apply NoDup_low_doc_ids. intros w w' i E1 E2. apply (revdict_iff V w i NK NV) in E1. apply (revdict_iff V w' i NK NV) in E2.
    congruence.
  - intros w n. rewrite <- (wcount_words _ _ _ _ w Hw). split.
    + intros (i & Ei & Hin). apply In_low_doc_ids in Hin. destruct Hin as (w' & E1 & -> & P).
      apply (revdict_iff V w' i NK NV) in E1. assert (w = w') by congruence. subst. auto.
    + intros [-> P]. apply wcount_pos in P as P'. assert (K := IN ws w (or_introl eq_refl) P').
      unfold dvals in K. apply in_map_iff in K. destruct K as ([i w0] & E0 & Hin). cbn [snd] in E0. subst w0.
      exists i. assert (Ei : dget V i = Some w) by (apply In_dget; auto). split; [exact Ei|].
      apply In_low_doc_ids. exists w. split; [apply revdict_iff; auto|]. auto.
Qed.
Print Assumptions low_read_without_vocab.

Definition ex_vocab : dict Z pystr := [(0, str "human"); (7, str "tree"); (3, str "graph")].
Definition ex_low : list (list (Z * Q)) := [ [(7, 2%Q); (0, 1%Q)]; []; [(3, (5#2)%Q); (7, 1%Q); (3, 1%Q); (0, (1#2)%Q)] ].

Example low_vocab_ok_ex : vocab_ok ex_vocab.
Proof.
  split; [discriminate | | |].
  - repeat constructor; cbn; intuition discriminate.
  - repeat constructor; vm_compute; intuition discriminate.
  - repeat constructor; discriminate.
Qed.

Example low_roundtrip_ex :
  match low_save (Some ex_vocab) ex_low with
  | Ok (content, offsets) =>
    content = str "3" ++ [chr_nl] ++ str "tree tree human" ++ [chr_nl; chr_nl] ++ str "graph graph tree graph" ++ [chr_nl] /\
    match low_init (Some ex_vocab) content with
    | Ok c => low_iter c content = [ [(7, 2); (0, 1)]; []; [(3, 3); (7, 1)] ] /\
              ix_getitem (low_docbyoffset c content) (Some offsets) (-1) = Ok [(3, 3); (7, 1)]
    | Err _ => False
    end
  | Err _ => False
  end.
Proof. vm_compute. repeat split; reflexivity. Qed.

(** Saved and loaded without a mapping, ids are renumbered: id 10 sorts before id 2. *)
Theorem low_no_id2word_refuted : exists corpus content offsets c,
  low_save None corpus = Ok (content, offsets) /\ low_init None content = Ok c /\
  low_iter c content = [[(1, 1); (0, 3)]] /\ corpus = [[(2, 1%Q); (10, 3%Q)]].
Proof.
  exists [[(2, 1%Q); (10, 3%Q)]], (str "1" ++ [chr_nl] ++ str "2 10 10 10" ++ [chr_nl]), [2].
  exists {| low_num_docs := 1; low_id2word := [(0, str "10"); (1, str "2")]; low_word2id := [(str "10", 0); (str "2", 1)] |}.
  repeat split; vm_compute; reflexivity.
Qed.
Print Assumptions low_no_id2word_refuted.

(** Two ids for one word: the counts of both end up on the later id. *)
Theorem low_duplicate_word_refuted : exists m corpus content offsets c,
  low_save (Some m) corpus = Ok (content, offsets) /\ low_init (Some m) content = Ok c /\
  corpus = [[(0, 1%Q); (1, 2%Q)]] /\ low_iter c content = [[(1, 3)]].
Proof.
  exists [(0, str "a"); (1, str "a")], [[(0, 1%Q); (1, 2%Q)]], (str "1" ++ [chr_nl] ++ str "a a a" ++ [chr_nl]), [2].
  exists {| low_num_docs := 1; low_id2word := [(0, str "a"); (1, str "a")]; low_word2id := [(str "a", 1)] |}.
  repeat split; vm_compute; reflexivity.
Qed.
Print Assumptions low_duplicate_word_refuted.

(** ** C16: Mallet *)

Lemma take_word_sep : forall w s, Forall (fun c => is_space c = false) w -> take_word (w ++ chr_sp :: s) = (w, chr_sp :: s).
Proof.
  intros w s F. induction F as [|c w Hc F IH]; [reflexivity|]. cbn [app take_word]. rewrite Hc, IH. reflexivity.
Qed.
Lemma take_word_all : forall w, Forall (fun c => is_space c = false) w -> take_word w = (w, []).
Proof. intros w F. induction F as [|c w Hc F IH]; [reflexivity|]. cbn [take_word]. rewrite Hc, IH. reflexivity. Qed.

Lemma mallet_split_line : forall docid lang ws, token docid -> token lang -> Forall token ws ->
  mallet_split (mallet_line docid lang ws) = Ok (docid, lang, ws).
Proof.
  intros docid lang ws Td Tl Tw. unfold mallet_split, mallet_line.
  assert (E : strip is_space (docid ++ [chr_sp] ++ lang ++ [chr_sp] ++ join [chr_sp] ws ++ [chr_nl]) = join [chr_sp] (docid :: lang :: ws)).
  { destruct ws as [|w ws].
    - replace (docid ++ [chr_sp] ++ lang ++ [chr_sp] ++ join [chr_sp] [] ++ [chr_nl])
        with (join [chr_sp] [docid; lang] ++ [chr_sp; chr_nl]) by (cbn [join]; rewrite <- !app_assoc; reflexivity).
      apply strip_join; repeat constructor; auto; apply Td || apply Tl.
    - replace (docid ++ [chr_sp] ++ lang ++ [chr_sp] ++ join [chr_sp] (w :: ws) ++ [chr_nl])
        with (join [chr_sp] (docid :: lang :: w :: ws) ++ [chr_nl]).
      + apply strip_join; [repeat constructor; auto; try apply Td; try apply Tl | apply nl_space].
        * inversion Tw; subst. apply H1.
        * inversion Tw; subst. apply H1.
        * inversion Tw; auto.
      + change (join [chr_sp] (docid :: lang :: w :: ws)) with (docid ++ [chr_sp] ++ lang ++ [chr_sp] ++ join [chr_sp] (w :: ws)).
        rewrite <- !app_assoc. reflexivity. }
  rewrite E. clear E. unfold split_none_2.
  assert (LS : forall us, Forall token us -> us <> [] -> exists c s, join [chr_sp] us = c :: s /\ lstrip is_space (c :: s) = c :: s).
  { intros us T NE. destruct (join_start us T NE) as (c & s & E & Hc). exists c, s. split; [exact E|]. apply lstrip_id; auto. }
  destruct (LS (docid :: lang :: ws)) as (c & s & E & L1); [repeat constructor; auto; apply Td || apply Tl | discriminate|].
  assert (E1 : join [chr_sp] (docid :: lang :: ws) = docid ++ chr_sp :: join [chr_sp] (lang :: ws)) by reflexivity.
  rewrite E, L1, <- E, E1. clear c s E L1 E1. rewrite take_word_sep by apply Td.
  destruct (LS (lang :: ws)) as (c & s & E & L1); [constructor; auto | discriminate|].
  cbn [lstrip]. replace (is_space chr_sp) with true by reflexivity. cbv iota.
  rewrite E, L1, <- E. clear c s E L1. destruct ws as [|w ws].
  - cbn [join]. rewrite take_word_all by apply Tl. reflexivity.
  - change (join [chr_sp] (lang :: w :: ws)) with (lang ++ chr_sp :: join [chr_sp] (w :: ws)).
    rewrite take_word_sep by apply Tl. cbn [lstrip]. replace (is_space chr_sp) with true by reflexivity. cbv iota.
    destruct (LS (w :: ws)) as (c & s & E & L1); [auto | discriminate|].
    rewrite E, L1, <- E. rewrite <- (app_nil_r (join _ _)), split_on_space_join by (auto; constructor). reflexivity.
Qed.

Definition mallet_text (docid lang : pystr) (ws : list pystr) : pystr :=
  docid ++ [chr_sp] ++ lang ++ [chr_sp] ++ join [chr_sp] ws.

Lemma mallet_lines_inv : forall m n docs ls, mallet_lines (Some m) n docs = Ok ls ->
  exists wss, Forall2 (fun d ws => low_words (Some m) n (fst d) = Ok ws) docs wss /\
    ls = map (fun p => mallet_line (fst (snd (fst p))) (snd (snd (fst p))) (snd p)) (combine docs wss).
Proof.
  intros m n docs. induction docs as [|[d [i l]] docs IH]; intros ls H; cbn [mallet_lines] in H.
  - apply Ok_inj in H. subst. exists []. split; [constructor | reflexivity].
  - destruct (low_words (Some m) n d) as [ws|e] eqn:Ew; cbn [rbind] in H; [|discriminate].
    destruct (mallet_lines (Some m) n docs) as [ls'|e]; cbn [rbind] in H; [|discriminate]. apply Ok_inj in H.
    destruct (IH ls' eq_refl) as (wss & F & ->). exists (ws :: wss). split; [constructor; auto|].
    rewrite <- H. reflexivity.
Qed.

(** What a written Mallet file contains and gives back. *)
Lemma mallet_file : forall m n docs ls content offsets, Forall token (dvals m) ->
  (forall d, In d docs -> token (fst (snd d)) /\ token (snd (snd d))) ->
  mallet_lines (Some m) n docs = Ok ls -> write_lines [] ls = (content, offsets) ->
  exists wss, Forall2 (fun d ws => low_words (Some m) n (fst d) = Ok ws) docs wss /\
    length (file_lines content) = length docs /\
    forall c, let out := map (fun p => (low_doc_ids (low_word2id c) (snd p), snd (fst p))) (combine docs wss) in
      mallet_iter c content = (out, None) /\ access_ok (ix_getitem (mallet_docbyoffset c content) (Some offsets)) out.
Proof.
  intros m n docs ls content offsets T TM H W. destruct (mallet_lines_inv _ _ _ _ H) as (wss & F & ->). exists wss. split; [exact F|].
  set (ps := combine docs wss) in *.
  assert (L : length docs = length wss) by (clear - F; induction F; cbn; congruence).
  assert (TP : forall p, In p ps -> token (fst (snd (fst p))) /\ token (snd (snd (fst p))) /\ Forall token (snd p)).
  { intros [d ws] Hin. pose proof (in_combine_l _ _ _ _ Hin) as Hd. destruct (TM d Hd). repeat split; auto; try apply H0; try apply H1.
    subst ps. clear - F Hin T. induction F as [|d' ws' ds wss Hw F IH]; [destruct Hin|]. destruct Hin as [E|Hin]; [|auto].
    injection E as <- <-. eapply low_words_tokens; eassumption. }
  set (tx := fun p : (list (Z * Q) * (pystr * pystr)) * list pystr => mallet_text (fst (snd (fst p))) (snd (snd (fst p))) (snd p)).
  assert (El : map (fun p => mallet_line (fst (snd (fst p))) (snd (snd (fst p))) (snd p)) ps = nl_lines (map tx ps)).
  { unfold nl_lines. rewrite map_map. apply map_ext. intros p. unfold tx, mallet_line, mallet_text. rewrite <- !app_assoc. reflexivity. }
  assert (Et : forall p, tx p ++ [chr_nl] = mallet_line (fst (snd (fst p))) (snd (snd (fst p))) (snd p)).
  { intros p. unfold tx, mallet_line, mallet_text. rewrite <- !app_assoc. reflexivity. }
  rewrite El in W.
  assert (NL : Forall (fun w => ~ In chr_nl w) (map tx ps)).
  { apply Forall_forall. intros t Ht. apply in_map_iff in Ht. destruct Ht as (p & <- & Hp). destruct (TP p Hp) as (A & B & C).
    unfold tx, mallet_text. rewrite !in_app_iff. intros [X|[X|[X|[X|X]]]].
    - revert X. apply token_no_nl; auto.
    - destruct X as [X|[]]; discriminate X.
    - revert X. apply token_no_nl; auto.
    - destruct X as [X|[]]; discriminate X.
    - revert X. apply join_no_nl; auto. }
  destruct (written_file _ _ _ _ NL W) as (Ec & Lo & Rd). cbn [app] in Ec. split.
  { rewrite Ec. unfold nl_lines. rewrite file_lines_concat by exact NL. rewrite !map_length. subst ps. rewrite combine_length. lia. }
  intros c out.
  assert (LD : forall p, In p ps -> mallet_line2doc c (tx p ++ [chr_nl]) = Ok (low_doc_ids (low_word2id c) (snd p), snd (fst p))).
  { intros p Hp. destruct (TP p Hp) as (A & B & C). rewrite Et. unfold mallet_line2doc. rewrite mallet_split_line by auto.
    cbn [rbind]. destruct p as [[d [i l]] ws]. reflexivity. }
  split.
  - unfold mallet_iter. rewrite Ec. unfold nl_lines. rewrite file_lines_concat by exact NL.
    apply gen_map_all. rewrite map_map. apply Forall2_map_l'. apply Forall2_refl_in. exact LD.
  - apply ix_access; [rewrite Lo; subst out; rewrite !map_length; reflexivity|].
    intros k o Hk. subst out. rewrite nth_error_map in Hk. destruct (nth_error ps k) as [p|] eqn:Ek; [|discriminate].
    injection Hk as <-. destruct (nth_error_nth_lt _ _ _ p Ek) as [Lk Nk].
    assert (Lk' : (k < length (map tx ps))%nat) by (rewrite map_length; auto). destruct (Rd k Lk') as [O1 O2].
    unfold mallet_docbyoffset. replace (_ <? 0) with false by lia. rewrite O2.
    rewrite (nth_indep _ [] (tx p)) by exact Lk'. rewrite map_nth, Nk. apply LD. apply nth_error_In with k; auto.
Qed.

Lemma mallet_out : forall m n (docs : list (list (Z * Q) * (pystr * pystr))) wss, vocab_ok m -> Forall2 (fun d ws => low_words (Some m) n (fst d) = Ok ws) docs wss ->
  Forall2 (fun d o => same_bag (fst d) (fst o) /\ snd o = snd d) docs
    (map (fun p => (low_doc_ids (revdict m) (snd p), snd (fst p))) (combine docs wss)).
Proof.
  intros m n docs wss V F. induction F as [|d ws ds wss Hw F IH]; cbn [combine map]; constructor; auto.
  cbn [fst snd]. split; [|reflexivity]. eapply low_ids_bag; eassumption.
Qed.

Lemma mallet_init_some : forall m meta content, m <> [] ->
  mallet_init (Some m) meta content = Ok {| low_num_docs := Z.of_nat (length (file_lines content)); low_id2word := m; low_word2id := revdict m |}.
Proof. intros m meta content NE. unfold mallet_init. destruct m; [congruence | reflexivity]. Qed.

Theorem mallet_roundtrip_meta : forall m docs meta content offsets, vocab_ok m ->
  (forall d, In d docs -> token (fst (snd d)) /\ token (snd (snd d))) ->
  mallet_save_meta m docs = Ok (content, offsets) ->
  exists c out, mallet_init (Some m) meta content = Ok c /\ low_num_docs c = Z.of_nat (length docs) /\
    mallet_iter c content = (out, None) /\
    Forall2 (fun d o => same_bag (fst d) (fst o) /\ snd o = snd d) docs out /\
    access_ok (ix_getitem (mallet_docbyoffset c content) (Some offsets)) out.
Proof.
  intros m docs meta content offsets V TM H. unfold mallet_save_meta in H.
  destruct (mallet_lines (Some m) 0 docs) as [ls|e] eqn:E; cbn [rbind] in H; [|discriminate]. apply Ok_inj in H.
  destruct (mallet_file _ _ _ _ _ _ (vocab_tokens _ V) TM E H) as (wss & F & L & A).
  pose proof (mallet_init_some m meta content (vo_nonempty m V)) as MI. rewrite L in MI.
  eexists. eexists. split; [exact MI|]. split; [reflexivity|]. destruct (A {| low_num_docs := Z.of_nat (length docs); low_id2word := m; low_word2id := revdict m |}) as [A1 A2].
  split; [exact A1|]. split; [|exact A2]. cbn [low_word2id]. eapply mallet_out; eassumption.
Qed.
Print Assumptions mallet_roundtrip_meta.

Theorem mallet_roundtrip : forall m corpus meta content offsets, vocab_ok m ->
  mallet_save (Some m) corpus = Ok (content, offsets) ->
  exists c out, mallet_init (Some m) meta content = Ok c /\ low_num_docs c = Z.of_nat (length corpus) /\
    mallet_iter c content = (out, None) /\ Forall2 same_bag corpus (map fst out) /\
    map snd out = map (fun i => (show_Z i, str "__unknown__")) (zrange 0 (Z.of_nat (length corpus))) /\
    access_ok (ix_getitem (mallet_docbyoffset c content) (Some offsets)) out.
Proof.
  intros m corpus meta content offsets V H. unfold mallet_save in H.
  set (ms := map (fun i => (show_Z i, str "__unknown__")) (zrange 0 (Z.of_nat (length corpus)))) in *.
  set (docs := combine corpus ms) in *.
  assert (Lm : length ms = length corpus) by (subst ms; rewrite map_length, zrange_length; lia).
  assert (LD : length docs = length corpus) by (subst docs; rewrite combine_length; lia).
  destruct (mallet_lines (Some m) _ docs) as [ls|e] eqn:E; cbn [rbind] in H; [|discriminate]. apply Ok_inj in H.
  assert (TM : forall d, In d docs -> token (fst (snd d)) /\ token (snd (snd d))).
  { intros [d il] Hin. apply in_combine_r in Hin. subst ms. apply in_map_iff in Hin. destruct Hin as (i & <- & _). cbn [fst snd].
    split; [apply token_show_Z|]. split; [discriminate | repeat constructor]. }
  destruct (mallet_file _ _ _ _ _ _ (vocab_tokens _ V) TM E H) as (wss & F & L & A).
  pose proof (mallet_init_some m meta content (vo_nonempty m V)) as MI. rewrite L, LD in MI.
  eexists. eexists. split; [exact MI|]. split; [reflexivity|].
  destruct (A {| low_num_docs := Z.of_nat (length corpus); low_id2word := m; low_word2id := revdict m |}) as [A1 A2].
  split; [exact A1|]. cbn [low_word2id] in *. pose proof (mallet_out _ _ _ _ V F) as O.
  set (out := map _ (combine docs wss)) in *. clearbody out.
  assert (F1 : map fst docs = corpus).
  { subst docs. clearbody ms. clear - Lm. revert ms Lm. induction corpus as [|d c IH]; intros [|x ms] Lm; try discriminate; [reflexivity|].
    cbn [combine map fst]. rewrite IH by (cbn in Lm; lia). reflexivity. }
  assert (F2 : map snd docs = ms) by (subst docs; apply combine_snd; congruence).
  split; [|split; [|exact A2]].
  - rewrite <- F1. clear - O. induction O as [|d o ds os [X _] O IH]; cbn [map]; constructor; auto.
  - rewrite <- F2. clear - O. induction O as [|d o ds os [_ X] O IH]; cbn [map]; [reflexivity|]. rewrite X, IH. reflexivity.
Qed.
Print Assumptions mallet_roundtrip.

Example mallet_roundtrip_ex :
  match mallet_save_meta ex_vocab (combine ex_low [(str "d1", str "en"); (str "d2", str "cs"); (str "x", str "de")]) with
  | Ok (content, offsets) =>
    content = str "d1 en tree tree human" ++ [chr_nl] ++ str "d2 cs " ++ [chr_nl] ++ str "x de graph graph tree graph" ++ [chr_nl] /\
    match mallet_init (Some ex_vocab) true content with
    | Ok c => fst (mallet_iter c content) =
                [ ([(7, 2); (0, 1)], (str "d1", str "en")); ([], (str "d2", str "cs")); ([(3, 3); (7, 1)], (str "x", str "de")) ] /\
              ix_getitem (mallet_docbyoffset c content) (Some offsets) 1 = Ok ([], (str "d2", str "cs"))
    | Err _ => False
    end
  | Err _ => False
  end.
Proof. vm_compute. repeat split; reflexivity. Qed.

(** Metadata without a mapping never works: the constructor fails on every non-empty file. *)
Theorem mallet_metadata_without_vocab_fails : forall content, file_lines content <> [] ->
  exists e, mallet_init None true content = Err e.
Proof.
  intros content NE. unfold mallet_init. destruct (file_lines content) as [|l ls] eqn:E; [congruence|].
  destruct (rmapM _ (l :: ls)) as [ss|e]; cbn [rbind length Nat.eqb negb andb]; eexists; reflexivity.
Qed.
Print Assumptions mallet_metadata_without_vocab_fails.

Example mallet_metadata_ex : mallet_init None true (str "0 en a b" ++ [chr_nl]) = Err TypeError /\
  mallet_init None true (str "0 en a b c" ++ [chr_nl]) = Err ValueError.
Proof. vm_compute. split; reflexivity. Qed.

(** A document id containing a space moves the pieces. *)
Theorem mallet_docid_space_refuted : exists m docs content offsets c out,
  mallet_save_meta m docs = Ok (content, offsets) /\ mallet_init (Some m) true content = Ok c /\
  mallet_iter c content = (out, None) /\ map snd docs = [(str "my doc", str "en")] /\ map snd out = [(str "my", str "doc")].
Proof.
  exists [(0, str "a")], [([(0, 1%Q)], (str "my doc", str "en"))], (str "my doc en a" ++ [chr_nl]), [0].
  exists {| low_num_docs := 1; low_id2word := [(0, str "a")]; low_word2id := [(str "a", 0)] |}, [([(0, 1)], (str "my", str "doc"))].
  repeat split; vm_compute; reflexivity.
Qed.
Print Assumptions mallet_docid_space_refuted.
