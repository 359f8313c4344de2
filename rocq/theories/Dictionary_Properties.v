(** Theorems about [gensim.corpora.Dictionary] (properties C01 - C09, C53). *)

From Verif Require Import Base Str Dictionary_Model Dictionary_Spec Dictionary_Proofs Dictionary_Proofs2 Dictionary_Proofs3.
From Coq Require Import QArith.
Local Open Scope nat_scope.

(** A dictionary a program can hold: built from the empty one by public calls. *)
Definition reachable (d : dictionary) : Prop := exists ops, d_run ops d_empty = Ok d.

Lemma reachable_inv : forall d, reachable d -> d_inv d.
Proof.
  intros d [ops E]. destruct (run_inv ops d_empty d_inv_empty) as (d' & E' & I). congruence.
Qed.

(** Tokens and documents used in the examples. *)
Definition tA : pystr := str "a".
Definition tB : pystr := str "b".
Definition tC : pystr := str "c".
Definition ex_ops : list dict_op :=
  [OpAddDocuments [[tB; tA; tB]; [tC; tA]; [tA]] (Some 2000000%Z); OpDoc2bow [tC; tB] true false; OpGetitem 1].
Definition ex_d : dictionary := match d_run ex_ops d_empty with Ok d => d | Err _ => d_empty end.
Example ex_d_reachable : reachable ex_d.
Proof. exists ex_ops. vm_compute. reflexivity. Qed.
Example ex_d_value : d_token2id ex_d = [(tA, 0); (tB, 1); (tC, 2)] /\ d_dfs ex_d = [(1, 2); (0, 3); (2, 2)]
  /\ d_num_docs ex_d = 4.
Proof. vm_compute. auto. Qed.

(** ** C01 *)

Theorem dictionary_ids_dense : forall ops, exists d,
  d_run ops d_empty = Ok d /\ dense_ids (dget (d_token2id d)) (d_len d).
Proof.
  intros ops. destruct (run_inv ops d_empty d_inv_empty) as (d & E & I).
  exists d. split; [exact E | exact (inv_dense d I)].
Qed.
Print Assumptions dictionary_ids_dense.

Example dictionary_ids_dense_ex :
  exists d, d_run (ex_ops ++ [OpFilterTokens (Some [1]) None; OpDoc2bow [str "z"; tB] true true]) d_empty = Ok d
    /\ d_token2id d = [(tA, 0); (tC, 1); (tB, 2); (str "z", 3)].
Proof. eexists. vm_compute. auto. Qed.

(** A text file with a gap in its ids is loaded as is; the next updating
    [doc2bow] hands out an id that is already taken. *)
Theorem dictionary_gap_update_refuted : exists content d doc t t' i,
  d_load_from_text content = Ok d /\ t <> t' /\
  (let d' := fst (d_doc2bow d doc true false) in
   dget (d_token2id d') t = Some i /\ dget (d_token2id d') t' = Some i).
Proof.
  exists (str "1" ++ [10%N] ++ str "0" ++ [9%N] ++ str "a" ++ [9%N] ++ str "1" ++ [10%N]
          ++ str "2" ++ [9%N] ++ str "b" ++ [9%N] ++ str "1" ++ [10%N]).
  eexists. exists [str "c"], (str "b"), (str "c"), 2. split; [vm_compute; reflexivity|].
  split; [vm_compute; congruence | vm_compute; auto].
Qed.
Print Assumptions dictionary_gap_update_refuted.

(** ** C02 *)

Theorem dictionary_statistics_exact : forall calls,
  let d := run_calls calls d_empty in
  let docs := updating_docs calls in
  d_num_docs d = length docs /\ d_num_pos d = total_positions docs /\ d_num_nnz d = total_distinct docs /\
  (forall t, (exists i, dget (d_token2id d) t = Some i) <-> exists doc, In doc docs /\ In t doc) /\
  (forall t i, dget (d_token2id d) t = Some i ->
     dget (d_dfs d) i = Some (doc_freq docs t) /\ dget (d_cfs d) i = Some (coll_freq docs t)) /\
  (forall i, In i (dkeys (d_dfs d)) \/ In i (dkeys (d_cfs d)) -> exists t, dget (d_token2id d) t = Some i).
Proof.
  intros calls d docs. destruct (run_calls_stats calls d_empty [] d_inv_empty stats_empty) as [I [S1 S2 S3 S4 S5 S6]].
  cbn [app] in *. repeat (split; [assumption|]). split; [auto|].
  intros i [H|H]; apply inv_id_ex; auto; [apply (i_dfs _ I) in H | apply (i_cfs _ I) in H]; auto.
Qed.
Print Assumptions dictionary_statistics_exact.

Example dictionary_statistics_exact_ex :
  let calls := [([tB; tA; tB], true, false); ([tC], false, true); ([tA; tC], true, true)] in
  d_cfs (run_calls calls d_empty) = [(1, 2); (0, 2); (2, 1)] /\ updating_docs calls = [[tB; tA; tB]; [tA; tC]].
Proof. vm_compute. auto. Qed.

(** ** C03 *)

Theorem doc2bow_exact : forall d doc u m d' bow miss, reachable d ->
  d_doc2bow d doc u m = (d', (bow, miss)) ->
  StronglySorted (fun a b => fst a < fst b) bow /\
  (forall i n, In (i, n) bow <-> exists t, dget (d_token2id d') t = Some i /\ n = count_occ eq_dec doc t /\ 0 < n) /\
  (u = false -> d' = d) /\
  (u = true -> forall t, In t doc -> exists i, dget (d_token2id d') t = Some i) /\
  (m = false -> miss = None) /\
  (m = true -> exists mm, miss = Some mm /\
     forall t n, dget mm t = Some n <-> dget (d_token2id d) t = None /\ n = count_occ eq_dec doc t /\ 0 < n).
Proof.
  intros d doc u m d' bow miss R E. pose proof (reachable_inv d R) as I.
  pose proof (doc2bow_fst d doc u m) as F. rewrite E in F. cbn [fst] in F.
  assert (T : d_token2id d' = if u then d_assign (d_token2id d) (d_missing (d_token2id d) (count_words doc)) else d_token2id d).
  { rewrite F. destruct u; [apply upd_t2i | reflexivity]. }
  assert (I' : d_inv d') by (rewrite F; destruct u; [apply upd_inv|]; auto).
  assert (B : bow = isort pair_leb (d_bow (d_token2id d') (count_words doc))).
  { rewrite T. unfold d_doc2bow in E. destruct u; inversion E; reflexivity. }
  assert (M : miss = if m then Some (dict_of (d_missing (d_token2id d) (count_words doc))) else None).
  { unfold d_doc2bow in E. destruct u, m; inversion E; reflexivity. }
  destruct (doc2bow_result_exact (d_token2id d') doc (inv_inj _ I')) as [S X]. rewrite <- B in S, X.
  split; [exact S|]. split; [exact X|]. split; [intros ->; auto|]. split; [|split].
  - intros -> t HI. rewrite T. apply dget_Some_key, assign_In. auto.
  - intros ->; auto.
  - intros ->. rewrite M. eexists. split; [reflexivity|]. intros t n. apply missing_exact.
Qed.
Print Assumptions doc2bow_exact.

Example doc2bow_exact_ex : snd (d_doc2bow ex_d [str "z"; tC; tA; tC; str "z"] false true)
  = ([(0, 1); (2, 2)], Some [(str "z", 2)]).
Proof. vm_compute. reflexivity. Qed.

(** Read-only calls are exact for any dictionary whose ids are distinct, e.g.
    one loaded from a file with gaps. *)
Theorem doc2bow_readonly_exact : forall d doc m,
  (forall t t' i, dget (d_token2id d) t = Some i -> dget (d_token2id d) t' = Some i -> t = t') ->
  fst (d_doc2bow d doc false m) = d /\
  StronglySorted (fun a b => fst a < fst b) (fst (snd (d_doc2bow d doc false m))) /\
  (forall i n, In (i, n) (fst (snd (d_doc2bow d doc false m))) <->
     exists t, dget (d_token2id d) t = Some i /\ n = count_occ eq_dec doc t /\ 0 < n).
Proof.
  intros d doc m INJ. split; [apply (doc2bow_fst d doc false m)|].
  unfold d_doc2bow. cbn [orb]. destruct m; exact (doc2bow_result_exact (d_token2id d) doc INJ).
Qed.
Print Assumptions doc2bow_readonly_exact.

Example doc2bow_readonly_exact_ex :
  snd (d_doc2bow (mkDictionary [(tA, 7); (tB, 3)] [] [] [(7, 1); (3, 1)] 1 0 0) [tA; tB; tA; tC] false true)
  = ([(3, 1); (7, 2)], Some [(tC, 1)]).
Proof. vm_compute. reflexivity. Qed.

(** ** C04 *)

Theorem dictionary_growth_stable : forall calls d,
  let d' := run_calls calls d in
  (forall t i, dget (d_token2id d) t = Some i -> dget (d_token2id d') t = Some i) /\
  (forall i v, dget (d_dfs d) i = Some v -> exists v', dget (d_dfs d') i = Some v' /\ v <= v') /\
  (forall i v, dget (d_cfs d) i = Some v -> exists v', dget (d_cfs d') i = Some v' /\ v <= v').
Proof. exact run_calls_extends. Qed.
Print Assumptions dictionary_growth_stable.

Theorem dictionary_add_documents_stable : forall docs d d', d_add_documents d docs None = Ok d' ->
  (forall t i, dget (d_token2id d) t = Some i -> dget (d_token2id d') t = Some i) /\
  (forall i v, dget (d_dfs d) i = Some v -> exists v', dget (d_dfs d') i = Some v' /\ v <= v') /\
  (forall i v, dget (d_cfs d) i = Some v -> exists v', dget (d_cfs d') i = Some v' /\ v <= v').
Proof. intros docs d d' E. exact (add_documents_extends docs 0%N d d' E). Qed.
Print Assumptions dictionary_add_documents_stable.

Example dictionary_growth_stable_ex :
  d_token2id (run_calls [([str "A"; tB], true, false)] ex_d) = [(tA, 0); (tB, 1); (tC, 2); (str "A", 3)] /\
  d_dfs (run_calls [([str "A"; tB], true, false)] ex_d) = [(1, 3); (0, 3); (2, 2); (3, 1)].
Proof. vm_compute. auto. Qed.
Example dictionary_add_documents_stable_ex : exists d',
  d_add_documents ex_d [[str "A"]; [tB]] None = Ok d' /\ d_len d' = 4.
Proof. eexists. vm_compute. auto. Qed.

(** With pruning switched on (the default), a large stream may renumber tokens
    (the prune threshold is lowered here to keep the witness small). *)
Theorem dictionary_prune_stability_refuted : exists d docs p d' t i,
  d_add_documents d docs (Some p) = Ok d' /\ dget (d_token2id d) t = Some i /\ dget (d_token2id d') t <> Some i.
Proof.
  exists (fst (d_doc2bow (fst (d_doc2bow d_empty [tA; tB] true false)) [tB] true false)), [[tB]], 1%Z.
  eexists. exists tB, 1. vm_compute. split; [reflexivity|]. split; [reflexivity | discriminate].
Qed.
Print Assumptions dictionary_prune_stability_refuted.

(** ** C05 *)

Theorem filter_extremes_exact : forall d no_below no_above keep_n keep_tokens, reachable d ->
  exists d', d_filter_extremes d no_below no_above keep_n keep_tokens = Ok d' /\
    dense_ids (dget (d_token2id d')) (d_len d') /\
    let known x t := exists i, dget (d_token2id x) t = Some i in
    let cand t := known d t /\ (in_range no_below no_above (d_num_docs d) (df_of d t) \/ In t keep_tokens) in
    let ncand := length (filter (fun t => in_rangeb no_below no_above (d_num_docs d) (df_of d t)
                                          || if in_dec eq_dec t keep_tokens then true else false)
                                (dkeys (d_token2id d))) in
    let key t := if in_dec eq_dec t keep_tokens then d_num_docs d else df_of d t in
    (forall t, known d' t -> cand t) /\
    (keep_n = None -> forall t, cand t -> known d' t) /\
    (forall k, keep_n = Some k ->
       Z.of_nat (d_len d') = if (k <? 0)%Z then Z.max 0 (Z.of_nat ncand + k) else Z.min k (Z.of_nat ncand)) /\
    (forall s c, known d' s -> cand c -> ~ known d' c ->
       key c < key s \/ key c = key s /\ precedes (dkeys (d_token2id d)) s c) /\
    (forall t i', dget (d_token2id d') t = Some i' ->
       exists i, dget (d_token2id d) t = Some i /\
         dget (d_dfs d') i' = dget (d_dfs d) i /\ dget (d_cfs d') i' = dget (d_cfs d) i) /\
    (forall t t' i1 i2 j1 j2, dget (d_token2id d) t = Some i1 -> dget (d_token2id d) t' = Some i2 ->
       dget (d_token2id d') t = Some j1 -> dget (d_token2id d') t' = Some j2 -> (i1 < i2 <-> j1 < j2)) /\
    d_num_docs d' = d_num_docs d /\ d_num_pos d' = d_num_pos d /\ d_num_nnz d' = d_num_nnz d.
Proof.
  intros d nb na kn kt R.
  destruct (filter_extremes_spec d nb na kn kt (reachable_inv d R)) as (d' & E & I & H).
  exists d'. split; [exact E|]. split; [exact (inv_dense d' I) | exact H].
Qed.
Print Assumptions filter_extremes_exact.

Example filter_extremes_exact_ex : exists d',
  d_filter_extremes ex_d 3 (3 # 4) (Some 2%Z) [tC] = Ok d' /\ d_token2id d' = [(tA, 0); (tC, 1)] /\ d_dfs d' = [(0, 3); (1, 2)].
Proof. eexists. vm_compute. auto. Qed.

(** [keep_tokens] are not safe from [keep_n]: they compete with tokens that
    occur in every document. *)
Theorem filter_extremes_keep_tokens_refuted : exists d keep_n keep_tokens d' t,
  reachable d /\ In t keep_tokens /\ (exists i, dget (d_token2id d) t = Some i) /\
  d_filter_extremes d 1 1 (Some keep_n) keep_tokens = Ok d' /\ dget (d_token2id d') t = None.
Proof.
  exists (fst (d_doc2bow d_empty [tA; tB] true false)), 1%Z, [tB]. eexists. exists tB.
  split; [exists [OpDoc2bow [tA; tB] true false]; vm_compute; reflexivity|].
  split; [simpl; auto|]. split; [exists 1; vm_compute; reflexivity|]. vm_compute. auto.
Qed.
Print Assumptions filter_extremes_keep_tokens_refuted.

(** ** C06 *)

Theorem filter_tokens_exact : forall d bad good,
  consistent (d_token2id d) (d_dfs d) (d_cfs d) ->
  exists d', d_filter_tokens d bad good = Ok d' /\
    dense_ids (dget (d_token2id d')) (d_len d') /\
    (forall t, (exists i', dget (d_token2id d') t = Some i') <->
       exists i, dget (d_token2id d) t = Some i /\
         (forall l, bad = Some l -> ~ In i l) /\ (forall l, good = Some l -> In i l)) /\
    (forall t t' i1 i2 j1 j2, dget (d_token2id d) t = Some i1 -> dget (d_token2id d) t' = Some i2 ->
       dget (d_token2id d') t = Some j1 -> dget (d_token2id d') t' = Some j2 -> (i1 < i2 <-> j1 < j2)) /\
    (forall t i i', dget (d_token2id d) t = Some i -> dget (d_token2id d') t = Some i' ->
       dget (d_dfs d') i' = dget (d_dfs d) i /\ dget (d_cfs d') i' = dget (d_cfs d) i) /\
    d_num_docs d' = d_num_docs d /\ d_num_pos d' = d_num_pos d /\ d_num_nnz d' = d_num_nnz d.
Proof.
  intros d bad good C. destruct (filter_tokens_full d bad good C) as (d' & E & I & H).
  exists d'. split; [exact E|]. split; [exact (inv_dense d' I) | exact H].
Qed.
Print Assumptions filter_tokens_exact.

(** [compactify] is the instance that removes nothing. *)
Theorem compactify_exact : forall d,
  consistent (d_token2id d) (d_dfs d) (d_cfs d) ->
  exists d', d_compactify d = Ok d' /\
    dense_ids (dget (d_token2id d')) (d_len d') /\
    (forall t, (exists i', dget (d_token2id d') t = Some i') <-> exists i, dget (d_token2id d) t = Some i) /\
    (forall t t' i1 i2 j1 j2, dget (d_token2id d) t = Some i1 -> dget (d_token2id d) t' = Some i2 ->
       dget (d_token2id d') t = Some j1 -> dget (d_token2id d') t' = Some j2 -> (i1 < i2 <-> j1 < j2)) /\
    (forall t i i', dget (d_token2id d) t = Some i -> dget (d_token2id d') t = Some i' ->
       dget (d_dfs d') i' = dget (d_dfs d) i /\ dget (d_cfs d') i' = dget (d_cfs d) i) /\
    d_num_docs d' = d_num_docs d /\ d_num_pos d' = d_num_pos d /\ d_num_nnz d' = d_num_nnz d.
Proof.
  intros d C. destruct (filter_tokens_full d None None C) as (d' & E & I & K & H).
  exists d'. split; [exact E|]. split; [exact (inv_dense d' I)|]. split; [|exact H].
  intros t. rewrite K. split; [intros (i & Ei & _); eauto|].
  intros (i & Ei). exists i. split; [exact Ei|]. split; intros l El; discriminate.
Qed.
Print Assumptions compactify_exact.

Definition gappy : dictionary :=
  mkDictionary [(tC, 9); (tA, 4); (tB, 6)] [] [(6, 8); (9, 1)] [(4, 1); (6, 2); (9, 3)] 5 11 7.
Example gappy_consistent : consistent (d_token2id gappy) (d_dfs gappy) (d_cfs gappy).
Proof.
  repeat split; simpl; try (repeat constructor; simpl; intuition (discriminate || lia)); intuition lia.
Qed.
Example filter_tokens_exact_ex : exists d', d_filter_tokens gappy (Some [6; 1]) None = Ok d' /\
  d_token2id d' = [(tC, 1); (tA, 0)] /\ d_dfs d' = [(0, 1); (1, 3)] /\ d_cfs d' = [(1, 1)].
Proof. eexists. vm_compute. auto. Qed.
Example compactify_exact_ex : exists d', d_compactify gappy = Ok d' /\ d_token2id d' = [(tC, 2); (tA, 0); (tB, 1)].
Proof. eexists. vm_compute. auto. Qed.

Theorem filter_n_most_frequent_exact : forall d n, reachable d ->
  exists d', d_filter_n_most_frequent d n = Ok d' /\
    dense_ids (dget (d_token2id d')) (d_len d') /\
    let known x t := exists i, dget (d_token2id x) t = Some i in
    (forall t, known d' t -> known d t) /\
    (Z.of_nat (d_len d) - Z.of_nat (d_len d') =
       if (n <? 0)%Z then Z.max 0 (Z.of_nat (d_len d) + n) else Z.min n (Z.of_nat (d_len d)))%Z /\
    (forall r k, known d r -> ~ known d' r -> known d' k ->
       df_of d k < df_of d r \/ df_of d k = df_of d r /\ precedes (dkeys (d_token2id d)) r k) /\
    (forall t i i', dget (d_token2id d) t = Some i -> dget (d_token2id d') t = Some i' ->
       dget (d_dfs d') i' = dget (d_dfs d) i /\ dget (d_cfs d') i' = dget (d_cfs d) i) /\
    d_num_docs d' = d_num_docs d /\ d_num_pos d' = d_num_pos d /\ d_num_nnz d' = d_num_nnz d.
Proof.
  intros d n R. destruct (filter_n_spec d n (reachable_inv d R)) as (d' & E & I & H).
  exists d'. split; [exact E|]. split; [exact (inv_dense d' I) | exact H].
Qed.
Print Assumptions filter_n_most_frequent_exact.
Example filter_n_most_frequent_ex : exists d', d_filter_n_most_frequent ex_d 1 = Ok d' /\ d_token2id d' = [(tB, 0); (tC, 1)].
Proof. eexists. vm_compute. auto. Qed.

(** A dictionary made by [from_corpus] with an [id2word] that misses some ids
    is not consistent, and compactifying it fails. *)
Theorem compactify_from_corpus_refuted : exists corpus id2word,
  d_compactify (d_from_corpus corpus (Some id2word)) = Err KeyError.
Proof. exists [[(0, 1); (1, 1)]], [(0, tA)]. vm_compute. reflexivity. Qed.
Print Assumptions compactify_from_corpus_refuted.

(** ** C07 *)

Theorem dictionary_text_roundtrip : forall d sort_by_word,
  consistent (d_token2id d) (d_dfs d) (d_cfs d) ->
  coherent_cache (d_token2id d) (d_id2token d) ->
  (forall t i, dget (d_token2id d) t = Some i -> text_safe t) ->
  exists content d', d_save_as_text d sort_by_word = Ok content /\ d_load_from_text content = Ok d' /\
    (forall t, dget (d_token2id d') t = dget (d_token2id d) t) /\
    (forall i, dget (d_dfs d') i = dget (d_dfs d) i) /\
    d_num_docs d' = d_num_docs d /\ d_cfs d' = [] /\ d_num_pos d' = 0 /\ d_num_nnz d' = 0.
Proof. exact text_roundtrip. Qed.
Print Assumptions dictionary_text_roundtrip.

Theorem reachable_consistent : forall d, reachable d ->
  consistent (d_token2id d) (d_dfs d) (d_cfs d) /\ coherent_cache (d_token2id d) (d_id2token d).
Proof.
  intros d R. pose proof (reachable_inv d R) as I.
  split; [apply consistent_weak, inv_weak; exact I | apply inv_coherent; exact I].
Qed.
Print Assumptions reachable_consistent.

Example dictionary_text_roundtrip_ex :
  d_save_as_text gappy false = Ok (str "5" ++ [10%N] ++ str "9" ++ [9%N] ++ str "c" ++ [9%N] ++ str "3" ++ [10%N]
    ++ str "6" ++ [9%N] ++ str "b" ++ [9%N] ++ str "2" ++ [10%N] ++ str "4" ++ [9%N] ++ str "a" ++ [9%N] ++ str "1" ++ [10%N]).
Proof. vm_compute. reflexivity. Qed.

(** A token containing a TAB is written but cannot be read back. *)
Theorem dictionary_text_tab_refuted : exists d content,
  reachable d /\ d_save_as_text d true = Ok content /\ d_load_from_text content = Err ValueError.
Proof.
  exists (fst (d_doc2bow d_empty [str "x" ++ [9%N] ++ str "y"] true false)).
  exists (str "1" ++ [10%N] ++ str "0" ++ [9%N] ++ str "x" ++ [9%N] ++ str "y" ++ [9%N] ++ str "1" ++ [10%N]).
  split; [exists [OpDoc2bow [str "x" ++ [9%N] ++ str "y"] true false]; vm_compute; reflexivity|].
  split; vm_compute; reflexivity.
Qed.
Print Assumptions dictionary_text_tab_refuted.

(** ** C08 *)

Theorem reverse_lookup_correct : forall d i, reachable d ->
  (forall t, snd (d_getitem d i) = Ok t <-> dget (d_token2id d) t = Some i) /\
  (d_len d <= i -> snd (d_getitem d i) = Err KeyError) /\
  d_token2id (fst (d_getitem d i)) = d_token2id d.
Proof.
  intros d i R. pose proof (reachable_inv d R) as I. split; [|split].
  - intros t. apply d_getitem_spec; exact I.
  - apply d_getitem_err; exact I.
  - cbn [d_getitem fst]. apply d_refresh_fields.
Qed.
Print Assumptions reverse_lookup_correct.
Example reverse_lookup_ex : snd (d_getitem ex_d 2) = Ok tC /\ snd (d_getitem ex_d 3) = Err KeyError.
Proof. vm_compute. auto. Qed.

(** [patch_with_special_tokens] with two existing tokens fails on a valid
    request, because the cached reverse map is consulted while stale. *)
Theorem patch_two_tokens_refuted : exists d special,
  reachable d /\ (forall t i, In (t, i) special -> i < d_len d) /\ NoDup (map snd special) /\
  d_patch_with_special_tokens d special = Err KeyError.
Proof.
  exists (fst (d_doc2bow d_empty [tA; tB; tC] true false)), [(tB, 0); (tC, 1)].
  split; [exists [OpDoc2bow [tA; tB; tC] true false]; vm_compute; reflexivity|].
  split; [|split; [repeat constructor; simpl; intuition discriminate | vm_compute; reflexivity]].
  intros t i [E|[E|[]]]; inversion E; subst; vm_compute; lia.
Qed.
Print Assumptions patch_two_tokens_refuted.

(** ** C53: one special token *)

Theorem patch_one_token : forall d t idx, reachable d -> idx < d_len d ->
  d_id2token d = [] \/ length (d_id2token d) = d_len d ->
  exists d', d_patch_with_special_tokens d [(t, idx)] = Ok d' /\
    dget (d_token2id d') t = Some idx /\
    dense_ids (dget (d_token2id d')) (d_len d') /\
    (forall t', (exists i, dget (d_token2id d') t' = Some i) <-> t' = t \/ exists i, dget (d_token2id d) t' = Some i) /\
    (forall t' i, t' <> t -> dget (d_token2id d) t' = Some i -> i <> idx -> dget (d_token2id d') t' = Some i).
Proof. intros d t idx R. apply patch_single. exact (reachable_inv d R). Qed.
Print Assumptions patch_one_token.
Example patch_one_token_ex : (exists d', d_patch_with_special_tokens (fst (d_doc2bow d_empty [tA; tB; tC] true false)) [(str "<pad>", 1)] = Ok d'
    /\ d_token2id d' = [(tA, 0); (tB, 3); (tC, 2); (str "<pad>", 1)]) /\
  (exists d', d_patch_with_special_tokens ex_d [(tC, 0)] = Ok d' /\ d_token2id d' = [(tA, 2); (tB, 1); (tC, 0)]).
Proof. split; eexists; vm_compute; auto. Qed.

(** The document frequencies do not move with the tokens. *)
Theorem patch_statistics_refuted : exists d t idx d' u, reachable d /\
  d_patch_with_special_tokens d [(t, idx)] = Ok d' /\
  (exists i, dget (d_token2id d) u = Some i) /\ df_of d' u <> df_of d u.
Proof.
  exists (fst (d_doc2bow (fst (d_doc2bow d_empty [tA; tB] true false)) [tA] true false)), tB, 0. eexists. exists tA.
  split; [exists [OpDoc2bow [tA; tB] true false; OpDoc2bow [tA] true false]; vm_compute; reflexivity|].
  split; [vm_compute; reflexivity|]. split; [exists 0; vm_compute; reflexivity | vm_compute; discriminate].
Qed.
Print Assumptions patch_statistics_refuted.

(** With a half-filled reverse map even one special token can fail. *)
Theorem patch_stale_cache_refuted : exists d t idx, reachable d /\ idx < d_len d /\
  d_patch_with_special_tokens d [(t, idx)] = Err KeyError.
Proof.
  exists (fst (d_doc2bow (fst (d_getitem (fst (d_doc2bow d_empty [tA; tB] true false)) 0)) [tC] true false)), tA, 2.
  split; [exists [OpDoc2bow [tA; tB] true false; OpGetitem 0; OpDoc2bow [tC] true false]; vm_compute; reflexivity|].
  split; [vm_compute; lia | vm_compute; reflexivity].
Qed.
Print Assumptions patch_stale_cache_refuted.

(** ** C09 *)

Theorem merge_with_exact : forall d o, reachable d -> reachable o ->
  exists om d' o2n, other_of_dictionary o = Ok om /\ d_merge_with d om = (d', o2n) /\
    dense_ids (dget (d_token2id d')) (d_len d') /\
    (forall t i, dget (d_token2id d) t = Some i -> dget (d_token2id d') t = Some i) /\
    (forall t, (exists i, dget (d_token2id d') t = Some i) <->
       (exists i, dget (d_token2id d) t = Some i) \/ (exists i, dget (d_token2id o) t = Some i)) /\
    (forall t, df_of d' t = df_of d t + df_of o t) /\
    d_num_docs d' = d_num_docs d + d_num_docs o /\
    d_num_pos d' = d_num_pos d + d_num_pos o /\
    d_num_nnz d' = d_num_nnz d + d_num_nnz o /\
    d_cfs d' = d_cfs d /\
    (forall doc, (forall t, In t doc -> exists i, dget (d_token2id o) t = Some i) ->
       vocab_transform o2n (fst (snd (d_doc2bow o doc false false))) = fst (snd (d_doc2bow d' doc false false))).
Proof.
  intros d o Rd Ro. destruct (merge_spec d o (reachable_inv d Rd) (reachable_inv o Ro)) as (om & d' & o2n & E1 & E2 & I & H).
  exists om, d', o2n. split; [exact E1|]. split; [exact E2|]. split; [exact (inv_dense d' I) | exact H].
Qed.
Print Assumptions merge_with_exact.

Definition ex_o : dictionary := fst (d_doc2bow d_empty [tC; str "0"; tA; tC] true false).
Example merge_with_ex : reachable ex_o /\ exists om d' o2n, other_of_dictionary ex_o = Ok om /\ d_merge_with ex_d om = (d', o2n)
  /\ d_token2id d' = [(tA, 0); (tB, 1); (tC, 2); (str "0", 3)] /\ o2n = [(0, 3); (1, 0); (2, 2)]
  /\ vocab_transform o2n (fst (snd (d_doc2bow ex_o [tC; str "0"; tA; tC] false false))) = [(0, 1); (2, 2); (3, 1)].
Proof.
  split; [exists [OpDoc2bow [tC; str "0"; tA; tC] true false]; vm_compute; reflexivity|].
  eexists. eexists. eexists. split; [vm_compute; reflexivity|]. split; [vm_compute; reflexivity|].
  vm_compute. auto.
Qed.

(** The collection frequencies of the other dictionary are lost. *)
Theorem merge_with_cfs_refuted : exists d o om d' o2n t i j, reachable d /\ reachable o /\
  other_of_dictionary o = Ok om /\ d_merge_with d om = (d', o2n) /\
  dget (d_token2id o) t = Some i /\ dget_or (d_cfs o) i 0 > 0 /\
  dget (d_token2id d') t = Some j /\ dget (d_cfs d') j = None.
Proof.
  exists d_empty, ex_o. eexists. eexists. eexists. exists tA, 1, 1.
  split; [exists []; reflexivity|]. split; [exists [OpDoc2bow [tC; str "0"; tA; tC] true false]; vm_compute; reflexivity|].
  split; [vm_compute; reflexivity|]. split; [vm_compute; reflexivity|].
  vm_compute. repeat split; auto.
Qed.
Print Assumptions merge_with_cfs_refuted.
