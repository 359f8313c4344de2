(** Theorems about [gensim.corpora.HashDictionary] (properties C10, C54). *)

From Verif Require Import Base Str Dictionary_Model Dictionary_Spec SortFacts HashDictionary_Model HashDictionary_Proofs.
From Coq Require Import QArith.
Local Open Scope nat_scope.

(** The bucket of a word, as documented: hash modulo the number of buckets. *)
Definition bucket (myhash : pystr -> Z) (id_range : nat) (w : pystr) (i : nat) : Prop :=
  Z.of_nat i = (myhash w mod Z.of_nat id_range)%Z.

Lemma bucket_hash : forall myhash id_range w i, 0 < id_range ->
  (bucket myhash id_range w i <-> i = h_hash myhash id_range w).
Proof.
  intros myhash id_range w i R. unfold bucket, h_hash.
  pose proof (Z.mod_pos_bound (myhash w) (Z.of_nat id_range)). split; intros; subst; lia.
Qed.

(** Words of the document falling into bucket [i]. *)
Definition bucket_count (myhash : pystr -> Z) (id_range : nat) (doc : list pystr) (i : nat) : nat :=
  length (filter (fun w => (Z.of_nat i =? myhash w mod Z.of_nat id_range)%Z) doc).

Lemma bucket_count_hcount : forall myhash id_range doc i, 0 < id_range ->
  bucket_count myhash id_range doc i = hcount myhash id_range doc i.
Proof.
  intros myhash id_range doc i R. unfold bucket_count, hcount. f_equal. apply filter_ext. intros w.
  pose proof (bucket_hash myhash id_range w i R) as B. unfold bucket in B.
  destruct (Nat.eqb_spec (h_hash myhash id_range w) i) as [E|E].
  - apply Z.eqb_eq. apply B; auto.
  - apply Z.eqb_neq. intros X. apply E. symmetry. apply B; auto.
Qed.

(** ** C10 *)

Theorem hashdict_doc2bow_exact : forall myhash id_range debug h doc u, 0 < id_range ->
  let bow := snd (h_doc2bow myhash id_range debug h doc u) in
  StronglySorted (fun a b => fst a < fst b) bow /\
  (forall i n, In (i, n) bow <-> n = bucket_count myhash id_range doc i /\ 0 < n) /\
  (forall i n, In (i, n) bow -> i < id_range) /\
  list_sum_nat (map snd bow) = length doc.
Proof.
  intros myhash id_range debug h doc u R. cbv zeta.
  destruct (doc_bow_spec myhash id_range debug R h doc u) as (A & B & C & D).
  split; [exact A|]. split; [|split; auto]. intros i n. rewrite bucket_count_hcount by auto. apply B.
Qed.
Print Assumptions hashdict_doc2bow_exact.

(** Two words of the same bucket are counted together. *)
Definition ex_hash (w : pystr) : Z := (Z.of_nat (length w) - 2)%Z.
Example hashdict_doc2bow_ex :
  snd (h_doc2bow ex_hash 3 true h_empty [str "xy"; str "a"; str "abcde"; str "a"; str "b"] false) = [(0, 2); (2, 3)].
Proof. vm_compute. reflexivity. Qed.

(** The vector of a document does not depend on the history nor on the flags. *)
Theorem hashdict_doc2bow_deterministic : forall myhash id_range debug ops ops' doc u u',
  snd (h_doc2bow myhash id_range debug (h_run myhash id_range debug ops h_empty) doc u) =
  snd (h_doc2bow myhash id_range debug (h_run myhash id_range debug ops' h_empty) doc u').
Proof. intros. rewrite !h_doc2bow_bow. reflexivity. Qed.
Print Assumptions hashdict_doc2bow_deterministic.

Example hashdict_doc2bow_deterministic_ex :
  snd (h_doc2bow ex_hash 3 true (h_run ex_hash 3 true [HDoc2bow [str "q"; str "zz"] true; HFilterExtremes 5 (1 # 2) None] h_empty)
         [str "xy"; str "a"] false) = [(0, 1); (2, 1)].
Proof. vm_compute. reflexivity. Qed.

(** Counters of documents and positions count every call, also a "read-only" one. *)
Theorem hashdict_counters_exact : forall myhash id_range debug ops, 0 < id_range ->
  let h := h_run myhash id_range debug ops h_empty in
  h_num_docs h = length (h_docs ops) /\ h_num_pos h = total_positions (h_docs ops).
Proof. intros. apply (h_run_num_docs myhash id_range H debug ops h_empty). Qed.
Print Assumptions hashdict_counters_exact.

(** [doc2bow(document, allow_update=False)] is not read-only. *)
Theorem hashdict_readonly_refuted : exists myhash id_range debug h doc,
  0 < id_range /\ h_num_docs (fst (h_doc2bow myhash id_range debug h doc false)) <> h_num_docs h /\
  h_dfs (fst (h_doc2bow myhash id_range debug h doc false)) <> h_dfs h.
Proof. exists ex_hash, 3, true, h_empty, [str "a"]. vm_compute. split; [lia|]. split; congruence. Qed.
Print Assumptions hashdict_readonly_refuted.

(** ** C54 *)

(** With [debug=True] and no filtering, every table is the exact statistic of
    the documents seen. *)
Theorem hashdict_debug_exact : forall myhash id_range (calls : list (list pystr * bool)), 0 < id_range ->
  let docs := map fst calls in
  let h := fold_left (fun h c => fst (h_doc2bow myhash id_range true h (fst c) (snd c))) calls h_empty in
  let seen t := exists doc, In doc docs /\ In t doc in
  h_num_docs h = length docs /\
  h_num_pos h = total_positions docs /\
  (forall t i, dget (h_token2id h) t = Some i <-> seen t /\ bucket myhash id_range t i) /\
  (forall t i, In t (h_getitem h i) <-> seen t /\ bucket myhash id_range t i) /\
  (forall t, dget_or (h_dfs_debug h) t 0 = doc_freq docs t) /\
  (forall i, dget_or (h_dfs h) i 0 = length (filter (fun doc => negb (bucket_count myhash id_range doc i =? 0)) docs)).
Proof.
  intros myhash id_range calls R. cbv zeta.
  pose proof (h_exact_run myhash id_range R calls [] h_empty (h_exact_empty myhash id_range)) as X.
  cbn [app] in X. destruct X as [A B C D E F G]. split; [exact A|]. split; [exact B|].
  split; [intros; rewrite D, bucket_hash by auto; reflexivity|].
  split; [intros; rewrite E, bucket_hash by auto; reflexivity|].
  split.
  - intros t. unfold dget_or. rewrite G. unfold pos_opt. destruct (doc_freq (map fst calls) t); reflexivity.
  - intros i. unfold dget_or. rewrite F.
    assert (Q : id_freq myhash id_range (map fst calls) i =
       length (filter (fun doc => negb (bucket_count myhash id_range doc i =? 0)) (map fst calls))).
    { unfold id_freq. f_equal. apply filter_ext. intros doc. rewrite bucket_count_hcount by auto. unfold hcount.
      destruct (in_dec eq_dec i (map (h_hash myhash id_range) doc)) as [HI|NI].
      - apply in_map_iff in HI. destruct HI as (w & EW & HI).
        destruct (Nat.eqb_spec (length (filter (fun w => h_hash myhash id_range w =? i) doc)) 0) as [Z|]; [|reflexivity].
        apply length_zero_iff_nil in Z. assert (In w (filter (fun w => h_hash myhash id_range w =? i) doc)) as X.
        { apply filter_In. split; auto. apply Nat.eqb_eq; auto. }
        rewrite Z in X; destruct X.
      - destruct (filter (fun w => h_hash myhash id_range w =? i) doc) as [|w l] eqn:EF; [reflexivity|].
        assert (In w (filter (fun w => h_hash myhash id_range w =? i) doc)) as X by (rewrite EF; simpl; auto).
        apply filter_In in X. destruct X as [HI X]. apply Nat.eqb_eq in X. exfalso. apply NI. apply in_map_iff; eauto. }
    rewrite <- Q. unfold pos_opt. destruct (id_freq myhash id_range (map fst calls) i); reflexivity.
Qed.
Print Assumptions hashdict_debug_exact.

Definition ex_h : hashdict :=
  h_run ex_hash 3 true [HDoc2bow [str "xy"; str "a"; str "b"; str "a"] true; HDoc2bow [str "a"; str "abcde"] false] h_empty.
Example hashdict_debug_ex :
  h_token2id ex_h = [(str "a", 2); (str "b", 2); (str "xy", 0); (str "abcde", 0)] /\
  h_id2token ex_h = [(2, [str "a"; str "b"]); (0, [str "xy"; str "abcde"])] /\
  h_dfs ex_h = [(2, 2); (0, 2)] /\
  h_dfs_debug ex_h = [(str "a", 2); (str "b", 1); (str "xy", 1); (str "abcde", 1)].
Proof. vm_compute. auto. Qed.

(** After any history of [doc2bow] and [filter_extremes] calls the debug tables
    agree with each other. *)
Theorem hashdict_tables_agree : forall myhash id_range ops, 0 < id_range ->
  let h := h_run myhash id_range true ops h_empty in
  (forall t i, dget (h_token2id h) t = Some i -> bucket myhash id_range t i) /\
  (forall t i, In t (h_getitem h i) <-> dget (h_token2id h) t = Some i) /\
  (forall t, In t (dkeys (h_dfs_debug h)) <-> In t (dkeys (h_token2id h))) /\
  (forall i, In i (dkeys (h_dfs h)) <-> exists t, dget (h_token2id h) t = Some i).
Proof.
  intros myhash id_range ops R. cbv zeta.
  destruct (h_run_inv myhash id_range R ops h_empty (h_inv_empty myhash id_range)) as [A B C D E F].
  split; [intros t i X; apply bucket_hash; auto|]. split; [exact D|]. split; [exact E|].
  intros i. rewrite F, nonempty_In. split; intros [t Ht]; exists t; apply D; auto.
Qed.
Print Assumptions hashdict_tables_agree.

(** [filter_extremes] keeps exactly the words within the frequency bounds,
    trimmed to the [keep_n] most frequent ones (ties: first seen first), and
    leaves the surviving rows of every table unchanged. *)
Theorem hashdict_filter_extremes_exact : forall myhash id_range ops nb na kn, 0 < id_range ->
  let h := h_run myhash id_range true ops h_empty in
  let h' := h_filter_extremes h nb na kn in
  let hi := Z.quot (Qnum na * Z.of_nat (h_num_docs h)) (Zpos (Qden na)) in
  let freq t := dget_or (h_dfs_debug h) t 0 in
  let known x t := exists i, dget (h_token2id x) t = Some i in
  let cand t := known h t /\ (nb <= Z.of_nat (freq t) <= hi)%Z in
  (forall t, known h' t -> cand t) /\
  (kn = None -> forall t, cand t -> known h' t) /\
  (forall k, kn = Some k -> (0 <= k)%Z -> length (h_token2id h') =
     Nat.min (Z.to_nat k) (length (filter (fun t => (nb <=? Z.of_nat (freq t))%Z && (Z.of_nat (freq t) <=? hi)%Z)
                                          (dkeys (h_token2id h))))) /\
  (forall s c, known h' s -> cand c -> ~ known h' c ->
     freq c < freq s \/ freq c = freq s /\ precedes (dkeys (h_dfs_debug h)) s c) /\
  (forall t i, dget (h_token2id h') t = Some i ->
     dget (h_token2id h) t = Some i /\ dget (h_dfs_debug h') t = dget (h_dfs_debug h) t) /\
  (forall i t, In t (h_getitem h' i) <-> In t (h_getitem h i) /\ known h' t) /\
  (forall i, (exists t, dget (h_token2id h') t = Some i) -> dget (h_dfs h') i = dget (h_dfs h) i) /\
  (forall i, (forall t, dget (h_token2id h') t <> Some i) -> dget (h_dfs h') i = None) /\
  h_num_docs h' = h_num_docs h /\ h_num_pos h' = h_num_pos h /\ h_num_nnz h' = h_num_nnz h.
Proof.
  intros myhash id_range ops nb na kn R. cbv zeta.
  pose proof (h_run_inv myhash id_range R ops h_empty (h_inv_empty myhash id_range)) as I.
  pose proof (h_filter_spec myhash id_range R _ nb na kn I) as S. cbv zeta in S.
  destruct S as (I' & S1 & S2 & S3 & S4 & S5 & S6 & S7).
  split; [exact S1|]. split; [exact S2|].
  split; [intros k -> Hk; exact (h_filter_length myhash id_range R _ nb na k I Hk)|].
  split; [exact S3|]. split; [exact S4|]. split; [exact S5|].
  split; [|split; [|exact S7]]; intros i X; rewrite S6.
  - destruct X as [t X]. apply (hi_i2t _ _ _ I') in X. destruct (h_getitem (h_filter_extremes _ nb na kn) i); [destruct X | reflexivity].
  - destruct (h_getitem (h_filter_extremes _ nb na kn) i) as [|t l] eqn:EG; [reflexivity|].
    exfalso. apply (X t). apply (hi_i2t _ _ _ I'). rewrite EG; simpl; auto.
Qed.
Print Assumptions hashdict_filter_extremes_exact.

Example hashdict_filter_extremes_ex :
  let h' := h_filter_extremes ex_h 1 (1 # 1) (Some 2%Z) in
  h_token2id h' = [(str "a", 2); (str "b", 2)] /\ h_dfs h' = [(2, 2)] /\ h_getitem h' 0 = [] /\ h_getitem h' 2 = [str "a"; str "b"].
Proof. vm_compute. auto. Qed.

(** The frequency of a bucket is not recomputed when some of its words go: after
    filtering it still counts documents that contain only removed words. *)
Theorem hashdict_filter_bucket_dfs_refuted : exists myhash id_range ops nb na kn i,
  let h' := h_filter_extremes (h_run myhash id_range true ops h_empty) nb na kn in
  let docs := h_docs ops in
  0 < id_range /\ (exists t, In t (h_getitem h' i)) /\
  dget_or (h_dfs h') i 0 <> length (filter (fun doc => existsb (fun t => memb t doc) (h_getitem h' i)) docs).
Proof.
  exists ex_hash, 3, [HDoc2bow [str "a"] true; HDoc2bow [str "a"] true; HDoc2bow [str "b"] true], 2%Z, (1 # 1), None, 2.
  vm_compute. split; [lia|]. split; [exists [97%N]; auto | congruence].
Qed.
Print Assumptions hashdict_filter_bucket_dfs_refuted.
