(** Properties of gensim/matutils.py conversions, top-n selection and Jaccard. *)

From Verif Require Import Base Matutils_Model Matutils_Proofs Matutils_Proofs2 Matutils_Proofs3.
From Coq Require Import QArith Qabs Qminmax Lqa.
Local Open Scope nat_scope.

(** ** C24: corpus2csc *)

(** Number of stored entries of a corpus (specification). *)
Definition nnz_of {W} (c : list (list (nat * W))) : nat := length (concat c).

Lemma total_nnz : forall {W} (c : list (list (nat * W))), total c = nnz_of c.
Proof. unfold nnz_of. induction c as [|d c IH]; [reflexivity|]. cbn [total concat]. rewrite app_length. lia. Qed.

(** The streaming path always succeeds; the matrix read back as a corpus is the
    corpus, document by document, in stored order, duplicates included. *)
Theorem corpus2csc_slow_roundtrip : forall {W} (c : list (list (nat * W))) num_terms, exists m,
  corpus2csc_slow c num_terms = Ok m /\ sparse2corpus_iter m = c /\ sparse2corpus_len m = length c /\
  (forall i d, nth_error c i = Some d -> sparse2corpus_getitem m (Z.of_nat i) = Ok d) /\
  csc_rows m = match num_terms with Some t => t | None => list_max (map S (map fst (concat c))) end.
Proof.
  intros W c nt. exists (the_csc c (terms_of c nt)). split; [apply corpus2csc_slow_eq|].
  split; [apply the_csc_iter|]. split; [reflexivity|]. split; [intros; apply the_csc_getitem; auto|].
  cbn [the_csc csc_rows]. unfold terms_of. destruct nt; [reflexivity|].
  assert (E : all_ids c = map fst (concat c)).
  { unfold all_ids. induction c as [|d c IH]; [reflexivity|]. cbn [map concat]. rewrite map_app, IH. reflexivity. }
  rewrite E. generalize (map fst (concat c)) as l. intros l.
  assert (G : forall l x, list_max (map S (x :: l)) = list_max (x :: l) + 1).
  { clear. induction l as [|y l IH]; intros x; cbn [map list_max fold_right] in *; [lia|].
    specialize (IH y). cbn [map list_max fold_right] in IH. unfold list_max in *. cbn [fold_right map] in *. lia. }
  destruct l; [reflexivity|]. symmetry. apply G.
Qed.
Print Assumptions corpus2csc_slow_roundtrip.

(** The memory-efficient path builds the same matrix, whatever was in the preallocated memory. *)
Theorem corpus2csc_paths_agree : forall {W} (c : list (list (nat * W))) num_terms junk_i junk_d,
  length junk_i = nnz_of c -> length junk_d = nnz_of c ->
  corpus2csc_fast junk_i junk_d c num_terms (length c) (nnz_of c) = corpus2csc_slow c (Some num_terms).
Proof.
  intros W c nt ji jd Li Ld. rewrite <- total_nnz in *. rewrite corpus2csc_fast_eq by auto.
  rewrite corpus2csc_slow_eq. reflexivity.
Qed.
Print Assumptions corpus2csc_paths_agree.

(** Wrong counts never produce a matrix: the fast path succeeds only with the true numbers. *)
Theorem corpus2csc_wrong_counts_raise : forall {W} (c : list (list (nat * W))) num_terms num_docs num_nnz junk_i junk_d,
  length junk_i = num_nnz -> length junk_d = num_nnz ->
  ((exists m, corpus2csc_fast junk_i junk_d c num_terms num_docs num_nnz = Ok m)
   <-> num_docs = length c /\ num_nnz = nnz_of c).
Proof.
  intros W c nt nd nz ji jd Li Ld. split.
  - intros [m E]. apply corpus2csc_fast_ok_inv in E. rewrite total_nnz in E. tauto.
  - intros [-> ->]. rewrite corpus2csc_paths_agree by auto. rewrite corpus2csc_slow_eq. eauto.
Qed.
Print Assumptions corpus2csc_wrong_counts_raise.

(** Matrix entries are the summed weights. *)
Theorem corpus2csc_entries : forall c num_terms m term docno d,
  corpus2csc_slow c num_terms = Ok m -> nth_error c docno = Some d ->
  (csc_entry m term docno == Qsum (map snd (filter (fun iw => (fst iw =? term)%nat) d)))%Q.
Proof.
  intros c nt m t k d E N. rewrite corpus2csc_slow_eq in E. injection E as <-. apply the_csc_entry; exact N.
Qed.
Print Assumptions corpus2csc_entries.

Example corpus2csc_ex :
  let c := [[(2, 1%Q); (0, 3#2)]; []; [(1, 5%Q); (1, 2%Q)]] in
  corpus2csc_slow c None = Ok (mkCsc [1%Q; 3#2; 5%Q; 2%Q] [2; 0; 1; 1] [0; 2; 2; 4] 3 3) /\
  corpus2csc_fast [9; 9; 9; 9] [0%Q; 0%Q; 0%Q; 0%Q] c 3 3 4 = corpus2csc_slow c None /\
  corpus2csc_fast [9; 9; 9] [0%Q; 0%Q; 0%Q] c 3 3 3 = Err ValueError /\
  corpus2csc_fast [9; 9; 9; 9; 9] [0%Q; 0%Q; 0%Q; 0%Q; 0%Q] c 3 3 5 = Err AssertionErr /\
  corpus2csc_fast [9; 9; 9; 9] [0%Q; 0%Q; 0%Q; 0%Q] c 3 2 4 = Err ValueError.
Proof. vm_compute. repeat split. Qed.

Example corpus2csc_entries_ex :
  rmap (fun m => Qred (csc_entry m 1 2)) (corpus2csc_slow [[(2, 1%Q); (0, 3#2)]; []; [(1, 5%Q); (1, 2%Q)]] None) = Ok 7%Q.
Proof. vm_compute. reflexivity. Qed.

(** Negative indices of [Sparse2Corpus] are off by one: [-1] is an empty document and [-2] is the last one. *)
Theorem sparse2corpus_negative_index_refuted : exists (c : list (list (nat * Q))) m d,
  corpus2csc_slow c None = Ok m /\ last c [] = d /\ d <> [] /\
  sparse2corpus_getitem m (-1) = Ok [] /\ sparse2corpus_getitem m (-2) = Ok d.
Proof.
  exists [[(0, 1%Q)]; [(1, 2%Q)]], (mkCsc [1%Q; 2%Q] [0; 1] [0; 1; 2] 2 2), [(1, 2%Q)].
  repeat split; vm_compute; congruence.
Qed.
Print Assumptions sparse2corpus_negative_index_refuted.

(** It is always so: [corpus[-1]] is the empty document for every non-empty matrix. *)
Theorem sparse2corpus_minus_one_empty : forall {W} (c : list (list (nat * W))) num_terms m,
  corpus2csc_slow c num_terms = Ok m -> sparse2corpus_getitem m (-1) = Ok [].
Proof.
  intros W c nt m E. rewrite corpus2csc_slow_eq in E. injection E as <-.
  unfold sparse2corpus_getitem, np_index. cbn [the_csc csc_indptr length]. rewrite length_offs.
  change (-1 <? 0)%Z with true. change (-1 + 1)%Z with 0%Z. cbv iota.
  destruct (-1 + Z.of_nat (S (length c)) <? 0)%Z eqn:?; [lia|]. cbn [rbind]. change (0 <? 0)%Z with false. cbv iota.
  destruct (Z.of_nat (S (length c)) <=? 0)%Z eqn:?; [lia|]. cbn [rbind Z.to_nat nth].
  unfold slice. cbn [Nat.sub firstn combine]. reflexivity.
Qed.
Print Assumptions sparse2corpus_minus_one_empty.

Example sparse2corpus_minus_one_empty_ex :
  (let* m := corpus2csc_slow [[(0, 1%Q)]; [(1, 2%Q)]] None in sparse2corpus_getitem m (-1)) = Ok [].
Proof. vm_compute. reflexivity. Qed.

(** ** C25: dense and sparse vectors *)

(** [sparse2full]: with ids in range, position [i] holds the weight of the last
    pair with id [i], and 0 where there is none. *)
Theorem sparse2full_exact : forall doc n,
  (forall i w, In (i, w) doc -> (0 <= i < Z.of_nat n)%Z) ->
  exists v, sparse2full doc n = Ok v /\ length v = n /\
    (forall l1 i w l2, doc = l1 ++ (Z.of_nat i, w) :: l2 -> ~ In (Z.of_nat i) (map fst l2) -> nth_error v i = Some w) /\
    (forall i, i < n -> ~ In (Z.of_nat i) (map fst doc) -> nth_error v i = Some 0%Q).
Proof.
  intros doc n R.
  assert (R' : forall i, In i (map fst doc) -> (0 <= i < Z.of_nat n)%Z).
  { intros i Hi. apply in_map_iff in Hi. destruct Hi as ([k w] & <- & HI). eapply R; eauto. }
  destruct (sparse2full_get doc n R') as (v & E & L & G). exists v. split; [exact E|]. split; [exact L|]. split.
  - intros l1 i w l2 -> NI. assert (B : i < n).
    { specialize (R (Z.of_nat i) w). rewrite in_app_iff in R. specialize (R ltac:(simpl; auto)). lia. }
    rewrite (nth_error_nth' v 0%Q) by lia. f_equal. rewrite G. unfold dget_or. rewrite dget_dict_of.
    rewrite rev_app_distr. cbn [rev]. rewrite <- app_assoc, dget_app.
    replace (dget (rev l2) (Z.of_nat i)) with (@None Q).
    + cbn [app dget]. destruct (eq_dec (Z.of_nat i) (Z.of_nat i)); congruence.
    + symmetry. apply dget_None. intros HI. apply NI. unfold dkeys in HI. rewrite map_rev in HI. apply in_rev; exact HI.
  - intros i Hi NI. rewrite (nth_error_nth' v 0%Q) by lia. f_equal. rewrite G. unfold dget_or.
    replace (dget (dict_of doc) (Z.of_nat i)) with (@None Q); [reflexivity|].
    symmetry. apply dget_None. rewrite In_dkeys_dict_of. exact NI.
Qed.
Print Assumptions sparse2full_exact.

Theorem sparse2full_out_of_range : forall doc n i w, In (i, w) doc -> (i < - Z.of_nat n \/ Z.of_nat n <= i)%Z ->
  sparse2full doc n = Err IndexError.
Proof. exact sparse2full_index_error. Qed.
Print Assumptions sparse2full_out_of_range.

Example sparse2full_ex :
  sparse2full [(3, 1#2); (0, 2%Q); (3, 7%Q)]%Z 5 = Ok [2%Q; 0%Q; 0%Q; 7%Q; 0%Q] /\
  sparse2full [(3, 1#2); (5, 2%Q)]%Z 5 = Err IndexError.
Proof. vm_compute. split; reflexivity. Qed.

(** A negative id is not rejected: it overwrites a position counted from the end. *)
Theorem sparse2full_negative_id_refuted : exists doc n v, sparse2full doc n = Ok v /\
  exists i w, In (i, w) doc /\ (i < 0)%Z /\ In w v.
Proof.
  exists [(-1, 5%Q)]%Z, 3, [0%Q; 0%Q; 5%Q]. split; [vm_compute; reflexivity|].
  exists (-1)%Z, 5%Q. simpl. split; [auto|]. split; [lia|auto].
Qed.
Print Assumptions sparse2full_negative_id_refuted.

Theorem full2sparse_exact : forall v eps,
  StronglySorted lt (map fst (full2sparse v eps)) /\
  forall i w, In (i, w) (full2sparse v eps) <-> nth_error v i = Some w /\ (eps < Qabs w)%Q.
Proof. intros. split; [apply full2sparse_sorted | intros; apply In_full2sparse]. Qed.
Print Assumptions full2sparse_exact.

(** sparse -> dense -> sparse keeps exactly the entries above eps, in increasing id order. *)
Theorem sparse_dense_sparse_roundtrip : forall doc n eps, (0 <= eps)%Q -> NoDup (map fst doc) ->
  (forall i w, In (i, w) doc -> (0 <= i < Z.of_nat n)%Z) ->
  exists v, sparse2full doc n = Ok v /\
    StronglySorted lt (map fst (full2sparse v eps)) /\
    forall i w, In (i, w) (full2sparse v eps) <-> In (Z.of_nat i, w) doc /\ (eps < Qabs w)%Q.
Proof.
  intros doc n eps He ND R.
  assert (R' : forall i, In i (map fst doc) -> (0 <= i < Z.of_nat n)%Z).
  { intros i Hi. apply in_map_iff in Hi. destruct Hi as ([k w] & <- & HI). eapply R; eauto. }
  destruct (sparse2full_get doc n R') as (v & E & L & G). exists v. split; [exact E|].
  split; [apply full2sparse_sorted|]. apply (sparse_dense_sparse doc n); auto.
Qed.
Print Assumptions sparse_dense_sparse_roundtrip.

(** dense -> sparse -> dense zeroes the entries not above eps and keeps the rest. *)
Theorem dense_sparse_dense_roundtrip : forall v eps,
  sparse2full (map (fun iw => (Z.of_nat (fst iw), snd iw)) (full2sparse v eps)) (length v)
  = Ok (map (fun w => if Qltb eps (Qabs w) then w else 0%Q) v).
Proof. exact dense_sparse_dense. Qed.
Print Assumptions dense_sparse_dense_roundtrip.

Example dense_sparse_ex :
  full2sparse [1#4; 0%Q; (-2)#1; 1#100] (1#10) = [(0, 1#4); (2, (-2)#1)] /\
  sparse2full [(0%Z, 1#4); (2%Z, (-2)#1)] 4 = Ok [1#4; 0%Q; (-2)#1; 0%Q].
Proof. vm_compute. split; reflexivity. Qed.

(** corpus2dense followed by Dense2Corpus, for documents whose ids increase. *)
Theorem corpus2dense_roundtrip : forall (c : list (list (nat * Q))) n nd cols,
  (forall d, In d c -> StronglySorted lt (map fst d) /\ forall i w, In (i, w) d -> i < n /\ (eps9 < Qabs w)%Q) ->
  corpus2dense (map (map (fun iw => (Z.of_nat (fst iw), snd iw))) c) n nd = Ok cols ->
  dense2corpus cols = c /\ length cols = length c /\ (forall col, In col cols -> length col = n).
Proof.
  intros c n nd cols H E. set (zd := map (fun iw : nat * Q => (Z.of_nat (fst iw), snd iw))) in *.
  assert (E' : rmapM (fun doc => sparse2full doc n) (map zd c) = Ok cols).
  { destruct nd as [nd|]; [apply corpus2dense_some in E; tauto|].
    unfold corpus2dense in E. destruct (map zd c); [discriminate | exact E]. }
  clear E. revert cols E'. induction c as [|d c IH]; intros cols E.
  - injection E as <-. repeat split; simpl; tauto.
  - cbn [map rmapM] in E. destruct (sparse2full (zd d) n) as [v|] eqn:Ed; cbn [rbind] in E; [|discriminate].
    destruct (rmapM (fun doc => sparse2full doc n) (map zd c)) as [vs|]; cbn [rbind] in E; [|discriminate].
    injection E as <-. destruct (IH (fun d' Hd => H d' (or_intror Hd)) vs eq_refl) as (I1 & I2 & I3).
    destruct (H d (or_introl eq_refl)) as [Sd Rd].
    assert (Kd : map fst (zd d) = map Z.of_nat (map fst d)) by (unfold zd; rewrite !map_map; reflexivity).
    assert (NDd : NoDup (map fst (zd d))).
    { rewrite Kd. apply FinFun.Injective_map_NoDup; [intros a b; lia | apply StronglySorted_lt_NoDup; exact Sd]. }
    assert (Rz : forall i w, In (i, w) (zd d) -> (0 <= i < Z.of_nat n)%Z).
    { intros i w HI. unfold zd in HI. apply in_map_iff in HI. destruct HI as ([k u] & Eq & HI). inversion Eq; subst.
      apply Rd in HI. lia. }
    destruct (sparse_dense_sparse_roundtrip (zd d) n eps9 ltac:(discriminate) NDd Rz) as (v' & Ev & Sv & Iv).
    rewrite Ed in Ev. injection Ev as <-.
    split; [|split].
    + unfold dense2corpus. cbn [map]. f_equal; [|exact I1]. apply sorted_fst_unique; auto.
      intros [i w]. rewrite Iv. unfold zd. rewrite in_map_iff. split.
      * intros [([k u] & Eq & HI) _]. cbn in Eq. inversion Eq. apply Nat2Z.inj in H1. subst. exact HI.
      * intros HI. split; [exists (i, w); auto | apply (Rd i w HI)].
    + cbn. auto.
    + intros col [<-|HI]; [|auto]. destruct (sparse2full_exact (zd d) n Rz) as (v'' & Ev & L & _). congruence.
Qed.
Print Assumptions corpus2dense_roundtrip.

(** A wrong [num_docs] is never silent. *)
Theorem corpus2dense_num_docs_checked : forall c n nd cols, corpus2dense c n (Some nd) = Ok cols -> nd = length c.
Proof. intros c n nd cols E. apply corpus2dense_some in E. tauto. Qed.
Print Assumptions corpus2dense_num_docs_checked.

Example corpus2dense_ex :
  let c := [[(0, 1%Q)]; [(1, 2%Q); (2, 3#2)]] in
  let z := map (map (fun iw => (Z.of_nat (fst iw), snd iw))) c in
  corpus2dense z 3 (Some 2) = Ok [[1%Q; 0%Q; 0%Q]; [0%Q; 2%Q; 3#2]] /\
  corpus2dense z 3 None = corpus2dense z 3 (Some 2) /\
  corpus2dense z 3 (Some 3) = Err AssertionErr /\ corpus2dense z 3 (Some 1) = Err IndexError /\
  dense2corpus [[1%Q; 0%Q; 0%Q]; [0%Q; 2%Q; 3#2]] = c.
Proof. vm_compute. repeat split. Qed.

(** ** C26: top-n *)

(** For every behaviour of [np.argsort] and [np.argpartition] allowed by their
    documentation. *)
Theorem argsort_is_topn : forall np_argsort np_argpartition,
  argsort_contract np_argsort -> argpartition_contract np_argpartition ->
  forall x topn reverse,
    let r := argsort np_argsort np_argpartition x topn reverse in
    let k := match topn with None => length x | Some t => Z.to_nat t end in
    let before i j := if reverse then (nth j x 0 <= nth i x 0)%Q else (nth i x 0 <= nth j x 0)%Q in
    length r = Nat.min k (length x) /\ NoDup r /\ (forall i, In i r -> i < length x) /\
    StronglySorted before r /\
    (forall i j, In i r -> j < length x -> ~ In j r -> before i j).
Proof. intros f g Hf Hg x topn reverse. exact (argsort_topn f g Hf Hg x topn reverse). Qed.
Print Assumptions argsort_is_topn.

Theorem full2sparse_clipped_is_topn : forall np_argsort np_argpartition,
  argsort_contract np_argsort -> argpartition_contract np_argpartition ->
  forall vec topn eps,
    let r := full2sparse_clipped np_argsort np_argpartition vec topn eps in
    length r = Nat.min (Z.to_nat topn) (length (filter (fun w => Qltb eps (Qabs w)) vec)) /\
    NoDup (map fst r) /\
    (forall i w, In (i, w) r -> nth_error vec i = Some w /\ (eps < Qabs w)%Q) /\
    StronglySorted (fun a b => (Qabs (snd b) <= Qabs (snd a))%Q) r /\
    (forall i w j u, In (i, w) r -> nth_error vec j = Some u -> (eps < Qabs u)%Q -> ~ In j (map fst r) ->
       (Qabs u <= Qabs w)%Q).
Proof.
  intros f g Hf Hg vec topn eps. pose proof (clipped_topn f g Hf Hg vec topn eps) as T. cbv zeta in *.
  assert (L : length (full2sparse vec eps) = length (filter (fun w => Qltb eps (Qabs w)) vec)).
  { rewrite full2sparse_eq. unfold indexed. generalize 0. induction vec as [|w vec IH]; intros s; [reflexivity|].
    cbn [length seq combine filter snd]. destruct (Qltb eps (Qabs w)); cbn [length]; rewrite IH; auto.
    - exact (clipped_topn f g Hf Hg vec topn eps).
    - exact (clipped_topn f g Hf Hg vec topn eps). }
  rewrite L in T. exact T.
Qed.
Print Assumptions full2sparse_clipped_is_topn.

(** The contracts are satisfiable. *)
Theorem numpy_contracts_satisfiable : argsort_contract ref_argsort /\ argpartition_contract ref_argpartition.
Proof.
  split; [exact ref_argsort_contract|]. intros x k Hk. destruct (ref_argsort_contract x) as [P S].
  split; [exact P|]. intros i j Hi Hj. unfold ref_argpartition in *. rewrite <- (firstn_skipn k) in S.
  apply StronglySorted_app_inv in S. apply S; auto.
Qed.
Print Assumptions numpy_contracts_satisfiable.

Example argsort_ex :
  argsort ref_argsort ref_argpartition [3%Q; 1%Q; 2%Q; 5%Q] (Some 2%Z) true = [3; 0] /\
  argsort ref_argsort ref_argpartition [3%Q; 1%Q; 2%Q; 5%Q] (Some 2%Z) false = [1; 2] /\
  argsort ref_argsort ref_argpartition [3%Q; 1%Q; 2%Q; 5%Q] None true = [3; 0; 2; 1] /\
  argsort ref_argsort ref_argpartition [3%Q; 1%Q; 2%Q; 5%Q] (Some (-1)%Z) true = [] /\
  full2sparse_clipped ref_argsort ref_argpartition [3%Q; (-4)#1; 2%Q; 0%Q] 2 (1#10) = [(1, (-4)#1); (0, 3%Q)].
Proof. vm_compute. repeat split. Qed.

(** ** C28: Jaccard *)

(** On bags the value never drops below 1/2, although the documentation promises [0, 1] with 0 for most similar. *)
Theorem jaccard_bow_range : forall a b q, NoDup (map fst a) -> NoDup (map fst b) ->
  (forall i w, In (i, w) (a ++ b) -> (0 <= w)%Q) -> jaccard_bow a b = Some q -> (1#2 <= q <= 1)%Q.
Proof.
  intros a b q Na Nb NN E.
  assert (NNa : nonneg a) by (intros i w HI; apply (NN i w), in_app_iff; auto).
  assert (NNb : nonneg b) by (intros i w HI; apply (NN i w), in_app_iff; auto).
  pose proof (jaccard_bow_eq a b Na Nb) as J. rewrite E in J. destruct J as [NZ J].
  pose proof (Qsum_nonneg a NNa) as Sa. pose proof (Qsum_nonneg b NNb) as Sb.
  pose proof (inter_le_l a b) as La. pose proof (inter_le_l b a) as Lb. rewrite <- (inter_sym a b Na Nb NNa NNb) in Lb.
  pose proof (inter_nonneg a b NNa NNb) as I0.
  set (u := (Qsum (map snd a) + Qsum (map snd b))%Q) in *.
  assert (Pu : (0 < u)%Q).
  { destruct (Qlt_le_dec 0 u) as [|Hle]; [assumption|]. exfalso. apply NZ. apply Qle_antisym; [exact Hle|unfold u; lra]. }
  assert (H1 : (inter a b / u <= 1#2)%Q) by (apply Qle_shift_div_r; [assumption|unfold u; lra]).
  assert (H0 : (0 <= inter a b / u)%Q) by (apply Qle_shift_div_l; [assumption|lra]).
  rewrite J. lra.
Qed.
Print Assumptions jaccard_bow_range.

Theorem jaccard_bow_self : forall a, NoDup (map fst a) -> (forall i w, In (i, w) a -> (0 <= w)%Q) ->
  (exists i w, In (i, w) a /\ (0 < w)%Q) -> exists q, jaccard_bow a a = Some q /\ (q == 1#2)%Q.
Proof.
  intros a Na NN (i & w & HI & Pw).
  assert (P : (0 < Qsum (map snd a))%Q).
  { clear Na. revert HI NN. induction a as [|[j u] a IH]; intros HI NN; [destruct HI|].
    change (Qsum (map snd ((j, u) :: a))) with (u + Qsum (map snd a))%Q.
    assert (NNa : nonneg a) by (intros k x Hk; apply (NN k x); simpl; auto).
    destruct HI as [E|HI].
    - inversion E; subst. pose proof (Qsum_nonneg a NNa). lra.
    - specialize (IH HI NNa). pose proof (NN j u (or_introl eq_refl)). lra. }
  pose proof (jaccard_bow_eq a a Na Na) as J. destruct (jaccard_bow a a) as [q|].
  - destruct J as [NZ J]. exists q. split; [reflexivity|]. rewrite J, inter_self by auto. field. lra.
  - exfalso. lra.
Qed.
Print Assumptions jaccard_bow_self.

Theorem jaccard_bow_symmetric : forall a b, NoDup (map fst a) -> NoDup (map fst b) ->
  (forall i w, In (i, w) (a ++ b) -> (0 <= w)%Q) ->
  match jaccard_bow a b, jaccard_bow b a with
  | Some x, Some y => (x == y)%Q
  | None, None => True
  | _, _ => False
  end.
Proof.
  intros a b Na Nb NN.
  assert (NNa : nonneg a) by (intros i w HI; apply (NN i w), in_app_iff; auto).
  assert (NNb : nonneg b) by (intros i w HI; apply (NN i w), in_app_iff; auto).
  pose proof (jaccard_bow_eq a b Na Nb) as J. pose proof (jaccard_bow_eq b a Nb Na) as J'.
  destruct (jaccard_bow a b) as [x|], (jaccard_bow b a) as [y|]; auto.
  - destruct J as [NZ J], J' as [NZ' J']. rewrite J, J', (inter_sym a b) by auto. rewrite (Qplus_comm (Qsum (map snd b))). reflexivity.
  - destruct J as [NZ J]. apply NZ. rewrite Qplus_comm. exact J'.
  - destruct J' as [NZ J']. apply NZ. rewrite Qplus_comm. exact J.
Qed.
Print Assumptions jaccard_bow_symmetric.

(** Division by zero exactly for total weight zero; in particular for two empty bags. *)
Theorem jaccard_bow_zero_division : forall a b,
  jaccard_bow a b = None <-> (Qsum (map snd a) + Qsum (map snd b) == 0)%Q.
Proof.
  intros a b. unfold jaccard_bow. destruct (Qeq_bool _ 0) eqn:E.
  - apply Qeq_bool_iff in E. tauto.
  - split; [discriminate|]. intros H. apply Qeq_bool_iff in H. congruence.
Qed.
Print Assumptions jaccard_bow_zero_division.

Example jaccard_bow_ex :
  option_map Qred (jaccard_bow [(0, 1%Q); (1, 2%Q)]%Z [(1, 1%Q); (2, 1%Q)]%Z) = Some (4#5) /\
  option_map Qred (jaccard_bow [(0, 1%Q); (1, 2%Q)]%Z [(0, 1%Q); (1, 2%Q)]%Z) = Some (1#2) /\
  jaccard_bow [] [] = None.
Proof. vm_compute. repeat split. Qed.

(** Set version used for non-bag input. *)
Theorem jaccard_sets_metric_facts : forall {A} `{EqDec A} (a b : list A),
  jaccard_sets a b = jaccard_sets b a /\
  (jaccard_sets a b = None <-> a = [] /\ b = []) /\
  (forall q, jaccard_sets a b = Some q -> (0 <= q <= 1)%Q /\ ((q == 0)%Q <-> forall x, In x a <-> In x b)).
Proof.
  intros A D a b. unfold jaccard_sets. rewrite !set_len_and, !set_len_or.
  rewrite (set_and_comm b a), (set_or_comm b a). split; [reflexivity|].
  destruct (length (set_or a b) =? 0) eqn:E.
  - apply Nat.eqb_eq in E. split; [|discriminate]. split; [|reflexivity]. intros _. apply set_or_zero; exact E.
  - apply Nat.eqb_neq in E. split; [split; [discriminate|]; intros H; apply set_or_zero in H; congruence|].
    intros q Eq. injection Eq as <-.
    destruct (ratio_bounds (length (set_and a b)) (length (set_or a b)) (set_and_le_or a b) ltac:(lia)) as [B1 B2].
    split; [exact B1|]. rewrite B2. apply set_and_eq_or.
Qed.
Print Assumptions jaccard_sets_metric_facts.

Theorem jaccard_distance_metric_facts : forall {A} `{EqDec A} (a b : list A),
  jaccard_distance a b = jaccard_distance b a /\ (0 <= jaccard_distance a b <= 1)%Q /\
  ((jaccard_distance a b == 0)%Q <-> (exists x, In x a) /\ forall x, In x a <-> In x b).
Proof.
  intros A D a b. unfold jaccard_distance. rewrite !set_len_and, !set_len_or.
  rewrite (set_and_comm b a), (set_or_comm b a). split; [reflexivity|].
  destruct (length (set_or a b) =? 0) eqn:E.
  - apply Nat.eqb_eq in E. apply set_or_zero in E. destruct E as [-> ->]. split; [lra|].
    split; [intros H; exfalso; revert H; compute; discriminate | intros [[x []] _]].
  - apply Nat.eqb_neq in E.
    destruct (ratio_bounds (length (set_and a b)) (length (set_or a b)) (set_and_le_or a b) ltac:(lia)) as [B1 B2].
    split; [exact B1|]. rewrite B2, set_and_eq_or. split; [|tauto]. intros H. split; [|exact H].
    destruct a as [|x a]; [|exists x; simpl; auto]. destruct b as [|y b]; [exfalso; apply E; reflexivity|].
    exfalso. apply (proj2 (H y)). simpl; auto.
Qed.
Print Assumptions jaccard_distance_metric_facts.

Example jaccard_distance_ex :
  Qred (jaccard_distance [1; 2; 2; 3] [2; 3; 4]) = (1#2) /\ Qred (jaccard_distance [1; 2; 1] [2; 1]) = 0%Q /\
  jaccard_distance (@nil nat) [] = 1%Q /\ jaccard_sets (@nil nat) [] = None.
Proof. vm_compute. repeat split. Qed.

(** ** C56: [_convert_vec] without [num_features] *)

(** Two bags with ids below the number of entries of the longer one are densified exactly... *)
Theorem convert_vec_small_ids : forall a b n, n = Nat.max (length a) (length b) ->
  (forall i w, In (i, w) (a ++ b) -> (0 <= i < Z.of_nat n)%Z) ->
  exists va vb, convert_vec_bow a b None = Ok (va, vb) /\
    sparse2full a n = Ok va /\ sparse2full b n = Ok vb /\ length va = n /\ length vb = n.
Proof.
  intros a b n -> R. set (n := Nat.max _ _) in *.
  destruct (sparse2full_exact a n) as (va & Ea & La & _); [intros i w HI; apply (R i w), in_app_iff; auto|].
  destruct (sparse2full_exact b n) as (vb & Eb & Lb & _); [intros i w HI; apply (R i w), in_app_iff; auto|].
  exists va, vb. unfold convert_vec_bow. fold n. rewrite Ea, Eb. cbn. auto.
Qed.
Print Assumptions convert_vec_small_ids.

(** ... and any larger id makes the divergence raise [IndexError], although the inputs are valid bags. *)
Theorem convert_vec_large_id_fails : forall a b i w, In (i, w) (a ++ b) ->
  (Z.of_nat (Nat.max (length a) (length b)) <= i)%Z -> convert_vec_bow a b None = Err IndexError.
Proof.
  intros a b i w HI Hi. unfold convert_vec_bow. set (n := Nat.max _ _) in *.
  apply in_app_iff in HI. destruct HI as [HI|HI].
  - rewrite (sparse2full_index_error a n i w HI) by (right; exact Hi). reflexivity.
  - rewrite (sparse2full_index_error b n i w HI) by (right; exact Hi).
    destruct (sparse2full a n) as [va|e] eqn:E; [reflexivity|]. cbn. f_equal.
    unfold sparse2full in E. destruct (rmapM (np_index n) (dkeys (dict_of a))) as [|e'] eqn:E'; cbn in E; [discriminate|].
    injection E as ->. clear - E'. revert E'. generalize (dkeys (dict_of a)) as l. induction l as [|z l IH]; intros E; [discriminate|].
    cbn [rmapM] in E. destruct (np_index n z) as [k|e''] eqn:Ez; cbn [rbind] in E.
    + destruct (rmapM (np_index n) l); cbn [rbind] in E; [discriminate|]. apply IH. exact E.
    + injection E as ->. unfold np_index in Ez. destruct (z <? 0)%Z, (z + Z.of_nat n <? 0)%Z, (Z.of_nat n <=? z)%Z; congruence.
Qed.
Print Assumptions convert_vec_large_id_fails.

Theorem convert_vec_refuted : exists a, NoDup (map fst a) /\ (forall i w, In (i, w) a -> (0 <= i)%Z /\ (0 < w)%Q) /\
  convert_vec_bow a a None = Err IndexError.
Proof.
  exists [(5, 1%Q)]%Z. split; [repeat constructor; simpl; tauto|]. split; [|vm_compute; reflexivity].
  intros i w [E|[]]. inversion E; subst. split; [lia|reflexivity].
Qed.
Print Assumptions convert_vec_refuted.

Example convert_vec_ex :
  convert_vec_bow [(0, 1#2); (1, 1#2)]%Z [(1, 1%Q)]%Z None = Ok ([1#2; 1#2], [0%Q; 1%Q]) /\
  convert_vec_bow [(5, 1%Q)]%Z [(5, 1%Q)]%Z (Some 6) = Ok ([0%Q;0%Q;0%Q;0%Q;0%Q;1%Q], [0%Q;0%Q;0%Q;0%Q;0%Q;1%Q]).
Proof. vm_compute. split; reflexivity. Qed.
