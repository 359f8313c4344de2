(** Theorems about tf-idf models (properties C51, C66). *)
From Verif Require Import Base Str Dictionary_Model Dictionary_Spec Dictionary_Proofs Dictionary_Proofs2 Dictionary_Properties MatReal_Model MatReal_Properties Tfidf_Model Tfidf_Spec.
From Coq Require Import Lia ZifyNat ZifyBool ZifyN Reals Lra QArith.
Close Scope Q_scope.
Local Open Scope nat_scope.

(** ** Document frequencies of a corpus *)
Definition occ (b : rbow) (i : Z) : nat := count_occ eq_dec (map fst b) i.
Fixpoint total_occ (corpus : list rbow) (i : Z) : nat := match corpus with [] => 0 | b :: r => occ b i + total_occ r i end.
Definition some_pos (n : nat) : option nat := if n =? 0 then None else Some n.
Lemma count_doc_get : forall b m i, (forall j, dget m j <> Some 0) ->
  dget (count_doc m b) i = some_pos (dget_or m i 0 + occ b i) /\ (forall j, dget (count_doc m b) j <> Some 0).
Proof.
  unfold count_doc. induction b as [|[k w] b IH]; intros m i H; cbn [fold_left].
  - split; [|exact H]. unfold occ. cbn [map count_occ]. rewrite Nat.add_0_r. unfold some_pos, dget_or. specialize (H i). destruct (dget m i) as [n|]; [|reflexivity]. destruct (n =? 0) eqn:E; [apply Nat.eqb_eq in E; congruence | reflexivity].
  - cbn [fst]. destruct (IH (dset m k (dget_or m k 0 + 1)) i) as [A B].
    + intros j. rewrite dget_dset. destruct (eq_dec k j); [intros X; injection X as X; lia | apply H].
    + split; [|exact B]. rewrite A. f_equal. unfold occ. cbn [map fst count_occ]. unfold dget_or at 1. rewrite dget_dset.
      destruct (eq_dec k i) as [E|E]; [subst; lia | reflexivity].
Qed.
Lemma corpus_dfs_from : forall corpus m i, (forall j, dget m j <> Some 0) -> dget (fold_left count_doc corpus m) i = some_pos (dget_or m i 0 + total_occ corpus i).
Proof.
  induction corpus as [|b corpus IH]; intros m i H; cbn [fold_left total_occ].
  - rewrite Nat.add_0_r. unfold some_pos, dget_or. specialize (H i). destruct (dget m i) as [n|]; [|reflexivity]. destruct (n =? 0) eqn:E; [apply Nat.eqb_eq in E; congruence | reflexivity].
  - destruct (count_doc_get b m i H) as [A B]. rewrite IH by exact B. f_equal. unfold dget_or at 1. rewrite A. unfold some_pos. destruct (_ =? 0) eqn:E; [apply Nat.eqb_eq in E; lia | lia].
Qed.
Lemma corpus_dfs_get : forall corpus i, dget (corpus_dfs corpus) i = some_pos (total_occ corpus i).
Proof. intros. unfold corpus_dfs. rewrite corpus_dfs_from; [reflexivity | discriminate]. Qed.
Lemma total_occ_freq : forall corpus i, Forall (fun b => NoDup (map fst b)) corpus -> total_occ corpus i = bag_freq corpus i.
Proof.
  intros corpus i F. unfold bag_freq. induction F as [|b corpus N F IH]; [reflexivity|]. cbn [total_occ filter]. rewrite IH. unfold occ.
  destruct (in_dec eq_dec i (map fst b)) as [H|H].
  - cbn [length]. rewrite (NoDup_count_occ' eq_dec) in N. rewrite (N i H). reflexivity.
  - apply (count_occ_not_In eq_dec) in H. rewrite H. reflexivity.
Qed.
(** Training from a corpus counts the documents, the entries, and for each term the documents that contain it. *)
Theorem tfidf_corpus_statistics : forall wl wg norm sm piv slope corpus, Forall (fun b => NoDup (map fst b)) corpus ->
  let m := from_corpus wl wg norm sm piv slope corpus in
  tf_num_docs m = Some (length corpus) /\ tf_num_nnz m = Some (length (concat corpus)) /\
  forall i, dget (tf_dfs m) i = (if bag_freq corpus i =? 0 then None else Some (bag_freq corpus i)).
Proof.
  intros wl wg norm sm piv slope corpus F m. split; [reflexivity|]. split.
  - cbn [tf_num_nnz m from_corpus]. f_equal. clear. induction corpus as [|b r IH]; [reflexivity|]. cbn [corpus_nnz concat]. rewrite app_length, IH. reflexivity.
  - intros i. cbn [tf_dfs m from_corpus]. rewrite corpus_dfs_get, total_occ_freq by exact F. reflexivity.
Qed.
Print Assumptions tfidf_corpus_statistics.
(** A document that lists a term twice counts twice. *)
Theorem tfidf_duplicates_refuted : exists corpus, dget (corpus_dfs corpus) 0%Z = Some 2 /\ length corpus = 1.
Proof. exists [[(0%Z, 1%R); (0%Z, 1%R)]]. split; reflexivity. Qed.

(** ** Dictionary and corpus agree *)
Lemma bow_ids : forall d doc, (forall t t' i, dget (d_token2id d) t = Some i -> dget (d_token2id d) t' = Some i -> t = t') ->
  let b := fst (snd (d_doc2bow d doc false false)) in
  NoDup (map fst b) /\ forall i, In i (map fst b) <-> exists t, dget (d_token2id d) t = Some i /\ In t doc.
Proof.
  intros d doc Inj b. destruct (doc2bow_readonly_exact d doc false Inj) as (_ & S & C). fold b in S, C. split.
  - clear C. induction S as [|p l S IH F]; [constructor|]. cbn [map]. constructor; [|exact IH]. intros H. apply in_map_iff in H. destruct H as (q & E & Hq). rewrite Forall_forall in F. specialize (F q Hq). lia.
  - intros i. split.
    + intros H. apply in_map_iff in H. destruct H as ([j n] & E & H). cbn [fst] in E. subst j. apply C in H. destruct H as (t & A & B & P). exists t. split; [exact A|]. apply (count_occ_In eq_dec). lia.
    + intros (t & A & B). apply in_map_iff. exists (i, count_occ eq_dec doc t). split; [reflexivity|]. apply C. exists t. split; [exact A|]. split; [reflexivity|]. apply (count_occ_In eq_dec) in B. lia.
Qed.
Lemma bows_ids : forall doc, map fst (map (fun p : nat * nat => (Z.of_nat (fst p), INR (snd p))) doc) = map Z.of_nat (map fst doc).
Proof. intros. rewrite !map_map. reflexivity. Qed.
Lemma NoDup_map_of_nat : forall l, NoDup l -> NoDup (map Z.of_nat l).
Proof. intros l H. apply FinFun.Injective_map_NoDup; [intros a b E; lia | exact H]. Qed.
Lemma bows_NoDup : forall d docs, (forall t t' i, dget (d_token2id d) t = Some i -> dget (d_token2id d) t' = Some i -> t = t') -> Forall (fun b => NoDup (map fst b)) (bows d docs).
Proof.
  intros d docs Inj. apply Forall_forall. intros b Hb. apply in_map_iff in Hb. destruct Hb as (doc & E & _). subst b. rewrite bows_ids. apply NoDup_map_of_nat. apply (bow_ids d doc Inj).
Qed.
Lemma bows_freq : forall d docs t i, (forall t t' i, dget (d_token2id d) t = Some i -> dget (d_token2id d) t' = Some i -> t = t') ->
  dget (d_token2id d) t = Some i -> bag_freq (bows d docs) (Z.of_nat i) = doc_freq docs t.
Proof.
  intros d docs t i Inj H. unfold bag_freq, doc_freq, bows. induction docs as [|doc docs IH]; [reflexivity|]. cbn [map filter].
  destruct (bow_ids d doc Inj) as [_ C]. cbv zeta in C.
  destruct (in_dec eq_dec (Z.of_nat i) _) as [A|A]; destruct (in_dec eq_dec t doc) as [B|B].
  - cbn [length]. rewrite IH. reflexivity.
  - exfalso. rewrite bows_ids in A. apply in_map_iff in A. destruct A as (j & E & A). assert (j = i) by lia. subst j. apply C in A. destruct A as (t' & A1 & A2). rewrite (Inj t t' i H A1) in B. contradiction.
  - exfalso. apply A. rewrite bows_ids. apply in_map. apply C. exists t. split; assumption.
  - exact IH.
Qed.
Lemma bows_unknown : forall d docs z, (forall t t' i, dget (d_token2id d) t = Some i -> dget (d_token2id d) t' = Some i -> t = t') ->
  (forall t i, z = Z.of_nat i -> dget (d_token2id d) t <> Some i) -> bag_freq (bows d docs) z = 0.
Proof.
  intros d docs z Inj H. unfold bag_freq, bows. induction docs as [|doc docs IH]; [reflexivity|]. cbn [map filter].
  destruct (in_dec eq_dec z _) as [A|A]; [|exact IH]. exfalso. rewrite bows_ids in A. apply in_map_iff in A. destruct A as (j & E & A). apply (bow_ids d doc Inj) in A. destruct A as (t & A & _). exact (H t j (eq_sym E) A).
Qed.
Lemma zkeys_get : forall {V} (m : dict nat V) i, dget (zkeys m) (Z.of_nat i) = dget m i.
Proof.
  intros V m i. induction m as [|[k v] m IH]; [reflexivity|]. cbn [zkeys map fst snd dget]. destruct (eq_dec (Z.of_nat k) (Z.of_nat i)) as [E|E]; destruct (eq_dec k i) as [F|F]; try reflexivity; try lia; exact IH.
Qed.
Lemma zkeys_neg : forall {V} (m : dict nat V) z, (z < 0)%Z -> dget (zkeys m) z = None.
Proof.
  intros V m z H. induction m as [|[k v] m IH]; [reflexivity|]. cbn [zkeys map fst snd dget]. destruct (eq_dec (Z.of_nat k) z) as [E|E]; [lia | exact IH].
Qed.
(** The document frequencies taken from a dictionary are those counted over the bag-of-words corpus. *)
Theorem tfidf_dfs_agree : forall d docs, describes d docs -> forall z, dget (zkeys (d_dfs d)) z = dget (corpus_dfs (bows d docs)) z.
Proof.
  intros d docs (Hn & Inj & Hd & Hk) z. rewrite corpus_dfs_get, total_occ_freq by (apply bows_NoDup; exact Inj).
  destruct (Z_lt_le_dec z 0) as [N|N].
  - rewrite zkeys_neg by exact N. rewrite bows_unknown; [reflexivity | exact Inj | intros; lia].
  - rewrite <- (Z2Nat.id z N). set (i := Z.to_nat z). rewrite zkeys_get. destruct (dget (d_dfs d) i) as [n|] eqn:E.
    + destruct (Hk i n E) as (t & Ht). destruct (Hd t i Ht) as [A P]. rewrite E in A. injection A as A. rewrite (bows_freq d docs t i Inj Ht). unfold some_pos. rewrite <- A in *. destruct (n =? 0) eqn:Z; [apply Nat.eqb_eq in Z; lia | reflexivity].
    + rewrite bows_unknown; [reflexivity | exact Inj|]. intros t j Ej Ht. assert (j = i) by lia. subst j. destruct (Hd t i Ht) as [A _]. congruence.
Qed.
Print Assumptions tfidf_dfs_agree.

(** ** Two models that agree on the weights transform alike *)
Lemma weighted_ext : forall eps m m' ids tfs, (forall z, dget m z = dget m' z) -> weighted eps m ids tfs = weighted eps m' ids tfs.
Proof. intros eps m m' ids tfs H. unfold weighted. apply flat_map_ext. intros [z x]. unfold dget_or. rewrite H. reflexivity. Qed.
Lemma apply_ext : forall m m' i i', tf_idfs m = Some i -> tf_idfs m' = Some i' -> (forall z, dget i z = dget i' z) ->
  tf_wlocal m = tf_wlocal m' -> tf_normalize m = tf_normalize m' -> tf_smartirs m = tf_smartirs m' -> tf_pivot m = tf_pivot m' -> tf_slope m = tf_slope m' ->
  (forall a b c, tf_smartirs m = Some (a, b, c) -> c <> ch_b) -> (forall a b c, tf_smartirs m = Some (a, b, c) -> c = ch_n \/ c = ch_c \/ c = ch_u) ->
  forall eps bow, tfidf_apply m eps bow = tfidf_apply m' eps bow.
Proof.
  intros m m' i i' H1 H2 H3 H4 H5 H6 H7 H8 H9 H10 eps bow. unfold tfidf_apply. rewrite <- H4, <- H5, <- H6, <- H7, <- H8, H1, H2.
  destruct (tf_wlocal m (map snd bow)) as [tfs|e]; [|reflexivity]. cbn [rbind].
  assert (E : forall {A} (f : rbow -> result A), (let* idfs := match bow with [] => Ok i | _ :: _ => Ok i end in f (weighted eps idfs (map fst bow) tfs)) = (let* idfs := match bow with [] => Ok i' | _ :: _ => Ok i' end in f (weighted eps idfs (map fst bow) tfs))).
  { intros A f. destruct bow; cbn [rbind]; [|]; rewrite (weighted_ext eps i i' _ _ H3); reflexivity. }
  destruct (tf_smartirs m) as [[[a b] c]|] eqn:S.
  - destruct (H10 a b c eq_refl) as [Ec|[Ec|Ec]]; subst c; cbn [N.eqb Pos.eqb ch_n ch_c ch_u].
    + apply (E _ (fun vector => match tf_pivot m with Some p => let* (_, old) := unitvec_bow vector L2 in Ok (keep_eps eps (map (fun iw => (fst iw, (snd iw / pivoted (tf_slope m) p old)%R)) vector)) | None => Ok (keep_eps eps vector) end)).
    + apply (E _ (fun vector => let* (nv, old) := unitvec_bow vector L2 in match tf_pivot m with Some p => Ok (keep_eps eps (map (fun iw => (fst iw, (snd iw / pivoted (tf_slope m) p old)%R)) vector)) | None => Ok (keep_eps eps nv) end)).
    + apply (E _ (fun vector => match tf_pivot m with None => Ok (keep_eps eps vector) | Some p => let* (_, old) := unitvec_bow vector Unique in Ok (keep_eps eps (map (fun iw => (fst iw, (snd iw / pivoted (tf_slope m) p old)%R)) vector)) end)).
  - apply (E _ (fun vector => match tf_normalize m, tf_pivot m with
    | NormTrue, Some p => let* (_, old) := unitvec_bow vector L2 in Ok (keep_eps eps (map (fun iw => (fst iw, (snd iw / pivoted (tf_slope m) p old)%R)) vector))
    | NormTrue, None => let* (nv, _) := unitvec_bow vector L2 in Ok (keep_eps eps nv)
    | NormFalse, Some _ => Err TypeError
    | NormFalse, None => Ok (keep_eps eps vector)
    | NormFun _ fnorm, Some p => let* (_, old) := fnorm vector in Ok (keep_eps eps (map (fun iw => (fst iw, (snd iw / pivoted (tf_slope m) p old)%R)) vector))
    | NormFun f _, None => Ok (keep_eps eps (f vector))
    end)).
Qed.
Lemma resolve_letters : forall s a b c, resolve_weights s = Ok (a, b, c) -> In a (str "bnaldL") /\ In b (str "nftp") /\ In c (str "ncub") /\
  exists x y z, s = [x; y; z] /\ (c = ch_b -> z = ch_b) /\ (c = ch_u -> z = ch_u).
Proof.
  intros s a b c H. destruct s as [|x [|y [|z [|u s]]]]; try discriminate. cbn [resolve_weights] in H.
  destruct (memb x (str "btnaldL")) eqn:Ex; [|discriminate]. destruct (memb y (str "xnftp")) eqn:Ey; [|discriminate]. destruct (memb z (str "xncub")) eqn:Ez; [|discriminate].
  cbn [negb] in H. injection H as A B C. apply memb_true in Ex, Ey, Ez. split; [|split; [|split]].
  - subst a. cbv in Ex. decompose [or] Ex; subst; try contradiction; cbv; tauto.
  - subst b. cbv in Ey. decompose [or] Ey; subst; try contradiction; cbv; tauto.
  - subst c. cbv in Ez. decompose [or] Ez; subst; try contradiction; cbv; tauto.
  - exists x, y, z. split; [reflexivity|]. subst c. destruct (z =? 120)%N eqn:E; [|split; congruence]. split; discriminate.
Qed.
Lemma precompute_ext : forall wg m m' n, (forall z, dget m z = dget m' z) -> forall z, dget (precompute_idfs wg m n) z = dget (precompute_idfs wg m' n) z.
Proof. intros wg m m' n H z. unfold precompute_idfs. rewrite !(dget_map_val (fun df => wg df n)), H. reflexivity. Qed.

(** The model built from the dictionary and the model trained on the bag-of-words corpus of the same documents transform every
    vector alike (or both constructors fail alike); with letter u, if the dictionary also counts the same entries. *)
Theorem tfidf_same : forall wl wg norm pivot slope smartirs d docs, describes d docs -> d_len d <> 0 ->
  (forall a b, smartirs <> Some [a; b; ch_b]) ->
  (forall a b, smartirs = Some [a; b; ch_u] -> pivot = None -> d_num_nnz d = corpus_nnz (bows d docs)) ->
  let r1 := tfidf_new wl wg norm pivot slope smartirs (Some d) [] in
  let r2 := tfidf_new wl wg norm pivot slope smartirs None (bows d docs) in
  (exists e, r1 = Err e /\ r2 = Err e) \/
  (exists m1 m2, r1 = Ok m1 /\ r2 = Ok m2 /\ (forall z, dget (tf_dfs m1) z = dget (tf_dfs m2) z) /\ tf_num_docs m1 = tf_num_docs m2 /\
     forall eps bow, tfidf_apply m1 eps bow = tfidf_apply m2 eps bow).
Proof.
  intros wl wg norm pivot slope smartirs d docs D L NB NU r1 r2. pose proof (tfidf_dfs_agree d docs D) as AG. destruct D as (Hn & Inj & Hd & Hk).
  assert (Hlen : length (bows d docs) = d_num_docs d) by (unfold bows; rewrite map_length; symmetry; exact Hn).
  assert (NE : exists b r, bows d docs = b :: r).
  { destruct (bows d docs) as [|b r] eqn:E; [|eauto]. exfalso. destruct (d_token2id d) as [|[t i] m] eqn:T; [apply L; unfold d_len; rewrite T; reflexivity|].
    destruct docs; [|discriminate]. destruct (Hd t i) as [_ P]; [rewrite ?T; cbn [dget]; destruct (eq_dec t t); congruence|]. cbn in P. lia. }
  destruct NE as (b0 & br & EB).
  unfold r1, r2, tfidf_new. assert (G : negb (d_len d =? 0) = true) by (destruct (d_len d =? 0) eqn:E; [apply Nat.eqb_eq in E; contradiction | reflexivity]). rewrite G.
  destruct smartirs as [s|].
  - destruct (resolve_weights s) as [[[a b] c]|e] eqn:R; cbn [rmap rbind]; [|left; exists e; split; reflexivity].
    destruct (resolve_letters s a b c R) as (_ & _ & Ic & x & y & z & Es & Cb & Cu).
    assert (Nc : c <> ch_b) by (intros E; apply (NB x y); rewrite Es, (Cb E); reflexivity).
    assert (Oc : c = ch_n \/ c = ch_c \/ c = ch_u) by (cbv in Ic; destruct Ic as [E|[E|[E|[E|[]]]]]; [left | right; left | right; right | exfalso; apply Nc]; symmetry; exact E).
    assert (M : forall p, exists m1 m2, from_dictionary (smartirs_wlocal a) (smartirs_wglobal b) norm (Some (a, b, c)) p slope d = m1 /\ from_corpus (smartirs_wlocal a) (smartirs_wglobal b) norm (Some (a, b, c)) p slope (bows d docs) = m2 /\
      (forall z, dget (tf_dfs m1) z = dget (tf_dfs m2) z) /\ tf_num_docs m1 = tf_num_docs m2 /\ forall eps bow, tfidf_apply m1 eps bow = tfidf_apply m2 eps bow).
    { intros p. eexists. eexists. split; [reflexivity|]. split; [reflexivity|]. split; [exact AG|]. split; [cbn; rewrite Hlen; reflexivity|].
      eapply apply_ext; try reflexivity; [|intros ? ? ? E; injection E as <- <- <-; exact Nc | intros ? ? ? E; injection E as <- <- <-; exact Oc].
      rewrite Hlen. apply precompute_ext. exact AG. }
    right. rewrite EB. rewrite <- EB. destruct pivot as [p|].
    + destruct (M (Some p)) as (m1 & m2 & E1 & E2 & A & B & C). exists m1, m2. subst m1 m2. split; [reflexivity|]. split; [reflexivity|]. auto.
    + unfold default_pivot. destruct Oc as [E|[E|E]]; rewrite E; cbn [N.eqb Pos.eqb ch_n ch_c ch_u ch_b orb andb negb]; rewrite <- E.
      * destruct (M None) as (m1 & m2 & E1 & E2 & A & B & C). exists m1, m2. subst m1 m2. split; [reflexivity|]. split; [reflexivity|]. auto.
      * destruct (M None) as (m1 & m2 & E1 & E2 & A & B & C). exists m1, m2. subst m1 m2. split; [reflexivity|]. split; [reflexivity|]. auto.
      * cbn [from_dictionary from_corpus tf_num_nnz tf_num_docs]. rewrite Hlen.
        assert (En : d_num_nnz d = corpus_nnz (bows d docs)) by (apply (NU x y); [rewrite Es, (Cu E); reflexivity | reflexivity]). rewrite <- En.
        destruct (d_num_docs d) as [|n] eqn:Nd; [rewrite EB in Hlen; discriminate|].
        set (p := (1 * INR (d_num_nnz d) / INR (S n))%R). destruct (M (Some p)) as (m1 & m2 & E1 & E2 & A & B & C). exists m1, m2.
        split; [|split; [|auto]].
        -- rewrite <- E1. unfold set_pivot, from_dictionary. cbn. rewrite Nd. reflexivity.
        -- rewrite <- E2. unfold set_pivot, from_corpus. cbn. rewrite Hlen. reflexivity.
  - right. cbn [rbind]. rewrite EB. rewrite <- EB. eexists. eexists. split; [reflexivity|]. split; [reflexivity|]. split; [exact AG|]. split; [cbn; rewrite Hlen; reflexivity|].
    eapply apply_ext; try reflexivity; [|discriminate | discriminate]. rewrite Hlen. apply precompute_ext. exact AG.
Qed.
Print Assumptions tfidf_same.

(** ** Dictionaries that describe the documents *)
Definition as_calls (docs : list (list pystr)) : list call := map (fun doc => (doc, true, false)) docs.
Lemma as_calls_docs : forall docs, updating_docs (as_calls docs) = docs.
Proof. induction docs as [|doc docs IH]; [reflexivity|]. unfold updating_docs in *. cbn. f_equal. exact IH. Qed.
Lemma doc_freq_pos : forall docs t, (exists doc, In doc docs /\ In t doc) -> 0 < doc_freq docs t.
Proof.
  intros docs t (doc & A & B). unfold doc_freq. assert (H : In doc (filter (fun doc => if in_dec eq_dec t doc then true else false) docs)) by (apply filter_In; split; [exact A|]; destruct (in_dec eq_dec t doc); [reflexivity | contradiction]).
  destruct (filter _ docs); [contradiction | cbn [length]; lia].
Qed.
Lemma run_describes : forall docs, describes (run_calls (as_calls docs) d_empty) docs.
Proof.
  intros docs. destruct (dictionary_statistics_exact (as_calls docs)) as (A & B & C & D & E & F). rewrite as_calls_docs in *.
  destruct (run_calls_stats (as_calls docs) d_empty [] d_inv_empty stats_empty) as [I _].
  split; [exact A|]. split; [exact (inv_inj _ I)|]. split.
  - intros t i H. split; [apply (E t i H)|]. apply doc_freq_pos. apply D. exists i. exact H.
  - intros i n H. apply F. left. eapply dget_Some_key. eexists. exact H.
Qed.
Lemma run_nnz : forall docs, d_num_nnz (run_calls (as_calls docs) d_empty) = corpus_nnz (bows (run_calls (as_calls docs) d_empty) docs).
Proof.
  intros docs. destruct (dictionary_statistics_exact (as_calls docs)) as (_ & _ & C & D & _ & _). rewrite as_calls_docs in *. destruct (run_describes docs) as (_ & Inj & _).
  rewrite C. set (d := run_calls (as_calls docs) d_empty) in *. clear C.
  assert (K : forall doc, In doc docs -> forall t, In t doc -> exists i, dget (d_token2id d) t = Some i) by (intros doc H t Ht; apply D; exists doc; split; assumption). clear D. clearbody d.
  induction docs as [|doc docs IH]; [reflexivity|]. unfold total_distinct, bows in *. cbn [fold_right map corpus_nnz]. rewrite IH by (intros doc' H; apply K; right; exact H). f_equal.
  rewrite map_length. destruct (bow_ids d doc Inj) as [N I]. cbv zeta in N, I. set (b := fst (snd (d_doc2bow d doc false false))) in *.
  rewrite <- (map_length fst b). specialize (K doc (or_introl eq_refl)).
  transitivity (length (map (fun t => dget_or (d_token2id d) t 0) (nodup eq_dec doc))); [symmetry; apply map_length|].
  apply Permutation_length. apply NoDup_Permutation.
  - assert (Hin : forall t, In t (nodup eq_dec doc) -> exists i, dget (d_token2id d) t = Some i) by (intros t Ht; apply K; apply nodup_In in Ht; exact Ht).
    pose proof (NoDup_nodup eq_dec doc) as ND. induction (nodup eq_dec doc) as [|t l IHl]; [constructor|]. inversion ND as [|? ? NI ND']; subst. cbn [map]. constructor.
    + intros H. apply in_map_iff in H. destruct H as (t' & E & Ht'). destruct (Hin t (or_introl eq_refl)) as (i & Hi). destruct (Hin t' (or_intror Ht')) as (j & Hj). unfold dget_or in E. rewrite Hi, Hj in E. subst j. rewrite (Inj t t' i Hi Hj) in NI. contradiction.
    + apply IHl; [intros t' Ht'; apply Hin; right; exact Ht' | exact ND'].
  - exact N.
  - intros i. split.
    + intros H. apply in_map_iff in H. destruct H as (t & E & Ht). apply nodup_In in Ht. destruct (K t Ht) as (j & Hj). unfold dget_or in E. rewrite Hj in E. subst j. apply I. exists t. split; assumption.
    + intros H. apply I in H. destruct H as (t & Ht & Hd). apply in_map_iff. exists t. split; [unfold dget_or; rewrite Ht; reflexivity | apply nodup_In; exact Hd].
Qed.
Lemma len_mono : forall d d', d_inv d -> d_inv d' -> extends d d' -> d_len d <= d_len d'.
Proof.
  intros d d' I I' (E & _). unfold d_len. rewrite <- (map_length fst (d_token2id d)), <- (map_length fst (d_token2id d')). apply NoDup_incl_length; [apply (i_keys d I)|].
  intros t Ht. assert (X : exists i, dget (d_token2id d) t = Some i). { destruct (dget (d_token2id d) t) eqn:G; [eauto|]. apply dget_None in G. contradiction. }
  destruct X as (i & Hi). apply E in Hi. eapply dget_Some_key. eexists. exact Hi.
Qed.
Lemma add_documents_run : forall docs n d p, d_inv d -> (forall k, p = Some k -> (Z.of_nat (d_len (run_calls (as_calls docs) d)) <= k)%Z) ->
  d_add_documents_from n d docs p = Ok (run_calls (as_calls docs) d).
Proof.
  induction docs as [|doc docs IH]; intros n d p I H; [reflexivity|]. cbn [d_add_documents_from].
  assert (G : (if (n mod 10000 =? 0)%N then match p with Some k => if (k <? Z.of_nat (d_len d))%Z then d_filter_extremes d 0 1 (Some k) [] else Ok d | None => Ok d end else Ok d) = Ok d).
  { destruct (n mod 10000 =? 0)%N; [|reflexivity]. destruct p as [k|]; [|reflexivity].
    assert (Z.of_nat (d_len d) <= k)%Z.
    { specialize (H k eq_refl). pose proof (len_mono d (run_calls (as_calls (doc :: docs)) d) I) as M. assert (I2 : d_inv (run_calls (as_calls (doc :: docs)) d)).
      { clear - I. generalize (as_calls (doc :: docs)) as cs. intros cs. revert d I. induction cs as [|[[x u] v] cs IHc]; intros d I; [exact I|]. rewrite run_calls_cons. apply IHc. cbn [fst snd]. destruct u; [apply upd_inv; exact I | exact I]. }
      specialize (M I2 (run_calls_extends _ d)). lia. }
    replace (k <? Z.of_nat (d_len d))%Z with false by lia. reflexivity. }
  rewrite G. cbn [rbind]. rewrite doc2bow_fst. change (as_calls (doc :: docs)) with ((doc, true, false) :: as_calls docs) in *. rewrite run_calls_cons in *. cbn [fst snd] in *. apply IH; [apply upd_inv; exact I | exact H].
Qed.
(** [Dictionary(documents)] describes its documents, as long as its vocabulary never exceeds the pruning limit. *)
Theorem dictionary_describes : forall docs p, (forall k, p = Some k -> (Z.of_nat (d_len (run_calls (as_calls docs) d_empty)) <= k)%Z) ->
  exists d, d_add_documents d_empty docs p = Ok d /\ describes d docs /\ d_num_nnz d = corpus_nnz (bows d docs) /\
    (d_len d = 0 <-> forall doc, In doc docs -> doc = []).
Proof.
  intros docs p H. exists (run_calls (as_calls docs) d_empty). split; [apply add_documents_run; [exact d_inv_empty | exact H]|].
  split; [apply run_describes|]. split; [apply run_nnz|].
  destruct (dictionary_statistics_exact (as_calls docs)) as (_ & _ & _ & D & _ & _). rewrite as_calls_docs in D. set (d := run_calls (as_calls docs) d_empty) in *. split.
  - intros L doc Hd. destruct doc as [|t doc]; [reflexivity|]. exfalso. destruct (proj2 (D t) (ex_intro _ (t :: doc) (conj Hd (or_introl eq_refl)))) as (i & Hi).
    unfold d_len in L. destruct (d_token2id d); [discriminate | discriminate].
  - intros A. unfold d_len. destruct (d_token2id d) as [|[t i] m] eqn:T; [reflexivity|]. exfalso. destruct (proj1 (D t)) as (doc & H1 & H2).
    { exists i. cbn [dget]. destruct (eq_dec t t); congruence. }
    rewrite (A doc H1) in H2. destruct H2.
Qed.
Print Assumptions dictionary_describes.
(** A dictionary that describes the documents still does after [filter_extremes]. *)
Theorem filtered_describes : forall d docs no_below no_above keep_n keep_tokens, reachable d -> describes d docs ->
  exists d', d_filter_extremes d no_below no_above keep_n keep_tokens = Ok d' /\ describes d' docs.
Proof.
  intros d docs nb na kn kt R (Hn & Inj & Hd & Hk). destruct (filter_extremes_exact d nb na kn kt R) as (d' & E & DI & _ & _ & _ & _ & K & _ & N & _).
  pose proof (reachable_inv d R) as I. destruct (filter_extremes_spec d nb na kn kt I) as (d2 & E2 & I2 & _). assert (d2 = d') by congruence. subst d2.
  exists d'. split; [exact E|]. split; [congruence|]. split; [apply DI|]. split.
  - intros t i' H. destruct (K t i' H) as (i & A & B & _). rewrite B. exact (Hd t i A).
  - intros i n H. apply inv_id_ex; [exact I2|]. apply (i_dfs _ I2). eapply dget_Some_key. eexists. exact H.
Qed.
Print Assumptions filtered_describes.
(** But its number of entries is not updated, so that the pivot for letter u differs from the one of the corpus. *)
Theorem filtered_pivot_refuted : exists d docs d' m1 m2 p1 p2, describes d docs /\ reachable d /\ d_filter_extremes d 2 1 None [] = Ok d' /\ describes d' docs /\
  tfidf_new (fun x => Ok x) (fun _ _ => 1%R) NormTrue None (1/4)%R (Some (str "nnu")) (Some d') [] = Ok m1 /\
  tfidf_new (fun x => Ok x) (fun _ _ => 1%R) NormTrue None (1/4)%R (Some (str "nnu")) None (bows d' docs) = Ok m2 /\
  tf_pivot m1 = Some p1 /\ tf_pivot m2 = Some p2 /\ p1 <> p2.
Proof.
  set (docs := [[tA; tB]; [tA; tC]]). assert (R : reachable (run_calls (as_calls docs) d_empty)) by (exists [OpAddDocuments docs None]; vm_compute; reflexivity).
  destruct (filtered_describes _ docs 2 1 None [] R (run_describes docs)) as (d' & E & D).
  exists (run_calls (as_calls docs) d_empty), docs, d'. eexists. eexists. eexists. eexists.
  split; [apply run_describes|]. split; [exact R|]. split; [exact E|]. split; [exact D|]. clear D.
  assert (E' : d' = mkDictionary [(tA, 0)] [] [(0, 2)] [(0, 2)] 2 4 4) by (vm_compute in E; injection E as E; symmetry; exact E). subst d'.
  split; [reflexivity|]. split; [reflexivity|]. split; [reflexivity|]. split; [reflexivity|]. cbn. lra.
Qed.

(** ** The transformation *)
Local Open Scope R_scope.
Definition idf_of (idfs : dict Z R) (z : Z) : R := match dget idfs z with Some w => w | None => 0 end.
Lemma weighted_as_map : forall eps idfs bow, weighted eps idfs (map fst bow) (map snd bow) =
  map (fun p => (fst p, snd p * idf_of idfs (fst p))) (filter (fun p => if Rlt_dec eps (Rabs (idf_of idfs (fst p))) then true else false) bow).
Proof.
  intros eps idfs bow. unfold weighted. induction bow as [|[z x] bow IH]; [reflexivity|]. cbn [map combine flat_map filter fst snd]. rewrite IH. unfold dget_or. fold (idf_of idfs z).
  destruct (Rlt_dec eps (Rabs (idf_of idfs z))); reflexivity.
Qed.
Lemma subseq_filter : forall {A} (f : A -> bool) l, subseq (filter f l) l.
Proof. induction l as [|x l IH]; [constructor|]. cbn [filter]. destruct (f x); [apply ss_take | apply ss_skip]; exact IH. Qed.
Lemma subseq_map : forall {A B} (f : A -> B) a b, subseq a b -> subseq (map f a) (map f b).
Proof. intros A B f a b H. induction H; cbn [map]; constructor; assumption. Qed.
Lemma subseq_trans : forall {A} (b c : list A), subseq b c -> forall a, subseq a b -> subseq a c.
Proof.
  intros A b c H. induction H as [l|x b c H IH|x b c H IH]; intros a Ha.
  - inversion Ha; constructor.
  - inversion Ha; subst; [constructor | apply ss_take; apply IH; assumption | apply ss_skip; apply IH; assumption].
  - apply ss_skip. apply IH. exact Ha.
Qed.
Lemma unitvec_scaled : forall vec nv old, unitvec_bow vec L2 = Ok (nv, old) -> nv = map (fun iw => (fst iw, snd iw / old)) vec.
Proof.
  intros vec nv old E. unfold unitvec_bow in E. destruct vec as [|q w]; [injection E as <- _; reflexivity|].
  set (vec := q :: w) in *. cbv zeta in E. destruct (Rlt_dec 0 (1 * sqrt (Rsum (map (fun iv : Z * R => snd iv ^ 2) vec)))) as [Q|]; [|discriminate].
  assert (Ev : ret_normalized_vec vec (1 * sqrt (Rsum (map (fun iv : Z * R => snd iv ^ 2) vec))) = nv) by congruence.
  assert (Eo : 1 * sqrt (Rsum (map (fun iv : Z * R => snd iv ^ 2) vec)) = old) by congruence.
  rewrite Eo in Ev. rewrite <- Ev. unfold ret_normalized_vec. destruct (Req_EM_T old 1) as [E1|]; [|reflexivity].
  rewrite E1. rewrite <- (map_id vec) at 1. apply map_ext. intros [a b]. cbn [fst snd]. f_equal. field.
Qed.
(** By default (frequency times idf, unit length) a document keeps the terms whose idf is above [eps] in absolute value; its
    weights are frequency times idf over the Euclidean length of those, and weights up to [eps] are then left out. *)
Theorem tfidf_default_transform : forall m idfs eps bow,
  tf_idfs m = Some idfs -> tf_wlocal m = (fun x => Ok x) -> tf_normalize m = NormTrue -> tf_smartirs m = None -> tf_pivot m = None ->
  0 <= eps -> (forall z x, In (z, x) bow -> x <> 0) ->
  let known := filter (fun p => if Rlt_dec eps (Rabs (idf_of idfs (fst p))) then true else false) bow in
  exists len v, 0 < len /\ tfidf_apply m eps bow = Ok v /\
    (known <> [] -> len ^ 2 = Rsum (map (fun p => (snd p * idf_of idfs (fst p)) ^ 2) known)) /\
    v = filter (fun p => if Rlt_dec eps (Rabs (snd p)) then true else false) (map (fun p => (fst p, snd p * idf_of idfs (fst p) / len)) known) /\
    subseq (map fst v) (map fst bow).
Proof.
  intros m idfs eps bow Hi Hw Hn Hs Hp He Hx known. unfold tfidf_apply. rewrite Hi, Hw, Hn, Hs, Hp. cbn [rbind].
  assert (Em : forall {A} (f : dict Z R -> result A), (let* idfs := match bow with [] => Ok idfs | _ :: _ => Ok idfs end in f idfs) = f idfs) by (intros; destruct bow; reflexivity).
  rewrite (Em _ (fun idfs => let* (nv, _) := unitvec_bow (weighted eps idfs (map fst bow) (map snd bow)) L2 in Ok (keep_eps eps nv))). rewrite weighted_as_map. fold known.
  set (f := fun p : Z * R => (fst p, snd p * idf_of idfs (fst p))).
  assert (SS : forall len, subseq (map fst (filter (fun p : Z * R => if Rlt_dec eps (Rabs (snd p)) then true else false) (map (fun p => (fst p, snd p * idf_of idfs (fst p) / len)) known))) (map fst bow)).
  { intros len. eapply subseq_trans; [|apply subseq_map, subseq_filter]. rewrite map_map. cbn [fst]. apply subseq_map. apply subseq_filter. }
  destruct known as [|[z x] k] eqn:K.
  - exists 1, []. cbn [map unitvec_bow rbind]. split; [lra|]. split; [reflexivity|]. split; [congruence|]. split; [reflexivity | constructor].
  - assert (IK : In (z, x) known) by (rewrite K; left; reflexivity). unfold known in IK. apply filter_In in IK. destruct IK as [IK C]. cbn [fst] in C. destruct (Rlt_dec eps (Rabs (idf_of idfs z))) as [C'|]; [|discriminate].
    destruct (unitvec_bow_l2 (map f ((z, x) :: k)) z (x * idf_of idfs z)) as (v & len & E & P & Ef & Ec & E1 & El).
    + left. reflexivity.
    + apply Rmult_integral_contrapositive. split; [exact (Hx z x IK)|]. intros Z. rewrite Z, Rabs_R0 in C'. lra.
    + rewrite E. cbn [rbind]. exists len. eexists. split; [exact P|]. split; [reflexivity|]. split.
      { intros _. rewrite El, map_map. reflexivity. }
      assert (V : v = map (fun p => (fst p, snd p * idf_of idfs (fst p) / len)) ((z, x) :: k)).
      { rewrite (unitvec_scaled _ v len E), map_map. reflexivity. }
      rewrite <- V. split; [reflexivity|]. rewrite V. apply SS.
Qed.
Print Assumptions tfidf_default_transform.
(** The transformation of a corpus takes no notice of the [eps] it is given. *)
Theorem tfidf_corpus_eps_refuted : exists m eps corpus v w, tfidf_getitem_corpus m eps corpus = Ok [v] /\ corpus = [[(0%Z, 1)]] /\
  tfidf_apply m eps [(0%Z, 1)] = Ok w /\ v <> w.
Proof.
  exists (mkTfidf (Some 1%nat) (Some 1%nat) [(0%Z, 1%nat)] None None (Some [(0%Z, 1)]) (fun x => Ok x) NormFalse None None 0), 2, [[(0%Z, 1)]], [(0%Z, 1)], [].
  assert (A1 : Rabs 1 = 1) by (apply Rabs_right; lra).
  unfold tfidf_getitem_corpus, rmapM, tfidf_apply, weighted, keep_eps, default_eps. cbn [map fst snd rbind tf_wlocal tf_idfs tf_smartirs tf_normalize tf_pivot combine flat_map dget dget_or]. unfold dget_or. cbn [dget]. destruct (eq_dec 0%Z 0%Z); [|congruence].
  rewrite !Rmult_1_r, !A1. destruct (Rlt_dec (1 / 10 ^ 12) 1) as [_|N]; [|exfalso; apply N; apply (Rmult_lt_reg_r (10 ^ 12)); [lra|]; field_simplify; lra].
  destruct (Rlt_dec 2 1); [lra|]. cbn [app filter snd rbind map]. rewrite A1. destruct (Rlt_dec (1 / 10 ^ 12) 1) as [_|N]; [|exfalso; apply N; apply (Rmult_lt_reg_r (10 ^ 12)); [lra|]; field_simplify; lra].
  split; [reflexivity|]. split; [reflexivity|]. split; [reflexivity|]. discriminate.
Qed.

(** ** The idf weights *)
Lemma ln2_pos : 0 < ln 2.
Proof. rewrite <- ln_1. apply ln_increasing; lra. Qed.
Lemma log2_le : forall x y, 0 < x -> x <= y -> log2 x <= log2 y.
Proof. intros x y P H. unfold log2. pose proof ln2_pos. apply Rmult_le_compat_r; [left; apply Rinv_0_lt_compat; assumption|]. destruct H as [H|H]; [left; apply ln_increasing; assumption | subst; lra]. Qed.
Lemma log2_lt : forall x y, 0 < x -> x < y -> log2 x < log2 y.
Proof. intros x y P H. unfold log2. pose proof ln2_pos. apply Rmult_lt_compat_r; [apply Rinv_0_lt_compat; assumption|]. apply ln_increasing; assumption. Qed.
Lemma log2_1 : log2 1 = 0.
Proof. unfold log2. rewrite ln_1. unfold Rdiv. ring. Qed.
Lemma ratio_lt : forall n a b, (0 < a)%nat -> (a < b)%nat -> 0 < n -> n / INR b < n / INR a.
Proof. intros n a b A H P. apply Rmult_lt_compat_l; [exact P|]. apply Rinv_lt_contravar; [apply Rmult_lt_0_compat; apply lt_0_INR; lia | apply lt_INR; exact H]. Qed.
(** The default idf: not negative, zero exactly for a term of every document, and the smaller the more documents have the term. *)
Theorem df2idf_facts : forall n a, (0 < a)%nat -> (a <= n)%nat ->
  0 <= df2idf a n 2 0 /\ (df2idf a n 2 0 = 0 <-> a = n) /\ (forall b, (a < b)%nat -> df2idf b n 2 0 < df2idf a n 2 0) /\ df2idf a n 2 0 = smartirs_wglobal ch_f a n.
Proof.
  intros n a A H. assert (PA : 0 < INR a) by (apply lt_0_INR; lia). assert (PN : 0 < INR n) by (apply lt_0_INR; lia).
  assert (E : forall b, df2idf b n 2 0 = log2 (INR n / INR b)) by (intros; unfold df2idf, log2; ring). rewrite !E.
  assert (NN : INR n / INR n = 1) by (field; lra).
  assert (LT : (a < n)%nat -> 0 < log2 (INR n / INR a)).
  { intros L. rewrite <- log2_1. apply log2_lt; [lra|]. rewrite <- NN. apply ratio_lt; assumption. }
  split; [|split; [|split; [|reflexivity]]].
  - destruct (Nat.eq_dec a n) as [->|]; [rewrite NN, log2_1; lra|]. left. apply LT. lia.
  - split; [|intros ->; rewrite NN; exact log2_1]. intros Z. destruct (Nat.eq_dec a n) as [|D]; [assumption|]. assert (a < n)%nat by lia. specialize (LT H0). lra.
  - intros b L. rewrite E. apply log2_lt; [|apply ratio_lt; assumption]. apply Rdiv_lt_0_compat; [exact PN | apply lt_0_INR; lia].
Qed.
Print Assumptions df2idf_facts.
(** A term of every document is never in the result. *)
Theorem tfidf_common_dropped : forall norm slope pivot d docs m eps bow v t i, describes d docs -> d_len d <> 0%nat -> 0 <= eps ->
  (forall f g, norm <> NormFun f g) ->
  tfidf_new (fun x => Ok x) (fun df n => df2idf df n 2 0) norm pivot slope None (Some d) [] = Ok m ->
  dget (d_token2id d) t = Some i -> (forall doc, In doc docs -> In t doc) ->
  tfidf_apply m eps bow = Ok v -> ~ In (Z.of_nat i) (map fst v).
Proof.
  intros norm slope pivot d docs m eps bow v t i (Hn & Inj & Hd & Hk) L He NF Hm Ht Hall Hv Hin. unfold tfidf_new in Hm. cbn [rbind] in Hm.
  assert (G : negb (d_len d =? 0)%nat = true) by (destruct (d_len d =? 0)%nat eqn:E; [apply Nat.eqb_eq in E; contradiction | reflexivity]). rewrite G in Hm. injection Hm as <-.
  destruct (Hd t i Ht) as [A P].
  assert (DF : doc_freq docs t = length docs).
  { unfold doc_freq. clear - Hall. induction docs as [|doc docs IH]; [reflexivity|]. cbn [filter]. destruct (in_dec eq_dec t doc) as [_|N]; [|exfalso; apply N; apply Hall; left; reflexivity]. cbn [length]. f_equal. apply IH. intros x Hx. apply Hall. right. exact Hx. }
  set (idfs := precompute_idfs (fun df n => df2idf df n 2 0) (zkeys (d_dfs d)) (d_num_docs d)) in *.
  assert (Zi : idf_of idfs (Z.of_nat i) = 0).
  { unfold idf_of, idfs, precompute_idfs. rewrite (dget_map_val (fun df => df2idf df (d_num_docs d) 2 0)), zkeys_get, A, DF, Hn. cbn [option_map]. apply (df2idf_facts (length docs) (length docs)); lia. }
  set (vec := weighted eps idfs (map fst bow) (map snd bow)).
  assert (NV : ~ In (Z.of_nat i) (map fst vec)).
  { unfold vec. rewrite weighted_as_map, map_map. cbn [fst]. intros H. apply in_map_iff in H. destruct H as (p & E & H). apply filter_In in H. destruct H as [_ H]. rewrite E, Zi, Rabs_R0 in H. destruct (Rlt_dec eps 0); [lra | discriminate]. }
  apply NV. clear NV. unfold tfidf_apply in Hv. cbn [from_dictionary tf_wlocal tf_idfs tf_smartirs tf_normalize tf_pivot tf_slope rbind] in Hv. fold idfs in Hv.
  replace (match bow with [] => Ok idfs | _ :: _ => Ok idfs end) with (@Ok (dict Z R) idfs) in Hv by (destruct bow; reflexivity). cbn [rbind] in Hv. fold vec in Hv.
  assert (U : forall nv old, unitvec_bow vec L2 = Ok (nv, old) -> map fst nv = map fst vec).
  { intros nv old E. rewrite (unitvec_scaled vec nv old E), map_map. reflexivity. }
  assert (KE : forall w, In (Z.of_nat i) (map fst (keep_eps eps w)) -> In (Z.of_nat i) (map fst w)).
  { intros w H. unfold keep_eps in H. apply in_map_iff in H. destruct H as (p & E & H). apply filter_In in H. apply in_map_iff. exists p. tauto. }
  assert (KM : forall c, In (Z.of_nat i) (map fst (keep_eps eps (map (fun iw => (fst iw, snd iw / c)) vec))) -> In (Z.of_nat i) (map fst vec)) by (intros c H; apply KE in H; rewrite map_map in H; exact H).
  destruct norm as [| |f g]; [| |exfalso; exact (NF f g eq_refl)]; destruct pivot as [p|].
  - destruct (unitvec_bow vec L2) as [[nv old]|e] eqn:E; [|discriminate]. cbn [rbind] in Hv. injection Hv as Hv. rewrite <- Hv in Hin. apply (KM _ Hin).
  - destruct (unitvec_bow vec L2) as [[nv old]|e] eqn:E; [|discriminate]. cbn [rbind] in Hv. injection Hv as Hv. rewrite <- Hv in Hin. apply KE in Hin. rewrite (U nv old eq_refl) in Hin. exact Hin.
  - discriminate.
  - injection Hv as Hv. rewrite <- Hv in Hin. apply KE in Hin. exact Hin.
Qed.
Print Assumptions tfidf_common_dropped.
(** The SMART idf letters: n weighs every term 1; f is the default; t is positive even for a term of every document; p is zero
    for the terms of at least half the documents. *)
Theorem smart_idf : forall n a, (0 < a)%nat -> (a <= n)%nat ->
  smartirs_wglobal ch_n a n = 1 /\ 0 <= smartirs_wglobal ch_f a n /\ 0 < smartirs_wglobal ch_t a n /\ 0 <= smartirs_wglobal ch_p a n /\
  (smartirs_wglobal ch_p a n = 0 <-> (n <= 2 * a)%nat).
Proof.
  intros n a A H. assert (PA : 0 < INR a) by (apply lt_0_INR; lia). assert (PN : 0 < INR n) by (apply lt_0_INR; lia).
  split; [reflexivity|]. split; [destruct (df2idf_facts n a A H) as (X & _ & _ & E); rewrite <- E; exact X|]. split; [|].
  - unfold smartirs_wglobal. cbn [N.eqb Pos.eqb ch_t ch_n ch_f]. rewrite <- log2_1. apply log2_lt; [lra|]. apply (Rmult_lt_reg_r (INR a)); [exact PA|]. field_simplify; [|lra]. apply le_INR in H. lra.
  - unfold smartirs_wglobal. cbn [N.eqb Pos.eqb ch_t ch_n ch_f ch_p]. destruct (n <=? a)%nat eqn:E; [apply Nat.leb_le in E; split; [lra|]; split; [lia | reflexivity]|]. apply Nat.leb_gt in E.
    split; [apply Rmax_l|]. rewrite <- minus_INR by lia. assert (P2 : 0 < INR (n - a)) by (apply lt_0_INR; lia). split.
    + intros M. destruct (le_lt_dec n (2 * a)) as [|L]; [assumption|]. exfalso. assert (0 < log2 (INR (n - a) / INR a)); [|pose proof (Rmax_r 0 (log2 (INR (n - a) / INR a))); lra].
      rewrite <- log2_1. apply log2_lt; [lra|]. apply (Rmult_lt_reg_r (INR a)); [exact PA|]. unfold Rdiv. rewrite Rmult_assoc, Rinv_l by lra. assert (INR a < INR (n - a)) by (apply lt_INR; lia). lra.
    + intros L. apply Rmax_left. rewrite <- log2_1. apply log2_le; [apply Rdiv_lt_0_compat; assumption|]. apply (Rmult_le_reg_r (INR a)); [exact PA|]. unfold Rdiv. rewrite Rmult_assoc, Rinv_l by lra. assert (INR (n - a) <= INR a) by (apply le_INR; lia). lra.
Qed.
Print Assumptions smart_idf.
(** The SMART tf letters, for a document with positive frequencies: a weighs the most frequent terms 1 and the others more than
    1/2, in proportion to their frequency beyond; b weighs every term 1; l weighs a single occurrence 1 and adds 1 for twice the
    frequency; d is l of l; L is l divided by the weight of the mean frequency. *)
Lemma Rmaximum_spec : forall l x, (x <= Rmaximum x l) /\ (forall y, In y l -> y <= Rmaximum x l) /\ (Rmaximum x l = x \/ In (Rmaximum x l) l).
Proof.
  induction l as [|y l IH]; intros x; cbn [Rmaximum In]; [split; [lra|]; split; [tauto | now left]|]. destruct (IH (Rmax x y)) as (A & B & C).
  pose proof (Rmax_l x y). pose proof (Rmax_r x y). split; [lra|]. split.
  - intros z [<-|Hz]; [lra | auto].
  - destruct C as [C|C]; [|tauto]. rewrite C. unfold Rmax. destruct (Rle_dec x y); tauto.
Qed.
Theorem smart_tf : forall tf, tf <> [] -> Forall (fun x => 0 < x) tf ->
  (exists ws, smartirs_wlocal ch_a tf = Ok ws /\ length ws = length tf /\
    forall i, (i < length tf)%nat -> 1 / 2 < nth i ws 0 <= 1 /\ (nth i ws 0 = 1 <-> forall y, In y tf -> y <= nth i tf 0) /\
      forall j, (j < length tf)%nat -> (nth i ws 0 - 1 / 2) * nth j tf 0 = (nth j ws 0 - 1 / 2) * nth i tf 0) /\
  smartirs_wlocal ch_b tf = Ok (repeat 1 (length tf)) /\
  (exists l, smartirs_wlocal ch_l tf = Ok l /\ length l = length tf /\ (forall i, (i < length tf)%nat -> Rpower 2 (nth i l 0 - 1) = nth i tf 0) /\
    smartirs_wlocal ch_d tf = smartirs_wlocal ch_l l /\
    forall c, Rpower 2 (c - 1) = Rsum tf / INR (length tf) -> smartirs_wlocal 76 tf = Ok (map (fun w => w / c) l)).
Proof.
  intros tf Ne F. split; [|split].
  - destruct tf as [|x r]; [congruence|]. eexists. split; [reflexivity|]. split; [apply map_length|]. destruct (Rmaximum_spec r x) as (A & B & C). set (m := Rmaximum x r) in *. clearbody m.
    assert (U : forall y, In y (x :: r) -> y <= m) by (intros y [<-|Hy]; auto).
    assert (M : In m (x :: r)) by (destruct C as [->|C]; [now left | now right]). rewrite Forall_forall in F. pose proof (F m M) as Pm.
    set (tf := x :: r) in *. clearbody tf.
    assert (E : forall i, (i < length tf)%nat -> nth i (map (fun y => 1 / 2 + 1 / 2 * y / m) tf) 0 = 1 / 2 + 1 / 2 * nth i tf 0 / m).
    { intros i Hi. rewrite (nth_indep _ 0 (1 / 2 + 1 / 2 * 0 / m)) by (rewrite map_length; exact Hi). apply (map_nth (fun y => 1 / 2 + 1 / 2 * y / m)). }
    intros i Hi. rewrite E by exact Hi. pose proof (nth_In tf 0 Hi) as I1. set (y := nth i tf 0) in *. pose proof (F y I1) as Py. pose proof (U y I1) as Uy.
    assert (Q : 0 < y / m <= 1).
    { split; [apply Rdiv_lt_0_compat; assumption|]. apply (Rmult_le_reg_r m); [exact Pm|]. field_simplify; lra. }
    replace (1 / 2 * y / m) with (1 / 2 * (y / m)) by (field; lra). split; [lra|]. split.
    + split; [|intros H; specialize (H m M); replace (y / m) with 1 by (replace y with m by lra; field; lra); lra].
      intros H z Hz. assert (y / m = 1) by lra. assert (y = m) by (replace y with (y / m * m) by (field; lra); rewrite H0; ring). rewrite H1. apply U. exact Hz.
    + intros j Hj. rewrite E by exact Hj. field. lra.
  - clear Ne. cbn [smartirs_wlocal N.eqb Pos.eqb ch_b ch_n ch_l ch_d ch_a]. unfold smartirs_wlocal. cbn [N.eqb Pos.eqb ch_b ch_n ch_l ch_d ch_a]. f_equal. induction F as [|x l P F IH]; cbn [map length repeat]; [reflexivity|]. rewrite IH. destruct (Req_EM_T x 0); [lra | reflexivity].
  - exists (map (fun x => 1 + log2 x) tf). split; [reflexivity|]. split; [apply map_length|]. pose proof ln2_pos as L2. split; [|split].
    + intros i Hi. rewrite (nth_indep _ 0 (1 + log2 0)) by (rewrite map_length; exact Hi). rewrite (map_nth (fun x => 1 + log2 x)). rewrite Forall_forall in F. pose proof (F _ (nth_In tf 0 Hi)) as P. unfold Rpower, log2.
      replace ((1 + ln (nth i tf 0) / ln 2 - 1) * ln 2) with (ln (nth i tf 0)) by (field; lra). apply exp_ln. exact P.
    + unfold smartirs_wlocal. cbn [N.eqb Pos.eqb ch_l ch_n ch_d]. rewrite map_map. reflexivity.
    + intros c Hc. unfold smartirs_wlocal. cbn [N.eqb Pos.eqb ch_l ch_n ch_d ch_a ch_b]. rewrite map_map. replace (1 + log2 (Rsum tf / INR (length tf))) with c; [reflexivity|].
      rewrite <- Hc. unfold log2, Rpower. rewrite ln_exp. field. lra.
Qed.
Print Assumptions smart_tf.
Example smart_tf_ex : smartirs_wlocal ch_a [1; 4; 2] = Ok [5 / 8; 1; 3 / 4].
Proof. unfold smartirs_wlocal. cbn [N.eqb Pos.eqb ch_a ch_n ch_l ch_d Rmaximum map]. replace (Rmax (Rmax 1 4) 2) with 4; [f_equal; f_equal; [lra|]; f_equal; [lra|]; f_equal; lra|]. rewrite (Rmax_right 1 4) by lra. rewrite Rmax_left; lra. Qed.
(** Which letters are accepted; the stored letters are accepted too and stand for themselves. *)
Theorem resolve_weights_exact : forall s, 
  ((exists r, resolve_weights s = Ok r) <-> exists x y z, s = [x; y; z] /\ In x (str "btnaldL") /\ In y (str "xnftp") /\ In z (str "xncub")) /\
  (forall e, resolve_weights s = Err e -> e = ValueError) /\
  (forall a b c, resolve_weights s = Ok (a, b, c) -> resolve_weights [a; b; c] = Ok (a, b, c)).
Proof.
  intros s. split; [|split].
  - split.
    + intros ([[a b] c] & H). destruct s as [|x [|y [|z [|u s]]]]; try discriminate. cbn [resolve_weights] in H.
      destruct (memb x (str "btnaldL")) eqn:Ex; [|discriminate]. destruct (memb y (str "xnftp")) eqn:Ey; [|discriminate]. destruct (memb z (str "xncub")) eqn:Ez; [|discriminate].
      apply memb_true in Ex, Ey, Ez. exists x, y, z. auto.
    + intros (x & y & z & -> & Ex & Ey & Ez). apply memb_true in Ex, Ey, Ez. cbn [resolve_weights]. rewrite Ex, Ey, Ez. cbn [negb]. eexists. reflexivity.
  - intros e H. destruct s as [|x [|y [|z [|u s]]]]; cbn [resolve_weights] in H; try congruence. destruct (negb _); [congruence|]. destruct (negb _); [congruence|]. destruct (negb _); congruence.
  - intros a b c H. destruct (resolve_letters s a b c H) as (A & B & C & _).
    cbv in A, B, C. decompose [or] A; try contradiction; decompose [or] B; try contradiction; decompose [or] C; try contradiction; subst; vm_compute; reflexivity.
Qed.
Print Assumptions resolve_weights_exact.

(** ** Pivoted length *)
(** With slope 1 the pivot has no effect (when documents are scaled to unit length), with slope 0 every document is divided by
    the pivot; in between the length used lies between the pivot and the document's own. *)
Theorem pivoted_length : forall m idfs eps bow p slope vec,
  let with_pivot q s := mkTfidf (tf_num_docs m) (tf_num_nnz m) (tf_dfs m) (tf_cfs m) (tf_term_lens m) (Some idfs) (fun x => Ok x) NormTrue None q s in
  vec = map (fun p => (fst p, snd p * idf_of idfs (fst p))) (filter (fun p => if Rlt_dec eps (Rabs (idf_of idfs (fst p))) then true else false) bow) ->
  tfidf_apply (with_pivot (Some p) 1) eps bow = tfidf_apply (with_pivot None slope) eps bow /\
  (forall nv old, unitvec_bow vec L2 = Ok (nv, old) ->
     tfidf_apply (with_pivot (Some p) 0) eps bow = Ok (filter (fun iw => if Rlt_dec eps (Rabs (snd iw)) then true else false) (map (fun iw => (fst iw, snd iw / p)) vec)) /\
     (old = p -> tfidf_apply (with_pivot (Some p) slope) eps bow = tfidf_apply (with_pivot None slope) eps bow) /\
     (0 <= slope <= 1 -> Rmin p old <= pivoted slope p old <= Rmax p old)).
Proof.
  intros m idfs eps bow p slope vec wp Hvec.
  assert (Em : forall {A} (f : dict Z R -> result A), (let* idfs := match bow with [] => Ok idfs | _ :: _ => Ok idfs end in f idfs) = f idfs) by (intros; destruct bow; reflexivity).
  assert (A1 : forall q s, tfidf_apply (wp (Some q) s) eps bow = (let* (_, old) := unitvec_bow vec L2 in Ok (keep_eps eps (map (fun iw => (fst iw, snd iw / pivoted s q old)) vec)))).
  { intros q s. unfold tfidf_apply, wp. cbn [tf_wlocal tf_idfs tf_smartirs tf_normalize tf_pivot tf_slope rbind].
    rewrite (Em _ (fun idfs => let* (_, old) := unitvec_bow (weighted eps idfs (map fst bow) (map snd bow)) L2 in Ok (keep_eps eps (map (fun iw => (fst iw, snd iw / pivoted s q old)) (weighted eps idfs (map fst bow) (map snd bow)))))).
    rewrite weighted_as_map, <- Hvec. reflexivity. }
  assert (A2 : forall s, tfidf_apply (wp None s) eps bow = (let* (nv, _) := unitvec_bow vec L2 in Ok (keep_eps eps nv))).
  { intros s. unfold tfidf_apply, wp. cbn [tf_wlocal tf_idfs tf_smartirs tf_normalize tf_pivot tf_slope rbind].
    rewrite (Em _ (fun idfs => let* (nv, _) := unitvec_bow (weighted eps idfs (map fst bow) (map snd bow)) L2 in Ok (keep_eps eps nv))).
    rewrite weighted_as_map, <- Hvec. reflexivity. }
  assert (U : forall nv old, unitvec_bow vec L2 = Ok (nv, old) -> nv = map (fun iw => (fst iw, snd iw / old)) vec).
  { intros nv old E. apply unitvec_scaled. exact E. }
  split.
  - rewrite A1, A2. destruct (unitvec_bow vec L2) as [[nv old]|e] eqn:E; [|reflexivity]. cbn [rbind]. rewrite (U nv old eq_refl). do 2 f_equal. apply map_ext. intros iw. do 2 f_equal. unfold pivoted. ring.
  - intros nv old E. split; [|split].
    + rewrite A1, E. cbn [rbind]. unfold keep_eps. do 2 f_equal. apply map_ext. intros iw. do 2 f_equal. unfold pivoted. ring.
    + intros Eo. rewrite A1, A2, E. cbn [rbind]. rewrite (U nv old E). do 2 f_equal. apply map_ext. intros iw. do 2 f_equal. unfold pivoted. rewrite Eo. ring.
    + intros [S0 S1]. unfold pivoted. unfold Rmin, Rmax. destruct (Rle_dec p old) as [L|L].
      * split; [|]; [assert (0 <= slope * (old - p)) by (apply Rmult_le_pos; lra); lra | assert (0 <= (1 - slope) * (old - p)) by (apply Rmult_le_pos; lra); lra].
      * split; [|]; [assert (0 <= (1 - slope) * (p - old)) by (apply Rmult_le_pos; lra); lra | assert (0 <= slope * (p - old)) by (apply Rmult_le_pos; lra); lra].
Qed.
Print Assumptions pivoted_length.

(** ** What fails *)
Definition plain_wl : list R -> result (list R) := fun x => Ok x.
Definition default_wg : nat -> nat -> R := fun df n => df2idf df n 2 0.
(** Letter b (byte length) with a corpus but no dictionary. *)
Theorem tfidf_b_corpus_refuted : exists witness, witness = str "nnb" /\ (tfidf_new plain_wl default_wg NormTrue None (1/4) (Some witness) None [[(0%Z, 1)]] = Err AttributeErr).
Proof. exists (str "nnb"). split; [reflexivity|]. reflexivity. Qed.
(** Letter b and a document with a term the dictionary does not know: an error, where the other letters drop the term. *)
Theorem tfidf_b_unknown_refuted : exists d m, d_add_documents d_empty [[str "a"]; [str "b"]] None = Ok d /\
  tfidf_new plain_wl default_wg NormTrue None (1/4) (Some (str "nnb")) (Some d) [] = Ok m /\
  tfidf_apply m (1/10) [(0%Z, 1); (7%Z, 1)] = Err KeyError.
Proof.
  eexists. eexists. split; [vm_compute; reflexivity|]. split; [reflexivity|].
  unfold tfidf_apply. cbn [tf_wlocal tf_idfs tf_smartirs tf_pivot smartirs_wlocal N.eqb Pos.eqb ch_n rbind map snd fst set_pivot from_dictionary]. reflexivity.
Qed.
(** Letter a (augmented frequency) and an empty document. *)
Theorem tfidf_a_empty_refuted : exists m, tfidf_new plain_wl default_wg NormTrue None (1/4) (Some (str "anc")) None [[(0%Z, 1)]; []] = Ok m /\ tfidf_apply m (1/10) [] = Err ValueError.
Proof. eexists. split; reflexivity. Qed.
(** An explicit frequency 0 cannot be normalised. *)
Theorem tfidf_zero_frequency_refuted : exists m, tfidf_new plain_wl (fun _ _ => 1) NormTrue None (1/4) None None [[(0%Z, 1)]] = Ok m /\ tfidf_apply m (1/10) [(0%Z, 0)] = Err AssertionErr.
Proof.
  eexists. split; [reflexivity|]. unfold tfidf_apply. cbn [tf_wlocal tf_idfs tf_smartirs tf_normalize tf_pivot from_corpus rbind map fst snd plain_wl]. rewrite (weighted_as_map (1/10) _ [(0%Z, 0)]).
  cbn [filter fst snd]. unfold idf_of. cbn. rewrite Rabs_R1. destruct (Rlt_dec (1/10) 1); [|lra]. cbn [map fst snd].
  destruct (unitvec_bow_zero [(0%Z, 0 * 1)] L2) as [[X _]|[_ X]]; [discriminate | intros i w [Q|[]]; injection Q as _ Q; lra | discriminate|]. cbn in X |- *. rewrite X. reflexivity.
Qed.
(** [normalize=False] with a pivot: [utils.identity] is called with [return_norm]. *)
Theorem tfidf_identity_pivot_refuted : exists m, tfidf_new plain_wl (fun _ _ => 1) NormFalse (Some 1) (1/4) None None [[(0%Z, 1)]] = Ok m /\ tfidf_apply m (1/10) [(0%Z, 1)] = Err TypeError.
Proof. eexists. split; reflexivity. Qed.
(** An empty dictionary (here, one filtered of everything) is false, and the corpus is used in its place; with neither, the model
    cannot transform anything. *)
Theorem tfidf_empty_dictionary_refuted : exists d d' m, d_add_documents d_empty [[str "a"]] None = Ok d /\ d_filter_extremes d 2 1 None [] = Ok d' /\
  tfidf_new plain_wl default_wg NormTrue None (1/4) None (Some d') [] = Ok m /\ tfidf_apply m (1/10) [(0%Z, 1)] = Err AttributeErr.
Proof. eexists. eexists. eexists. split; [vm_compute; reflexivity|]. split; [vm_compute; reflexivity|]. split; reflexivity. Qed.

(** ** Examples *)
Example resolve_ex : resolve_weights (str "txx") = Ok (ch_n, ch_n, ch_n) /\ resolve_weights (str "ltc") = Ok (ch_l, ch_t, ch_c) /\ resolve_weights (str "ltc.bnn") = Err ValueError /\ resolve_weights (str "zzz") = Err ValueError.
Proof. vm_compute. auto. Qed.
(** Two documents, [a b] and [a c]: [a] has idf 0 and [b], [c] have idf 1. *)
Example tfidf_ex : forall eps, 0 < eps < 1/2 ->
  exists d m, d_add_documents d_empty [[str "a"; str "b"]; [str "a"; str "c"; str "c"]] None = Ok d /\
  tfidf_new plain_wl default_wg NormTrue None (1/4) None (Some d) [] = Ok m /\
  tfidf_apply m eps [(0%Z, 1); (1%Z, 1); (9%Z, 3)] = Ok [(1%Z, 1)].
Proof.
  intros eps H. set (d := mkDictionary [(str "a", 0%nat); (str "b", 1%nat); (str "c", 2%nat)] [] [(0%nat, 2%nat); (1%nat, 1%nat); (2%nat, 2%nat)] [(0%nat, 2%nat); (1%nat, 1%nat); (2%nat, 1%nat)] 2%nat 5%nat 4%nat).
  exists d, (from_dictionary plain_wl default_wg NormTrue None None (1/4) d). split; [vm_compute; reflexivity|]. split; [reflexivity|]. unfold d.
  unfold tfidf_apply. cbn [tf_wlocal tf_idfs tf_smartirs tf_normalize tf_pivot from_dictionary rbind plain_wl].
  destruct (df2idf_facts 2 2) as (_ & F & _); [lia | lia|].
  assert (E1 : df2idf 1 2 2 0 = 1). { unfold df2idf. replace (INR 2 / INR 1) with 2 by (cbn; field). pose proof ln2_pos. field. lra. }
  rewrite (weighted_as_map eps _ [(0%Z, 1); (1%Z, 1); (9%Z, 3)]). match goal with |- context [idf_of ?x _] => set (idfs := x) end.
  assert (I0 : idf_of idfs 0%Z = 0) by (change (df2idf 2 2 2 0 = 0); apply F; reflexivity).
  assert (I1 : idf_of idfs 1%Z = 1) by exact E1. assert (I9 : idf_of idfs 9%Z = 0) by reflexivity. clearbody idfs.
  cbn [filter fst snd]. rewrite I0, I1, I9, Rabs_R0, Rabs_R1. destruct (Rlt_dec eps 0); [lra|]. destruct (Rlt_dec eps 1); [|lra]. cbn [map fst snd]. rewrite I1.
  unfold unitvec_bow. cbn [map snd]. replace (1 * sqrt (Rsum [(1 * 1) ^ 2])) with 1.
  2:{ unfold Rsum. cbn [fold_right]. replace ((1 * 1) ^ 2 + 0) with 1 by ring. rewrite sqrt_1. ring. }
  destruct (Rlt_dec 0 1); [|lra]. unfold ret_normalized_vec. destruct (Req_EM_T 1 1); [|lra]. cbn [rbind]. unfold keep_eps. cbn [filter snd fst]. rewrite Rmult_1_l, Rabs_R1. destruct (Rlt_dec eps 1); [reflexivity | lra].
Qed.
(** The built dictionary describes its documents, and the same model comes from its bags. *)
Example tfidf_same_ex : exists d, d_add_documents d_empty [[str "a"; str "b"]; [str "a"; str "c"; str "c"]] (Some 2000000%Z) = Ok d /\
  describes d [[str "a"; str "b"]; [str "a"; str "c"; str "c"]] /\ d_len d = 3%nat /\ map (map fst) (bows d [[str "a"; str "b"]; [str "a"; str "c"; str "c"]]) = [[0; 1]; [0; 2]]%Z.
Proof.
  destruct (dictionary_describes [[str "a"; str "b"]; [str "a"; str "c"; str "c"]] (Some 2000000%Z)) as (d & E & D & _).
  - intros k K. injection K as <-. vm_compute. discriminate.
  - exists d. split; [exact E|]. split; [exact D|]. clear D. vm_compute in E. injection E as <-. split; reflexivity.
Qed.
(** From the documents themselves: the model of their dictionary and the model of their bags transform every vector alike. *)
Theorem tfidf_documents_same : forall docs p wl wg norm pivot slope smartirs, (exists doc, In doc docs /\ doc <> []) ->
  (forall k, p = Some k -> (Z.of_nat (d_len (run_calls (as_calls docs) d_empty)) <= k)%Z) -> (forall a b, smartirs <> Some [a; b; ch_b]) ->
  exists d, d_add_documents d_empty docs p = Ok d /\
  let r1 := tfidf_new wl wg norm pivot slope smartirs (Some d) [] in
  let r2 := tfidf_new wl wg norm pivot slope smartirs None (bows d docs) in
  (exists e, r1 = Err e /\ r2 = Err e) \/
  (exists m1 m2, r1 = Ok m1 /\ r2 = Ok m2 /\ (forall z, dget (tf_dfs m1) z = dget (tf_dfs m2) z) /\ tf_num_docs m1 = tf_num_docs m2 /\
     forall eps bow, tfidf_apply m1 eps bow = tfidf_apply m2 eps bow).
Proof.
  intros docs p wl wg norm pivot slope smartirs (doc & Hd & Hne) Hp NB. destruct (dictionary_describes docs p Hp) as (d & E & D & N & Z). exists d. split; [exact E|].
  apply tfidf_same; [exact D | intros L; apply Hne; apply (proj1 Z L); exact Hd | exact NB | intros; exact N].
Qed.
Print Assumptions tfidf_documents_same.
