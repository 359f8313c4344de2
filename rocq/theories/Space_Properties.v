(** Sizes of vocabulary of topic models. *)
From Verif Require Import Base Utils_Model Utils_Properties Space_Model.
Local Open Scope Z_scope.

Section P.
Context {W : Type}.
Notation corpus := (@corpus W).

(** ** Spec *)
(** the size is enough for all ids, and no greater than needed *)
Definition just (ks : list Z) (n : Z) : Prop := (forall k, In k ks -> k < n) /\ In (n - 1) ks.
Definition enough (ks : list Z) (n : Z) : Prop := forall k, In k ks -> k < n.
Definition used (c : list (list (Z * W))) : list Z := map fst (concat c).

Lemma max_just : forall r k, just (k :: r) (1 + fold_left Z.max r k).
Proof.
  induction r as [|x r IH]; intros k; [split; [intros y [<-|[]]; cbn [fold_left]; lia | left; cbn [fold_left]; lia]|]. cbn [fold_left]. destruct (IH (Z.max k x)) as [A B]. split.
  - intros y H. assert (M : Z.max k x < 1 + fold_left Z.max r (Z.max k x)) by (apply A; left; reflexivity). destruct H as [<-|[<-|H]]; [lia | lia | apply A; right; exact H].
  - destruct B as [B|B]; [|right; right; exact B]. destruct (Z.max_spec k x) as [[_ M]|[_ M]]; rewrite M in B at 1; [right; left; exact B | left; exact B].
Qed.
Lemma keys_just : forall ks, ks <> [] -> exists n, from_keys (Ids ks) = Ok n /\ just ks n.
Proof.
  intros [|k r] N; [congruence|]. unfold from_keys. cbn [m_len rbind m_keys max_of]. destruct (Z.ltb_spec 0 (Z.of_nat (length (k :: r)))) as [_|L]; [|cbn in L; lia]. eexists. split; [reflexivity | apply max_just].
Qed.
(** Latent Dirichlet allocation, author topics, latent semantic indexing and random projections have room for the ids of a mapping and no more. *)
Theorem keys_exact : forall ks (c : corpus), ks <> [] -> (forall k, In k ks -> 0 <= k) ->
  exists n, just ks n /\ 0 < n /\ lda_terms (Ids ks) c = Ok n /\ at_terms (Ids ks) c = Ok n /\ lsi_terms (Ids ks) c = Ok n /\ rp_terms (Ids ks) c = Ok n.
Proof.
  intros ks c N P. destruct (keys_just ks N) as (n & E & J). assert (L : 0 < n) by (pose proof (P _ (proj2 J)); lia). exists n. split; [exact J|]. split; [exact L|]. unfold lda_terms, at_terms, lsi_terms.
  rewrite E. cbn [rbind]. destruct (Z.eqb_spec n 0) as [Z0|_]; [lia|]. split; [reflexivity|]. split; [reflexivity|]. split; [reflexivity|]. destruct ks as [|k r]; [congruence|]. unfold rp_terms. cbn [m_len rbind m_iter max_of].
  destruct (Z.eqb_spec (Z.of_nat (length (k :: r))) 0) as [Z0|_]; [cbn in Z0; lia|]. unfold from_keys in E. cbn [m_len rbind m_keys max_of] in E. destruct (Z.ltb_spec 0 (Z.of_nat (length (k :: r)))) as [_|L0]; [exact E | cbn in L0; lia].
Qed.
(** Without a mapping, all of them but hierarchical Dirichlet processes have room for the ids of the corpus and no more. *)
Theorem space_corpus_exact : forall c : list (list (Z * W)), (exists k, In k (used c) /\ 0 <= k) ->
  exists n, just (used c) n /\ lda_terms Missing (Some c) = Ok n /\ at_terms Missing (Some c) = Ok n /\ lsi_terms Missing (Some c) = Ok n /\ nmf_terms Missing (Some c) = Ok n /\ seq_terms Missing (Some c) = Ok n /\ rp_terms Missing (Some c) = Ok n /\ hdp_terms Missing (Some c) = Err TypeError.
Proof.
  intros c (k & Hk & P). destruct (get_max_id_exact c) as (A & B & C). assert (U : forall i, In i (used c) <-> exists doc v, In doc c /\ In (i, v) doc).
  { intros i. unfold used. rewrite in_map_iff. split; [intros ([j v] & <- & H); apply in_concat in H; destruct H as (doc & Hd & H); exists doc, v; auto | intros (doc & v & Hd & H); exists (i, v); split; [reflexivity | apply in_concat; exists doc; auto]]. }
  assert (Lt : forall i, In i (used c) -> i < dict_from_corpus c) by (intros i Hi; apply U in Hi; destruct Hi as (doc & v & Hd & H); specialize (A doc i v Hd H); unfold dict_from_corpus; lia). pose proof (Lt k Hk) as Lk.
  exists (dict_from_corpus c). split.
  - split; [exact Lt|]. unfold dict_from_corpus. replace (1 + get_max_id c - 1) with (get_max_id c) by lia. apply U. destruct C as (doc & v & X); [unfold dict_from_corpus in Lk; lia|]. exists doc, v. exact X.
  - unfold lda_terms, at_terms, lsi_terms, nmf_terms, seq_terms, rp_terms, hdp_terms. cbn [made rbind m_len]. destruct (Z.eqb_spec (dict_from_corpus c) 0) as [Z0|_]; [lia|]. auto 10.
Qed.
(** Factorization, hierarchical Dirichlet processes and sequences have room for all ids of a mapping just when these are the numbers from zero on. *)
Theorem length_exact : forall ks (c : corpus), NoDup ks -> (forall k, In k ks -> 0 <= k) ->
  exists n, nmf_terms (Ids ks) c = Ok n /\ hdp_terms (Ids ks) c = Ok n /\ seq_terms (Ids ks) c = Ok n /\ (enough ks n <-> forall k, In k ks <-> 0 <= k < n).
Proof.
  intros ks c N P. exists (Z.of_nat (length ks)). split; [reflexivity|]. split; [reflexivity|]. split; [reflexivity|]. split; [|intros H k Hk; apply H in Hk; lia]. intros E.
  assert (I : incl ks (map Z.of_nat (seq 0 (length ks)))).
  { intros k Hk. specialize (E k Hk). specialize (P k Hk). apply in_map_iff. exists (Z.to_nat k). split; [lia|]. apply in_seq. lia. }
  assert (I2 : incl (map Z.of_nat (seq 0 (length ks))) ks) by (apply (NoDup_length_incl N); [rewrite map_length, seq_length; lia | exact I]).
  intros k. split; [intros Hk; specialize (E k Hk); specialize (P k Hk); lia|]. intros Hk. apply I2. apply in_map_iff. exists (Z.to_nat k). split; [lia|]. apply in_seq. lia.
Qed.
(** With the numbers from zero on as ids, all models have the same size. *)
Theorem all_alike : forall ks (c : corpus) n, NoDup ks -> 0 < n -> (forall k, In k ks <-> 0 <= k < n) ->
  lda_terms (Ids ks) c = Ok n /\ at_terms (Ids ks) c = Ok n /\ lsi_terms (Ids ks) c = Ok n /\ rp_terms (Ids ks) c = Ok n /\ nmf_terms (Ids ks) c = Ok n /\ hdp_terms (Ids ks) c = Ok n /\ seq_terms (Ids ks) c = Ok n.
Proof.
  intros ks c n N P H. assert (NE : ks <> []) by (intros ->; destruct (proj2 (H 0)); lia). assert (Nn : forall k, In k ks -> 0 <= k) by (intros k Hk; apply H in Hk; lia).
  destruct (keys_exact ks c NE Nn) as (m & [J1 J2] & Pm & A & B & C & D). assert (m = n) by (apply H in J2; assert (n - 1 < m) by (apply J1, H; lia); lia). subst m.
  assert (L : Z.of_nat (length ks) = n).
  { assert (I1 : length ks = length (map Z.of_nat (seq 0 (Z.to_nat n)))); [|rewrite I1, map_length, seq_length; lia]. apply Nat.le_antisymm.
    - apply (NoDup_incl_length N). intros k Hk. apply H in Hk. apply in_map_iff. exists (Z.to_nat k). split; [lia|]. apply in_seq. lia.
    - apply NoDup_incl_length; [apply FinFun.Injective_map_NoDup; [intros x y; lia | apply seq_NoDup]|]. intros k Hk. apply in_map_iff in Hk. destruct Hk as (i & <- & Hi). apply in_seq in Hi. apply H. lia. }
  unfold nmf_terms, hdp_terms, seq_terms. cbn [m_len]. rewrite L. auto 10.
Qed.
End P.
Print Assumptions keys_exact.
Print Assumptions space_corpus_exact.
Print Assumptions length_exact.
Print Assumptions all_alike.
(** Violation: with a gap between the ids, the greatest has no room in three of the models. *)
Theorem gap_refuted : exists ks n, NoDup ks /\ In n ks /\ lda_terms (W := nat) (Ids ks) None = Ok (n + 1) /\ nmf_terms (W := nat) (Ids ks) None = Ok 2 /\ hdp_terms (W := nat) (Ids ks) None = Ok 2 /\ seq_terms (W := nat) (Ids ks) None = Ok 2 /\ 2 <= n.
Proof. exists [0; 5], 5. split; [repeat constructor; cbn; lia|]. split; [cbn; auto|]. split; [reflexivity|]. split; [reflexivity|]. split; [reflexivity|]. split; [reflexivity | lia]. Qed.
(** Violation: the mapping another model made for itself cannot be used for random projections, but for all others. *)
Theorem fake_refuted : exists n : Z, rp_terms (W := nat) (Fake n) None = Err ValueError /\ lda_terms (W := nat) (Fake n) None = Ok n /\ lsi_terms (W := nat) (Fake n) None = Ok n /\ nmf_terms (W := nat) (Fake n) None = Ok n /\ seq_terms (W := nat) (Fake n) None = Ok n /\ hdp_terms (W := nat) (Fake n) None = Ok n.
Proof. exists 7. vm_compute. auto 10. Qed.
(** Violation: factorization without corpus and mapping raises TypeError where the others say what is missing. *)
Theorem nothing_refuted : exists c : @corpus nat, nmf_terms Missing c = Err TypeError /\ lda_terms Missing c = Err ValueError /\ lsi_terms Missing c = Err ValueError /\ at_terms Missing c = Err ValueError /\ seq_terms Missing c = Err ValueError.
Proof. exists None. vm_compute. auto 10. Qed.
Print Assumptions gap_refuted.
Print Assumptions fake_refuted.
Print Assumptions nothing_refuted.
Example space_example : lda_terms (Ids [2; 0; 1]) (@None (list (list (Z * nat)))) = Ok 3 /\ lsi_terms Missing (Some [[(0, 1%nat)]; [(4, 2%nat); (1, 1%nat)]]) = Ok 5 /\ lsi_terms (Ids []) (@None (list (list (Z * nat)))) = Ok 0 /\ lda_terms (Ids []) (@None (list (list (Z * nat)))) = Err ValueError.
Proof. vm_compute. auto. Qed.
