(** Properties C31 and C32: the sharded similarity index. *)
From Coq Require Import QArith Qabs ZifyBool.
From Verif Require Import Base Matutils_Model Matutils_Proofs Matutils_Proofs2 Matutils_Properties Docsim_Model Docsim_Proofs.
Close Scope Q_scope.
Local Open Scope nat_scope.

(** ** Spec *)
Inductive sop (D Y : Type) : Type :=
| SAdd (corpus : list D) | SClose | SQuery (q : Y) | SBest (k : Z) (q : Y) | SBestCorpus (k : Z) (qs : list Y)
| SVector (i : Z) | SIter (exhausted : bool) | SReload.
Arguments SAdd {D Y}. Arguments SClose {D Y}. Arguments SQuery {D Y}. Arguments SBest {D Y}. Arguments SBestCorpus {D Y}.
Arguments SVector {D Y}. Arguments SIter {D Y}. Arguments SReload {D Y}.

Section H.
Context {D V Y : Type}.
Variable conv : D -> result V.
Variable doclen : D -> nat.
Variable nnz : V -> nat.
Variable issparse : nat -> nat -> bool.
Variable num_features shardsize : nat.
Variable np_argsort : list Q -> list nat.
Variable np_argpartition : list Q -> nat -> list nat.
Variable score : bool -> Y -> V -> Q.

(** The index after one call, whether it succeeded or raised. [SReload]: save, then load in a new process. *)
Definition step (s : @sim V) (o : sop D Y) : sim :=
  match o with
  | SAdd corpus => snd (add_documents conv doclen nnz issparse num_features shardsize s corpus)
  | SClose => match close_shard nnz issparse num_features s with Ok s' => s' | Err _ => s end
  | SQuery q => snd (query_all nnz issparse num_features score s q)
  | SBest k q => snd (query_best nnz issparse num_features np_argsort np_argpartition score s k q)
  | SBestCorpus k qs => snd (query_best_corpus nnz issparse num_features np_argsort np_argpartition score s k qs)
  | SVector i => snd (vector_by_id nnz issparse num_features s i)
  | SIter b => snd (iterate nnz issparse num_features s b)
  | SReload => let s' := snd (save nnz issparse num_features s) in load s' (x_disk s')
  end.
Definition run (ops : list (sop D Y)) : sim := fold_left step ops x_empty.

(** The sequence of vectors the history denotes, and whether no iteration was abandoned. *)
Fixpoint added (ops : list (sop D Y)) : list V :=
  match ops with
  | [] => []
  | SAdd corpus :: r => converted conv corpus ++ added r
  | _ :: r => added r
  end.
Fixpoint all_exhausted (ops : list (sop D Y)) : bool :=
  match ops with
  | [] => true
  | SIter b :: r => b && all_exhausted r
  | _ :: r => all_exhausted r
  end.
(** Guard: the stored vector has as many non-zeros as the document has entries. *)
Definition good_op (o : sop D Y) : Prop := match o with SAdd corpus => Forall (good_doc conv doclen nnz) corpus | _ => True end.

Hypothesis Hf : 1 <= num_features.
Hypothesis Hs : 1 <= shardsize.

Lemma step_ok docs s o : Inv nnz shardsize docs s -> good_op o ->
  Inv nnz shardsize (docs ++ added [o]) (step s o) /\ x_norm (step s o) = all_exhausted [o] && x_norm s.
Proof.
  intros I G.
  destruct (Inv_close nnz issparse num_features shardsize Hf Hs docs s I) as (s' & C & I' & Fe & Nm).
  destruct o; simpl in *; rewrite ?app_nil_r.
  - destruct (add_ok conv doclen nnz issparse num_features shardsize Hf Hs docs s corpus I G) as (s1 & r & E & I1 & N1 & _).
    rewrite E. auto.
  - rewrite C. auto.
  - unfold query_all, closing. rewrite C. auto.
  - unfold query_best, closing. rewrite C. auto.
  - unfold query_best_corpus, closing. rewrite C. auto.
  - unfold vector_by_id, closing. rewrite C. auto.
  - destruct (Inv_close nnz issparse num_features shardsize Hf Hs docs (set_norm s false)) as (s2 & C2 & I2 & Fe2 & Nm2);
      [apply Inv_norm; exact I|].
    unfold iterate. rewrite C2. destruct exhausted; simpl; split; auto. apply Inv_norm. exact I2.
  - unfold save, closing. rewrite C. simpl. rewrite (load_ok _ _ _ _ I'). auto.
Qed.

Lemma run_ok ops : Forall good_op ops -> Inv nnz shardsize (added ops) (run ops) /\ x_norm (run ops) = all_exhausted ops.
Proof.
  intros G. unfold run.
  assert (H : forall docs s, Inv nnz shardsize docs s -> Forall good_op ops ->
    Inv nnz shardsize (docs ++ added ops) (fold_left step ops s) /\ x_norm (fold_left step ops s) = all_exhausted ops && x_norm s).
  { clear G. induction ops as [|o ops IH]; intros docs s I G; cbn [fold_left].
    - simpl. rewrite app_nil_r. auto.
    - inversion G; subst. destruct (step_ok docs s o I H1) as [I1 N1].
      destruct (IH _ _ I1 H2) as [I2 N2]. rewrite <- app_assoc in I2.
      assert (EA : added (o :: ops) = added [o] ++ added ops) by (destruct o; simpl; rewrite ?app_nil_r; reflexivity).
      assert (EE : all_exhausted (o :: ops) = all_exhausted [o] && all_exhausted ops) by (destruct o; simpl; rewrite ?andb_true_r; reflexivity).
      rewrite EA, EE. split; [exact I2|]. rewrite N2, N1.
      generalize (all_exhausted [o]), (all_exhausted ops), (x_norm s). intros [] [] []; reflexivity. }
  destruct (H [] x_empty) as [I N]; [|exact G|].
  - constructor; simpl; auto; try lia. intros i sh Hi. destruct i; discriminate.
  - simpl in I. split; [exact I|]. rewrite N. simpl. apply andb_true_r.
Qed.

(** ** C31 *)
Theorem sim_len : forall ops, Forall good_op ops -> x_len (run ops) = length (added ops).
Proof. intros ops G. destruct (run_ok ops G) as [I _]. exact (x_len_ok _ _ _ _ I). Qed.

Theorem sim_vector_by_id : forall ops i v, Forall good_op ops -> nth_error (added ops) i = Some v ->
  fst (vector_by_id nnz issparse num_features (run ops) (Z.of_nat i)) = Ok v.
Proof.
  intros ops i v G E. destruct (run_ok ops G) as [I _].
  destruct (vector_ok nnz issparse num_features shardsize Hf Hs _ _ i v I E) as (s' & Ev & _). rewrite Ev. reflexivity.
Qed.

Theorem sim_vector_by_id_range : forall ops i, Forall good_op ops -> (i < 0 \/ Z.of_nat (length (added ops)) <= i)%Z ->
  fst (vector_by_id nnz issparse num_features (run ops) i) = Err ValueError.
Proof.
  intros ops i G B. destruct (run_ok ops G) as [I _].
  destruct (vector_bad nnz issparse num_features shardsize Hf Hs _ _ i I B) as (s' & Ev & _). rewrite Ev. reflexivity.
Qed.

(** Adding documents never fails, after any history (in particular a shard can always be reopened). *)
Theorem sim_add_total : forall ops corpus, Forall good_op ops -> Forall (good_doc conv doclen nnz) corpus ->
  (forall d, In d corpus -> exists v, conv d = Ok v) ->
  fst (add_documents conv doclen nnz issparse num_features shardsize (run ops) corpus) = Ok tt.
Proof.
  intros ops corpus G Gc C. destruct (run_ok ops G) as [I _].
  destruct (add_ok conv doclen nnz issparse num_features shardsize Hf Hs _ _ corpus I Gc) as (s1 & r & E & _ & _ & H).
  rewrite E. apply H. apply forallb_forall. intros d Hd. destruct (C d Hd) as (v & ->). reflexivity.
Qed.

(** The similarity vector lists the documents in insertion order; normalization is on unless an iteration was abandoned. *)
Theorem sim_query_all : forall ops q, Forall good_op ops -> added ops <> [] ->
  fst (query_all nnz issparse num_features score (run ops) q) = Ok (map (score (all_exhausted ops) q) (added ops)).
Proof.
  intros ops q G NE. destruct (run_ok ops G) as [I N].
  destruct (Inv_close nnz issparse num_features shardsize Hf Hs _ _ I) as (s' & C & I' & Fe & Nm).
  unfold query_all, closing. rewrite C. pose proof (v_rows _ _ _ _ I') as R. rewrite Fe, app_nil_r in R. unfold rows_of in R.
  cbn [fst]. destruct (x_shards s') as [|sh shs] eqn:E; [exfalso; apply NE; rewrite <- R; reflexivity|]. rewrite <- E in *.
  f_equal. rewrite <- R, concat_map, map_map. rewrite Nm, N. reflexivity.
Qed.

(** Every shard but the last holds exactly [shardsize] documents, the last one between 1 and [shardsize]. *)
Theorem sim_shards : forall ops, Forall good_op ops ->
  Forall (fun sh => sh_len sh = shardsize) (removelast (x_shards (run ops))) /\
  Forall (fun sh => 1 <= sh_len sh <= shardsize /\ sh_len sh = length (sh_rows sh)) (x_shards (run ops)) /\
  length (x_fresh (run ops)) < shardsize.
Proof.
  intros ops G. destruct (run_ok ops G) as [[R O F FF L N K] _]. split; [exact F|]. split; [|exact L].
  eapply Forall_impl; [|exact O]. intros sh (A & _ & B). auto.
Qed.
End H.
Print Assumptions sim_len.
Print Assumptions sim_vector_by_id.
Print Assumptions sim_vector_by_id_range.
Print Assumptions sim_add_total.
Print Assumptions sim_query_all.
Print Assumptions sim_shards.

(** A concrete instance: vectors are lists of (id, weight) already of unit length, 100 features. *)
Definition vec : Type := list (nat * Q).
Definition vnnz (v : vec) : nat := length (filter (fun p => Qltb eps9 (Qabs (snd p))) v).
Definition vsparse (f n : nat) : bool := 10 * f <? 3 * (n * 100).
Definition vdot (norm : bool) (q v : vec) : Q :=
  ((if norm then 1 else 2) *
   fold_right Qplus 0 (map (fun p => snd p * match find (fun r => Nat.eqb (fst r) (fst p)) v with Some r => snd r | None => 0 end) q))%Q.
Definition vrun : list (sop vec vec) -> @sim vec := run Ok (@length _) vnnz vsparse 100 2 ref_argsort ref_argpartition vdot.
Definition e (i : nat) : vec := [(i, 1%Q)].

Example sim_ex :
  let s := vrun [SAdd [e 0; e 1; e 2]; SQuery (e 0); SAdd [e 3; e 4]; SIter true; SReload; SVector 9; SAdd []; SAdd [e 5]] in
  x_len s = 6 /\ map (@sh_len vec) (x_shards s) = [2; 2; 2] /\
  fst (vector_by_id vnnz vsparse 100 s 4) = Ok (e 4) /\
  fst (query_all vnnz vsparse 100 vdot s (e 3)) = Ok [0; 0; 0; 1; 0; 0]%Q.
Proof. vm_compute. repeat split. Qed.

(** Failure 1: a document with an explicit zero weight makes every later query fail. *)
Theorem sim_zero_weight_refuted : exists d q,
  fst (query_all vnnz vsparse 100 vdot (vrun [SAdd [d]]) q) = Err AssertionErr /\
  fst (query_all vnnz vsparse 100 vdot (vrun [SAdd [d]; SQuery q; SClose]) q) = Err AssertionErr.
Proof. exists [(0, 1%Q); (1, 0%Q)], (e 0). vm_compute. split; reflexivity. Qed.

(** Failure 2: an iteration that is not exhausted switches the normalization of all later queries off. *)
Theorem sim_abandoned_iteration_refuted : exists ops q,
  fst (query_all vnnz vsparse 100 vdot (vrun ops) q) <> fst (query_all vnnz vsparse 100 vdot (vrun (ops ++ [SIter false])) q).
Proof. exists [SAdd [e 0; e 1]], (e 0). vm_compute. discriminate. Qed.

(** Failure 3: an index saved earlier shares its last shard file with the live index; after more documents
    were added, loading it gives an index whose length disagrees with its similarity vectors. *)
Theorem sim_stale_save_refuted : exists ops more q,
  let saved := vrun (ops ++ [SClose]) in
  let live := vrun (ops ++ [SClose; SAdd more; SClose]) in
  let reloaded := load saved (x_disk live) in
  x_len reloaded = 1 /\ exists r, fst (query_all vnnz vsparse 100 vdot reloaded q) = Ok r /\ length r = 2.
Proof. exists [SAdd [e 0]], [e 1], (e 0). split; [vm_compute; reflexivity|]. exists [1; 0]%Q. vm_compute. split; reflexivity. Qed.

(** Failure 4: querying an empty index raises. *)
Theorem sim_empty_refuted : exists q, fst (query_all vnnz vsparse 100 vdot (vrun []) q) = Err ValueError.
Proof. exists (e 0). reflexivity. Qed.

(** ** C32: top-k over all shards *)
Section Best.
Context {V Y : Type}.
Variable np_argsort : list Q -> list nat.
Variable np_argpartition : list Q -> nat -> list nat.
Hypothesis Ha : argsort_contract np_argsort.
Hypothesis Hp : argpartition_contract np_argpartition.
Variable score : bool -> Y -> V -> Q.

Definition lens_ok (shs : list (@shard V)) : Prop := Forall (fun sh => sh_len sh = length (sh_rows sh)) shs.
Definition all_scores norm q (shs : list (@shard V)) : list Q := concat (map (shard_scores score norm q) shs).
Definition merged norm k q off shs : list (nat * Q) :=
  concat (convert off shs (map (shard_best np_argsort np_argpartition score norm k q) shs)).
Definition big (w : Q) : bool := Qltb eps9 (Qabs w).

Lemma filter_app_ {A} (f : A -> bool) l1 l2 : filter f (l1 ++ l2) = filter f l1 ++ filter f l2.
Proof. induction l1 as [|x l IH]; simpl; [reflexivity|]. destruct (f x); simpl; rewrite IH; reflexivity. Qed.

Lemma filter_map_ {A B} (f : B -> bool) (g : A -> B) l : filter f (map g l) = map g (filter (fun x => f (g x)) l).
Proof. induction l as [|x l IH]; simpl; [reflexivity|]. destruct (f (g x)); simpl; rewrite IH; reflexivity. Qed.

Lemma NoDup_app_ {A} (l1 l2 : list A) : NoDup l1 -> NoDup l2 -> (forall x, In x l1 -> In x l2 -> False) -> NoDup (l1 ++ l2).
Proof.
  induction l1 as [|x l1 IH]; simpl; intros N1 N2 D; [assumption|]. inversion N1; subst. constructor.
  - rewrite in_app_iff. intros [H|H]; [auto|]. apply (D x); auto.
  - apply IH; auto. intros y Hy1 Hy2. apply (D y); auto.
Qed.

Lemma filter_all {A} (f : A -> bool) l : (forall x, In x l -> f x = true) -> filter f l = l.
Proof. induction l as [|x l IH]; simpl; intros H; [reflexivity|]. rewrite H by auto. f_equal. apply IH. auto. Qed.

Lemma merged_ok norm k q shs : lens_ok shs -> forall off,
  let m := merged norm k q off shs in let sc := all_scores norm q shs in
  NoDup (map fst m) /\
  (forall i w, In (i, w) m -> off <= i /\ nth_error sc (i - off) = Some w /\ (eps9 < Qabs w)%Q) /\
  Nat.min (Z.to_nat k) (length (filter big sc)) <= length m /\ length m <= length (filter big sc) /\
  (forall j u f, off <= j -> nth_error sc (j - off) = Some u -> (eps9 < Qabs u)%Q -> ~ In j (map fst m) ->
     (forall x, (Qabs u <= Qabs (snd x))%Q -> f x = true) -> Z.to_nat k <= length (filter f m)).
Proof.
  induction 1 as [|sh shs L O IH]; intros off; cbv zeta.
  - simpl. split; [constructor|]. split; [intros i w []|]. split; [lia|]. split; [lia|].
    intros j u f B E. destruct (j - off); discriminate.
  - specialize (IH (off + sh_len sh)). cbv zeta in IH. destruct IH as (N2 & I2 & L2 & U2 & T2).
    pose proof (full2sparse_clipped_is_topn np_argsort np_argpartition Ha Hp (shard_scores score norm q sh) k eps9) as T.
    cbv zeta in T. fold (shard_best np_argsort np_argpartition score norm k q sh) in T.
    unfold merged, all_scores in *. cbn [map convert concat].
    set (b := shard_best np_argsort np_argpartition score norm k q sh) in *.
    set (sc1 := shard_scores score norm q sh) in *.
    set (m2 := concat (convert (off + sh_len sh) shs _)) in *.
    set (sc2 := concat (map (shard_scores score norm q) shs)) in *.
    assert (Lsc : length sc1 = sh_len sh) by (unfold sc1, shard_scores; rewrite map_length; auto).
    destruct T as (Lb & Nb & Ib & _ & Tb).
    assert (EM : map fst (map (fun p : nat * Q => (fst p + off, snd p)) b) = map (fun i => i + off) (map fst b)) by (rewrite !map_map; reflexivity).
    assert (Rb : forall i, In i (map fst b) -> i < length sc1).
    { intros i Hi. apply in_map_iff in Hi. destruct Hi as ([i' w] & <- & HI). apply Ib in HI. destruct HI as [E _].
      apply nth_error_Some. simpl. congruence. }
    repeat split.
    + rewrite map_app, EM. apply NoDup_app_; [|exact N2|].
      * apply FinFun.Injective_map_NoDup; [intros x y; lia|exact Nb].
      * intros i H1 H2. apply in_map_iff in H1. destruct H1 as (i' & <- & H1). apply Rb in H1.
        apply in_map_iff in H2. destruct H2 as ([i2 w2] & E2 & H2). apply I2 in H2. simpl in E2. lia.
    + apply in_app_iff in H. destruct H as [H|H].
      * apply in_map_iff in H. destruct H as ([i' w'] & E & H). injection E as <- <-. simpl. lia.
      * apply I2 in H. lia.
    + apply in_app_iff in H. destruct H as [H|H].
      * apply in_map_iff in H. destruct H as ([i' w'] & E & H). injection E as <- <-. simpl. apply Ib in H. destruct H as [H _].
        rewrite Nat.add_sub, nth_error_app1; [exact H|]. apply nth_error_Some. congruence.
      * apply I2 in H. destruct H as (B & E & _). rewrite nth_error_app2 by lia. rewrite <- E. f_equal. lia.
    + apply in_app_iff in H. destruct H as [H|H]; [|apply I2 in H; apply H].
      apply in_map_iff in H. destruct H as ([i' w'] & E & H). injection E as <- <-. apply Ib in H. apply H.
    + rewrite filter_app_, !app_length, map_length. change (fun w => Qltb eps9 (Qabs w)) with big in Lb. lia.
    + rewrite filter_app_, !app_length, map_length. change (fun w => Qltb eps9 (Qabs w)) with big in Lb. lia.
    + intros j u f B E Eu NI Hfx. rewrite filter_app_, app_length. rewrite map_app, EM, in_app_iff in NI.
      destruct (le_lt_dec (length sc1) (j - off)) as [C|C].
      * rewrite nth_error_app2 in E by exact C. assert (Z.to_nat k <= length (filter f m2)); [|lia].
        apply (T2 j u f); auto; [lia|]. rewrite <- E. f_equal. lia.
      * rewrite nth_error_app1 in E by exact C.
        assert (NIb : ~ In (j - off) (map fst b)).
        { intros HI. apply NI. left. apply in_map_iff. exists (j - off). split; [lia|exact HI]. }
        assert (Eall : filter f (map (fun p : nat * Q => (fst p + off, snd p)) b) = map (fun p => (fst p + off, snd p)) b).
        { apply filter_all. intros x Hx. apply Hfx. apply in_map_iff in Hx. destruct Hx as ([i w] & <- & HI). simpl.
          eapply Tb; eauto. }
        rewrite Eall, map_length.
        (* b cannot be everything, so it has k elements *)
        assert (Lt : length b < length (filter big sc1)).
        { apply Nat.lt_nge. intros GE.
          assert (HIn : incl (nonzero_above eps9 sc1) (map fst b)).
          { apply NoDup_length_incl; [exact Nb| |].
            - rewrite map_length. unfold nonzero_above. rewrite map_length.
              etransitivity; [|exact GE]. clear. unfold big. generalize 0. induction sc1 as [|w l IH]; intros s; simpl; [lia|].
              destruct (Qltb eps9 (Qabs w)); simpl; specialize (IH (S s)); lia.
            - intros i Hi. apply in_map_iff in Hi. destruct Hi as ([i' w] & <- & HI). apply Ib in HI. destruct HI as [Ei Ew]. simpl.
              apply in_map_iff. exists (i', w). split; [reflexivity|]. apply filter_In. split.
              + apply In_indexed. exact Ei.
              + simpl. apply Qltb_lt. exact Ew. }
          apply NIb. apply HIn. apply in_map_iff. exists (j - off, u). split; [reflexivity|]. apply filter_In. split.
          - apply In_indexed. exact E.
          - simpl. apply Qltb_lt. exact Eu. }
        change (fun w => Qltb eps9 (Qabs w)) with big in Lb. lia.
Qed.

Lemma abs_desc_total : forall x y, abs_desc x y = true \/ abs_desc y x = true.
Proof.
  intros x y. unfold abs_desc. rewrite !Qle_bool_iff. destruct (Qlt_le_dec (Qabs (snd y)) (Qabs (snd x))); [left|right]; auto.
  apply Qlt_le_weak; assumption.
Qed.
Lemma abs_desc_trans : forall x y z, abs_desc x y = true -> abs_desc y z = true -> abs_desc x z = true.
Proof. intros x y z. unfold abs_desc. rewrite !Qle_bool_iff. intros. eapply Qle_trans; eassumption. Qed.

Lemma nlargest_sorted n parts : StronglySorted (fun a b => (Qabs (snd b) <= Qabs (snd a))%Q) (nlargest n parts).
Proof.
  unfold nlargest. pose proof (isort_StronglySorted abs_desc abs_desc_total abs_desc_trans (concat parts)) as S.
  assert (G : forall l n, StronglySorted (fun x y => abs_desc x y = true) l ->
    StronglySorted (fun a b => (Qabs (snd b) <= Qabs (snd a))%Q) (firstn n l)).
  { clear. induction l as [|x l IH]; intros [|n] S; simpl; try constructor.
    - inversion S; subst. apply IH. assumption.
    - inversion S; subst. rewrite Forall_forall in H2. apply Forall_forall. intros y Hy. apply In_firstn in Hy.
      apply Qle_bool_iff. apply (H2 y Hy). }
  apply G. exact S.
Qed.

(** In a sorted list, an element of the first [k] has fewer than [k] strictly larger elements. *)
Lemma few_larger (l : list (nat * Q)) : forall k x, StronglySorted (fun x y => abs_desc x y = true) l -> In x (firstn k l) ->
  length (filter (fun y => Qltb (Qabs (snd x)) (Qabs (snd y))) l) < k.
Proof.
  induction l as [|y l IH]; intros [|k] x S H; simpl in H; try tauto.
  inversion S as [|? ? S' F]; subst. rewrite Forall_forall in F. destruct H as [->|H].
  - assert (E : filter (fun y => Qltb (Qabs (snd x)) (Qabs (snd y))) (x :: l) = []); [|rewrite E; simpl; lia].
    assert (G : forall m : list (nat * Q), (forall y, In y m -> (Qabs (snd y) <= Qabs (snd x))%Q) -> filter (fun y => Qltb (Qabs (snd x)) (Qabs (snd y))) m = []).
    { induction m as [|z m IHm]; intros Hm; simpl; [reflexivity|]. destruct (Qltb _ _) eqn:C; [|apply IHm; intros; apply Hm; simpl; auto].
      apply Qltb_lt in C. exfalso. apply (Qlt_not_le _ _ C). apply Hm. simpl; auto. }
    apply G. intros z [<-|Hz]; [apply Qle_refl|]. apply Qle_bool_iff. apply (F z Hz).
  - specialize (IH k x S' H). simpl. destruct (Qltb _ _); simpl; lia.
Qed.

Lemma Permutation_filter_length {A} (f : A -> bool) l l' : Permutation l l' -> length (filter f l) = length (filter f l').
Proof.
  induction 1; simpl; auto; try congruence.
  - destruct (f x); simpl; congruence.
  - destruct (f x), (f y); reflexivity.
Qed.

Lemma best_topk norm k q shs : lens_ok shs ->
  let res := nlargest k (convert 0 shs (map (shard_best np_argsort np_argpartition score norm k q) shs)) in
  let sc := all_scores norm q shs in
  length res = Nat.min (Z.to_nat k) (length (filter big sc)) /\
  NoDup (map fst res) /\
  (forall i w, In (i, w) res -> nth_error sc i = Some w /\ (eps9 < Qabs w)%Q) /\
  StronglySorted (fun a b => (Qabs (snd b) <= Qabs (snd a))%Q) res /\
  (forall i w j u, In (i, w) res -> nth_error sc j = Some u -> ~ In j (map fst res) -> (Qabs u <= Qabs w)%Q).
Proof.
  intros L res sc. pose proof (merged_ok norm k q shs L 0) as M. cbv zeta in M. fold sc in M.
  unfold merged in M. unfold res, nlargest. 
  set (m := concat (convert 0 shs (map (shard_best np_argsort np_argpartition score norm k q) shs))) in *.
  pose proof (Permutation_isort abs_desc m) as P.
  pose proof (isort_StronglySorted abs_desc abs_desc_total abs_desc_trans m) as S.
  destruct M as (N & I & L1 & L2 & T).
  assert (Hin : forall x, In x (firstn (Z.to_nat k) (isort abs_desc m)) -> In x m).
  { intros x Hx. apply In_firstn in Hx. apply In_isort in Hx. exact Hx. }
  split; [|split; [|split; [|split]]].
  - rewrite firstn_length, length_isort. lia.
  - rewrite <- firstn_map. apply NoDup_firstn. eapply Permutation_NoDup; [|exact N]. apply Permutation_map. exact P.
  - intros i w H. apply Hin in H. apply I in H. rewrite Nat.sub_0_r in H. tauto.
  - apply (nlargest_sorted k (convert 0 shs (map (shard_best np_argsort np_argpartition score norm k q) shs))).
  - intros i w j u H E NI.
    destruct (Qlt_le_dec (Qabs w) (Qabs u)) as [C|C]; [exfalso|exact C].
    pose proof (few_larger _ _ _ S H) as F. simpl snd in F.
    rewrite <- (Permutation_filter_length _ _ _ P) in F.
    assert (Eu : (eps9 < Qabs u)%Q). { apply Hin in H. apply I in H. eapply Qlt_trans; [apply H|exact C]. }
    destruct (in_dec Nat.eq_dec j (map fst m)) as [J|J].
    + apply in_map_iff in J. destruct J as ([j' u'] & <- & J). simpl in *.
      assert (u' = u). { apply I in J. rewrite Nat.sub_0_r in J. destruct J as (_ & J & _). congruence. }
      subst u'. rename j' into j.
      (* (j,u) is in the sorted list beyond the first k, yet larger than (i,w) *)
      assert (J2 : In (j, u) (skipn (Z.to_nat k) (isort abs_desc m))).
      { assert (J3 : In (j, u) (isort abs_desc m)) by (apply In_isort; exact J).
        rewrite <- (firstn_skipn (Z.to_nat k) (isort abs_desc m)) in J3. apply in_app_iff in J3. destruct J3 as [J3|J3]; [|exact J3].
        exfalso. apply NI. apply in_map_iff. exists (j, u). auto. }
      rewrite <- (firstn_skipn (Z.to_nat k) (isort abs_desc m)) in S. apply StronglySorted_app_inv in S.
      destruct S as (_ & _ & S). specialize (S _ _ H J2). unfold abs_desc in S. simpl in S. apply Qle_bool_iff in S.
      apply (Qlt_not_le _ _ C). exact S.
    + specialize (T j u (fun y => Qltb (Qabs w) (Qabs (snd y))) ltac:(lia)). rewrite Nat.sub_0_r in T.
      specialize (T E Eu J). assert (Z.to_nat k <= length (filter (fun y => Qltb (Qabs w) (Qabs (snd y))) m)); [|lia].
      apply T. intros x Hx. apply Qltb_lt. eapply Qlt_le_trans; eassumption.
Qed.
End Best.

(** For every behaviour of numpy's [argsort]/[argpartition], every history, query and [num_best]. *)
Theorem sim_best_topk : forall {D V Y} (conv : D -> result V) doclen nnz issparse num_features shardsize np_argsort np_argpartition
    (score : bool -> Y -> V -> Q) ops q k,
  argsort_contract np_argsort -> argpartition_contract np_argpartition ->
  1 <= num_features -> 1 <= shardsize -> Forall (good_op conv doclen nnz) ops ->
  let s := run conv doclen nnz issparse num_features shardsize np_argsort np_argpartition score ops in
  let sc := map (score (all_exhausted ops) q) (added conv ops) in
  exists res, fst (query_best nnz issparse num_features np_argsort np_argpartition score s k q) = Ok res /\
    length res = Nat.min (Z.to_nat k) (length (filter (fun w => Qltb eps9 (Qabs w)) sc)) /\
    NoDup (map fst res) /\
    (forall i w, In (i, w) res -> nth_error sc i = Some w /\ (eps9 < Qabs w)%Q) /\
    StronglySorted (fun a b => (Qabs (snd b) <= Qabs (snd a))%Q) res /\
    (forall i w j u, In (i, w) res -> nth_error sc j = Some u -> ~ In j (map fst res) -> (Qabs u <= Qabs w)%Q).
Proof.
  intros D V Y conv doclen nnz issparse nf ss f g score ops q k Hf Hg H1 H2 G s sc.
  destruct (run_ok conv doclen nnz issparse nf ss f g score H1 H2 ops G) as [I N]. fold s in I, N.
  destruct (Inv_close nnz issparse nf ss H1 H2 _ _ I) as (s' & C & I' & Fe & Nm).
  unfold query_best, closing. rewrite C. eexists. split; [reflexivity|].
  assert (Esc : sc = all_scores score (x_norm s') q (x_shards s')).
  { unfold sc, all_scores, shard_scores. pose proof (v_rows _ _ _ _ I') as R. rewrite Fe, app_nil_r in R. unfold rows_of in R.
    rewrite <- R, concat_map, map_map, Nm, N. reflexivity. }
  rewrite Esc. apply best_topk; auto. eapply Forall_impl; [|exact (v_ok _ _ _ _ I')]. intros sh [A _]. exact A.
Qed.
Print Assumptions sim_best_topk.

(** A corpus query gives for every query document what that document would give alone. *)
Theorem sim_best_corpus : forall {D V Y} (conv : D -> result V) doclen nnz issparse num_features shardsize np_argsort np_argpartition
    (score : bool -> Y -> V -> Q) ops qs k,
  1 <= num_features -> 1 <= shardsize -> Forall (good_op conv doclen nnz) ops -> added conv ops <> [] ->
  let s := run conv doclen nnz issparse num_features shardsize np_argsort np_argpartition score ops in
  exists rs, fst (query_best_corpus nnz issparse num_features np_argsort np_argpartition score s k qs) = Ok rs /\
    Forall2 (fun q r => fst (query_best nnz issparse num_features np_argsort np_argpartition score s k q) = Ok r) qs rs.
Proof.
  intros D V Y conv doclen nnz issparse nf ss f g score ops qs k H1 H2 G NE s.
  destruct (run_ok conv doclen nnz issparse nf ss f g score H1 H2 ops G) as [I N]. fold s in I, N.
  destruct (Inv_close nnz issparse nf ss H1 H2 _ _ I) as (s' & C & I' & Fe & Nm).
  unfold query_best_corpus, query_best, closing. rewrite C. simpl fst.
  eexists. split; [reflexivity|].
  assert (Sh : x_shards s' <> []).
  { intros E. apply NE. rewrite <- (v_rows _ _ _ _ I'), Fe. unfold rows_of. rewrite E. reflexivity. }
  set (B := shard_best f g score (x_norm s') k).
  assert (E : forall shs qs off, shs <> [] ->
    zip_star (length qs) (convert_corpus off shs (map (fun sh => map (fun q => B q sh) qs) shs)) =
    map (fun q => convert off shs (map (B q) shs)) qs).
  { clear. intros shs qs. induction qs as [|q qs IH]; intros off Hs; [reflexivity|].
    cbn [length zip_star].
    assert (C1 : forall off, convert_corpus off shs (map (fun sh => map (fun q => B q sh) (q :: qs)) shs) =
      map (fun cq => fst cq :: snd cq) (combine (convert off shs (map (B q) shs))
        (convert_corpus off shs (map (fun sh => map (fun q => B q sh) qs) shs)))).
    { clear. induction shs as [|sh shs IH]; intros off; [reflexivity|]. cbn [map convert_corpus convert combine]. rewrite <- IH. reflexivity. }
    rewrite C1.
    assert (LL : forall off, length (convert off shs (map (B q) shs)) = length shs /\
      length (convert_corpus off shs (map (fun sh => map (fun q => B q sh) qs) shs)) = length shs).
    { clear. induction shs as [|sh shs IH]; intros off; [auto|]. simpl. destruct (IH (off + sh_len sh)) as [-> ->]. auto. }
    destruct (LL off) as [L1 L2].
    set (c1 := convert off shs (map (B q) shs)) in *.
    set (c2 := convert_corpus off shs (map (fun sh => map (fun q => B q sh) qs) shs)) in *.
    destruct (map (fun cq => fst cq :: snd cq) (combine c1 c2)) as [|x xs] eqn:Ex.
    { exfalso. apply (f_equal (@length _)) in Ex. rewrite map_length, combine_length, L1, L2 in Ex. destruct shs; [congruence|simpl in Ex; lia]. }
    rewrite <- Ex. clear x xs Ex.
    replace (forallb _ _) with true.
    2:{ symmetry. apply forallb_forall. intros r Hr. apply in_map_iff in Hr. destruct Hr as ([a b] & <- & _). reflexivity. }
    cbn [map]. f_equal.
    - rewrite map_map. simpl. fold c1. clearbody c1 c2. clear -L1 L2. revert c2 L2. rewrite <- L1. clear. induction c1 as [|a c1 IH]; intros [|b c2] L; simpl in *; try lia; [reflexivity|].
      f_equal. apply IH. lia.
    - rewrite map_map. simpl. rewrite <- (IH off Hs). f_equal. fold c2. clearbody c1 c2. clear -L1 L2. revert c1 L1. rewrite <- L2. clear.
      induction c2 as [|b c2 IH]; intros [|a c1] L; simpl in *; try lia; [reflexivity|]. f_equal. apply IH. lia. }
  rewrite E by exact Sh. rewrite map_map. clear. induction qs; simpl; constructor; auto.
Qed.
Print Assumptions sim_best_corpus.

Example sim_best_ex :
  let s := vrun [SAdd [[(0, (1#2)%Q)]; [(0, ((-3)#4)%Q)]; e 1; e 0; [(0, (1#4)%Q)]]] in
  fst (query_best vnnz vsparse 100 ref_argsort ref_argpartition vdot s 3 (e 0)) = Ok [(3, 1%Q); (1, ((-3)#4)%Q); (0, (1#2)%Q)] /\
  map (@sh_len vec) (x_shards s) = [2; 2].
Proof. vm_compute. split; reflexivity. Qed.
