(** Properties C29 and C30: ShardedCorpus. *)
From Coq Require Import ZifyBool QArith.
From Verif Require Import Base Matutils_Model Matutils_Properties Utils_Model LineCorpora_Proofs ShardedCorpus_Model ShardedCorpus_Proofs.
Close Scope Q_scope.
Local Open Scope Z_scope.

(** ** Spec: what a history is and which rows a request denotes. *)
Inductive op : Type :=
| OInt (i : Z) | OList (l : list Z) | OSlice (a b : Z) | OIter | OResize (k : Z) | OSaveLoad.

Definition allowed (o : op) : Prop := match o with OResize k => 0 <= k | _ => True end.

Section H.
Context {R : Type} (zero : R).

(** The object after one request, whether the request succeeded or raised. *)
Definition step (s : @sc R) (o : op) : sc :=
  match o with
  | OInt i => snd (getitem_int i s)
  | OList l => snd (getitem_list l s)
  | OSlice a b => snd (getitem_slice zero a b s)
  | OIter => snd (sc_iter s)
  | OResize k => snd (resize_shards zero k s)
  | OSaveLoad => sc_load (sc_save s) (s_files s)
  end.
Definition after (sparse : bool) (m : nat) (docs : list R) (ops : list op) : sc :=
  fold_left step ops (sc_init sparse m docs).

Lemma step_inv docs m ns sp s o : Inv docs m ns sp s -> allowed o -> exists m' ns', Inv docs m' ns' sp (step s o).
Proof.
  intros I A. destruct o; simpl in *.
  - exists m, ns. apply get_inv; exact I.
  - exists m, ns. apply list_inv; exact I.
  - exists m, ns. apply slice_inv; exact I.
  - exists m, ns. destruct (iter_ok _ _ _ _ _ I) as (s' & E & I'). rewrite E. exact I'.
  - destruct (Z.eq_dec k 0) as [->|N].
    + exists m, ns. exact I.
    + destruct (resize_ok zero docs m ns sp s (Z.to_nat k) ltac:(lia) I) as (s' & ns' & E & I').
      rewrite Z2Nat.id in E by lia. rewrite E. exists (Z.to_nat k), ns'. exact I'.
  - exists m, ns. destruct I. constructor; simpl; auto.
Qed.

Lemma after_inv docs m sp ops : (1 <= m)%nat -> Forall allowed ops ->
  exists m' ns', Inv docs m' ns' sp (after sp m docs ops).
Proof.
  intros Hm F. unfold after. destruct (init_inv docs m sp Hm) as (ns & I).
  revert I. generalize (sc_init sp m docs) as s. intros s. revert s m ns Hm F. induction ops as [|o ops IH]; intros s m ns Hm F I; simpl.
  - eauto.
  - inversion F; subst. destruct (step_inv _ _ _ _ _ _ I H1) as (m' & ns' & I').
    apply (IH _ m' ns' (I_m _ _ _ _ _ I') H2 I').
Qed.

(** ** C29: after any history of requests, every request denotes rows of the original corpus. *)
Theorem sharded_int : forall sparse m (docs : list R) ops i r,
  (1 <= m)%nat -> Forall allowed ops -> nth_error docs i = Some r ->
  fst (getitem_int (Z.of_nat i) (after sparse m docs ops)) = Ok r.
Proof.
  intros sparse m docs ops i r Hm F E. destruct (after_inv docs m sparse ops Hm F) as (m' & ns & I).
  destruct (get_ok _ _ _ _ _ _ _ I E) as (s' & G & _). unfold getitem_int. rewrite G. reflexivity.
Qed.

Theorem sharded_int_out_of_range : forall sparse m (docs : list R) ops i,
  (1 <= m)%nat -> Forall allowed ops -> i < 0 \/ Z.of_nat (length docs) <= i ->
  fst (getitem_int i (after sparse m docs ops)) = Err ValueError \/
  fst (getitem_int i (after sparse m docs ops)) = Err IndexError.
Proof.
  intros sparse m docs ops i Hm F B. destruct (after_inv docs m sparse ops Hm F) as (m' & ns & I).
  destruct (get_bad _ _ _ _ _ i I) as (e & E & [-> | ->]); [lia| |]; unfold getitem_int; rewrite E; auto.
Qed.

(** A list request fails exactly when some index is out of range (or when it is empty on a sparse corpus). *)
Theorem sharded_list : forall sparse m (docs : list R) ops l,
  (1 <= m)%nat -> Forall allowed ops -> (l <> [] \/ sparse = false) ->
  (forall i, In i l -> 0 <= i < Z.of_nat (length docs)) ->
  exists rows, fst (getitem_list l (after sparse m docs ops)) = Ok rows /\
    Forall2 (fun i r => nth_error docs (Z.to_nat i) = Some r) l rows.
Proof.
  intros sparse m docs ops l Hm F NE B. destruct (after_inv docs m sparse ops Hm F) as (m' & ns & I).
  assert (FF : exists rows, Forall2 (fun i r => 0 <= i /\ nth_error docs (Z.to_nat i) = Some r) l rows).
  { clear -B. induction l as [|i l IH]; [exists []; constructor|].
    destruct IH as (rows & FF); [intros j Hj; apply B; simpl; auto|].
    specialize (B i (or_introl eq_refl)).
    destruct (nth_error docs (Z.to_nat i)) as [r|] eqn:E; [|apply nth_error_None in E; lia].
    exists (r :: rows). constructor; [split; [lia|exact E]|exact FF]. }
  destruct FF as (rows & FF). exists rows. split.
  - destruct (mmap_ok _ _ _ _ l _ rows I FF) as (s' & E & I'). unfold getitem_list, mbind, mget. rewrite E.
    destruct rows as [|r rows]; [|reflexivity]. inversion FF; subst.
    destruct NE as [NE| ->]; [congruence|]. rewrite (I_sparse _ _ _ _ _ I'). reflexivity.
  - clear -FF. induction FF; constructor; [apply H|assumption].
Qed.

Theorem sharded_list_fails : forall sparse m (docs : list R) ops l i,
  (1 <= m)%nat -> Forall allowed ops -> In i l -> i < 0 \/ Z.of_nat (length docs) <= i ->
  exists e, fst (getitem_list l (after sparse m docs ops)) = Err e.
Proof.
  intros sparse m docs ops l i Hm F Hi B. destruct (after_inv docs m sparse ops Hm F) as (m' & ns & I).
  destruct (mmap_bad _ _ _ _ l _ I) as (e & s' & E & _); [exists i; split; [exact Hi|lia]|].
  exists e. unfold getitem_list, mbind. rewrite E. reflexivity.
Qed.

(** A slice [a:b] inside the corpus. *)
Theorem sharded_slice : forall sparse m (docs : list R) ops a b,
  (1 <= m)%nat -> Forall allowed ops -> (a < length docs)%nat -> (a <= b <= length docs)%nat ->
  exists rows, fst (getitem_slice zero (Z.of_nat a) (Z.of_nat b) (after sparse m docs ops)) = Ok rows /\
    length rows = (b - a)%nat /\
    (forall j, (j < b - a)%nat -> nth_error rows j = nth_error docs (a + j)).
Proof.
  intros sparse m docs ops a b Hm F La Lb. destruct (after_inv docs m sparse ops Hm F) as (m' & ns & I).
  destruct (slice_ok zero _ _ _ _ _ a b I La Lb) as (s' & E & _). rewrite E. exists (seg docs a b).
  split; [reflexivity|]. split; [apply seg_length; exact Lb|].
  intros j Hj. unfold seg. rewrite nth_error_firstn_ by lia. apply nth_error_skipn_.
Qed.

(** Any other slice either raises or is an empty reversed slice and returns no row. *)
Theorem sharded_slice_outside : forall sparse m (docs : list R) ops a b rows,
  (1 <= m)%nat -> Forall allowed ops ->
  ~ (0 <= a < Z.of_nat (length docs) /\ a <= b <= Z.of_nat (length docs)) ->
  fst (getitem_slice zero a b (after sparse m docs ops)) = Ok rows -> rows = [] /\ b <= a.
Proof.
  intros sparse m docs ops a b rows Hm F B E. destruct (after_inv docs m sparse ops Hm F) as (m' & ns & I).
  pose proof (slice_bad zero _ _ _ _ _ a b I B) as H. rewrite E in H. tauto.
Qed.

Theorem sharded_iter : forall sparse m (docs : list R) ops,
  (1 <= m)%nat -> Forall allowed ops ->
  fst (sc_iter (after sparse m docs ops)) = Ok docs /\ s_n_docs (after sparse m docs ops) = Z.of_nat (length docs).
Proof.
  intros sparse m docs ops Hm F. destruct (after_inv docs m sparse ops Hm F) as (m' & ns & I).
  destruct (iter_ok _ _ _ _ _ I) as (s' & E & _). rewrite E. split; [reflexivity|]. apply I.
Qed.

(** ** C30: the resized object. The shard files of the live object are consecutive blocks of the new size. *)
Theorem sharded_resize : forall sparse m (docs : list R) ops k,
  (1 <= m)%nat -> Forall allowed ops -> (1 <= k)%nat ->
  let r := resize_shards zero (Z.of_nat k) (after sparse m docs ops) in
  fst r = Ok tt /\ concat (s_files (snd r)) = docs /\
  (forall i f, nth_error (s_files (snd r)) i = Some f ->
     f <> [] /\ (length f <= k)%nat /\ (S i < length (s_files (snd r)) -> length f = k)%nat) /\
  (forall i x, nth_error docs i = Some x -> fst (getitem_int (Z.of_nat i) (snd r)) = Ok x).
Proof.
  intros sparse m docs ops k Hm F Hk. destruct (after_inv docs m sparse ops Hm F) as (m' & ns & I).
  destruct (resize_ok zero docs m' ns sparse _ k Hk I) as (s' & ns' & E & I'). cbv zeta. rewrite E. simpl.
  split; [reflexivity|]. split; [|split].
  - rewrite (I_files _ _ _ _ _ I').
    assert (G : forall n, concat (map (shard_of docs k) (seq 0 n)) = seg docs 0 (n * k)).
    { induction n as [|n IH]; [reflexivity|]. rewrite seq_S, map_app, concat_app, IH. simpl concat. rewrite app_nil_r.
      pose proof (shard_seg docs k n 0 k ltac:(lia) ltac:(lia)) as Q. rewrite Nat.sub_0_r, Nat.add_0_r in Q. cbn [skipn] in Q.
      rewrite firstn_all2 in Q by (rewrite shard_length; lia). simpl (0 + n)%nat. rewrite Q.
      rewrite seg_app by lia. f_equal. lia. }
    rewrite G. unfold seg. simpl skipn. apply firstn_all2. pose proof (I_lo _ _ _ _ _ I'). lia.
  - rewrite (I_files _ _ _ _ _ I'), map_length, seq_length. intros i f Hf.
    assert (L : (i < ns')%nat).
    { assert (i < length (map (shard_of docs k) (seq 0 ns')))%nat by (apply nth_error_Some; congruence).
      rewrite map_length, seq_length in H. exact H. }
    rewrite nth_error_seq_map in Hf by exact L. injection Hf as <-.
    pose proof (I_hi _ _ _ _ _ I') as Hi'. pose proof (shard_length docs k i) as SL. split; [|split].
    + intros Z0. rewrite Z0 in SL. simpl in SL. nia.
    + lia.
    + intros. nia.
  - intros i x Ex. destruct (get_ok _ _ _ _ _ _ _ I' Ex) as (s2 & G & _). unfold getitem_int. rewrite G. reflexivity.
Qed.
End H.
Print Assumptions sharded_int.
Print Assumptions sharded_int_out_of_range.
Print Assumptions sharded_list.
Print Assumptions sharded_list_fails.
Print Assumptions sharded_slice.
Print Assumptions sharded_slice_outside.
Print Assumptions sharded_iter.
Print Assumptions sharded_resize.

Definition h5 : list op := [OInt 4; OSlice 1 5; OInt (-1); OResize 3; OList [2; 9]; OSaveLoad; OInt 7].
Example sharded_ex :
  fst (getitem_slice 0%nat 1 4 (after 0%nat false 2 [10; 11; 12; 13; 14]%nat h5)) = Ok [11; 12; 13]%nat /\
  fst (getitem_list [4; 0; 4] (after 0%nat true 2 [10; 11; 12; 13; 14]%nat h5)) = Ok [14; 10; 14]%nat /\
  fst (getitem_int 5 (after 0%nat true 2 [10; 11; 12; 13; 14]%nat [OInt 0])) = Err ValueError /\
  fst (getitem_int 5 (after 0%nat true 2 [10; 11; 12; 13; 14]%nat [OInt 4])) = Err IndexError /\
  s_files (after 0%nat true 2 [10; 11; 12; 13; 14]%nat h5) = [[10; 11; 12]; [13; 14]]%nat.
Proof. vm_compute. repeat split. Qed.

(** The rows stored for a bag-of-words corpus: every document's last weight for a term, zero elsewhere. *)
Theorem sharded_build : forall sparse m dim corpus,
  (forall doc i w, In doc corpus -> In (i, w) doc -> 0 <= i < Z.of_nat dim) ->
  exists rows, sc_build sparse m dim corpus = Ok (after [] sparse m rows []) /\
    Forall2 (fun doc row => length row = dim /\
      (forall l1 i w l2, doc = l1 ++ (Z.of_nat i, w) :: l2 -> ~ In (Z.of_nat i) (map fst l2) -> nth_error row i = Some w) /\
      (forall i, (i < dim)%nat -> ~ In (Z.of_nat i) (map fst doc) -> nth_error row i = Some 0%Q)) corpus rows.
Proof.
  intros sparse m dim corpus H.
  assert (G : exists rows, rmapM (sc_row dim) corpus = Ok rows /\
    Forall2 (fun doc row => length row = dim /\
      (forall l1 i w l2, doc = l1 ++ (Z.of_nat i, w) :: l2 -> ~ In (Z.of_nat i) (map fst l2) -> nth_error row i = Some w) /\
      (forall i, (i < dim)%nat -> ~ In (Z.of_nat i) (map fst doc) -> nth_error row i = Some 0%Q)) corpus rows).
  { induction corpus as [|doc corpus IH]; [exists []; split; [reflexivity|constructor]|].
    destruct IH as (rows & E & F); [intros; eapply H; [right; eassumption|eassumption]|].
    destruct (sparse2full_exact doc dim) as (v & Ev & L & A & B); [intros i w Hi; eapply H; [left; reflexivity|exact Hi]|].
    exists (v :: rows). split; [|constructor; auto]. simpl. unfold sc_row in *. rewrite Ev. simpl. rewrite E. reflexivity. }
  destruct G as (rows & E & F). exists rows. split; [|exact F]. unfold sc_build. rewrite E. reflexivity.
Qed.
Print Assumptions sharded_build.

Example sharded_build_ex :
  sc_build true 1 3 [[(2, (1#2)%Q); (0, 5%Q)]; [(2, 1%Q); (2, 7%Q)]] =
  Ok (after [] true 1 [[5%Q; 0%Q; (1#2)%Q]; [0%Q; 0%Q; 7%Q]] []).
Proof. vm_compute. reflexivity. Qed.

(** ** Known failures *)

(** The step of a slice is ignored: [corpus[0:4:2]] returns four rows. *)
Theorem sharded_step_refuted : exists (docs : list nat) (m : nat),
  fst (getitem_slice_step 0%nat 0 4 2 (sc_init false m docs)) = Ok docs /\ length docs = 4%nat.
Proof. exists [10; 11; 12; 13]%nat, 3%nat. vm_compute. split; reflexivity. Qed.

(** An empty list request fails on a sparse corpus. *)
Theorem sharded_empty_list_refuted : exists (docs : list nat) (m : nat),
  fst (getitem_list [] (sc_init true m docs)) = Err ValueError.
Proof. exists [10; 11]%nat, 1%nat. vm_compute. reflexivity. Qed.

(** The wrapper saved before a resize no longer matches the shard files: reopening reads a wrong row. *)
Theorem sharded_reopen_after_resize_refuted : exists (docs : list nat) (m k : nat) i,
  let s0 := sc_init false m docs in
  let s1 := snd (resize_shards 0%nat (Z.of_nat k) s0) in
  fst (resize_shards 0%nat (Z.of_nat k) s0) = Ok tt /\
  nth_error docs i = Some 12%nat /\
  fst (getitem_int (Z.of_nat i) s1) = Ok 12%nat /\
  fst (getitem_int (Z.of_nat i) (sc_load (sc_save s0) (s_files s1))) = Ok 13%nat.
Proof. exists [10; 11; 12; 13]%nat, 2%nat, 3%nat, 2%nat. vm_compute. repeat split. Qed.

(** Reopening through the constructor keeps the shard size of the argument, not that of the files. *)
Theorem sharded_clone_shardsize_refuted : exists (docs : list nat) (m k : nat) i,
  let s0 := sc_init false m docs in
  nth_error docs i = Some 12%nat /\
  fst (getitem_int (Z.of_nat i) (sc_clone (Z.of_nat k) false (sc_save s0) (s_files s0))) = Err IndexError.
Proof. exists [10; 11; 12; 13]%nat, 2%nat, 4096%nat, 2%nat. vm_compute. repeat split. Qed.

(** A negative size is accepted and deletes every shard. *)
Theorem sharded_negative_resize_refuted : exists (docs : list nat) (m : nat),
  let r := resize_shards 0%nat (-2) (sc_init false m docs) in
  docs <> [] /\ fst r = Ok tt /\ s_files (snd r) = [] /\ fst (getitem_int 0 (snd r)) = Err ValueError.
Proof. exists [10; 11; 12]%nat, 2%nat. vm_compute. repeat split. discriminate. Qed.
