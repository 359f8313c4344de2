(** Lemmas about ShardedCorpus_Model. *)
From Coq Require Import ZifyBool Zquot.
From Verif Require Import Base Matutils_Model Utils_Model Chunkize_Properties ShardedCorpus_Model.
Local Open Scope Z_scope.

Section P.
Context {R : Type} (zero : R).
Implicit Types (s : @sc R) (docs : list R) (m ns k : nat).

Definition shard_of docs m k : list R := firstn m (skipn (k * m) docs).
Definition off_of docs m k : Z := Z.of_nat (Nat.min (k * m) (length docs)).

Record Inv docs m ns (sp : bool) s : Prop := {
  I_m : (1 <= m)%nat;
  I_lo : (length docs <= ns * m)%nat;
  I_hi : (ns * m < length docs + m)%nat;
  I_files : s_files s = map (shard_of docs m) (seq 0 ns);
  I_size : s_shardsize s = Z.of_nat m;
  I_docs : s_n_docs s = Z.of_nat (length docs);
  I_shards : s_n_shards s = Z.of_nat ns;
  I_offs : s_offsets s = map (off_of docs m) (seq 0 (S ns));
  I_sparse : s_sparse s = sp;
  I_cur : s_cur s = None \/
    exists k, (k < ns)%nat /\ s_cur s = Some (shard_of docs m k, Z.of_nat k, Z.of_nat (k * m))
}.

Definition at_shard docs m k s : Prop := s_cur s = Some (shard_of docs m k, Z.of_nat k, Z.of_nat (k * m)).

Lemma py_get_nat {A} (l : list A) (i : nat) (x : A) : nth_error l i = Some x -> py_get l (Z.of_nat i) = Ok x.
Proof.
  intros E. assert (L : (i < length l)%nat) by (apply nth_error_Some; congruence).
  unfold py_get, np_index.
  repeat match goal with |- context [if ?b then _ else _] => destruct b eqn:? end; try lia; simpl;
  rewrite ?Nat2Z.id, E; reflexivity.
Qed.

Lemma py_get_high {A} (l : list A) (i : Z) : Z.of_nat (length l) <= i -> py_get l i = Err IndexError.
Proof.
  intros. unfold py_get, np_index.
  repeat match goal with |- context [if ?b then _ else _] => destruct b eqn:? end; try lia; reflexivity.
Qed.

Lemma nth_error_seq_map {A} (f : nat -> A) n k : (k < n)%nat -> nth_error (map f (seq 0 n)) k = Some (f k).
Proof.
  intros. rewrite (nth_error_nth' _ (f 0%nat)) by (rewrite map_length, seq_length; lia).
  f_equal. rewrite map_nth. rewrite seq_nth by lia. reflexivity.
Qed.

Lemma offs_get docs m ns sp s k : Inv docs m ns sp s -> (k <= ns)%nat ->
  py_get (s_offsets s) (Z.of_nat k) = Ok (off_of docs m k).
Proof.
  intros I L. rewrite (I_offs _ _ _ _ _ I). apply py_get_nat. apply nth_error_seq_map. lia.
Qed.

Lemma offs_high docs m ns sp s (i : Z) : Inv docs m ns sp s -> Z.of_nat ns < i -> py_get (s_offsets s) i = Err IndexError.
Proof.
  intros I L. apply py_get_high. rewrite (I_offs _ _ _ _ _ I), map_length, seq_length. lia.
Qed.

Lemma with_cur_inv docs m ns sp s c : Inv docs m ns sp s ->
  (c = None \/ exists k, (k < ns)%nat /\ c = Some (shard_of docs m k, Z.of_nat k, Z.of_nat (k * m))) ->
  Inv docs m ns sp (with_cur s c).
Proof. intros [] H. constructor; simpl; auto. Qed.

Lemma off_lt docs m ns sp s k : Inv docs m ns sp s -> (k < ns)%nat -> off_of docs m k = Z.of_nat (k * m).
Proof.
  intros I L. unfold off_of. pose proof (I_hi _ _ _ _ _ I). pose proof (I_m _ _ _ _ _ I). f_equal.
  assert (k * m + m <= ns * m)%nat by nia. lia.
Qed.

Lemma load_ok docs m ns sp s k : Inv docs m ns sp s -> (k < ns)%nat ->
  exists s', load_shard (Z.of_nat k) s = (Ok tt, s') /\ Inv docs m ns sp s' /\ at_shard docs m k s'.
Proof.
  intros I L. unfold load_shard, mbind, mget. simpl.
  destruct (cur_is (s_cur s) (Z.of_nat k)) eqn:C.
  - exists s. split; [reflexivity|]. split; [exact I|]. unfold at_shard.
    destruct (I_cur _ _ _ _ _ I) as [E|(k' & L' & E)]; rewrite E in C |- *; simpl in C; [discriminate|].
    assert (k' = k) by lia. subst. reflexivity.
  - rewrite (I_files _ _ _ _ _ I), map_length, seq_length.
    replace ((0 <=? Z.of_nat k) && (Z.of_nat k <? Z.of_nat ns)) with true by lia. simpl.
    unfold mlift. rewrite (offs_get _ _ _ _ _ _ I) by lia. unfold mput.
    assert (E : nth (Z.to_nat (Z.of_nat k)) (map (shard_of docs m) (seq 0 ns)) [] = shard_of docs m k).
    { apply nth_error_nth. rewrite Nat2Z.id. apply nth_error_seq_map. exact L. }
    rewrite E. rewrite (off_lt _ _ _ _ _ _ I L).
    eexists. split; [reflexivity|]. split; [|reflexivity].
    apply with_cur_inv; [exact I|]. right. exists k. auto.
Qed.

Lemma load_inv docs m ns sp s n : Inv docs m ns sp s -> Inv docs m ns sp (snd (load_shard n s)).
Proof.
  intros I. destruct (Z_lt_dec n 0) as [Hn|Hn]; [|destruct (Z_lt_dec n (Z.of_nat ns)) as [Hn'|Hn']].
  2:{ destruct (load_ok docs m ns sp s (Z.to_nat n) I ltac:(lia)) as (s' & E & I' & _).
      rewrite Z2Nat.id in E by lia. rewrite E. exact I'. }
  all: unfold load_shard, mbind, mget; simpl; destruct (cur_is (s_cur s) n) eqn:C; [exact I|];
    rewrite (I_files _ _ _ _ _ I), map_length, seq_length.
  1: replace ((0 <=? n) && (n <? Z.of_nat ns)) with false by lia.
  2: replace ((0 <=? n) && (n <? Z.of_nat ns)) with false by lia.
  all: exact I.
Qed.

Lemma shard_by_offset_ok docs m ns sp s i : Inv docs m ns sp s -> 0 <= i < Z.of_nat (length docs) ->
  shard_by_offset s i = Ok (Z.of_nat (Z.to_nat i / m)) /\ (Z.to_nat i / m < ns)%nat.
Proof.
  intros I B. pose proof (I_m _ _ _ _ _ I). pose proof (I_lo _ _ _ _ _ I).
  unfold shard_by_offset. rewrite (I_size _ _ _ _ _ I), (I_docs _ _ _ _ _ I).
  replace (Z.of_nat m =? 0) with false by lia.
  replace (Z.of_nat (length docs) <=? i) with false by lia. replace (i <? 0) with false by lia. split.
  - f_equal. rewrite Nat2Z.inj_div, Z2Nat.id by lia. apply Z.quot_div_nonneg; lia.
  - apply Nat.div_lt_upper_bound; lia.
Qed.

Lemma shard_by_offset_bad docs m ns sp s i : Inv docs m ns sp s -> ~ (0 <= i < Z.of_nat (length docs)) ->
  shard_by_offset s i = Err ValueError.
Proof.
  intros I B. pose proof (I_m _ _ _ _ _ I).
  unfold shard_by_offset. rewrite (I_size _ _ _ _ _ I), (I_docs _ _ _ _ _ I).
  replace (Z.of_nat m =? 0) with false by lia.
  destruct (Z.of_nat (length docs) <=? i) eqn:?; [reflexivity|]. replace (i <? 0) with true by lia. reflexivity.
Qed.

Lemma div_between (i m k : nat) : (1 <= m)%nat -> (k * m <= i)%nat -> (i < S k * m)%nat -> (i / m = k)%nat.
Proof. intros. symmetry. apply (Nat.div_unique i m k (i - k * m)); lia. Qed.

Lemma ensure_ok docs m ns sp s i : Inv docs m ns sp s -> 0 <= i < Z.of_nat (length docs) ->
  exists s', ensure_shard i s = (Ok tt, s') /\ Inv docs m ns sp s' /\ at_shard docs m (Z.to_nat i / m) s'.
Proof.
  intros I B. pose proof (I_m _ _ _ _ _ I) as Hm. pose proof (I_hi _ _ _ _ _ I) as Hh.
  destruct (shard_by_offset_ok _ _ _ _ _ _ I B) as (Es & Ls).
  destruct (load_ok _ _ _ _ _ _ I Ls) as (s1 & E1 & I1 & A1).
  unfold ensure_shard, mbind at 1, mget.
  destruct (I_cur _ _ _ _ _ I) as [Ec|(k & Lk & Ec)]; rewrite Ec.
  - unfold mbind, mlift. rewrite Es. eauto.
  - unfold mbind at 1, mlift, in_current.
    destruct (Z.of_nat (k * m) <=? i) eqn:C1.
    + replace (Z.of_nat k + 1) with (Z.of_nat (S k)) by lia.
      rewrite (offs_get _ _ _ _ _ _ I) by lia. cbn [rmap].
      destruct (i <? off_of docs m (S k)) eqn:C2.
      * exists s. split; [reflexivity|]. split; [exact I|].
        rewrite (div_between (Z.to_nat i) m k); [exact Ec|lia|lia|unfold off_of in C2; lia].
      * unfold mbind at 1, in_next. rewrite (I_shards _ _ _ _ _ I). replace (Z.of_nat k =? Z.of_nat ns) with false by lia.
        replace (Z.of_nat k + 1) with (Z.of_nat (S k)) by lia.
        rewrite (offs_get _ _ _ _ _ _ I) by lia. cbn.
        replace (off_of docs m (S k) <=? i) with true by lia.
        assert (S k < ns)%nat. { unfold off_of in C2. assert (length docs <= ns * m)%nat by apply I. nia. }
        replace (Z.of_nat k + 2) with (Z.of_nat (S (S k))) by lia.
        rewrite (offs_get _ _ _ _ _ _ I) by lia. cbn.
        destruct (i <? off_of docs m (S (S k))) eqn:C3.
        -- replace (Z.of_nat k + 1) with (Z.of_nat (S k)) by lia.
           assert (Ed : (Z.to_nat i / m = S k)%nat)
             by (apply div_between; [lia|unfold off_of in C2; nia|unfold off_of in C3; lia]).
           rewrite Ed in E1, A1. rewrite Ed. eauto.
        -- unfold mbind, mlift. rewrite Es. eauto.
    + unfold mbind at 1, in_next. rewrite (I_shards _ _ _ _ _ I). replace (Z.of_nat k =? Z.of_nat ns) with false by lia.
      replace (Z.of_nat k + 1) with (Z.of_nat (S k)) by lia.
      rewrite (offs_get _ _ _ _ _ _ I) by lia. cbn.
      replace (off_of docs m (S k) <=? i) with false by (unfold off_of; nia).
      unfold mbind, mlift. rewrite Es. eauto.
Qed.

Lemma ensure_bad docs m ns sp s i : Inv docs m ns sp s -> ~ (0 <= i < Z.of_nat (length docs)) ->
  exists e, ensure_shard i s = (Err e, s) /\ (e = ValueError \/ e = IndexError).
Proof.
  intros I B. pose proof (shard_by_offset_bad _ _ _ _ _ _ I B) as Es.
  pose proof (I_lo _ _ _ _ _ I). pose proof (I_hi _ _ _ _ _ I).
  unfold ensure_shard, mbind at 1, mget.
  destruct (I_cur _ _ _ _ _ I) as [Ec|(k & Lk & Ec)]; rewrite Ec.
  - unfold mbind, mlift. rewrite Es. eauto.
  - unfold mbind at 1, mlift, in_current.
    destruct (Z.of_nat (k * m) <=? i) eqn:C1.
    + replace (Z.of_nat k + 1) with (Z.of_nat (S k)) by lia.
      rewrite (offs_get _ _ _ _ _ _ I) by lia. cbn [rmap].
      replace (i <? off_of docs m (S k)) with false by (unfold off_of; lia).
      unfold mbind at 1, in_next. rewrite (I_shards _ _ _ _ _ I). replace (Z.of_nat k =? Z.of_nat ns) with false by lia.
      replace (Z.of_nat k + 1) with (Z.of_nat (S k)) by lia.
      rewrite (offs_get _ _ _ _ _ _ I) by lia. cbn.
      replace (off_of docs m (S k) <=? i) with true by (unfold off_of; lia).
      destruct (Nat.eq_dec (S k) ns) as [En|En].
      * rewrite (offs_high _ _ _ _ _ _ I) by lia. cbn. eauto.
      * replace (Z.of_nat k + 2) with (Z.of_nat (S (S k))) by lia.
        rewrite (offs_get _ _ _ _ _ _ I) by lia. cbn.
        replace (i <? off_of docs m (S (S k))) with false by (unfold off_of; lia).
        unfold mbind, mlift. rewrite Es. eauto.
    + unfold mbind at 1, in_next. rewrite (I_shards _ _ _ _ _ I). replace (Z.of_nat k =? Z.of_nat ns) with false by lia.
      replace (Z.of_nat k + 1) with (Z.of_nat (S k)) by lia.
      rewrite (offs_get _ _ _ _ _ _ I) by lia. cbn.
      replace (off_of docs m (S k) <=? i) with false by (unfold off_of; nia).
      unfold mbind, mlift. rewrite Es. eauto.
Qed.

Lemma nth_error_skipn_ {A} (l : list A) a j : nth_error (skipn a l) j = nth_error l (a + j).
Proof. revert l. induction a; intros [|x l]; simpl; auto. destruct j; reflexivity. Qed.
Lemma nth_error_firstn_ {A} (l : list A) a j : (j < a)%nat -> nth_error (firstn a l) j = nth_error l j.
Proof. revert l j. induction a; intros [|x l] [|j] H; simpl; auto; try lia. apply IHa. lia. Qed.

Lemma shard_nth docs m k j : (j < m)%nat -> nth_error (shard_of docs m k) j = nth_error docs (k * m + j).
Proof. intros. unfold shard_of. rewrite nth_error_firstn_ by lia. apply nth_error_skipn_. Qed.

Lemma get_ok docs m ns sp s i r : Inv docs m ns sp s -> nth_error docs i = Some r ->
  exists s', get_by_offset (Z.of_nat i) s = (Ok r, s') /\ Inv docs m ns sp s'.
Proof.
  intros I E. pose proof (I_m _ _ _ _ _ I).
  assert (L : (i < length docs)%nat) by (apply nth_error_Some; congruence).
  destruct (ensure_ok _ _ _ _ _ (Z.of_nat i) I ltac:(lia)) as (s' & Ee & I' & A).
  rewrite Nat2Z.id in A. unfold get_by_offset, mbind, mget, mlift. rewrite Ee. rewrite A.
  exists s'. split; [|exact I']. f_equal.
  pose proof (Nat.div_mod i m ltac:(lia)). pose proof (Nat.mod_upper_bound i m ltac:(lia)).
  replace (Z.of_nat i - Z.of_nat (i / m * m)) with (Z.of_nat (i mod m)) by nia.
  apply py_get_nat. rewrite shard_nth by lia. rewrite <- E. f_equal. lia.
Qed.

Lemma get_bad docs m ns sp s i : Inv docs m ns sp s -> ~ (0 <= i < Z.of_nat (length docs)) ->
  exists e, get_by_offset i s = (Err e, s) /\ (e = ValueError \/ e = IndexError).
Proof.
  intros I B. destruct (ensure_bad _ _ _ _ _ _ I B) as (e & E & H). exists e. split; [|exact H].
  unfold get_by_offset, mbind. rewrite E. reflexivity.
Qed.

Lemma get_cases docs m ns sp s i : Inv docs m ns sp s ->
  (exists r s', 0 <= i /\ nth_error docs (Z.to_nat i) = Some r /\ get_by_offset i s = (Ok r, s') /\ Inv docs m ns sp s') \/
  (exists e, ~ (0 <= i < Z.of_nat (length docs)) /\ get_by_offset i s = (Err e, s) /\ (e = ValueError \/ e = IndexError)).
Proof.
  intros I. destruct (Z_le_dec 0 i); [destruct (Z_lt_dec i (Z.of_nat (length docs)))|].
  - left. destruct (nth_error docs (Z.to_nat i)) as [r|] eqn:E.
    + destruct (get_ok _ _ _ _ _ _ _ I E) as (s' & G & I'). rewrite Z2Nat.id in G by lia. exists r, s'. auto.
    + apply nth_error_None in E. lia.
  - right. destruct (get_bad _ _ _ _ _ i I) as (e & E & H); [lia|]. exists e. split; [lia|]. auto.
  - right. destruct (get_bad _ _ _ _ _ i I) as (e & E & H); [lia|]. exists e. split; [lia|]. auto.
Qed.

Lemma get_inv docs m ns sp s i : Inv docs m ns sp s -> Inv docs m ns sp (snd (get_by_offset i s)).
Proof.
  intros I. destruct (get_cases _ _ _ _ _ i I) as [(r & s' & _ & _ & E & I')|(e & _ & E & _)]; rewrite E; assumption.
Qed.

Lemma mmap_ok docs m ns sp l : forall s rows, Inv docs m ns sp s ->
  Forall2 (fun i r => 0 <= i /\ nth_error docs (Z.to_nat i) = Some r) l rows ->
  exists s', mmap get_by_offset l s = (Ok rows, s') /\ Inv docs m ns sp s'.
Proof.
  induction l as [|i l IH]; intros s rows I F; inversion F; subst.
  - exists s. split; [reflexivity|exact I].
  - destruct H1 as [P E]. destruct (get_ok _ _ _ _ _ _ _ I E) as (s1 & G & I1). rewrite Z2Nat.id in G by lia.
    destruct (IH s1 _ I1 H3) as (s2 & G2 & I2). exists s2. split; [|exact I2].
    simpl. unfold mbind. rewrite G, G2. reflexivity.
Qed.

Lemma mmap_bad docs m ns sp l : forall s, Inv docs m ns sp s ->
  (exists i, In i l /\ ~ (0 <= i < Z.of_nat (length docs))) ->
  exists e s', mmap get_by_offset l s = (Err e, s') /\ (e = ValueError \/ e = IndexError).
Proof.
  induction l as [|i l IH]; intros s I (j & Hj & B); [destruct Hj|].
  simpl. unfold mbind. destruct (get_cases _ _ _ _ _ i I) as [(r & s1 & P & N & E & I1)|(e & _ & E & H)]; rewrite E; [|eauto].
  assert ((Z.to_nat i < length docs)%nat) by (apply nth_error_Some; congruence).
  destruct Hj as [->|Hj]; [lia|].
  destruct (IH s1 I1) as (e & s' & E' & H'); [eauto|]. rewrite E'. eauto.
Qed.

Lemma mmap_inv docs m ns sp l : forall s, Inv docs m ns sp s -> Inv docs m ns sp (snd (mmap get_by_offset l s)).
Proof.
  induction l as [|i l IH]; intros s I; simpl; [exact I|].
  unfold mbind. pose proof (get_inv _ _ _ _ _ i I) as I1. destruct (get_by_offset i s) as [[r|e] s1]; simpl in *; [|exact I1].
  specialize (IH s1 I1). destruct (mmap get_by_offset l s1) as [[r'|e] s2]; simpl in *; exact IH.
Qed.

Lemma list_inv docs m ns sp l s : Inv docs m ns sp s -> Inv docs m ns sp (snd (getitem_list l s)).
Proof.
  intros I. pose proof (mmap_inv _ _ _ _ l s I) as I'. unfold getitem_list, mbind, mget.
  destruct (mmap get_by_offset l s) as [[[|r rs]|e] s2]; simpl in *; try exact I'.
  destruct (s_sparse s2); exact I'.
Qed.

(** Every slice request keeps the invariant. *)
Definition pres docs m ns sp {A} (f : @M R A) : Prop := forall s, Inv docs m ns sp s -> Inv docs m ns sp (snd (f s)).

Lemma pres_bind docs m ns sp {A B} (f : M A) (g : A -> M B) :
  pres docs m ns sp f -> (forall a, pres docs m ns sp (g a)) -> pres docs m ns sp (mbind f g).
Proof.
  intros F G s I. unfold mbind. specialize (F s I). destruct (f s) as [[a|e] s']; [apply G|]; exact F.
Qed.
Lemma pres_lift docs m ns sp {A} (r : result A) : pres docs m ns sp (mlift r).
Proof. intros s I. exact I. Qed.
Lemma pres_ret docs m ns sp {A} (a : A) : pres docs m ns sp (mret a).
Proof. intros s I. exact I. Qed.
Lemma pres_err docs m ns sp {A} e : pres docs m ns sp (@merr R A e).
Proof. intros s I. exact I. Qed.
Lemma pres_get docs m ns sp : pres docs m ns sp mget.
Proof. intros s I. exact I. Qed.
Lemma pres_load docs m ns sp n : pres docs m ns sp (load_shard n).
Proof. intros s I. apply load_inv. exact I. Qed.
Hint Resolve pres_lift pres_ret pres_err pres_get pres_load : pres.

Lemma pres_middle docs m ns sp l : forall a b, pres docs m ns sp (slice_middle l a b).
Proof.
  induction l as [|n l IH]; intros; simpl; auto with pres.
  repeat (apply pres_bind; [auto with pres|intros]). apply IH.
Qed.

Lemma slice_inv docs m ns sp a b : pres docs m ns sp (getitem_slice zero a b).
Proof.
  unfold getitem_slice.
  apply pres_bind; [auto with pres|intros s1]. destruct (_ <? _); auto with pres.
  apply pres_bind; [auto with pres|intros fs].
  apply pres_bind; [destruct (_ =? _); auto with pres|intros ls].
  apply pres_bind; [auto with pres|intros u1]. apply pres_bind; [auto with pres|intros s2].
  apply pres_bind; [auto with pres|intros [[shard n] co]]. destruct (_ =? _); auto with pres. destruct (_ <? _); auto with pres.
  apply pres_bind; [auto with pres|intros o]. apply pres_bind; [auto with pres|intros r].
  apply pres_bind; [apply pres_middle|intros md]. apply pres_bind; [auto with pres|intros u2].
  apply pres_bind; [auto with pres|intros s3]. apply pres_bind; [auto with pres|intros [[shard' n'] co']]. auto with pres.
Qed.

(** A valid slice returns the right rows. *)
Definition acc (sp : bool) (total : nat) (done : list R) : list R :=
  if sp then done else done ++ repeat zero (total - length done).

Lemma py_bound_nat n (i : nat) : (i <= n)%nat -> py_bound n (Z.of_nat i) = i.
Proof. intros. unfold py_bound. replace (Z.of_nat i <? 0) with false by lia. lia. Qed.

Lemma py_slice_nat {A} (l : list A) (x y : nat) : (y <= length l)%nat -> (x <= length l)%nat ->
  py_slice l (Z.of_nat x) (Z.of_nat y) = firstn (y - x) (skipn x l).
Proof. intros. unfold py_slice. rewrite !py_bound_nat by lia. reflexivity. Qed.

Lemma add_ok sp (shard done : list R) total (x y : nat) :
  (x <= y <= length shard)%nat -> (length done + (y - x) <= total)%nat ->
  add_to_slice sp shard (acc sp total done) (Z.of_nat (length done)) (Z.of_nat (length done + (y - x))) (Z.of_nat x) (Z.of_nat y) =
  Ok (acc sp total (done ++ firstn (y - x) (skipn x shard))).
Proof.
  intros L T. unfold add_to_slice.
  match goal with |- context [negb ?b] => replace b with true by lia end. cbn [negb].
  rewrite py_slice_nat by lia.
  assert (LS : length (firstn (y - x) (skipn x shard)) = (y - x)%nat) by (rewrite firstn_length, skipn_length; lia).
  destruct sp; cbn [negb acc].
  - rewrite Z.eqb_refl. reflexivity.
  - unfold np_slice_set. rewrite app_length, repeat_length.
    rewrite (py_bound_nat _ (length done)) by lia.
    rewrite py_slice_nat by (rewrite app_length, repeat_length; lia).
    rewrite skipn_app, skipn_all, Nat.sub_diag. simpl (skipn 0 _). simpl ([] ++ _).
    rewrite (firstn_length (length done + (y - x) - length done)), repeat_length. rewrite LS.
    replace (Nat.min (length done + (y - x) - length done) (total - length done)) with (y - x)%nat by lia.
    rewrite Nat.eqb_refl. f_equal.
    rewrite firstn_app, firstn_all, Nat.sub_diag. simpl (firstn 0 _). rewrite app_nil_r, <- app_assoc. f_equal. f_equal.
    rewrite skipn_app, skipn_all2 by lia. simpl.
    rewrite app_length, LS.
    replace (total - length done)%nat with ((y - x) + (total - (length done + (y - x))))%nat by lia.
    rewrite repeat_app, skipn_app, skipn_all2 by (rewrite repeat_length; lia). rewrite repeat_length. simpl.
    replace (length done + (y - x) - length done - (y - x))%nat with 0%nat by lia. reflexivity.
Qed.

Lemma skipn_add {A} (l : list A) a b : skipn a (skipn b l) = skipn (b + a) l.
Proof. revert l. induction b; intros l; simpl; [reflexivity|]. destruct l; [destruct a; reflexivity|]. apply IHb. Qed.

Lemma firstn_split {A} (l : list A) p q : firstn (p + q) l = firstn p l ++ firstn q (skipn p l).
Proof. revert l. induction p; intros l; simpl; [reflexivity|]. destruct l; simpl; [destruct q; reflexivity|]. rewrite IHp. reflexivity. Qed.

Definition seg docs a b : list R := firstn (b - a) (skipn a docs).

Lemma seg_app docs a b c : (a <= b <= c)%nat -> seg docs a b ++ seg docs b c = seg docs a c.
Proof.
  intros. unfold seg. replace (c - a)%nat with ((b - a) + (c - b))%nat by lia. rewrite firstn_split. f_equal.
  rewrite skipn_add. f_equal. f_equal. lia.
Qed.

Lemma seg_length docs a b : (a <= b <= length docs)%nat -> length (seg docs a b) = (b - a)%nat.
Proof. intros. unfold seg. rewrite firstn_length, skipn_length. lia. Qed.

Lemma shard_seg docs m k x y : (x <= y)%nat -> (y <= m)%nat -> firstn (y - x) (skipn x (shard_of docs m k)) = seg docs (k * m + x) (k * m + y).
Proof.
  intros. unfold seg, shard_of. rewrite skipn_firstn_comm, firstn_firstn, skipn_add.
  f_equal. lia.
Qed.

Lemma shard_length docs m k : length (shard_of docs m k) = Nat.min m (length docs - k * m).
Proof. unfold shard_of. rewrite firstn_length, skipn_length. reflexivity. Qed.

Lemma middle_ok docs m ns sp total a (n : nat) : forall f s, Inv docs m ns sp s ->
  (a <= f * m)%nat -> ((f + n) * m <= length docs)%nat -> ((f + n) * m - a <= total)%nat -> (f + n <= ns)%nat ->
  exists s', slice_middle (map (fun i => Z.of_nat f + Z.of_nat i) (seq 0 n)) (acc sp total (seg docs a (f * m)))
               (Z.of_nat (f * m - a)) s
             = (Ok (acc sp total (seg docs a ((f + n) * m)), Z.of_nat ((f + n) * m - a)), s') /\ Inv docs m ns sp s'.
Proof.
  induction n as [|n IH]; intros f s I Ha Hd Ht Hn.
  - exists s. simpl. rewrite Nat.add_0_r. split; [reflexivity|exact I].
  - pose proof (I_m _ _ _ _ _ I).
    simpl (seq 0 (S n)). rewrite map_cons. simpl slice_middle.
    replace (Z.of_nat f + 0) with (Z.of_nat f) by lia.
    destruct (load_ok docs m ns sp s f I ltac:(lia)) as (s1 & E1 & I1 & A1).
    unfold mbind at 1. rewrite E1. unfold mbind at 1, mget. unfold mbind at 1, mlift, cur_shard. rewrite A1. cbn [of_option fst].
    rewrite (I_sparse _ _ _ _ _ I1), (I_size _ _ _ _ _ I1).
    unfold mbind at 1.
    assert (LS : length (shard_of docs m f) = m) by (rewrite shard_length; nia).
    pose proof (add_ok sp (shard_of docs m f) (seg docs a (f * m)) total 0 m) as AO.
    rewrite seg_length in AO by nia. rewrite Nat.sub_0_r in AO.
    specialize (AO ltac:(lia) ltac:(nia)).
    change (Z.of_nat 0) with 0 in AO. rewrite Nat2Z.inj_add in AO. rewrite AO.
    assert (ES : firstn m (skipn 0 (shard_of docs m f)) = seg docs (f * m) (S f * m)).
    { pose proof (shard_seg docs m f 0 m ltac:(lia) ltac:(lia)) as Q. rewrite Nat.sub_0_r, Nat.add_0_r in Q. rewrite Q. f_equal. lia. }
    rewrite ES, seg_app by nia.
    destruct (IH (S f) s1 I1) as (s2 & E2 & I2); try nia.
    exists s2. split; [|exact I2].
    replace (Z.of_nat (f * m - a) + Z.of_nat m) with (Z.of_nat (S f * m - a)) by nia.
    replace (f + S n)%nat with (S f + n)%nat by lia. rewrite <- E2. f_equal.
    rewrite <- seq_shift, map_map. apply map_ext. intros i. lia.
Qed.

Lemma slice_ok docs m ns sp s a b : Inv docs m ns sp s -> (a < length docs)%nat -> (a <= b <= length docs)%nat ->
  exists s', getitem_slice zero (Z.of_nat a) (Z.of_nat b) s = (Ok (seg docs a b), s') /\ Inv docs m ns sp s'.
Proof.
  intros I La Lb. pose proof (I_m _ _ _ _ _ I) as Hm. pose proof (I_lo _ _ _ _ _ I) as Hlo. pose proof (I_hi _ _ _ _ _ I) as Hhi.
  pose proof (slice_inv docs m ns sp (Z.of_nat a) (Z.of_nat b) s I) as If.
  cut (fst (getitem_slice zero (Z.of_nat a) (Z.of_nat b) s) = Ok (seg docs a b)).
  { destruct (getitem_slice zero (Z.of_nat a) (Z.of_nat b) s) as [r s']. simpl in *. intros ->. eauto. }
  clear If. unfold getitem_slice. unfold mbind at 1, mget. rewrite (I_docs _ _ _ _ _ I).
  replace (Z.of_nat (length docs) <? Z.of_nat b) with false by lia.
  destruct (shard_by_offset_ok _ _ _ _ _ (Z.of_nat a) I ltac:(lia)) as (Ef & Lf). rewrite Nat2Z.id in Ef, Lf.
  unfold mbind at 1, mlift. rewrite Ef.
  set (f := (a / m)%nat) in *.
  assert (Hf : (f * m <= a < S f * m)%nat).
  { pose proof (Nat.div_mod a m ltac:(lia)). pose proof (Nat.mod_upper_bound a m ltac:(lia)). fold f in H. nia. }
  assert (HL : exists l, (f <= l < ns)%nat /\ (l * m <= b <= S l * m)%nat /\
    (if Z.of_nat b =? Z.of_nat (length docs) then mret (s_n_shards s - 1) else (fun s0 => (shard_by_offset s (Z.of_nat b), s0))) s
    = (Ok (Z.of_nat l), s)).
  { destruct (Z.of_nat b =? Z.of_nat (length docs)) eqn:Eb.
    - exists (ns - 1)%nat. split; [lia|]. split; [|unfold mret; rewrite (I_shards _ _ _ _ _ I); repeat f_equal; lia].
      assert (S (ns - 1) * m = ns * m)%nat by (f_equal; lia). nia.
    - destruct (shard_by_offset_ok _ _ _ _ _ (Z.of_nat b) I ltac:(lia)) as (El & Ll). rewrite Nat2Z.id in El, Ll.
      exists (b / m)%nat. rewrite El. split; [|split; [|reflexivity]].
      + split; [apply Nat.div_le_mono; lia|lia].
      + pose proof (Nat.div_mod b m ltac:(lia)). pose proof (Nat.mod_upper_bound b m ltac:(lia)). nia. }
  destruct HL as (l & Ll & Hl & EL). unfold mbind at 1. rewrite EL.
  destruct (load_ok docs m ns sp s f I Lf) as (s1 & E1 & I1 & A1).
  unfold mbind at 1. rewrite E1. unfold mbind at 1. unfold mbind at 1, cur_shard. rewrite A1. cbn [of_option].
  destruct (Z.of_nat f =? Z.of_nat l) eqn:Efl.
  - assert (f = l) by lia. subst l. unfold mret. cbn [fst]. f_equal.
    replace (Z.of_nat a - Z.of_nat (f * m)) with (Z.of_nat (a - f * m)) by lia.
    replace (Z.of_nat b - Z.of_nat (f * m)) with (Z.of_nat (b - f * m)) by lia.
    rewrite py_slice_nat by (rewrite shard_length; lia).
    rewrite shard_seg by lia. f_equal; lia.
  - assert (f < l)%nat by lia. replace (Z.of_nat b - Z.of_nat a <? 0) with false by lia.
    rewrite (I_sparse _ _ _ _ _ I1).
    replace (Z.of_nat f + 1) with (Z.of_nat (S f)) by lia.
    unfold mbind at 1. rewrite (offs_get _ _ _ _ _ _ I1) by lia.
    rewrite (off_lt _ _ _ _ _ _ I1) by lia.
    assert (EA : (if sp then [] else repeat zero (Z.to_nat (Z.of_nat b - Z.of_nat a))) = acc sp (b - a) []).
    { unfold acc. destruct sp; [reflexivity|]. simpl. f_equal. lia. }
    rewrite EA.
    assert (Hfl : (S f * m <= l * m)%nat) by nia.
    assert (LS : length (shard_of docs m f) = m) by (rewrite shard_length; lia).
    unfold mbind at 1.
    pose proof (add_ok sp (shard_of docs m f) [] (b - a) (a - f * m) (S f * m - f * m)) as AO.
    cbn [length] in AO. rewrite Nat.add_0_l in AO.
    specialize (AO ltac:(lia) ltac:(lia)).
    replace (Z.of_nat (S f * m) - Z.of_nat a) with (Z.of_nat (S f * m - f * m - (a - f * m))) by lia.
    replace (Z.of_nat a - Z.of_nat (f * m)) with (Z.of_nat (a - f * m)) by lia.
    replace (Z.of_nat (S f * m) - Z.of_nat (f * m)) with (Z.of_nat (S f * m - f * m)) by lia.
    change (Z.of_nat 0) with 0 in AO. rewrite AO. clear AO.
    rewrite (shard_seg docs m f (a - f * m) (S f * m - f * m)) by lia. rewrite app_nil_l.
    replace (f * m + (a - f * m))%nat with a by lia. replace (f * m + (S f * m - f * m))%nat with (S f * m)%nat by lia.
    replace (S f * m - f * m - (a - f * m))%nat with (S f * m - a)%nat by lia.
    replace (Z.to_nat (Z.of_nat l - Z.of_nat (S f))) with (l - S f)%nat by lia.
    destruct (middle_ok docs m ns sp (b - a) a (l - S f) (S f) s1 I1) as (s2 & E2 & I2); try nia.
    replace (S f + (l - S f))%nat with l in E2 by lia.
    unfold mbind at 1. rewrite E2.
    destruct (load_ok docs m ns sp s2 l I2 ltac:(lia)) as (s3 & E3 & I3 & A3).
    unfold mbind at 1. rewrite E3. unfold mbind at 1. unfold mbind at 1. rewrite A3. cbn [of_option fst snd].
    rewrite (I_sparse _ _ _ _ _ I3).
    pose proof (add_ok sp (shard_of docs m l) (seg docs a (l * m)) (b - a) 0 (b - l * m)) as AO.
    rewrite seg_length, Nat.sub_0_r in AO by lia. rewrite shard_length in AO.
    specialize (AO ltac:(lia) ltac:(lia)). rewrite Nat2Z.inj_add in AO.
    replace (Z.of_nat b - Z.of_nat (l * m)) with (Z.of_nat (b - l * m)) by lia.
    change (Z.of_nat 0) with 0 in AO. rewrite AO. f_equal.
    pose proof (shard_seg docs m l 0 (b - l * m) ltac:(lia) ltac:(lia)) as Q. rewrite Nat.sub_0_r, Nat.add_0_r in Q. rewrite Q.
    rewrite seg_app by lia. replace (l * m + (b - l * m))%nat with b by lia.
    unfold acc. destruct sp; [reflexivity|]. rewrite seg_length by lia. rewrite Nat.sub_diag. simpl. apply app_nil_r.
Qed.

(** Requests outside the guard. *)
Lemma slice_bad docs m ns sp s a b : Inv docs m ns sp s ->
  ~ (0 <= a < Z.of_nat (length docs) /\ a <= b <= Z.of_nat (length docs)) ->
  match fst (getitem_slice zero a b s) with Err _ => True | Ok l => b <= a /\ l = [] end.
Proof.
  intros I B. unfold getitem_slice.  unfold mbind at 1, mget. rewrite (I_docs _ _ _ _ _ I).
  destruct (Z.of_nat (length docs) <? b) eqn:Eb; [exact Logic.I|].
  unfold mbind at 1, mlift.
  destruct (Z_le_dec 0 a); [destruct (Z_lt_dec a (Z.of_nat (length docs)))|].
  2,3: rewrite (shard_by_offset_bad _ _ _ _ _ _ I) by lia; exact Logic.I.
  destruct (shard_by_offset_ok _ _ _ _ _ a I ltac:(lia)) as (Ef & Lf). rewrite Ef.
  replace (b =? Z.of_nat (length docs)) with false by lia.
  unfold mbind at 1.
  destruct (Z_le_dec 0 b).
  2:{ rewrite (shard_by_offset_bad _ _ _ _ _ _ I) by lia. exact Logic.I. }
  destruct (shard_by_offset_ok _ _ _ _ _ b I ltac:(lia)) as (El & Ll). rewrite El.
  pose proof (I_m _ _ _ _ _ I).
  destruct (load_ok docs m ns sp s _ I Lf) as (s1 & E1 & I1 & A1).
  unfold mbind at 1. rewrite E1. unfold mbind at 1. unfold mbind at 1, cur_shard. rewrite A1. cbn [of_option].
  destruct (Z.of_nat _ =? Z.of_nat _) eqn:Efl.
  - unfold mret. cbn [fst]. split; [lia|].
    pose proof (Nat.div_mod (Z.to_nat b) m ltac:(lia)).
    assert (Eq : (Z.to_nat a / m = Z.to_nat b / m)%nat) by lia.
    pose proof (Nat.div_mod (Z.to_nat a) m ltac:(lia)).
    pose proof (Nat.mod_upper_bound (Z.to_nat a) m ltac:(lia)).
    pose proof (Nat.mod_upper_bound (Z.to_nat b) m ltac:(lia)).
    rewrite Eq in *. set (k := (Z.to_nat b / m)%nat) in *.
    unfold py_slice.
    match goal with |- firstn ?q _ = _ => replace q with 0%nat; [reflexivity|] end.
    unfold py_bound. rewrite shard_length.
    replace (b - Z.of_nat (k * m) <? 0) with false by nia. replace (a - Z.of_nat (k * m) <? 0) with false by nia. lia.
  - replace (b - a <? 0) with true by lia. exact Logic.I.
Qed.

Lemma iter_ok docs m ns sp s : Inv docs m ns sp s ->
  exists s', sc_iter s = (Ok docs, s') /\ Inv docs m ns sp s'.
Proof.
  intros I. unfold sc_iter, mbind at 1, mget. rewrite (I_docs _ _ _ _ _ I), Nat2Z.id.
  apply mmap_ok with (1 := I). clear. 
  assert (G : forall (pre l : list R), Forall2 (fun i r => 0 <= i /\ nth_error (pre ++ l) (Z.to_nat i) = Some r)
    (map Z.of_nat (seq (length pre) (length l))) l).
  { intros pre l. revert pre. induction l as [|x l IH]; intros pre; simpl; constructor.
    - split; [lia|]. rewrite Nat2Z.id, nth_error_app2, Nat.sub_diag by lia. reflexivity.
    - specialize (IH (pre ++ [x])). rewrite app_length in IH. simpl in IH. rewrite Nat.add_1_r in IH.
      rewrite <- app_assoc in IH. exact IH. }
  exact (G [] docs).
Qed.

(** Building the shards. *)
Lemma chunk_shards docs m : (1 <= m)%nat ->
  exists ns, (length docs <= ns * m)%nat /\ (ns * m < length docs + m)%nat /\ chunkize_serial docs m = map (shard_of docs m) (seq 0 ns).
Proof.
  intros Hm. remember (length docs) as n eqn:En. revert docs En.
  induction n as [n IH] using (well_founded_induction lt_wf). intros docs En.
  rewrite chunkize_unfold by lia. destruct docs as [|d ds].
  - exists 0%nat. simpl in *. subst. destruct m; [lia|]. repeat split; lia.
  - assert (Hne : firstn m (d :: ds) <> []) by (destruct m; [lia|discriminate]).
    destruct (IH (length (skipn m (d :: ds))) ltac:(rewrite skipn_length; cbn [length] in *; lia) _ eq_refl) as (ns & Lo & Hi & E).
    exists (S ns). rewrite skipn_length in Lo, Hi. cbn [length] in En, Lo, Hi.
    split; [simpl; destruct m; lia|]. split.
    { destruct (le_lt_dec (S (length ds)) m).
      - assert (ns = 0)%nat by nia. subst ns. simpl. lia.
      - simpl. lia. }
    rewrite E. destruct (firstn m (d :: ds)) eqn:Ef; [congruence|]. rewrite <- Ef.
    simpl (seq 0 (S ns)). simpl map. f_equal. rewrite <- seq_shift, map_map. apply map_ext. intros k.
    unfold shard_of. rewrite skipn_add. reflexivity.
Qed.

Lemma init_fold docs m (Hm : (1 <= m)%nat) : forall n k s,
  ((k + n) * m < length docs + m)%nat ->
  s_offsets s = map (off_of docs m) (seq 0 (S k)) ->
  fold_left save_new_shard (map (shard_of docs m) (seq k n)) s =
  {| s_files := s_files s ++ map (shard_of docs m) (seq k n); s_shardsize := s_shardsize s;
     s_n_docs := s_n_docs s + (off_of docs m (k + n) - off_of docs m k); s_n_shards := s_n_shards s + Z.of_nat n;
     s_offsets := map (off_of docs m) (seq 0 (S (k + n))); s_sparse := s_sparse s; s_cur := s_cur s |}.
Proof.
  induction n as [|n IH]; intros k s H Eo; cbn [seq map fold_left].
  - destruct s; simpl in *. rewrite app_nil_r, Nat.add_0_r, Eo. f_equal; lia.
  - rewrite IH; clear IH.
    + unfold save_new_shard; cbn [s_files s_shardsize s_n_docs s_n_shards s_offsets s_sparse s_cur].
      replace (S k + n)%nat with (k + S n)%nat by lia. f_equal.
      * rewrite <- app_assoc. reflexivity.
      * rewrite shard_length. unfold off_of. nia.
      * lia.
    + nia.
    + unfold save_new_shard; cbn [s_offsets]. rewrite Eo.
      assert (EL : last (map (off_of docs m) (seq 0 (S k))) 0 = off_of docs m k).
      { rewrite seq_S, map_app. apply last_last. }
      rewrite EL. rewrite (seq_S (S k) 0), map_app. f_equal. simpl (map _ [_]). f_equal.
      rewrite shard_length. unfold off_of. nia.
Qed.

Lemma init_inv docs m sp : (1 <= m)%nat -> exists ns, Inv docs m ns sp (sc_init sp m docs).
Proof.
  intros Hm. destruct (chunk_shards docs m Hm) as (ns & Lo & Hi & E). exists ns.
  unfold sc_init. rewrite E, (init_fold docs m Hm ns 0).
  - constructor; cbn [s_files s_shardsize s_n_docs s_n_shards s_offsets s_sparse s_cur]; auto.
    unfold off_of. lia.
  - simpl; lia.
  - unfold off_of. simpl. f_equal.
Qed.

(** Resizing. *)
Lemma resize_loop_ok docs m ns sp k n' : (1 <= k)%nat -> (length docs <= n' * k)%nat -> (n' * k < length docs + k)%nat ->
  forall j i s, Inv docs m ns sp s -> (i + j = n')%nat ->
  exists s', resize_loop zero (Z.of_nat k) (Z.of_nat (length docs)) (Z.of_nat n') (map Z.of_nat (seq i j)) s =
    (Ok (map (shard_of docs k) (seq i j), map (off_of docs k) (seq (S i) j)), s') /\ Inv docs m ns sp s'.
Proof.
  intros Hk Lo Hi. induction j as [|j IH]; intros i s I Hij.
  - exists s. split; [reflexivity|exact I].
  - cbn [seq map resize_loop].
    assert (Hd : (i * k < length docs)%nat) by (subst n'; nia).
    match goal with |- context [if ?b then _ else _] => replace b with false end.
    2:{ destruct (Nat.eq_dec j 0); [subst; lia|]. subst n'. nia. }
    assert (Es : (if Z.of_nat (length docs) <? Z.of_nat k * Z.of_nat i + Z.of_nat k then Z.of_nat (length docs)
                  else Z.of_nat k * Z.of_nat i + Z.of_nat k) = Z.of_nat (Nat.min (S i * k) (length docs))).
    { destruct (_ <? _) eqn:?; nia. }
    rewrite Es. replace (Z.of_nat k * Z.of_nat i) with (Z.of_nat (i * k)) by lia.
    destruct (slice_ok docs m ns sp s (i * k) (Nat.min (S i * k) (length docs)) I) as (s1 & E1 & I1); [lia|lia|].
    unfold mbind at 1. rewrite E1.
    destruct (IH (S i) s1 I1 ltac:(lia)) as (s2 & E2 & I2).
    unfold mbind at 1. rewrite E2. exists s2. split; [|exact I2].
    cbn [fst snd mret]. unfold mret. f_equal. f_equal. f_equal.
    assert (Esg : seg docs (i * k) (Nat.min (S i * k) (length docs)) = shard_of docs k i).
    { unfold seg, shard_of. replace (Nat.min (S i * k) (length docs) - i * k)%nat with (Nat.min k (length docs - i * k)) by lia.
      rewrite <- firstn_firstn. f_equal. apply firstn_all2. rewrite skipn_length. lia. }
    rewrite Esg. reflexivity.
Qed.

Lemma resize_ok docs m ns sp s k : (1 <= k)%nat -> Inv docs m ns sp s ->
  exists s' ns', resize_shards zero (Z.of_nat k) s = (Ok tt, s') /\ Inv docs k ns' sp s'.
Proof.
  intros Hk I. unfold resize_shards, mbind at 1, mget. replace (Z.of_nat k =? 0) with false by lia.
  rewrite (I_docs _ _ _ _ _ I).
  set (n := length docs) in *.
  assert (En : exists n', (n <= n' * k)%nat /\ (n' * k < n + k)%nat /\
     Z.of_nat n / Z.of_nat k + (if Z.of_nat n mod Z.of_nat k =? 0 then 0 else 1) = Z.of_nat n').
  { exists (n / k + (if (n mod k =? 0)%nat then 0 else 1))%nat.
    pose proof (Nat.div_mod n k ltac:(lia)). pose proof (Nat.mod_upper_bound n k ltac:(lia)).
    rewrite Nat2Z.inj_add, Nat2Z.inj_div. 
    assert (Em : (Z.of_nat n mod Z.of_nat k =? 0) = (n mod k =? 0)%nat).
    { pose proof (Nat2Z.inj_mod n k) as Q. rewrite <- Q. lia. }
    rewrite Em. destruct (n mod k =? 0)%nat eqn:Ez; repeat split; nia. }
  destruct En as (n' & Lo & Hi & En). rewrite En, Nat2Z.id.
  destruct (resize_loop_ok docs m ns sp k n' Hk Lo Hi n' 0 s I eq_refl) as (s1 & E1 & I1).
  unfold mbind at 1. fold n in E1. rewrite E1. unfold mput. eexists. exists n'. split; [reflexivity|].
  constructor; cbn [s_files s_shardsize s_n_docs s_n_shards s_offsets s_sparse s_cur fst snd]; auto.
  - apply I.
Qed.
End P.
