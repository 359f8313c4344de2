(** Theorems about the helpers of [gensim.utils] (properties C18, C20 - C23, C55). *)

From Verif Require Import Base Str Dictionary_Spec SortFacts Utils_Model Utils_Proofs.
From Coq Require Import ZifyBool ZifyNat ZifyN.
Local Open Scope nat_scope.

(** ** C18 *)

Theorem chunkize_serial_exact : forall {A} (it : list A) n, 1 <= n ->
  let cs := chunkize_serial it n in
  concat cs = it /\
  Forall (fun c => c <> [] /\ length c <= n) cs /\
  (forall cs1 c cs2, cs = cs1 ++ c :: cs2 -> cs2 <> [] -> length c = n).
Proof. intros A it n Hn. apply chunkize_loop_spec; [exact Hn | lia]. Qed.
Print Assumptions chunkize_serial_exact.

Example chunkize_serial_ex : chunkize_serial [1; 2; 3; 4; 5; 6; 7] 3 = [[1; 2; 3]; [4; 5; 6]; [7]].
Proof. vm_compute. reflexivity. Qed.

(** A chunk size that [int()] truncates to 0 silently drops the whole stream. *)
Theorem chunkize_serial_zero_refuted : exists it : list nat, concat (chunkize_serial it 0) <> it.
Proof. exists [7]. vm_compute. discriminate. Qed.
Print Assumptions chunkize_serial_zero_refuted.

(** ** C20 *)

Theorem repeat_corpus_exact : forall {A} (corpus : list A) reps, corpus <> [] -> (0 <= reps)%Z ->
  exists docs, repeat_corpus corpus reps = Ok docs /\ length docs = Z.to_nat reps /\
  forall i, i < Z.to_nat reps -> nth_error docs i = nth_error corpus (i mod length corpus).
Proof.
  intros A corpus reps NE Hr. unfold repeat_corpus. destruct (Z.ltb_spec reps 0); [lia|].
  eexists. split; [reflexivity|].
  destruct (cycle_take_spec (Z.to_nat reps) corpus corpus NE) as [A1 A2]; [exists []; reflexivity|].
  split; [exact A1|]. intros i Hi. rewrite A2 by auto. f_equal. f_equal. lia.
Qed.
Print Assumptions repeat_corpus_exact.

Example repeat_corpus_ex : repeat_corpus [1; 2] 5 = Ok [1; 2; 1; 2; 1].
Proof. vm_compute. reflexivity. Qed.

(** The promised length is not reached for an empty corpus. *)
Theorem repeat_corpus_empty_refuted : exists reps, (0 < reps)%Z /\
  repeat_corpus (@nil nat) reps = Ok [].
Proof. exists 3%Z. vm_compute. auto. Qed.
Print Assumptions repeat_corpus_empty_refuted.

Theorem repeat_corpus_ntimes_exact : forall {A} (corpus : list A) n,
  let docs := repeat_corpus_ntimes corpus n in
  length docs = Z.to_nat n * length corpus /\
  forall i, i < length docs -> nth_error docs i = nth_error corpus (i mod length corpus).
Proof.
  intros A corpus n. cbv zeta. unfold repeat_corpus_ntimes. rewrite length_ntimes. split; [reflexivity|].
  intros i Hi. apply ntimes_nth; auto.
Qed.
Print Assumptions repeat_corpus_ntimes_exact.

Example repeat_corpus_ntimes_ex : repeat_corpus_ntimes [1; 2; 3] 2 = [1; 2; 3; 1; 2; 3].
Proof. vm_compute. reflexivity. Qed.

Lemma wanted_prefix : forall {A} (l : list A) a m,
  map snd (filter (fun pd => wanted 0 1 (Some (a + m)) (fst pd)) (combine (seq a (length l)) l)) = firstn m l.
Proof.
  induction l as [|x l IH]; intros a m; [destruct m; reflexivity|]. cbn [length seq combine filter fst].
  unfold wanted at 1. rewrite Nat.mod_1_r. cbn [Nat.leb Nat.eqb andb].
  destruct m as [|m].
  - rewrite Nat.add_0_r, Nat.ltb_irrefl. rewrite filter_none; [reflexivity|]. intros [p d] HI. apply in_combine_l, in_seq in HI.
    cbn [fst]. unfold wanted. rewrite Nat.mod_1_r. destruct (Nat.ltb_spec p a); [lia | apply andb_false_r].
  - destruct (Nat.ltb_spec a (a + S m)); [|lia]. cbn [map snd firstn]. f_equal.
    rewrite <- (IH (S a) m). replace (S a + m) with (a + S m) by lia. reflexivity.
Qed.

Theorem clipped_corpus_exact : forall {A} (corpus : list A) k, (0 <= k)%Z ->
  clipped_iter corpus (Some k) = Ok (firstn (Z.to_nat k) corpus) /\
  clipped_len corpus (Some k) = Ok (length (firstn (Z.to_nat k) corpus)) /\
  clipped_iter corpus None = Ok corpus.
Proof.
  intros A corpus k Hk. split; [|split; [|reflexivity]].
  - unfold clipped_iter, islice. destruct (Z.ltb_spec k 0); [lia|]. cbn [orb option_map Z.ltb].
    change ((1 <? 1)%Z) with false. cbn [orb]. f_equal.
    rewrite (islice_loop_spec corpus 0 0 (Some (Z.to_nat k)) 0 (Z.to_nat 1)) by (auto; lia).
    change (Z.to_nat 1) with 1. apply (wanted_prefix corpus 0).
  - unfold clipped_len. destruct (Z.ltb_spec (Z.min k (Z.of_nat (length corpus))) 0); [lia|].
    rewrite firstn_length. f_equal. lia.
Qed.
Print Assumptions clipped_corpus_exact.

Example clipped_corpus_ex : clipped_iter [5; 6; 7] (Some 2%Z) = Ok [5; 6] /\ clipped_len [5; 6; 7] (Some 9%Z) = Ok 3.
Proof. vm_compute. auto. Qed.

(** "No limit" ([max_docs=None]) can be iterated but has no length. *)
Theorem clipped_corpus_none_len_refuted : exists corpus : list nat,
  clipped_iter corpus None = Ok corpus /\ clipped_len corpus None = Err TypeError.
Proof. exists [1]. vm_compute. auto. Qed.
Print Assumptions clipped_corpus_none_len_refuted.

(** ** C21 *)

(** The positions a Python slice denotes once normalised to (start, stop, step). *)
Definition slice_member (start stop step z : Z) : Prop :=
  exists k, (0 <= k)%Z /\ z = (start + k * step)%Z /\ (if (0 <? step)%Z then (z < stop)%Z else (stop < z)%Z).

(** Indexed corpora: the documents at the positions of the slice, in order. *)
Theorem sliced_iter_exact : forall {A} (corpus : list A) s start stop step, corpus <> [] ->
  slice_indices s (length corpus) = Ok (start, stop, step) ->
  exists ps docs, sliced_iter CIndexed corpus s = Ok docs /\
    StronglySorted (fun a b => if (0 <? step)%Z then (a < b)%Z else (b < a)%Z) ps /\
    (forall z, In z ps <-> slice_member start stop step z) /\
    map Some docs = map (fun z => nth_error corpus (Z.to_nat z)) ps.
Proof.
  intros A corpus s start stop step NE E. destruct (slice_indices_range _ _ _ _ _ E) as [NZ R].
  exists (slice_positions start stop step).
  destruct (rmapM_nth_ok corpus (slice_positions start stop step)) as (docs & E1 & E2).
  { intros z HI. apply slice_positions_In in HI; auto. destruct HI as (k & Hk & -> & X).
    destruct (Z.ltb_spec 0 step); nia. }
  exists docs. split; [|split; [|split]].
  - unfold sliced_iter. destruct (Nat.ltb_spec 0 (length corpus)) as [L|L].
    + rewrite E. exact E1.
    + destruct corpus; [congruence | simpl in L; lia].
  - apply slice_positions_sorted; auto.
  - intros z. apply slice_positions_In; auto.
  - exact E2.
Qed.
Print Assumptions sliced_iter_exact.

Example sliced_iter_ex : sliced_iter CIndexed [10; 11; 12; 13; 14] (mkSlice (Some (-1)%Z) None (Some (-2)%Z)) = Ok [14; 12; 10].
Proof. vm_compute. reflexivity. Qed.

(** [len()] agrees with iteration exactly for these slices. *)
Theorem sliced_len_iff : forall {A} (corpus : list A) s start stop step docs,
  slice_indices s (length corpus) = Ok (start, stop, step) ->
  sliced_iter CIndexed corpus s = Ok docs -> corpus <> [] ->
  (sliced_len CIndexed corpus s = Ok (length docs) <->
   ((0 < step)%Z /\ (start < stop + step)%Z) \/ ((step < 0)%Z /\ (stop <= start)%Z /\ exists q, (stop - start = q * step)%Z)).
Proof.
  intros A corpus s start stop step docs E EI NE. destruct (slice_indices_range _ _ _ _ _ E) as [NZ R].
  assert (LD : Z.of_nat (length docs) = slice_count start stop step).
  { unfold sliced_iter in EI. destruct (Nat.ltb_spec 0 (length corpus)) as [L|L]; [|destruct corpus; [congruence | simpl in L; lia]].
    rewrite E in EI. cbn [rbind] in EI.
    destruct (rmapM_nth_ok corpus (slice_positions start stop step)) as (docs' & E1 & E2).
    { intros z HI. apply slice_positions_In in HI; auto. destruct HI as (k & Hk & -> & X). destruct (Z.ltb_spec 0 step); nia. }
    rewrite E1 in EI. inversion EI; subst docs'. apply (f_equal (@length _)) in E2. rewrite !map_length, length_slice_positions in E2.
    pose proof (slice_count_nonneg start stop step NZ). lia. }
  pose proof (reported_iff start stop step NZ) as RI. cbv zeta in RI.
  pose proof (slice_count_nonneg start stop step NZ) as NN.
  unfold sliced_len, sliced_length_attr. rewrite E. cbn [rbind].
  set (rep := ((stop - start) / step + (if (0 <? (stop - start) mod step)%Z then 1 else 0))%Z) in *.
  assert (H : (if (rep <? 0)%Z then Err ValueError else Ok (Z.to_nat rep)) = Ok (length docs) <-> rep = slice_count start stop step).
  { destruct (Z.ltb_spec rep 0); split; intros X; try discriminate; try lia.
    - inversion X. lia.
    - f_equal. lia. }
  rewrite H, RI. split; (intros [[? ?]|(? & ? & ?)]; [left | right]); repeat split; auto; lia.
Qed.
Print Assumptions sliced_len_iff.

(** In particular for every forward slice. *)
Theorem sliced_len_forward : forall {A} (corpus : list A) s start stop step docs,
  slice_indices s (length corpus) = Ok (start, stop, step) -> (0 < step)%Z -> (start <= stop)%Z ->
  sliced_iter CIndexed corpus s = Ok docs -> corpus <> [] ->
  sliced_len CIndexed corpus s = Ok (length docs).
Proof. intros A corpus s start stop step docs E P L EI NE. apply (sliced_len_iff corpus s start stop step docs E EI NE). left. lia. Qed.
Print Assumptions sliced_len_forward.

Example sliced_len_ex : sliced_len CIndexed [10; 11; 12; 13; 14] (mkSlice (Some 1%Z) (Some (-1)%Z) (Some 2%Z)) = Ok 2
  /\ sliced_iter CIndexed [10; 11; 12; 13; 14] (mkSlice (Some 1%Z) (Some (-1)%Z) (Some 2%Z)) = Ok [11; 13].
Proof. vm_compute. auto. Qed.

Theorem sliced_len_negative_step_refuted : exists (corpus : list nat) s docs n,
  sliced_iter CIndexed corpus s = Ok docs /\ sliced_len CIndexed corpus s = Ok n /\ n <> length docs.
Proof. exists [0; 1; 2; 3], (mkSlice None None (Some (-3)%Z)). do 2 eexists. vm_compute. split; [reflexivity|]. split; [reflexivity | lia]. Qed.
Print Assumptions sliced_len_negative_step_refuted.

Theorem sliced_len_empty_slice_refuted : exists (corpus : list nat) s,
  sliced_iter CIndexed corpus s = Ok [] /\ sliced_len CIndexed corpus s = Err ValueError.
Proof. exists [0; 1; 2; 3], (mkSlice (Some 3%Z) (Some 1%Z) None). vm_compute. auto. Qed.
Print Assumptions sliced_len_empty_slice_refuted.

(** Streamed corpora: the documents at [start], [start + step], ... below [stop]. *)
Theorem sliced_stream_exact : forall {A} (corpus : list A) s,
  let start := match sl_start s with Some z => z | None => 0%Z end in
  let step := match sl_step s with Some z => z | None => 1%Z end in
  (0 <= start)%Z -> (1 <= step)%Z -> (forall z, sl_stop s = Some z -> (0 <= z)%Z) ->
  sliced_iter CStream corpus s = Ok (map snd (filter (fun pd =>
    let p := Z.of_nat (fst pd) in
    (start <=? p)%Z && ((p - start) mod step =? 0)%Z && match sl_stop s with Some z => (p <? z)%Z | None => true end)
    (combine (seq 0 (length corpus)) corpus))).
Proof.
  intros A corpus s start step Hs Hp Hz. unfold sliced_iter, islice.
  assert (B : (match sl_start s with Some z => (z <? 0)%Z | None => false end) = false).
  { unfold start in Hs. destruct (sl_start s); [|reflexivity]. apply Z.ltb_ge. auto. }
  assert (B2 : (match sl_stop s with Some z => (z <? 0)%Z | None => false end) = false).
  { destruct (sl_stop s) as [z|]; [|reflexivity]. apply Z.ltb_ge. apply Hz; auto. }
  rewrite B, B2. cbn [orb]. fold step. destruct (Z.ltb_spec step 1); [lia|]. f_equal.
  replace (match sl_start s with Some z => Z.to_nat z | None => 0 end) with (Z.to_nat start)
    by (unfold start; destruct (sl_start s); reflexivity).
  rewrite (islice_loop_spec corpus 0 (Z.to_nat start) _ (Z.to_nat start) (Z.to_nat step)); try lia.
  - f_equal. apply filter_ext_in. intros [p d] HI. cbn [fst]. unfold wanted.
    destruct (Nat.leb_spec (Z.to_nat start) p) as [L|L]; destruct (Z.leb_spec start (Z.of_nat p)) as [L'|L']; try lia.
    f_equal.
    + assert (X : Z.of_nat ((p - Z.to_nat start) mod Z.to_nat step) = ((Z.of_nat p - start) mod step)%Z).
      { rewrite Nat2Z.inj_mod. f_equal; lia. }
      destruct (Nat.eqb_spec ((p - Z.to_nat start) mod Z.to_nat step) 0);
      destruct (Z.eqb_spec ((Z.of_nat p - start) mod step)%Z 0); try reflexivity; lia.
    + destruct (sl_stop s) as [z|]; [|reflexivity]. cbn [option_map]. specialize (Hz z eq_refl).
      destruct (Nat.ltb_spec p (Z.to_nat z)); destruct (Z.ltb_spec (Z.of_nat p) z); try reflexivity; lia.
  - rewrite Nat.sub_diag. apply Nat.mod_0_l. lia.
Qed.
Print Assumptions sliced_stream_exact.

Example sliced_stream_ex : sliced_iter CStream [10; 11; 12; 13; 14; 15] (mkSlice (Some 1%Z) (Some 5%Z) (Some 2%Z)) = Ok [11; 13].
Proof. vm_compute. reflexivity. Qed.

(** A streamed corpus has no length at all, and a plain Python list (whose
    [index] is a method) cannot even be iterated. *)
Theorem sliced_stream_len_refuted : exists (corpus : list nat) s docs,
  sliced_iter CStream corpus s = Ok docs /\ sliced_len CStream corpus s = Err AttributeErr.
Proof. exists [1; 2], (mkSlice None None None). eexists. vm_compute. auto. Qed.
Print Assumptions sliced_stream_len_refuted.

Theorem sliced_pylist_refuted : exists (corpus : list nat) s,
  sliced_iter CPyList corpus s = Err TypeError /\ sliced_len CPyList corpus s = Err TypeError.
Proof. exists [1; 2], (mkSlice None (Some 1%Z) None). vm_compute. auto. Qed.
Print Assumptions sliced_pylist_refuted.

(** ** C22 *)

(** When a word with this count survives pruning with threshold [m]. *)
Definition survives (rule : option (pystr -> nat -> nat -> rule_answer)) (m : nat) (w : pystr) (c : nat) : Prop :=
  match rule with
  | None => m <= c
  | Some f => f w c m = RuleKeep \/ (f w c m = RuleDefault /\ m <= c)
  end.

Lemma keep_survives : forall rule m w c, keep_vocab_item w c m rule = true <-> survives rule m w c.
Proof.
  intros [f|] m w c; unfold keep_vocab_item, survives; [|apply Nat.leb_le].
  destruct (f w c m); [rewrite Nat.leb_le| |]; split; auto; intros; try discriminate; intuition (try discriminate).
Qed.

Theorem prune_vocab_exact : forall vocab min_reduce rule, NoDup (map fst vocab) ->
  exists vocab' r, prune_vocab vocab min_reduce rule = Ok (vocab', r) /\
    (forall w c, dget vocab' w = Some c <-> dget vocab w = Some c /\ survives rule min_reduce w c) /\
    r + list_sum_nat (map snd vocab') = list_sum_nat (map snd vocab) /\
    (forall a b, precedes (map fst vocab') a b -> precedes (map fst vocab) a b) /\
    NoDup (map fst vocab').
Proof.
  intros vocab m rule ND. do 2 eexists. split; [apply prune_vocab_eq; exact ND|]. split; [|split; [|split]].
  - intros w c. rewrite !dget_iff by (try apply NoDup_dkeys_filter; exact ND). rewrite filter_In. cbn [fst snd].
    rewrite keep_survives. reflexivity.
  - rewrite Nat.add_comm. apply sum_filter_split.
  - intros a b (l1 & l2 & l3 & E).
    assert (G : forall (f : pystr * nat -> bool) l l1 l2 l3, map fst (filter f l) = l1 ++ a :: l2 ++ b :: l3 -> precedes (map fst l) a b).
    { clear. intros f. assert (I : forall l m1 c m2, map fst (filter f l) = m1 ++ c :: m2 -> exists n1 n2, map fst l = n1 ++ c :: n2 /\
                forall y, In y m2 -> In y n2).
      { induction l as [|x l IH]; intros m1 c m2 E; [destruct m1; discriminate|]. cbn [filter map] in *. destruct (f x).
        - destruct m1 as [|y m1]; cbn [map app] in E; inversion E; subst.
          + exists [], (map fst l). split; [reflexivity|]. intros y Hy. apply in_map_iff in Hy. destruct Hy as (z & <- & Hz).
            apply filter_In in Hz. apply in_map; tauto.
          + destruct (IH _ _ _ H1) as (n1 & n2 & -> & Hn). exists (fst x :: n1), n2. auto.
        - destruct (IH _ _ _ E) as (n1 & n2 & -> & Hn). exists (fst x :: n1), n2. auto. }
      intros l l1 l2 l3 E. destruct (I _ _ _ _ E) as (n1 & n2 & -> & Hn).
      assert (In b n2) as HI by (apply Hn, in_app_iff; simpl; auto). apply in_split in HI. destruct HI as (x & y & ->).
      exists n1, x, y. reflexivity. }
    eapply G; exact E.
  - apply NoDup_dkeys_filter; exact ND.
Qed.
Print Assumptions prune_vocab_exact.

Definition ex_vocab : dict pystr nat := [(str "a", 5); (str "b", 2); (str "c", 3); (str "d", 2)].
Example prune_vocab_ex :
  prune_vocab ex_vocab 3 None = Ok ([(str "a", 5); (str "c", 3)], 4) /\
  prune_vocab ex_vocab 3 (Some (fun w _ _ => if eqb w (str "b") then RuleKeep else if eqb w (str "a") then RuleDiscard else RuleDefault))
    = Ok ([(str "b", 2); (str "c", 3)], 7).
Proof. vm_compute. auto. Qed.

(** The comment and the log message say "count <= min_reduce"; a word whose
    count equals the threshold is kept. *)
Theorem prune_vocab_le_refuted : exists vocab m w c vocab' r,
  NoDup (map fst vocab) /\ prune_vocab vocab m None = Ok (vocab', r) /\ dget vocab w = Some c /\ c <= m /\ dget vocab' w = Some c.
Proof.
  exists ex_vocab, 3, (str "c"), 3. do 2 eexists. split; [|split; [vm_compute; reflexivity|]].
  - vm_compute. repeat constructor; simpl; intuition discriminate.
  - vm_compute. auto.
Qed.
Print Assumptions prune_vocab_le_refuted.

(** [trim_vocab_by_freq]: an entry is kept iff fewer than [topk] entries have a
    larger count (so ties with the [topk]-th are kept). *)
Theorem trim_vocab_exact : forall vocab topk, NoDup (map fst vocab) -> (1 <= topk)%Z ->
  exists vocab', trim_vocab_by_freq vocab topk None = Ok vocab' /\
    (forall w c, dget vocab' w = Some c <->
       dget vocab w = Some c /\ (Z.of_nat (length (filter (fun v => Nat.ltb c v) (map snd vocab))) < topk)%Z) /\
    (Z.min topk (Z.of_nat (length vocab)) <= Z.of_nat (length vocab'))%Z.
Proof.
  intros vocab topk ND Hk. unfold trim_vocab_by_freq.
  destruct (Z.leb_spec (Z.of_nat (length vocab)) topk) as [L|L].
  - exists vocab. split; [reflexivity|]. split; [|lia]. intros w c. split; [|tauto]. intros G. split; [exact G|].
    assert (X : length (filter (fun v => c <? v) (map snd vocab)) < length vocab); [|lia].
    apply dget_In in G. clear - G. induction vocab as [|[k v] vocab IH]; [destruct G|].
    cbn [map filter length snd]. destruct G as [E|G].
    + inversion E; subst. rewrite Nat.ltb_irrefl. pose proof (filter_len_le (fun v => c <? v) (map snd vocab)). rewrite map_length in H. lia.
    + specialize (IH G). destruct (c <? v); cbn [length]; lia.
  - destruct (rev (nlargest topk (dvals vocab))) as [|m rest] eqn:E.
    + exfalso. apply (nlargest_nonempty (dvals vocab) topk); auto. intros X. apply (f_equal (@length nat)) in X.
      rewrite length_dvals in X. cbn [length] in X. lia.
    + destruct (nlargest_last _ _ _ _ E) as (N1 & N2 & N3). rewrite prune_vocab_eq by exact ND. cbn [rbind fst].
      eexists. split; [reflexivity|]. change (dvals vocab) with (map snd vocab) in *. split.
      * intros w c. rewrite !dget_iff by (try apply NoDup_dkeys_filter; exact ND). rewrite filter_In. cbn [fst snd].
        unfold keep_vocab_item. rewrite Nat.leb_le. split; intros [HI X]; split; auto.
        -- assert (Y : length (filter (fun v => c <? v) (map snd vocab)) <= length (filter (fun v => m <? v) (map snd vocab))); [|lia].
           clear - X. induction (map snd vocab) as [|v l IH]; cbn [filter]; [lia|].
           destruct (Nat.ltb_spec c v), (Nat.ltb_spec m v); cbn [length]; lia.
        -- destruct (Nat.le_gt_cases m c) as [|LT]; [auto|]. exfalso.
           assert (Y : length (filter (fun v => m <=? v) (map snd vocab)) <= length (filter (fun v => c <? v) (map snd vocab))).
           { clear - LT. induction (map snd vocab) as [|v l IH]; cbn [filter]; [lia|].
             destruct (Nat.ltb_spec c v), (Nat.leb_spec m v); cbn [length]; lia. }
           rewrite map_length in N2. lia.
      * assert (Y : length (filter (fun v => m <=? v) (map snd vocab)) =
                    length (filter (fun it : pystr * nat => keep_vocab_item (fst it) (snd it) m None) vocab)).
        { clear. unfold keep_vocab_item. induction vocab as [|[k v] l IH]; cbn [map filter snd fst]; [reflexivity|].
          destruct (m <=? v); cbn [length]; lia. }
        rewrite map_length in N2. lia.
Qed.
Print Assumptions trim_vocab_exact.

Example trim_vocab_ex : trim_vocab_by_freq ex_vocab 1 None = Ok [(str "a", 5)] /\
  trim_vocab_by_freq ex_vocab 3 None = Ok ex_vocab.
Proof. vm_compute. auto. Qed.

Theorem trim_vocab_zero_refuted : exists vocab, trim_vocab_by_freq vocab 0 None = Err IndexError.
Proof. exists ex_vocab. vm_compute. reflexivity. Qed.
Print Assumptions trim_vocab_zero_refuted.

Theorem merge_counts_exact : forall dict1 dict2 w, NoDup (map fst dict2) ->
  dget_or (merge_counts dict1 dict2) w 0 = dget_or dict1 w 0 + dget_or dict2 w 0 /\
  (In w (map fst (merge_counts dict1 dict2)) <-> In w (map fst dict1) \/ In w (map fst dict2)).
Proof.
  intros d1 d2 w ND. change (map fst) with (@dkeys pystr nat) in *. unfold dget_or at 1. split.
  - rewrite merge_counts_get by auto. unfold dget_or. destruct (dget d2 w), (dget d1 w); lia.
  - change (map fst (merge_counts d1 d2)) with (dkeys (merge_counts d1 d2)). change (map fst d1) with (dkeys d1). change (map fst d2) with (dkeys d2).
    rewrite <- !dget_Some_key, merge_counts_get by auto. destruct (dget d2 w).
    + split; eauto.
    + split; [auto|]. intros [X|[v X]]; [auto | discriminate].
Qed.
Print Assumptions merge_counts_exact.

Example merge_counts_ex : merge_counts ex_vocab [(str "z", 1); (str "b", 4)]
  = [(str "a", 5); (str "b", 6); (str "c", 3); (str "d", 2); (str "z", 1)].
Proof. vm_compute. reflexivity. Qed.

(** ** C23 *)

(** All windows of a text: the contiguous slices of length [w], by position. *)
Definition windows_of {A : Type} (w : nat) (short_too : bool) (doc : list A) : list (list A) :=
  if length doc <? w then (if short_too then [doc] else [])
  else map (fun i => firstn w (skipn i doc)) (seq 0 (S (length doc - w))).

Lemma iter_windows1_spec : forall {A} (doc : list A) w ign,
  iter_windows1 doc w ign = map (map Some) (windows_of w (negb ign) doc).
Proof.
  intros A doc w ign. unfold iter_windows1, strided_windows, windows_of.
  destruct (Nat.eqb_spec w (length doc)) as [E|NE].
  - destruct (Nat.ltb_spec (length doc) w); [lia|]. subst w. rewrite Nat.sub_diag. cbn [seq map].
    rewrite firstn_all. reflexivity.
  - destruct (Nat.ltb_spec (length doc) w).
    + destruct ign; reflexivity.
    + replace (length doc - w + 1) with (S (length doc - w)) by lia.
      set (n := length doc - w). cbn [seq]. cbn [map].
      rewrite nth_error_slice by lia. f_equal. rewrite map_map. apply map_ext_in. intros i HI. apply in_seq in HI.
      rewrite nth_error_slice by lia. reflexivity.
Qed.

(** In particular no element outside the text is ever read ([Some] everywhere). *)
Theorem iter_windows_exact : forall {A} (texts : list (list A)) w ign,
  iter_windows texts w ign = map (map Some) (flat_map (windows_of w (negb ign)) texts).
Proof.
  intros A texts w ign. unfold iter_windows, iter_windows_num. generalize 0 as n.
  induction texts as [|doc texts IH]; intros n; [reflexivity|]. cbn [iter_windows_from flat_map].
  rewrite !map_app, map_map, IH. f_equal. cbn [snd]. rewrite map_id. apply iter_windows1_spec.
Qed.
Print Assumptions iter_windows_exact.

Theorem iter_windows_num_exact : forall {A} (texts : list (list A)) w ign d win,
  In (d, win) (iter_windows_num texts w ign) <->
  exists doc win', nth_error texts d = Some doc /\ In win' (windows_of w (negb ign) doc) /\ win = map Some win'.
Proof.
  intros A texts w ign d win. unfold iter_windows_num.
  assert (G : forall n, In (d, win) (iter_windows_from n texts w ign) <->
     exists doc win', n <= d /\ nth_error texts (d - n) = Some doc /\ In win' (windows_of w (negb ign) doc) /\ win = map Some win').
  { induction texts as [|doc texts IH]; intros n; cbn [iter_windows_from].
    - split; [intros [] | intros (doc & win' & _ & E & _); destruct (d - n); discriminate].
    - rewrite in_app_iff, in_map_iff, IH. split.
      + intros [(x & E & HI)|(doc' & win' & L & E & HI & ->)].
        * inversion E; subst. rewrite iter_windows1_spec in HI. apply in_map_iff in HI. destruct HI as (win' & <- & HI).
          exists doc, win'. rewrite Nat.sub_diag. auto.
        * exists doc', win'. split; [lia|]. split; [|auto]. replace (d - n) with (S (d - S n)) by lia. exact E.
      + intros (doc' & win' & L & E & HI & ->). destruct (Nat.eq_dec d n) as [->|NE].
        * left. rewrite Nat.sub_diag in E. cbn in E. inversion E; subst doc'. exists (map Some win'). split; [reflexivity|].
          rewrite iter_windows1_spec. apply in_map; auto.
        * right. exists doc', win'. split; [lia|]. split; [|auto]. replace (d - n) with (S (d - S n)) in E by lia. exact E. }
  rewrite G. split; intros (doc & win' & X); [exists doc, win' | exists doc, win']; rewrite Nat.sub_0_r in *; intuition lia.
Qed.
Print Assumptions iter_windows_num_exact.

Example iter_windows_ex :
  iter_windows_num [[1; 2; 3]; [4]; [5; 6]] 2 false =
   [(0, [Some 1; Some 2]); (0, [Some 2; Some 3]); (1, [Some 4]); (2, [Some 5; Some 6])]
  /\ iter_windows [[1; 2; 3]; [4]] 2 true = [[Some 1; Some 2]; [Some 2; Some 3]].
Proof. vm_compute. auto. Qed.

(** ** C55 *)

Theorem get_max_id_exact : forall {W} (corpus : list (list (Z * W))),
  (forall doc i v, In doc corpus -> In (i, v) doc -> (i <= get_max_id corpus)%Z) /\
  (-1 <= get_max_id corpus)%Z /\
  (get_max_id corpus <> (-1)%Z -> exists doc v, In doc corpus /\ In (get_max_id corpus, v) doc).
Proof.
  intros W corpus. destruct (get_max_id_fold corpus (-1)%Z) as (A & B & C).
  split; [intros doc i v H1 H2; exact (B doc (i, v) H1 H2)|]. split; [exact A|].
  intros NE. destruct C as [C|(doc & [i v] & H1 & H2 & H3)]; [contradiction|]. exists doc, v. cbn [fst] in H3.
  split; auto. unfold get_max_id. rewrite <- H3. exact H2.
Qed.
Print Assumptions get_max_id_exact.

(** The fake dictionary of a corpus names every (non-negative) id of the corpus,
    with distinct names. *)
Theorem dict_from_corpus_covers : forall {W} (corpus : list (list (Z * W))) doc i v,
  In doc corpus -> In (i, v) doc -> (0 <= i)%Z ->
  fakedict_getitem (dict_from_corpus corpus) i = Ok (show_Z i) /\
  forall j s, fakedict_getitem (dict_from_corpus corpus) i = Ok s -> fakedict_getitem (dict_from_corpus corpus) j = Ok s -> i = j.
Proof.
  intros W corpus doc i v H1 H2 Hi. destruct (get_max_id_exact corpus) as (A & _ & _). specialize (A _ _ _ H1 H2).
  unfold fakedict_getitem, dict_from_corpus. assert (X : ((0 <=? i) && (i <? 1 + get_max_id corpus))%Z = true) by lia.
  rewrite X. split; [reflexivity|]. intros j s E1 E2. destruct ((0 <=? j) && (j <? 1 + get_max_id corpus))%Z; [|discriminate].
  inversion E1; subst. inversion E2. pose proof (parse_show_Z i) as P. rewrite <- H0, parse_show_Z in P. congruence.
Qed.
Print Assumptions dict_from_corpus_covers.

Theorem fakedict_lookups_agree : forall n v s,
  (fakedict_getitem n v = Ok s <-> In (v, s) (fakedict_iteritems n)) /\
  (fakedict_get n v None = Some s <-> In (v, s) (fakedict_iteritems n)).
Proof.
  intros n v s.
  assert (I : In (v, s) (fakedict_iteritems n) <-> ((0 <=? v) && (v <? n))%Z = true /\ s = show_Z v).
  { unfold fakedict_iteritems. rewrite in_map_iff. split.
    - intros (i & E & HI). apply in_seq in HI. inversion E; subst. split; [lia | reflexivity].
    - intros [X ->]. exists (Z.to_nat v). rewrite Z2Nat.id by lia. split; [reflexivity | apply in_seq; lia]. }
  rewrite I. unfold fakedict_getitem, fakedict_get. destruct ((0 <=? v) && (v <? n))%Z.
  - split; split; [intros E; inversion E; auto | intros [_ ->]; auto | intros E; inversion E; auto | intros [_ ->]; auto].
  - split; split; try discriminate; intros [X _]; discriminate.
Qed.
Print Assumptions fakedict_lookups_agree.

Example fakedict_ex : dict_from_corpus [[(3%Z, tt); (1%Z, tt)]; []; [(2%Z, tt)]] = 4%Z /\ fakedict_getitem 4 3 = Ok (str "3")
  /\ fakedict_getitem 4 4 = Err ValueError.
Proof. vm_compute. auto. Qed.

(** [keys()] lists one key only (documented as an optimisation). *)
Theorem fakedict_keys_refuted : exists n v s, fakedict_getitem n v = Ok s /\ ~ In v (fakedict_keys n).
Proof. exists 3%Z, 0%Z. eexists. split; [vm_compute; reflexivity|]. vm_compute. intuition discriminate. Qed.
Print Assumptions fakedict_keys_refuted.

(** [flatten] of nested sequences: determined by these equations. *)
Theorem flatten_exact : forall {A} (l l' : list (nested A)) (xs : list A),
  flatten (l ++ l') = flatten l ++ flatten l' /\
  flatten [Seq l] = flatten l /\
  flatten (map Leaf xs) = xs.
Proof.
  intros A l l' xs. unfold flatten. split; [apply flat_map_app|]. split; [cbn; apply app_nil_r|].
  induction xs; cbn [map flat_map flatten_el app]; congruence.
Qed.
Print Assumptions flatten_exact.

Example flatten_ex : flatten [Seq [Leaf 1; Seq [Leaf 2; Seq []]]; Leaf 3] = [1; 2; 3].
Proof. vm_compute. reflexivity. Qed.

(** [is_corpus] never loses a document of the stream, whatever its verdict. *)
Theorem is_corpus_preserves_stream : forall {A} (looks : A -> doc_look) is_iter obj,
  snd (is_corpus looks is_iter obj) = obj /\
  (fst (is_corpus looks is_iter obj) = true <-> exists d rest, obj = d :: rest /\ looks d <> LookOther).
Proof.
  intros A looks is_iter [|d rest]; cbn [is_corpus].
  - split; [reflexivity|]. split; [discriminate | intros (d & rest & E & _); discriminate].
  - split; [destruct is_iter, (looks d); reflexivity|].
    assert (V : fst (match looks d with
      | LookEmpty | LookPairs => (true, if is_iter then [d] ++ rest else d :: rest)
      | LookOther => (false, if is_iter then [d] ++ rest else d :: rest) end) = true <-> looks d <> LookOther).
    { destruct (looks d); cbn [fst]; split; congruence. }
    cbv zeta. rewrite V. split; [eauto|]. intros (d' & r' & X & N). inversion X; subst; auto.
Qed.
Print Assumptions is_corpus_preserves_stream.

Example is_corpus_ex : is_corpus (fun n => if n =? 0 then LookEmpty else LookOther) true [4; 0; 5] = (false, [4; 0; 5]).
Proof. vm_compute. reflexivity. Qed.
