(** Proofs about the helpers of [gensim.utils]. *)

From Verif Require Import Base Str Dictionary_Spec SortFacts Utils_Model.
From Coq Require Import ZifyBool ZifyNat ZifyN.
Ltac Zify.zify_post_hook ::= Z.div_mod_to_equations.
Local Open Scope nat_scope.

(** ** Chunking *)

Lemma chunkize_loop_spec : forall {A} n fuel (it : list A), 1 <= n -> length it < fuel ->
  let cs := chunkize_serial_loop fuel it n in
  concat cs = it /\ Forall (fun c => c <> [] /\ length c <= n) cs /\
  (forall cs1 c cs2, cs = cs1 ++ c :: cs2 -> cs2 <> [] -> length c = n).
Proof.
  intros A n. induction fuel as [|fuel IH]; intros it Hn HL; [lia|]. cbv zeta.
  cbn [chunkize_serial_loop islice_take].
  destruct (firstn n it) as [|x c] eqn:EF.
  - destruct it as [|y it]; [|destruct n; [lia | discriminate]].
    split; [reflexivity|]. split; [constructor|]. intros [|? ?] c cs2 E; discriminate.
  - assert (L : length (x :: c) = Nat.min n (length it)) by (rewrite <- EF; apply firstn_length).
    assert (LS : length (skipn n it) = length it - n) by apply skipn_length.
    cbn [length] in L. destruct (IH (skipn n it) Hn) as (I1 & I2 & I3); [lia|].
    split; [|split].
    + cbn [concat]. rewrite I1, <- EF. apply firstn_skipn.
    + constructor; [|exact I2]. split; [discriminate | cbn [length]; lia].
    + intros [|c0 cs1] c1 cs2 E NE; cbn [app] in E; inversion E; subst.
      * destruct (Nat.le_gt_cases n (length it)); [cbn [length]; lia|].
        exfalso. apply NE. destruct fuel as [|fuel]; [reflexivity|]. cbn [chunkize_serial_loop islice_take].
        rewrite (skipn_all2 it) by lia. rewrite firstn_nil. reflexivity.
      * eapply I3; eauto.
Qed.

(** ** Cycling *)

Lemma cycle_take_spec : forall {A} n (saved cur : list A), saved <> [] ->
  (exists pre, saved = pre ++ cur) ->
  length (cycle_take n saved cur) = n /\
  forall i, i < n -> nth_error (cycle_take n saved cur) i =
     nth_error saved ((length saved - length cur + i) mod length saved).
Proof.
  intros A. induction n as [|n IH]; intros saved cur NE [pre P]; [simpl; split; [auto | lia]|].
  cbn [cycle_take]. assert (LS : 0 < length saved) by (destruct saved; [congruence | simpl; lia]).
  destruct cur as [|x cur].
  - destruct saved as [|y s] eqn:ES; [congruence|]. rewrite <- ES in *.
    destruct (IH saved s NE) as [I1 I2]; [exists [y]; rewrite ES; reflexivity|].
    split; [cbn [length]; lia|]. intros [|i] Hi; cbn [nth_error].
    + rewrite Nat.sub_0_r, Nat.add_0_r, Nat.mod_same by lia. rewrite ES; reflexivity.
    + rewrite I2 by lia. f_equal. replace (length saved) with (S (length s)) at 1 by (rewrite ES; reflexivity).
      replace (S (length s) - length s + i) with (S i) by lia.
      replace (length saved - length (@nil A) + S i) with (S i + 1 * length saved) by (cbn [length]; lia).
      rewrite Nat.mod_add by lia. reflexivity.
  - destruct (IH saved cur NE) as [I1 I2]; [exists (pre ++ [x]); rewrite P, <- app_assoc; reflexivity|].
    assert (LP : length saved = length pre + S (length cur)) by (rewrite P, app_length; reflexivity).
    split; [cbn [length]; lia|]. intros [|i] Hi; cbn [nth_error].
    + rewrite Nat.mod_small by (cbn [length]; lia). rewrite P at 1. rewrite nth_error_app2 by (cbn [length]; lia).
      replace (length saved - length (x :: cur) + 0 - length pre) with 0 by (cbn [length]; lia). reflexivity.
    + rewrite I2 by lia. f_equal. f_equal. cbn [length]. lia.
Qed.

Lemma ntimes_nth : forall {A} (corpus : list A) k a i, i < k * length corpus ->
  nth_error (flat_map (fun _ => corpus) (seq a k)) i = nth_error corpus (i mod length corpus).
Proof.
  induction k as [|k IH]; intros a i Hi; [lia|]. cbn [seq flat_map]. cbn [Nat.mul] in Hi.
  assert (0 < length corpus) by (destruct (length corpus); lia).
  destruct (Nat.lt_ge_cases i (length corpus)).
  - rewrite nth_error_app1 by lia. rewrite Nat.mod_small by lia. reflexivity.
  - rewrite nth_error_app2 by lia. rewrite IH by lia. f_equal.
    replace i with ((i - length corpus) + 1 * length corpus) at 2 by lia. rewrite Nat.mod_add by lia. reflexivity.
Qed.

Lemma length_ntimes : forall {A} (corpus : list A) k a, length (flat_map (fun _ => corpus) (seq a k)) = k * length corpus.
Proof. induction k as [|k IH]; intros a; cbn [seq flat_map]; [reflexivity|]. rewrite app_length, IH. reflexivity. Qed.

(** ** islice *)

Definition wanted (start step : nat) (stop : option nat) (p : nat) : bool :=
  (start <=? p) && ((p - start) mod step =? 0) && match stop with Some s => p <? s | None => true end.

Lemma filter_none : forall {A} (f : A -> bool) l, (forall x, In x l -> f x = false) -> filter f l = [].
Proof. induction l; intros H; cbn [filter]; [reflexivity|]. rewrite H by (simpl; auto). apply IHl. intros; apply H; simpl; auto. Qed.

Lemma islice_loop_spec : forall {A} (it : list A) cnt next stop start step,
  1 <= step -> start <= next -> (next - start) mod step = 0 -> cnt <= next -> (next < cnt + step \/ cnt <= start) ->
  (next = start \/ start < next /\ next < cnt + step) ->
  islice_loop it cnt next stop step =
  map snd (filter (fun pd => wanted start step stop (fst pd)) (combine (seq cnt (length it)) it)).
Proof.
  intros A. induction it as [|x it IH]; intros cnt next stop start step Hs Hn Hm Hc Hw Hx; [reflexivity|].
  cbn [islice_loop length seq combine filter fst].
  assert (STEP : (if cnt =? next then x :: islice_loop it (S cnt) (next + step) stop step else islice_loop it (S cnt) next stop step)
    = if cnt =? next then x :: map snd (filter (fun pd => wanted start step stop (fst pd)) (combine (seq (S cnt) (length it)) it))
      else map snd (filter (fun pd => wanted start step stop (fst pd)) (combine (seq (S cnt) (length it)) it))).
  { destruct (Nat.eqb_spec cnt next) as [E|E].
    - f_equal. apply IH; auto; try lia.
      replace (next + step - start) with ((next - start) + 1 * step) by lia. rewrite Nat.mod_add by lia. exact Hm.
    - apply IH; auto; lia. }
  assert (W : (cnt =? next) = (start <=? cnt) && ((cnt - start) mod step =? 0)).
  { destruct (Nat.eqb_spec cnt next) as [E|E].
    - subst. rewrite Hm. destruct (Nat.leb_spec start next); [reflexivity | lia].
    - destruct (Nat.leb_spec start cnt) as [L|L]; [|reflexivity].
      destruct (Nat.eqb_spec ((cnt - start) mod step) 0) as [Z|Z]; [|reflexivity]. exfalso.
      destruct Hx as [->|[X1 X2]]; [lia|].
      apply Nat.mod_divides in Z; [|lia]. apply Nat.mod_divides in Hm; [|lia].
      destruct Z as [a Za], Hm as [b Zb]. assert (next - cnt = step * b - step * a) by lia.
      destruct (Nat.le_gt_cases b a); [nia|]. assert (step * b >= step * a + step) by nia. lia. }
  unfold wanted at 1. rewrite <- W. destruct stop as [s|].
  - destruct (Nat.leb_spec s cnt) as [L|L].
    + destruct (Nat.ltb_spec cnt s); [lia|]. rewrite andb_false_r. rewrite filter_none; [reflexivity|].
      intros [p d] HI. apply in_combine_l in HI. apply in_seq in HI. cbn [fst]. unfold wanted.
      destruct (Nat.ltb_spec p s); [lia|]. rewrite andb_false_r. reflexivity.
    + rewrite STEP. destruct (Nat.ltb_spec cnt s); [|lia]. rewrite andb_true_r.
      destruct (cnt =? next); reflexivity.
  - rewrite STEP. rewrite andb_true_r. destruct (cnt =? next); reflexivity.
Qed.

(** ** Slices *)

Lemma slice_count_nonneg : forall start stop step, step <> 0%Z -> (0 <= slice_count start stop step)%Z.
Proof.
  intros start stop step H. unfold slice_count.
  destruct (Z.ltb_spec step 0); [destruct (Z.ltb_spec stop start)|destruct (Z.ltb_spec start stop)]; try lia; nia.
Qed.

Lemma slice_positions_In : forall start stop step z, step <> 0%Z ->
  In z (slice_positions start stop step) <->
  exists k, (0 <= k)%Z /\ z = (start + k * step)%Z /\ (if (0 <? step)%Z then (z < stop)%Z else (stop < z)%Z).
Proof.
  intros start stop step z NZ. unfold slice_positions. rewrite in_map_iff.
  assert (C : forall k, (0 <= k)%Z -> ((k < slice_count start stop step)%Z <->
            (if (0 <? step)%Z then (start + k * step < stop)%Z else (stop < start + k * step)%Z))).
  { intros k Hk. unfold slice_count. destruct (Z.ltb_spec step 0); destruct (Z.ltb_spec 0 step); try lia.
    - destruct (Z.ltb_spec stop start); [|split; nia].
      pose proof (Z.div_mod (start - stop - 1) (- step)). pose proof (Z.mod_pos_bound (start - stop - 1) (- step)).
      set (q := ((start - stop - 1) / - step)%Z) in *. split; intros; nia.
    - destruct (Z.ltb_spec start stop); [|split; nia].
      pose proof (Z.div_mod (stop - start - 1) step). pose proof (Z.mod_pos_bound (stop - start - 1) step).
      set (q := ((stop - start - 1) / step)%Z) in *. split; intros; nia. }
  split.
  - intros (k & <- & HI). apply in_seq in HI. exists (Z.of_nat k). split; [lia|]. split; [reflexivity|].
    apply C; lia.
  - intros (k & Hk & -> & X). exists (Z.to_nat k). rewrite Z2Nat.id by lia. split; [reflexivity|].
    apply in_seq. apply C in X; lia.
Qed.

Lemma map_seq_sorted : forall (R : Z -> Z -> Prop) (f : nat -> Z) n a, (forall i j, i < j -> R (f i) (f j)) ->
  StronglySorted R (map f (seq a n)).
Proof.
  induction n as [|n IH]; intros a H; cbn [seq map]; constructor; auto.
  apply Forall_forall. intros z HI. apply in_map_iff in HI. destruct HI as (j & <- & HI). apply in_seq in HI. apply H; lia.
Qed.

Lemma slice_positions_sorted : forall start stop step, step <> 0%Z ->
  StronglySorted (fun a b => if (0 <? step)%Z then (a < b)%Z else (b < a)%Z) (slice_positions start stop step).
Proof.
  intros start stop step NZ. unfold slice_positions. apply map_seq_sorted. intros i j Hij.
  destruct (Z.ltb_spec 0 step); nia.
Qed.

Lemma slice_indices_range : forall s n start stop step, slice_indices s n = Ok (start, stop, step) ->
  step <> 0%Z /\
  (if (0 <? step)%Z then (0 <= start <= Z.of_nat n /\ 0 <= stop <= Z.of_nat n)%Z
   else (-1 <= start <= Z.of_nat n - 1 /\ -1 <= stop <= Z.of_nat n - 1)%Z).
Proof.
  intros s n start stop step E. unfold slice_indices in E.
  destruct (Z.eqb_spec (slice_step s) 0) as [|NZ]; [discriminate|].
  set (st := slice_step s) in *.
  assert (ADJ : forall v, if (0 <? st)%Z then (0 <= adjust (Z.of_nat n) st v <= Z.of_nat n)%Z
                          else (-1 <= adjust (Z.of_nat n) st v <= Z.of_nat n - 1)%Z).
  { intros v. unfold adjust. destruct (Z.ltb_spec 0 st); destruct (Z.ltb_spec v 0); destruct (Z.ltb_spec (v + Z.of_nat n) 0);
      destruct (Z.leb_spec (Z.of_nat n) v); destruct (Z.ltb_spec st 0); cbv zeta; lia. }
  assert (EE : step = st /\ start = match sl_start s with Some v => adjust (Z.of_nat n) st v | None => if (st <? 0)%Z then (Z.of_nat n - 1)%Z else 0%Z end
    /\ stop = match sl_stop s with Some v => adjust (Z.of_nat n) st v | None => if (st <? 0)%Z then (-1)%Z else Z.of_nat n end).
  { inversion E; auto. }
  destruct EE as (-> & -> & ->). split; [auto|].
  destruct (sl_start s) as [v|], (sl_stop s) as [v'|];
    try pose proof (ADJ v); try pose proof (ADJ v'); destruct (Z.ltb_spec 0 st); destruct (Z.ltb_spec st 0); lia.
Qed.

Lemma rmapM_nth_ok : forall {A} (l : list A) ps, (forall z, In z ps -> (0 <= z < Z.of_nat (length l))%Z) ->
  exists docs, rmapM (nth_z l) ps = Ok docs /\ map Some docs = map (fun z => nth_error l (Z.to_nat z)) ps.
Proof.
  intros A l ps. induction ps as [|z ps IH]; intros H; [exists []; auto|].
  destruct IH as (docs & E1 & E2); [intros; apply H; simpl; auto|].
  assert (Hz : (0 <= z < Z.of_nat (length l))%Z) by (apply H; simpl; auto).
  cbn [rmapM map]. unfold nth_z at 1. destruct (Z.ltb_spec z 0); [lia|].
  destruct (nth_error l (Z.to_nat z)) as [d|] eqn:EN; [|apply nth_error_None in EN; lia].
  cbn [of_option rbind]. rewrite E1. cbn [rbind]. exists (d :: docs). cbn [map]. rewrite E2. auto.
Qed.

Lemma length_slice_positions : forall start stop step, length (slice_positions start stop step) = Z.to_nat (slice_count start stop step).
Proof. intros. unfold slice_positions. rewrite map_length, seq_length. reflexivity. Qed.

Lemma reported_iff : forall start stop step, step <> 0%Z ->
  let diff := (stop - start)%Z in
  let rep := (diff / step + (if 0 <? diff mod step then 1 else 0))%Z in
  (rep = slice_count start stop step <->
   ((0 < step)%Z /\ (- step < diff)%Z) \/ ((step < 0)%Z /\ (diff <= 0)%Z /\ exists q, diff = (q * step)%Z)).
Proof.
  intros start stop step NZ. cbv zeta. set (diff := (stop - start)%Z).
  pose proof (Z.div_mod diff step NZ) as DM. unfold slice_count.
  destruct (Z.ltb_spec step 0) as [NS|PS].
  - pose proof (Z.mod_neg_bound diff step NS) as MB. destruct (Z.ltb_spec 0 (diff mod step)); [lia|].
    set (q := (diff / step)%Z) in *. set (r := (diff mod step)%Z) in *.
    destruct (Z.ltb_spec stop start).
    + assert (X : (start - stop - 1 = (- diff) - 1)%Z) by (unfold diff; lia). rewrite X. clear X.
      pose proof (Z.div_mod (- diff - 1) (- step)) as DM2. pose proof (Z.mod_pos_bound (- diff - 1) (- step)) as MB2.
      set (q2 := ((- diff - 1) / (- step))%Z) in *. set (r2 := ((- diff - 1) mod (- step))%Z) in *.
      split.
      * intros E. right. split; [lia|]. split; [lia|]. exists q.
        assert (r = 0)%Z; [|lia]. assert (q2 = q - 1)%Z by lia. subst q2. nia.
      * intros [[? ?]|(_ & _ & k & Hk)]; [lia|].
        assert (q = k) by nia. assert (r = 0)%Z by nia. nia.
    + split.
      * intros E. right. split; [lia|]. assert (q = 0)%Z by lia. assert (diff = r)%Z by nia.
        assert (diff = 0)%Z by lia. split; [lia|]. exists 0%Z. lia.
      * intros [[? ?]|(_ & L & k & Hk)]; [lia|]. assert (diff = 0)%Z by lia. nia.
  - assert (0 < step)%Z as P by lia. pose proof (Z.mod_pos_bound diff step P) as MB.
    set (q := (diff / step)%Z) in *. set (r := (diff mod step)%Z) in *.
    destruct (Z.ltb_spec start stop).
    + split; [intros _; left; lia|]. intros _.
      assert (X : (stop - start - 1 = diff - 1)%Z) by (unfold diff; lia). rewrite X. clear X.
      pose proof (Z.div_mod (diff - 1) step) as DM2. pose proof (Z.mod_pos_bound (diff - 1) step) as MB2.
      set (q2 := ((diff - 1) / step)%Z) in *. set (r2 := ((diff - 1) mod step)%Z) in *.
      destruct (Z.ltb_spec 0 r); nia.
    + split.
      * intros E. left. split; [lia|]. destruct (Z.ltb_spec 0 r); nia.
      * intros [[_ L]|(? & _)]; [|lia]. destruct (Z.ltb_spec 0 r); nia.
Qed.

(** ** Pruning *)

Lemma prune_fold : forall min_reduce rule l1 l2 r, NoDup (dkeys (l1 ++ l2)) ->
  rfold (prune_step min_reduce rule) (dkeys l2) (l1 ++ l2, r) =
  Ok (l1 ++ filter (fun it => keep_vocab_item (fst it) (snd it) min_reduce rule) l2,
      r + list_sum_nat (map snd (filter (fun it => negb (keep_vocab_item (fst it) (snd it) min_reduce rule)) l2))).
Proof.
  intros min_reduce rule l1 l2. revert l1. induction l2 as [|[w c] l2 IH]; intros l1 r ND.
  - cbn. rewrite Nat.add_0_r. reflexivity.
  - change (dkeys ((w, c) :: l2)) with (w :: dkeys l2). cbn [rfold]. unfold prune_step at 1.
    assert (NI : ~ In w (dkeys l1)).
    { unfold dkeys in *. rewrite map_app in ND. cbn [map fst] in ND. apply NoDup_remove_2 in ND.
      intros X; apply ND, in_app_iff; auto. }
    assert (G : dget (l1 ++ (w, c) :: l2) w = Some c).
    { rewrite dget_app. apply dget_None in NI. rewrite NI. cbn [dget]. destruct (eq_dec w w); congruence. }
    rewrite G. cbn [of_option rbind filter fst snd].
    destruct (keep_vocab_item w c min_reduce rule) eqn:K; cbn [negb].
    + replace (l1 ++ (w, c) :: l2) with ((l1 ++ [(w, c)]) ++ l2) in * by (rewrite <- app_assoc; reflexivity).
      cbn [rbind]. rewrite IH by exact ND. rewrite <- app_assoc. reflexivity.
    + assert (D : ddel (l1 ++ (w, c) :: l2) w = l1 ++ l2).
      { clear - NI. induction l1 as [|[k v] l1 IH]; cbn [app ddel].
        - destruct (eq_dec w w); congruence.
        - destruct (eq_dec k w); [subst; simpl in NI; tauto|]. rewrite IH; auto. simpl in NI; tauto. }
      rewrite D. cbn [rbind]. rewrite IH.
      * cbn [map snd list_sum_nat fold_right]. f_equal. f_equal. change (fold_right Nat.add 0) with list_sum_nat. lia.
      * unfold dkeys in *. rewrite map_app in *. cbn [map fst] in ND. apply NoDup_remove_1 in ND. exact ND.
Qed.

Lemma prune_vocab_eq : forall vocab min_reduce rule, NoDup (dkeys vocab) ->
  prune_vocab vocab min_reduce rule =
  Ok (filter (fun it => keep_vocab_item (fst it) (snd it) min_reduce rule) vocab,
      list_sum_nat (map snd (filter (fun it => negb (keep_vocab_item (fst it) (snd it) min_reduce rule)) vocab))).
Proof. intros vocab min_reduce rule ND. unfold prune_vocab. exact (prune_fold min_reduce rule [] vocab 0 ND). Qed.

Lemma sum_filter_split : forall {A} (f : A -> bool) (g : A -> nat) l,
  list_sum_nat (map g (filter f l)) + list_sum_nat (map g (filter (fun x => negb (f x)) l)) = list_sum_nat (map g l).
Proof.
  induction l as [|x l IH]; [reflexivity|]. cbn [filter map]. destruct (f x); cbn [negb map list_sum_nat fold_right] in *;
    change (fold_right Nat.add 0) with list_sum_nat in *; lia.
Qed.

Lemma filter_len_le : forall {A} (f : A -> bool) l, length (filter f l) <= length l.
Proof. induction l as [|x l IH]; cbn [filter length]; [lia|]. destruct (f x); cbn [length]; lia. Qed.

(** The last of the [k] largest: fewer than [k] values are larger, at least [k] are as large. *)
Lemma sorted_desc_filter : forall (s : list nat) k m rest, StronglySorted (fun a b => b <= a) s ->
  rev (firstn k s) = m :: rest ->
  length (filter (fun v => m <? v) s) < k /\ Nat.min k (length s) <= length (filter (fun v => m <=? v) s) /\ In m s.
Proof.
  intros s k m rest S E.
  assert (F : firstn k s = rev rest ++ [m]) by (rewrite <- (rev_involutive (firstn k s)), E; reflexivity).
  pose proof (firstn_skipn k s) as FS. rewrite F in FS. rewrite <- FS in S |- *.
  apply StronglySorted_app_inv in S. destruct S as (S1 & S2 & S3).
  apply StronglySorted_app_inv in S1. destruct S1 as (S4 & _ & S5).
  assert (L : length (firstn k s) = length rest + 1) by (rewrite F, app_length, rev_length; reflexivity).
  rewrite firstn_length in L.
  assert (Z : filter (fun v => m <? v) (skipn k s) = []).
  { apply filter_none. intros v Hv. apply Nat.ltb_ge. apply S3; auto. apply in_app_iff; simpl; auto. }
  rewrite !filter_app. cbn [filter]. rewrite Nat.ltb_irrefl, Nat.leb_refl, Z, app_nil_r, app_nil_r.
  assert (FA : filter (fun v => m <=? v) (rev rest) = rev rest).
  { clear - S5. assert (forall v, In v (rev rest) -> m <= v) by (intros; apply S5; simpl; auto).
    induction (rev rest) as [|v l IH]; cbn [filter]; [reflexivity|]. destruct (Nat.leb_spec m v).
    - f_equal. apply IH; intros; [apply S5; simpl in *; auto | apply H; simpl; auto].
    - specialize (H v). simpl in H. lia. }
  split; [|split].
  - pose proof (filter_len_le (fun v => m <? v) (rev rest)). rewrite rev_length in H. lia.
  - rewrite FA, !app_length, rev_length. cbn [length]. pose proof (skipn_length k s). lia.
  - apply in_app_iff; left; apply in_app_iff; simpl; auto.
Qed.

Lemma nlargest_last : forall (l : list nat) k m rest, rev (nlargest k l) = m :: rest ->
  length (filter (fun v => m <? v) l) < Z.to_nat k /\ Nat.min (Z.to_nat k) (length l) <= length (filter (fun v => m <=? v) l) /\ In m l.
Proof.
  intros l k m rest E. unfold nlargest in E.
  assert (S : StronglySorted (fun a b => b <= a) (isort (fun a b => b <=? a) l)).
  { pose proof (isort_StronglySorted (fun a b : nat => b <=? a)) as X.
    assert (Q : StronglySorted (fun a b => (b <=? a) = true) (isort (fun a b => b <=? a) l)).
    { apply X; intros; [lia | rewrite Nat.leb_le in *; lia]. }
    clear - Q. induction Q; constructor; auto. eapply Forall_impl; [|exact H]. intros b Hb. apply Nat.leb_le; exact Hb. }
  destruct (sorted_desc_filter _ _ _ _ S E) as (A & B & C).
  assert (P := Permutation_isort (fun a b : nat => b <=? a) l).
  rewrite (Permutation_length (Permutation_filter (fun v => m <? v) _ _ P)).
  rewrite (Permutation_length (Permutation_filter (fun v => m <=? v) _ _ P)).
  rewrite (Permutation_length P). split; [exact A|]. split; [exact B|]. eapply Permutation_in; [apply Permutation_sym; exact P | exact C].
Qed.

Lemma nlargest_nonempty : forall (l : list nat) k, l <> [] -> (1 <= k)%Z -> rev (nlargest k l) <> [].
Proof.
  intros l k NE Hk E. apply (f_equal (@length nat)) in E. rewrite rev_length in E. unfold nlargest in E.
  rewrite firstn_length, length_isort in E. destruct l; [congruence|]. cbn [length] in E. lia.
Qed.

Lemma merge_counts_get : forall (d2 d1 : dict pystr nat) w, NoDup (dkeys d2) ->
  dget (merge_counts d1 d2) w =
  match dget d2 w with None => dget d1 w | Some f => Some (dget_or d1 w 0 + f) end.
Proof.
  induction d2 as [|[k f] d2 IH]; intros d1 w ND; [reflexivity|].
  unfold merge_counts in *. cbn [fold_left]. change (dkeys ((k, f) :: d2)) with (k :: dkeys d2) in ND. inversion ND; subst.
  rewrite IH by auto. cbn [dget]. destruct (eq_dec k w) as [->|NE].
  - apply dget_None in H1. rewrite H1. unfold dget_or. destruct (dget d1 w); rewrite dget_dset_same; f_equal; lia.
  - unfold dget_or. destruct (dget d1 k); rewrite dget_dset_other by auto; reflexivity.
Qed.

(** ** Windows *)

Lemma nth_error_slice : forall {A} (doc : list A) i w, i + w <= length doc ->
  map (fun j => nth_error doc (i + j)) (seq 0 w) = map Some (firstn w (skipn i doc)).
Proof.
  intros A doc i w. revert doc i. induction w as [|w IH]; intros doc i H; [reflexivity|].
  assert (E : exists x, nth_error doc i = Some x).
  { destruct (nth_error doc i) eqn:E; [eauto|]. apply nth_error_None in E. lia. }
  destruct E as [x E]. assert (S : skipn i doc = x :: skipn (S i) doc).
  { clear - E. revert doc E. induction i as [|i IHi]; intros [|y doc] E; cbn in *; try discriminate; [congruence|]. apply IHi; auto. }
  rewrite S. cbn [seq map firstn]. rewrite Nat.add_0_r, E. f_equal.
  rewrite <- IH by lia. rewrite <- seq_shift, map_map. apply map_ext. intros j. f_equal. lia.
Qed.

(** ** flatten *)

Lemma fold_max_le : forall {W} (rest : list (Z * W)) i, (i <= fold_left (fun m e => Z.max m (fst e)) rest i)%Z
  /\ (forall e, In e rest -> (fst e <= fold_left (fun m e => Z.max m (fst e)) rest i)%Z)
  /\ (fold_left (fun m e => Z.max m (fst e)) rest i = i \/ exists e, In e rest /\ fst e = fold_left (fun m e => Z.max m (fst e)) rest i).
Proof.
  induction rest as [|e rest IH]; intros i; cbn [fold_left]; [split; [lia|split; [intros e []|auto]]|].
  destruct (IH (Z.max i (fst e))) as (A & B & C). split; [lia|]. split.
  - intros x [<-|HI]; [lia | auto].
  - destruct C as [C|(x & HI & C)]; [|right; exists x; simpl; auto].
    destruct (Z.max_spec i (fst e)) as [[? M]|[? M]]; rewrite M in *; [right; exists e; simpl; split; auto | left; auto].
Qed.

Lemma get_max_id_fold : forall {W} (corpus : list (list (Z * W))) m,
  let r := fold_left (fun maxid document =>
    match document with
    | [] => maxid
    | (i, _) :: rest => Z.max maxid (fold_left (fun m e => Z.max m (fst e)) rest i)
    end) corpus m in
  (m <= r)%Z /\ (forall doc e, In doc corpus -> In e doc -> (fst e <= r)%Z) /\
  (r = m \/ exists doc e, In doc corpus /\ In e doc /\ fst e = r).
Proof.
  intros W. induction corpus as [|doc corpus IH]; intros m; cbv zeta; cbn [fold_left]; [split; [lia|split; [intros ? ? []|auto]]|].
  destruct doc as [|[i v] rest].
  - destruct (IH m) as (A & B & C). split; [exact A|]. split.
    + intros doc e [<-|HI] He; [destruct He | eapply B; eauto].
    + destruct C as [C|(d & e & H1 & H2 & H3)]; [auto | right; exists d, e; simpl; auto].
  - destruct (fold_max_le rest i) as (F1 & F2 & F3).
    set (mx := fold_left (fun m e => Z.max m (fst e)) rest i) in *.
    destruct (IH (Z.max m mx)) as (A & B & C). split; [lia|]. split.
    + intros doc e [<-|HI] He; [|eapply B; eauto]. destruct He as [<-|He]; [cbn [fst]; lia|]. specialize (F2 e He). lia.
    + destruct C as [C|(d & e & H1 & H2 & H3)]; [|right; exists d, e; simpl; auto].
      destruct (Z.max_spec m mx) as [[? M]|[? M]]; rewrite M in *; [right | left; exact C].
      destruct F3 as [F3|(e & HI & F3)]; [exists ((i, v) :: rest), (i, v) | exists ((i, v) :: rest), e]; simpl; split; auto; split; auto;
        rewrite C; auto.
Qed.
