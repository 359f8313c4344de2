(** C103: random projections *)
From Coq Require Import Reals Lra Sorted.
From Verif Require Import Base Utils_Model Utils_Properties MatReal_Model MatReal_Proofs Matutils_Model Matutils_Proofs2 Rp_Model Rp_Spec Rp_Proofs.
Local Open Scope R_scope.

(** A document becomes its coordinates along the rows of signs, in the order of the topics, without those that are almost zero. *)
Theorem projection_exact : forall id2word corpus k draws d, let m := new_rp id2word corpus k draws in In draws (all_draws k (r_terms m)) -> document (r_terms m) d ->
  exists r, rp_get m d = Ok r /\ StronglySorted lt (map fst r) /\
    forall i v, In (i, v) r <-> (exists row, nth_error draws i = Some row /\ v = along row k d) /\ 1 / 100000000 < Rabs v.
Proof.
  intros id2word corpus k draws d m I D. unfold rp_get. pose proof (full_ok _ d D) as E. rewrite E. cbn [rbind]. set (v := rwrites _ _) in E |- *. apply draws_spec in I as (L & F). cbn [m new_rp r_topics r_projection] in *.
  assert (C : map (fun row => rdot row (map (fun x => x / sqrt (INR k)) v)) (projection draws) = map (fun row => along row k d) draws).
  { unfold projection. rewrite map_map. apply map_ext_in. intros row I. rewrite Forall_forall in F. destruct (F row I) as (R1 & R2). apply (coordinate (r_terms m)); assumption. }
  rewrite C, map_length. eexists. split; [reflexivity|]. split.
  - generalize (fun row => along row k d) as f. intros f. clear. generalize 0%nat as s. induction draws as [|row draws IH]; intros s; cbn [map length seq combine filter]; [constructor|]. destruct (visible (snd (s, f row))); [|apply IH]. cbn [map fst]. constructor; [apply IH|]. apply Forall_forall. intros j J. apply in_map_iff in J as ([j' v'] & <- & J). apply filter_In in J as (J & _). apply in_combine_l, in_seq in J. cbn [fst]. lia.
  - intros i w. rewrite filter_In. unfold visible. cbn [snd]. assert (V : (if Rle_dec (Rabs w) tiny then false else true) = true <-> 1 / 100000000 < Rabs w) by (unfold tiny; destruct (Rle_dec (Rabs w) (1 / 100000000)); split; intros H; try lra; try discriminate H; reflexivity). rewrite V.
    assert (G : In (i, w) (combine (seq 0 (length draws)) (map (fun row => along row k d) draws)) <-> exists row, nth_error draws i = Some row /\ w = along row k d); [|rewrite G; reflexivity].
    assert (G : forall s, In (i, w) (combine (seq s (length draws)) (map (fun row => along row k d) draws)) <-> (s <= i)%nat /\ exists row, nth_error draws (i - s) = Some row /\ w = along row k d); [|rewrite G, Nat.sub_0_r; split; [intros (_ & H); exact H | intros H; split; [lia | exact H]]].
    clear -d k. induction draws as [|row draws IH]; intros s; cbn [map length seq combine].
    + split; [intros [] | intros (_ & row & H & _); destruct (i - s)%nat; discriminate H].
    + split.
      * intros [H|H]; [injection H as <- <-; split; [lia|]; exists row; rewrite Nat.sub_diag; split; reflexivity|]. apply IH in H as (H & r & H1 & H2). split; [lia|]. exists r. replace (i - s)%nat with (S (i - S s)) by lia. split; assumption.
      * intros (H & r & H1 & H2). destruct (Nat.eq_dec s i) as [->|NE]; [rewrite Nat.sub_diag in H1; injection H1 as <-; left; congruence|]. right. apply IH. split; [lia|]. exists r. replace (i - s)%nat with (S (i - S s)) in H1 by lia. split; assumption.
Qed.

Lemma max_in : forall ks k x, In x (k :: ks) -> (x <= fold_left Z.max ks k)%Z.
Proof.
  assert (M : forall ks k, (k <= fold_left Z.max ks k)%Z) by (induction ks as [|y ks IH]; intros k; cbn [fold_left]; [lia|]; specialize (IH (Z.max k y)); lia).
  induction ks as [|y ks IH]; intros k x I; cbn [fold_left]; [destruct I as [<-|[]]; lia|]. destruct I as [<-|[<-|I]]; [specialize (M ks (Z.max k y)); lia | specialize (M ks (Z.max k y)); lia | apply IH; right; exact I].
Qed.
(** The documents of the corpus (without a mapping) and those over the ids of the mapping can be projected. *)
Theorem trained_projectable : forall id2word corpus k draws d, NoDup (map fst d) -> Forall (fun iv => 0 <= fst iv)%Z d ->
  match id2word with None => In d corpus | Some ids => incl (map fst d) ids end -> document (r_terms (new_rp id2word corpus k draws)) d.
Proof.
  intros id2word corpus k draws d ND F H. split; [exact ND|]. apply Forall_forall. intros [i v] I. pose proof F as F0. rewrite Forall_forall in F0. specialize (F0 _ I). cbn [fst] in *. cbn [new_rp r_terms]. unfold num_terms.
  destruct id2word as [[|key ks]|].
  - exfalso. apply (H i). apply in_map_iff. exists (i, v). split; [reflexivity | exact I].
  - assert (J : In i (key :: ks)) by (apply H, in_map_iff; exists (i, v); split; [reflexivity | exact I]). apply max_in in J. lia.
  - destruct (get_max_id_exact corpus) as (A & _ & _). specialize (A d i v H I). unfold dict_from_corpus. lia.
Qed.

Lemma rows_nodup : forall n, NoDup (all_rows n).
Proof.
  assert (M : forall b (l : list (list nat)), NoDup l -> NoDup (map (cons b) l)) by (intros b l N1; apply FinFun.Injective_map_NoDup; [intros x y E; injection E as E; exact E | exact N1]).
  assert (AP : forall {A} (a b : list A), NoDup a -> NoDup b -> (forall x, In x a -> ~ In x b) -> NoDup (a ++ b)).
  { intros A a b Na Nb H. induction Na as [|x a NI Na IH]; [exact Nb|]. cbn [app]. constructor; [rewrite in_app_iff; intros [K|K]; [exact (NI K) | exact (H x (or_introl eq_refl) K)] | apply IH; intros y I; apply H; right; exact I]. }
  induction n as [|n IH]; cbn [all_rows]; [constructor; [intros [] | constructor]|]. apply AP; try (apply M, IH). intros x I J. apply in_map_iff in I as (a & <- & _). apply in_map_iff in J as (b & E & _). discriminate E.
Qed.
(** The draws: each matrix of zeros and ones exactly once. *)
Theorem rp_draws_all : forall k n, NoDup (all_draws k n) /\ length (all_draws k n) = (2 ^ (k * n))%nat /\
  forall ds, In ds (all_draws k n) <-> length ds = k /\ Forall (fun row => length row = n /\ Forall (fun b => b = 0%nat \/ b = 1%nat) row) ds.
Proof.
  intros k n. split; [|split; [apply draws_length|]].
  - induction k as [|k IH]; cbn [all_draws]; [constructor; [intros [] | constructor]|]. pose proof (rows_nodup n) as NR. induction NR as [|r l NI NR IHl]; cbn [map concat]; [constructor|].
    assert (AP : forall {A} (a b : list A), NoDup a -> NoDup b -> (forall x, In x a -> ~ In x b) -> NoDup (a ++ b)).
    { clear. intros A a b Na Nb H. induction Na as [|x a NI Na IH]; [exact Nb|]. cbn [app]. constructor; [rewrite in_app_iff; intros [K|K]; [exact (NI K) | exact (H x (or_introl eq_refl) K)] | apply IH; intros y I; apply H; right; exact I]. }
    apply AP; [apply FinFun.Injective_map_NoDup; [intros x y E; injection E as E; exact E | exact IH] | exact IHl|]. intros x I J. apply in_map_iff in I as (m & <- & _). apply in_concat in J as (q & Q & J). apply in_map_iff in Q as (r' & <- & Q). apply in_map_iff in J as (m' & E & _). injection E as E _. subst r'. contradiction.
  - intros ds. rewrite draws_spec. split; intros (L & F); (split; [exact L|]); eapply Forall_impl; try exact F; intros row (L1 & F1); (split; [exact L1|]); eapply Forall_impl; try exact F1; cbn; intros b B; lia.
Qed.
(** Over all draws, inner products of projected documents are on average those of the documents. *)
Theorem inner_products_kept : forall k n d e, (1 <= k)%nat -> document n d -> document n e ->
  total (map (fun ds => total (map (fun row => along row k d * along row k e) ds)) (all_draws k n)) = INR (length (all_draws k n)) * inner d e n.
Proof.
  intros k n d e K D E. assert (KP : 0 < INR k) by (apply lt_0_INR; lia). rewrite draws_mean. rewrite (total_map_ext _ (fun row => / INR k * (sdot row (values n d) * sdot row (values n e)))).
  - rewrite total_map_scal, rows_mean by (unfold values; rewrite map_length, seq_length; reflexivity). rewrite idot_values, draws_length, pow_INR. replace (INR 2) with 2 by (cbn; lra). rewrite (Nat.mul_comm k n), pow_mult.
    destruct k as [|k]; [lia|]. cbn [pred]. rewrite <- tech_pow_Rmult. field. lra.
  - intros row I. apply rows_spec in I as (L & _). rewrite (along_sdot n k d row D L), (along_sdot n k e row E L). unfold Rdiv. assert (S2 : / sqrt (INR k) * / sqrt (INR k) = / INR k) by (rewrite <- Rinv_mult, sqrt_sqrt by lra; reflexivity).
    rewrite <- S2. ring.
Qed.
(** So are squared distances. *)
Theorem distances_kept : forall k n d e, (1 <= k)%nat -> document n d -> document n e ->
  total (map (fun ds => total (map (fun row => sq (along row k d - along row k e)) ds)) (all_draws k n)) = INR (length (all_draws k n)) * total (map (fun j => sq (value d j - value e j)) (seq 0 n)).
Proof.
  intros k n d e K D E. pose proof (inner_products_kept k n d d K D D) as I1. pose proof (inner_products_kept k n d e K D E) as I2. pose proof (inner_products_kept k n e e K E E) as I3.
  rewrite (total_map_ext _ (fun ds => (total (map (fun row => along row k d * along row k d) ds) + -2 * total (map (fun row => along row k d * along row k e) ds)) + total (map (fun row => along row k e * along row k e) ds))).
  2:{ intros ds _. rewrite <- total_map_scal, <- !total_map_plus. apply total_map_ext. intros row _. unfold sq. ring. }
  rewrite !total_map_plus, total_map_scal, I1, I2, I3. unfold inner. rewrite (total_map_ext (fun j => sq (value d j - value e j)) (fun j => (value d j * value d j + -2 * (value d j * value e j)) + value e j * value e j)) by (intros j _; unfold sq; ring).
  rewrite !total_map_plus, total_map_scal. ring.
Qed.
Print Assumptions projection_exact.
Print Assumptions trained_projectable.
Print Assumptions rp_draws_all.
Print Assumptions inner_products_kept.
Print Assumptions distances_kept.

(** One topic, two terms *)
Definition corpus1 : list rbow := [[(0%Z, 2); (1%Z, 5)]].
Example projection_example : rp_get (new_rp None corpus1 1 [[0%nat; 1%nat]]) [(0%Z, 2); (1%Z, 5)] = Ok [(0%nat, -3)].
Proof.
  assert (D : document (r_terms (new_rp None corpus1 1 [[0%nat; 1%nat]])) [(0%Z, 2); (1%Z, 5)]) by (apply (trained_projectable None); [repeat constructor; cbn; intuition discriminate | repeat constructor; cbn; lia | left; reflexivity]).
  destruct (projection_exact None corpus1 1 [[0%nat; 1%nat]] [(0%Z, 2); (1%Z, 5)]) as (r & E & SO & H); [right; left; reflexivity || (vm_compute; auto) | exact D|]. rewrite E. f_equal.
  assert (A : along [0%nat; 1%nat] 1 [(0%Z, 2); (1%Z, 5)] = -3) by (unfold along; cbn [map total fst snd]; change (Z.to_nat 1) with 1%nat; change (Z.to_nat 0) with 0%nat; cbn [nth sign INR]; rewrite sqrt_1; lra).
  assert (I : In (0%nat, -3) r) by (apply H; split; [exists [0%nat; 1%nat]; split; [reflexivity | symmetry; exact A]|]; rewrite Rabs_left by lra; lra).
  assert (U : forall i v, In (i, v) r -> i = 0%nat /\ v = -3) by (intros i v J; apply H in J as ((row & R1 & R2) & _); destruct i as [|[|i]]; cbn in R1; try discriminate R1; injection R1 as <-; split; [reflexivity | congruence]).
  destruct r as [|[i v] [|[i' v'] r]]; [destruct I| |].
  - destruct (U i v (or_introl eq_refl)) as (-> & ->). reflexivity.
  - exfalso. destruct (U i v (or_introl eq_refl)) as (-> & _). destruct (U i' v' (or_intror (or_introl eq_refl))) as (-> & _). cbn [map fst] in SO. inversion SO as [|? ? _ F]; subst. inversion F; subst. lia.
Qed.

(** A document with an id beyond those of the training raises. *)
Theorem unknown_id_refuted : exists d, document 3 d /\ rp_get (new_rp None corpus1 1 [[0%nat; 1%nat]]) d = Err IndexError.
Proof. exists [(2%Z, 1)]. split; [split; repeat constructor; cbn; try lia; intros []|]. reflexivity. Qed.
(** Of a repeated id only the last entry counts. *)
Theorem repeated_id_refuted : exists witness, witness = [(0%Z, 1); (1%Z, 7); (0%Z, 4)] /\ (full_of witness 2 = Ok [4; 7]).
Proof. exists [(0%Z, 1); (1%Z, 7); (0%Z, 4)]. split; [reflexivity|]. reflexivity. Qed.
(** Scaling a document down far enough makes it vanish. *)
Theorem small_document_refuted : exists d, document 1 d /\ value d 0 <> 0 /\ rp_get (new_rp (Some [0%Z]) [] 1 [[0%nat]]) d = Ok [].
Proof.
  exists [(0%Z, 1 / 1000000000)]. split; [split; repeat constructor; cbn; try lia; intros []|]. split; [unfold value; cbn; lra|]. assert (D : document (r_terms (new_rp (Some [0%Z]) [] 1 [[0%nat]])) [(0%Z, 1 / 1000000000)]) by (split; repeat constructor; cbn; try lia; intros []).
  destruct (projection_exact (Some [0%Z]) [] 1 [[0%nat]] [(0%Z, 1 / 1000000000)]) as (r & E & _ & H); [left; reflexivity | exact D|]. rewrite E. f_equal. destruct r as [|[i v] r]; [reflexivity|]. exfalso. destruct (H i v) as (H1 & _). destruct (H1 (or_introl eq_refl)) as ((row & R1 & R2) & R3).
  destruct i as [|i]; [|destruct i; discriminate R1]. injection R1 as <-. subst v. unfold along in R3. cbn in R3. rewrite sqrt_1 in R3. rewrite Rabs_right in R3; lra.
Qed.
Print Assumptions unknown_id_refuted.
Print Assumptions repeated_id_refuted.
Print Assumptions small_document_refuted.
