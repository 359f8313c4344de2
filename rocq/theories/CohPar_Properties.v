(** * C73: parallel and inverted-index accumulators of topic coherence *)
From Coq Require Import List Bool Arith Lia ZifyBool Permutation.
From Verif Require Import Base Str Utils_Model Utils_Properties CohAccum_Model CohAccum_Spec CohAccum_Proofs CohPar_Proofs CohAccum_Properties.

(** ** C73a: the parallel accumulator gives the serial counts *)

Lemma sumf_total {A} w f (bs : list (list (list A))) : sumf (total w f) bs = total w f (concat bs).
Proof. induction bs as [|b bs IH]; [reflexivity|]. rewrite sumf_cons, IH. cbn [concat]. now rewrite total_app. Qed.

Lemma Forall_concat {A} (P : A -> Prop) bs : Forall P (concat bs) -> Forall (Forall P) bs.
Proof.
  induction bs as [|b bs IH]; intros H; [constructor|]. cbn [concat] in H. apply Forall_app in H. destruct H. constructor; auto.
Qed.

Lemma par_val v w n val cost bsz arrays s : 1 <= w -> 1 <= n -> Forall (good_text v) arrays ->
  (forall s b s', wf v s -> good_batch v b -> partial_accumulate s b w = Ok s' -> val s' = val s + cost b) ->
  val (occ_init v) = 0 ->
  (forall a b, wf v a -> wf v b -> val (merge a b) = val a + val b) ->
  (forall bs, sumf cost bs = cost (concat bs)) ->
  steps (par_step n w) (par_init n v (yield_batches bsz arrays)) s -> par_done s ->
  wf v (fold_left merge (output_q s) (occ_init v)) /\ val (fold_left merge (output_q s) (occ_init v)) = cost arrays.
Proof.
  intros Hw Hn HG H1 H2 H3 H4 HS HD.
  assert (EC : concat (yield_batches bsz arrays) = arrays) by apply (batches_concat bsz arrays []).
  apply (done_val v w n Hw Hn val cost H1 H2 H3 (cost arrays)).
  - eapply (steps_inv v w n Hw Hn val cost H1 H2 H3 (cost arrays)); [|exact HS].
    eapply init_inv; eauto.
    + apply Forall_concat. now rewrite EC.
    + now rewrite H4, EC.
  - exact HD.
Qed.

Lemma merge_occs v x a b : wf v a -> wf v b -> x < v -> occs (merge a b) x = occs a x + occs b x.
Proof.
  intros [A1 _] [B1 _] Hx. unfold occs. cbn [merge occ].
  pose proof (map_nth (fun ab : nat * nat => fst ab + snd ab) (combine (occ a) (occ b)) (0, 0) x) as Q. cbn [fst snd Nat.add] in Q.
  rewrite Q, combine_nth by lia. reflexivity.
Qed.

(** Every finished run of the master and its workers, whatever the
    interleaving, gives the counts of the serial accumulator. *)
Theorem parallel_exact : forall token2id id2token rel rw texts arrays w processes batch_size s,
  dict_ok token2id id2token rel -> 1 <= w -> 2 <= processes ->
  ids_to_words id2token rel = Ok rw -> iter_texts token2id rel rw texts = Ok arrays ->
  steps (par_step processes w) (par_init processes (length rel) (yield_batches batch_size arrays)) s -> par_done s ->
  exists s1, word_occurrence token2id id2token rel texts w = Ok s1 /\
    let s2 := merge_accumulators (length rel) (output_q s) in
    ndocs s2 = ndocs s1 /\
    (forall i, get_occurrences rel s2 i = get_occurrences rel s1 i) /\
    (forall i j, get_co_occurrences rel s2 i j = get_co_occurrences rel s1 i j).
Proof.
  intros t2i i2t rel rw texts arrays w n bsz s HD Hw Hn ER EA HS HF. unfold word_occurrence. rewrite ER. cbn [rbind]. rewrite EA. cbn [rbind].
  assert (HG : Forall (good_text (length rel)) arrays).
  { rewrite (ids_ok t2i i2t rel HD) in ER. injection ER as <-. rewrite (iter_ok t2i i2t rel HD) in EA. injection EA as <-. now apply arrays_good. }
  set (v := length rel) in *.
  destruct (partial_ok v w Hw (occ_init v) arrays (wf_init v) HG) as (s1 & E & W & O & C & N).
  unfold accumulate. rewrite E. cbn [rbind]. eexists. split; [reflexivity|].
  assert (PO : forall s b s', wf v s -> good_batch v b -> partial_accumulate s b w = Ok s' ->
     (forall x, x < v -> occs s' x = occs s x + adds_occ w b x) /\
     (forall i j, co s' i j = co s i j + adds_co v w b i j) /\ ndocs s' = ndocs s + adds_docs w b).
  { intros a b a' WA GB Q. destruct (partial_ok v w Hw a b WA GB) as (a2 & Q2 & _ & R1 & R2 & R3). rewrite Q in Q2. injection Q2 as <-. auto. }
  set (m := fold_left merge (output_q s) (occ_init v)).
  assert (MO : wf v m /\ forall x, x < v -> occs m x = adds_occ w arrays x).
  { assert (X : forall x, x < v -> wf v m /\ occs m x = adds_occ w arrays x).
    { intros x Hx. apply (par_val v w n (fun s => occs s x) (fun b => adds_occ w b x) bsz arrays s); auto; try lia.
      - intros. apply PO; auto.
      - unfold occs. cbn [occ_init occ]. apply nth_repeat.
      - intros. now apply (merge_occs v).
      - intros bs. unfold adds_occ. apply sumf_total. }
    split; [|intros x Hx; now apply X].
    apply (par_val v w n (fun s => 0) (fun b => 0) bsz arrays s); auto; try lia.
    intros bs. induction bs as [|b bs IH]; [reflexivity|]. rewrite sumf_cons, IH. reflexivity. }
  destruct MO as [WM MO].
  assert (MC : forall i j, co m i j = adds_co v w arrays i j).
  { intros i j. apply (par_val v w n (fun s => co s i j) (fun b => adds_co v w b i j) bsz arrays s); auto; try lia.
    - intros. apply PO; auto.
    - intros bs. unfold adds_co. destruct ((i <? j) && (j <? v)); [apply sumf_total|].
      induction bs as [|b bs IH]; [reflexivity|]. rewrite sumf_cons, IH. reflexivity. }
  assert (MD : ndocs m = adds_docs w arrays).
  { apply (par_val v w n ndocs (adds_docs w) bsz arrays s); auto; try lia.
    - intros. apply PO; auto.
    - intros bs. unfold adds_docs. apply sumf_total. }
  assert (EO : occ m = occ s1).
  { destruct WM as [L1 _], W as [L2 _]. apply nth_ext with (d := 0) (d' := 0); [lia|]. intros x Hx.
    change (occs m x = occs s1 x). rewrite MO, O by lia. unfold occs. cbn [occ_init occ]. now rewrite nth_repeat. }
  assert (EC : forall i j, co m i j = co s1 i j). { intros. rewrite MC, C. reflexivity. }
  unfold merge_accumulators. fold m. cbv zeta. split; [|split].
  - cbn [symmetrize ndocs]. rewrite MD, N. reflexivity.
  - intros i. unfold get_occurrences. cbn [symmetrize occ]. now rewrite EO.
  - intros i j. unfold get_co_occurrences. cbn [symmetrize co]. destruct (dget (id2contiguous rel) i); [|reflexivity]. cbn [of_option rbind].
    destruct (dget (id2contiguous rel) j); [|reflexivity]. cbn [of_option rbind]. now rewrite !EO, !EC.
Qed.
Print Assumptions parallel_exact.

(** No run gets stuck before it is finished, ... *)
Theorem parallel_progress : forall v w processes batch_size arrays s, 1 <= w -> 1 <= processes -> Forall (good_text v) arrays ->
  steps (par_step processes w) (par_init processes v (yield_batches batch_size arrays)) s -> ~ par_done s ->
  exists s', par_step processes w s s'.
Proof.
  intros v w n bsz arrays s Hw Hn HG HS HD.
  assert (EC : concat (yield_batches bsz arrays) = arrays) by apply (batches_concat bsz arrays []).
  assert (Z0 : forall bs : list (list (list nat)), sumf (fun _ => 0) bs = 0) by (induction bs as [|b bs IH]; [reflexivity|]; rewrite sumf_cons, IH; reflexivity).
  apply (inv_progress v w n Hw Hn (fun _ => 0) (fun _ => 0) (fun _ _ _ _ _ _ => eq_refl) eq_refl (fun _ _ _ _ => eq_refl) 0); [|exact HD].
  apply (steps_inv v w n Hw Hn (fun _ => 0) (fun _ => 0) (fun _ _ _ _ _ _ => eq_refl) eq_refl (fun _ _ _ _ => eq_refl) 0 _ _) with (2 := HS).
  apply (init_inv v w n Hw Hn (fun _ => 0) (fun _ => 0) eq_refl 0); [|apply Z0].
  apply Forall_concat. now rewrite EC.
Qed.
Print Assumptions parallel_progress.

(** ... and every run is finite. *)
Theorem parallel_finite : forall w processes (run : nat -> par_state), ~ (forall i, par_step processes w (run i) (run (S i))).
Proof.
  intros w n run HR.
  assert (L : forall i, work_left (run i) + i <= work_left (run 0)).
  { induction i as [|i IH]; [lia|]. pose proof (step_less n w _ _ (HR i)). lia. }
  specialize (L (S (work_left (run 0)))). lia.
Qed.
Print Assumptions parallel_finite.

(** A concrete run: two workers, batches of one text. *)
Lemma one_step {S} (R : S -> S -> Prop) s s' s'' : R s s' -> steps R s' s'' -> steps R s s''.
Proof. apply steps_more. Qed.

Definition ex_arrays : list (list nat) := [[0; 1]; [1; 2; 0]].

Definition get_ok {A} (d : A) (r : result A) : A := match r with Ok x => x | Err _ => d end.

Example parallel_ex : exists s,
  steps (par_step 2 2) (par_init 2 3 (yield_batches 1 ex_arrays)) s /\ par_done s /\
  ndocs (merge_accumulators 3 (output_q s)) = 3 /\ occ (merge_accumulators 3 (output_q s)) = [2; 2; 2] /\
  co (merge_accumulators 3 (output_q s)) 2 1 = 1.
Proof.
  eexists. split; [|split; [|split; [|split]]].
  - unfold par_init. cbn [yield_batches ex_arrays yield_batches_from app length Nat.eqb map repeat].
    eapply one_step; [apply step_put; cbn; lia|]. cbn [app].
    eapply one_step; [apply step_put; cbn; lia|]. cbn [app].
    eapply one_step; [apply step_get with (i := 1); reflexivity|].
    eapply one_step; [apply step_put; cbn; lia|]. cbn [app].
    eapply one_step; [eapply step_work with (i := 1); [reflexivity|vm_compute; reflexivity]|].
    eapply one_step; [apply step_get with (i := 0); reflexivity|].
    eapply one_step; [apply step_put; cbn; lia|]. cbn [app].
    eapply one_step; [apply step_end with (i := 1); reflexivity|].
    eapply one_step; [eapply step_work with (i := 0); [reflexivity|vm_compute; reflexivity]|].
    eapply one_step; [apply step_end with (i := 0); reflexivity|].
    apply steps_none.
  - split; reflexivity.
  - vm_compute. reflexivity.
  - vm_compute. reflexivity.
  - vm_compute. reflexivity.
Qed.

(** A worker that hits an exception replies with what it has; the master merges
    it as if nothing had happened: the run finishes with counts missing. *)
Theorem parallel_crash_refuted : exists s,
  steps (crash_step 2 2) (par_init 2 3 (yield_batches 1 ex_arrays)) s /\ par_done s /\
  ndocs (merge_accumulators 3 (output_q s)) = 1 /\ occ (merge_accumulators 3 (output_q s)) = [1; 1; 0] /\
  (exists s1, accumulate (occ_init 3) ex_arrays 2 = Ok s1 /\ ndocs s1 = 3 /\ occ s1 = [2; 2; 2]).
Proof.
  eexists. split; [|split; [|split; [|split]]].
  - unfold par_init. cbn [yield_batches ex_arrays yield_batches_from app length Nat.eqb map repeat].
    eapply one_step; [apply crash_par; apply step_put; cbn; lia|]. cbn [app].
    eapply one_step; [apply crash_par; apply step_put; cbn; lia|]. cbn [app].
    eapply one_step; [apply crash_par; apply step_get with (i := 1); reflexivity|].
    eapply one_step; [apply crash_par; eapply step_work with (i := 1); [reflexivity|vm_compute; reflexivity]|].
    eapply one_step; [apply crash_par; apply step_get with (i := 0); reflexivity|].
    eapply one_step; [eapply crash_work with (i := 0); reflexivity|].
    eapply one_step; [apply crash_par; apply step_put; cbn; lia|]. cbn [app].
    eapply one_step; [apply crash_par; apply step_put; cbn; lia|]. cbn [app].
    eapply one_step; [apply crash_par; apply step_end with (i := 1); reflexivity|].
    apply steps_none.
  - split; reflexivity.
  - vm_compute. reflexivity.
  - vm_compute. reflexivity.
  - eexists. split; [vm_compute; reflexivity|]. split; reflexivity.
Qed.
Print Assumptions parallel_crash_refuted.
(** A worker that has ended, by whatever way, has replied: the master can count on one reply per ended worker. *)
Definition ended (ws : list worker) : nat := length (filter (fun x => match x with Ended => true | _ => false end) ws).
Theorem worker_replies : forall processes w v batches s, steps (crash_step processes w) (par_init processes v batches) s -> length (output_q s) = ended (workers s).
Proof.
  intros n w v batches s H.
  assert (B0 : length (output_q (par_init n v batches)) = ended (workers (par_init n v batches))).
  { clear H. cbn [par_init output_q workers length]. induction n as [|n IH]; [reflexivity|]. exact IH. }
  assert (A : forall l1 l2, ended (l1 ++ l2) = ended l1 + ended l2) by (intros l1 l2; unfold ended; rewrite filter_app, app_length; reflexivity).
  revert B0 H. generalize (par_init n v batches). intros s0 B0 H. induction H as [|s0 s1 s2 H1 H2 IH]; [exact B0|]. apply IH. clear IH H2 s2.
  inversion H1 as [x y P|t q ws o i a b E]; subst.
  - inversion P as [m t q ws o L | t b q ws o i a E | t q ws o i a b a' E F | t q ws o i a b e E F | t q ws o i a E]; subst; cbn [output_q workers] in *; [exact B0 | | | |];
      destruct (set_worker_split ws i _ Ended E) as (l1 & l2 & E1 & _); subst ws;
      match goal with |- context [set_worker _ i ?y] => destruct (set_worker_split _ i _ y E) as (k1 & k2 & E2 & E3); rewrite E3; rewrite E2, A in B0; rewrite A; rewrite ?app_length; cbn in *; lia end.
  - cbn [output_q workers] in *. destruct (set_worker_split _ i _ Ended E) as (k1 & k2 & E2 & E3). rewrite E3. rewrite E2, A in B0. rewrite A, app_length. cbn in *. lia.
Qed.
Print Assumptions worker_replies.


(** If every worker has ended that way while the queue is full, the master
    waits for ever. *)
Theorem parallel_hang_refuted : exists arrays s,
  steps (crash_step 2 1) (par_init 2 1 (yield_batches 1 arrays)) s /\ ~ par_done s /\ forall s', ~ crash_step 2 1 s s'.
Proof.
  exists [[0]; [0]; [0]]. eexists. split; [|split].
  - unfold par_init. cbn [yield_batches yield_batches_from app length Nat.eqb map repeat].
    eapply one_step; [apply crash_par; apply step_put; cbn; lia|]. cbn [app].
    eapply one_step; [apply crash_par; apply step_put; cbn; lia|]. cbn [app].
    eapply one_step; [apply crash_par; apply step_get with (i := 0); reflexivity|].
    eapply one_step; [eapply crash_work with (i := 0); reflexivity|].
    eapply one_step; [apply crash_par; apply step_get with (i := 1); reflexivity|].
    eapply one_step; [eapply crash_work with (i := 1); reflexivity|].
    eapply one_step; [apply crash_par; apply step_put; cbn; lia|]. cbn [app].
    eapply one_step; [apply crash_par; apply step_put; cbn; lia|]. cbn [app].
    apply steps_none.
  - intros [D _]. discriminate D.
  - intros s' HS. inversion HS as [? ? HP|? ? ? ? i ? ? E]; subst.
    + inversion HP; subst.
      * cbn in *. lia.
      * match goal with E : nth_error _ ?i = Some _ |- _ => destruct i as [|[|[|?]]]; discriminate E end.
      * match goal with E : nth_error _ ?i = Some _ |- _ => destruct i as [|[|[|?]]]; discriminate E end.
      * match goal with E : nth_error _ ?i = Some _ |- _ => destruct i as [|[|[|?]]]; discriminate E end.
    + destruct i as [|[|[|?]]]; discriminate E.
Qed.
Print Assumptions parallel_hang_refuted.

(** ** C73b: inverted indexes *)

Lemma ii_adds v d : forall ns (g : nat -> list nat), Forall (fun n => n < v) ns ->
  rfold ii_add ns (II (map g (seq 0 v)) d) =
  Ok (II (map (fun n => if memb n ns then set_add d (g n) else g n) (seq 0 v)) d).
Proof.
  induction ns as [|n ns IH]; intros g HF.
  - reflexivity.
  - inversion HF; subst. cbn [rfold]. unfold ii_add at 1. cbn [index ii_docs].
    rewrite nth_error_nth' with (d := []) by (rewrite map_length, seq_length; lia). rewrite nth_map_seq by lia. cbn [of_option rbind].
    rewrite (lput_map g (fun m => if m =? n then set_add d (g n) else g m)) with (i := n); [|lia|].
    + cbn [rbind]. rewrite IH by assumption. f_equal. f_equal. apply map_ext. intros m.
      assert (M : memb m (n :: ns) = (m =? n) || memb m ns).
      { apply eq_true_iff_eq. rewrite orb_true_iff, !memb_true, Nat.eqb_eq. cbn [In]. intuition congruence. }
      rewrite M. destruct (Nat.eqb_spec m n) as [EQ|NE]; cbn [orb]; [|reflexivity]; clear M; subst m.
      destruct (memb n ns); [|reflexivity]. unfold set_add. destruct (memb d (g n)) eqn:Q; [now rewrite Q|].
      destruct (memb d (g n ++ [d])) eqn:Q2; [reflexivity|]. rewrite memb_false in Q2. exfalso. apply Q2. apply in_or_app. right. now left.
    + intros m _. reflexivity.
Qed.

Definition ii_step (s : ii_state) (doc : list nat) : result ii_state :=
  let* s := rfold ii_add doc s in Ok (II (index s) (ii_docs s + 1)).

Definition doc_has (docs : list (list nat)) (n d : nat) : bool := memb n (nth d docs []).

Lemma ii_all v : forall docs pre, Forall (Forall (fun n => n < v)) docs ->
  rfold ii_step docs (II (map (fun n => filter (doc_has pre n) (seq 0 (length pre))) (seq 0 v)) (length pre)) =
  Ok (II (map (fun n => filter (doc_has (pre ++ docs) n) (seq 0 (length (pre ++ docs)))) (seq 0 v)) (length (pre ++ docs))).
Proof.
  induction docs as [|doc docs IH]; intros pre HF.
  - rewrite app_nil_r. reflexivity.
  - inversion HF; subst. cbn [rfold]. unfold ii_step at 1. rewrite ii_adds by assumption. cbn [rbind index ii_docs].
    specialize (IH (pre ++ [doc]) ltac:(assumption)). rewrite <- !app_assoc in IH. cbn [app] in IH.
    rewrite <- IH. rewrite app_length. cbn [length]. f_equal. f_equal. apply map_ext. intros n.
    rewrite Nat.add_1_r, seq_S, filter_app. cbn [filter Nat.add].
    assert (E1 : filter (doc_has (pre ++ [doc]) n) (seq 0 (length pre)) = filter (doc_has pre n) (seq 0 (length pre))).
    { apply filter_ext_in. intros d HI. apply in_seq in HI. unfold doc_has. rewrite app_nth1 by lia. reflexivity. }
    rewrite E1.
    assert (E2 : doc_has (pre ++ [doc]) n (length pre) = memb n doc).
    { unfold doc_has. rewrite app_nth2, Nat.sub_diag by lia. reflexivity. }
    rewrite E2.
    destruct (memb n doc); [|now rewrite app_nil_r].
    unfold set_add. destruct (memb (length pre) _) eqn:Q; [|reflexivity]. rewrite memb_true in Q. apply filter_In in Q.
    destruct Q as [Q _]. apply in_seq in Q. lia.
Qed.

Lemma ii_ok v docs : Forall (Forall (fun n => n < v)) docs -> rfold ii_step docs (ii_init v) =
  Ok (II (map (fun n => filter (doc_has docs n) (seq 0 (length docs))) (seq 0 v)) (length docs)).
Proof.
  intros HF. pose proof (ii_all v docs [] HF) as Q. cbn [app] in Q. rewrite <- Q. f_equal. unfold ii_init. f_equal.
  cbn [length seq filter]. clear. generalize 0. induction v as [|v IH]; intros a; [reflexivity|]. cbn [repeat seq map]. now rewrite <- IH.
Qed.

Lemma filter_index {A} (P : A -> bool) (d0 : A) : forall l a,
  length (filter (fun d => P (nth (d - a) l d0)) (seq a (length l))) = length (filter P l).
Proof.
  induction l as [|x l IH]; intros a; [reflexivity|]. cbn [length seq filter]. rewrite Nat.sub_diag. cbn [nth].
  assert (E : filter (fun d => P (nth (d - a) (x :: l) d0)) (seq (S a) (length l)) = filter (fun d => P (nth (d - S a) l d0)) (seq (S a) (length l))).
  { apply filter_ext_in. intros d HI. apply in_seq in HI. replace (d - a) with (S (d - S a)) by lia. reflexivity. }
  cbn [nth] in E. rewrite E. destruct (P x); cbn [length]; now rewrite IH.
Qed.

Lemma doc_has_count docs n : length (filter (doc_has docs n) (seq 0 (length docs))) = length (filter (fun doc => memb n doc) docs).
Proof.
  rewrite <- (filter_index (fun doc => memb n doc) [] docs 0). f_equal. apply filter_ext. intros d. unfold doc_has. now rewrite Nat.sub_0_r.
Qed.

Lemma doc_has_both docs n m :
  length (filter (fun d => memb d (filter (doc_has docs m) (seq 0 (length docs)))) (filter (doc_has docs n) (seq 0 (length docs)))) =
  length (filter (fun doc => memb n doc && memb m doc) docs).
Proof.
  rewrite <- (filter_index (fun doc => memb n doc && memb m doc) [] docs 0). f_equal.
  assert (G : forall l, (forall d, In d l -> d < length docs) ->
    filter (fun d => memb d (filter (doc_has docs m) (seq 0 (length docs)))) (filter (doc_has docs n) l) =
    filter (fun d => memb n (nth (d - 0) docs []) && memb m (nth (d - 0) docs [])) l).
  { induction l as [|d l IH]; intros HL; [reflexivity|]. cbn [filter]. rewrite Nat.sub_0_r. unfold doc_has at 2.
    assert (M : memb d (filter (doc_has docs m) (seq 0 (length docs))) = memb m (nth d docs [])).
    { apply eq_true_iff_eq. rewrite memb_true, filter_In, in_seq. unfold doc_has. specialize (HL d (or_introl eq_refl)). intuition lia. }
    specialize (IH ltac:(intros; apply HL; now right)).
    destruct (memb n (nth d docs [])); cbn [andb filter]; [rewrite M|]; rewrite IH; reflexivity. }
  rewrite G; [reflexivity|]. intros d HI. apply in_seq in HI. lia.
Qed.

Lemma ii_counts rel docs i j n m : NoDup rel -> nth_error rel n = Some i -> nth_error rel m = Some j ->
  let s := II (map (fun n => filter (doc_has docs n) (seq 0 (length docs))) (seq 0 (length rel))) (length docs) in
  ii_occurrences rel s i = Ok (length (filter (fun doc => memb n doc) docs)) /\
  ii_co_occurrences rel s i j = Ok (length (filter (fun doc => memb n doc && memb m doc) docs)).
Proof.
  intros HN En Em s.
  assert (Ln : n < length rel) by (apply nth_error_Some; congruence). assert (Lm : m < length rel) by (apply nth_error_Some; congruence).
  assert (G : dget (id2contiguous rel) i = Some n) by now apply contig_get.
  assert (G' : dget (id2contiguous rel) j = Some m) by now apply contig_get.
  assert (X : forall k, k < length rel -> nth_error (index s) k = Some (filter (doc_has docs k) (seq 0 (length docs)))).
  { intros k Hk. unfold s. cbn [index]. rewrite nth_error_nth' with (d := []) by (rewrite map_length, seq_length; lia). now rewrite nth_map_seq. }
  unfold ii_occurrences, ii_co_occurrences. rewrite G, G'. cbn [of_option rbind]. rewrite !X by assumption. cbn [of_option rbind].
  now rewrite doc_has_count, doc_has_both.
Qed.

(** [CorpusAccumulator] on a bag-of-words corpus: document counts. *)
Theorem corpus_exact : forall (W : Type) rel (corpus : list (list (nat * W))), NoDup rel ->
  exists s, corpus_accumulate rel (ii_init (length rel)) corpus = Ok s /\ ii_docs s = length corpus /\
    (forall i, In i rel -> ii_occurrences rel s i = Ok (length (filter (fun doc => memb i (map fst doc)) corpus))) /\
    (forall i j, In i rel -> In j rel ->
       ii_co_occurrences rel s i j = Ok (length (filter (fun doc => memb i (map fst doc) && memb j (map fst doc)) corpus))).
Proof.
  intros W rel corpus HN.
  set (ix := fun i => match dget (id2contiguous rel) i with Some n => n | None => 0 end).
  set (cdoc := fun text : list (nat * W) => map ix (filter (fun i => memb i (map fst text)) rel)).
  assert (IX : forall i, In i rel -> exists n, dget (id2contiguous rel) i = Some n /\ ix i = n /\ nth_error rel n = Some i).
  { intros i HI. apply In_nth_error in HI. destruct HI as [n En]. exists n.
    assert (G : dget (id2contiguous rel) i = Some n) by now apply contig_get. split; [exact G|]. split; [|exact En]. unfold ix. now rewrite G. }
  assert (E : forall c s, corpus_accumulate rel s c = rfold ii_step (map cdoc c) s).
  { induction c as [|t c IH]; intros s; [reflexivity|]. unfold corpus_accumulate in *. cbn [rfold map]. unfold ii_step at 1.
    assert (E1 : corpus_analyze rel s t = rfold ii_add (cdoc t) s).
    { unfold corpus_analyze, cdoc. assert (HI : forall i, In i (filter (fun i => memb i (map fst t)) rel) -> In i rel) by (intros i HI; apply filter_In in HI; tauto).
      revert s HI. generalize (filter (fun i => memb i (map fst t)) rel). clear IH. induction l as [|i l IHl]; intros s HI; [reflexivity|].
      cbn [rfold map]. destruct (IX i (HI i (or_introl eq_refl))) as (n & G & <- & _). rewrite G. cbn [of_option rbind].
      destruct (ii_add s (ix i)); cbn [rbind]; [|reflexivity]. apply IHl. intros; apply HI; now right. }
    rewrite E1. destruct (rfold ii_add (cdoc t) s); cbn [rbind]; [apply IH|reflexivity]. }
  rewrite E, ii_ok.
  2: { apply Forall_forall. intros d HI. apply in_map_iff in HI. destruct HI as (t & <- & _). unfold cdoc. apply Forall_forall. intros n HI.
       apply in_map_iff in HI. destruct HI as (i & <- & HI). apply filter_In in HI. destruct HI as [HI _].
       destruct (IX i HI) as (n & _ & -> & En). apply nth_error_Some. congruence. }
  eexists. split; [reflexivity|]. split; [cbn [ii_docs]; apply map_length|].
  assert (MB : forall i n t, nth_error rel n = Some i -> memb n (cdoc t) = memb i (map fst t)).
  { intros i n t En. apply eq_true_iff_eq. rewrite !memb_true. unfold cdoc. rewrite in_map_iff. split.
    - intros (j & Ej & HJ). apply filter_In in HJ. destruct HJ as [HJ M]. rewrite memb_true in M.
      destruct (IX j HJ) as (n' & _ & E1 & E2). assert (j = i) by congruence. now subst.
    - intros HI. assert (HR : In i rel) by (eapply nth_error_In; eauto). destruct (IX i HR) as (n' & G & E1 & E2). exists i. split.
      + rewrite E1. assert (G' : dget (id2contiguous rel) i = Some n) by now apply contig_get. congruence.
      + apply filter_In. split; [exact HR|]. now apply memb_true. }
  assert (FM : forall (P : list nat -> bool) (Q : list (nat * W) -> bool), (forall t, P (cdoc t) = Q t) ->
     length (filter P (map cdoc corpus)) = length (filter Q corpus)).
  { intros P Q HPQ. clear - HPQ. induction corpus as [|t c IH]; [reflexivity|]. cbn [map filter]. rewrite HPQ. destruct (Q t); cbn [length]; now rewrite IH. }
  split.
  - intros i HI. apply In_nth_error in HI. destruct HI as [n En]. rewrite (proj1 (ii_counts rel (map cdoc corpus) i i n n HN En En)).
    f_equal. apply FM. intros t. now apply MB.
  - intros i j HI HJ. apply In_nth_error in HI. destruct HI as [n En]. apply In_nth_error in HJ. destruct HJ as [m Em].
    rewrite (proj2 (ii_counts rel (map cdoc corpus) i j n m HN En Em)). f_equal. apply FM. intros t.
    now rewrite (MB i n t En), (MB j m t Em).
Qed.
Print Assumptions corpus_exact.

Example corpus_ex : exists s, corpus_accumulate [8; 3] (ii_init 2) [[(3, 1); (5, 2)]; [(8, 1); (3, 4); (3, 1)]; []] = Ok s /\
  map (ii_occurrences [8; 3] s) [8; 3] = [Ok 1; Ok 2] /\ ii_co_occurrences [8; 3] s 8 3 = Ok 1 /\ ii_docs s = 3.
Proof. eexists. split; [vm_compute; reflexivity|]. vm_compute. auto. Qed.

(** [InvertedIndexAccumulator]: the windows as lists of contiguous ids. *)
Lemma ii_accumulate_windows w : forall arrays s, ii_accumulate s arrays w = rfold ii_step (flat_map (windows_of w true) arrays) s.
Proof.
  intros arrays. unfold ii_accumulate, iter_windows_num.
  enough (G : forall n s, rfold (fun s (dw : nat * list (option nat)) =>
      let* win := rmapM (of_option IndexError) (snd dw) in
      let* s := ii_analyze s win in Ok (II (index s) (ii_docs s + 1))) (iter_windows_from n arrays w false) s =
      rfold ii_step (flat_map (windows_of w true) arrays) s) by (intros; apply G).
  induction arrays as [|t ts IH]; intros n s; [reflexivity|]. rewrite iter_windows_cons, rfold_app. cbn [flat_map]. rewrite rfold_app.
  rewrite windows_slots.
  assert (E : forall l s, rfold (fun s (dw : nat * list (option nat)) =>
      let* win := rmapM (of_option IndexError) (snd dw) in
      let* s := ii_analyze s win in Ok (II (index s) (ii_docs s + 1))) (map (win_at w n t) l) s =
      rfold ii_step (map (fun k => firstn w (skipn k t)) l) s).
  { induction l as [|k l IHl]; intros s1; [reflexivity|]. cbn [map rfold]. unfold win_at at 1. cbn [snd]. rewrite rmapM_Some. cbn [rbind].
    unfold ii_step at 1. unfold ii_analyze. change (fun s word_id => ii_add s word_id) with ii_add.
    destruct (rfold ii_add (firstn w (skipn k t)) s1); cbn [rbind]; [apply IHl|reflexivity]. }
  rewrite E. destruct (rfold ii_step _ s); cbn [rbind]; [apply IH|reflexivity].
Qed.

Lemma in_windows {A} w (t : list A) win x : In win (windows_of w true t) -> In x win -> In x t.
Proof.
  rewrite windows_slots, in_map_iff. intros (k & <- & _) HI. eauto using In_firstn, In_skipn.
Qed.

Lemma windows_cover {A} w (t : list A) x : 1 <= w -> In x t -> exists win, In win (windows_of w true t) /\ In x win.
Proof.
  intros Hw HI. apply In_nth_error in HI. destruct HI as [p E]. assert (L : p < length t) by (apply nth_error_Some; congruence).
  rewrite windows_slots. unfold slots. destruct (Nat.ltb_spec (length t) w).
  - exists (firstn w t). split; [now left|]. rewrite firstn_all2 by lia. eauto using nth_error_In.
  - set (k := Nat.min p (length t - w)). exists (firstn w (skipn k t)). split.
    + apply in_map_iff. exists k. split; [reflexivity|]. apply in_seq. unfold k. lia.
    + apply nth_error_In with (n := p - k). rewrite nth_error_window by (unfold k; lia). rewrite <- E. f_equal. unfold k. lia.
Qed.

(** If the texts consist of relevant words only, the counts are exact (also
    where a word is repeated). *)
Theorem inverted_index_exact : forall token2id id2token rel texts w, dict_ok token2id id2token rel ->
  (forall t u, In t (rel_texts id2token rel texts) -> In u t -> exists i, In i rel /\ dget id2token i = Some u) ->
  exists s, inverted_index token2id id2token rel texts w = Ok s /\
    ii_docs s = length (flat_map (windows_of w true) (rel_texts id2token rel texts)) /\
    (forall i u, In i rel -> dget id2token i = Some u ->
       ii_occurrences rel s i = Ok (window_count w (rel_texts id2token rel texts) [u])) /\
    (forall i j u u', In i rel -> In j rel -> dget id2token i = Some u -> dget id2token j = Some u' ->
       ii_co_occurrences rel s i j = Ok (window_count w (rel_texts id2token rel texts) [u; u'])).
Proof.
  intros t2i i2t rel texts w HD HA. unfold inverted_index. rewrite (ids_ok t2i i2t rel HD). cbn [rbind].
  rewrite (iter_ok t2i i2t rel HD). cbn [rbind]. rewrite ii_accumulate_windows. set (c := cid t2i i2t rel).
  set (ts := rel_texts i2t rel texts) in *.
  assert (EW : flat_map (windows_of w true) (map (map c) ts) = map (map c) (flat_map (windows_of w true) ts)).
  { clear. induction ts as [|t ts IH]; [reflexivity|]. cbn [map flat_map]. rewrite map_app, IH. f_equal.
    rewrite !windows_slots, map_map, map_length. apply map_ext. intros k. now rewrite <- firstn_map, <- skipn_map. }
  rewrite EW, ii_ok.
  2: { apply Forall_forall. intros d HI. apply in_map_iff in HI. destruct HI as (win & <- & HI). apply Forall_forall. intros n HN.
       apply in_map_iff in HN. destruct HN as (u & <- & HU). apply in_flat_map in HI. destruct HI as (t & HT & HI).
       destruct (HA t u HT) as (i & Hi & Eu); [eapply in_windows; eauto|]. apply In_nth_error in Hi. destruct Hi as [n En].
       assert (cid t2i i2t rel u = n) by (eapply cid_word; eauto). unfold c. rewrite H. apply nth_error_Some. congruence. }
  eexists. split; [reflexivity|]. cbn [ii_docs]. split; [apply map_length|].
  assert (MB : forall i n u win, nth_error rel n = Some i -> dget i2t i = Some u -> memb n (map c win) = memb u win).
  { intros i n u win En Eu. apply eq_true_iff_eq. rewrite !memb_true, in_map_iff. split.
    - intros (x & Ex & HX). rewrite <- (proj1 (cid_word t2i i2t rel HD i n u x En Eu) Ex). exact HX.
    - intros HI. exists u. split; [|exact HI]. now apply (cid_word t2i i2t rel HD i n u u En Eu). }
  assert (FM : forall (P : list nat -> bool) (Q : list pystr -> bool) l, (forall t, P (map c t) = Q t) ->
     length (filter P (map (map c) l)) = length (filter Q l)).
  { intros P Q l HPQ. clear - HPQ. induction l as [|t l IH]; [reflexivity|]. cbn [map filter]. rewrite HPQ. destruct (Q t); cbn [length]; now rewrite IH. }
  destruct HD as [HN HD2].
  split.
  - intros i u HI Eu. apply In_nth_error in HI. destruct HI as [n En]. rewrite (proj1 (ii_counts rel _ i i n n HN En En)).
    f_equal. unfold window_count. apply FM. intros t. cbn [forallb]. rewrite (MB i n u t En Eu). now rewrite andb_true_r.
  - intros i j u u' HI HJ Eu Eu'. apply In_nth_error in HI. destruct HI as [n En]. apply In_nth_error in HJ. destruct HJ as [m Em].
    rewrite (proj2 (ii_counts rel _ i j n m HN En Em)). f_equal. unfold window_count. apply FM. intros t. cbn [forallb].
    rewrite (MB i n u t En Eu), (MB j m u' t Em Eu'). now rewrite andb_true_r.
Qed.
Print Assumptions inverted_index_exact.

Lemma ii_add_err v s n : length (index s) = v -> (n < v -> exists s', ii_add s n = Ok s' /\ length (index s') = v) /\ (v <= n -> ii_add s n = Err IndexError).
Proof.
  intros L. unfold ii_add. split.
  - intros Hn. destruct (nth_error (index s) n) as [l|] eqn:E; [|apply nth_error_None in E; lia]. cbn [of_option rbind].
    unfold lput. destruct (Nat.ltb_spec n (length (index s))); [|lia]. cbn [rbind]. eexists. split; [reflexivity|]. cbn [index].
    rewrite app_length, firstn_length. cbn [length]. rewrite skipn_length. lia.
  - intros Hn. destruct (nth_error (index s) n) as [l|] eqn:E; [|reflexivity].
    assert (n < length (index s)) by (apply nth_error_Some; congruence). lia.
Qed.

Lemma ii_adds_err v : forall ns s, length (index s) = v ->
  (exists s', rfold ii_add ns s = Ok s' /\ length (index s') = v /\ Forall (fun n => n < v) ns) \/ rfold ii_add ns s = Err IndexError.
Proof.
  induction ns as [|n ns IH]; intros s L.
  - left. exists s. cbn. auto.
  - cbn [rfold]. destruct (ii_add_err v s n L) as [A1 A2]. destruct (Nat.lt_ge_cases n v) as [C|C].
    + destruct (A1 C) as (s' & E & L'). rewrite E. cbn [rbind]. destruct (IH s' L') as [(s2 & E2 & L2 & F2)|E2]; [left; eauto|right; exact E2].
    + right. rewrite (A2 C). reflexivity.
Qed.

Lemma ii_steps_err v : forall docs s, length (index s) = v -> ~ Forall (Forall (fun n => n < v)) docs -> rfold ii_step docs s = Err IndexError.
Proof.
  induction docs as [|d docs IH]; intros s L HN.
  - exfalso. apply HN. constructor.
  - cbn [rfold]. unfold ii_step at 1. destruct (ii_adds_err v d s L) as [(s' & E & L' & F)|E]; rewrite E; cbn [rbind]; [|reflexivity].
    apply IH; [exact L'|]. intros HF. apply HN. constructor; assumption.
Qed.

(** As soon as a text with a relevant word has an irrelevant one too,
    [InvertedIndexAccumulator.accumulate] fails. *)
Theorem inverted_index_fails : forall token2id id2token rel texts w t u, dict_ok token2id id2token rel -> 1 <= w ->
  In t (rel_texts id2token rel texts) -> In u t -> (forall i, In i rel -> dget id2token i <> Some u) ->
  inverted_index token2id id2token rel texts w = Err IndexError.
Proof.
  intros t2i i2t rel texts w t u HD Hw HT HU HN. unfold inverted_index. rewrite (ids_ok t2i i2t rel HD). cbn [rbind].
  rewrite (iter_ok t2i i2t rel HD). cbn [rbind]. rewrite ii_accumulate_windows. apply ii_steps_err with (v := length rel).
  - cbn [ii_init index]. apply repeat_length.
  - intros HF. assert (HI : In (cid t2i i2t rel u) (map (cid t2i i2t rel) t)) by now apply in_map.
    destruct (windows_cover w _ _ Hw HI) as (win & HW & HX).
    rewrite Forall_forall in HF. assert (HFl : Forall (fun n => n < length rel) win).
    { apply HF. apply in_flat_map. exists (map (cid t2i i2t rel) t). split; [now apply in_map|exact HW]. }
    rewrite Forall_forall in HFl. specialize (HFl _ HX). unfold cid in HFl. destruct (memb u (CohAccum_Properties.rw i2t rel)) eqn:M; [|lia].
    rewrite memb_true, (in_rw t2i i2t rel HD) in M. destruct M as (i & Hi & E & _). exact (HN i Hi E).
Qed.
Print Assumptions inverted_index_fails.

Example inverted_index_ex :
  (exists s, inverted_index ex_t2i ex_i2t [5; 6; 7] [[str "a"; str "b"; str "a"; str "c"]; [str "x"]] 3 = Ok s /\
     ii_occurrences [5; 6; 7] s 5 = Ok 2 /\ ii_co_occurrences [5; 6; 7] s 5 7 = Ok 1 /\ ii_docs s = 2) /\
  inverted_index ex_t2i ex_i2t [5; 6; 7] [[str "a"; str "x"]] 3 = Err IndexError.
Proof. split; [eexists; split; [vm_compute; reflexivity|]; vm_compute; auto|]. vm_compute. reflexivity. Qed.
