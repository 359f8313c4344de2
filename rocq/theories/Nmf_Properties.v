(** Online non-negative matrix factorization. *)
From Coq Require Import Reals Lra Lia FunctionalExtensionality Permutation.
From Verif Require Import Base MatReal_Model MatReal_Proofs Utils_Model Utils_Properties LdaTrain_Model LdaTrain_Proofs2 Lsi_Model Lsi_Linear Nmf_Model Nmf_Spec Nmf_Proofs Nmf_Proofs2.
Local Open Scope R_scope.

(** ** The weights of the documents *)
(** The documents of a batch do not influence each other, save that all of them get the same number of rounds. *)
Theorem documents_apart : forall m K kappa stop W vs perms hs, length hs = length vs ->
  exists n, (n <= length perms)%nat /\ (perms <> [] -> (0 < n)%nat) /\
  iter_h m K kappa stop W vs perms None hs =
    map (fun vh => fold_left (fun h p => fst (sweep m K kappa W p (fst vh) h)) (firstn n perms) (snd vh)) (combine vs hs).
Proof.
  intros m K kappa stop W vs perms hs L. destruct (iter_prefix m K kappa stop W vs perms None hs) as [n [A [B E]]]. exists n. split; [auto|]. split; [auto|].
  rewrite E. apply run_many. auto.
Qed.
Print Assumptions documents_apart.

(** No weight is ever below zero, whatever the step. *)
Theorem weights_nonneg : forall m K kappa stop W vs perms e hs, length hs = length vs -> Forall (nonneg K) hs ->
  Forall (nonneg K) (iter_h m K kappa stop W vs perms e hs).
Proof. intros. apply iter_nonneg; auto. Qed.
Print Assumptions weights_nonneg.

(** With a step of at most 2, no document ends further from its topics than it began. *)
Theorem weights_descend : forall m K kappa stop W vs perms e hs j v h h', 0 < kappa <= 2 -> (forall p k, In p perms -> In k p -> (k < K)%nat) ->
  length hs = length vs -> Forall (nonneg K) hs -> nth_error vs j = Some v -> nth_error hs j = Some h -> nth_error (iter_h m K kappa stop W vs perms e hs) j = Some h' ->
  sqerr m K W v h' <= sqerr m K W v h.
Proof.
  intros m K kappa stop W vs perms e hs j v h h' Hk Hp L Hn Ev Eh E'.
  destruct (iter_prefix m K kappa stop W vs perms e hs) as [n [_ [_ E]]]. rewrite E, run_many in E' by auto.
  assert (C : nth_error (combine vs hs) j = Some (v, h)).
  { clear -Ev Eh. revert hs j Ev Eh. induction vs as [|a vs IH]; intros [|b hs] [|j] Ev Eh; cbn in *; try discriminate; [congruence|]. apply IH; auto. }
  rewrite (map_nth_error _ _ _ C) in E'. injection E' as <-. cbn [fst snd].
  apply run1_good; auto.
  - intros p k Hin. apply Hp. rewrite <- (firstn_skipn n perms). apply in_or_app. auto.
  - rewrite Forall_forall in Hn. apply Hn. eapply nth_error_In; eauto.
Qed.
Print Assumptions weights_descend.

(** With a step above 2 it can. *)
Theorem large_step_refuted : exists m K kappa W v h, 2 < kappa /\ nonneg K h /\ sqerr m K W v h < sqerr m K W v (fst (sweep m K kappa W [0%nat] v h)).
Proof.
  exists 1%nat, 1%nat, 3, (fun _ _ => 1), (fun _ => 1), (fun _ => 0). split; [lra|]. split; [intros k _; lra|].
  unfold sweep. cbn [fold_left]. rewrite coord_fst. cbn [fst].
  assert (G : gram_w 1 (fun _ _ => 1) 0 0 = 1) by (unfold gram_w, sumn; cbn; lra). rewrite G.
  destruct (Req_EM_T 1 0); [lra|].
  assert (E : grad 1 1 (fun _ _ => 1) (fun _ => 1) (fun _ => 0) 0 = -1) by (unfold grad, wtv, gram_w, sumn; cbn; lra). rewrite E.
  rewrite Rmax_left by lra. unfold sqerr, sumn, upd. cbn. lra.
Qed.
Print Assumptions large_step_refuted.

(** With a step of 1 each weight in turn becomes the best one can choose with the others fixed. *)
Theorem step_best : forall m K W v h x k y, (k < K)%nat -> 0 <= h k -> ~ empty_topic m W k -> 0 <= y ->
  sqerr m K W v (fst (coord m K 1 W v (h, x) k)) <= sqerr m K W v (upd h k y).
Proof.
  intros m K W v h x k y Hk Hh NE Hy. rewrite coord_fst. cbn [fst]. assert (G0 : gram_w m W k k <> 0) by (intros E; apply NE, gram_zero; auto).
  destruct (Req_EM_T (gram_w m W k k) 0); [contradiction|]. rewrite !sqerr_upd by auto. pose proof (gram_pos m W k) as GP.
  set (G := gram_w m W k k) in *. set (g := grad m K W v h k). rewrite Rmult_1_r. assert (GP' : 0 < G) by lra.
  assert (Eg : g = (g / G) * G) by (field; lra). set (q := g / G) in *. clearbody q g G. subst g.
  enough (2 * (q * G) * (Rmax (h k - q) 0 - h k) + G * (Rmax (h k - q) 0 - h k) ^ 2 <= 2 * (q * G) * (y - h k) + G * (y - h k) ^ 2) by lra.
  replace (2 * (q * G) * (y - h k) + G * (y - h k) ^ 2) with (G * ((y - h k + q) ^ 2 - q ^ 2)) by ring.
  set (z := Rmax (h k - q) 0). replace (2 * (q * G) * (z - h k) + G * (z - h k) ^ 2) with (G * ((z - h k + q) ^ 2 - q ^ 2)) by ring.
  apply Rmult_le_compat_l; [lra|]. apply Rplus_le_compat_r. unfold z, Rmax. destruct (Rle_dec (h k - q) 0).
  - apply pow_incr. lra.
  - replace (h k - q - h k + q) with 0 by ring. replace (0 ^ 2) with 0 by ring. apply pow2_ge_0.
Qed.
Print Assumptions step_best.

(** A round finds nothing to correct exactly when no weights at all are nearer to the document, and then it changes nothing. *)
Theorem rest_is_best : forall m K kappa W v h perm, 0 < kappa -> nonneg K h -> Permutation perm (seq 0 K) -> (forall k, (k < K)%nat -> ~ empty_topic m W k) ->
  (snd (sweep m K kappa W perm v h) = Some 0 <-> best_fit m K W v h) /\
  (best_fit m K W v h -> fst (sweep m K kappa W perm v h) = h).
Proof.
  intros m K kappa W v h perm Hk Hh HP HE.
  assert (IN : forall k, In k perm <-> (k < K)%nat).
  { intros k. split; intros H; [apply (Permutation_in _ HP) in H; apply in_seq in H; lia | apply (Permutation_in _ (Permutation_sym HP)), in_seq; lia]. }
  assert (HG : forall k, (k < K)%nat -> gram_w m W k k <> 0) by (intros k Hl E; apply (HE k Hl), gram_zero; auto).
  pose proof (best_iff m K W v kappa h Hk Hh HG) as BI. unfold sweep.
  split.
  - rewrite violation_zero by (auto; intros; apply IN; auto). rewrite <- BI. split; intros H k Hl; [apply H, IN; auto | apply IN in Hl; auto].
  - intros B. apply sweep_rest. intros k Hl. apply IN in Hl. repeat split; auto. apply (proj2 BI B k Hl).
Qed.
Print Assumptions rest_is_best.

(** A topic without words has weight zero after any round. *)
Theorem empty_topic_zero : forall m K kappa W v h perm k, In k perm -> empty_topic m W k -> fst (sweep m K kappa W perm v h) k = 0.
Proof. intros. apply empty_zero; auto. Qed.
Print Assumptions empty_topic_zero.

(** With such a topic the stop condition is never met: all rounds are done, even if nothing changes any more. *)
Theorem empty_topic_refuted : forall m K kappa stop W vs perms hs k, vs <> [] -> length hs = length vs -> (k < K)%nat -> empty_topic m W k ->
  (forall p, In p perms -> Permutation p (seq 0 K)) ->
  iter_h m K kappa stop W vs perms None hs = map (fun vh => fold_left (fun h p => fst (sweep m K kappa W p (fst vh) h)) perms (snd vh)) (combine vs hs).
Proof.
  intros m K kappa stop W vs perms hs k NE L Hk E HP. rewrite iter_never_stops; auto.
  - apply run_many. auto.
  - intros p Hp. exists k. split; [|auto]. apply (Permutation_in _ (Permutation_sym (HP p Hp))), in_seq. lia.
Qed.
Print Assumptions empty_topic_refuted.

(** Two topics, each with one word of weight 1/2 and 1: the best weights of a document that has both words once, found in one round. *)
Definition two (a b : R) : mat := fun i k => if (i =? k)%nat then (if (k =? 0)%nat then a else b) else 0.
Lemma two_gram : forall a b, gram_w 2 (two a b) 0 0 = a * a /\ gram_w 2 (two a b) 1 1 = b * b /\ gram_w 2 (two a b) 0 1 = 0 /\ gram_w 2 (two a b) 1 0 = 0.
Proof. intros. unfold gram_w, sumn, two. cbn. repeat split; lra. Qed.
Lemma two_sweep : forall a b x, 0 < a -> 0 < b -> let h := fst (fold_left (coord 2 2 1 (two a b) (fun _ => 1)) [0%nat; 1%nat] (fun _ => 0, x)) in h 0%nat = / a /\ h 1%nat = / b.
Proof.
  intros a b x Ha Hb. destruct (two_gram a b) as [G0 [G1 [G01 G10]]]. cbn [fold_left].
  set (s := coord _ _ _ _ _ (fun _ => 0, x) 0%nat).
  assert (Ia : 0 < / a) by (apply Rinv_0_lt_compat; auto). assert (Ib : 0 < / b) by (apply Rinv_0_lt_compat; auto).
  assert (E0 : fst s = upd (fun _ => 0) 0 (/ a)).
  { unfold s. rewrite coord_fst. cbn [fst]. rewrite G0. destruct (Req_EM_T (a * a) 0); [nra|]. f_equal.
    assert (EG : grad 2 2 (two a b) (fun _ => 1) (fun _ => 0) 0 = - a).
    { unfold grad, wtv. rewrite (sumn_all0 2 (fun l => _ * 0)) by (intros; ring). unfold sumn, two. cbn. lra. }
    rewrite EG. replace (0 - - a * 1 / (a * a)) with (/ a) by (field; lra). apply Rmax_left. lra. }
  rewrite coord_fst, E0. unfold upd. cbn [Nat.eqb]. split; [reflexivity|]. rewrite G1. destruct (Req_EM_T (b * b) 0); [nra|].
  assert (EG : grad 2 2 (two a b) (fun _ => 1) (fun l => if (l =? 0)%nat then / a else 0) 1 = - b).
  { unfold grad. rewrite !sumn_S, sumn_0, G10, G1. unfold wtv. rewrite !sumn_S, sumn_0. unfold two. cbn. lra. }
  rewrite EG. replace (0 - - b * 1 / (b * b)) with (/ b) by (field; lra). apply Rmax_left. lra.
Qed.
Example sweep_ex : let h := fst (sweep 2 2 1 (two (1 / 2) 1) [0%nat; 1%nat] (fun _ => 1) (fun _ => 0)) in h 0%nat = 2 /\ h 1%nat = 1.
Proof. unfold sweep. destruct (two_sweep (1 / 2) 1 (Some 0)) as [A B]; [lra..|]. cbv zeta. rewrite A, B. split; field. Qed.

(** ** The topics *)
(** After a step no weight is below zero, none above the largest value, and no topic is longer than 1. *)
Theorem topics_feasible : forall m K b eta A B W, bound_ok b -> feasible m K (w_step m K b eta A B W) /\ (forall y i k, b = Max y -> w_step m K b eta A B W i k <= y).
Proof. intros m K b eta A B W H. split; [apply transform_feasible; auto|]. intros y i k E. apply (transform_max m b y); auto. rewrite E in H. exact H. Qed.
Print Assumptions topics_feasible.

(** If the largest value does not cut anything off, a step of at most 2 does not raise the error, and lowers it unless W stays. *)
Theorem topics_descend : forall m K b kappa A B W, 0 < kappa <= 2 -> symmetric_in K A -> 0 < frobenius K A -> feasible m K W ->
  let eta := kappa / frobenius K A in let W' := w_step m K b eta A B W in
  (forall i k, (i < m)%nat -> (k < K)%nat -> clip b (W i k - eta * (mmul K W A i k - B i k)) = Rmax (W i k - eta * (mmul K W A i k - B i k)) 0) ->
  w_error m K A B W' <= w_error m K A B W /\
  (kappa < 2 -> (exists i k, (i < m)%nat /\ (k < K)%nat /\ W' i k <> W i k) -> w_error m K A B W' < w_error m K A B W).
Proof.
  intros m K b kappa A B W Hk SA HF HW eta W' HC. pose proof (w_step_gain m K b kappa A B W (proj1 Hk) SA HF HW HC) as G. cbv zeta in G. fold eta in G. fold W' in G.
  set (D := sumn m _) in G. assert (D0 : 0 <= D) by (apply sumn_nonneg; intros; apply sumn_nonneg; intros; apply pow2_ge_0).
  assert (C0 : forall c, c = 1 / kappa - 1 / 2 -> 0 <= c /\ (kappa < 2 -> 0 < c)).
  { intros c ->. assert (E : (1 / kappa - 1 / 2) * (2 * kappa) = 2 - kappa) by (field; lra). split; [|intros L]; nra. }
  destruct (C0 _ eq_refl) as [C1 C2]. set (c := 1 / kappa - 1 / 2) in *. assert (F0 : 0 < frobenius K A) by auto.
  split.
  - assert (0 <= c * frobenius K A * D) by (apply Rmult_le_pos; [apply Rmult_le_pos; lra | auto]). lra.
  - intros L [i [k [Hi [Hl NE]]]]. specialize (C2 L). assert (0 < D).
    { destruct (Rle_lt_or_eq_dec 0 D D0) as [|E]; [auto|]. exfalso. apply NE.
      assert (Z1 : sumn K (fun k => (W' i k - W i k) ^ 2) = 0).
      { symmetry in E. unfold D, sumn in E. apply (Rsum_zero _) with (x := sumn K (fun k => (W' i k - W i k) ^ 2)) in E; auto.
        - intros x Hx. apply in_map_iff in Hx. destruct Hx as [j [<- _]]. apply sumn_nonneg. intros; apply pow2_ge_0.
        - apply in_map_iff. exists i. split; [reflexivity | apply in_seq; lia]. }
      pose proof (sumn_sq0 K (fun k => W' i k - W i k)) as S0. rewrite (sumn_ext K (fun k => _ * _) (fun k => (W' i k - W i k) ^ 2)) in S0 by (intros; ring).
      specialize (S0 Z1 k Hl). cbv beta in S0. lra. }
    assert (0 < c * frobenius K A * D) by (apply Rmult_lt_0_compat; [apply Rmult_lt_0_compat; lra | auto]). lra.
Qed.
Print Assumptions topics_descend.

(** The largest value, which is that of the first batch, can cut off so much that the error rises: documents with larger numbers later. *)
Theorem topics_descend_refuted : exists m K y (v h : col) W, feasible m K W /\
  let A := outer_h [h] in let B := cross [v] [h] in
  w_error m K A B W < w_error m K A B (w_step m K (Max y) (1 / frobenius K A) A B W) /\ nonneg K h /\ (forall i, 0 <= v i).
Proof.
  exists 2%nat, 1%nat, 1, (fun i => if (i =? 0)%nat then 3 / 4 else 10), (fun _ => 1), (fun i _ => if (i =? 0)%nat then 0 else 1).
  split; [split; [intros i k _ _; destruct (i =? 0)%nat; lra | intros k _; rewrite !sumn_S, sumn_0; cbn; lra]|].
  intros A B. split; [|split; [intros k _; lra | intros i; destruct (i =? 0)%nat; lra]].
  assert (EA : A = fun _ _ => 1) by (apply functional_extensionality; intros i; apply functional_extensionality; intros j; unfold A, outer_h; cbn; lra).
  assert (EB : B = fun i _ => if (i =? 0)%nat then 3 / 4 else 10) by (apply functional_extensionality; intros i; apply functional_extensionality; intros j; unfold B, cross; cbn; lra).
  rewrite EA, EB. clear A B EA EB.
  assert (F : frobenius 1 (fun _ _ => 1) = 1) by (unfold frobenius; rewrite !sumn_S, !sumn_0; replace (0 + (0 + 1 ^ 2)) with 1 by ring; apply sqrt_1). rewrite F.
  set (W' := w_step _ _ _ _ _ _ _).
  assert (C0 : forall i, clip (Max 1) (((if (i =? 0)%nat then 0 else 1) - 1 / 1 * (mmul 1 (fun i _ => if (i =? 0)%nat then 0 else 1) (fun _ _ => 1) i 0 - (if (i =? 0)%nat then 3 / 4 else 10)))) = if (i =? 0)%nat then 3 / 4 else 1).
  { intros i. unfold mmul. rewrite sumn_S, sumn_0. destruct (i =? 0)%nat; cbn [clip]; [rewrite (Rmax_left _ 0) by lra; rewrite Rmin_left by lra; lra | rewrite (Rmax_left _ 0) by lra; rewrite Rmin_right by lra; lra]. }
  assert (E : forall i, W' i 0%nat = if (i =? 0)%nat then 3 / 5 else 4 / 5).
  { intros i. unfold W', w_step, transform. rewrite C0. rewrite !sumn_S, sumn_0, !C0. cbn [Nat.eqb].
    replace (0 + (3 / 4) ^ 2 + 1 ^ 2) with ((5 / 4) * (5 / 4)) by field. rewrite sqrt_square by lra. rewrite Rmax_left by lra. destruct (i =? 0)%nat; lra. }
  unfold w_error, mmul. rewrite !sumn_S, !sumn_0, !E. cbn [Nat.eqb]. lra.
Qed.
Print Assumptions topics_descend_refuted.

(** Without a largest value (which is so after the first query) all steps together do not raise it. *)
Theorem solution_descends : forall m K kappa stop A B n W old W', 0 < kappa <= 2 -> symmetric_in K A -> feasible m K W ->
  fst (solve_w m K Infinite kappa stop A B n W old) = Mat W' -> w_error m K A B W' <= w_error m K A B W /\ feasible m K W'.
Proof.
  intros m K kappa stop A B n W old W' Hk SA HW E. unfold solve_w in E. destruct (Req_EM_T (frobenius K A) 0) as [Z0|NZ].
  - destruct n; [cbn in E; injection E as <-; split; [lra | auto]|]. destruct (w_stops _ _ _); [|discriminate E]. cbn in E. injection E as <-. split; [lra | auto].
  - cbn [fst] in E. injection E as <-. assert (0 <= frobenius K A) by apply sqrt_pos. split; [apply iter_w_descent; auto; [lra | exact Logic.I] | apply iter_w_feasible; [exact Logic.I | auto]].
Qed.
Print Assumptions solution_descends.

(** ** Training *)
Inductive reachable (m K : nat) (p : params) : nmf -> Prop :=
| reach_new : reachable m K p new_nmf
| reach_update : forall s s' noise c one cs ps docs, reachable m K p s -> update m K p noise c one cs ps docs s = Ok s' -> reachable m K p s'
| reach_query : forall s W normalize minimum perms v, reachable m K p s -> n_W s = Mat W -> reachable m K p (snd (get_document_topics m K p normalize minimum perms W s v)).

(** Whatever is trained and asked, the topics, if they are numbers, stay in bounds, and the statistics are as the descent needs them. *)
Theorem training_feasible : forall m K p s, (0 < w_iter p)%nat -> reachable m K p s ->
  (forall W, n_W s = Mat W -> feasible m K W) /\ symmetric_in K (n_A s) /\ (forall hs, n_h s = Some hs -> Forall (nonneg K) hs) /\ bound_ok (v_max s).
Proof.
  intros m K p s Hw R. assert (I0 : Inv m K s).
  { induction R as [|s s' noise c one cs ps docs R IH U|s W nz mn perms v R IH EW].
    - repeat split; cbn; auto.
    - unfold update in U. destruct (negb one && _); [injection U as <-; auto|]. destruct (one && _); [discriminate U|]. injection U as <-. apply batches_inv; auto.
    - destruct IH as [_ [HA [Hh HW]]]. repeat split; auto. }
  destruct I0 as [Hb [HA [Hh HW]]]. split; [|split; [auto | split; [|auto]]].
  - intros W E. rewrite E in HW. exact HW.
  - intros hs E. unfold hs_of in Hh. rewrite E in Hh. exact Hh.
Qed.
Print Assumptions training_feasible.

(** A pass goes over every document once, in batches of the size given to the model, and each batch in a random order. *)
Theorem passes_exact : forall p arg passes docs, (1 <= chunksize p)%nat ->
  concat (all_chunks p false arg passes docs) = concat (repeat docs passes) /\ Forall (fun ch => ch <> [] /\ (length ch <= chunksize p)%nat) (all_chunks p false arg passes docs).
Proof.
  intros p arg passes docs Hc. unfold all_chunks. cbn [andb]. destruct (chunkize_serial_exact docs (chunksize p) Hc) as [E [F _]].
  generalize 0%nat. induction passes as [|n IH]; intros q; cbn [seq map concat repeat]; [auto|]. destruct (IH (S q)) as [A B]. split.
  - rewrite concat_app, A, E. reflexivity.
  - apply Forall_app. auto.
Qed.
Print Assumptions passes_exact.
Theorem batch_order : forall chunk order, Permutation order (seq 0 (length chunk)) -> Permutation (pick_docs chunk order) chunk.
Proof.
  intros chunk order H. unfold pick_docs. rewrite H.
  assert (E : map (fun j => nth j chunk (fun _ => 0)) (seq 0 (length chunk)) = chunk).
  { apply nth_ext with (d := (fun _ => 0)) (d' := (fun _ => 0)); [rewrite map_length, seq_length; reflexivity|]. intros n Hn. rewrite map_length, seq_length in Hn.
    rewrite (nth_indep _ _ (nth 0 chunk (fun _ => 0))) by (rewrite map_length, seq_length; auto). rewrite (map_nth (fun j => nth j chunk (fun _ => 0)) _ 0%nat). rewrite seq_nth by auto. reflexivity. }
  rewrite E. reflexivity.
Qed.
Print Assumptions batch_order.

(** The size of the batches given to [update] is not used. *)
Theorem chunksize_refuted : exists p arg docs ch, In ch (all_chunks p false (Some arg) 1 docs) /\ (arg < length ch)%nat.
Proof. exists (mkParams 1 1 1 1 2 1), 1%nat, [(fun _ => 1); (fun _ => 2)], [(fun _ => 1); (fun _ => 2)]. split; [left; reflexivity | cbn; lia]. Qed.
Print Assumptions chunksize_refuted.
(** An iterator with two passes given to [update]: the second is empty, and nothing is said. *)
Theorem nmf_iterator_refuted : exists m K p noise c docs s s', update m K p noise c true None (Some 2%nat) docs s = Ok s' /\
  s' = batches m K p noise c 1 (chunkize_serial docs (chunksize p)) s /\ concat (all_chunks p true None 2 docs) <> concat (repeat docs 2).
Proof.
  exists 1%nat, 1%nat, (mkParams 1 1 1 1 2 1), mzero, (mkChance (fun _ => [0%nat]) (fun _ => [])), [(fun _ => 1)], new_nmf. eexists. split; [reflexivity|]. split; [reflexivity|].
  intros E. apply (f_equal (@length _)) in E. vm_compute in E. discriminate E.
Qed.
Print Assumptions nmf_iterator_refuted.

(** The statistics after an update are the means over the batches of this update. *)
Theorem statistics_exact : forall m K p noise c chunks s, chunks <> [] ->
  let s' := batches m K p noise c 1 chunks s in
  let weights t := match n_h (batches m K p noise c 1 (firstn (S t) chunks) s) with Some hs => hs | None => [] end in
  (forall k l, n_A s' k l = Rsum (map (fun t => outer_h (weights t) k l) (seq 0 (length chunks))) / INR (length chunks)) /\
  (forall i k, n_B s' i k = Rsum (map (fun t => cross (pick_docs (nth t chunks []) (shuffled c (S t))) (weights t) i k) (seq 0 (length chunks))) / INR (length chunks)).
Proof.
  intros m K p noise c chunks s NE s' weights. destruct (batches_means m K p noise c chunks s NE) as [A B].
  assert (N0 : INR (length chunks) <> 0) by (apply not_0_INR; destruct chunks; [congruence | discriminate]).
  split; intros i j; apply (Rmult_eq_reg_l (INR (length chunks))); auto; unfold s'; [rewrite A | rewrite B]; field_simplify; auto; reflexivity.
Qed.
Print Assumptions statistics_exact.

(** So a second update forgets what the statistics were: the first batch has number 1 again. *)
Theorem update_forgets_refuted : forall m K p noise c one cs ps docs s A B, all_chunks p one cs (match ps with Some n => n | None => own_passes p end) docs <> [] ->
  docs <> [] -> update m K p noise c one cs ps docs (mkNmf (n_W s) A B (v_max s) (n_error s) (n_h s)) = update m K p noise c one cs ps docs s.
Proof.
  intros m K p noise c one cs ps docs s A B NE ND. unfold update. destruct (all_chunks _ _ _ _ _) as [|ch chunks]; [congruence|]. 
  destruct docs as [|d docs]; [congruence|]. cbn [length Nat.eqb]. rewrite andb_false_r. destruct (one && _); [reflexivity|]. cbn [batches]. rewrite batch_forgets. reflexivity.
Qed.
Print Assumptions update_forgets_refuted.

(** An update that begins with a batch of documents without words turns every number of W into no number (after a new model, or a batch of
    another size), and no later update repairs that. *)
Theorem empty_batch_refuted : forall m K p noise c chunk chunks s, (0 < w_iter p)%nat -> w_stop p <= 1 ->
  match n_h s with Some hs => length hs <> length (shuffled c 1%nat) | None => True end ->
  (forall v, In v chunk -> forall i, (i < m)%nat -> v i = 0) -> n_W (batches m K p noise c 1 (chunk :: chunks) s) = NaN.
Proof.
  intros m K p noise c chunk chunks s Hw Hs Hh Hv. cbn [batches]. apply batches_nan. apply empty_batch_nan; auto.
  - unfold hs_of, pick_docs. rewrite map_length. destruct (n_h s); auto.
  - intros v Hin. unfold pick_docs in Hin. apply in_map_iff in Hin. destruct Hin as [j [<- _]]. destruct (nth_in_or_default j chunk (fun _ => 0)) as [H|H]; [auto|]. intros i _. rewrite H. reflexivity.
Qed.
Print Assumptions empty_batch_refuted.
Theorem nan_forever : forall m K p noise c one cs ps docs s s', n_W s = NaN -> update m K p noise c one cs ps docs s = Ok s' -> n_W s' = NaN.
Proof.
  intros m K p noise c one cs ps docs s s' H U. unfold update in U. destruct (negb one && _); [injection U as <-; auto|]. destruct (one && _); [discriminate U|].
  injection U as <-. apply batches_nan. auto.
Qed.
Print Assumptions nan_forever.
(** The second document alone can be learned; with an empty one in the batch before, nothing can. *)
Example empty_batch_ex : forall noise c, n_W (batches 1 1 (mkParams 1 (1 / 1000) (1 / 1000) 200 1 1) noise c 1 [[(fun _ => 0)]; [(fun _ => 1)]] new_nmf) = NaN.
Proof. intros. apply empty_batch_refuted; cbn [w_iter w_stop n_h new_nmf]; [lia | lra | auto |]. intros v [<-|[]] i _. reflexivity. Qed.

(** ** Queries *)
Theorem topics_sum : forall m W k, sumn m (fun j => W j k) <> 0 -> sumn m (get_topics m true W k) = 1.
Proof. intros m W k H. unfold get_topics, Rdiv. rewrite sumn_scal_r. field. auto. Qed.
Print Assumptions topics_sum.

(** The topics of a document: those above the threshold, with their shares of weights that fit the document no worse than none at all. *)
Theorem document_topics_exact : forall m K p minimum perms W s v, 0 < kappa p <= 2 -> (forall q k, In q perms -> In k q -> (k < K)%nat) ->
  exists h, nonneg K h /\ sqerr m K W v h <= sumn m (fun i => v i ^ 2) /\
  (forall k w, In (k, w) (fst (get_document_topics m K p false minimum perms W s v)) <-> (k < K)%nat /\ w = h k /\ Rmax minimum (1 / 100000000) < w) /\
  (0 < sumn K h -> forall k w, In (k, w) (fst (get_document_topics m K p true minimum perms W s v)) <-> (k < K)%nat /\ w = h k / sumn K h /\ Rmax minimum (1 / 100000000) < w) /\
  (sumn K h = 0 -> fst (get_document_topics m K p true minimum perms W s v) = []).
Proof.
  intros m K p minimum perms W s v Hk Hp. unfold get_document_topics. cbn [fst].
  destruct (iter_prefix m K (kappa p) (h_stop p) W [v] perms None (zeros 1)) as [n [_ [_ E]]]. rewrite run_many in E by reflexivity. 
  change (combine [v] (zeros 1)) with [(v, (fun _ : nat => 0))] in E. cbn [map fst snd] in E. rewrite E. cbn [hd]. set (h := fold_left _ _ _).
  destruct (run1_good m K (kappa p) W v (firstn n perms) (fun _ => 0)) as [A B]; auto.
  { intros q k Hin. apply Hp. rewrite <- (firstn_skipn n perms). apply in_or_app. auto. }
  { intros k _. lra. }
  fold h in A, B. exists h. split; [auto|]. split.
  { eapply Rle_trans; [exact B|]. unfold sqerr. right. apply sumn_ext. intros i _. rewrite sumn_all0 by (intros; ring). ring. }
  assert (FI : forall f : nat -> R, forall k w, In (k, w) (filter (fun kw : nat * R => if Rlt_dec (Rmax minimum (1 / 100000000)) (snd kw) then true else false) (map (fun k => (k, f k)) (seq 0 K))) <->
     (k < K)%nat /\ w = f k /\ Rmax minimum (1 / 100000000) < w).
  { intros f k w. rewrite filter_In, in_map_iff. cbn [snd]. destruct (Rlt_dec _ w) as [L|L].
    - split; [intros [[x [Ex Hx]] _]; injection Ex as <- <-; apply in_seq in Hx; repeat split; auto; lia | intros [H1 [-> _]]; split; [exists k; split; [reflexivity | apply in_seq; lia] | reflexivity]].
    - split; [intros [_ F]; discriminate F | intros [_ [_ F]]; contradiction]. }
  split; [|split].
  - intros k w. apply (FI h).
  - intros S0 k w. destruct (Req_EM_T (sumn K h) 0); [lra|]. apply (FI (fun k => h k / sumn K h)).
  - intros S0. destruct (Req_EM_T (sumn K h) 0) as [_|]; [|contradiction].
    assert (H0 : forall k, (k < K)%nat -> h k = 0).
    { intros k Hl. unfold sumn in S0. apply (Rsum_zero _) with (x := h k) in S0; auto.
      - intros x Hx. apply in_map_iff in Hx. destruct Hx as [j [<- Hj]]. apply in_seq in Hj. apply A. lia.
      - apply in_map, in_seq. lia. }
    destruct (filter _ _) as [|[k w] l] eqn:EF; [reflexivity|]. exfalso. assert (IN : In (k, w) ((k, w) :: l)) by (left; reflexivity). rewrite <- EF in IN. apply (FI h) in IN.
    destruct IN as [Hl [-> L]]. rewrite (H0 k Hl) in L. pose proof (Rmax_r minimum (1 / 100000000)). lra.
Qed.
Print Assumptions document_topics_exact.

(** The question changes the model: there is no largest value any more. *)
Theorem document_query_refuted : exists m K p perms W s v, v_max s = Max 1 /\ v_max (snd (get_document_topics m K p true 0 perms W s v)) = Infinite.
Proof. exists 1%nat, 1%nat, (mkParams 1 1 1 1 1 1), [], mzero, (mkNmf (Mat mzero) mzero mzero (Max 1) None None), (fun _ => 0). split; reflexivity. Qed.
Print Assumptions document_query_refuted.

(** The terms of a topic sum to 1. *)
Theorem topic_terms_sum : forall m W k, sumn m (fun j => W j k) <> 0 -> Rsum (fst (get_topic_terms m true W k)) = 1 /\
  (forall i l, l <> k -> snd (get_topic_terms m true W k) i l = W i l) /\ snd (get_topic_terms m false W k) = W.
Proof.
  intros m W k H. cbn [get_topic_terms fst snd]. repeat split.
  - rewrite Nat.eqb_refl. change (sumn m (fun i => W i k / sumn m (fun j => W j k)) = 1). unfold Rdiv. rewrite sumn_scal_r. field. auto.
  - intros i l NE. destruct (Nat.eqb_spec l k); [contradiction | reflexivity].
Qed.
Print Assumptions topic_terms_sum.

(** But the question writes the shares into the model, so that the topics of a document are others afterwards. *)
Theorem topic_terms_refuted : exists m K p perms W s v k w, feasible m K W /\
  In (k, w) (fst (get_document_topics m K p true 0 perms W s v)) /\
  ~ In (k, w) (fst (get_document_topics m K p true 0 perms (snd (get_topic_terms m true W k)) s v)).
Proof.
  exists 2%nat, 2%nat, (mkParams 1 1 1 1 1 1), [[0%nat; 1%nat]], (two (1 / 2) 1), new_nmf, (fun _ => 1), 0%nat, (2 / 3).
  assert (D : forall a b, 0 < a -> 0 < b -> forall W, W = two a b -> forall w, In (0%nat, w) (fst (get_document_topics 2 2 (mkParams 1 1 1 1 1 1) true 0 [[0%nat; 1%nat]] W new_nmf (fun _ => 1))) -> w = / a / (/ a + / b)).
  { intros a b Ha Hb W -> w. unfold get_document_topics. cbn [fst kappa h_stop iter_h zeros repeat]. unfold solve_h. cbn [combine map fst snd h_stops hd]. unfold sweep.
    destruct (two_sweep a b (Some 0) Ha Hb) as [E0 E1]. cbv zeta in E0, E1. set (h := fst (fold_left _ _ _)) in *. clearbody h.
    assert (Ia : 0 < / a) by (apply Rinv_0_lt_compat; auto). assert (Ib : 0 < / b) by (apply Rinv_0_lt_compat; auto).
    assert (ST : sumn 2 h = / a + / b) by (rewrite !sumn_S, sumn_0, E0, E1; lra). rewrite ST. destruct (Req_EM_T _ 0); [lra|].
    intros Hin. apply filter_In in Hin. destruct Hin as [[Hin|[Hin|[]]] _]; [|discriminate Hin]. injection Hin as <-. rewrite E0. reflexivity. }
  split; [split|].
  - intros i k _ _. unfold two. destruct (i =? k)%nat; [destruct (k =? 0)%nat; lra | lra].
  - intros k Hk. rewrite !sumn_S, sumn_0. unfold two. destruct k as [|[|k]]; [cbn; lra | cbn; lra | lia].
  - split.
    + unfold get_document_topics. cbn [fst kappa h_stop iter_h zeros repeat]. unfold solve_h. cbn [combine map fst snd h_stops hd]. unfold sweep.
      destruct (two_sweep (1 / 2) 1 (Some 0)) as [E0 E1]; [lra..|]. cbv zeta in E0, E1. set (h := fst (fold_left _ _ _)) in *. clearbody h.
      assert (ST : sumn 2 h = 3) by (rewrite !sumn_S, sumn_0, E0, E1; field). rewrite ST. destruct (Req_EM_T 3 0); [lra|].
      apply filter_In. cbn [snd]. split; [left; f_equal; rewrite E0; field|]. rewrite Rmax_right by lra. destruct (Rlt_dec _ _); [reflexivity | lra].
    + intros Hin. apply (D 1 1) in Hin; [lra..|].
      cbn [get_topic_terms snd]. apply functional_extensionality. intros i. apply functional_extensionality. intros k. rewrite !sumn_S, sumn_0. unfold two.
      destruct k as [|k]; cbn [Nat.eqb]; [destruct (Nat.eqb_spec i 0) as [->|]; cbn; field | destruct i; reflexivity].
Qed.
Print Assumptions topic_terms_refuted.

(** The topics of a word: likewise, and they are those above the threshold. *)
Theorem term_topics_exact : forall K normalize minimum W word k w, In (k, w) (fst (get_term_topics K normalize minimum W word)) <->
  (k < K)%nat /\ w = (if normalize then if Rlt_dec 0 (sumn K (W word)) then W word k / sumn K (W word) else W word k else W word k) /\ Rmax minimum (1 / 100000000) <= w.
Proof.
  intros K normalize minimum W word k w. unfold get_term_topics. cbn [fst]. rewrite filter_In, in_map_iff. cbn [snd].
  assert (V : forall k, (if normalize then if Rlt_dec 0 (sumn K (W word)) then (fun i k => if (i =? word)%nat then W i k / sumn K (W word) else W i k) else W else W) word k =
     if normalize then if Rlt_dec 0 (sumn K (W word)) then W word k / sumn K (W word) else W word k else W word k).
  { intros j. destruct normalize; [|reflexivity]. destruct (Rlt_dec _ _); [rewrite Nat.eqb_refl|]; reflexivity. }
  destruct (Rle_dec _ w) as [L|L].
  - split; [intros [[x [Ex Hx]] _]; injection Ex as <- <-; apply in_seq in Hx; repeat split; auto; lia | intros [H1 [-> _]]; split; [exists k; split; [f_equal; apply V | apply in_seq; lia] | reflexivity]].
  - split; [intros [_ F]; discriminate F | intros [_ [_ F]]; contradiction].
Qed.
Print Assumptions term_topics_exact.
(** It, too, writes into the model: a topic can become longer than 1. *)
Theorem term_topics_refuted : exists m K W word, feasible m K W /\ ~ feasible m K (snd (get_term_topics K true 0 W word)).
Proof.
  exists 2%nat, 1%nat, (fun i _ => if (i =? 0)%nat then 1 / 2 else 1 / 2), 0%nat.
  split; [split; [intros i k _ _; destruct (i =? 0)%nat; lra | intros k _; rewrite !sumn_S, sumn_0; cbn; lra]|].
  intros [_ H]. specialize (H 0%nat ltac:(lia)). cbn [get_term_topics snd] in H. rewrite (sumn_S 0), sumn_0 in H. cbn [Nat.eqb] in H.
  destruct (Rlt_dec 0 (0 + 1 / 2)); [|lra]. rewrite !sumn_S, sumn_0 in H. cbn [Nat.eqb] in H. replace ((1 / 2) / (0 + 1 / 2)) with 1 in H by field. lra.
Qed.
Print Assumptions term_topics_refuted.
