(** * C75: the log-ratio measures (c_uci, c_npmi) and the cosine measure (c_v). *)
From Coq Require Import List Arith Lia Reals Lra Permutation.
From Verif Require Import Base MatReal_Model MatReal_Proofs CohAccum_Model CohMeasure_Model CohUMass_Properties.
Local Open Scope R_scope.

(** ** Specification *)

(** An accumulator that holds the counts of a set of windows: [n] windows, [o i]
    of them with word [i], [c i j] with both. *)
Record counts (ws : list nat) (a : accumulator) (n : nat) (o : nat -> nat) (c : nat -> nat -> nat) : Prop := {
  ct_docs : a_docs a = n;
  ct_occ : forall i, In i ws -> a_occ a i = Ok (o i);
  ct_co : forall i j, In i ws -> In j ws -> a_co a i j = Ok (c i j);
  ct_sym : forall i j, In i ws -> In j ws -> c i j = c j i;
  ct_le : forall i j, In i ws -> In j ws -> (c i j <= o i)%nat;
  ct_n : forall i, In i ws -> (o i <= n)%nat
}.

Definition prob (k n : nat) : R := INR k / INR n.
Definition pmi (p p1 p2 : R) : R := ln ((p + / 1000000000000) / (p1 * p2)).
Definition npmi (p p1 p2 : R) : R := pmi p p1 p2 / - ln (p + / 1000000000000).

Lemma ln_le_mono : forall x y, 0 < x -> x <= y -> ln x <= ln y.
Proof. intros x y Hx [H|H]; [left; now apply ln_increasing|right; now f_equal]. Qed.
Lemma ln_neq_0 : forall x, 0 < x -> x <> 1 -> ln x <> 0.
Proof. intros x H N E. apply N. apply ln_inv; [assumption|lra|]. now rewrite ln_1. Qed.

Lemma prob_range : forall k n, (k <= n)%nat -> (n <> 0)%nat -> 0 <= prob k n <= 1.
Proof.
  intros k n L N. unfold prob. apply le_INR in L. assert (P : 0 < INR n) by (apply (lt_INR 0); lia). pose proof (pos_INR k).
  split; apply Rmult_le_reg_r with (INR n); auto; unfold Rdiv; rewrite Rmult_assoc, Rinv_l by lra; lra.
Qed.
Lemma prob_pos : forall k n, (k <> 0)%nat -> (n <> 0)%nat -> 0 < prob k n.
Proof.
  intros k n K N. unfold prob. apply Rdiv_lt_0_compat; apply (lt_INR 0); lia.
Qed.

(** ** Value *)

Lemma m_lr_value : forall ws a n o c i j, counts ws a n o c -> In i ws -> In j ws -> o i <> 0%nat -> o j <> 0%nat ->
  m_lr a i j = Ok (pmi (prob (c i j) n) (prob (o i) n) (prob (o j) n)).
Proof.
  intros ws a n o c i j H Hi Hj Zi Zj. unfold m_lr. rewrite (ct_occ _ _ _ _ _ H i Hi), (ct_occ _ _ _ _ _ H j Hj), (ct_co _ _ _ _ _ H i j Hi Hj), (ct_docs _ _ _ _ _ H).
  cbn [rbind]. pose proof (ct_n _ _ _ _ _ H i Hi).
  rewrite (proj2 (Nat.eqb_neq n 0)), (proj2 (Nat.eqb_neq (o i) 0)), (proj2 (Nat.eqb_neq (o j) 0)) by lia. reflexivity.
Qed.


(** Both measures on a list of topics, segmented in pairs. *)
Theorem log_ratio_exact : forall (normalize : bool) segs a n o c ws, counts ws a n o c ->
  (forall s, In s segs -> s <> []) ->
  (forall s p, In s segs -> In p s -> In (fst p) ws /\ In (snd p) ws) ->
  (forall i, In i ws -> o i <> 0%nat) ->
  (normalize = true -> forall i j, In i ws -> In j ws -> prob (c i j) n + / 1000000000000 <> 1) ->
  log_ratio_measure normalize segs a =
    Ok (map (fun s => Rsum (map (fun p : nat * nat =>
          (if normalize then npmi else pmi) (prob (c (fst p) (snd p)) n) (prob (o (fst p)) n) (prob (o (snd p)) n)) s) / INR (length s)) segs).
Proof.
  intros normalize segs a n o c ws H HN HI HO HE. unfold log_ratio_measure. apply rmapM_ok_map. intros s Hs.
  rewrite (rmapM_ok_map _ (fun p : nat * nat =>
          (if normalize then npmi else pmi) (prob (c (fst p) (snd p)) n) (prob (o (fst p)) n) (prob (o (snd p)) n))).
  - cbn [rbind]. unfold mean. specialize (HN s Hs). destruct s as [|x s]; [congruence|]. cbn [map]. cbn [length]. now rewrite map_length.
  - intros p Hp. destruct (HI s p Hs Hp) as [H1 H2]. pose proof (m_lr_value ws a n o c _ _ H H1 H2 (HO _ H1) (HO _ H2)) as V.
    destruct normalize; [|exact V]. unfold m_nlr. rewrite V, (ct_occ _ _ _ _ _ H _ H1), (ct_occ _ _ _ _ _ H _ H2), (ct_co _ _ _ _ _ H _ _ H1 H2), (ct_docs _ _ _ _ _ H).
    cbn [rbind]. specialize (HE eq_refl _ _ H1 H2). unfold prob, EPSILON in *. destruct (Req_EM_T _ 0) as [E|NE]; [|reflexivity].
    exfalso. apply (ln_neq_0 (INR (c (fst p) (snd p)) / INR n + / 1000000000000)); [|assumption|lra].
    pose proof (prob_range (c (fst p) (snd p)) n) as PR. unfold prob in PR.
    pose proof (ct_le _ _ _ _ _ H _ _ H1 H2). pose proof (ct_n _ _ _ _ _ H _ H1). specialize (HO _ H1).
    assert (0 <= INR (c (fst p) (snd p)) / INR n <= 1) by (apply PR; lia). lra.
Qed.
Print Assumptions log_ratio_exact.

(** Two windows, word 1 in both, word 2 in one of them. *)
Definition acc_ex : accumulator := Accum 2
  (fun i => match i with 1 => Ok 2 | 2 => Ok 1 | 3 => Ok 1 | _ => Err KeyError end)%nat
  (fun i j => match i, j with 1, 1 => Ok 2 | 2, 3 => Ok 0 | 3, 2 => Ok 0 | 1, 2 => Ok 1 | 2, 1 => Ok 1 | 1, 3 => Ok 1 | 3, 1 => Ok 1 | 2, 2 => Ok 1 | 3, 3 => Ok 1 | _, _ => Err KeyError end)%nat.
Definition o_ex (i : nat) : nat := match i with 1 => 2 | _ => 1 end%nat.
Definition c_ex (i j : nat) : nat := if (i =? 1)%nat then o_ex j else if (j =? 1)%nat then o_ex i else if (i =? j)%nat then 1%nat else 0%nat.
Lemma acc_ex_counts : counts [1; 2; 3]%nat acc_ex 2 o_ex c_ex.
Proof.
  split; [reflexivity| | | | |]; intros; cbn [In] in *;
  repeat match goal with H : _ \/ _ |- _ => destruct H end; subst; try contradiction; try reflexivity; cbn; lia.
Qed.

Example log_ratio_ex : log_ratio_measure false [[(1, 2); (3, 2)]]%nat acc_ex =
  Ok [(ln (1 + / 500000000000) + ln (/ 250000000000)) / 2].
Proof.
  rewrite (log_ratio_exact false [[(1, 2); (3, 2)]]%nat acc_ex 2 o_ex c_ex [1; 2; 3]%nat acc_ex_counts).
  - unfold pmi, prob. cbn -[INR]. cbn [INR]. do 2 f_equal.
    match goal with |- (ln ?x + (ln ?y + 0)) / _ = _ => replace x with (1 + / 500000000000) by lra; replace y with (/ 250000000000) by lra end. lra.
  - intros s [<-|[]]. discriminate.
  - intros s p [<-|[]] [<-|[<-|[]]]; cbn; auto.
  - intros i [<-|[<-|[<-|[]]]]; discriminate.
  - discriminate.
Qed.

(** A word without any occurrence makes the whole computation fail (with numpy
    counts: infinite). *)
Theorem log_ratio_unseen : forall normalize segs a n o c ws, counts ws a n o c ->
  (forall s p, In s segs -> In p s -> In (fst p) ws /\ In (snd p) ws) ->
  forall s p l, In s segs -> In p s -> o (fst p) = 0%nat \/ o (snd p) = 0%nat ->
  log_ratio_measure normalize segs a <> Ok l.
Proof.
  intros normalize segs a n o c ws H HI s p l Hs Hp Z E. unfold log_ratio_measure in E.
  assert (A : forall {X Y} (f : X -> result Y) l l' x, rmapM f l = Ok l' -> In x l -> exists y, f x = Ok y).
  { intros X Y f. induction l0 as [|y l0 IH]; intros l' x Ex Hx; [destruct Hx|]. cbn in Ex.
    destruct (f y) eqn:Ef; [|discriminate]. cbn in Ex. destruct (rmapM f l0) eqn:Er; [|discriminate].
    destruct Hx as [<-|Hx]; [eauto|]. eapply IH; eauto. }
  destruct (A _ _ _ _ _ s E Hs) as [y Ey]. cbn beta in Ey. destruct (rmapM _ s) as [sims|] eqn:Er; [|discriminate].
  destruct (A _ _ _ _ _ p Er Hp) as [z Ez]. destruct (HI s p Hs Hp) as [H1 H2].
  assert (ML : m_lr a (fst p) (snd p) = Err ZeroDivErr).
  { unfold m_lr. rewrite (ct_occ _ _ _ _ _ H _ H1), (ct_occ _ _ _ _ _ H _ H2), (ct_co _ _ _ _ _ H _ _ H1 H2). cbn [rbind].
    destruct Z as [Z|Z]; rewrite Z; cbn; now rewrite ?orb_true_r. }
  destruct normalize; [|congruence]. unfold m_nlr in Ez. rewrite ML in Ez.
  rewrite (ct_occ _ _ _ _ _ H _ H1), (ct_occ _ _ _ _ _ H _ H2), (ct_co _ _ _ _ _ H _ _ H1 H2) in Ez. discriminate.
Qed.
Print Assumptions log_ratio_unseen.

Example log_ratio_unseen_ex : m_lr (Accum 2 (fun i => if (i =? 1)%nat then Ok 0 else Ok 1)%nat (fun _ _ => Ok 0%nat)) 2 1 = Err ZeroDivErr.
Proof. reflexivity. Qed.

(** ** Symmetry and range *)

Lemma pmi_sym : forall p p1 p2, pmi p p1 p2 = pmi p p2 p1.
Proof. intros. unfold pmi. now rewrite (Rmult_comm p1). Qed.

Lemma m_nlr_sym : forall ws a n o c i j, counts ws a n o c -> In i ws -> In j ws -> m_nlr a i j = m_nlr a j i.
Proof.
  intros ws a n o c i j H Hi Hj. unfold m_nlr, m_lr. rewrite (ct_occ _ _ _ _ _ H i Hi), (ct_occ _ _ _ _ _ H j Hj), (ct_co _ _ _ _ _ H i j Hi Hj), (ct_co _ _ _ _ _ H j i Hj Hi).
  cbn [rbind]. rewrite (ct_sym _ _ _ _ _ H j i Hj Hi). rewrite (Rmult_comm (INR (o j) / _)).
  replace ((a_docs a =? 0)%nat || (o j =? 0)%nat || (o i =? 0)%nat) with ((a_docs a =? 0)%nat || (o i =? 0)%nat || (o j =? 0)%nat); [reflexivity|].
  destruct (a_docs a =? 0)%nat, (o i =? 0)%nat, (o j =? 0)%nat; reflexivity.
Qed.

(** NPMI of words that do not occur together in all windows: at least -1, and at
    most 1 except for the smoothing. *)
Theorem npmi_range : forall ws a n o c i j, counts ws a n o c -> In i ws -> In j ws -> o i <> 0%nat -> o j <> 0%nat ->
  prob (c i j) n + / 1000000000000 < 1 ->
  exists v, m_nlr a i j = Ok v /\ m_nlr a j i = Ok v /\ -1 <= v /\
    (v <= 1 <-> (prob (c i j) n + / 1000000000000) ^ 2 <= prob (o i) n * prob (o j) n) /\
    (c i j = 0%nat -> INR n <= 1000000000000 -> v <= 1).
Proof.
  intros ws a n o c i j H Hi Hj Zi Zj HE.
  pose proof (m_lr_value ws a n o c i j H Hi Hj Zi Zj) as V.
  pose proof (ct_le _ _ _ _ _ H i j Hi Hj) as L1. pose proof (ct_n _ _ _ _ _ H i Hi) as L2. pose proof (ct_n _ _ _ _ _ H j Hj) as L3.
  assert (NZ : (n <> 0)%nat) by lia.
  pose proof (prob_range (o i) n L2 NZ) as P1. pose proof (prob_range (o j) n L3 NZ) as P2.
  pose proof (prob_pos (o i) n Zi NZ) as Q1. pose proof (prob_pos (o j) n Zj NZ) as Q2.
  assert (P0 : 0 <= prob (c i j) n <= 1) by (apply prob_range; lia).
  set (q := prob (c i j) n + / 1000000000000) in *. set (p1 := prob (o i) n) in *. set (p2 := prob (o j) n) in *.
  assert (Q : 0 < q < 1) by (unfold q in *; lra).
  assert (LQ : ln q < 0) by (rewrite <- ln_1; apply ln_increasing; lra).
  assert (P12 : 0 < p1 * p2 <= 1) by nra.
  assert (L12 : ln (p1 * p2) <= 0) by (rewrite <- ln_1; apply ln_le_mono; lra).
  assert (LD : ln (q / (p1 * p2)) = ln q - ln (p1 * p2)).
  { unfold Rdiv. rewrite ln_mult, ln_Rinv by (try apply Rinv_0_lt_compat; lra). lra. }
  set (v := (ln q - ln (p1 * p2)) / - ln q).
  assert (EV : m_nlr a i j = Ok v).
  { unfold m_nlr. rewrite V, (ct_occ _ _ _ _ _ H i Hi), (ct_occ _ _ _ _ _ H j Hj), (ct_co _ _ _ _ _ H i j Hi Hj), (ct_docs _ _ _ _ _ H). cbn [rbind].
    change (INR (c i j) / INR n + EPSILON) with q. destruct (Req_EM_T _ 0) as [E|_]; [lra|]. unfold pmi. fold q p1 p2. now rewrite LD. }
  assert (VM : v * - ln q = ln q - ln (p1 * p2)) by (unfold v; field; lra).
  assert (IFF : v <= 1 <-> q ^ 2 <= p1 * p2).
  { assert (LQ2 : ln (q ^ 2) = 2 * ln q) by (cbn [pow]; rewrite Rmult_1_r, ln_mult by lra; lra).
    split; intros HH.
    - destruct (Rle_dec (q ^ 2) (p1 * p2)) as [|NL]; [assumption|]. exfalso.
      assert (ln (p1 * p2) < ln (q ^ 2)) by (apply ln_increasing; lra). nra.
    - assert (0 < q ^ 2) by nra. assert (ln (q ^ 2) <= ln (p1 * p2)) by (apply ln_le_mono; lra).
      apply Rmult_le_reg_r with (- ln q); [lra|]. rewrite VM. lra. }
  exists v. split; [exact EV|]. split; [now rewrite <- (m_nlr_sym ws a n o c i j H Hi Hj)|]. split.
  - apply Rmult_le_reg_r with (- ln q); [lra|]. rewrite VM. lra.
  - split; [exact IFF|]. intros C0 N2. apply IFF. unfold q. rewrite C0. unfold prob at 1. cbn [INR]. unfold Rdiv. rewrite Rmult_0_l, Rplus_0_l.
    assert (I1 : / 1000000000000 <= / INR n) by (apply Rinv_le_contravar; [apply (lt_INR 0); lia|exact N2]).
    assert (A1 : / INR n <= p1). { unfold p1, prob, Rdiv. assert (1 <= INR (o i)) by (apply (le_INR 1); lia). assert (0 < / INR n) by (apply Rinv_0_lt_compat, (lt_INR 0); lia). nra. }
    assert (A2 : / INR n <= p2). { unfold p2, prob, Rdiv. assert (1 <= INR (o j)) by (apply (le_INR 1); lia). assert (0 < / INR n) by (apply Rinv_0_lt_compat, (lt_INR 0); lia). nra. }
    cbn [pow]. rewrite Rmult_1_r. apply Rmult_le_compat; lra.
Qed.
Print Assumptions npmi_range.

Example npmi_range_ex : exists v, m_nlr acc_ex 2 3 = Ok v /\ -1 <= v <= 1.
Proof.
  destruct (npmi_range [1; 2; 3]%nat acc_ex 2 o_ex c_ex 2 3 acc_ex_counts) as (v & E & _ & L & _ & U); cbn; auto; try discriminate.
  - unfold prob. cbn. lra.
  - exists v. split; [exact E|]. split; [exact L|]. apply U; [reflexivity|cbn; lra].
Qed.

(** NPMI should be at most 1: two words that occur in the same windows, half of them. *)
Theorem npmi_above_one_refuted : exists ws a n o c i j v, counts ws a n o c /\ In i ws /\ In j ws /\ m_nlr a i j = Ok v /\ 1 < v.
Proof.
  exists [2]%nat, acc_ex, 2%nat, o_ex, c_ex, 2%nat, 2%nat.
  assert (H : counts [2]%nat acc_ex 2 o_ex c_ex).
  { destruct acc_ex_counts. split; auto; intros; cbn [In] in *; intuition auto. }
  destruct (npmi_range _ _ _ _ _ 2%nat 2%nat H) as (v & E & _ & L & U & _); cbn; auto; try discriminate.
  { unfold prob. cbn. lra. }
  exists v. repeat split; auto; try apply H. destruct (Rle_dec v 1) as [LE|]; [|lra]. exfalso. apply U in LE. unfold prob in LE. cbn in LE. lra.
Qed.
Print Assumptions npmi_above_one_refuted.

(** Words that occur together in every window should get a high score: they get
    -1, the score of words that never occur together. *)
Theorem npmi_always_together_refuted : exists ws a n o c i j, counts ws a n o c /\ In i ws /\ In j ws /\ i <> j /\
  o i = n /\ o j = n /\ c i j = n /\ n <> 0%nat /\ m_nlr a i j = Ok (-1).
Proof.
  exists [1; 2]%nat, (Accum 3 (fun _ => Ok 3%nat) (fun _ _ => Ok 3%nat)), 3%nat, (fun _ => 3%nat), (fun _ _ => 3%nat), 1%nat, 2%nat.
  repeat split; auto; try (cbn; auto; fail); try discriminate.
  unfold m_nlr, m_lr, EPSILON. cbn -[INR]. set (d := INR 3). assert (D : d <> 0) by (unfold d; cbn; lra).
  replace (d / d) with 1 by (field; exact D).
  assert (P : 0 < ln (1 + / 1000000000000)) by (rewrite <- ln_1 at 1; apply ln_increasing; lra).
  destruct (Req_EM_T _ 0) as [E|_]; [lra|]. f_equal. replace ((1 + / 1000000000000) / (1 * 1)) with (1 + / 1000000000000) by field. field. lra.
Qed.
Print Assumptions npmi_always_together_refuted.
