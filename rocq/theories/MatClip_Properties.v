(** C26, sparse vectors and matrices: [scipy2scipy_clipped] keeps the topn greatest entries of each row. *)
From Verif Require Import Base Matutils_Model Matutils_Proofs2 Matutils_Properties MatClip_Model.
From Coq Require Import QArith Qabs Sorted.
Local Open Scope nat_scope.

(** [r'] is a top-[k] selection of the entries of the row [r]. *)
Definition row_topn (r : srow) (k : nat) (r' : srow) : Prop :=
  length (fst r') = Nat.min k (length (fst r)) /\ length (snd r') = length (fst r') /\
  (forall i w, In (i, w) (combine (fst r') (snd r')) -> In (i, w) (combine (fst r) (snd r))) /\
  NoDup (fst r') /\
  StronglySorted (fun a b => (Qabs b <= Qabs a)%Q) (snd r') /\
  (forall i w j u, In (i, w) (combine (fst r') (snd r')) -> In (j, u) (combine (fst r) (snd r)) -> ~ In j (fst r') -> (Qabs u <= Qabs w)%Q).

Lemma combine_take2 : forall (is : list nat) (ds : list Q) s,
  combine (take 0 is s) (take 0%Q ds s) = map (fun p => (nth p is 0, nth p ds 0%Q)) s.
Proof. intros. unfold take. induction s; cbn; [|rewrite IHs]; reflexivity. Qed.

Lemma in_combine_nth : forall (is : list nat) (ds : list Q) p, p < length is -> length is = length ds -> In (nth p is 0, nth p ds 0%Q) (combine is ds).
Proof. intros is ds p L E. rewrite <- combine_nth by assumption. apply nth_In. rewrite combine_length. lia. Qed.

Theorem scipy_clipped_row_is_topn : forall np_argsort np_argpartition,
  argsort_contract np_argsort -> argpartition_contract np_argpartition ->
  forall r topn, length (fst r) = length (snd r) -> NoDup (fst r) ->
  row_topn r (Z.to_nat topn) (scipy_clipped_row np_argsort np_argpartition (fst r) (snd r) topn).
Proof.
  intros f g Hf Hg [is ds] topn L ND. cbn [fst snd] in *. unfold scipy_clipped_row.
  destruct (Z.leb_spec topn 0) as [E|E].
  { replace (Z.to_nat topn) with 0 by lia. repeat split; cbn; try constructor; tauto. }
  destruct (argsort_is_topn f g Hf Hg (map Qabs ds) (Some topn) true) as (T1 & T2 & T3 & T4 & T5). cbn [fst snd] in *.
  set (s := argsort f g (map Qabs ds) (Some topn) true) in *. rewrite map_length, <- L in *.
  assert (AB : forall p, nth p (map Qabs ds) 0%Q = Qabs (nth p ds 0%Q)) by (intros p; change 0%Q with (Qabs 0%Q) at 1; apply map_nth).
  unfold row_topn. cbn [fst snd]. rewrite !combine_take2. split; [unfold take; now rewrite map_length|].
  split; [unfold take; now rewrite !map_length|]. split.
  { intros i w HI. apply in_map_iff in HI. destruct HI as (p & Ep & Hp). injection Ep as <- <-. apply in_combine_nth; auto. }
  split.
  { unfold take. clear -T2 T3 ND. induction s as [|p s IH]; cbn; [constructor|]. inversion T2; subst.
    constructor; [|apply IH; auto; intros; apply T3; simpl; auto].
    intros HI. apply in_map_iff in HI. destruct HI as (q & E & Hq). apply H1.
    assert (q = p); [|subst; auto]. apply (proj1 (NoDup_nth is 0) ND); auto; apply T3; simpl; auto. }
  split.
  { unfold take. apply StronglySorted_map. eapply StronglySorted_impl_in; [|exact T4]. intros a b _ _. cbn beta iota. now rewrite !AB. }
  intros i w j u H1 H2 NI. apply in_map_iff in H1. destruct H1 as (p & Ep & Hp). injection Ep as <- <-.
  apply (In_nth _ _ (0, 0%Q)) in H2. destruct H2 as (q & Hq & Eq). rewrite combine_length, <- L, Nat.min_id in Hq.
  rewrite combine_nth in Eq by exact L. injection Eq as <- <-.
  assert (NIq : ~ In q s) by (intros HI; apply NI; unfold take; apply in_map_iff; eauto).
  specialize (T5 p q Hp Hq NIq). cbn beta iota in T5. now rewrite !AB in T5.
Qed.
Print Assumptions scipy_clipped_row_is_topn.

Example scipy_clipped_row_ex :
  scipy_clipped_row ref_argsort ref_argpartition [4; 0; 7] [1%Q; (-5)#1; 2%Q] 2 = ([0; 7], [(-5)#1; 2%Q]).
Proof. vm_compute. reflexivity. Qed.

(** A matrix: each row of the result is the selection of the corresponding row. *)
Lemma clip_layout : forall (clip : list srow) k p0 pre_i pre_d,
  (forall c, In c clip -> length (fst c) = length (snd c) /\ length (fst c) <= k) ->
  p0 <> [] -> last p0 0 = length pre_i -> length pre_i = length pre_d ->
  let p := fold_left (fun p (c : srow) => p ++ [last p 0 + Nat.min (length (fst c)) k]) clip p0 in
  length p = length p0 + length clip /\ (forall n, n < length p0 -> nth n p 0 = nth n p0 0) /\
  (forall n c, nth_error clip n = Some c ->
     let a := nth (length p0 - 1 + n) p 0 in let b := nth (length p0 + n) p 0 in
     firstn (b - a) (skipn a (pre_i ++ concat (map fst clip))) = fst c /\
     firstn (b - a) (skipn a (pre_d ++ concat (map snd clip))) = snd c).
Proof.
  induction clip as [|c clip IH]; intros k p0 pre_i pre_d HC NE HL HD.
  { cbn. split; [lia|]. split; [auto|]. intros n c E. destruct n; discriminate. }
  destruct (HC c (or_introl eq_refl)) as [L1 L2]. cbn [fold_left]. rewrite (Nat.min_l _ _ L2).
  assert (HP : p0 = removelast p0 ++ [last p0 0]) by now apply app_removelast_last.
  destruct (IH k (p0 ++ [last p0 0 + length (fst c)]) (pre_i ++ fst c) (pre_d ++ snd c)) as (I1 & I2 & I3).
  - intros; apply HC; simpl; auto.
  - destruct p0; discriminate.
  - rewrite last_last, HL, app_length. reflexivity.
  - rewrite !app_length. lia.
  - rewrite app_length in I1. cbn [length] in I1. cbn zeta. split; [rewrite I1; cbn [length]; lia|]. split.
    { intros n Hn. rewrite I2 by (rewrite app_length; cbn; lia). now rewrite app_nth1. }
    assert (L0 : 0 < length p0) by (destruct p0; [congruence|cbn; lia]).
    intros [|n] c' E.
    + injection E as <-. rewrite !Nat.add_0_r, !I2 by (rewrite app_length; cbn; lia).
      rewrite (app_nth1 p0 _ 0 (n := length p0 - 1)) by lia. rewrite app_nth2, Nat.sub_diag by lia. cbn [nth].
      assert (E0 : nth (length p0 - 1) p0 0 = last p0 0).
      { rewrite HP at 2. rewrite app_nth2; rewrite HP at 1; rewrite app_length; cbn [length].
        - replace (length (removelast p0) + 1 - 1 - length (removelast p0)) with 0 by lia. reflexivity.
        - lia. }
      rewrite E0, HL. replace (length pre_i + length (fst c) - length pre_i) with (length (fst c)) by lia.
      cbn [map concat]. split.
      * rewrite skipn_app, skipn_all, Nat.sub_diag. cbn [app skipn]. rewrite firstn_app, Nat.sub_diag, firstn_all. cbn. apply app_nil_r.
      * rewrite HD, L1. rewrite skipn_app, skipn_all, Nat.sub_diag. cbn [app skipn]. rewrite firstn_app, Nat.sub_diag, firstn_all. cbn. apply app_nil_r.
    + cbn [nth_error] in E. specialize (I3 n c' E). rewrite app_length in I3. cbn [length] in I3. cbn [map concat]. rewrite !app_assoc.
      replace (length p0 - 1 + S n) with (length p0 + 1 - 1 + n) by lia. replace (length p0 + S n) with (length p0 + 1 + n) by lia. exact I3.
Qed.

Theorem scipy_clipped_matrix_is_topn : forall np_argsort np_argpartition,
  argsort_contract np_argsort -> argpartition_contract np_argpartition ->
  forall rows topn, (0 < topn)%Z -> (forall r, In r rows -> length (fst r) = length (snd r) /\ NoDup (fst r)) ->
  (exists r, In r rows /\ fst r <> []) ->
  exists m, scipy_clipped_matrix np_argsort np_argpartition rows topn = Ok m /\
    length (cl_indptr m) = S (length rows) /\
    (forall n r, nth_error rows n = Some r -> row_topn r (Z.to_nat topn) (clipped_row m n)) /\
    (forall n i, In i (fst (clipped_row m n)) -> i < cl_cols m).
Proof.
  intros f g Hf Hg rows topn HT HR (r0 & Hr0 & Nr0). unfold scipy_clipped_matrix.
  rewrite (proj2 (Z.leb_gt topn 0)) by lia. set (clip := map (fun r : srow => scipy_clipped_row f g (fst r) (snd r) topn) rows).
  assert (TOP : forall r, In r rows -> row_topn r (Z.to_nat topn) (scipy_clipped_row f g (fst r) (snd r) topn)).
  { intros r Hr. destruct (HR r Hr). now apply scipy_clipped_row_is_topn. }
  assert (HC : forall c, In c clip -> length (fst c) = length (snd c) /\ length (fst c) <= Z.to_nat topn).
  { intros c Hc. apply in_map_iff in Hc. destruct Hc as (r & <- & Hr). destruct (TOP r Hr) as (A & B & _). lia. }
  destruct (clip_layout clip (Z.to_nat topn) [0] [] [] HC) as (L1 & _ & L3); try discriminate; try reflexivity.
  set (p := fold_left (fun p (c : srow) => p ++ [last p 0 + Nat.min (length (fst c)) (Z.to_nat topn)]) clip [0]) in *.
  assert (NE : concat (map fst clip) <> []).
  { intros E. destruct (TOP r0 Hr0) as (A & _). assert (HI : In (scipy_clipped_row f g (fst r0) (snd r0) topn) clip) by (apply in_map_iff; eauto).
    destruct (fst (scipy_clipped_row f g (fst r0) (snd r0) topn)) as [|x l] eqn:El.
    - cbn in A. destruct (fst r0); [congruence|]. cbn [length] in A. lia.
    - assert (In x (concat (map fst clip))) by (apply in_concat; exists (x :: l); split; [apply in_map_iff; eauto|now left]). rewrite E in H. destruct H. }
  set (indices := concat (map fst clip)) in *.
  exists (Clipped (concat (map snd clip)) indices p (list_max indices + 1)). split; [destruct indices; [congruence|reflexivity]|].
  cbn [cl_indptr cl_cols]. split; [rewrite L1; unfold clip; rewrite map_length; reflexivity|]. split.
  - intros n r En. assert (Ec : nth_error clip n = Some (scipy_clipped_row f g (fst r) (snd r) topn)) by (unfold clip; apply (map_nth_error (fun r : srow => scipy_clipped_row f g (fst r) (snd r) topn)); exact En).
    destruct (L3 n _ Ec) as [A B]. cbn [length app Nat.sub Nat.add] in A, B. unfold clipped_row. cbn [cl_indptr cl_indices cl_data].
    fold indices in A. rewrite A, B. rewrite <- surjective_pairing. apply TOP. eapply nth_error_In; eauto.
  - intros n i HI. unfold clipped_row in HI. cbn [cl_indptr cl_indices fst] in HI.
    assert (HX : In i indices).
    { clear -HI. revert HI. generalize (nth n p 0) as a. generalize (nth (S n) p 0) as b. intros b a HI.
      assert (F : forall k (l : list nat), In i (firstn k l) -> In i l) by (intros k l H; rewrite <- (firstn_skipn k l); apply in_app_iff; auto).
      apply F in HI. rewrite <- (firstn_skipn a indices). apply in_app_iff. auto. }
    pose proof (list_max_le indices (list_max indices)) as [K _]. specialize (K (Nat.le_refl _)). rewrite Forall_forall in K. specialize (K i HX). lia.
Qed.
Print Assumptions scipy_clipped_matrix_is_topn.

Example scipy_clipped_matrix_ex :
  scipy_clipped_matrix ref_argsort ref_argpartition [([4; 0; 7], [1%Q; (-5)#1; 2%Q]); ([], []); ([3], [1%Q])] 2 =
    Ok (Clipped [(-5)#1; 2%Q; 1%Q] [0; 7; 3] [0; 2; 2; 3] 8).
Proof. vm_compute. reflexivity. Qed.

(** A matrix without entries is not accepted. *)
Theorem scipy_clipped_empty_refuted : exists rows, rows = [([], []); ([], [])] /\ forall np_argsort np_argpartition, argsort_contract np_argsort ->
  scipy_clipped_matrix np_argsort np_argpartition rows 2 = Err ValueError.
Proof.
  exists [([], []); ([], [])]. split; [reflexivity|]. intros f g Hf. unfold scipy_clipped_matrix, scipy_clipped_row, argsort. cbn.
  pose proof (Hf []) as [P _]. apply Permutation.Permutation_nil in P. rewrite P. reflexivity.
Qed.
Print Assumptions scipy_clipped_empty_refuted.

(** The width of the matrix is not kept: the last column of the input is lost
    when its entries are not among the greatest. *)
Theorem scipy_clipped_width_refuted : exists rows m, 
  scipy_clipped_matrix ref_argsort ref_argpartition rows 1 = Ok m /\ (exists r, In r rows /\ In 9 (fst r)) /\ cl_cols m = 1.
Proof.
  exists [([0; 9], [2%Q; 1%Q]); ([0], [1%Q])]. eexists. split; [vm_compute; reflexivity|]. split; [|reflexivity].
  exists ([0; 9], [2%Q; 1%Q]). cbn. auto.
Qed.
Print Assumptions scipy_clipped_width_refuted.
