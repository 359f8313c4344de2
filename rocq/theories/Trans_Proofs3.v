(** Lengths, least squares, and a way to sort. *)
From Coq Require Import Reals Lra Psatz Lia Permutation Sorting.
From Verif Require Import Base Str LdaTrain_Model LdaTrain_Proofs2 SoftCosine_Model Lsi_Linear Trans_Model Trans_Spec Trans_Proofs Trans_Proofs2.
Local Open Scope R_scope.

Lemma dot_nonneg : forall d x, 0 <= dot d x x.
Proof. intros d x. apply sumn_nonneg. intros i _. apply Rle_0_sqr. Qed.
Lemma dot_sym : forall d x y, dot d x y = dot d y x.
Proof. intros d x y. apply sumn_ext. intros i _. ring. Qed.
Lemma dot_ext : forall d x y x' y', (forall i, (i < d)%nat -> x i = x' i) -> (forall i, (i < d)%nat -> y i = y' i) -> dot d x y = dot d x' y'.
Proof. intros d x y x' y' H H'. apply sumn_ext. intros i Hi. now rewrite H, H'. Qed.
Lemma dot_scal : forall d a x y, dot d (fun i => x i / a) y = dot d x y / a.
Proof. intros d a x y. unfold dot, Rdiv. rewrite (Rmult_comm _ (/ a)), <- sumn_scal. apply sumn_ext. intros i _. ring. Qed.
Lemma dot_zero : forall d x, dot d x x = 0 -> forall i, (i < d)%nat -> x i = 0.
Proof.
  intros d. induction d as [|d IH]; intros x H i Hi; [lia|]. unfold dot in *. rewrite sumn_S in H. pose proof (dot_nonneg d x) as N. unfold dot in N. pose proof (Rle_0_sqr (x d)) as Q. unfold Rsqr in Q.
  destruct (Nat.eq_dec i d) as [->|NE]; [|apply IH; [lra | lia]]. destruct (Req_dec (x d) 0) as [Z0|NZ]; [exact Z0|]. exfalso. pose proof (Rsqr_pos_lt _ NZ) as P. unfold Rsqr in P. lra.
Qed.
Lemma len_pos : forall d x, len d x <> 0 -> 0 < len d x.
Proof. intros d x H. pose proof (sqrt_pos (dot d x x)). unfold len in *. lra. Qed.
Lemma len_sq : forall d x, len d x * len d x = dot d x x.
Proof. intros d x. apply sqrt_sqrt. apply dot_nonneg. Qed.
Lemma hat_unit : forall d x, len d x <> 0 -> dot d (hat d x) (hat d x) = 1.
Proof. intros d x H. unfold hat. rewrite dot_scal, dot_sym, dot_scal, <- len_sq. field. exact H. Qed.
Lemma hat_same : forall d x y, dot d x x = 1 -> dot d y y = 1 -> dot d x y >= 1 -> forall i, (i < d)%nat -> x i = y i.
Proof.
  intros d x y X Y H i Hi. set (z := fun i => x i - y i). assert (Zz : dot d z z = dot d x x - 2 * dot d x y + dot d y y).
  { unfold z, dot. rewrite <- sumn_scal. rewrite <- sumn_minus, <- sumn_plus. apply sumn_ext. intros k _. ring. }
  pose proof (dot_nonneg d z). assert (E : dot d z z = 0) by lra. pose proof (dot_zero d z E i Hi) as W. unfold z in W. lra.
Qed.
Lemma score_cosine : forall d1 d2 W x y, len d1 x <> 0 -> len d2 y <> 0 -> len d2 (image d1 W x) <> 0 ->
  score d1 d2 W x y = cosine d2 (image d1 W x) y * (len d2 (image d1 W x) / len d1 x).
Proof.
  intros d1 d2 W x y H1 H2 H3. unfold score, cosine. unfold hat at 1. rewrite dot_scal. rewrite dot_sym.
  rewrite (dot_ext d2 _ y (fun j => image d1 W x j / len d1 x) y); [rewrite dot_scal; field; auto| |reflexivity].
  intros j _. unfold image, hat, Rdiv. rewrite (Rmult_comm _ (/ len d1 x)), <- sumn_scal. apply sumn_ext. intros i _. ring.
Qed.
Lemma best_first_ext : forall f g words n ws, (forall w w', In w words -> In w' words -> f w <= f w' -> g w <= g w') -> best_first f words n ws -> best_first g words n ws.
Proof.
  intros f g words n ws H (L & ND & I & S1 & S2). split; [exact L|]. split; [exact ND|]. split; [exact I|]. split.
  - intros i j Hij. apply H; [apply I, nth_In; lia | apply I, nth_In; lia | now apply S1].
  - intros w w' Hw Hw' N. apply H; [exact Hw' | now apply I | now apply S2].
Qed.
Lemma misfit_nonneg : forall d1 d2 W xy, 0 <= misfit d1 d2 W xy.
Proof. intros. unfold misfit. apply dot_nonneg. Qed.
Lemma total_zero : forall d1 d2 W l, fold_right Rplus 0 (map (misfit d1 d2 W) l) <= 0 -> forall xy, In xy l -> misfit d1 d2 W xy = 0.
Proof.
  intros d1 d2 W l. assert (P : forall l', 0 <= fold_right Rplus 0 (map (misfit d1 d2 W) l')) by (intros l'; induction l' as [|x l' IH]; cbn; [lra|]; pose proof (misfit_nonneg d1 d2 W x); lra).
  induction l as [|x l IH]; intros H xy I; [contradiction|]. cbn in H. pose proof (misfit_nonneg d1 d2 W x). pose proof (P l). destruct I as [<-|I]; [lra|]. apply IH; [lra | exact I].
Qed.
Lemma misfit_zero : forall d1 d2 W x y, misfit d1 d2 W (x, y) = 0 <-> forall j, (j < d2)%nat -> image d1 W x j = y j.
Proof.
  intros d1 d2 W x y. unfold misfit. cbn [fst snd]. split.
  - intros H j Hj. pose proof (dot_zero d2 _ H j Hj) as E. cbn in E. lra.
  - intros H. unfold dot. apply sumn_all0. intros j Hj. rewrite H by exact Hj. ring.
Qed.
Lemma combine_maps : forall {A B C} (f : A -> B) (g : A -> C) l, combine (map f l) (map g l) = map (fun x => (f x, g x)) l.
Proof. intros A B C f g l. induction l as [|x l IH]; [reflexivity|]. cbn. now rewrite IH. Qed.

(** ** A sorting function exists *)
Fixpoint ins (key : nat -> R) (i : nat) (l : list nat) : list nat :=
  match l with [] => [i] | j :: t => if Rle_dec (key i) (key j) then i :: j :: t else j :: ins key i t end.
Definition by_insertion (l : list R) : list nat := fold_right (ins (fun i => nth i l 0)) [] (seq 0 (length l)).
Lemma ins_perm : forall key i l, Permutation (ins key i l) (i :: l).
Proof.
  intros key i l. induction l as [|j l IH]; [reflexivity|]. cbn. destruct (Rle_dec _ _); [reflexivity|]. transitivity (j :: i :: l); [now constructor | apply perm_swap].
Qed.
Lemma ins_sorted : forall key i l, StronglySorted (fun a b => key a <= key b) l -> StronglySorted (fun a b => key a <= key b) (ins key i l).
Proof.
  intros key i l. induction l as [|j l IH]; intros H; [repeat constructor|]. cbn. pose proof (StronglySorted_inv H) as [H1 H2]. destruct (Rle_dec (key i) (key j)) as [L|L].
  - constructor; [exact H|]. constructor; [exact L|]. rewrite Forall_forall in *. intros x Hx. specialize (H2 x Hx). lra.
  - constructor; [now apply IH|]. rewrite Forall_forall in *. intros x Hx. apply (Permutation_in _ (ins_perm key i l)) in Hx. destruct Hx as [<-|Hx]; [lra | now apply H2].
Qed.
Lemma insertion_sorts : sorts by_insertion.
Proof.
  intros l. set (key := fun i => nth i l 0). assert (P : forall s, Permutation (fold_right (ins key) [] s) s) by (intros s; induction s as [|i s IH]; [reflexivity|]; cbn; rewrite ins_perm; now constructor).
  assert (SS : forall s, StronglySorted (fun a b => key a <= key b) (fold_right (ins key) [] s)) by (intros s; induction s as [|i s IH]; [constructor|]; cbn; now apply ins_sorted).
  split; [apply P|]. intros i j Hij. specialize (SS (seq 0 (length l))). specialize (P (seq 0 (length l))). change (fold_right (ins key) [] (seq 0 (length l))) with (by_insertion l) in SS, P. apply Permutation_length in P. rewrite seq_length in P. rewrite <- P in Hij.
  revert i j Hij. clear P. set (q := by_insertion l) in *. clearbody q. fold key. induction SS as [|x q S1 IH F]; intros i j Hij; [cbn in Hij; lia|]. destruct i as [|i], j as [|j]; try lia.
  - cbn. rewrite Forall_forall in F. apply F. apply nth_In. cbn in Hij. lia.
  - cbn. apply IH. cbn in Hij. lia.
Qed.
Lemma nodup_order : set_order (nodup eq_dec).
Proof. intros l. split; [apply NoDup_nodup | intros x; apply nodup_In]. Qed.
