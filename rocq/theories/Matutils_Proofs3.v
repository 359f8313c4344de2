(** Proofs about the Jaccard distances. *)

From Verif Require Import Base Matutils_Model Matutils_Proofs Matutils_Proofs2.
From Coq Require Import QArith Qabs Qminmax Lqa Qfield.
Local Open Scope nat_scope.

Notation bowt := (list (Z * Q)).

Definition inter (a b : bowt) : Q := Qsum (map (fun iw => Qmin (snd iw) (dget_or b (fst iw) 0%Q)) a).

Lemma fold_inter : forall b a acc,
  (fold_left (fun acc (iw : Z * Q) => acc + Qmin (snd iw) (dget_or b (fst iw) 0)) a acc == acc + inter a b)%Q.
Proof.
  intros b a. induction a as [|[i w] a IH]; intros acc; cbn [fold_left].
  - unfold inter; cbn; ring.
  - rewrite IH. unfold inter. cbn [map fst snd]. unfold Qsum. cbn [fold_right]. ring.
Qed.

Definition nonneg (a : bowt) : Prop := forall i w, In (i, w) a -> (0 <= w)%Q.

Lemma nonneg_cons : forall i w a, nonneg ((i, w) :: a) -> (0 <= w)%Q /\ nonneg a.
Proof. intros i w a H. split; [apply (H i w); simpl; auto | intros j u HI; apply (H j u); simpl; auto]. Qed.

Lemma Qmin_0_r : forall w, (0 <= w)%Q -> (Qmin w 0 == 0)%Q.
Proof. intros. apply Q.min_r. exact H. Qed.

Lemma inter_nil_r : forall a, nonneg a -> (inter a [] == 0)%Q.
Proof.
  induction a as [|[i w] a IH]; intros H; [reflexivity|]. apply nonneg_cons in H. destruct H as [Hw Ha].
  unfold inter in *. unfold Qsum in *. cbn [map fold_right fst snd]. rewrite IH by auto.
  unfold dget_or; cbn [dget]. rewrite Qmin_0_r by auto. ring.
Qed.

(** Adding an id to the right-hand bag. *)
Lemma inter_cons_r : forall b i w a, NoDup (map fst b) -> ~ In i (map fst a) -> nonneg b -> (0 <= w)%Q ->
  (inter b ((i, w) :: a) == inter b a + Qmin w (dget_or b i 0))%Q.
Proof.
  induction b as [|[j u] b IH]; intros i w a ND NI NN Hw.
  - unfold inter, dget_or; cbn. rewrite Qmin_0_r by auto. ring.
  - apply nonneg_cons in NN. destruct NN as [Hu NNb]. cbn [map fst] in ND. inversion ND as [|? ? NIj NDb]; subst.
    assert (ST : forall c, inter ((j, u) :: b) c = (Qmin u (dget_or c j 0) + inter b c)%Q) by reflexivity.
    rewrite !ST. rewrite IH by auto. unfold dget_or. cbn [dget].
    destruct (eq_dec i j) as [->|NE].
    + destruct (eq_dec j j); [|congruence].
      assert (D : dget a j = None) by (apply dget_None; exact NI).
      assert (D' : dget b j = None) by (apply dget_None; exact NIj).
      rewrite D, D'. rewrite !Qmin_0_r by auto. rewrite (Q.min_comm u w). ring.
    + destruct (eq_dec j i) as [E|_]; [congruence|]. ring.
Qed.

Lemma inter_sym : forall a b, NoDup (map fst a) -> NoDup (map fst b) -> nonneg a -> nonneg b ->
  (inter a b == inter b a)%Q.
Proof.
  induction a as [|[i w] a IH]; intros b NDa NDb Na Nb.
  - rewrite inter_nil_r by auto. reflexivity.
  - apply nonneg_cons in Na. destruct Na as [Hw Na]. inversion NDa; subst.
    rewrite inter_cons_r by auto. rewrite <- IH by auto.
    change (inter ((i, w) :: a) b) with (Qmin w (dget_or b i 0) + inter a b)%Q. ring.
Qed.

Lemma inter_le_l : forall a b, (inter a b <= Qsum (map snd a))%Q.
Proof.
  induction a as [|[i w] a IH]; intros b; [apply Qle_refl|].
  change (inter ((i, w) :: a) b) with (Qmin w (dget_or b i 0) + inter a b)%Q.
  change (Qsum (map snd ((i, w) :: a))) with (w + Qsum (map snd a))%Q.
  apply Qplus_le_compat; [apply Q.le_min_l | apply IH].
Qed.

Lemma inter_nonneg : forall a b, nonneg a -> nonneg b -> (0 <= inter a b)%Q.
Proof.
  induction a as [|[i w] a IH]; intros b Na Nb; [apply Qle_refl|]. apply nonneg_cons in Na. destruct Na as [Hw Na].
  change (inter ((i, w) :: a) b) with (Qmin w (dget_or b i 0) + inter a b)%Q.
  assert (0 <= dget_or b i 0)%Q.
  { unfold dget_or. destruct (dget b i) eqn:E; [|apply Qle_refl]. apply dget_In in E. eapply Nb; eauto. }
  assert (0 <= Qmin w (dget_or b i 0))%Q by (apply Q.min_glb; auto).
  specialize (IH b Na Nb). lra.
Qed.

Lemma Qsum_nonneg : forall a, nonneg a -> (0 <= Qsum (map snd a))%Q.
Proof.
  induction a as [|[i w] a IH]; intros H; [apply Qle_refl|]. apply nonneg_cons in H. destruct H.
  change (Qsum (map snd ((i, w) :: a))) with (w + Qsum (map snd a))%Q. specialize (IH H0). lra.
Qed.

Lemma inter_self : forall a, NoDup (map fst a) -> nonneg a -> (inter a a == Qsum (map snd a))%Q.
Proof.
  intros a ND NN.
  assert (G : forall l, (forall i w, In (i, w) l -> dget_or a i 0%Q = w) -> (inter l a == Qsum (map snd l))%Q).
  { induction l as [|[i w] l IH]; intros H; [reflexivity|].
    change (inter ((i, w) :: l) a) with (Qmin w (dget_or a i 0) + inter l a)%Q.
    change (Qsum (map snd ((i, w) :: l))) with (w + Qsum (map snd l))%Q.
    rewrite IH by (intros; apply H; simpl; auto). rewrite (H i w (or_introl eq_refl)), Q.min_id. reflexivity. }
  apply G. intros i w HI. unfold dget_or. rewrite (In_dget a i w ND HI). reflexivity.
Qed.

Lemma jaccard_bow_eq : forall a b, NoDup (map fst a) -> NoDup (map fst b) ->
  match jaccard_bow a b with
  | None => (Qsum (map snd a) + Qsum (map snd b) == 0)%Q
  | Some q => ~ (Qsum (map snd a) + Qsum (map snd b) == 0)%Q /\
              (q == 1 - inter a b / (Qsum (map snd a) + Qsum (map snd b)))%Q
  end.
Proof.
  intros a b Na Nb. unfold jaccard_bow. rewrite !dict_of_NoDup by auto.
  destruct (Qeq_bool (Qsum (map snd a) + Qsum (map snd b)) 0) eqn:E.
  - apply Qeq_bool_iff in E. exact E.
  - split; [intros H; apply Qeq_bool_iff in H; congruence|]. rewrite fold_inter. rewrite Qplus_0_l. reflexivity.
Qed.

(** ** Sets *)
Section Sets.
  Context {A : Type} `{EqDec A}.

  Lemma NoDup_set_and : forall a b : list A, NoDup (set_and a b).
  Proof. intros. unfold set_and. apply NoDup_filter, NoDup_nodup. Qed.
  Lemma NoDup_set_or : forall a b : list A, NoDup (set_or a b).
  Proof. intros. apply NoDup_nodup. Qed.
  Lemma In_set_and : forall (a b : list A) x, In x (set_and a b) <-> In x a /\ In x b.
  Proof. intros. unfold set_and. rewrite filter_In, nodup_In, memb_true. reflexivity. Qed.
  Lemma In_set_or : forall (a b : list A) x, In x (set_or a b) <-> In x a \/ In x b.
  Proof. intros. unfold set_or. rewrite nodup_In. apply in_app_iff. Qed.
  Lemma set_len_NoDup : forall a : list A, NoDup a -> set_len a = length a.
  Proof. intros. unfold set_len. rewrite nodup_fixed_point; auto. Qed.
  Lemma set_len_and : forall a b : list A, set_len (set_and a b) = length (set_and a b).
  Proof. intros. apply set_len_NoDup, NoDup_set_and. Qed.
  Lemma set_len_or : forall a b : list A, set_len (set_or a b) = length (set_or a b).
  Proof. intros. apply set_len_NoDup, NoDup_set_or. Qed.

  Lemma NoDup_same_length : forall l l' : list A, NoDup l -> NoDup l' -> (forall x, In x l <-> In x l') -> length l = length l'.
  Proof.
    intros l l' N N' E. apply Nat.le_antisymm; apply NoDup_incl_length; auto; intros x; apply E.
  Qed.

  Lemma set_and_comm : forall a b : list A, length (set_and a b) = length (set_and b a).
  Proof. intros. apply NoDup_same_length; try apply NoDup_set_and. intros x. rewrite !In_set_and. tauto. Qed.
  Lemma set_or_comm : forall a b : list A, length (set_or a b) = length (set_or b a).
  Proof. intros. apply NoDup_same_length; try apply NoDup_set_or. intros x. rewrite !In_set_or. tauto. Qed.
  Lemma set_and_le_or : forall a b : list A, length (set_and a b) <= length (set_or a b).
  Proof. intros. apply NoDup_incl_length; [apply NoDup_set_and|]. intros x. rewrite In_set_and, In_set_or. tauto. Qed.
  Lemma set_and_eq_or : forall a b : list A, length (set_and a b) = length (set_or a b) <-> (forall x, In x a <-> In x b).
  Proof.
    intros a b. split.
    - intros E.
      assert (I : incl (set_or a b) (set_and a b)).
      { apply NoDup_length_incl; [apply NoDup_set_and | lia|]. intros x. rewrite In_set_and, In_set_or. tauto. }
      intros x. specialize (I x). rewrite In_set_and, In_set_or in I. tauto.
    - intros E. apply NoDup_same_length; [apply NoDup_set_and | apply NoDup_set_or|].
      intros x. rewrite In_set_and, In_set_or. specialize (E x). tauto.
  Qed.
  Lemma set_or_zero : forall a b : list A, length (set_or a b) = 0 <-> a = [] /\ b = [].
  Proof.
    intros a b. split.
    - intros E. apply length_zero_iff_nil in E.
      assert (X : forall x, ~ (In x a \/ In x b)) by (intros x Hx; apply In_set_or in Hx; rewrite E in Hx; exact Hx).
      split; [destruct a | destruct b]; auto; exfalso; eapply X; simpl; eauto.
    - intros [-> ->]. reflexivity.
  Qed.
End Sets.

Lemma Qnat_pos : forall n, (0 < n)%nat -> (0 < Qnat n)%Q.
Proof. intros n Hn. unfold Qnat. change 0%Q with (inject_Z 0). rewrite <- Zlt_Qlt. lia. Qed.
Lemma Qnat_le : forall a b, (a <= b)%nat -> (Qnat a <= Qnat b)%Q.
Proof. intros. unfold Qnat. rewrite <- Zle_Qle. lia. Qed.
Lemma Qnat_eq : forall a b, (Qnat a == Qnat b)%Q <-> a = b.
Proof. intros. unfold Qnat. split; [intros E; apply (proj1 (inject_Z_injective _ _)) in E; apply Nat2Z.inj; exact E | intros ->; reflexivity]. Qed.

Lemma ratio_bounds : forall i u, (i <= u)%nat -> (0 < u)%nat ->
  (0 <= 1 - Qnat i / Qnat u <= 1)%Q /\ ((1 - Qnat i / Qnat u == 0)%Q <-> i = u).
Proof.
  intros i u L P. pose proof (Qnat_pos u P) as Pq. pose proof (Qnat_le _ _ L) as Lq.
  assert (Zi : (0 <= Qnat i)%Q) by (apply (Qnat_le 0 i); lia).
  assert (Q1 : (Qnat i / Qnat u <= 1)%Q) by (apply Qle_shift_div_r; lra).
  assert (Q0 : (0 <= Qnat i / Qnat u)%Q) by (apply Qle_shift_div_l; lra).
  split; [split; lra|]. split.
  - intros E. assert (E1 : (Qnat i / Qnat u == 1)%Q) by lra.
    apply Qnat_eq. rewrite <- (Qmult_1_l (Qnat u)), <- E1. field. lra.
  - intros ->. field. lra.
Qed.
