(** Facts about the stable sort, for an arbitrary total preorder on keys. *)

From Verif Require Import Base Str Dictionary_Spec.

Section Stable.
  Context {A : Type} (le : A -> A -> bool).
  Hypothesis le_total : forall x y, le x y = true \/ le y x = true.
  Hypothesis le_trans : forall x y z, le x y = true -> le y z = true -> le x z = true.

  (** [a] must come before [b] in the stable sort of [l]: strictly smaller, or
      equivalent and earlier in [l]. *)
  Definition stable_lt (l : list A) (a b : A) : Prop :=
    le a b = true /\ (le b a = false \/ precedes l a b).

  Lemma sf_precedes_cons : forall (x : A) l a b, precedes l a b -> precedes (x :: l) a b.
  Proof. intros x l a b (l1 & l2 & l3 & ->). exists (x :: l1), l2, l3; reflexivity. Qed.

  Lemma sf_precedes_head : forall (x : A) l b, In b l -> precedes (x :: l) x b.
  Proof. intros x l b HI. apply in_split in HI. destruct HI as (l2 & l3 & ->). exists [], l2, l3; reflexivity. Qed.

  Lemma isort_stable : forall l, StronglySorted (stable_lt l) (isort le l).
  Proof.
    induction l as [|x l IH]; [constructor|]. cbn [isort].
    assert (IH' : StronglySorted (stable_lt (x :: l)) (isort le l)).
    { clear - IH. induction IH; constructor; auto. eapply Forall_impl; [|exact H].
      intros b [L [E|P]]; split; auto. right. apply sf_precedes_cons; auto. }
    assert (INC : incl (isort le l) l) by (intros y Hy; eapply In_isort; exact Hy).
    revert IH' INC. generalize (isort le l) as s. clear IH.
    induction s as [|y s IHs]; intros S INC; cbn [insert]; [repeat constructor|].
    inversion S; subst. destruct (le x y) eqn:E.
    - constructor; [assumption|]. constructor.
      + split; auto. right. apply sf_precedes_head. apply INC; simpl; auto.
      + apply Forall_forall. intros z Hz. rewrite Forall_forall in H2. destruct (H2 z Hz) as [L _].
        split; [eapply le_trans; eauto | right; apply sf_precedes_head; apply INC; simpl; auto].
    - constructor.
      + apply IHs; auto. intros z Hz; apply INC; simpl; auto.
      + apply Forall_forall. intros z Hz.
        apply Permutation_in with (l' := x :: s) in Hz; [|apply Permutation_sym, Permutation_insert].
        destruct Hz as [<-|Hz].
        * split; [destruct (le_total x y); congruence | left; auto].
        * rewrite Forall_forall in H2; auto.
  Qed.

  Lemma firstn_isort_dominates : forall l n a b, In a (firstn n (isort le l)) -> In b l ->
    ~ In b (firstn n (isort le l)) -> stable_lt l a b.
  Proof.
    intros l n a b Ha Hb NI. pose proof (isort_stable l) as S.
    rewrite <- (firstn_skipn n (isort le l)) in S. apply StronglySorted_app_inv in S. destruct S as (_ & _ & S).
    apply S; auto. apply (In_isort le) in Hb. rewrite <- (firstn_skipn n (isort le l)) in Hb.
    apply in_app_iff in Hb. tauto.
  Qed.
End Stable.
