(** Facts about transport plans on finitely many points. *)
From Coq Require Import Reals Lra Psatz.
From Verif Require Import Base MatReal_Model MatReal_Proofs Wmd_Spec.
Local Open Scope R_scope.

Section Sums.
Context {A : Type}.
Implicit Types (W : list A) (f g : A -> R).
Lemma Sum_cons : forall a W f, Sum (a :: W) f = f a + Sum W f.
Proof. reflexivity. Qed.
Lemma Sum_ext : forall W f g, (forall a, In a W -> f a = g a) -> Sum W f = Sum W g.
Proof. intros W f g H. exact (Rsum_ext f g W H). Qed.
Lemma Sum_plus : forall W f g, Sum W (fun a => f a + g a) = Sum W f + Sum W g.
Proof. intros. exact (Rsum_plus f g W). Qed.
Lemma Sum_scal : forall c W f, Sum W (fun a => c * f a) = c * Sum W f.
Proof. intros. exact (Rsum_scal f c W). Qed.
Lemma Sum_le : forall W f g, (forall a, In a W -> f a <= g a) -> Sum W f <= Sum W g.
Proof. intros W f g H. exact (Rsum_le f g W H). Qed.
Lemma Sum_nonneg : forall W f, (forall a, In a W -> 0 <= f a) -> 0 <= Sum W f.
Proof. intros W f H. apply Rsum_nonneg. intros x I. apply in_map_iff in I. destruct I as (a & <- & I). auto. Qed.
Lemma Sum_zero : forall W f, (forall a, In a W -> f a = 0) -> Sum W f = 0.
Proof. induction W as [|a W IH]; intros f H; [reflexivity|]. rewrite Sum_cons, (H a (or_introl eq_refl)), IH; [ring|]. intros b I. apply H. right. exact I. Qed.
Lemma Sum_app : forall W W' f, Sum (W ++ W') f = Sum W f + Sum W' f.
Proof. intros. unfold Sum. rewrite map_app. exact (Rsum_app (map f W) (map f W')). Qed.
Lemma Sum_perm : forall W W' f, Permutation W W' -> Sum W f = Sum W' f.
Proof. intros. apply (Rsum_perm (map f W) (map f W')). apply Permutation_map. assumption. Qed.
Lemma Sum_in : forall W f a, (forall b, In b W -> 0 <= f b) -> In a W -> f a <= Sum W f.
Proof.
  induction W as [|b W IH]; intros f a H I; [contradiction|]. rewrite Sum_cons. assert (0 <= Sum W f) by (apply Sum_nonneg; intros; apply H; right; assumption).
  assert (Hb := H b (or_introl eq_refl)). destruct I as [->|I]; [lra|]. specialize (IH f a (fun x X => H x (or_intror X)) I). lra.
Qed.
Lemma Sum_single : forall W `{EqDec A} (a : A) (c : R), NoDup W -> In a W -> Sum W (fun b => if eq_dec a b then c else 0) = c.
Proof.
  intros W EQ a c ND I. induction W as [|b W IH]; [contradiction|]. inversion ND; subst. rewrite Sum_cons. destruct (eq_dec a b) as [->|NE].
  - rewrite Sum_zero; [ring|]. intros x X. destruct (eq_dec b x) as [->|]; [contradiction|reflexivity].
  - rewrite IH; [ring | assumption | destruct I; [congruence|assumption]].
Qed.
End Sums.
Lemma Sum_swap : forall {A B} (W : list A) (V : list B) (F : A -> B -> R), Sum W (fun a => Sum V (fun b => F a b)) = Sum V (fun b => Sum W (fun a => F a b)).
Proof.
  intros A B W V F. induction W as [|a W IH].
  - symmetry. apply Sum_zero. reflexivity.
  - rewrite Sum_cons, IH, <- Sum_plus. apply Sum_ext. reflexivity.
Qed.
Lemma Sum_scal_r : forall {A} (W : list A) f c, Sum W (fun a => f a * c) = Sum W f * c.
Proof. intros. rewrite (Sum_ext W (fun a => f a * c) (fun a => c * f a)) by (intros; ring). rewrite Sum_scal. ring. Qed.
Lemma Sum_map : forall {A B} (h : A -> B) (W : list A) f, Sum (map h W) f = Sum W (fun a => f (h a)).
Proof. intros. unfold Sum. rewrite map_map. reflexivity. Qed.

Lemma glb_unique : forall E x y, is_glb E x -> is_glb E y -> x = y.
Proof. intros E x y (A & B) (C & D). apply Rle_antisym; [apply D; exact A | apply B; exact C]. Qed.
Lemma glb_ext : forall (E F : R -> Prop) x, (forall c, E c <-> F c) -> is_glb E x -> is_glb F x.
Proof. intros E F x H (A & B). split; [intros c Fc; apply A, H, Fc | intros y Y; apply B; intros c Ec; apply Y, H, Ec]. Qed.
Lemma glb_ge : forall E x l, is_glb E x -> (forall c, E c -> l <= c) -> l <= x.
Proof. intros E x l (_ & B) H. apply B. exact H. Qed.
Lemma glb_exists : forall (E : R -> Prop) l c, (forall c, E c -> l <= c) -> E c -> { x : R | is_glb E x }.
Proof.
  intros E l c H Ec. destruct (completeness (fun y => E (- y))) as (m & U & L).
  - exists (- l). intros y Ey. specialize (H _ Ey). lra.
  - exists (- c). rewrite Ropp_involutive. exact Ec.
  - exists (- m). split.
    + intros c' Ec'. assert (- c' <= m); [|lra]. apply U. rewrite Ropp_involutive. exact Ec'.
    + intros y Y. assert (m <= - y); [|lra]. apply L. intros z Ez. specialize (Y _ Ez). lra.
Qed.

Section Plans.
Context {A : Type} `{EqDec A}.
Implicit Types (W : list A) (p q r : A -> R) (D T : A -> A -> R).

Lemma plan_le_p : forall W p q T a b, plan W p q T -> In a W -> In b W -> T a b <= p a.
Proof. intros W p q T a b (N & P & Q) Ia Ib. rewrite <- (P a Ia). apply (Sum_in W (fun b => T a b)); [intros; apply N; assumption | exact Ib]. Qed.
Lemma plan_le_q : forall W p q T a b, plan W p q T -> In a W -> In b W -> T a b <= q b.
Proof. intros W p q T a b (N & P & Q) Ia Ib. rewrite <- (Q b Ib). apply (Sum_in W (fun a => T a b)); [intros; apply N; assumption | exact Ia]. Qed.
Lemma plan_zero : forall W p q T a b, plan W p q T -> In a W -> In b W -> p a = 0 \/ q b = 0 -> T a b = 0.
Proof.
  intros W p q T a b PL Ia Ib H0. pose proof (plan_le_p _ _ _ _ a b PL Ia Ib). pose proof (plan_le_q _ _ _ _ a b PL Ia Ib). destruct PL as (N & _). specialize (N a b Ia Ib).
  destruct H0 as [E|E]; rewrite E in *; lra.
Qed.
Lemma plan_product : forall W p q, distribution W p -> distribution W q -> plan W p q (fun a b => p a * q b).
Proof.
  intros W p q (P0 & P1) (Q0 & Q1). split; [intros a b Ia Ib; specialize (P0 a Ia); specialize (Q0 b Ib); nra|]. split; intros x I.
  - rewrite Sum_scal, Q1. ring.
  - rewrite Sum_scal_r, P1. ring.
Qed.
Lemma cost_nonneg : forall W p q D T, plan W p q T -> (forall a b, In a W -> In b W -> 0 <= D a b) -> 0 <= cost W D T.
Proof. intros W p q D T (N & _) DN. apply Sum_nonneg. intros a Ia. apply Sum_nonneg. intros b Ib. specialize (N a b Ia Ib). specialize (DN a b Ia Ib). nra. Qed.
Lemma least_exists : forall W p q D, distribution W p -> distribution W q -> (forall a b, In a W -> In b W -> 0 <= D a b) -> { x : R | least_cost W p q D x }.
Proof.
  intros W p q D P Q DN. apply glb_exists with (l := 0) (c := cost W D (fun a b => p a * q b)).
  - intros c (T & PL & ->). apply cost_nonneg with (1 := PL). exact DN.
  - exists (fun a b => p a * q b). split; [apply plan_product; assumption | reflexivity].
Qed.
Lemma plan_ext : forall W p q p' q' T, (forall a, In a W -> p a = p' a) -> (forall a, In a W -> q a = q' a) -> plan W p q T -> plan W p' q' T.
Proof. intros W p q p' q' T E F (N & P & Q). split; [exact N|]. split; intros a I; [rewrite P, E by exact I | rewrite Q, F by exact I]; reflexivity. Qed.
Lemma least_ext : forall W p q p' q' D D' x, (forall a, In a W -> p a = p' a) -> (forall a, In a W -> q a = q' a) ->
  (forall a b, In a W -> In b W -> p a <> 0 -> q b <> 0 -> D a b = D' a b) -> least_cost W p q D x -> least_cost W p' q' D' x.
Proof.
  intros W p q p' q' D D' x E F G. apply glb_ext. intros c. split; intros (T & PL & ->).
  - exists T. split; [apply (plan_ext W p q); assumption|]. apply Sum_ext. intros a Ia. apply Sum_ext. intros b Ib.
    destruct (Req_dec (p a) 0) as [Z1|Z1]; [rewrite (plan_zero W p q T a b PL Ia Ib (or_introl Z1)); ring|].
    destruct (Req_dec (q b) 0) as [Z2|Z2]; [rewrite (plan_zero W p q T a b PL Ia Ib (or_intror Z2)); ring|]. rewrite G by assumption. reflexivity.
  - assert (PL' : plan W p q T) by (apply (plan_ext W p' q'); [intros; symmetry; auto | intros; symmetry; auto | exact PL]).
    exists T. split; [exact PL'|]. apply Sum_ext. intros a Ia. apply Sum_ext. intros b Ib.
    destruct (Req_dec (p a) 0) as [Z1|Z1]; [rewrite (plan_zero W p q T a b PL' Ia Ib (or_introl Z1)); ring|].
    destruct (Req_dec (q b) 0) as [Z2|Z2]; [rewrite (plan_zero W p q T a b PL' Ia Ib (or_intror Z2)); ring|]. rewrite G by assumption. reflexivity.
Qed.
Lemma least_sym : forall W p q D x, (forall a b, In a W -> In b W -> D a b = D b a) -> least_cost W p q D x -> least_cost W q p D x.
Proof.
  assert (TR : forall W p q T, plan W p q T -> plan W q p (fun a b => T b a)).
  { intros W p q T (N & P & Q). split; [intros; apply N; assumption | split; assumption]. }
  intros W p q D x DS. apply glb_ext. intros c. split; intros (T & PL & ->); exists (fun a b => T b a); (split; [apply TR; exact PL|]); unfold cost; rewrite Sum_swap;
    apply Sum_ext; intros a Ia; apply Sum_ext; intros b Ib; rewrite (DS a b) by assumption; reflexivity.
Qed.
Lemma least_perm : forall W W' p q D x, Permutation W W' -> least_cost W p q D x -> least_cost W' p q D x.
Proof.
  assert (ONE : forall W W' p q T, Permutation W W' -> plan W p q T -> plan W' p q T).
  { intros W W' p q T PM (N & P & Q). assert (B : forall a, In a W' -> In a W) by (intros a; apply Permutation_in; symmetry; exact PM).
    split; [intros; apply N; auto|]. split; intros a I; rewrite <- (Sum_perm W W' _ PM); auto. }
  assert (CO : forall W W' D T, Permutation W W' -> cost W D T = cost W' D T).
  { intros W W' D T PM. unfold cost. rewrite (Sum_perm W W' _ PM). apply Sum_ext. intros a _. apply Sum_perm. exact PM. }
  intros W W' p q D x PM. apply glb_ext. intros c. split; intros (T & PL & ->); exists T.
  - split; [apply (ONE W); assumption | apply CO; exact PM].
  - split; [apply (ONE W'); [symmetry|]; assumption | apply CO; symmetry; exact PM].
Qed.
(** Points without mass do not matter. *)
Lemma least_app : forall W V p q D x, NoDup (W ++ V) -> (forall a, In a V -> p a = 0) -> (forall a, In a V -> q a = 0) ->
  (least_cost W p q D x <-> least_cost (W ++ V) p q D x).
Proof.
  intros W V p q D x ND P0 Q0.
  assert (DISJ : forall a, In a W -> In a V -> False).
  { clear -ND. induction W as [|w W IH]; intros a; [contradiction|]. cbn in ND. apply NoDup_cons_iff in ND. destruct ND as (NI & ND). intros [<-|I] J; [apply NI; apply in_or_app; auto | exact (IH ND a I J)]. }
  assert (EXT : forall T, plan W p q T -> exists T', plan (W ++ V) p q T' /\ cost (W ++ V) D T' = cost W D T).
  { intros T (N & P & Q). set (T' := fun a b => if in_dec eq_dec a W then if in_dec eq_dec b W then T a b else 0 else 0).
    assert (TW : forall a b, In a W -> In b W -> T' a b = T a b) by (intros a b Ia Ib; unfold T'; destruct (in_dec eq_dec a W); [|contradiction]; destruct (in_dec eq_dec b W); [reflexivity|contradiction]).
    assert (TV : forall a b, In a V \/ In b V -> T' a b = 0).
    { intros a b HV. unfold T'. destruct (in_dec eq_dec a W) as [Ia|]; [|reflexivity]. destruct (in_dec eq_dec b W) as [Ib|]; [|reflexivity]. exfalso. destruct HV; eauto. }
    exists T'. split; [split; [|split]|].
    - intros a b _ _. unfold T'. destruct (in_dec eq_dec a W); [|lra]. destruct (in_dec eq_dec b W); [apply N; assumption | lra].
    - intros a Ia. apply in_app_or in Ia. destruct Ia as [Ia|Ia].
      + rewrite Sum_app, (Sum_ext W _ (fun b => T a b)) by (intros; apply TW; assumption). rewrite (Sum_zero V) by (intros; apply TV; auto). cbv beta in *. rewrite <- (P a Ia). ring.
      + rewrite (P0 a Ia). apply Sum_zero. intros; apply TV; auto.
    - intros b Ib. apply in_app_or in Ib. destruct Ib as [Ib|Ib].
      + rewrite Sum_app, (Sum_ext W _ (fun a => T a b)) by (intros; apply TW; assumption). rewrite (Sum_zero V) by (intros; apply TV; auto). rewrite <- (Q b Ib). ring.
      + rewrite (Q0 b Ib). apply Sum_zero. intros; apply TV; auto.
    - unfold cost. rewrite Sum_app, (Sum_zero V) by (intros a Ia; apply Sum_zero; intros; rewrite TV by auto; ring). rewrite Rplus_0_r. apply Sum_ext. intros a Ia.
      rewrite Sum_app, (Sum_zero V) by (intros b Ib; rewrite TV by auto; ring). rewrite Rplus_0_r. apply Sum_ext. intros b Ib. rewrite TW by assumption. reflexivity. }
  assert (RES : forall T, plan (W ++ V) p q T -> plan W p q T /\ cost (W ++ V) D T = cost W D T).
  { intros T PL. assert (Z0 : forall a b, In a (W ++ V) -> In b (W ++ V) -> In a V \/ In b V -> T a b = 0).
    { intros a b Ia Ib HV. apply (plan_zero (W ++ V) p q T a b PL Ia Ib). destruct HV; auto. }
    assert (LW : forall a, In a W -> In a (W ++ V)) by (intros; apply in_or_app; auto). assert (LV : forall a, In a V -> In a (W ++ V)) by (intros; apply in_or_app; auto).
    destruct PL as (N & P & Q). split; [split; [intros; apply N; auto|]; split|].
    - intros a Ia. rewrite <- (P a) by auto. rewrite Sum_app, (Sum_zero V) by (intros; apply Z0; auto). ring.
    - intros b Ib. rewrite <- (Q b) by auto. rewrite Sum_app, (Sum_zero V) by (intros; apply Z0; auto). ring.
    - unfold cost. rewrite Sum_app, (Sum_zero V) by (intros a Ia; apply Sum_zero; intros b Ib; rewrite (Z0 a b) by auto; ring). rewrite Rplus_0_r. apply Sum_ext. intros a Ia.
      rewrite Sum_app, (Sum_zero V) by (intros b Ib; rewrite (Z0 a b) by auto; ring). ring. }
  split; apply glb_ext; intros c; split; intros (T & PL & ->).
  - destruct (EXT T PL) as (T' & PL' & C). exists T'. auto.
  - destruct (RES T PL) as (PL' & C). exists T. auto.
  - destruct (RES T PL) as (PL' & C). exists T. auto.
  - destruct (EXT T PL) as (T' & PL' & C). exists T'. auto.
Qed.
Lemma least_same : forall W p D, NoDup W -> distribution W p -> (forall a b, In a W -> In b W -> 0 <= D a b) -> (forall a, In a W -> D a a = 0) -> least_cost W p p D 0.
Proof.
  intros W p D ND (P0 & P1) DN DD. split.
  - intros c (T & PL & ->). apply cost_nonneg with (1 := PL). exact DN.
  - intros y Y. apply Y. exists (fun a b => if eq_dec a b then p a else 0). split; [split; [|split]|].
    + intros a b Ia Ib. destruct (eq_dec a b); [auto|lra].
    + intros a Ia. apply Sum_single; assumption.
    + intros b Ib. rewrite (Sum_ext W _ (fun a => if eq_dec b a then p b else 0)); [apply Sum_single; assumption|].
      intros a Ia. destruct (eq_dec a b) as [->|NE]; destruct (eq_dec b _); congruence || reflexivity.
    + symmetry. apply Sum_zero. intros a Ia. apply Sum_zero. intros b Ib. destruct (eq_dec a b) as [<-|]; [rewrite DD by exact Ia|]; ring.
Qed.
Lemma least_bound : forall W p q D x B, distribution W p -> distribution W q -> (forall a b, In a W -> In b W -> D a b <= B) -> least_cost W p q D x -> x <= B.
Proof.
  intros W p q D x B P Q DB (L & _). apply Rle_trans with (cost W D (fun a b => p a * q b)).
  - apply L. eexists. split; [apply plan_product; assumption | reflexivity].
  - destruct P as (P0 & P1), Q as (Q0 & Q1). apply Rle_trans with (Sum W (fun a => Sum W (fun b => p a * q b * B))).
    + apply Sum_le. intros a Ia. apply Sum_le. intros b Ib. specialize (P0 a Ia). specialize (Q0 b Ib). specialize (DB a b Ia Ib). assert (0 <= p a * q b) by nra. nra.
    + rewrite (Sum_ext W _ (fun a => p a * B)).
      * rewrite Sum_scal_r, P1. lra.
      * intros a Ia. rewrite Sum_scal_r, Sum_scal, Q1. ring.
Qed.
Lemma least_triangle : forall W p q r D x y z, distribution W q -> (forall a b c, In a W -> In b W -> In c W -> D a c <= D a b + D b c) ->
  least_cost W p q D x -> least_cost W q r D y -> least_cost W p r D z -> z <= x + y.
Proof.
  intros W p q r D x y z (Q0 & Q1) TI LX LY (LZ & _).
  assert (MAIN : forall T U, plan W p q T -> plan W q r U -> z <= cost W D T + cost W D U).
  { intros T U PT PU. set (V := fun a c => Sum W (fun b => T a b * U b c / q b)).
    assert (TQ : forall a b c, In a W -> In b W -> In c W -> 0 <= T a b * U b c / q b).
    { intros a b c Ia Ib Ic. destruct PT as (NT & _), PU as (NU & _). specialize (NT a b Ia Ib). specialize (NU b c Ib Ic). specialize (Q0 b Ib).
      destruct (Req_dec (q b) 0) as [E|E].
      - rewrite E. unfold Rdiv. rewrite Rinv_0. nra.
      - apply Rmult_le_pos; [nra|]. apply Rlt_le, Rinv_0_lt_compat. lra. }
    assert (M1 : forall a b, In a W -> In b W -> Sum W (fun c => T a b * U b c / q b) = T a b).
    { intros a b Ia Ib. rewrite (Sum_ext W _ (fun c => (T a b / q b) * U b c)) by (intros; unfold Rdiv; ring). rewrite Sum_scal. pose proof (proj1 (proj2 PU) b Ib) as MU. change (Sum W (U b) = q b) in MU. change (T a b / q b * Sum W (U b) = T a b). rewrite MU.
      destruct (Req_dec (q b) 0) as [E|E]; [rewrite (plan_zero W p q T a b PT Ia Ib (or_intror E)); unfold Rdiv; ring | field; exact E]. }
    assert (M2 : forall b c, In b W -> In c W -> Sum W (fun a => T a b * U b c / q b) = U b c).
    { intros b c Ib Ic. rewrite (Sum_ext W _ (fun a => T a b * (U b c / q b))) by (intros; unfold Rdiv; ring). rewrite (Sum_scal_r W (fun a => T a b)). rewrite (proj2 (proj2 PT) b Ib).
      destruct (Req_dec (q b) 0) as [E|E]; [rewrite (plan_zero W q r U b c PU Ib Ic (or_introl E)); unfold Rdiv; ring | field; exact E]. }
    assert (PV : plan W p r V).
    { split; [intros a c Ia Ic; apply Sum_nonneg; intros; apply TQ; assumption|]. split.
      - intros a Ia. unfold V. rewrite Sum_swap. rewrite (Sum_ext W _ (fun b => T a b)) by (intros; apply M1; assumption). apply (proj1 (proj2 PT)). exact Ia.
      - intros c Ic. unfold V. rewrite Sum_swap. rewrite (Sum_ext W _ (fun b => U b c)) by (intros; apply M2; assumption). apply (proj2 (proj2 PU)). exact Ic. }
    apply Rle_trans with (cost W D V); [apply LZ; eexists; split; [exact PV | reflexivity]|].
    apply Rle_trans with (Sum W (fun a => Sum W (fun c => Sum W (fun b => T a b * U b c / q b * D a b + T a b * U b c / q b * D b c)))).
    - apply Sum_le. intros a Ia. apply Sum_le. intros c Ic. unfold V. rewrite <- Sum_scal_r. apply Sum_le. intros b Ib. specialize (TQ a b c Ia Ib Ic). specialize (TI a b c Ia Ib Ic). nra.
    - apply Req_le. rewrite (Sum_ext W _ (fun a => Sum W (fun b => T a b * D a b) + Sum W (fun c => Sum W (fun b => T a b * U b c / q b * D b c)))).
      + rewrite Sum_plus. unfold cost. f_equal.
        rewrite (Sum_ext W _ (fun a => Sum W (fun b => Sum W (fun c => T a b * U b c / q b * D b c)))) by (intros; apply Sum_swap).
        rewrite Sum_swap. apply Sum_ext. intros b Ib. rewrite Sum_swap. apply Sum_ext. intros c Ic. rewrite Sum_scal_r, M2 by assumption. reflexivity.
      + intros a Ia. rewrite (Sum_ext W _ (fun c => Sum W (fun b => T a b * U b c / q b * D a b) + Sum W (fun b => T a b * U b c / q b * D b c))) by (intros; apply Sum_plus).
        rewrite Sum_plus. f_equal. rewrite Sum_swap. apply Sum_ext. intros b Ib. rewrite Sum_scal_r, M1 by assumption. reflexivity. }
  assert (z - x <= y); [|lra]. apply (proj2 LY). intros c (U & PU & ->).
  assert (z - cost W D U <= x); [|lra]. apply (proj2 LX). intros c' (T & PT & ->). specialize (MAIN T U PT PU). lra.
Qed.
End Plans.
(** Renaming points. *)
Lemma least_rename : forall {A B} (h : A -> B) (g : B -> A) (W : list A) p q D x, (forall a, In a W -> g (h a) = a) ->
  (least_cost W (fun a => p (h a)) (fun a => q (h a)) (fun a a' => D (h a) (h a')) x <-> least_cost (map h W) p q D x).
Proof.
  intros A B h g W p q D x GH.
  assert (TO : forall T, plan W (fun a => p (h a)) (fun a => q (h a)) T -> plan (map h W) p q (fun b b' => T (g b) (g b')) /\
    cost (map h W) D (fun b b' => T (g b) (g b')) = cost W (fun a a' => D (h a) (h a')) T).
  { intros T (N & P & Q). split; [split; [|split]|].
    - intros b b' Ib Ib'. apply in_map_iff in Ib. apply in_map_iff in Ib'. destruct Ib as (a & <- & Ia), Ib' as (a' & <- & Ia'). rewrite !GH by assumption. auto.
    - intros b Ib. apply in_map_iff in Ib. destruct Ib as (a & <- & Ia). rewrite Sum_map, <- (P a Ia). apply Sum_ext. intros a' Ia'. rewrite !GH by assumption. reflexivity.
    - intros b Ib. apply in_map_iff in Ib. destruct Ib as (a & <- & Ia). rewrite Sum_map, <- (Q a Ia). apply Sum_ext. intros a' Ia'. rewrite !GH by assumption. reflexivity.
    - unfold cost. rewrite Sum_map. apply Sum_ext. intros a Ia. rewrite Sum_map. apply Sum_ext. intros a' Ia'. rewrite !GH by assumption. reflexivity. }
  assert (FROM : forall T, plan (map h W) p q T -> plan W (fun a => p (h a)) (fun a => q (h a)) (fun a a' => T (h a) (h a')) /\
    cost W (fun a a' => D (h a) (h a')) (fun a a' => T (h a) (h a')) = cost (map h W) D T).
  { intros T (N & P & Q). split; [split; [|split]|].
    - intros a a' Ia Ia'. apply N; apply in_map; assumption.
    - intros a Ia. rewrite <- (P (h a)) by (apply in_map; exact Ia). rewrite Sum_map. reflexivity.
    - intros a Ia. rewrite <- (Q (h a)) by (apply in_map; exact Ia). rewrite Sum_map. reflexivity.
    - unfold cost. rewrite Sum_map. apply Sum_ext. intros a Ia. rewrite Sum_map. reflexivity. }
  split; apply glb_ext; intros c; split; intros (T & PL & ->).
  - destruct (TO T PL) as (X & Y). eexists. split; [exact X | symmetry; exact Y].
  - destruct (FROM T PL) as (X & Y). eexists. split; [exact X | symmetry; exact Y].
  - destruct (FROM T PL) as (X & Y). eexists. split; [exact X | symmetry; exact Y].
  - destruct (TO T PL) as (X & Y). eexists. split; [exact X | symmetry; exact Y].
Qed.
