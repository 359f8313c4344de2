(** Proofs about merging two projections. *)
From Coq Require Import Reals Lra.
From Verif Require Import Base MatReal_Model MatReal_Proofs Utils_Model LdaTrain_Model LdaTrain_Proofs2 Lsi_Model Lsi_Spec Lsi_Linear.
From Coq Require Import ZifyBool ZifyNat.
Local Open Scope R_scope.

Lemma assoc_l : forall h n (x : nat -> R) (K : mat) w,
  sumn h (fun l => x l * sumn n (fun j => K l j * w j)) = sumn n (fun j => sumn h (fun l => x l * K l j) * w j).
Proof.
  intros. rewrite (sumn_ext h _ (fun l => sumn n (fun j => x l * K l j * w j))) by (intros; rewrite <- sumn_scal; apply sumn_ext; intros; ring).
  rewrite sumn_swap2. apply sumn_ext. intros. apply sumn_scal_r.
Qed.

(** [C = B K], and [B] keeps products of vectors in the range of [K] *)
Lemma iso_spectral : forall m h n t (B K C uk : mat) s,
  (forall i j, (i < m)%nat -> (j < n)%nat -> C i j = sumn h (fun l => B i l * K l j)) ->
  (forall j j', (j < n)%nat -> (j' < n)%nat -> sumn m (fun i => C i j * C i j') = sumn h (fun l => K l j * K l j')) ->
  (forall l l', (l < h)%nat -> (l' < h)%nat -> mmul n K (tr K) l l' = gram t uk s l l') ->
  orthonormal_cols h t uk -> (forall a, (a < t)%nat -> 0 <= s a) -> (forall a b, (a <= b)%nat -> (b < t)%nat -> s b <= s a) ->
  exists r, (r <= t)%nat /\ spectral m (mmul n C (tr C)) r (mmul h B uk) s /\ forall a, (r <= a)%nat -> (a < t)%nat -> s a = 0.
Proof.
  intros m h n t B K C uk s HC ISO KK OU NN D.
  destruct (positive_prefix t s NN D) as (r & Hr & P & Z0). exists r. split; [exact Hr|]. split; [|exact Z0].
  assert (OR : orthonormal_cols h r uk) by (intros a b Ha Hb; apply OU; lia).
  set (w := fun a j => sumn h (fun l => K l j * uk l a) / s a ^ 2).
  assert (KW : forall a l, (a < r)%nat -> (l < h)%nat -> sumn n (fun j => K l j * w a j) = uk l a).
  { intros a l Ha Hl. unfold w.
    rewrite (sumn_ext n _ (fun j => K l j * sumn h (fun l' => tr K j l' * uk l' a) * / s a ^ 2)) by (intros; unfold Rdiv, tr; ring).
    rewrite sumn_scal_r, assoc_l.
    rewrite (sumn_ext h _ (fun l' => gram t uk s l l' * uk l' a)) by (intros l' Hl'; rewrite <- (KK l l' Hl Hl'); reflexivity).
    rewrite gram_apply. rewrite (sumn_ext t _ (fun b => s b ^ 2 * uk l b * delta b a)).
    - rewrite sumn_delta by lia. assert (0 < s a) by (apply P; exact Ha). field. lra.
    - intros b Hb. rewrite delta_sym. f_equal. apply OU; lia. }
  assert (BW : forall a i, (a < r)%nat -> (i < m)%nat -> mmul h B uk i a = sumn n (fun j => C i j * w a j)).
  { intros a i Ha Hi. unfold mmul. rewrite (sumn_ext h _ (fun l => B i l * sumn n (fun j => K l j * w a j))) by (intros l Hl; rewrite (KW a l Ha Hl); reflexivity).
    rewrite assoc_l. apply sumn_ext. intros j Hj. rewrite (HC i j Hi Hj). reflexivity. }
  split.
  - intros a b Ha Hb. rewrite <- (OR a b Ha Hb).
    rewrite (dotv_ext m _ _ (fun i => sumn n (fun j => C i j * w a j)) (fun i => sumn n (fun j => C i j * w b j))) by (intros; apply BW; assumption).
    rewrite dotv_apply.
    rewrite (dotv_ext h (fun i => uk i a) (fun i => uk i b) (fun l => sumn n (fun j => K l j * w a j)) (fun l => sumn n (fun j => K l j * w b j)))
      by (intros; symmetry; apply KW; assumption).
    rewrite dotv_apply. apply sumn_ext. intros j Hj. apply sumn_ext. intros j' Hj'. rewrite (ISO j j' Hj Hj'). reflexivity.
  - exact P.
  - intros a a' H1 H2. apply D; lia.
  - intros i j Hi Hj. rewrite <- (gram_prefix t r _ s i j Hr Z0). unfold mmul at 1, tr.
    rewrite (sumn_ext n _ (fun l => C i l * sumn h (fun k => K k l * B j k))) by (intros l Hl; rewrite (HC j l Hj Hl); f_equal; apply sumn_ext; intros; ring).
    rewrite (sumn_ext n _ (fun l => sumn h (fun k => tr K l k * B j k) * sumn h (fun k => B i k * K k l))) by (intros l Hl; rewrite (HC i l Hi Hl); unfold tr; ring).
    rewrite (sumn_ext n _ (fun l => sumn h (fun k => B i k * K k l) * sumn h (fun k => tr K l k * B j k))) by (intros; ring).
    rewrite assoc_l.
    rewrite (sumn_ext h _ (fun k => sumn h (fun k' => B i k' * gram t uk s k' k) * B j k)).
    + unfold gram, mmul.
      rewrite (sumn_ext h _ (fun k => sumn t (fun a => s a ^ 2 * sumn h (fun l => B i l * uk l a) * (B j k * uk k a)))).
      * rewrite sumn_swap2. apply sumn_ext. intros a _. rewrite sumn_scal. ring.
      * intros k Hk. rewrite <- sumn_scal_r.
        rewrite (sumn_ext h _ (fun k' => sumn t (fun a => s a ^ 2 * (B j k * uk k a) * (B i k' * uk k' a)))).
        -- rewrite sumn_swap2. apply sumn_ext. intros a _. rewrite sumn_scal. ring.
        -- intros k' _. rewrite <- sumn_scal, <- sumn_scal_r. apply sumn_ext. intros. ring.
    + intros k Hk. f_equal.
      rewrite (sumn_ext n _ (fun l => sumn h (fun k0 => B i k0 * K k0 l) * K k l)) by reflexivity.
      rewrite <- (assoc_l h n (B i) K (fun l => K k l)). apply sumn_ext. intros k' Hk'. f_equal.
      rewrite <- (KK k' k Hk' Hk). reflexivity.
Qed.

(** ** The two bases side by side *)
Section Merge.
Variables (m : nat) (decay : R) (f1 f2 : factors) (l : lib).
Let n1 := f_n f1.
Let n2 := f_n f2.
Let p := Nat.min m n2.
Let h := rows_k m n1 n2.
Let n := (n1 + n2)%nat.
Let c := c_of m f1 f2.
Let K := kmat decay n1 (f_s f1) c (l_r l) (f_s f2).
Let B : mat := fun i a => if (a <? n1)%nat then f_u f1 i a else l_q l i (a - n1)%nat.
Let C : mat := fun i j => if (j <? n1)%nat then decay * f_s f1 j * f_u f1 i j else f_s f2 (j - n1)%nat * f_u f2 i (j - n1)%nat.
Hypothesis OK : lib_ok m decay f1 f2 l.
Hypothesis O1 : orthonormal_cols m n1 (f_u f1).

Lemma sum_h : forall f, sumn h f = sumn n1 f + sumn p (fun b => f (n1 + b)%nat).
Proof. intros. unfold h, rows_k. apply sumn_split. Qed.
Lemma sum_n : forall f, sumn n f = sumn n1 f + sumn n2 (fun b => f (n1 + b)%nat).
Proof. intros. unfold n. apply sumn_split. Qed.

Ltac cases := repeat match goal with |- context [(?a <? ?b)%nat] => destruct (Nat.ltb_spec a b); try lia end.
Lemma B_lo : forall i a, (a < n1)%nat -> B i a = f_u f1 i a.
Proof. intros. unfold B. cases. reflexivity. Qed.
Lemma B_hi : forall i a, B i (n1 + a)%nat = l_q l i a.
Proof. intros. unfold B. cases. f_equal. lia. Qed.
Lemma C_lo : forall i a, (a < n1)%nat -> C i a = decay * f_s f1 a * f_u f1 i a.
Proof. intros. unfold C. cases. reflexivity. Qed.
Lemma C_hi : forall i a, C i (n1 + a)%nat = f_s f2 a * f_u f2 i a.
Proof. intros. unfold C. cases. now replace (n1 + a - n1)%nat with a by lia. Qed.
Lemma K_ll : forall i a, (i < n1)%nat -> (a < n1)%nat -> K i a = decay * f_s f1 i * delta i a.
Proof. intros. unfold K, kmat. fold n1. cases. unfold delta. destruct (i =? a)%nat; ring. Qed.
Lemma K_lh : forall i a, (i < n1)%nat -> K i (n1 + a)%nat = c i a * f_s f2 a.
Proof. intros. unfold K, kmat. cases. now replace (n1 + a - n1)%nat with a by lia. Qed.
Lemma K_hl : forall i a, (a < n1)%nat -> K (n1 + i)%nat a = 0.
Proof. intros. unfold K, kmat. cases. reflexivity. Qed.
Lemma K_hh : forall i a, K (n1 + i)%nat (n1 + a)%nat = l_r l i a * f_s f2 a.
Proof. intros. unfold K, kmat. cases. now replace (n1 + a - n1)%nat with a by lia; replace (n1 + i - n1)%nat with i by lia. Qed.

Lemma qr_w : forall i j, (i < m)%nat -> (j < n2)%nat -> sumn p (fun b => l_q l i b * l_r l b j) = f_u f2 i j - sumn n1 (fun b => f_u f1 i b * c b j).
Proof. intros i j Hi Hj. destruct OK as ((_ & H) & _). exact (H i j Hi Hj). Qed.
Lemma split2 : forall i j, (i < m)%nat -> (j < n2)%nat -> f_u f2 i j = sumn n1 (fun b => f_u f1 i b * c b j) + sumn p (fun b => l_q l i b * l_r l b j).
Proof. intros. rewrite qr_w by assumption. ring. Qed.

Lemma HC : forall i j, (i < m)%nat -> (j < n)%nat -> C i j = sumn h (fun a => B i a * K a j).
Proof.
  intros i j Hi Hj. rewrite sum_h. destruct (le_lt_dec n1 j) as [L|L].
  - assert (Hj2 : (j - n1 < n2)%nat) by (unfold n in Hj; lia). replace j with (n1 + (j - n1))%nat by lia. set (j' := (j - n1)%nat) in *.
    rewrite C_hi. rewrite (sumn_ext n1 _ (fun a => f_u f1 i a * c a j' * f_s f2 j')) by (intros; rewrite B_lo, K_lh by assumption; ring).
    rewrite (sumn_ext p _ (fun a => l_q l i a * l_r l a j' * f_s f2 j')) by (intros; rewrite B_hi, K_hh; ring).
    rewrite !sumn_scal_r, (split2 i j' Hi Hj2). ring.
  - rewrite C_lo by exact L. rewrite (sumn_ext n1 _ (fun a => f_u f1 i a * (decay * f_s f1 a) * delta a j)) by (intros; rewrite B_lo, K_ll by assumption; ring).
    rewrite sumn_delta by exact L. rewrite (sumn_all0 p); [ring|]. intros. rewrite K_hl by exact L. ring.
Qed.

Lemma u1q_r : forall a j, (a < n1)%nat -> (j < n2)%nat -> sumn m (fun i => f_u f1 i a * sumn p (fun b => l_q l i b * l_r l b j)) = 0.
Proof.
  intros a j Ha Hj.
  rewrite (sumn_ext m _ (fun i => f_u f1 i a * f_u f2 i j - f_u f1 i a * sumn n1 (fun b => f_u f1 i b * c b j))) by (intros i Hi; rewrite (qr_w i j Hi Hj); ring).
  rewrite sumn_minus, assoc_l.
  rewrite (sumn_ext n1 _ (fun b => delta a b * c b j)); [rewrite sumn_delta' by exact Ha; unfold c, c_of, mmul, tr; ring|].
  intros b Hb. f_equal. exact (O1 a b Ha Hb).
Qed.
Lemma gram2 : forall j j', (j < n2)%nat -> (j' < n2)%nat ->
  sumn m (fun i => f_u f2 i j * f_u f2 i j') = sumn n1 (fun b => c b j * c b j') + sumn p (fun b => l_r l b j * l_r l b j').
Proof.
  intros j j' Hj Hj'.
  set (x := fun j i => sumn n1 (fun b => f_u f1 i b * c b j)). set (y := fun j i => sumn p (fun b => l_q l i b * l_r l b j)).
  rewrite (sumn_ext m _ (fun i => (x j i * x j' i + y j i * y j' i) + (x j i * y j' i + x j' i * y j i))) by (intros i Hi; rewrite (split2 i j Hi Hj), (split2 i j' Hi Hj'); fold (x j i) (x j' i) (y j i) (y j' i); ring).
  rewrite !sumn_plus.
  assert (XX : sumn m (fun i => x j i * x j' i) = sumn n1 (fun b => c b j * c b j')).
  { unfold x. change (dotv m (fun i => sumn n1 (fun b => f_u f1 i b * c b j)) (fun i => sumn n1 (fun b => f_u f1 i b * c b j')) = sumn n1 (fun b => c b j * c b j')).
    rewrite dotv_apply. apply sumn_ext. intros b Hb. rewrite (sumn_ext n1 _ (fun b' => c b j * c b' j' * delta b' b)); [rewrite sumn_delta by exact Hb; reflexivity|].
    intros b' Hb'. f_equal. rewrite delta_sym. exact (O1 b b' Hb Hb'). }
  assert (YY : sumn m (fun i => y j i * y j' i) = sumn p (fun b => l_r l b j * l_r l b j')).
  { unfold y. change (dotv m (fun i => sumn p (fun b => l_q l i b * l_r l b j)) (fun i => sumn p (fun b => l_q l i b * l_r l b j')) = sumn p (fun b => l_r l b j * l_r l b j')).
    rewrite dotv_apply. apply sumn_ext. intros b Hb. rewrite (sumn_ext p _ (fun b' => l_r l b j * l_r l b' j' * delta b' b)); [rewrite sumn_delta by exact Hb; reflexivity|].
    intros b' Hb'. f_equal. rewrite delta_sym. destruct OK as ((OQ & _) & _). exact (OQ b b' Hb Hb'). }
  assert (XY : forall j j', (j < n2)%nat -> (j' < n2)%nat -> sumn m (fun i => x j i * y j' i) = 0).
  { clear - OK O1. intros j j' Hj Hj'. unfold x.
    rewrite (sumn_ext m _ (fun i => y j' i * sumn n1 (fun b => f_u f1 i b * c b j))) by (intros; ring). rewrite assoc_l. apply sumn_all0. intros b Hb.
    rewrite (sumn_ext m _ (fun i => f_u f1 i b * y j' i)) by (intros; ring). unfold y. rewrite (u1q_r b j' Hb Hj'). ring. }
  rewrite XX, YY, (XY j j' Hj Hj'), (XY j' j Hj' Hj). ring.
Qed.

Lemma ISO : forall j j', (j < n)%nat -> (j' < n)%nat -> sumn m (fun i => C i j * C i j') = sumn h (fun a => K a j * K a j').
Proof.
  assert (LL : forall j j', (j < n1)%nat -> (j' < n1)%nat -> sumn m (fun i => C i j * C i j') = sumn h (fun a => K a j * K a j')).
  { intros j j' Hj Hj'. rewrite sum_h, (sumn_all0 p) by (intros; rewrite K_hl by exact Hj; ring).
    rewrite (sumn_ext n1 _ (fun a => decay * f_s f1 a * (decay * f_s f1 a * delta a j') * delta a j)) by (intros; rewrite !K_ll by assumption; ring).
    rewrite sumn_delta by exact Hj.
    rewrite (sumn_ext m _ (fun i => decay * f_s f1 j * (decay * f_s f1 j') * (f_u f1 i j * f_u f1 i j'))) by (intros; rewrite !C_lo by assumption; ring).
    rewrite sumn_scal. assert (E := O1 j j' Hj Hj'). unfold dotv in E. rewrite E. unfold delta. destruct (Nat.eqb_spec j j'); subst; ring. }
  assert (LH : forall j j', (j < n1)%nat -> (j' < n2)%nat -> sumn m (fun i => C i j * C i (n1 + j')%nat) = sumn h (fun a => K a j * K a (n1 + j')%nat)).
  { intros j j' Hj Hj'. rewrite sum_h, (sumn_all0 p) by (intros; rewrite K_hl by exact Hj; ring).
    rewrite (sumn_ext n1 _ (fun a => decay * f_s f1 a * (c a j' * f_s f2 j') * delta a j)) by (intros; rewrite K_ll, K_lh by assumption; ring).
    rewrite sumn_delta by exact Hj.
    rewrite (sumn_ext m _ (fun i => decay * f_s f1 j * f_s f2 j' * (f_u f1 i j * f_u f2 i j'))) by (intros; rewrite C_lo, C_hi by assumption; ring).
    rewrite sumn_scal. unfold c, c_of, mmul, tr. ring. }
  assert (HH : forall j j', (j < n2)%nat -> (j' < n2)%nat -> sumn m (fun i => C i (n1 + j)%nat * C i (n1 + j')%nat) = sumn h (fun a => K a (n1 + j)%nat * K a (n1 + j')%nat)).
  { intros j j' Hj Hj'. rewrite sum_h.
    rewrite (sumn_ext n1 _ (fun a => f_s f2 j * f_s f2 j' * (c a j * c a j'))) by (intros; rewrite !K_lh by assumption; ring).
    rewrite (sumn_ext p _ (fun a => f_s f2 j * f_s f2 j' * (l_r l a j * l_r l a j'))) by (intros; rewrite !K_hh; ring).
    rewrite (sumn_ext m _ (fun i => f_s f2 j * f_s f2 j' * (f_u f2 i j * f_u f2 i j'))) by (intros; rewrite !C_hi; ring).
    rewrite !sumn_scal, (gram2 j j' Hj Hj'). ring. }
  intros j j' Hj Hj'. unfold n in Hj, Hj'. destruct (le_lt_dec n1 j) as [L|L], (le_lt_dec n1 j') as [L'|L'].
  - replace j with (n1 + (j - n1))%nat by lia. replace j' with (n1 + (j' - n1))%nat by lia. apply HH; lia.
  - replace j with (n1 + (j - n1))%nat by lia. rewrite (sumn_ext m _ (fun i => C i j' * C i (n1 + (j - n1))%nat)) by (intros; ring).
    rewrite LH by lia. apply sumn_ext. intros. ring.
  - replace j' with (n1 + (j' - n1))%nat by lia. apply LH; lia.
  - apply LL; assumption.
Qed.

Definition merged_u : mat := fun i a => mmul n1 (f_u f1) (l_uk l) i a + sumn p (fun b => l_q l i b * l_uk l (n1 + b)%nat a).
Definition merged_s : nat -> R := if l_failed l then (fun a => sqrt (l_sk l a)) else l_sk l.
Definition merged_t : nat := if l_failed l then h else Nat.min h n.
Definition merged_T : mat := fun i j => decay ^ 2 * gram n1 (f_u f1) (f_s f1) i j + gram n2 (f_u f2) (f_s f2) i j.

Lemma merged_B : forall i a, mmul h B (l_uk l) i a = merged_u i a.
Proof.
  intros. unfold mmul at 1. rewrite sum_h. unfold merged_u, mmul. f_equal; apply sumn_ext; intros; [now rewrite B_lo|now rewrite B_hi].
Qed.
Lemma CC_T : forall i j, mmul n C (tr C) i j = merged_T i j.
Proof.
  intros. unfold mmul, tr. rewrite sum_n. unfold merged_T, gram. rewrite <- sumn_scal. f_equal; apply sumn_ext; intros; [rewrite !C_lo by assumption; ring|rewrite !C_hi; ring].
Qed.

Lemma svd_facts : orthonormal_cols h merged_t (l_uk l) /\ (forall a, (a < merged_t)%nat -> 0 <= merged_s a) /\
  (forall a b, (a <= b)%nat -> (b < merged_t)%nat -> merged_s b <= merged_s a) /\
  forall a b, (a < h)%nat -> (b < h)%nat -> mmul n K (tr K) a b = gram merged_t (l_uk l) merged_s a b.
Proof.
  destruct OK as (_ & SV). fold n1 n2 c h n K in SV. unfold merged_t, merged_s. destruct (l_failed l).
  - assert (SV' := SV). destruct SV as (OU & NN & D & _). rewrite Nat.min_id in OU, NN, D. split; [now apply orth_cols|]. repeat split.
    + intros. apply sqrt_pos.
    + intros. apply sqrt_le_1_alt. now apply D.
    + intros a b Ha Hb. exact (svd_square_gram h _ _ _ a b SV' (outer_sym h n K) (outer_psd h n K) Ha Hb).
  - assert (SV' := SV). destruct SV as (OU & NN & D & _). split; [now apply orth_cols|]. repeat split; [exact NN|exact D|].
    intros a b Ha Hb. exact (svd_gram h n K _ _ a b SV' Ha Hb).
Qed.

Lemma merged_spectral : exists r, (r <= merged_t)%nat /\ spectral m merged_T r merged_u merged_s /\ forall a, (r <= a)%nat -> (a < merged_t)%nat -> merged_s a = 0.
Proof.
  destruct svd_facts as (OU & NN & D & KK).
  destruct (iso_spectral m h n merged_t B K C (l_uk l) merged_s HC ISO KK OU NN D) as (r & Hr & SP & Z0).
  exists r. split; [exact Hr|]. split; [|exact Z0]. destruct SP as [O P D' E]. split.
  - intros a b Ha Hb. rewrite <- (O a b Ha Hb). apply dotv_ext; intros; now rewrite merged_B.
  - exact P.
  - exact D'.
  - intros i j Hi Hj. rewrite <- CC_T, (E i j Hi Hj). unfold gram. apply sumn_ext. intros. now rewrite !merged_B.
Qed.
End Merge.

(** ** Signs *)
Definition sign_of (m : nat) (u : mat) (a : nat) : R := if (0 <? m)%nat then (if Rlt_dec (u O a) 0 then -1 else 1) else 1.
Lemma canonical_sign : forall m u i a, canonical m u i a = sign_of m u a * u i a.
Proof. intros. unfold canonical, sign_of. destruct (0 <? m)%nat; [destruct (Rlt_dec (u O a) 0)|]; ring. Qed.
Lemma sign_sq : forall m u a, sign_of m u a * sign_of m u a = 1.
Proof. intros. unfold sign_of. destruct (0 <? m)%nat; [destruct (Rlt_dec (u O a) 0)|]; ring. Qed.
Lemma gram_canonical : forall m n u s i j, gram n (canonical m u) s i j = gram n u s i j.
Proof.
  intros. unfold gram. apply sumn_ext. intros a _. rewrite !canonical_sign.
  replace (sign_of m u a * u i a * (sign_of m u a * u j a)) with (sign_of m u a * sign_of m u a * (u i a * u j a)) by ring. rewrite sign_sq. ring.
Qed.
Lemma dot_canonical : forall m u a b, dotv m (fun i => canonical m u i a) (fun i => canonical m u i b) = sign_of m u a * sign_of m u b * dotv m (fun i => u i a) (fun i => u i b).
Proof. intros. unfold dotv. rewrite <- sumn_scal. apply sumn_ext. intros. rewrite !canonical_sign. ring. Qed.
Lemma spectral_canonical : forall m T r u s, spectral m T r u s -> spectral m T r (canonical m u) s.
Proof.
  intros m T r u s [O P D E]. split; [|exact P|exact D|].
  - intros a b Ha Hb. rewrite dot_canonical, (O a b Ha Hb). destruct (Nat.eqb_spec a b) as [->|]; [rewrite sign_sq; ring|ring].
  - intros i j Hi Hj. rewrite (E i j Hi Hj). symmetry. apply gram_canonical.
Qed.
Lemma canonical_first : forall m u a, (0 < m)%nat -> 0 <= canonical m u O a.
Proof. intros. unfold canonical. destruct (Nat.ltb_spec 0 m); [|lia]. destruct (Rlt_dec (u O a) 0); lra. Qed.
