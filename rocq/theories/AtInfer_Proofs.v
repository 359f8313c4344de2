(** Proofs about the inference of the author-topic model. *)
From Coq Require Import Reals Lra FunctionalExtensionality.
From Verif Require Import Base MatReal_Model MatReal_Proofs LdaTrain_Model LdaTrain_Proofs2 AtInfer_Model.
From Coq Require Import ZifyBool ZifyNat.
Local Open Scope R_scope.

Lemma trunc_nonneg : forall x, 0 <= x -> 0 <= trunc x <= x.
Proof.
  intros x H. unfold trunc. destruct (Rle_dec 0 x) as [_|N]; [|contradiction]. destruct (base_Int_part x) as (A & B). split; [|exact A].
  apply IZR_le. assert (L : (-1 < Int_part x)%Z) by (apply lt_IZR; lra). lia.
Qed.
Lemma trunc_int : forall z, trunc (IZR z) = IZR z.
Proof.
  intros z. assert (E : forall y, Int_part (IZR y) = y).
  { intros y. destruct (base_Int_part (IZR y)) as (A & B). apply le_IZR in A. assert (L : (y < Int_part (IZR y) + 1)%Z) by (apply lt_IZR; rewrite plus_IZR; lra). lia. }
  unfold trunc. destruct (Rle_dec 0 (IZR z)); rewrite <- ?opp_IZR, E; [reflexivity|]. f_equal. lia.
Qed.
Lemma trunc_frac : forall x, 0 <= x < 1 -> trunc x = 0.
Proof.
  intros x (A & B). unfold trunc. destruct (Rle_dec 0 x) as [_|N]; [|contradiction]. destruct (base_Int_part x) as (C & D). apply IZR_eq.
  assert (L1 : (-1 < Int_part x)%Z) by (apply lt_IZR; lra). assert (L2 : (Int_part x < 1)%Z) by (apply lt_IZR; lra). lia.
Qed.
Lemma cts_ok : forall d, Forall (fun wc => 0 <= snd wc) d -> Forall (fun wc => 0 <= snd wc) (cts d).
Proof. intros d F. induction F as [|(w, c) d H F IH]; constructor; [apply trunc_nonneg; exact H | exact IH]. Qed.
Lemma cts_words : forall d, map fst (cts d) = map fst d.
Proof. intros d. unfold cts. rewrite map_map. apply map_ext. reflexivity. Qed.

(** ** Writing the rows back *)
Lemma write_other : forall ss gamma a, ~ In a (map s_author ss) -> write_rows ss gamma a = gamma a.
Proof.
  intros ss. induction ss as [|s ss IH]; intros gamma a NI; [reflexivity|]. cbn in NI. unfold write_rows. cbn [fold_left]. fold (write_rows ss (fun a => if Nat.eqb a (s_author s) then s_gamma s else gamma a)).
  rewrite IH by tauto. destruct (Nat.eqb_spec a (s_author s)) as [->|]; [exfalso; tauto | reflexivity].
Qed.
Lemma write_some : forall ss gamma a, In a (map s_author ss) -> exists s, In s ss /\ s_author s = a /\ write_rows ss gamma a = s_gamma s.
Proof.
  intros ss. induction ss as [|s ss IH]; intros gamma a I; [contradiction|]. unfold write_rows. cbn [fold_left]. fold (write_rows ss (fun a => if Nat.eqb a (s_author s) then s_gamma s else gamma a)).
  destruct (in_dec Nat.eq_dec a (map s_author ss)) as [J|J].
  - destruct (IH (fun a => if Nat.eqb a (s_author s) then s_gamma s else gamma a) a J) as (x & A & B & C). exists x. split; [right; exact A | auto].
  - rewrite write_other by exact J. destruct I as [<-|I]; [|contradiction]. exists s. rewrite Nat.eqb_refl. split; [left; reflexivity | auto].
Qed.

Lemma write_perm : forall ss ss' gamma a, Permutation ss ss' -> NoDup (map s_author ss) -> write_rows ss gamma a = write_rows ss' gamma a.
Proof.
  intros ss ss' gamma a P ND. destruct (in_dec Nat.eq_dec a (map s_author ss)) as [J|J].
  - assert (J' : In a (map s_author ss')) by (apply (Permutation_in _ (Permutation_map s_author P)); exact J). destruct (write_some ss gamma a J) as (s & I1 & A1 & ->). destruct (write_some ss' gamma a J') as (s' & I2 & A2 & ->).
    f_equal. apply (Permutation_in _ (Permutation_sym P)) in I2. subst a. clear -ND I1 I2 A2. induction ss as [|x ss IH]; [contradiction|]. cbn in ND. apply NoDup_cons_iff in ND. destruct ND as (NI & ND).
    destruct I1 as [->|I1], I2 as [->|I2]; [reflexivity | exfalso; apply NI; rewrite <- A2; apply in_map; exact I2 | exfalso; apply NI; rewrite A2; apply in_map; exact I1 | apply IH; assumption].
  - rewrite (write_other ss) by exact J. rewrite write_other; [reflexivity|]. intros X. apply J. apply (Permutation_in _ (Permutation_sym (Permutation_map s_author P))). exact X.
Qed.

(** ** Counts *)
Lemma last_count_none : forall d w, last_count d w = None -> ~ In w (map fst d).
Proof. induction d as [|(w', c) d IH]; intros w E; [intros []|]. cbn [last_count] in E. destruct (last_count d w) eqn:L; [discriminate|]. destruct (Nat.eqb_spec w w') as [|NE]; [discriminate|]. intros [X|X]; [cbn in X; congruence | apply (IH w L X)]. Qed.
Lemma last_count_some : forall d w c, last_count d w = Some c -> In (w, c) d.
Proof. induction d as [|(w', c') d IH]; intros w c E; [discriminate|]. cbn [last_count] in E. destruct (last_count d w) eqn:L; [injection E as ->; right; apply IH; exact L|]. destruct (Nat.eqb_spec w w') as [->|]; [|discriminate]. injection E as ->. left. reflexivity. Qed.
Lemma no_word : forall d w, ~ In w (map fst d) -> filter (fun wc : nat * R => (fst wc =? w)%nat) d = [].
Proof. induction d as [|(w', c) d IH]; intros w NI; [reflexivity|]. cbn [filter fst]. cbn in NI. destruct (Nat.eqb_spec w' w); [exfalso; tauto|]. apply IH. tauto. Qed.
Lemma count_of : forall d w, NoDup (map fst d) -> Rsum (map (fun wc => trunc (snd wc)) (filter (fun wc => (fst wc =? w)%nat) d)) = match last_count (cts d) w with Some c => c | None => 0 end.
Proof.
  intros d w ND. induction d as [|(w', c) d IH]; [reflexivity|]. cbn [map fst] in ND. apply NoDup_cons_iff in ND. destruct ND as (NI & ND). cbn [filter fst cts map last_count snd]. fold (cts d).
  destruct (Nat.eqb_spec w' w) as [->|NE].
  - cbn [map snd]. rewrite Rsum_cons. rewrite no_word by exact NI. cbn. destruct (last_count (cts d) w) as [c'|] eqn:L.
    + exfalso. apply NI. rewrite <- cts_words. apply in_map_iff. exists (w, c'). split; [reflexivity | apply last_count_some; exact L].
    + rewrite Nat.eqb_refl. ring.
  - rewrite IH by exact ND. destruct (last_count (cts d) w); [reflexivity|]. destruct (Nat.eqb_spec w w'); [congruence | reflexivity].
Qed.

Section At.
Variables K V : nat.
Variable eps : R.
Variable edir : nat -> (nat -> R) -> nat -> R.
Variable ndocs : nat -> nat.
Notation phin := (at_phinorm K eps).
Notation new_gamma := (new_gamma K eps ndocs).
Notation at_step := (at_step K eps edir ndocs).
Notation at_iterate := (at_iterate K eps edir ndocs).
Notation at_doc := (at_doc K eps edir ndocs).
Notation at_loop := (at_loop K V eps edir ndocs).

(** ** The authors of the slots *)
Lemma iterate_keeps : forall n p d ss, map s_author (at_iterate n p d ss) = map s_author ss /\ map s_old (at_iterate n p d ss) = map s_old ss.
Proof.
  assert (ST : forall p d ss, map s_author (at_step p d ss) = map s_author ss /\ map s_old (at_step p d ss) = map s_old ss) by (intros; unfold AtInfer_Model.at_step; rewrite !map_map; split; reflexivity).
  intros n. induction n as [|n IH]; intros p d ss; [split; reflexivity|]. cbn [AtInfer_Model.at_iterate]. destruct (Rlt_dec _ _); [apply ST|]. destruct (IH p d (at_step p d ss)) as (A & B), (ST p d ss) as (C & D). split; congruence.
Qed.
Lemma doc_authors : forall p gamma authors d, map s_author (at_doc p gamma authors d) = authors /\ map s_old (at_doc p gamma authors d) = map gamma authors.
Proof. intros. unfold AtInfer_Model.at_doc. destruct (iterate_keeps (q_iterations p) p (cts d) (map (fun a => Slot a (gamma a) (gamma a) (edir K (gamma a))) authors)) as (A & B). rewrite A, B, !map_map. split; [apply map_id | reflexivity]. Qed.
Lemma old_of : forall p gamma authors d s, In s (at_doc p gamma authors d) -> In (s_author s) authors /\ s_old s = gamma (s_author s).
Proof.
  intros p gamma authors d s I. destruct (doc_authors p gamma authors d) as (A & B). split; [rewrite <- A; apply in_map; exact I|].
  set (ss := at_doc p gamma authors d) in *. clearbody ss. rewrite <- A, map_map in B. clear A. induction ss as [|x ss IH]; [contradiction|]. cbn in B. injection B as B1 B2. destruct I as [->|I]; [exact B1 | apply IH; assumption].
Qed.

(** ** Positive rows *)
Hypothesis edir_pos : forall n v i, 0 < edir n v i.
Definition theta_pos (ss : list slot) : Prop := forall s k, In s ss -> 0 < s_theta s k.
Lemma theta_sum_nonneg : forall ss k, theta_pos ss -> 0 <= theta_sum ss k.
Proof. intros ss k T. unfold theta_sum. apply Rsum_nonneg. intros x I. apply in_map_iff in I. destruct I as (s & <- & I). apply Rlt_le. apply T. exact I. Qed.
Lemma phin_ge : forall beta ss w, theta_pos ss -> (forall k, (k < K)%nat -> 0 < beta k w) -> 0 <= sumn K (fun k => theta_sum ss k * beta k w) /\ phin beta ss w = sumn K (fun k => theta_sum ss k * beta k w) + eps.
Proof. intros beta ss w T B. split; [|reflexivity]. apply sumn_nonneg. intros k L. apply Rmult_le_pos; [apply theta_sum_nonneg; exact T | apply Rlt_le; apply B; exact L]. Qed.
Lemma phin_pos : forall beta ss w, (0 < K)%nat -> 0 <= eps -> ss <> [] -> theta_pos ss -> (forall k, (k < K)%nat -> 0 < beta k w) -> 0 < sumn K (fun k => theta_sum ss k * beta k w) /\ 0 < phin beta ss w.
Proof.
  intros beta ss w HK HE NE T B. assert (P : 0 < sumn K (fun k => theta_sum ss k * beta k w)).
  { apply sumn_pos; [exact HK|]. intros k L. apply Rmult_lt_0_compat; [|apply B; exact L]. destruct ss as [|s ss]; [congruence|]. unfold theta_sum. cbn [map]. rewrite Rsum_cons.
    assert (0 < s_theta s k) by (apply T; left; reflexivity). assert (0 <= Rsum (map (fun s => s_theta s k) ss)); [|lra]. apply (theta_sum_nonneg ss k). intros x j I. apply T. right. exact I. }
  split; [exact P|]. unfold at_phinorm. lra.
Qed.
Lemma theta_step : forall p d ss, theta_pos (at_step p d ss).
Proof. intros p d ss s k I. unfold AtInfer_Model.at_step in I. apply in_map_iff in I. destruct I as (x & <- & _). apply edir_pos. Qed.
Lemma theta_iterate : forall n p d ss, theta_pos ss -> theta_pos (at_iterate n p d ss).
Proof. intros n. induction n as [|n IH]; intros p d ss T; [exact T|]. cbn [AtInfer_Model.at_iterate]. destruct (Rlt_dec _ _); [|apply IH]; apply theta_step. Qed.
Lemma theta_doc : forall p gamma authors d, theta_pos (at_doc p gamma authors d).
Proof. intros. apply theta_iterate. intros s k I. apply in_map_iff in I. destruct I as (a & <- & _). apply edir_pos. Qed.

(** The last step. *)
Lemma iterate_last_step : forall n p d ss, (0 < n)%nat -> theta_pos ss -> exists ss', at_iterate n p d ss = at_step p d ss' /\ theta_pos ss' /\ map s_author ss' = map s_author ss /\ map s_old ss' = map s_old ss.
Proof.
  clear V. intros n. induction n as [|n IH]; intros p d ss L T; [lia|]. cbn [AtInfer_Model.at_iterate]. destruct (Rlt_dec _ _); [exists ss; auto|]. destruct n as [|n]; [exists ss; auto|].
  destruct (IH p d (at_step p d ss) ltac:(lia) (theta_step p d ss)) as (ss' & E & T' & A & B). exists ss'. split; [exact E|]. split; [exact T'|]. unfold AtInfer_Model.at_step in A, B. rewrite map_map in A, B. split; assumption.
Qed.

Lemma share_sum : forall beta ss d, Rsum (map (fun s => sumn K (fun k => s_theta s k * Rsum (map (fun wc => snd wc / phin beta ss (fst wc) * beta k (fst wc)) d))) ss) =
  Rsum (map (fun wc => snd wc * (sumn K (fun k => theta_sum ss k * beta k (fst wc)) / phin beta ss (fst wc))) d).
Proof.
  intros beta ss d. rewrite <- (sumn_swap _ K (fun k s => s_theta s k * Rsum (map (fun wc => snd wc / phin beta ss (fst wc) * beta k (fst wc)) d)) ss).
  transitivity (sumn K (fun k => Rsum (map (fun wc => theta_sum ss k * (snd wc / phin beta ss (fst wc) * beta k (fst wc))) d))).
  - apply sumn_ext. intros k _. rewrite Rsum_scal. unfold theta_sum. set (c := Rsum (map (fun wc => snd wc / phin beta ss (fst wc) * beta k (fst wc)) d)). clearbody c.
    induction ss as [|s ss IH]; [cbn; ring|]. cbn [map]. rewrite !Rsum_cons, IH. ring.
  - rewrite sumn_swap. apply Rsum_ext. intros (w, c) _. cbn [fst snd]. transitivity (sumn K (fun k => (c / phin beta ss w) * (theta_sum ss k * beta k w))); [apply sumn_ext; intros; ring|]. rewrite sumn_scal. unfold Rdiv. ring.
Qed.
Lemma word_share : forall s e c, 0 <= s -> 0 <= e -> 0 <= c -> 0 <= c * (s / (s + e)) <= c /\ (0 < s -> e = 0 -> c * (s / (s + e)) = c).
Proof.
  intros s e c Hs He Hc. destruct (Req_dec (s + e) 0) as [Z0|NZ].
  - assert (s = 0) by lra. subst s. unfold Rdiv. rewrite Rmult_0_l, Rmult_0_r. split; [lra | intros; lra].
  - assert (P : 0 < s + e) by lra. assert (Q : 0 <= s / (s + e) <= 1).
    { split; [apply Rmult_le_pos; [exact Hs | apply Rlt_le, Rinv_0_lt_compat; exact P]|]. apply Rmult_le_reg_r with (s + e); [exact P|]. unfold Rdiv. rewrite Rmult_assoc, Rinv_l by lra. lra. }
    split; [split; [apply Rmult_le_pos; [exact Hc | apply Q]|]|].
    + rewrite <- (Rmult_1_r c) at 2. apply Rmult_le_compat_l; [exact Hc | apply Q].
    + intros Ps ->. rewrite Rplus_0_r. field. lra.
Qed.

(** ** Order of authors *)
Lemma step_perm : forall p d ss ss', Permutation ss ss' -> Permutation (at_step p d ss) (at_step p d ss') /\ at_change K eps ndocs p d ss = at_change K eps ndocs p d ss'.
Proof.
  intros p d ss ss' P. assert (TS : theta_sum ss = theta_sum ss') by (apply functional_extensionality; intros k; unfold theta_sum; apply Rsum_perm; apply Permutation_map; exact P).
  assert (PH : phin (q_beta p) ss = phin (q_beta p) ss') by (unfold at_phinorm; rewrite TS; reflexivity).
  assert (NG : forall s, new_gamma p d ss s = new_gamma p d ss' s) by (intros s; unfold AtInfer_Model.new_gamma; rewrite PH; reflexivity). split.
  - unfold AtInfer_Model.at_step. rewrite (map_ext _ (fun s => Slot (s_author s) (s_old s) (new_gamma p d ss' s) (edir K (new_gamma p d ss' s)))); [apply Permutation_map; exact P|]. intros s. rewrite NG. reflexivity.
  - unfold at_change. rewrite (Permutation_length P). f_equal. rewrite (map_ext _ (fun s => sumn K (fun k => Rabs (new_gamma p d ss' s k - s_gamma s k)))); [apply Rsum_perm; apply Permutation_map; exact P|]. intros s. rewrite NG. reflexivity.
Qed.
Lemma iterate_perm : forall n p d ss ss', Permutation ss ss' -> Permutation (at_iterate n p d ss) (at_iterate n p d ss').
Proof.
  intros n. induction n as [|n IH]; intros p d ss ss' P; [exact P|]. cbn [AtInfer_Model.at_iterate]. destruct (step_perm p d ss ss' P) as (A & B). rewrite B. destruct (Rlt_dec _ _); [exact A | apply IH; exact A].
Qed.
End At.
