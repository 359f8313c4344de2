(** Fitting a chain; the loop of the training. *)
From Coq Require Import Reals Lra Psatz Lia.
From Verif Require Import Base MatReal_Model LdaTrain_Model LdaTrain_Proofs2 SoftCosine_Model Lsi_Linear LdaSeq_Model LdaSeq_Spec LdaSeq_Proofs LdaSeq_Proofs2.
Local Open Scope R_scope.

(** Everything but observations and what is computed from them *)
Definition same_base (s s' : sslm) : Prop := s_W s' = s_W s /\ s_T s' = s_T s /\ s_r s' = s_r s /\ s_q s' = s_q s /\ s_fvar s' = s_fvar s /\ s_var s' = s_var s.
Lemma same_base_refl : forall s, same_base s s.
Proof. intros s. repeat split. Qed.
Lemma same_base_trans : forall a b c, same_base a b -> same_base b c -> same_base a c.
Proof. unfold same_base. intros a b c [A1 [A2 [A3 [A4 [A5 A6]]]]] [B1 [B2 [B3 [B4 [B5 B6]]]]]. repeat split; congruence. Qed.
Definition good_var (s : sslm) : Prop := 0 < s_r s /\ 0 < s_q s /\ forall w, is_fvar (s_T s) (s_r s) (s_q s) (s_fvar s w) /\ is_var (s_T s) (s_q s) (s_fvar s w) (s_var s w).
Lemma good_same : forall s s', same_base s s' -> good_var s -> good_var s'.
Proof. unfold same_base, good_var. intros s s' [A1 [A2 [A3 [A4 [A5 A6]]]]] [G1 [G2 G3]]. rewrite A2, A3, A4, A5, A6. auto. Qed.
Lemma all_variances_good : forall s, 0 < s_r s -> 0 < s_q s -> good_var (all_variances s).
Proof.
  intros s Hr Hq. split; [exact Hr|]. split; [exact Hq|]. intros w. cbn. split; [now apply fwd_variance_is|]. apply (bwd_variance_is _ (s_r s)); try assumption. now apply fwd_variance_is.
Qed.
(** Means and zeta belong to the observations *)
Definition settled (s : sslm) : Prop := good_var s /\
  (forall w, marginals (s_T s) (s_r s) (s_q s) (s_obs s w) (s_mean s w) (s_var s w)) /\
  (forall t, s_zeta s t = sumn (s_W s) (fun w => exp (s_mean s w (t + 1)%nat + s_var s w (t + 1)%nat / 2))).
Lemma means_settled : forall s, good_var s -> settled (update_zeta (all_means s)).
Proof.
  intros s G. split; [exact G|]. split; [|reflexivity]. intros w. destruct G as [Hr [Hq G]]. destruct (G w) as [F V]. cbn.
  apply (marginals_ok (s_T s) (s_r s) (s_q s) Hr Hq (s_fvar s w) _ (fwd_mean (s_T s) (s_r s) (s_q s) (s_fvar s w) (s_obs s w) (s_fmean s w))); [exact F | exact V | now apply fwd_mean_is | now apply (bwd_mean_is _ (s_r s))].
Qed.
Lemma compute_bound_settled : forall s sstats totals s1 b, compute_bound s sstats totals = Ok (s1, b) -> good_var s -> settled s1 /\ same_base s s1 /\ s_obs s1 = s_obs s.
Proof. intros s sstats totals s1 b H G. destruct (compute_bound_is s sstats totals s1 b H) as [_ [-> _]]. split; [now apply means_settled|]. repeat split. Qed.

Section Fit.
Variable cg : sslm -> nat -> row -> row -> mat -> row * row * row.

Lemma obs_step_base : forall sstats totals sf w, same_base (fst sf) (fst (obs_step cg sstats totals sf w)).
Proof.
  intros sstats totals [s c] w. unfold obs_step. destruct (_ && c); [apply same_base_refl|]. destruct (cg _ _ _ _ _) as [[o m] f]. repeat split.
Qed.
Lemma obs_fold_base : forall sstats totals l sf, same_base (fst sf) (fst (fold_left (obs_step cg sstats totals) l sf)).
Proof.
  intros sstats totals l. induction l as [|w l IH]; intros sf; [apply same_base_refl|]. cbn [fold_left]. eapply same_base_trans; [apply obs_step_base | apply IH].
Qed.
Lemma update_obs_base : forall s sstats totals, same_base s (update_obs cg s sstats totals).
Proof. intros s sstats totals. unfold update_obs. eapply same_base_trans; [apply (obs_fold_base sstats totals (seq 0 (s_W s)) (s, false))|]. repeat split. Qed.
Lemma fit_loop_settled : forall fuel s sstats totals b c s' b', fit_loop cg fuel s sstats totals b c = Ok (s', b') -> settled s -> settled s' /\ same_base s s'.
Proof.
  intros fuel. induction fuel as [|fuel IH]; intros s sstats totals b c s' b' H G; cbn [fit_loop] in H; [injection H as <- _; split; [exact G | apply same_base_refl]|].
  destruct (above c fit_tol); [|injection H as <- _; split; [exact G | apply same_base_refl]].
  destruct (compute_bound _ sstats totals) as [[s1 b1]|e] eqn:E; [|discriminate]. cbn [rbind fst snd] in H. destruct G as [G _].
  destruct (compute_bound_settled _ _ _ _ _ E (good_same _ _ (update_obs_base s sstats totals) G)) as [S1 [B1 _]].
  destruct (IH _ _ _ _ _ _ _ H S1) as [S2 B2]. split; [exact S2|]. eapply same_base_trans; [apply update_obs_base|]. eapply same_base_trans; eassumption.
Qed.
Lemma fit_sslm_settled : forall s sstats s' b, fit_sslm cg s sstats = Ok (s', b) -> 0 < s_r s -> 0 < s_q s ->
  settled s' /\ (forall w t, s_elog s' w t = s_mean s' w (t + 1)%nat - ln (s_zeta s' t)) /\ s_W s' = s_W s /\ s_T s' = s_T s /\ s_r s' = s_r s /\ s_q s' = s_q s /\ (0 < s_W s)%nat.
Proof.
  intros s sstats s' b H Hr Hq. unfold fit_sslm in H. destruct (s_W s =? 0)%nat eqn:EW; [discriminate|]. apply Nat.eqb_neq in EW.
  destruct (compute_bound (all_variances s) _ _) as [[s1 b1]|e] eqn:E1; [|discriminate]. cbn [rbind fst snd] in H.
  destruct (fit_loop cg 2 s1 _ _ b1 _) as [[s2 b2]|e] eqn:E2; [|discriminate]. cbn [rbind fst snd] in H. injection H as <- _.
  destruct (compute_bound_settled _ _ _ _ _ E1 (all_variances_good s Hr Hq)) as [S1 [B1 _]]. destruct (fit_loop_settled _ _ _ _ _ _ _ _ E2 S1) as [S2 B2].
  split; [exact S2|]. split; [reflexivity|]. destruct (same_base_trans _ _ _ B1 B2) as [C1 [C2 [C3 [C4 _]]]]. cbn in *. repeat split; try assumption. lia.
Qed.
Lemma fit_sslm_total : forall s sstats, (0 < s_W s)%nat -> exists r, fit_sslm cg s sstats = Ok r.
Proof.
  intros s sstats H. unfold fit_sslm. rewrite (proj2 (Nat.eqb_neq _ _)) by lia.
  assert (CB : forall s' totals, s_W s' = s_W s -> exists s1 b, compute_bound s' sstats totals = Ok (s1, b) /\ s_W s1 = s_W s).
  { intros s' totals E. unfold compute_bound. rewrite (proj2 (Nat.eqb_neq (s_W s') 0)) by lia. eexists _, _. split; [reflexivity|]. exact E. }
  destruct (CB (all_variances s) (fun t => sumn (s_W s) (fun w => sstats w t)) eq_refl) as [s1 [b1 [E1 W1]]]. rewrite E1. cbn [rbind fst snd].
  assert (FL : forall fuel s' totals b c, s_W s' = s_W s -> exists r, fit_loop cg fuel s' sstats totals b c = Ok r).
  { intros fuel. induction fuel as [|fuel IH]; intros s' totals b c E; cbn [fit_loop]; [eauto|]. destruct (above c fit_tol); [|eauto].
    destruct (CB (update_obs cg s' sstats totals) totals) as [s2 [b2 [E2 W2]]]; [destruct (update_obs_base s' sstats totals) as [U _]; congruence|]. rewrite E2. cbn [rbind fst snd]. apply IH. exact W2. }
  destruct (FL 2%nat s1 (fun t => sumn (s_W s) (fun w => sstats w t)) b1 (Fin (fit_tol + 1)) W1) as [r Er]. rewrite Er. cbn [rbind]. eauto.
Qed.
(** Which words are fitted *)
Definition rare (T : nat) (sstats : mat) (w : nat) : Prop := sqrt (sumn T (fun i => sstats w i * sstats w i)) < 2.
Lemma obs_step_obs : forall sstats totals s c w v, v <> w -> s_obs (fst (obs_step cg sstats totals (s, c) w)) v = s_obs s v.
Proof.
  intros sstats totals s c w v H. unfold obs_step. destruct (_ && c); [reflexivity|]. destruct (cg _ _ _ _ _) as [[o m] f]. cbn. now apply put_other.
Qed.
Lemma obs_fold_obs : forall sstats totals l sf v, ~ In v l -> s_obs (fst (fold_left (obs_step cg sstats totals) l sf)) v = s_obs (fst sf) v.
Proof.
  intros sstats totals l. induction l as [|w l IH]; intros [s c] v H; [reflexivity|]. cbn [fold_left]. cbn [In] in H. rewrite IH by tauto. apply obs_step_obs. intros ->. tauto.
Qed.
Lemma obs_step_flag : forall sstats totals s c w, snd (obs_step cg sstats totals (s, c) w) = true <-> c = true \/ rare (s_T s) sstats w.
Proof.
  intros sstats totals s c w. unfold obs_step, rare, counts_norm. destruct (Rlt_dec _ 2) as [L|L]; cbn [andb].
  - destruct c; cbn [snd]; [tauto|]. destruct (cg _ _ _ _ _) as [[o m] f]. cbn. tauto.
  - destruct (cg _ _ _ _ _) as [[o m] f]. cbn. rewrite orb_false_r. tauto.
Qed.
Lemma obs_fold_flag : forall sstats totals l s c, snd (fold_left (obs_step cg sstats totals) l (s, c)) = true <-> c = true \/ exists w, In w l /\ rare (s_T s) sstats w.
Proof.
  intros sstats totals l. induction l as [|w l IH]; intros s c; [cbn; split; [auto | intros [H|[w [[] _]]]; exact H]|]. cbn [fold_left].
  pose proof (obs_step_flag sstats totals s c w) as FS. pose proof (obs_step_base sstats totals (s, c) w) as [_ [ET _]]. destruct (obs_step cg sstats totals (s, c) w) as [s1 c1]. cbn [fst snd] in *.
  rewrite IH, FS, ET. cbn [In]. split.
  - intros [[H|H]|[v [H1 H2]]]; [now left | right; exists w; auto | right; exists v; auto].
  - intros [H|[v [[<-|H1] H2]]]; [tauto | tauto | right; exists v; auto].
Qed.
Lemma seq_cut : forall n w, (w < n)%nat -> seq 0 n = seq 0 w ++ w :: seq (S w) (n - S w).
Proof. intros n w H. replace n with (w + S (n - S w))%nat at 1 by lia. rewrite seq_app. reflexivity. Qed.
Lemma update_obs_word : forall s sstats totals w, (w < s_W s)%nat -> exists s0 c,
  same_base s s0 /\ (c = true <-> exists v, (v < w)%nat /\ rare (s_T s) sstats v) /\ s_obs s0 w = s_obs s w /\ s_obs (update_obs cg s sstats totals) w = s_obs (fst (obs_step cg sstats totals (s0, c) w)) w.
Proof.
  intros s sstats totals w H. unfold update_obs. cbn [s_obs update_zeta with_zeta]. rewrite (seq_cut _ _ H), fold_left_app. cbn [fold_left].
  pose proof (obs_fold_base sstats totals (seq 0 w) (s, false)) as B. pose proof (obs_fold_flag sstats totals (seq 0 w) s false) as Fl.
  pose proof (obs_fold_obs sstats totals (seq 0 w) (s, false) w ltac:(rewrite in_seq; lia)) as O0.
  destruct (fold_left _ (seq 0 w) (s, false)) as [s0 c]. cbn [fst snd] in *. exists s0, c. split; [exact B|]. split; [|split; [exact O0|]].
  - rewrite Fl. split; [intros [E|[v [H1 H2]]]; [discriminate|]; exists v; rewrite in_seq in H1; split; [lia|exact H2] | intros [v [H1 H2]]; right; exists v; rewrite in_seq; split; [lia | exact H2]].
  - apply obs_fold_obs. rewrite in_seq. lia.
Qed.
End Fit.

(** ** The loop *)
Section Em.
Context {St : Type}.
Variable step : nat -> nat -> St -> result (R * St).
Definition not_small (c : change) : Prop := match c with Fin x => em_tol <= x | _ => True end.
Lemma em_loop_rounds : forall fuel em_min em_max it mi b c s s' b' it' mi' c', em_loop step fuel em_min em_max it mi b c s = Ok (s', b', it', mi', c') -> not_small c ->
  (em_min + em_max + 1 <= it + fuel)%nat -> (it <= Nat.max em_min (S em_max))%nat ->
  (em_min <= it' <= Nat.max em_min (S em_max))%nat /\ not_small c' /\ (it' = Nat.max em_min (S em_max) \/ c' = Nan \/ c' = Fin em_tol).
Proof.
  intros fuel. induction fuel as [|fuel IH]; intros em_min em_max it mi b c s s' b' it' mi' c' H N HF HI; cbn [em_loop] in H.
  - injection H as <- <- <- <- <-. split; [lia|]. split; [exact N|]. left. lia.
  - destruct (_ || _) eqn:E.
    + destruct (step it mi s) as [[b1 s1]|e]; [|discriminate]. cbn [rbind fst snd] in H. refine (IH _ _ _ _ _ _ _ _ _ _ _ _ H _ _ _).
      * unfold not_small. destruct (below (rel_change (b1 - b) b) em_tol) eqn:Eb; [unfold em_tol; lra|].
        destruct (rel_change (b1 - b) b) as [x| |]; try exact Logic.I. cbn in Eb. destruct (Rlt_dec x em_tol); [discriminate | lra].
      * lia.
      * apply orb_prop in E. destruct E as [E|E]; [apply Nat.ltb_lt in E; lia|]. apply andb_prop in E. destruct E as [_ E]. apply Nat.leb_le in E. lia.
    + injection H as <- <- <- <- <-. apply orb_false_elim in E. destruct E as [E1 E2]. apply Nat.ltb_ge in E1. split; [lia|]. split; [exact N|].
      apply andb_false_elim in E2. destruct E2 as [E2|E2].
      * right. destruct c as [x| |]; cbn in E2; [|discriminate|now left]. right. f_equal. cbn in N. destruct (Rlt_dec em_tol x); [discriminate | lra].
      * apply Nat.leb_gt in E2. left. lia.
Qed.
End Em.
