(** The posterior of a document; documents and slices. *)
From Coq Require Import Reals Lra Psatz Lia.
From Verif Require Import Base MatReal_Model LdaTrain_Model LdaTrain_Proofs2 SoftCosine_Model Lsi_Linear LdaSeq_Model LdaSeq_Spec LdaSeq_Proofs.
Local Open Scope R_scope.

Lemma numbered_from : forall A (d : list A) a, combine (seq a (length d)) d = map (fun p => ((a + fst p)%nat, snd p)) (numbered d).
Proof.
  unfold numbered. intros A d. induction d as [|x d IH]; intros a; [reflexivity|]. cbn [length seq combine map fst snd]. rewrite Nat.add_0_r. f_equal.
  rewrite (IH (S a)), (IH 1%nat), map_map. apply map_ext. intros p. cbn. f_equal. lia.
Qed.
Lemma numbered_snd : forall A (d : list A), map snd (numbered d) = d.
Proof. intros A d. unfold numbered. generalize 0%nat. induction d as [|x d IH]; intros a; [reflexivity|]. cbn. f_equal. apply IH. Qed.
Lemma numbered_fst : forall A (d : list A), map fst (numbered d) = seq 0 (length d).
Proof. intros A d. unfold numbered. generalize 0%nat. induction d as [|x d IH]; intros a; [reflexivity|]. cbn. f_equal. apply IH. Qed.
Lemma numbered_in : forall A (d : list A) n x, In (n, x) (numbered d) -> (n < length d)%nat.
Proof. intros A d n x H. apply (in_map fst) in H. rewrite numbered_fst in H. apply in_seq in H. cbn in H. lia. Qed.
Lemma numbered_nth : forall A (d : list A) n x x0, In (n, x) (numbered d) -> nth n d x0 = x.
Proof.
  intros A d. unfold numbered. assert (G : forall (d : list A) a n x x0, In (n, x) (combine (seq a (length d)) d) -> (a <= n)%nat /\ nth (n - a) d x0 = x).
  { clear d. intros d. induction d as [|y d IH]; intros a n x x0 H; [destruct H|]. cbn [length seq combine] in H. destruct H as [H|H].
    - injection H as <- <-. rewrite Nat.sub_diag. split; [lia|reflexivity].
    - destruct (IH (S a) n x x0 H) as [H1 H2]. split; [lia|]. replace (n - a)%nat with (S (n - S a)) by lia. exact H2. }
  intros n x x0 H. destruct (G d 0%nat n x x0 H) as [_ H2]. now rewrite Nat.sub_0_r in H2.
Qed.
Lemma numbered_has : forall A (d : list A) n x0, (n < length d)%nat -> In (n, nth n d x0) (numbered d).
Proof.
  intros A d n x0 H. pose proof (numbered_fst A d) as E. assert (Hn : In n (map fst (numbered d))) by (rewrite E; apply in_seq; cbn; lia).
  apply in_map_iff in Hn. destruct Hn as [[n' x] [E1 E2]]. cbn in E1. subst n'. now rewrite (numbered_nth A d n x x0 E2).
Qed.
Lemma Rsum_ext : forall A (F G : A -> R) l, (forall x, In x l -> F x = G x) -> Rsum (map F l) = Rsum (map G l).
Proof. intros A F G l H. f_equal. now apply map_ext_in. Qed.
Lemma Rsum_le : forall A (F G : A -> R) l, (forall x, In x l -> F x <= G x) -> Rsum (map F l) <= Rsum (map G l).
Proof.
  intros A F G l. induction l as [|x l IH]; intros H; [apply Rle_refl|]. cbn. apply Rplus_le_compat; [apply H; now left | apply IH; intros; apply H; now right].
Qed.

Section Post.
Variables psi lgam : R -> R.
Variable m : lda.
Notation K := (l_K m).
Hypothesis HK : (0 < K)%nat.

Lemma log_norm_is : forall v, log_norm m v = ln (sumn K (fun k => exp (v k))).
Proof.
  intros v. unfold log_norm. destruct K as [|n] eqn:E; [lia|]. replace (S n - 1)%nat with n by lia. clear E HK.
  induction n as [|n IH]; [cbn; unfold sumn; cbn; rewrite Rplus_0_r, ln_exp; reflexivity|].
  rewrite seq_S, fold_left_app. cbn [fold_left Nat.add]. rewrite IH. unfold logaddexp. rewrite (sumn_S (S n)). rewrite exp_ln; [reflexivity|].
  apply sumn_pos; [lia|]. intros; apply exp_pos.
Qed.
Definition part (gamma : row) (word : nat) : R := sumn K (fun k => exp (raw_phi psi m gamma word k)).
Lemma part_pos : forall g w, 0 < part g w.
Proof. intros. apply sumn_pos; [exact HK|]. intros; apply exp_pos. Qed.
Lemma phi_fold : forall gamma l (pl : mat * mat), NoDup (map fst l) -> forall n,
  (forall x, In (n, x) l -> fst (fold_left (phi_step psi m gamma) l pl) n = (fun k => exp (raw_phi psi m gamma (fst x) k - log_norm m (raw_phi psi m gamma (fst x)))) /\
    snd (fold_left (phi_step psi m gamma) l pl) n = (fun k => raw_phi psi m gamma (fst x) k - log_norm m (raw_phi psi m gamma (fst x)))) /\
  (~ In n (map fst l) -> fst (fold_left (phi_step psi m gamma) l pl) n = fst pl n /\ snd (fold_left (phi_step psi m gamma) l pl) n = snd pl n).
Proof.
  intros gamma l. induction l as [|[n0 x0] l IH]; intros pl ND n; [split; [intros x []|intros _; split; reflexivity]|].
  cbn [map fst] in ND. apply NoDup_cons_iff in ND. destruct ND as [ND1 ND2]. cbn [fold_left]. destruct (IH (phi_step psi m gamma pl (n0, x0)) ND2 n) as [A B]. split.
  - intros x [E|H]; [|now apply A]. injection E as -> ->. destruct (B ND1) as [B1 B2]. rewrite B1, B2. unfold phi_step. cbn [fst snd]. now rewrite !put_same.
  - intros H. cbn [map fst In] in H. destruct (B ltac:(tauto)) as [B1 B2]. rewrite B1, B2. unfold phi_step. cbn [fst snd]. rewrite !put_other by (intros ->; tauto). split; reflexivity.
Qed.
(** The rows of the words of the document *)
Definition rows_ok (d : doc) (p : post) : Prop := forall n, (n < length d)%nat -> distribution K (p_phi p n).
Lemma update_phi_row : forall d p n x, In (n, x) (numbered d) -> forall k,
  p_phi (update_phi psi m d p) n k = exp (raw_phi psi m (p_gamma p) (fst x) k) / part (p_gamma p) (fst x) /\
  p_log (update_phi psi m d p) n k = raw_phi psi m (p_gamma p) (fst x) k - ln (part (p_gamma p) (fst x)).
Proof.
  intros d p n x H k. unfold update_phi. cbn [p_phi p_log].
  assert (ND : NoDup (map fst (numbered d))) by (rewrite numbered_fst; apply seq_NoDup).
  destruct (phi_fold (p_gamma p) (numbered d) (p_phi p, p_log p) ND n) as [A _]. destruct (A x H) as [A1 A2]. rewrite A1, A2. rewrite log_norm_is. fold (part (p_gamma p) (fst x)).
  split; [|reflexivity]. unfold Rminus. rewrite exp_plus, exp_Ropp, exp_ln by apply part_pos. reflexivity.
Qed.
Lemma update_phi_other : forall d p n, (length d <= n)%nat -> p_phi (update_phi psi m d p) n = p_phi p n /\ p_log (update_phi psi m d p) n = p_log p n.
Proof.
  intros d p n H. unfold update_phi. cbn [p_phi p_log].
  assert (ND : NoDup (map fst (numbered d))) by (rewrite numbered_fst; apply seq_NoDup).
  destruct (phi_fold (p_gamma p) (numbered d) (p_phi p, p_log p) ND n) as [_ B]. apply B. rewrite numbered_fst. rewrite in_seq. lia.
Qed.
Lemma update_phi_rows : forall d p, rows_ok d (update_phi psi m d p).
Proof.
  intros d p n H. pose proof (numbered_has _ d n (0%nat, 0) H) as Hn. split.
  - intros k Hk. destruct (update_phi_row d p n _ Hn k) as [E _]. rewrite E. apply Rdiv_lt_0_compat; [apply exp_pos | apply part_pos].
  - rewrite (sumn_ext K _ (fun k => exp (raw_phi psi m (p_gamma p) (fst (nth n d (0%nat, 0))) k) * / part (p_gamma p) (fst (nth n d (0%nat, 0))))).
    2: { intros k _. destruct (update_phi_row d p n _ Hn k) as [E _]. exact E. }
    rewrite sumn_scal_r. fold (part (p_gamma p) (fst (nth n d (0%nat, 0)))). apply Rinv_r. apply Rgt_not_eq, part_pos.
Qed.
Lemma gamma_fold : forall (phi : mat) (l : list (nat * (nat * R))) g k, fold_left (fun g nw => fun k => g k + phi (fst nw) k * snd (snd nw)) l g k = g k + Rsum (map (fun nw => phi (fst nw) k * snd (snd nw)) l).
Proof. intros phi l. induction l as [|x l IH]; intros g k; [cbn; ring|]. cbn [fold_left map]. rewrite IH. unfold Rsum. cbn [fold_right]. ring. Qed.
Lemma update_gamma_is : forall d p k, p_gamma (update_gamma m d p) k = l_alpha m k + Rsum (map (fun nw => p_phi p (fst nw) k * snd (snd nw)) (numbered d)).
Proof. intros d p k. unfold update_gamma. cbn [p_gamma]. apply gamma_fold. Qed.
Lemma update_gamma_sum : forall d p, rows_ok d p -> sumn K (p_gamma (update_gamma m d p)) = sumn K (l_alpha m) + total d.
Proof.
  intros d p RO. rewrite (sumn_ext K _ _ (fun k _ => update_gamma_is d p k)), sumn_plus, sumn_swap. f_equal. unfold total. rewrite <- (numbered_snd _ d) at 2. rewrite map_map.
  apply Rsum_ext. intros [n x] H. cbn [fst snd]. rewrite sumn_scal_r. destruct (RO n (numbered_in _ d n x H)) as [_ E]. rewrite E. ring.
Qed.
Lemma init_rows : forall d p, rows_ok d (init_post m d p).
Proof.
  intros d p n H. unfold init_post. cbn [p_phi]. rewrite (proj2 (Nat.ltb_lt _ _) H). assert (0 < INR K) by (apply lt_0_INR; exact HK). split.
  - intros k _. apply Rdiv_lt_0_compat; lra.
  - unfold sumn. assert (G : forall l, Rsum (map (fun _ : nat => 1 / INR K) l) = INR (length l) * (1 / INR K)).
    { intros l. induction l as [|y l IH]; [cbn; ring|]. cbn [map length]. unfold Rsum in *. cbn [fold_right]. rewrite IH, S_INR. ring. }
    rewrite G, seq_length. field. lra.
Qed.
(** What every round leaves *)
Definition rounded (d : doc) (p : post) : Prop := exists p0, rows_ok d p0 /\ p = round psi m d p0.
Lemma rounded_round : forall d p, rows_ok d p -> rounded d (round psi m d p).
Proof. intros d p H. exists p. auto. Qed.
Lemma rounded_rows : forall d p, rounded d p -> rows_ok d p.
Proof. intros d p [p0 [_ ->]]. apply update_phi_rows. Qed.
Lemma post_loop_ok : forall fuel d mi it p l c p' l' it', rounded d p -> l = lda_lhood psi lgam m d p -> (it <= S mi)%nat ->
  post_loop psi lgam m fuel d mi it p l c = (p', l', it') -> rounded d p' /\ l' = lda_lhood psi lgam m d p' /\ (it <= it' <= S mi)%nat.
Proof.
  intros fuel. induction fuel as [|fuel IH]; intros d mi it p l c p' l' it' RO L Hit H; [cbn in H; injection H as <- <- <-; split; [assumption|]; split; [assumption|lia]|].
  cbn [post_loop] in H. destruct (above c lda_tol && (it <=? mi)%nat) eqn:E.
  - apply andb_prop in E. destruct E as [_ E]. apply Nat.leb_le in E. destruct (IH d mi (S it) _ _ _ p' l' it' (rounded_round d p (rounded_rows d p RO)) eq_refl ltac:(lia) H) as [A [B C]].
    split; [assumption|]. split; [assumption|lia].
  - injection H as <- <- <-. split; [assumption|]. split; [assumption|lia].
Qed.
Lemma fit_post_ok : forall d mi p p' l' it, fit_post psi lgam m d mi p = Ok (p', l', it) ->
  Forall (fun wc => (fst wc < l_W m)%nat) d /\ rounded d p' /\ l' = lda_lhood psi lgam m d p' /\ (1 <= it <= S mi)%nat.
Proof.
  intros d mi p p' l' it H. unfold fit_post in H. destruct (forallb _ d) eqn:E; [|discriminate]. cbn [negb] in H. match type of H with Ok ?a = Ok ?b => assert (H' : a = b) by congruence end. split.
  - apply Forall_forall. intros wc Hw. rewrite forallb_forall in E. apply Nat.ltb_lt. now apply E.
  - refine (post_loop_ok _ _ _ _ _ _ _ _ _ _ _ _ _ H'); [apply rounded_round, init_rows | reflexivity | lia].
Qed.
Lemma rounded_gamma_sum : forall d p, rounded d p -> sumn K (p_gamma p) = sumn K (l_alpha m) + total d.
Proof. intros d p [p0 [RO ->]]. unfold round, update_phi. cbn [p_gamma]. now apply update_gamma_sum. Qed.
Lemma rounded_gamma_ge : forall d p, Forall (fun wc => 0 <= snd wc) d -> rounded d p -> forall k, (k < K)%nat -> l_alpha m k <= p_gamma p k.
Proof.
  intros d p C [p0 [RO ->]] k Hk. unfold round, update_phi. cbn [p_gamma]. rewrite update_gamma_is.
  assert (0 <= Rsum (map (fun nw => p_phi p0 (fst nw) k * snd (snd nw)) (numbered d))); [|lra].
  replace 0 with (Rsum (map (fun _ : nat * (nat * R) => 0) (numbered d))).
  2: { induction (numbered d) as [|y l IH]; [reflexivity|]. cbn [map]. unfold Rsum in *. cbn [fold_right]. rewrite IH. ring. }
  apply Rsum_le. intros [n x] H. cbn [fst snd]. apply Rmult_le_pos.
  - apply Rlt_le. destruct (RO n (numbered_in _ d n x H)) as [P _]. now apply P.
  - rewrite Forall_forall in C. apply C. rewrite <- (numbered_snd _ d). change x with (snd (n, x)). now apply in_map.
Qed.

(** The update of phi is the best one *)
Lemma ln_le_minus1 : forall x, 0 < x -> ln x <= x - 1.
Proof. intros x H. replace (x - 1) with (ln (exp (x - 1))) by apply ln_exp. destruct (Req_dec x (exp (x - 1))) as [E|E]; [rewrite <- E; lra|].
  pose proof (exp_ineq1_le (x - 1)) as G. replace (1 + (x - 1)) with x in G by ring. apply Rlt_le, ln_increasing; lra. Qed.
Lemma word_best : forall (a f : row) D, (forall k, (k < K)%nat -> 0 <= f k) -> sumn K f = 1 ->
  sumn K (fun k => if Rlt_dec 0 (f k) then f k * (a k - D - ln (f k)) else 0) <= ln (sumn K (fun k => exp (a k))) - D.
Proof.
  intros a f D P E. set (Zp := sumn K (fun k => exp (a k))). assert (PZ : 0 < Zp) by (apply sumn_pos; [exact HK|]; intros; apply exp_pos).
  apply Rle_trans with (sumn K (fun k => (ln Zp - D - 1) * f k + exp (a k) * / Zp)).
  - apply sumn_le. intros k Hk. specialize (P k Hk). assert (EP : 0 < exp (a k) * / Zp) by (apply Rmult_lt_0_compat; [apply exp_pos | now apply Rinv_0_lt_compat]).
    destruct (Rlt_dec 0 (f k)) as [Pf|Nf]; [|assert (f k = 0) by lra; nra].
    assert (G : ln (exp (a k) * / Zp / f k) <= exp (a k) * / Zp / f k - 1) by (apply ln_le_minus1; now apply Rdiv_lt_0_compat).
    unfold Rdiv in G. rewrite ln_mult in G by (try assumption; now apply Rinv_0_lt_compat). rewrite ln_mult in G by (try apply exp_pos; now apply Rinv_0_lt_compat).
    rewrite !ln_Rinv, ln_exp in G by assumption.
    assert (E2 : f k * (exp (a k) * / Zp * / f k) = exp (a k) * / Zp) by (field; lra). nra.
  - rewrite sumn_plus, sumn_scal, sumn_scal_r, E. fold Zp. rewrite Rinv_r by lra. lra.
Qed.
Definition word_part (d : doc) (p : post) (D : R) : R := Rsum (map (fun nw => snd (snd nw) *
  sumn K (fun k => if Rlt_dec 0 (p_phi p (fst nw) k) then p_phi p (fst nw) k * (raw_phi psi m (p_gamma p) (fst (snd nw)) k - D - p_log p (fst nw) k) else 0)) (numbered d)).
Definition topic_part (p : post) (D : R) : R := sumn K (fun k => (l_alpha m k - p_gamma p k) * (psi (p_gamma p k) - D) + lgam (p_gamma p k) - lgam (l_alpha m k)).
Lemma lhood_parts : forall d p, lda_lhood psi lgam m d p = lgam (sumn K (l_alpha m)) - lgam (sumn K (p_gamma p)) +
  (topic_part p (psi (sumn K (p_gamma p))) + word_part d p (psi (sumn K (p_gamma p)))).
Proof.
  intros d p. unfold lda_lhood. f_equal. set (D := psi (sumn K (p_gamma p))). unfold lhood_term. rewrite sumn_plus. f_equal.
  rewrite sumn_swap. unfold word_part. apply Rsum_ext. intros [n x] _. cbn [fst snd]. rewrite <- sumn_scal. apply sumn_ext. intros k _. unfold raw_phi.
  destruct (Rlt_dec 0 (p_phi p n k)); ring.
Qed.
Lemma phi_best : forall d p p', Forall (fun wc => 0 <= snd wc) d -> p_gamma p' = p_gamma p ->
  (forall n, (n < length d)%nat -> (forall k, (k < K)%nat -> 0 <= p_phi p' n k) /\ sumn K (p_phi p' n) = 1) ->
  (forall n k, (n < length d)%nat -> (k < K)%nat -> 0 < p_phi p' n k -> p_log p' n k = ln (p_phi p' n k)) ->
  lda_lhood psi lgam m d p' <= lda_lhood psi lgam m d (update_phi psi m d p).
Proof.
  intros d p p' C EG RO RL. rewrite !lhood_parts. change (p_gamma (update_phi psi m d p)) with (p_gamma p). rewrite EG. set (D := psi (sumn K (p_gamma p))).
  change (topic_part (update_phi psi m d p) D) with (topic_part p D). assert (ET : topic_part p' D = topic_part p D) by (unfold topic_part; now rewrite EG). rewrite ET.
  apply Rplus_le_compat_l, Rplus_le_compat_l. unfold word_part. apply Rsum_le. intros [n x] H. cbn [fst snd].
  pose proof (numbered_in _ d n x H) as Hn.
  assert (Cx : 0 <= snd x). { rewrite Forall_forall in C. apply C. rewrite <- (numbered_snd _ d). change x with (snd (n, x)). now apply in_map. }
  apply Rmult_le_compat_l; [exact Cx|]. rewrite EG.
  rewrite (sumn_ext K (fun k => if Rlt_dec 0 (p_phi p' n k) then _ else 0) (fun k => if Rlt_dec 0 (p_phi p' n k) then p_phi p' n k * (raw_phi psi m (p_gamma p) (fst x) k - D - ln (p_phi p' n k)) else 0)).
  2: { intros k Hk. destruct (Rlt_dec 0 (p_phi p' n k)) as [P|]; [now rewrite (RL n k Hn Hk P) | reflexivity]. }
  destruct (RO n Hn) as [R1 R2]. eapply Rle_trans; [apply word_best; assumption|]. fold (part (p_gamma p) (fst x)). apply Req_le.
  destruct (update_phi_rows d p n Hn) as [U1 U2].
  rewrite (sumn_ext K _ (fun k => p_phi (update_phi psi m d p) n k * (ln (part (p_gamma p) (fst x)) - D))).
  2: { intros k Hk. destruct (Rlt_dec 0 (p_phi (update_phi psi m d p) n k)) as [_|N]; [|exfalso; apply N; now apply U1].
       destruct (update_phi_row d p n x H k) as [_ E]. rewrite E. change (p_gamma (update_phi psi m d p)) with (p_gamma p). ring. }
  rewrite sumn_scal_r, U2. ring.
Qed.

(** The statistics of the slices *)
Lemma ss_fold : forall time (phi : mat) k (l : list (nat * (nat * R))) ss w t,
  fold_left (fun ss nw => put ss (fst (snd nw)) (put (ss (fst (snd nw))) time (ss (fst (snd nw)) time + snd (snd nw) * phi (fst nw) k))) l ss w t =
  ss w t + (if (t =? time)%nat then Rsum (map (fun nw => if (fst (snd nw) =? w)%nat then snd (snd nw) * phi (fst nw) k else 0) l) else 0).
Proof.
  intros time phi k l. induction l as [|[n [w0 c]] l IH]; intros ss w t; [cbn; destruct (t =? time)%nat; ring|].
  cbn [fold_left map fst snd]. rewrite IH. unfold put at 1. rewrite (Nat.eqb_sym w0 w). destruct (w =? w0)%nat eqn:E.
  - apply Nat.eqb_eq in E. subst w0. unfold put. destruct (t =? time)%nat eqn:Et; [|ring]. apply Nat.eqb_eq in Et. subst t. unfold Rsum. cbn [fold_right]. ring.
  - destruct (t =? time)%nat; [|ring]. unfold Rsum. cbn [fold_right]. ring.
Qed.
Lemma seq_ss_mass : forall time d p suff w t, rows_ok d p ->
  sumn K (fun k => seq_ss m time d p suff k w t) = sumn K (fun k => suff k w t) + (if (t =? time)%nat then count_in w d else 0).
Proof.
  intros time d p suff w t RO.
  rewrite (sumn_ext K _ (fun k => suff k w t + (if (t =? time)%nat then Rsum (map (fun nw => if (fst (snd nw) =? w)%nat then snd (snd nw) * p_phi p (fst nw) k else 0) (numbered d)) else 0))).
  2: { intros k Hk. unfold seq_ss. rewrite (proj2 (Nat.ltb_lt _ _) Hk). apply ss_fold. }
  rewrite sumn_plus. f_equal. destruct (t =? time)%nat; [|apply sumn_zero]. rewrite sumn_swap.
  transitivity (Rsum (map (fun nw : nat * (nat * R) => if (fst (snd nw) =? w)%nat then snd (snd nw) else 0) (numbered d))).
  - apply Rsum_ext. intros [n x] H. cbn [fst snd]. destruct (fst x =? w)%nat; [|apply sumn_zero]. rewrite sumn_scal. destruct (RO n (numbered_in _ d n x H)) as [_ E]. rewrite E. ring.
  - assert (G : Rsum (map (fun x : nat * R => if (fst x =? w)%nat then snd x else 0) d) = count_in w d).
    { clear RO. unfold count_in. induction d as [|x d' IH]; [reflexivity|]. cbn [map fold_right]. unfold Rsum in *. cbn [fold_right]. now rewrite IH. }
    rewrite <- G. rewrite <- (numbered_snd _ d) at 2. now rewrite map_map.
Qed.
End Post.
