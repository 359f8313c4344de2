(** The training steps follow the gradient of the log-likelihood (property C79), with exact arithmetic and the exact logistic
    function.  What the table of the logistic function costs is in W2vTable_Properties. *)
From Coq Require Import Reals Lra.
From Verif Require Import Base KeyedVectors_Model KeyedVectors_Proofs W2vStep_Model W2vGrad_Spec DocTrain_Properties.
Local Open Scope R_scope.

(** ** The instance *)
Definition rskip (f : R) : bool := if Rlt_dec (-6) f then if Rlt_dec f 6 then false else true else true.
Notation rdot := (dot 0 Rplus Rmult).
Notation rsaxpy := (saxpy Rplus Rmult).
Notation rstep := (out_step 0 1 Rplus Rminus Rmult Ropp rskip sigma (fun x => ln (sigma x))).
Notation rpass := (out_pass 0 1 Rplus Rminus Rmult Ropp rskip sigma (fun x => ln (sigma x))).
Notation rdbow := (dbow_update 0 1 Rplus Rminus Rmult Ropp rskip sigma (fun x => ln (sigma x))).
Notation rinv := (fun n : nat => / INR n).
Notation rctx := (ctx_step 0 1 Rplus Rminus Rmult Ropp rinv rskip sigma (fun x => ln (sigma x))).
Notation rcompose := (compose 0 1 Rplus Rmult rinv).
Notation rspread := (spread Rplus Rmult).
Notation lab := (label 0 1).
Definition score (h : list R) (W : list (list R)) (r : nat) : R := inner h (row W r).
(** The outputs that are not left out for a score of 6 or more, or -6 or less. *)
Definition active (h : list R) (W : list (list R)) (ts : list (nat * bool)) : list (nat * bool) := filter (fun t => negb (rskip (score h W (fst t)))) ts.

Lemma rskip_sym : forall f, rskip (- f) = rskip f.
Proof. intros f. unfold rskip. destruct (Rlt_dec (-6) f), (Rlt_dec f 6), (Rlt_dec (-6) (- f)), (Rlt_dec (- f) 6); try reflexivity; exfalso; lra. Qed.
Lemma loss_arg_skip : forall hs b f, rskip (loss_arg Ropp hs b f) = rskip f.
Proof. intros [|] [|] f; unfold loss_arg; try apply rskip_sym; reflexivity. Qed.

(** ** Vectors *)
Lemma put_set : forall {A} (l : list A) j t, put l j t = set_nth l j t.
Proof. intros A l. induction l as [|a l IH]; intros [|j] t; cbn; [reflexivity | reflexivity | reflexivity | now rewrite IH]. Qed.
Lemma fold_dot : forall l (a : R), fold_left (fun a p => a + fst p * snd p) l a = a + fold_left (fun a p => a + fst p * snd p) l 0.
Proof. induction l as [|p l IH]; intros a; cbn [fold_left]; [lra|]. rewrite IH, (IH (0 + _)). lra. Qed.
Lemma dot_inner : forall x y, rdot x y = inner x y.
Proof.
  unfold dot. induction x as [|a x IH]; intros [|b y]; cbn [combine fold_left inner]; try reflexivity. rewrite fold_dot, IH. cbn [fst snd]. lra.
Qed.
Lemma saxpy_length : forall a x y, length (rsaxpy a x y) = length y.
Proof. intros a. induction x as [|u x IH]; intros [|v y]; cbn; [reflexivity | reflexivity | reflexivity | now rewrite IH]. Qed.
Lemma saxpy_entry : forall a x y j, length x = length y -> entry (rsaxpy a x y) j = a * entry x j + entry y j.
Proof.
  intros a. unfold entry. induction x as [|u x IH]; intros [|v y] [|j] H; cbn in *; try discriminate; try lra. apply IH. congruence.
Qed.
Lemma inner_put : forall x y j t, length x = length y -> (j < length x)%nat -> inner (put x j t) y = inner x y + (t - entry x j) * entry y j.
Proof.
  unfold entry. induction x as [|a x IH]; intros [|b y] [|j] t H L; cbn in *; try discriminate; try lia; [lra|]. rewrite IH by lia. lra.
Qed.
Lemma inner_put_r : forall x y j t, length x = length y -> (j < length y)%nat -> inner x (put y j t) = inner x y + (t - entry y j) * entry x j.
Proof.
  unfold entry. induction x as [|a x IH]; intros [|b y] [|j] t H L; cbn in *; try discriminate; try lia; [lra|]. rewrite IH by lia. lra.
Qed.
Lemma row_put_same : forall {A} (W : list (list A)) r v, (r < length W)%nat -> row (put W r v) r = v.
Proof. intros A W. unfold row. induction W as [|w W IH]; intros [|r] v H; cbn in *; try lia; [reflexivity|]. apply IH. lia. Qed.
Lemma row_put_other : forall {A} (W : list (list A)) r v i, i <> r -> row (put W r v) i = row W i.
Proof. intros A W r v i H. rewrite put_set. now apply row_set. Qed.
Lemma entry_repeat : forall n j, entry (repeat 0 n) j = 0.
Proof. unfold entry. induction n as [|n IH]; intros [|j]; cbn; try reflexivity. apply IH. Qed.

(** ** Derivatives *)
Lemma slope_ext : forall f g x d, (forall t, f t = g t) -> slope f x d -> slope g x d.
Proof. intros f g x d E H eps P. destruct (H eps P) as [dl K]. exists dl. intros t N Q. rewrite <- !E. now apply K. Qed.
Lemma sigma_pos : forall x, 0 < sigma x < 1.
Proof.
  intros x. unfold sigma. pose proof (exp_pos (- x)). split; [apply Rinv_0_lt_compat; lra|]. rewrite <- Rinv_1. apply Rinv_lt_contravar; lra.
Qed.
Lemma sigma_neg : forall x, sigma (- x) = 1 - sigma x.
Proof.
  intros x. unfold sigma. rewrite Ropp_involutive, exp_Ropp. pose proof (exp_pos x). field. split; lra.
Qed.
Lemma sigma_slope : forall x, slope sigma x (sigma x * (1 - sigma x)).
Proof.
  intros x. unfold slope. pose proof (exp_pos (- x)) as P.
  assert (E : derivable_pt_lim (fun t => exp (- t)) x (exp (- x) * -1)).
  { apply (derivable_pt_lim_comp (fun t => - t) exp x (-1) (exp (- x))); [|apply derivable_pt_lim_exp].
    apply (slope_ext (mult_real_fct (-1) id)); [intros t; unfold mult_real_fct, id; lra|].
    replace (-1) with (-1 * 1) at 2 by lra. apply derivable_pt_lim_scal, derivable_pt_lim_id. }
  assert (D : derivable_pt_lim (fun t => 1 + exp (- t)) x (exp (- x) * -1)).
  { replace (exp (- x) * -1) with (0 + exp (- x) * -1) by lra. apply derivable_pt_lim_plus; [apply derivable_pt_lim_const | exact E]. }
  apply (slope_ext (div_fct (fun _ : R => 1) (fun t => 1 + exp (- t)))); [intros t; unfold div_fct, sigma; lra|].
  replace (sigma x * (1 - sigma x)) with ((0 * (1 + exp (- x)) - exp (- x) * -1 * 1) / Rsqr (1 + exp (- x))).
  - apply (derivable_pt_lim_div (fun _ => 1) (fun t => 1 + exp (- t)) x 0 (exp (- x) * -1)); [apply derivable_pt_lim_const | exact D | lra].
  - unfold sigma, Rsqr. field. lra.
Qed.
Lemma logp_slope : forall b f, slope (logp b) f (lab b - sigma f).
Proof.
  intros b f. pose proof (sigma_pos f) as P. destruct b; unfold logp, label.
  - replace (1 - sigma f) with (/ sigma f * (sigma f * (1 - sigma f))) by (field; lra).
    apply (derivable_pt_lim_comp sigma ln); [apply sigma_slope | apply derivable_pt_lim_ln; lra].
  - replace (0 - sigma f) with (/ (1 - sigma f) * (0 - sigma f * (1 - sigma f))) by (field; lra).
    apply (derivable_pt_lim_comp (fun x => 1 - sigma x) ln); [|apply derivable_pt_lim_ln; lra].
    apply derivable_pt_lim_minus; [apply derivable_pt_lim_const | apply sigma_slope].
Qed.
Fixpoint wsum (k : nat * bool -> R) (ts : list (nat * bool)) : R := match ts with [] => 0 | t :: ts' => k t + wsum k ts' end.
(** A likelihood whose scores are linear in [t]. *)
Lemma likelihood_slope : forall (k : nat -> R) (s : R -> nat -> R) ts x, (forall t r, In r (map fst ts) -> s t r = s x r + (t - x) * k r) ->
  slope (fun t => likelihood (s t) ts) x (wsum (fun t => (lab (snd t) - sigma (s x (fst t))) * k (fst t)) ts).
Proof.
  intros k s ts x. induction ts as [|[r b] ts IH]; intros H; cbn [likelihood wsum fst snd].
  - apply derivable_pt_lim_const.
  - apply (derivable_pt_lim_plus (fun t => logp b (s t r)) (fun t => likelihood (s t) ts)); [|apply IH; intros t r' Hr; apply H; now right].
    apply (derivable_pt_lim_comp (fun t => s t r) (logp b)); [|apply logp_slope].
    apply (slope_ext (fun t => s x r + (t - x) * k r)); [intros t; symmetry; apply H; now left|].
    assert (K : derivable_pt_lim (fun t => s x r + (t - x) * k r) x (0 + ((1 - 0) * k r + (x - x) * 0))).
    { apply (derivable_pt_lim_plus (fun _ => s x r) (fun t => (t - x) * k r)); [apply derivable_pt_lim_const|].
      apply (derivable_pt_lim_mult (fun t => t - x) (fun _ => k r)); [|apply derivable_pt_lim_const].
      apply (derivable_pt_lim_minus (fun t => t) (fun _ => x)); [apply derivable_pt_lim_id | apply derivable_pt_lim_const]. }
    replace (0 + ((1 - 0) * k r + (x - x) * 0)) with (k r) in K by lra. exact K.
Qed.

(** ** The pass over the outputs *)
Definition err (h : list R) (W : list (list R)) (t : nat * bool) : R := lab (snd t) - sigma (score h W (fst t)).
Lemma wsum_ext : forall k k' ts, (forall t, In t ts -> k t = k' t) -> wsum k ts = wsum k' ts.
Proof. intros k k' ts. induction ts as [|t ts IH]; intros H; cbn; [reflexivity|]. rewrite H, IH; [reflexivity | intros; apply H; now right | now left]. Qed.
Lemma step_eq : forall hs cl lh alpha h work W loss r b, rstep hs cl lh alpha h (work, W, loss) (r, b) =
  if rskip (score h W r) then (work, W, loss) else
  (rsaxpy (err h W (r, b) * alpha) (row W r) work, if lh then set_nth W r (rsaxpy (err h W (r, b) * alpha) h (row W r)) else W,
   if cl then loss - ln (sigma (loss_arg Ropp hs b (score h W r))) else loss).
Proof.
  intros. unfold out_step, score, err. cbn [fst snd]. rewrite !dot_inner. unfold score. destruct (rskip _) eqn:E; [reflexivity|]. rewrite loss_arg_skip, E, andb_false_r. reflexivity.
Qed.
Lemma active_ext : forall h W W' ts, (forall t, In t ts -> row W' (fst t) = row W (fst t)) -> active h W' ts = active h W ts.
Proof.
  intros h W W' ts. unfold active, score. induction ts as [|t ts IH]; intros H; cbn [filter]; [reflexivity|]. rewrite H by now left. rewrite IH by (intros; apply H; now right). reflexivity.
Qed.
Lemma active_in : forall h W ts t, In t (active h W ts) -> In t ts.
Proof. intros h W ts t H. apply filter_In in H. apply H. Qed.
Lemma pass_eq : forall hs cl lh alpha h ts work W loss, (lh = true -> NoDup (map fst ts)) -> length work = length h -> (forall t, In t ts -> length (row W (fst t)) = length h) ->
  exists work' W' loss', rpass hs cl lh alpha h ts (work, W, loss) = (work', W', loss') /\
  length work' = length work /\
  (forall j, entry work' j = entry work j + alpha * wsum (fun t => err h W t * entry (row W (fst t)) j) (active h W ts)) /\
  (lh = false -> W' = W) /\ length W' = length W /\ (forall r, length (row W' r) = length (row W r)) /\
  (lh = true -> forall r j, (r < length W)%nat -> entry (row W' r) j = entry (row W r) j + alpha * wsum (fun t => if (fst t =? r)%nat then err h W t * entry h j else 0) (active h W ts)) /\
  loss' = if cl then loss - wsum (fun t => ln (sigma (loss_arg Ropp hs (snd t) (score h W (fst t))))) (active h W ts) else loss.
Proof.
  intros hs cl lh alpha h. induction ts as [|[r b] ts IH]; intros work W loss ND HL HR.
  - do 3 eexists. split; [reflexivity|]. cbn. split; [reflexivity|]. split; [intros; lra|]. split; [reflexivity|]. split; [reflexivity|]. split; [reflexivity|]. split; [intros; lra|]. destruct cl; lra.
  - unfold out_pass. cbn [fold_left]. rewrite step_eq. unfold active. cbn [filter fst]. fold (active h W ts). destruct (rskip (score h W r)) eqn:E; cbn [negb].
    + apply IH; [|exact HL | intros; apply HR; now right]. intros L. specialize (ND L). now inversion ND.
    + set (g := err h W (r, b) * alpha). set (W1 := if lh then _ else W). set (l1 := if cl then _ else loss).
      assert (R1 : length (row W r) = length h) by (apply (HR (r, b)); now left).
      assert (HW : forall t, In t ts -> row W1 (fst t) = row W (fst t)).
      { intros t Ht. unfold W1. destruct lh; [|reflexivity]. apply row_set. intros Q. specialize (ND eq_refl). inversion ND as [|? ? A B]. apply A. rewrite <- Q. now apply in_map. }
      destruct (IH (rsaxpy g (row W r) work) W1 l1) as (work' & W' & loss' & A1 & A2 & A3 & A4 & A5 & A6 & A7 & A8).
      * intros L. specialize (ND L). now inversion ND.
      * now rewrite saxpy_length.
      * intros t Ht. rewrite HW by exact Ht. apply HR. now right.
      * assert (AE : active h W1 ts = active h W ts) by (apply active_ext; exact HW).
        assert (ER : forall t, In t ts -> err h W1 t = err h W t) by (intros t Ht; unfold err, score; now rewrite HW).
        rewrite AE in A3, A7, A8.
        exists work', W', loss'. split; [exact A1|]. split; [now rewrite A2, saxpy_length|]. cbn [wsum fst snd].
        split; [intros j; rewrite A3, saxpy_entry by congruence; rewrite (wsum_ext _ (fun t => err h W t * entry (row W (fst t)) j)) by (intros t Ht; apply active_in in Ht; now rewrite HW, ER); unfold g; lra|].
        split; [intros L; rewrite A4 by exact L; unfold W1; now rewrite L|].
        split; [rewrite A5; unfold W1; destruct lh; [apply set_nth_length | reflexivity]|].
        split.
        { intros r'. rewrite A6. unfold W1. destruct lh; [|reflexivity]. destruct (Nat.eq_dec r' r) as [->|N]; [|now rewrite row_set].
          destruct (lt_dec r (length W)) as [L|L].
          - rewrite <- put_set, row_put_same by exact L. apply saxpy_length.
          - unfold row. rewrite nth_overflow by (rewrite set_nth_length; lia). rewrite nth_overflow by lia. reflexivity. }
        split.
        { intros L r' j Lr. rewrite A7; [|exact L | unfold W1; rewrite L, set_nth_length; exact Lr].
          rewrite (wsum_ext _ (fun t => if (fst t =? r')%nat then err h W t * entry h j else 0)) by (intros t Ht; apply active_in in Ht; now rewrite ER).
          destruct (Nat.eqb_spec r r') as [->|N].
          - unfold W1. rewrite L, <- put_set, row_put_same by exact Lr. rewrite saxpy_entry by congruence. unfold g. lra.
          - unfold W1. rewrite L, row_set by congruence. lra. }
        rewrite A8. unfold l1. destruct cl; [|reflexivity].
        rewrite (wsum_ext _ (fun t => ln (sigma (loss_arg Ropp hs (snd t) (score h W (fst t)))))) by (intros t Ht; apply active_in in Ht; unfold score; now rewrite HW). lra.
Qed.
Lemma active_nodup : forall h W ts, NoDup (map fst ts) -> NoDup (map fst (active h W ts)).
Proof.
  intros h W ts. unfold active. induction ts as [|t ts IH]; intros H; cbn; [constructor|]. inversion H as [|? ? A B]; subst. destruct (negb _); [|auto]. cbn. constructor; [|auto].
  intros HI. apply A. apply in_map_iff in HI. destruct HI as (x & <- & Hx). apply filter_In in Hx. apply in_map. apply Hx.
Qed.
Lemma put_entry : forall (h : list R) j, put h j (entry h j) = h.
Proof. intros h. unfold entry. induction h as [|a h IH]; intros [|j]; cbn; [reflexivity | reflexivity | reflexivity|]. now rewrite IH. Qed.
Lemma put_row : forall (W : list (list R)) r, put W r (row W r) = W.
Proof. intros W r. rewrite put_set. apply row_set_same. Qed.
Lemma h_slope : forall h W ts j, (j < length h)%nat -> (forall t, In t ts -> length (row W (fst t)) = length h) ->
  slope (fun t => likelihood (score (put h j t) W) ts) (entry h j) (wsum (fun t => err h W t * entry (row W (fst t)) j) ts).
Proof.
  intros h W ts j L H.
  pose proof (likelihood_slope (fun r => entry (row W r) j) (fun t r => score (put h j t) W r) ts (entry h j)) as K. cbv beta in K. rewrite put_entry in K. apply K.
  intros t r Hr. unfold score. apply in_map_iff in Hr. destruct Hr as (q & <- & Hq). apply inner_put; [symmetry; now apply H | exact L].
Qed.
Lemma w_slope : forall h W ts r j, (r < length W)%nat -> (j < length h)%nat -> length (row W r) = length h ->
  slope (fun t => likelihood (score h (put W r (put (row W r) j t))) ts) (entry (row W r) j) (wsum (fun t => if (fst t =? r)%nat then err h W t * entry h j else 0) ts).
Proof.
  intros h W ts r j Lr Lj H.
  pose proof (likelihood_slope (fun r' => if (r' =? r)%nat then entry h j else 0) (fun t r' => score h (put W r (put (row W r) j t)) r') ts (entry (row W r) j)) as K.
  cbv beta in K. rewrite put_entry, put_row in K.
  rewrite (wsum_ext _ (fun t => err h W t * (if (fst t =? r)%nat then entry h j else 0))) by (intros t _; destruct (fst t =? r)%nat; lra). apply K.
  intros t r' _. unfold score. destruct (Nat.eqb_spec r' r) as [->|N].
  - rewrite row_put_same by exact Lr. apply inner_put_r; [congruence | lia].
  - rewrite row_put_other by exact N. lra.
Qed.

(** The pass adds to [work] the rate times the slope of the log-likelihood in each coordinate of its input, and to each
    coordinate of the output layer the rate times the slope in it.  (Only outputs that are not left out count.) *)
Theorem pass_climbs : forall hs cl lh alpha h ts work W loss work' W' loss',
  (lh = true -> NoDup (map fst ts)) -> length work = length h -> (forall t, In t ts -> length (row W (fst t)) = length h) ->
  rpass hs cl lh alpha h ts (work, W, loss) = (work', W', loss') ->
  (forall j, (j < length h)%nat -> exists d, slope (fun t => likelihood (score (put h j t) W) (active h W ts)) (entry h j) d /\ entry work' j = entry work j + alpha * d) /\
  (lh = true -> forall r j, (r < length W)%nat -> (j < length h)%nat -> length (row W r) = length h ->
     exists d, slope (fun t => likelihood (score h (put W r (put (row W r) j t))) (active h W ts)) (entry (row W r) j) d /\
               entry (row W' r) j = entry (row W r) j + alpha * d) /\
  (lh = false -> W' = W).
Proof.
  intros hs cl lh alpha h ts work W loss work' W' loss' ND L HR E. destruct (pass_eq hs cl lh alpha h ts work W loss ND L HR) as (w1 & W1 & l1 & A1 & A2 & A3 & A4 & A5 & A6 & A7 & A8).
  rewrite A1 in E. injection E as <- <- <-. split; [|split; [|exact A4]].
  - intros j Hj. eexists. split; [|apply A3]. apply h_slope; [exact Hj|]. intros t Ht. apply HR. now apply active_in in Ht.
  - intros Hl r j Hr Hj H. eexists. split; [|apply A7; assumption]. apply w_slope; assumption.
Qed.
(** The loss that is reported: with negative sampling the log-likelihood is subtracted; *)
Definition flip (t : nat * bool) : nat * bool := (fst t, negb (snd t)).
Lemma ln_sigma_logp : forall (b : bool) f, ln (sigma (if b then f else - f)) = logp b f.
Proof. intros [|] f; unfold logp; [reflexivity | now rewrite sigma_neg]. Qed.
Lemma wsum_likelihood : forall s ts, wsum (fun t => logp (snd t) (s (fst t))) ts = likelihood s ts.
Proof. intros s ts. induction ts as [|[r b] ts IH]; cbn; [reflexivity | now rewrite IH]. Qed.
Theorem neg_loss : forall lh alpha h ts work W loss work' W' loss',
  (lh = true -> NoDup (map fst ts)) -> length work = length h -> (forall t, In t ts -> length (row W (fst t)) = length h) ->
  rpass false true lh alpha h ts (work, W, loss) = (work', W', loss') -> loss' = loss - likelihood (score h W) (active h W ts).
Proof.
  intros lh alpha h ts work W loss work' W' loss' ND L HR E. destruct (pass_eq false true lh alpha h ts work W loss ND L HR) as (w1 & W1 & l1 & A1 & _ & _ & _ & _ & _ & _ & A8).
  rewrite A1 in E. injection E as _ _ <-. rewrite A8, <- wsum_likelihood. f_equal. apply wsum_ext. intros t _. unfold loss_arg. apply ln_sigma_logp.
Qed.
(** with hierarchical softmax it is the log-likelihood of the opposite outputs, which is larger by the sum of the scores,
    counted negatively where the output is to be 0. *)
Theorem hs_loss : forall lh alpha h ts work W loss work' W' loss',
  (lh = true -> NoDup (map fst ts)) -> length work = length h -> (forall t, In t ts -> length (row W (fst t)) = length h) ->
  rpass true true lh alpha h ts (work, W, loss) = (work', W', loss') ->
  loss' = loss - likelihood (score h W) (map flip (active h W ts)) /\
  loss' = loss - likelihood (score h W) (active h W ts) + wsum (fun t => if snd t then score h W (fst t) else - score h W (fst t)) (active h W ts).
Proof.
  intros lh alpha h ts work W loss work' W' loss' ND L HR E. destruct (pass_eq true true lh alpha h ts work W loss ND L HR) as (w1 & W1 & l1 & A1 & _ & _ & _ & _ & _ & _ & A8).
  rewrite A1 in E. injection E as _ _ <-. rewrite A8. clear.
  assert (G : forall l, wsum (fun t => ln (sigma (loss_arg Ropp true (snd t) (score h W (fst t))))) l = likelihood (score h W) (map flip l)).
  { intros l. rewrite <- wsum_likelihood. induction l as [|[r b] l IH]; cbn [wsum map fst snd flip]; [reflexivity|]. rewrite IH. f_equal. rewrite <- ln_sigma_logp. unfold loss_arg. now destruct b. }
  assert (K : forall f, ln (sigma f) - ln (sigma (- f)) = f).
  { intros f. rewrite sigma_neg. pose proof (sigma_pos f). replace (sigma f) with (exp f * (1 - sigma f)) at 1.
    - rewrite ln_mult; [rewrite ln_exp; lra | apply exp_pos | lra].
    - rewrite <- sigma_neg. unfold sigma. rewrite Ropp_involutive, exp_Ropp. pose proof (exp_pos f). field. lra. }
  rewrite G. split; [reflexivity|]. rewrite <- !wsum_likelihood. induction (active h W ts) as [|[r b] l IH]; cbn [wsum map fst snd flip]; [lra|].
  rewrite <- !ln_sigma_logp. specialize (K (score h W r)). destruct b; cbn [negb]; lra.
Qed.
(** Whether the loss is computed makes no difference to the vectors. *)
Theorem loss_no_effect : forall hs lh alpha h ts work W loss,
  fst (rpass hs true lh alpha h ts (work, W, loss)) = fst (rpass hs false lh alpha h ts (work, W, loss)).
Proof.
  intros hs lh alpha h ts. unfold out_pass. assert (G : forall work W loss loss', fst (fold_left (rstep hs true lh alpha h) ts (work, W, loss)) = fst (fold_left (rstep hs false lh alpha h) ts (work, W, loss'))).
  { induction ts as [|[r b] ts IH]; intros work W loss loss'; cbn [fold_left]; [reflexivity|]. rewrite !step_eq. destruct (rskip _); apply IH. }
  intros. apply G.
Qed.
Print Assumptions pass_climbs.
Print Assumptions neg_loss.
Print Assumptions hs_loss.
Print Assumptions loss_no_effect.

(** ** Skip-gram and dbow *)
Theorem dbow_climbs : forall hs cl lc lh alpha lockf size X c ts W loss X' W' loss',
  (lh = true -> NoDup (map fst ts)) -> (c < length X)%nat -> length (row X c) = size -> (forall t, In t ts -> length (row W (fst t)) = size) ->
  rdbow hs cl lc lh alpha lockf size X c ts W loss = (X', W', loss') ->
  (lc = true -> forall j, (j < size)%nat -> exists d,
     slope (fun t => likelihood (score (put (row X c) j t) W) (active (row X c) W ts)) (entry (row X c) j) d /\
     entry (row X' c) j = entry (row X c) j + lockf * alpha * d) /\
  (lh = true -> forall r j, (r < length W)%nat -> (j < size)%nat -> length (row W r) = size -> exists d,
     slope (fun t => likelihood (score (row X c) (put W r (put (row W r) j t))) (active (row X c) W ts)) (entry (row W r) j) d /\
     entry (row W' r) j = entry (row W r) j + alpha * d).
Proof.
  intros hs cl lc lh alpha lockf size X c ts W loss X' W' loss' ND Hc HX HR E. unfold dbow_update in E. set (h := row X c) in *.
  assert (Lw : length (repeat 0 size) = length h) by (rewrite repeat_length; auto).
  assert (HR' : forall t, In t ts -> length (row W (fst t)) = length h) by (intros; rewrite HX; auto).
  destruct (pass_eq hs cl lh alpha h ts (repeat 0 size) W loss ND Lw HR') as (w1 & W1 & l1 & A1 & A2 & A3 & _).
  rewrite A1 in E. injection E as <- <- <-. destruct (pass_climbs _ _ _ _ _ _ _ _ _ _ _ _ ND Lw HR' A1) as (B1 & B2 & _). rewrite HX in *. split.
  - intros -> j Hj. destruct (B1 j Hj) as (d & D1 & D2). exists d. split; [exact D1|]. rewrite <- put_set, row_put_same by exact Hc. rewrite saxpy_entry by congruence. rewrite D2, entry_repeat. lra.
  - intros L r j Hr Hj H. apply B2; assumption.
Qed.
Print Assumptions dbow_climbs.

(** ** CBOW and dm *)
Lemma entry_ext : forall x y : list R, length x = length y -> (forall j, entry x j = entry y j) -> x = y.
Proof.
  unfold entry. induction x as [|a x IH]; intros [|b y] H E; cbn in H; try discriminate; [reflexivity|]. f_equal; [exact (E 0%nat)|]. apply IH; [congruence|]. intros j. exact (E (S j)).
Qed.
Fixpoint times (i : nat) (l : list nat) : R := match l with [] => 0 | k :: l' => (if (k =? i)%nat then 1 else 0) + times i l' end.
Fixpoint tot (X : list (list R)) (j : nat) (is : list nat) : R := match is with [] => 0 | i :: is' => entry (row X i) j + tot X j is' end.
Lemma sum_rows_entry : forall X is acc, (forall i, In i is -> length (row X i) = length acc) ->
  length (sum_rows 1 Rplus Rmult X is acc) = length acc /\ forall j, entry (sum_rows 1 Rplus Rmult X is acc) j = entry acc j + tot X j is.
Proof.
  intros X is. unfold sum_rows. induction is as [|i is IH]; intros acc H; cbn [fold_left tot]; [split; [reflexivity | intros; lra]|].
  assert (Hi : length (row X i) = length acc) by (apply H; now left).
  destruct (IH (rsaxpy 1 (row X i) acc)) as [A B]; [intros; rewrite saxpy_length; apply H; now right|]. split; [rewrite A; apply saxpy_length|].
  intros j. rewrite B, saxpy_entry by exact Hi. lra.
Qed.
Definition weight (mean : bool) (n : nat) : R := if mean then inv_count 1 rinv n else 1.
Lemma sscal_entry : forall a x j, entry (sscal Rmult a x) j = a * entry x j.
Proof. intros a x. unfold entry, sscal. induction x as [|u x IH]; intros [|j]; cbn; try lra. apply IH. Qed.
Lemma compose_entry : forall mean size X T ws ts, (forall i, In i ws -> length (row X i) = size) -> (forall i, In i ts -> length (row T i) = size) ->
  length (rcompose mean size X T ws ts) = size /\
  forall j, entry (rcompose mean size X T ws ts) j = weight mean (length ws + length ts) * (tot X j ws + tot T j ts).
Proof.
  intros mean size X T ws ts HX HT. unfold compose, weight.
  destruct (sum_rows_entry X ws (repeat 0 size)) as [A B]; [intros; rewrite repeat_length; auto|]. rewrite repeat_length in A.
  destruct (sum_rows_entry T ts (sum_rows 1 Rplus Rmult X ws (repeat 0 size))) as [C D]; [intros; rewrite A; auto|]. destruct mean.
  - split; [unfold sscal; rewrite map_length; congruence|]. intros j. rewrite sscal_entry, D, B, entry_repeat. lra.
  - split; [congruence|]. intros j. rewrite D, B, entry_repeat. lra.
Qed.
Lemma put_length : forall {A} (l : list A) j t, length (put l j t) = length l.
Proof. intros. rewrite put_set. apply set_nth_length. Qed.
Lemma entry_put : forall (l : list R) j t k, (j < length l)%nat -> entry (put l j t) k = if (k =? j)%nat then t else entry l k.
Proof. unfold entry. induction l as [|a l IH]; intros [|j] t [|k] H; cbn in *; try lia; try reflexivity. apply IH. lia. Qed.
Lemma tot_put : forall X i j t is k, (i < length X)%nat -> (j < length (row X i))%nat ->
  tot (put X i (put (row X i) j t)) k is = tot X k is + (if (k =? j)%nat then times i is * (t - entry (row X i) j) else 0).
Proof.
  intros X i j t is k Hi Hj. induction is as [|m is IH]; cbn [tot times]; [destruct (k =? j)%nat; lra|]. rewrite IH. destruct (Nat.eqb_spec m i) as [->|N].
  - rewrite row_put_same by exact Hi. rewrite entry_put by exact Hj. destruct (Nat.eqb_spec k j) as [->|]; lra.
  - rewrite row_put_other by exact N. destruct (k =? j)%nat; lra.
Qed.
Lemma put_row_length : forall (X : list (list R)) i j t k, length (row (put X i (put (row X i) j t)) k) = length (row X k).
Proof.
  intros X i j t k. destruct (Nat.eq_dec k i) as [->|N]; [|now rewrite row_put_other]. destruct (lt_dec i (length X)) as [L|L].
  - rewrite row_put_same by exact L. apply put_length.
  - unfold row. rewrite nth_overflow by (rewrite put_length; lia). rewrite nth_overflow by lia. reflexivity.
Qed.
Lemma compose_put : forall mean size X T ws ts i j t, (forall i, In i ws -> length (row X i) = size) -> (forall i, In i ts -> length (row T i) = size) ->
  (i < length X)%nat -> (j < length (row X i))%nat -> length (row X i) = size ->
  let h := rcompose mean size X T ws ts in
  rcompose mean size (put X i (put (row X i) j t)) T ws ts = put h j (entry h j + (t - entry (row X i) j) * (weight mean (length ws + length ts) * times i ws)).
Proof.
  intros mean size X T ws ts i j t HX HT Hi Hj Hs h. destruct (compose_entry mean size X T ws ts HX HT) as [A B]. fold h in A, B.
  destruct (compose_entry mean size (put X i (put (row X i) j t)) T ws ts) as [C D]; [intros; rewrite put_row_length; auto | exact HT|].
  apply entry_ext; [rewrite put_length; congruence|]. intros k. rewrite D, tot_put, entry_put by (assumption || lia). destruct (Nat.eqb_spec k j) as [->|]; rewrite B; lra.
Qed.
Lemma compose_put_tag : forall mean size X T ws ts i j t, (forall i, In i ws -> length (row X i) = size) -> (forall i, In i ts -> length (row T i) = size) ->
  (i < length T)%nat -> (j < length (row T i))%nat -> length (row T i) = size ->
  let h := rcompose mean size X T ws ts in
  rcompose mean size X (put T i (put (row T i) j t)) ws ts = put h j (entry h j + (t - entry (row T i) j) * (weight mean (length ws + length ts) * times i ts)).
Proof.
  intros mean size X T ws ts i j t HX HT Hi Hj Hs h. destruct (compose_entry mean size X T ws ts HX HT) as [A B]. fold h in A, B.
  destruct (compose_entry mean size X (put T i (put (row T i) j t)) ws ts) as [C D]; [exact HX | intros; rewrite put_row_length; auto|].
  apply entry_ext; [rewrite put_length; congruence|]. intros k. rewrite D, tot_put, entry_put by (assumption || lia). destruct (Nat.eqb_spec k j) as [->|]; rewrite B; lra.
Qed.
Lemma spread_entry : forall lf work is X i j, length work = length (row X i) -> (i < length X)%nat ->
  entry (row (rspread lf work X is) i) j = entry (row X i) j + times i is * lf i * entry work j.
Proof.
  intros lf work is. unfold spread. induction is as [|k is IH]; intros X i j H Hi; cbn [fold_left times]; [lra|].
  destruct (Nat.eqb_spec k i) as [->|N].
  - rewrite IH; [|rewrite <- put_set, row_put_same by exact Hi; rewrite saxpy_length; exact H | rewrite set_nth_length; exact Hi].
    rewrite <- put_set, row_put_same by exact Hi. rewrite saxpy_entry by exact H. lra.
  - rewrite IH; [|rewrite row_set by congruence; exact H | rewrite set_nth_length; exact Hi]. rewrite row_set by congruence. lra.
Qed.
(** The likelihood of both output layers as a function of the weights of the inputs. *)
Definition both (h : list R) (W1 W2 : list (list R)) (p n : list (nat * bool)) (h' : list R) : R :=
  likelihood (score h' W1) (active h W1 p) + likelihood (score h' W2) (active h W2 n).
Lemma both_slope : forall h W1 W2 p n j x k (f : R -> list R), (j < length h)%nat ->
  (forall t, In t p -> length (row W1 (fst t)) = length h) -> (forall t, In t n -> length (row W2 (fst t)) = length h) ->
  (forall t, f t = put h j (entry h j + (t - x) * k)) ->
  slope (fun t => both h W1 W2 p n (f t)) x
    (k * (wsum (fun t => err h W1 t * entry (row W1 (fst t)) j) (active h W1 p) + wsum (fun t => err h W2 t * entry (row W2 (fst t)) j) (active h W2 n))).
Proof.
  intros h W1 W2 p n j x k f Hj H1 H2 Hf. unfold both.
  assert (G : forall W ts, (forall t, In t ts -> length (row W (fst t)) = length h) ->
    slope (fun t => likelihood (score (f t) W) (active h W ts)) x (k * wsum (fun t => err h W t * entry (row W (fst t)) j) (active h W ts))).
  { intros W ts H. apply (slope_ext (fun t => likelihood (score (put h j (entry h j + (t - x) * k)) W) (active h W ts))); [intros t; now rewrite Hf|].
    pose proof (likelihood_slope (fun r => k * entry (row W r) j) (fun t r => score (put h j (entry h j + (t - x) * k)) W r) (active h W ts) x) as K. cbv beta in K.
    replace (entry h j + (x - x) * k) with (entry h j) in K by lra. rewrite put_entry in K.
    replace (k * wsum _ _) with (wsum (fun t => (lab (snd t) - sigma (score h W (fst t))) * (k * entry (row W (fst t)) j)) (active h W ts)).
    - apply K. intros t r Hr. unfold score. apply in_map_iff in Hr. destruct Hr as (q & <- & Hq). apply active_in in Hq. rewrite inner_put by (try exact Hj; symmetry; now apply H). lra.
    - unfold err. clear. induction (active h W ts) as [|q l IH]; cbn [wsum]; [lra|]. rewrite IH. lra. }
  replace (k * (_ + _)) with (k * wsum (fun t => err h W1 t * entry (row W1 (fst t)) j) (active h W1 p) + k * wsum (fun t => err h W2 t * entry (row W2 (fst t)) j) (active h W2 n)) by lra.
  apply derivable_pt_lim_plus; apply G; assumption.
Qed.
(** How much larger the step is than the gradient step of the given rate. *)
Definition excess (mean : bool) (n : nat) : R := if mean then INR n else / INR n.
(** The inputs climb, but by [count] times the step when their mean is the input and by the [count]-th part of it when it is
    their sum. *)
Theorem ctx_climbs : forall cl mean lw lt lh alpha lock_w lock_t size X T ws ts path W1 negs W2 loss X' T' W1' W2' loss',
  (lh = true -> NoDup (map fst path) /\ NoDup (map fst negs)) ->
  (forall i, In i ws -> length (row X i) = size) -> (forall i, In i ts -> length (row T i) = size) ->
  (forall t, In t path -> length (row W1 (fst t)) = size) -> (forall t, In t negs -> length (row W2 (fst t)) = size) ->
  rctx cl mean lw lt lh alpha lock_w lock_t size X T ws ts path W1 negs W2 loss = (X', T', W1', W2', loss') ->
  let h := rcompose mean size X T ws ts in
  let n := (length ws + length ts)%nat in
  (lw = true -> forall i j, In i ws -> (i < length X)%nat -> (j < size)%nat -> exists d,
     slope (fun t => both h W1 W2 path negs (rcompose mean size (put X i (put (row X i) j t)) T ws ts)) (entry (row X i) j) d /\
     entry (row X' i) j = entry (row X i) j + lock_w i * alpha * excess mean n * d) /\
  (lt = true -> forall i j, In i ts -> (i < length T)%nat -> (j < size)%nat -> exists d,
     slope (fun t => both h W1 W2 path negs (rcompose mean size X (put T i (put (row T i) j t)) ws ts)) (entry (row T i) j) d /\
     entry (row T' i) j = entry (row T i) j + lock_t i * alpha * excess mean n * d).
Proof.
  intros cl mean lw lt lh alpha lock_w lock_t size X T ws ts path W1 negs W2 loss X' T' W1' W2' loss' ND HX HT H1 H2 E h n. unfold ctx_step in E. fold h in E.
  destruct (compose_entry mean size X T ws ts HX HT) as [Lh _]. fold h in Lh.
  destruct (pass_eq true cl lh alpha h path (repeat 0 size) W1 loss) as (k1 & V1 & l1 & A1 & A2 & A3 & _); [intros L; now apply ND | rewrite repeat_length; congruence | intros; rewrite Lh; auto|].
  rewrite A1 in E. destruct (pass_eq false cl lh alpha h negs k1 W2 l1) as (k2 & V2 & l2 & B1 & B2 & B3 & _); [intros L; now apply ND | rewrite A2, repeat_length; congruence | intros; rewrite Lh; auto|].
  rewrite B1 in E. fold n in E. set (work := if mean then k2 else _) in E. injection E as <- <- <- <- <-.
  assert (Lk : length work = size). { unfold work. destruct mean; [|unfold sscal; rewrite map_length]; rewrite B2, A2; apply repeat_length. }
  set (gh := fun j => wsum (fun t => err h W1 t * entry (row W1 (fst t)) j) (active h W1 path) + wsum (fun t => err h W2 t * entry (row W2 (fst t)) j) (active h W2 negs)).
  assert (K : forall j, entry work j = (if mean then 1 else inv_count 1 rinv n) * (alpha * gh j)).
  { intros j. unfold work, gh. destruct mean; [|rewrite sscal_entry]; rewrite B3, A3, entry_repeat; lra. }
  assert (X0 : forall m : R, n <> 0%nat -> m * (if mean then 1 else inv_count 1 rinv n) = excess mean n * (weight mean n * m)).
  { intros m Hn. unfold excess, weight, inv_count. destruct (Nat.eqb_spec n 0) as [|Hz]; [contradiction|]. assert (INR n <> 0) by now apply not_0_INR. destruct mean; [field; assumption | lra]. }
  split.
  - intros -> i j Hi Li Lj. assert (Li' : length (row X i) = size) by auto. exists (weight mean n * times i ws * gh j). split.
    + apply both_slope with (j := j); [rewrite Lh; exact Lj | intros; rewrite Lh; auto | intros; rewrite Lh; auto|]. intros t. apply compose_put; try assumption; lia.
    + rewrite spread_entry by (congruence || exact Li). rewrite K. assert (Hn : n <> 0%nat) by (unfold n; destruct ws; [destruct Hi | cbn; lia]).
      replace (times i ws * lock_w i * ((if mean then 1 else inv_count 1 rinv n) * (alpha * gh j))) with (lock_w i * alpha * (times i ws * (if mean then 1 else inv_count 1 rinv n)) * gh j) by lra. rewrite X0 by exact Hn. lra.
  - intros -> i j Hi Li Lj. assert (Li' : length (row T i) = size) by auto. exists (weight mean n * times i ts * gh j). split.
    + apply both_slope with (j := j); [rewrite Lh; exact Lj | intros; rewrite Lh; auto | intros; rewrite Lh; auto|]. intros t. apply compose_put_tag; try assumption; lia.
    + rewrite spread_entry by (congruence || exact Li). rewrite K. assert (Hn : n <> 0%nat) by (unfold n; destruct ts; [destruct Hi | cbn; lia]).
      replace (times i ts * lock_t i * ((if mean then 1 else inv_count 1 rinv n) * (alpha * gh j))) with (lock_t i * alpha * (times i ts * (if mean then 1 else inv_count 1 rinv n)) * gh j) by lra. rewrite X0 by exact Hn. lra.
Qed.
Print Assumptions ctx_climbs.

(** ** Examples and violations *)
Lemma sigma_0 : sigma 0 = 1 / 2.
Proof. unfold sigma. rewrite Ropp_0, exp_0. lra. Qed.
Lemma rskip_in : forall f, -6 < f < 6 -> rskip f = false.
Proof. intros f H. unfold rskip. destruct (Rlt_dec (-6) f); [|exfalso; lra]. destruct (Rlt_dec f 6); [reflexivity | exfalso; lra]. Qed.
Example dbow_climbs_ex : exists X' W' loss', rdbow false true true true 1 1 1 [[0]] 0 [(0%nat, true)] [[1]] 0 = (X', W', loss') /\
  entry (row X' 0) 0 = 1 / 2 /\ entry (row W' 0) 0 = 1 /\ loss' = ln 2.
Proof.
  unfold dbow_update, out_pass. cbn [fold_left row nth repeat]. rewrite step_eq. assert (S0 : score [0] [[1]] 0 = 0) by (cbn; lra). rewrite S0, rskip_in by lra. unfold err. cbn [snd fst]. rewrite S0, sigma_0. cbn.
  do 3 eexists. split; [reflexivity|]. split; [unfold entry; cbn; lra|]. split; [unfold entry; cbn; lra|]. rewrite sigma_0. replace (1 / 2) with (/ 2) by lra. rewrite ln_Rinv by lra. lra.
Qed.
(** The step of CBOW with the mean of two words is not the gradient step of the given rate: *)
Theorem cbow_gradient_refuted : exists X W ws negs i j X' W' loss',
  cbow_neg 0 1 Rplus Rminus Rmult Ropp rinv rskip sigma (fun x => ln (sigma x)) false true 1 (fun _ => 1) 2 X ws 0 negs W 0 = (X', W', loss') /\
  In i ws /\ NoDup (map fst (neg_targets 0 negs)) /\
  forall d, slope (fun t => likelihood (score (rcompose true 2 (put X i (put (row X i) j t)) [] ws []) W) (neg_targets 0 negs)) (entry (row X i) j) d ->
  entry (row X' i) j <> entry (row X i) j + 1 * d.
Proof.
  exists [[1; 0]; [1; 0]], [[0; 1]], [0%nat; 1%nat], [], 0%nat, 1%nat.
  assert (HX : forall i, In i [0%nat; 1%nat] -> length (row [[1; 0]; [1; 0]] i) = 2%nat) by (intros i [<-|[<-|[]]]; reflexivity).
  assert (HW : forall t, In t (neg_targets 0 []) -> length (row [[0; 1]] (fst t)) = 2%nat) by (intros t [<-|[]]; reflexivity).
  unfold cbow_neg. destruct (rctx false true true false true 1 (fun _ => 1) (fun _ => 1) 2 [[1; 0]; [1; 0]] [] [0%nat; 1%nat] [] [] [] (neg_targets 0 []) [[0; 1]] 0) as [[[[X' T'] W1'] W2'] loss'] eqn:E.
  exists X', W2', loss'. split; [reflexivity|]. split; [now left|]. split; [constructor; [intros [] | constructor]|]. intros d D.
  assert (ND : true = true -> NoDup (map fst (@nil target)) /\ NoDup (map fst (neg_targets 0 []))) by (intros _; split; [constructor | constructor; [intros [] | constructor]]).
  assert (H0 : forall i, In i (@nil nat) -> length (row (@nil (list R)) i) = 2%nat) by (intros i []).
  assert (H1 : forall t, In t (@nil target) -> length (row (@nil (list R)) (fst t)) = 2%nat) by (intros t []).
  pose proof (ctx_climbs _ _ _ _ _ _ _ _ _ _ _ _ _ _ _ _ _ _ _ _ _ _ _ ND HX H0 H1 HW E) as [K _].
  destruct (K eq_refl 0%nat 1%nat) as (d' & D' & Q); [now left | cbn; lia | lia|]. cbv zeta in D', Q.
  set (h := rcompose true 2 [[1; 0]; [1; 0]] [] [0%nat; 1%nat] []) in *.
  assert (S0 : score h [[0; 1]] 0 = 0). { unfold h, score. cbn. lra. }
  assert (Ac : active h [[0; 1]] (neg_targets 0 []) = neg_targets 0 []). { unfold active, neg_targets. cbn [map filter fst]. rewrite S0, rskip_in by lra. reflexivity. }
  assert (DD : d' = d).
  { eapply uniqueness_limite; [exact D'|]. eapply slope_ext; [|exact D]. intros t. unfold both. rewrite Ac. cbn [active filter likelihood]. lra. }
  subst d'. rewrite Q. unfold excess. cbn [length Nat.add]. intros F.
  assert (d0 : d = 0). { cbn in F. lra. }
  subst d. rewrite Rmult_0_r, Rplus_0_r in Q. revert Q. clear - E S0. unfold ctx_step in E. fold h in E. unfold out_pass in E. cbn [fold_left neg_targets map filter] in E. rewrite step_eq, S0, rskip_in in E by lra.
  unfold err in E. cbn [fst snd] in E. rewrite S0, sigma_0 in E. injection E as <- <- <- <- <-. unfold entry. cbn. lra.
Qed.
(** With hierarchical softmax the better the prediction the larger the loss: *)
Theorem hs_loss_refuted : exists h W ts work' W' loss', rpass true true false 1 h ts ([0], W, 0) = (work', W', loss') /\
  loss' = - likelihood (score h W) ts + 1.
Proof.
  exists [1], [[1]], [(0%nat, true)]. destruct (rpass true true false 1 [1] [(0%nat, true)] ([0], [[1]], 0)) as [[work' W'] loss'] eqn:E. exists work', W', loss'. split; [reflexivity|].
  destruct (hs_loss false 1 [1] [(0%nat, true)] [0] [[1]] 0 work' W' loss') as [_ K]; [discriminate | reflexivity | intros t [<-|[]]; reflexivity | exact E|].
  assert (S0 : score [1] [[1]] 0 = 1) by (cbn; lra).
  assert (Ac : active [1] [[1]] [(0%nat, true)] = [(0%nat, true)]). { unfold active. cbn [filter fst]. rewrite S0, rskip_in by lra. reflexivity. }
  rewrite Ac in K. cbn [wsum fst snd] in K. rewrite S0 in K. rewrite K. lra.
Qed.
Print Assumptions cbow_gradient_refuted.
Print Assumptions hs_loss_refuted.
