(** Facts about entropies and about sums in dictionaries. *)
From Coq Require Import Reals Lra.
From Verif Require Import Base MatReal_Model MatReal_Proofs LogEntropy_Model LogEntropy_Spec.
Local Open Scope R_scope.

(** ** Entropy *)
Lemma ln_below : forall y, 0 < y -> ln y <= y - 1.
Proof.
  intros y Y. destruct (Req_dec (ln y) 0) as [E|E].
  - assert (y = 1) by (rewrite <- (exp_ln y Y), E; apply exp_0). rewrite E. lra.
  - pose proof (exp_ineq1 (ln y) E) as H. rewrite exp_ln in H by exact Y. lra.
Qed.
Lemma ln_strict : forall y, 0 < y -> y <> 1 -> ln y < y - 1.
Proof.
  intros y Y N1. assert (E : ln y <> 0). { intros E. apply N1. rewrite <- (exp_ln y Y), E. apply exp_0. }
  pose proof (exp_ineq1 (ln y) E) as H. rewrite exp_ln in H by exact Y. lra.
Qed.
Lemma total_pos : forall fs, Forall (fun f => 0 < f) fs -> fs <> [] -> 0 < total fs.
Proof.
  intros fs F NE. destruct F as [|f fs P F]; [congruence|]. cbn [total]. assert (0 <= total fs); [|lra]. clear NE. induction F as [|g fs Q F IH]; cbn [total]; lra.
Qed.
Lemma total_nonneg : forall fs, Forall (fun f => 0 < f) fs -> 0 <= total fs.
Proof. intros fs F. induction F as [|g fs Q F IH]; cbn [total]; lra. Qed.
Lemma total_in : forall fs f, Forall (fun f => 0 < f) fs -> In f fs -> f <= total fs.
Proof. intros fs f F. induction F as [|g fs Q F IH]; intros I; [destruct I|]. cbn [total]. pose proof (total_nonneg fs F). destruct I as [<-|I]; [lra|]. specialize (IH I). lra. Qed.
Lemma total_map_le : forall {A} (f g : A -> R) l, (forall x, In x l -> f x <= g x) -> total (map f l) <= total (map g l).
Proof. intros A f g l H. induction l as [|x l IH]; cbn [map total]; [lra|]. pose proof (H x (or_introl eq_refl)). assert (total (map f l) <= total (map g l)) by (apply IH; intros y I; apply H; right; exact I). lra. Qed.
Lemma total_lin : forall {A} (f : A -> R) a b l, total (map (fun x => a * f x + b) l) = a * total (map f l) + INR (length l) * b.
Proof. intros A f a b l. induction l as [|x l IH]; cbn [map total length]; [cbn; lra|]. rewrite IH, S_INR. lra. Qed.
Lemma shares_one : forall fs, 0 < total fs -> total (map (fun f => f / total fs) fs) = 1.
Proof.
  intros fs P. rewrite <- (Rinv_r (total fs)) by lra. unfold Rdiv. generalize (/ total fs) as k. intros k. clear P. induction fs as [|f fs IH]; cbn [map total]; [lra|]. rewrite IH. lra.
Qed.
Lemma entropy_nonneg : forall fs, Forall (fun f => 0 < f) fs -> 0 <= entropy fs.
Proof.
  intros fs F. unfold entropy. destruct fs as [|f0 fs0] eqn:E; [cbn; lra|]. rewrite <- E in *. clear E f0 fs0. destruct (Req_dec (total fs) 0) as [Z0|NZ].
  - destruct F as [|f fs' P F]; [cbn; lra|]. exfalso. pose proof (total_pos (f :: fs') (Forall_cons f P F) ltac:(discriminate)). lra.
  - assert (TP : 0 < total fs) by (pose proof (total_nonneg fs F); lra). assert (H : total (map (fun f => f / total fs * ln (f / total fs)) fs) <= total (map (fun _ => 0) fs)).
    { apply total_map_le. intros f I. rewrite Forall_forall in F. pose proof (F f I) as P. assert (L : f <= total fs) by (apply total_in; [apply Forall_forall; exact F | exact I]).
      assert (R0 : 0 < f / total fs) by (apply Rdiv_lt_0_compat; assumption). assert (R1 : f / total fs <= 1) by (apply (Rmult_le_reg_r (total fs)); [exact TP|]; unfold Rdiv; rewrite Rmult_assoc, Rinv_l by lra; lra).
      pose proof (ln_below _ R0) as LB. assert (ln (f / total fs) <= 0) by lra. rewrite <- (Rmult_0_r (f / total fs)). apply Rmult_le_compat_l; lra. }
    assert (Z1 : total (map (fun _ : R => 0) fs) = 0) by (clear; induction fs as [|f fs IH]; cbn [map total]; lra). lra.
Qed.
(** Gibbs: the entropy is at most that of equal shares. *)
Lemma entropy_max : forall fs, Forall (fun f => 0 < f) fs -> fs <> [] -> entropy fs <= ln (INR (length fs)).
Proof.
  intros fs F NE. pose proof (total_pos fs F NE) as TP. set (k := INR (length fs)). assert (KP : 0 < k) by (apply lt_0_INR; destruct fs; [congruence | cbn; lia]).
  assert (H : total (map (fun f => (- 1) * (f / total fs * ln (f / total fs)) + 0) fs) <= total (map (fun f => (ln k - 1) * (f / total fs) + / k) fs)).
  { apply total_map_le. intros f I. rewrite Forall_forall in F. pose proof (F f I) as P. set (p := f / total fs). assert (PP : 0 < p) by (apply Rdiv_lt_0_compat; assumption).
    assert (Q : 0 < / (k * p)) by (apply Rinv_0_lt_compat, Rmult_lt_0_compat; assumption). pose proof (ln_below _ Q) as LB. rewrite ln_Rinv in LB by (apply Rmult_lt_0_compat; assumption). rewrite ln_mult in LB by assumption.
    assert (M : p * (- (ln k + ln p)) <= p * (/ (k * p) - 1)) by (apply Rmult_le_compat_l; lra). assert (E : p * (/ (k * p) - 1) = / k - p) by (field; split; lra). rewrite E in M. lra. }
  rewrite !total_lin, shares_one in H by exact TP. fold k in H. assert (E : k * / k = 1) by (field; lra). unfold entropy. lra.
Qed.
Lemma entropy_one : forall f, 0 < f -> entropy [f] = 0.
Proof. intros f P. unfold entropy. cbn [map total]. replace (f / (f + 0)) with 1 by (field; lra). rewrite ln_1. lra. Qed.
Lemma entropy_many : forall f g fs, Forall (fun f => 0 < f) (f :: g :: fs) -> 0 < entropy (f :: g :: fs).
Proof.
  intros f g fs F. set (l := f :: g :: fs) in *. pose proof (total_pos l F ltac:(discriminate)) as TP. assert (LT : f < total l). { inversion F as [|? ? P F1]; subst. pose proof (total_pos (g :: fs) F1 ltac:(discriminate)). unfold l. cbn [total] in *. lra. }
  assert (PF : 0 < f) by (inversion F; assumption). set (rest := total (map (fun f0 => f0 / total l * ln (f0 / total l)) fs)). assert (EQ : entropy l = - (f / total l * ln (f / total l) + (g / total l * ln (g / total l) + rest))) by reflexivity. rewrite EQ.
  assert (T : forall x, In x l -> x / total l * ln (x / total l) <= 0).
  { intros x I. rewrite Forall_forall in F. pose proof (F x I) as P. assert (L : x <= total l) by (apply total_in; [apply Forall_forall; exact F | exact I]).
    assert (R0 : 0 < x / total l) by (apply Rdiv_lt_0_compat; assumption). assert (R1 : x / total l <= 1) by (apply (Rmult_le_reg_r (total l)); [exact TP|]; unfold Rdiv; rewrite Rmult_assoc, Rinv_l by lra; lra).
    pose proof (ln_below _ R0) as LB. rewrite <- (Rmult_0_r (x / total l)). apply Rmult_le_compat_l; lra. }
  assert (RP : rest <= 0). { unfold rest. assert (Z1 : total (map (fun _ : R => 0) fs) = 0) by (clear; induction fs as [|a fs IH]; cbn [map total]; lra). rewrite <- Z1. apply total_map_le. intros x I. apply T. right. right. exact I. }
  assert (TG : g / total l * ln (g / total l) <= 0) by (apply T; right; left; reflexivity).
  assert (R0 : 0 < f / total l) by (apply Rdiv_lt_0_compat; assumption). assert (R1 : f / total l < 1) by (apply (Rmult_lt_reg_r (total l)); [exact TP|]; unfold Rdiv; rewrite Rmult_assoc, Rinv_l by lra; lra).
  pose proof (ln_below _ R0) as LB. assert (NEG : f / total l * ln (f / total l) < 0) by (rewrite <- (Rmult_0_r (f / total l)); apply Rmult_lt_compat_l; lra). lra.
Qed.
Lemma entropy_equal : forall f n, 0 < f -> (0 < n)%nat -> entropy (repeat f n) = ln (INR n).
Proof.
  intros f n P N0. assert (T : total (repeat f n) = INR n * f) by (clear; induction n as [|n IH]; [cbn; lra|]; cbn [repeat total]; rewrite IH, S_INR; lra).
  assert (NP : 0 < INR n) by (apply lt_0_INR; exact N0). unfold entropy. rewrite T. replace (f / (INR n * f)) with (/ INR n) by (field; lra).
  assert (E : forall m c, total (map (fun f0 => f0 / (INR n * f) * ln (f0 / (INR n * f))) (repeat f m)) = INR m * (/ INR n * c) \/ c <> ln (/ INR n)).
  { intros m c. destruct (Req_dec c (ln (/ INR n))) as [->|NE]; [left | right; exact NE]. induction m as [|m IH]; [cbn; lra|]. cbn [repeat map total]. rewrite IH, S_INR. replace (f / (INR n * f)) with (/ INR n) by (field; lra). lra. }
  destruct (E n (ln (/ INR n))) as [E1|E1]; [|congruence]. rewrite E1, ln_Rinv by exact NP. field. lra.
Qed.

(** ** Sums in dictionaries *)
Definition hits (t : Z) (l : list (Z * R)) : list R := map snd (filter (fun iv => if eq_dec (fst iv) t then true else false) l).
Lemma hits_app : forall t a b, hits t (a ++ b) = hits t a ++ hits t b.
Proof. intros t a b. unfold hits. induction a as [|x a IH]; [reflexivity|]. cbn [app filter]. destruct (eq_dec (fst x) t); cbn [map app]; rewrite IH; reflexivity. Qed.
Definition bumps (l : list (Z * R)) (d : dict Z R) : dict Z R := fold_left (fun d iv => bump d (fst iv) (snd iv)) l d.
Lemma bumps_get : forall l d t, dget (bumps l d) t = match hits t l with [] => dget d t | fs => Some (dget_or d t 0 + total fs) end.
Proof.
  induction l as [|[k v] l IH]; intros d t; [reflexivity|]. unfold bumps. cbn [fold_left]. fold (bumps l (bump d k v)). rewrite IH. unfold hits. cbn [filter fst]. fold (hits t l). unfold bump at 1. unfold dget_or at 1. cbn [fst snd]. rewrite !dget_dset. unfold bump, dget_or. rewrite dget_dset.
  destruct (eq_dec k t) as [->|NE]; cbn [map snd].
  - fold (hits t l). destruct (hits t l) as [|f fs]; cbn [total]; f_equal; destruct (dget d t); lra.
  - fold (hits t l). destruct (hits t l); reflexivity.
Qed.
Lemma frequencies_bumps : forall c, frequencies c = bumps (concat c) [].
Proof.
  intros c. unfold frequencies. assert (G : forall d, fold_left (fun d bow => fold_left (fun d iv => bump d (fst iv) (snd iv)) bow d) c d = bumps (concat c) d); [|apply G].
  induction c as [|b c IH]; intros d; [reflexivity|]. cbn [fold_left concat]. rewrite IH. unfold bumps. rewrite fold_left_app. reflexivity.
Qed.
Lemma counted_hits : forall t ds fs, Forall counts ds -> counted t ds fs -> fs = hits t (concat ds).
Proof.
  intros t ds fs F C. induction C as [|d ds f fs I C IH|d ds fs I C IH]; [reflexivity| |]; inversion F as [|? ? (ND & P) F1]; subst; cbn [concat]; rewrite hits_app, <- (IH F1).
  - assert (E : hits t d = [f]); [|rewrite E; reflexivity]. clear -I ND. induction d as [|[k v] d IH]; [destruct I|]. cbn [map fst] in ND. inversion ND as [|? ? NI ND1]; subst. unfold hits. cbn [filter fst]. fold (hits t d). destruct I as [I|I].
    + injection I as -> ->. destruct (eq_dec t t); [|congruence]. cbn [map snd]. fold (hits t d). f_equal. clear -NI. induction d as [|[k v] d IH]; [reflexivity|]. unfold hits. cbn [filter fst]. destruct (eq_dec k t) as [->|]; [exfalso; apply NI; left; reflexivity|]. fold (hits t d). apply IH. intros I. apply NI. right. exact I.
    + destruct (eq_dec k t) as [->|]; [exfalso; apply NI; apply in_map_iff; exists (t, f); split; [reflexivity | exact I]|]. fold (hits t d). apply IH; assumption.
  - assert (E : hits t d = []); [|rewrite E; reflexivity]. clear -I. induction d as [|[k v] d IH]; [reflexivity|]. unfold hits. cbn [filter fst]. destruct (eq_dec k t) as [->|]; [exfalso; apply I; left; reflexivity|]. fold (hits t d). apply IH. intros K. apply I. right. exact K.
Qed.
Lemma counted_ex : forall t ds, exists fs, counted t ds fs.
Proof.
  intros t ds. induction ds as [|d ds (fs & IH)]; [exists []; constructor|]. destruct (in_dec Z.eq_dec t (map fst d)) as [I|I].
  - apply in_map_iff in I as ([k f] & E & I). cbn [fst] in E. subst k. exists (f :: fs). constructor; assumption.
  - exists fs. apply c_not; assumption.
Qed.
Lemma counted_length : forall t ds fs, counted t ds fs -> (length fs <= length ds)%nat.
Proof. intros t ds fs C. induction C; cbn [length]; lia. Qed.
Lemma counted_pos : forall t ds fs, Forall counts ds -> counted t ds fs -> Forall (fun f => 0 < f) fs.
Proof.
  intros t ds fs F C. induction C as [|d ds f fs I C IH|d ds fs I C IH]; [constructor| |]; inversion F as [|? ? (ND & P) F1]; subst; [|apply IH, F1]. constructor; [|apply IH, F1]. rewrite Forall_forall in P. apply (P _ I).
Qed.
Lemma hits_in : forall t l, In t (map fst l) <-> hits t l <> [].
Proof.
  intros t l. induction l as [|[k v] l IH]; [split; [intros [] | intros H; exfalso; apply H; reflexivity]|]. unfold hits. cbn [map filter fst]. destruct (eq_dec k t) as [->|NE].
  - split; [intros _; discriminate | intros _; left; reflexivity].
  - fold (hits t l). rewrite <- IH. split; [intros [K|K]; [congruence | exact K] | intros K; right; exact K].
Qed.
