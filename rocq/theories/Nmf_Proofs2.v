From Coq Require Import Reals Lra Lia FunctionalExtensionality Permutation.
From Verif Require Import Base MatReal_Model MatReal_Proofs Utils_Model LdaTrain_Model LdaTrain_Proofs2 Lsi_Model Lsi_Linear Nmf_Model Nmf_Spec Nmf_Proofs.
Local Open Scope R_scope.

(** ** The solution for W *)
Lemma iter_w_feasible : forall m K b eta stop A B n W old, bound_ok b -> feasible m K W -> feasible m K (fst (iter_w m K b eta stop A B n W old)).
Proof.
  intros m K b eta stop A B n. induction n as [|n IH]; intros W old Hb HW; cbn [iter_w]; [auto|].
  destruct (w_stops _ _ _); [auto|]. apply IH; auto. apply transform_feasible; auto.
Qed.
Lemma solve_w_feasible : forall m K b kappa stop A B n W old W', bound_ok b -> (0 < n)%nat -> feasible m K W \/ old = None ->
  fst (solve_w m K b kappa stop A B n W old) = Mat W' -> feasible m K W'.
Proof.
  intros m K b kappa stop A B n W old W' Hb Hn H E. unfold solve_w in E. destruct n as [|n]; [lia|]. destruct (Req_EM_T _ 0).
  - destruct (w_stops stop old _) eqn:S; cbn [fst] in E; [|discriminate E]. injection E as <-. destruct H as [H| ->]; [auto | discriminate S].
  - cbn [fst] in E. injection E as <-. cbn [iter_w]. destruct (w_stops stop old _) eqn:S.
    + cbn [fst]. destruct H as [H| ->]; [auto | discriminate S].
    + apply iter_w_feasible; auto. apply transform_feasible; auto.
Qed.
Lemma iter_w_descent : forall m K kappa stop A B n W old b, 0 < kappa <= 2 -> symmetric_in K A -> 0 < frobenius K A -> feasible m K W -> (forall x, clip b x = Rmax x 0) -> bound_ok b ->
  w_error m K A B (fst (iter_w m K b (kappa / frobenius K A) stop A B n W old)) <= w_error m K A B W.
Proof.
  intros m K kappa stop A B n. induction n as [|n IH]; intros W old b Hk SA HF HW Hc Hb; cbn [iter_w]; [cbn [fst]; lra|].
  destruct (w_stops _ _ _); [cbn [fst]; lra|].
  set (W' := w_step m K b (kappa / frobenius K A) A B W). eapply Rle_trans; [apply IH; auto; apply transform_feasible; auto|].
  pose proof (w_step_gain m K b kappa A B W (proj1 Hk) SA HF HW (fun i k _ _ => Hc _)) as G. cbv zeta in G. fold W' in G.
  assert (0 <= 1 / kappa - 1 / 2). { assert (1 / 2 <= 1 / kappa); [|lra]. apply (Rmult_le_reg_r kappa); [lra|]. unfold Rdiv. rewrite (Rmult_assoc 1 (/ kappa)), Rinv_l by lra. lra. }
  assert (0 <= (1 / kappa - 1 / 2) * frobenius K A * sumn m (fun i => sumn K (fun k => (W' i k - W i k) ^ 2))); [|lra].
  apply Rmult_le_pos; [apply Rmult_le_pos; lra|]. apply sumn_nonneg; intros. apply sumn_nonneg; intros. apply pow2_ge_0.
Qed.

(** ** Batches *)
Section B.
Variables (m K : nat) (p : params) (noise : mat).
Notation bt := (batch m K p noise).
Notation bts := (batches m K p noise).

Definition hs_of (s : nmf) : list col := match n_h s with Some hs => hs | None => [] end.

Lemma batch_stats : forall t s vs perms,
  n_A (bt t s vs perms) = running t (n_A s) (outer_h (hs_of (bt t s vs perms))) /\
  n_B (bt t s vs perms) = running t (n_B s) (cross vs (hs_of (bt t s vs perms))) /\
  v_max (bt t s vs perms) = bound_after m vs (v_max s) /\ length (hs_of (bt t s vs perms)) = length vs /\ n_h (bt t s vs perms) = Some (hs_of (bt t s vs perms)).
Proof.
  intros t s vs perms. unfold batch, hs_of.
  destruct (n_W s); cbn [n_A n_B v_max n_h]; repeat split; try (apply iter_len, start_len).
  destruct perms; [apply start_len | apply zeros_len].
Qed.

Lemma largest_nonneg : forall vs, 0 <= largest m vs.
Proof. intros vs. unfold largest. induction (flat_map _ vs); cbn [fold_right]; [lra|]. eapply Rle_trans; [eassumption | apply Rmax_r]. Qed.
Lemma bound_after_ok : forall vs b, bound_ok b -> bound_ok (bound_after m vs b).
Proof. intros vs [| |y] H; cbn; auto. apply largest_nonneg. Qed.

Lemma iter_nonneg : forall kap stop W vs perms e hs, length hs = length vs -> Forall (nonneg K) hs -> Forall (nonneg K) (iter_h m K kap stop W vs perms e hs).
Proof.
  intros kap stop W vs perms e hs L H. destruct (iter_prefix m K kap stop W vs perms e hs) as [n [_ [_ ->]]]. rewrite run_many by auto.
  apply Forall_forall. intros h Hin. apply in_map_iff in Hin. destruct Hin as [[v h0] [<- Hin]]. apply run1_nonneg. apply in_combine_r in Hin. rewrite Forall_forall in H. auto.
Qed.
Lemma zeros_nonneg : forall n, Forall (nonneg K) (zeros n).
Proof. intros n. apply Forall_forall. intros h H. apply repeat_spec in H. subst. intros k _. lra. Qed.
Lemma start_nonneg : forall n s, Forall (nonneg K) (hs_of s) -> Forall (nonneg K) (start_h n (n_h s)).
Proof. intros n s H. unfold hs_of in H. destruct (n_h s) as [hs|]; cbn [start_h]; [|apply zeros_nonneg]. destruct (_ =? _)%nat; [auto | apply zeros_nonneg]. Qed.

Lemma outer_sym_h : forall hs k l, outer_h hs k l = outer_h hs l k.
Proof. intros. unfold outer_h. apply Rsum_ext. intros. ring. Qed.
Lemma running_sym : forall t A hs, symmetric_in K A -> symmetric_in K (running t A (outer_h hs)).
Proof. intros t A hs H k l Hk Hl. unfold running. rewrite (H k l Hk Hl), (outer_sym_h hs k l). reflexivity. Qed.

Definition Inv (s : nmf) : Prop :=
  bound_ok (v_max s) /\ symmetric_in K (n_A s) /\ Forall (nonneg K) (hs_of s) /\
  match n_W s with Mat W => feasible m K W | NoW => n_error s = None | NaN => True end.
Lemma batch_inv : forall t s vs perms, (0 < w_iter p)%nat -> Inv s -> Inv (bt t s vs perms).
Proof.
  intros t s vs perms Hw [Hb [HA [Hh HW]]]. destruct (batch_stats t s vs perms) as [EA [_ [Ev _]]].
  split; [rewrite Ev; apply bound_after_ok; auto|]. split; [rewrite EA; apply running_sym; auto|].
  pose proof (start_nonneg (length vs) s Hh) as HS.
  split.
  - unfold batch, hs_of. destruct (n_W s); cbn [n_h]; try (apply iter_nonneg; [apply start_len | auto]). destruct perms; [auto | apply zeros_nonneg].
  - unfold batch. destruct (n_W s) as [| |W]; cbn [n_W]; [| exact Logic.I |].
    + destruct (fst (solve_w _ _ _ _ _ _ _ _ _ _)) eqn:E; [|exact Logic.I|].
      * exfalso. unfold solve_w in E. destruct (Req_EM_T _ 0); [destruct (w_iter p); [|destruct (w_stops _ _ _)]|]; discriminate E.
      * eapply solve_w_feasible; [| |right; exact HW | exact E]; auto. apply bound_after_ok; auto.
    + destruct (fst (solve_w _ _ _ _ _ _ _ _ _ _)) eqn:E; [|exact Logic.I|].
      * exfalso. unfold solve_w in E. destruct (Req_EM_T _ 0); [destruct (w_iter p); [|destruct (w_stops _ _ _)]|]; discriminate E.
      * eapply solve_w_feasible; [| |left; exact HW | exact E]; auto. apply bound_after_ok; auto.
Qed.
Lemma batches_inv : forall c chunks t s, (0 < w_iter p)%nat -> Inv s -> Inv (bts c t chunks s).
Proof. intros c chunks. induction chunks as [|ch chunks IH]; intros t s Hw H; cbn [batches]; [auto|]. apply IH; auto. apply batch_inv; auto. Qed.

Lemma batches_snoc : forall c chunks ch t s, bts c t (chunks ++ [ch]) s = bt (t + length chunks)%nat (bts c t chunks s) (pick_docs ch (shuffled c (t + length chunks)%nat)) (topic_perms c (t + length chunks)%nat).
Proof.
  intros c chunks. induction chunks as [|x chunks IH]; intros ch t s; cbn [batches app length].
  - rewrite Nat.add_0_r. reflexivity.
  - rewrite IH. replace (S t + length chunks)%nat with (t + S (length chunks))%nat by lia. reflexivity.
Qed.

Lemma running_mean : forall t (M : mat) add i j, (0 < t)%nat -> INR t * running t M add i j = INR (t - 1) * M i j + add i j.
Proof. intros t M add i j H. unfold running. field. apply not_0_INR. lia. Qed.

(** The statistics after a run: means over its batches, whatever they were before. *)
Lemma batches_means : forall c chunks s, chunks <> [] ->
  (forall k l, INR (length chunks) * n_A (bts c 1 chunks s) k l = Rsum (map (fun t => outer_h (hs_of (bts c 1 (firstn (S t) chunks) s)) k l) (seq 0 (length chunks)))) /\
  (forall i k, INR (length chunks) * n_B (bts c 1 chunks s) i k =
     Rsum (map (fun t => cross (pick_docs (nth t chunks []) (shuffled c (S t))) (hs_of (bts c 1 (firstn (S t) chunks) s)) i k) (seq 0 (length chunks)))).
Proof.
  intros c chunks s. induction chunks as [|ch chunks IH] using rev_ind; [congruence|]. intros _.
  set (n := length chunks) in *.
  assert (EF : forall t, (t < n)%nat -> firstn (S t) (chunks ++ [ch]) = firstn (S t) chunks).
  { intros t Ht. rewrite firstn_app. replace (S t - length chunks)%nat with 0%nat by (unfold n in Ht; lia). cbn [firstn]. apply app_nil_r. }
  assert (EL : firstn (S n) (chunks ++ [ch]) = chunks ++ [ch]) by (apply firstn_all2; rewrite app_length; cbn; unfold n; lia).
  rewrite app_length. cbn [length]. fold n. rewrite Nat.add_1_r. rewrite seq_S. rewrite Nat.add_0_l.
  set (s1 := bt (1 + n)%nat (bts c 1 chunks s) (pick_docs ch (shuffled c (1 + n)%nat)) (topic_perms c (1 + n)%nat)).
  assert (ES : bts c 1 (chunks ++ [ch]) s = s1) by (rewrite batches_snoc; reflexivity). rewrite ES.
  destruct (batch_stats (1 + n) (bts c 1 chunks s) (pick_docs ch (shuffled c (1 + n)%nat)) (topic_perms c (1 + n)%nat)) as [SA [SB _]]. fold s1 in SA, SB.
  assert (P : forall M : mat, chunks = [] -> forall i j, INR n * M i j = 0) by (intros M -> i j; unfold n; cbn; ring).
  split; intros i j.
  - rewrite SA. change (S n) with (1 + n)%nat at 1. rewrite running_mean by lia. replace (1 + n - 1)%nat with n by lia. rewrite map_app, Rsum_app. cbn [map]. rewrite Rsum_cons, EL, ES.
    change (Rsum []) with 0. rewrite Rplus_0_r. f_equal.
    destruct chunks as [|c0 chunks']; [rewrite P by auto; reflexivity|]. rewrite (proj1 (IH ltac:(discriminate))).
    apply Rsum_ext. intros t Ht. apply in_seq in Ht. rewrite EF by lia. reflexivity.
  - rewrite SB. change (S n) with (1 + n)%nat at 1. rewrite running_mean by lia. replace (1 + n - 1)%nat with n by lia. rewrite map_app, Rsum_app. cbn [map]. rewrite Rsum_cons, EL, ES.
    change (Rsum []) with 0. rewrite Rplus_0_r. rewrite (app_nth2 chunks [ch] []) by (unfold n; lia). replace (n - length chunks)%nat with 0%nat by (unfold n; lia). cbn [nth]. f_equal.
    destruct chunks as [|c0 chunks']; [rewrite P by auto; reflexivity|]. rewrite (proj2 (IH ltac:(discriminate))).
    apply Rsum_ext. intros t Ht. apply in_seq in Ht. rewrite EF by lia. rewrite app_nth1 by (unfold n in Ht; lia). reflexivity.
Qed.

Lemma batch_forgets : forall s A B vs perms, bt 1 (mkNmf (n_W s) A B (v_max s) (n_error s) (n_h s)) vs perms = bt 1 s vs perms.
Proof.
  intros s A B vs perms. assert (E : forall M M' add, running 1 M add = running 1 M' add).
  { intros. apply functional_extensionality. intros i. apply functional_extensionality. intros j. unfold running. cbn. lra. }
  unfold batch. cbn [n_W n_A n_B v_max n_error n_h]. rewrite (E A (n_A s)), (E B (n_B s)). reflexivity.
Qed.

Lemma batches_nan : forall c chunks t s, n_W s = NaN -> n_W (bts c t chunks s) = NaN.
Proof.
  intros c chunks. induction chunks as [|ch chunks IH]; intros t s H; cbn [batches]; [auto|]. apply IH. unfold batch. rewrite H. reflexivity.
Qed.

(** Documents without words *)
Lemma grad_zero : forall W v h k, (forall i, (i < m)%nat -> v i = 0) -> (forall l, h l = 0) -> grad m K W v h k = 0.
Proof.
  intros W v h k Hv Hh. unfold grad, wtv. rewrite (sumn_all0 m) by (intros i Hi; rewrite (Hv i Hi); ring). rewrite sumn_all0 by (intros; rewrite Hh; ring). ring.
Qed.
Lemma sweep_zero : forall kap W v perm s, (forall i, (i < m)%nat -> v i = 0) -> (forall l, fst s l = 0) -> forall l, fst (fold_left (coord m K kap W v) perm s) l = 0.
Proof.
  intros kap W v perm. induction perm as [|k perm IH]; intros s Hv Hs; cbn [fold_left]; [auto|]. apply IH; auto. intros l. rewrite coord_fst. unfold upd.
  destruct (l =? k)%nat; [|auto]. destruct (Req_EM_T _ 0); [reflexivity|]. rewrite grad_zero by auto. rewrite Hs. unfold Rdiv. rewrite !Rmult_0_l, Rminus_0_r. apply Rmax_left. lra.
Qed.
Lemma iter_zero : forall kap stop W vs perms e n, length vs = n -> (forall v, In v vs -> forall i, (i < m)%nat -> v i = 0) ->
  forall h, In h (iter_h m K kap stop W vs perms e (zeros n)) -> forall l, h l = 0.
Proof.
  intros kap stop W vs perms e n L Hv h Hin. destruct (iter_prefix m K kap stop W vs perms e (zeros n)) as [q [_ [_ E]]]. rewrite E in Hin. rewrite run_many in Hin by (rewrite zeros_len; auto).
  apply in_map_iff in Hin. destruct Hin as [[v h0] [<- Hin]]. cbn [fst snd].
  assert (Hv' : forall i, (i < m)%nat -> v i = 0) by (apply Hv; eapply in_combine_l; eauto).
  assert (H0 : forall l, h0 l = 0). { apply in_combine_r in Hin. apply repeat_spec in Hin. subst. reflexivity. }
  clear E Hin. revert h0 H0. induction (firstn q perms) as [|pp ps IH]; intros h0 H0; cbn [fold_left]; [auto|]. apply IH. unfold run1, sweep. apply sweep_zero; auto.
Qed.
Lemma outer_zero : forall hs, (forall h, In h hs -> forall l : nat, h l = 0) -> forall k l, outer_h hs k l = 0.
Proof.
  intros hs H k l. unfold outer_h. rewrite (Rsum_ext _ (fun _ => 0)).
  - clear. induction hs; [reflexivity|]. cbn [map]. rewrite Rsum_cons, IHhs. ring.
  - intros h Hh. rewrite (H h Hh). ring.
Qed.
Lemma cross_zero : forall vs hs, (forall h, In h hs -> forall l : nat, h l = 0) -> forall i k, cross vs hs i k = 0.
Proof.
  intros vs hs H i k. unfold cross. rewrite (Rsum_ext _ (fun _ => 0)).
  - generalize (combine vs hs). induction l; [reflexivity|]. cbn [map]. rewrite Rsum_cons, IHl. ring.
  - intros [v h] Hh. cbn [fst snd]. rewrite (H h) by (eapply in_combine_r; eauto). ring.
Qed.
Lemma mzero_ext : forall M : mat, (forall i j, M i j = 0) -> M = mzero.
Proof. intros M H. apply functional_extensionality. intros i. apply functional_extensionality. intros j. apply H. Qed.
Lemma solve_w_zero : forall b kap stop n W old, (0 < n)%nat -> stop <= 1 -> fst (solve_w m K b kap stop mzero mzero n W old) = NaN.
Proof.
  intros b kap stop n W old Hn Hs. unfold solve_w.
  assert (F : frobenius K mzero = 0). { unfold frobenius. rewrite sumn_all0; [apply sqrt_0|]. intros. apply sumn_all0. intros. unfold mzero. ring. }
  rewrite F. destruct (Req_EM_T 0 0); [|congruence]. destruct n as [|n]; [lia|].
  assert (E : w_error m K mzero mzero W = 0).
  { unfold w_error. rewrite !sumn_all0; [ring| |].
    - intros. apply sumn_all0. intros. unfold mzero. ring.
    - intros. apply sumn_all0. intros. unfold mmul. rewrite sumn_all0; [ring|]. intros. unfold mzero. ring. }
  rewrite E. assert (S0 : w_stops stop old 0 = false).
  { destruct old as [w|]; [|reflexivity]. cbn [w_stops]. destruct (Req_EM_T w 0); [reflexivity|]. destruct (Rlt_dec _ _) as [L|]; [|reflexivity]. exfalso.
    replace ((0 - w) / w) with (-(1)) in L by (field; auto). rewrite Rabs_Ropp, Rabs_R1 in L. lra. }
  rewrite S0. reflexivity.
Qed.

Lemma empty_batch_nan : forall s vs perms, (0 < w_iter p)%nat -> w_stop p <= 1 -> length (hs_of s) <> length vs \/ n_h s = None ->
  (forall v, In v vs -> forall i, (i < m)%nat -> v i = 0) -> n_W (bt 1 s vs perms) = NaN.
Proof.
  intros s vs perms Hw Hst Hh Hv.
  assert (ES : start_h (length vs) (n_h s) = zeros (length vs)).
  { unfold hs_of in Hh. destruct (n_h s) as [hs|]; [|reflexivity]. cbn [start_h]. destruct (Nat.eqb_spec (length hs) (length vs)); [|reflexivity]. destruct Hh; [contradiction | discriminate]. }
  assert (R0 : forall W, fst (solve_w m K (bound_after m vs (v_max s)) (kappa p) (w_stop p)
     (running 1 (n_A s) (outer_h (iter_h m K (kappa p) (h_stop p) W vs perms None (zeros (length vs)))))
     (running 1 (n_B s) (cross vs (iter_h m K (kappa p) (h_stop p) W vs perms None (zeros (length vs))))) (w_iter p) W (n_error s)) = NaN).
  { intros W. rewrite (mzero_ext (running 1 (n_A s) _)), (mzero_ext (running 1 (n_B s) _)).
    - apply solve_w_zero; auto.
    - intros i j. unfold running. rewrite cross_zero by (intros h Hin l; eapply (iter_zero _ _ W vs perms None (length vs) eq_refl Hv); eauto). cbn. lra.
    - intros i j. unfold running. rewrite outer_zero by (intros h Hin l; eapply (iter_zero _ _ W vs perms None (length vs) eq_refl Hv); eauto). cbn. lra. }
  unfold batch. rewrite ES. destruct (n_W s); cbn [n_W]; [apply R0 | reflexivity | apply R0].
Qed.
End B.
