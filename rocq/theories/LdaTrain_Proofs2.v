(** Proofs about inference and about the sign of the statistics. *)
From Coq Require Import Reals Lra.
From Verif Require Import Base MatReal_Model MatReal_Proofs Utils_Model Utils_Properties LdaTrain_Model LdaTrain_Proofs Phrases_Proofs.
From Coq Require Import ZifyBool ZifyNat.
Local Open Scope R_scope.

Lemma sumn_ext : forall n f g, (forall k, (k < n)%nat -> f k = g k) -> sumn n f = sumn n g.
Proof. intros n f g H. unfold sumn. apply Rsum_ext. intros x Hx. apply in_seq in Hx. apply H. lia. Qed.
Lemma sumn_le : forall n f g, (forall k, (k < n)%nat -> f k <= g k) -> sumn n f <= sumn n g.
Proof. intros n f g H. unfold sumn. apply Rsum_le. intros x Hx. apply in_seq in Hx. apply H. lia. Qed.
Lemma sumn_plus : forall n f g, sumn n (fun k => f k + g k) = sumn n f + sumn n g.
Proof. intros. unfold sumn. apply Rsum_plus. Qed.
Lemma sumn_scal : forall n f c, sumn n (fun k => c * f k) = c * sumn n f.
Proof. intros. unfold sumn. apply Rsum_scal. Qed.
Lemma sumn_nonneg : forall n f, (forall k, (k < n)%nat -> 0 <= f k) -> 0 <= sumn n f.
Proof. intros n f H. unfold sumn. apply Rsum_nonneg. intros x Hx. apply in_map_iff in Hx. destruct Hx as (k & <- & Hk). apply in_seq in Hk. apply H. lia. Qed.
Lemma sumn_zero : forall n, sumn n (fun _ => 0) = 0.
Proof. intros n. transitivity (sumn n (fun _ => 0 * 0)); [apply sumn_ext; intros; ring|]. rewrite sumn_scal. ring. Qed.
Lemma sumn_pos : forall n f, (0 < n)%nat -> (forall k, (k < n)%nat -> 0 < f k) -> 0 < sumn n f.
Proof.
  intros n f Hn H. destruct n as [|n]; [lia|]. unfold sumn. cbn [seq map]. rewrite Rsum_cons. assert (0 < f O) by (apply H; lia). assert (0 <= Rsum (map f (seq 1 n))); [|lra].
  apply Rsum_nonneg. intros x Hx. apply in_map_iff in Hx. destruct Hx as (k & <- & Hk). apply in_seq in Hk. apply Rlt_le. apply H. lia.
Qed.
Lemma sumn_swap : forall A n (F : nat -> A -> R) (l : list A), sumn n (fun k => Rsum (map (F k) l)) = Rsum (map (fun x => sumn n (fun k => F k x)) l).
Proof.
  intros A n F l. induction l as [|x l IH]; [cbn; apply sumn_zero|]. cbn [map]. rewrite Rsum_cons, <- IH. rewrite <- sumn_plus. apply sumn_ext. intros k _. now rewrite Rsum_cons.
Qed.

Section Lda.
Variables K V : nat.
Variable eps : R.
Variable edir : nat -> (nat -> R) -> nat -> R.
Variable draw : nat -> nat -> R.
Variable newton_alpha : (nat -> R) -> list (nat -> R) -> nat -> R.
Variable newton_eta : (nat -> nat -> R) -> (nat -> nat -> R) -> nat -> nat -> R.
Hypothesis edir_pos : forall n v i, 0 < edir n v i.
Hypothesis eps_nonneg : 0 <= eps.
Hypothesis K_pos : (0 < K)%nat.
Notation phinorm := (phinorm K eps).
Notation infer_doc := (infer_doc K eps edir).
Notation infer_loop := (infer_loop K V eps edir draw).
Notation inference := (inference K V eps edir draw).
Notation scatter := (scatter K eps).

Lemma phi_pos : forall (beta : nat -> nat -> R) (th : nat -> R) w, (forall k, 0 < th k) -> (forall k, (k < K)%nat -> 0 < beta k w) -> 0 < sumn K (fun k => th k * beta k w) /\ 0 < phinorm beta th w.
Proof.
  intros beta th w Ht Hb. assert (P : 0 < sumn K (fun k => th k * beta k w)). { apply sumn_pos; [exact K_pos|]. intros k Hk. apply Rmult_lt_0_compat; [apply Ht | apply Hb; exact Hk]. }
  split; [exact P|]. unfold LdaTrain_Model.phinorm. lra.
Qed.
(** How much of a count is shared out. *)
Lemma share : forall (beta : nat -> nat -> R) (th : nat -> R) w c, (forall k, 0 < th k) -> (forall k, (k < K)%nat -> 0 < beta k w) -> 0 <= c ->
  0 <= c * (sumn K (fun k => th k * beta k w) / phinorm beta th w) <= c /\ (eps = 0 -> c * (sumn K (fun k => th k * beta k w) / phinorm beta th w) = c).
Proof.
  intros beta th w c Ht Hb Hc. destruct (phi_pos beta th w Ht Hb) as [P1 P2]. set (s := sumn K (fun k => th k * beta k w)) in *. assert (E : phinorm beta th w = s + eps) by reflexivity. rewrite E in *. clearbody s.
  assert (Q : 0 <= s / (s + eps) <= 1). { split; [apply Rlt_le; apply Rdiv_lt_0_compat; assumption|]. apply Rmult_le_reg_r with (s + eps); [exact P2|]. unfold Rdiv. rewrite Rmult_assoc, Rinv_l by lra. lra. }
  split; [split; [apply Rmult_le_pos; [exact Hc | apply Q]|] |].
  - rewrite <- (Rmult_1_r c) at 2. apply Rmult_le_compat_l; [exact Hc | apply Q].
  - intros ->. rewrite Rplus_0_r. field. lra.
Qed.

Definition counts_ok (d : doc) : Prop := Forall (fun wc => 0 <= snd wc) d.
Definition beta_pos (beta : nat -> nat -> R) (d : doc) : Prop := forall k w, (k < K)%nat -> In w (map fst d) -> 0 < beta k w.

Lemma gamma_sum : forall alpha beta th d, sumn K (gamma_step K eps alpha beta th d) =
  sumn K alpha + Rsum (map (fun wc => snd wc * (sumn K (fun k => th k * beta k (fst wc)) / phinorm beta th (fst wc))) d).
Proof.
  intros alpha beta th d. unfold gamma_step. rewrite (sumn_plus K alpha). f_equal. transitivity (sumn K (fun k => Rsum (map (fun wc => th k * (snd wc / phinorm beta th (fst wc) * beta k (fst wc))) d))).
  - apply sumn_ext. intros k _. rewrite Rsum_scal. reflexivity.
  - rewrite sumn_swap. apply Rsum_ext. intros [w c] _. cbn [fst snd]. transitivity (sumn K (fun k => (c / phinorm beta th w) * (th k * beta k w))); [apply sumn_ext; intros; ring|]. rewrite sumn_scal. unfold Rdiv. ring.
Qed.
Lemma gamma_bounds : forall alpha beta th d, counts_ok d -> beta_pos beta d -> (forall k, 0 < th k) ->
  (forall k, (k < K)%nat -> alpha k <= gamma_step K eps alpha beta th d k) /\
  sumn K alpha <= sumn K (gamma_step K eps alpha beta th d) <= sumn K alpha + Rsum (map snd d) /\
  (eps = 0 -> sumn K (gamma_step K eps alpha beta th d) = sumn K alpha + Rsum (map snd d)).
Proof.
  intros alpha beta th d Hc Hb Ht. unfold counts_ok in Hc. rewrite Forall_forall in Hc.
  assert (Sh : forall wc, In wc d -> 0 <= snd wc * (sumn K (fun k => th k * beta k (fst wc)) / phinorm beta th (fst wc)) <= snd wc /\ (eps = 0 -> snd wc * (sumn K (fun k => th k * beta k (fst wc)) / phinorm beta th (fst wc)) = snd wc)).
  { intros wc Hwc. apply share; [exact Ht | | exact (Hc wc Hwc)]. intros k Hk. apply Hb; [exact Hk|]. apply in_map. exact Hwc. }
  split; [|rewrite gamma_sum; split; [split|]].
  - intros k Hk. unfold gamma_step. assert (0 <= th k * Rsum (map (fun wc => snd wc / phinorm beta th (fst wc) * beta k (fst wc)) d)); [|lra]. apply Rmult_le_pos; [apply Rlt_le; apply Ht|]. apply Rsum_nonneg. intros x Hx. apply in_map_iff in Hx. destruct Hx as (wc & <- & Hwc).
    assert (P : forall k0, (k0 < K)%nat -> 0 < beta k0 (fst wc)) by (intros k0 Hk0; apply Hb; [exact Hk0 | apply in_map; exact Hwc]). destruct (phi_pos beta th (fst wc) Ht P) as [_ P2]. apply Rmult_le_pos; [|apply Rlt_le; apply P; exact Hk]. unfold Rdiv. apply Rmult_le_pos; [exact (Hc wc Hwc) | apply Rlt_le; apply Rinv_0_lt_compat; exact P2].
  - assert (0 <= Rsum (map (fun wc => snd wc * (sumn K (fun k => th k * beta k (fst wc)) / phinorm beta th (fst wc))) d)); [|lra]. apply Rsum_nonneg. intros x Hx. apply in_map_iff in Hx. destruct Hx as (wc & <- & Hwc). apply (Sh wc Hwc).
  - apply Rplus_le_compat_l. apply Rsum_le. intros wc Hwc. apply (Sh wc Hwc).
  - intros E. f_equal. apply Rsum_ext. intros wc Hwc. apply (Sh wc Hwc). exact E.
Qed.
Lemma iterate_last : forall n t alpha beta d g, (0 < n)%nat -> exists g', fst (iterate K eps edir n t alpha beta d g (edir K g)) = gamma_step K eps alpha beta (edir K g') d.
Proof using Type.
  clear newton_eta newton_alpha edir_pos eps_nonneg draw V K_pos.
  induction n as [|n IH]; intros t alpha beta d g Hn; [lia|]. cbn [iterate]. destruct (Rlt_dec _ _); [exists g; reflexivity|]. destruct n as [|n]; [cbn [iterate fst]; exists g; reflexivity|]. apply IH. lia.
Qed.
Lemma iterate_theta : forall n t alpha beta d g, snd (iterate K eps edir n t alpha beta d g (edir K g)) = edir K (fst (iterate K eps edir n t alpha beta d g (edir K g))).
Proof. induction n as [|n IH]; intros t alpha beta d g; cbn [iterate]; [reflexivity|]. destruct (Rlt_dec _ _); [reflexivity|]. apply IH. Qed.

(** ** Statistics *)
Definition count_in (w : nat) (d : doc) : R := Rsum (map snd (filter (fun wc => (fst wc =? w)%nat) d)).
Lemma last_count_in : forall d w, NoDup (map fst d) -> match last_count d w with Some c => In (w, c) d /\ count_in w d = c | None => ~ In w (map fst d) /\ count_in w d = 0 end.
Proof.
  induction d as [|[w' c] d IH]; intros w H; cbn [last_count]; [split; [intros [] | reflexivity]|]. cbn [map fst] in H. inversion H as [|? ? H1 H2]; subst. specialize (IH w H2). unfold count_in in *. cbn [filter fst].
  destruct (last_count d w) as [c'|].
  - destruct IH as [I1 I2]. split; [right; exact I1|]. replace (w' =? w)%nat with false; [exact I2|]. assert (w' <> w); [|lia]. intros ->. apply H1. apply in_map_iff. exists (w, c'). auto.
  - destruct IH as [I1 I2]. destruct (Nat.eqb_spec w w') as [E|E].
    + subst w'. rewrite Nat.eqb_refl. split; [left; reflexivity|]. cbn [map snd]. rewrite Rsum_cons, I2. ring.
    + replace (w' =? w)%nat with false by lia. split; [|exact I2]. cbn [map fst In]. intros [X|X]; [congruence | contradiction].
Qed.
Lemma count_nonneg : forall w d, counts_ok d -> 0 <= count_in w d.
Proof.
  intros w d H. unfold count_in. apply Rsum_nonneg. intros x Hx. apply in_map_iff in Hx. destruct Hx as (wc & <- & Hwc). apply filter_In in Hwc. unfold counts_ok in H. rewrite Forall_forall in H. apply H. tauto.
Qed.
Definition total (w : nat) (chunk : list doc) : R := Rsum (map (count_in w) chunk).
Lemma infer_loop_stats : forall p chunk r acc gs, Forall (fun d => NoDup (map fst d) /\ counts_ok d /\ beta_pos (p_beta p) d) chunk -> infer_loop p r chunk acc = Ok gs -> forall w,
  exists x, sumn K (fun k => snd gs k w * p_beta p k w) = sumn K (fun k => acc k w * p_beta p k w) + x /\ 0 <= x <= total w chunk /\ (eps = 0 -> x = total w chunk).
Proof.
  intros p. induction chunk as [|d chunk IH]; intros r acc gs F E w; cbn [LdaTrain_Model.infer_loop] in E.
  - injection E as <-. exists 0. cbn. split; [ring|]. split; [lra | reflexivity].
  - destruct (in_vocab V d); [|discriminate E]. inversion F as [|? ? (F1 & F2 & F3) F4]; subst. set (th := snd (infer_doc p d (draw r))) in *.
    assert (Ht : forall k, 0 < th k). { intros k. unfold th. unfold LdaTrain_Model.infer_doc. rewrite iterate_theta. apply edir_pos. } clearbody th.
    destruct (infer_loop p (S r) chunk (scatter (p_beta p) th d acc)) as [gs'|e] eqn:E'; [|discriminate E]. cbn [rbind] in E. injection E as <-. cbn [snd fst]. destruct (IH _ _ _ F4 E' w) as (x & X1 & X2 & X3). rewrite X1. unfold total. cbn [map]. rewrite Rsum_cons. fold (total w chunk).
    assert (L := last_count_in d w F1). unfold LdaTrain_Model.scatter. destruct (last_count d w) as [c|].
    + destruct L as [L1 L2]. rewrite L2. assert (Hc : 0 <= c) by (unfold counts_ok in F2; rewrite Forall_forall in F2; exact (F2 _ L1)). assert (Hb : forall k, (k < K)%nat -> 0 < p_beta p k w) by (intros k Hk; apply F3; [exact Hk | apply in_map_iff; exists (w, c); auto]).
      destruct (share (p_beta p) th w c Ht Hb Hc) as [S1 S2]. set (y := c * (sumn K (fun k => th k * p_beta p k w) / phinorm (p_beta p) th w)) in *. exists (y + x). split; [|split; [lra | intros Z; rewrite (S2 Z), (X3 Z); reflexivity]].
      transitivity (sumn K (fun k => acc k w * p_beta p k w + (c / phinorm (p_beta p) th w) * (th k * p_beta p k w)) + x); [f_equal; apply sumn_ext; intros; unfold Rdiv; ring|]. rewrite sumn_plus, sumn_scal. unfold y, Rdiv. ring.
    + destruct L as [_ L2]. rewrite L2. exists x. split; [reflexivity|]. split; [lra | intros Z; rewrite (X3 Z); ring].
Qed.
Lemma infer_loop_nonneg : forall p chunk r acc gs, Forall (fun d => counts_ok d /\ beta_pos (p_beta p) d) chunk -> (forall k w, (k < K)%nat -> 0 <= acc k w) -> infer_loop p r chunk acc = Ok gs -> forall k w, (k < K)%nat -> 0 <= snd gs k w.
Proof.
  intros p. induction chunk as [|d chunk IH]; intros r acc gs F A E; cbn [LdaTrain_Model.infer_loop] in E; [injection E as <-; exact A|].
  destruct (in_vocab V d); [|discriminate E]. inversion F as [|? ? (F2 & F3) F4]; subst. set (th := snd (infer_doc p d (draw r))) in *.
  assert (Ht : forall k, 0 < th k). { intros k. unfold th. unfold LdaTrain_Model.infer_doc. rewrite iterate_theta. apply edir_pos. } clearbody th.
  destruct (infer_loop p (S r) chunk (scatter (p_beta p) th d acc)) as [gs'|e] eqn:E'; [|discriminate E]. cbn [rbind] in E. injection E as <-. cbn [snd fst]. apply (IH _ _ _ F4) with (2 := E'). intros k w Hk. unfold LdaTrain_Model.scatter. destruct (last_count d w) as [c|] eqn:L; [|apply A; exact Hk].
  assert (Lin : In (w, c) d). { clear - L. induction d as [|[w' c'] d IHd]; cbn [last_count] in L; [discriminate L|]. destruct (last_count d w) as [c2|]; [right; apply IHd; exact L|]. destruct (Nat.eqb_spec w w'); [|discriminate L]. injection L as ->. subst. left. reflexivity. }
  assert (Hc : 0 <= c) by (unfold counts_ok in F2; rewrite Forall_forall in F2; exact (F2 _ Lin)). assert (Hb : forall k, (k < K)%nat -> 0 < p_beta p k w) by (intros k0 Hk0; apply F3; [exact Hk0 | apply in_map_iff; exists (w, c); auto]).
  destruct (phi_pos (p_beta p) th w Ht Hb) as [_ P2]. assert (A0 := A k w Hk). assert (0 <= th k * (c / phinorm (p_beta p) th w)); [|lra]. apply Rmult_le_pos; [apply Rlt_le; apply Ht|]. unfold Rdiv. apply Rmult_le_pos; [exact Hc | apply Rlt_le; apply Rinv_0_lt_compat; exact P2].
Qed.
Lemma infer_loop_gammas : forall p chunk r acc gs, infer_loop p r chunk acc = Ok gs -> forall i d, nth_error chunk i = Some d -> nth_error (fst gs) i = Some (fst (infer_doc p d (draw (r + i)))).
Proof using Type.
  clear newton_eta newton_alpha edir_pos eps_nonneg K_pos.
  intros p. induction chunk as [|d chunk IH]; intros r acc gs E i d' H; [destruct i; discriminate H|]. cbn [LdaTrain_Model.infer_loop] in E. destruct (in_vocab V d); [|discriminate E].
  destruct (infer_loop p (S r) chunk _) as [gs'|e] eqn:E'; [|discriminate E]. cbn [rbind] in E. injection E as <-. cbn [fst]. destruct i as [|i]; cbn [nth_error] in *; [injection H as ->; rewrite Nat.add_0_r; reflexivity|]. replace (r + S i)%nat with (S r + i)%nat by lia. exact (IH _ _ _ E' i d' H).
Qed.

(** ** Signs *)
Lemma rho_range : forall x d, 1 <= x -> 0 <= d -> 0 < Rpower x (- d) <= 1.
Proof.
  intros x d Hx Hd. split; [apply exp_pos|]. unfold Rpower. rewrite <- exp_0. assert (L : 0 <= ln x). { destruct Hx as [Hx|<-]; [|rewrite ln_1; lra]. rewrite <- ln_1. apply Rlt_le. apply ln_increasing; lra. }
  assert (H : - d * ln x <= 0). { assert (0 <= d * ln x) by (apply Rmult_le_pos; assumption). lra. } destruct H as [H|H]; [apply Rlt_le; apply exp_increasing; exact H | rewrite H; lra].
Qed.
Lemma rho_decreasing : forall x y d, 0 < x -> x <= y -> 0 <= d -> Rpower y (- d) <= Rpower x (- d).
Proof.
  intros x y d Hx Hxy Hd. unfold Rpower. assert (L : ln x <= ln y). { destruct Hxy as [H|<-]; [apply Rlt_le; apply ln_increasing; lra | lra]. } assert (H : - d * ln y <= - d * ln x). { assert (0 <= d * (ln y - ln x)) by (apply Rmult_le_pos; lra). lra. }
  destruct H as [H|H]; [apply Rlt_le; apply exp_increasing; exact H | rewrite H; lra].
Qed.
Record Good (m : lda) : Prop := {
  G_stats : forall k w, (k < K)%nat -> 0 <= stats (m_state m) k w;
  G_prior : forall k w, (k < K)%nat -> 0 < m_state_eta m k w;
  G_beta : forall k w, (k < K)%nat -> 0 < m_beta m k w;
  G_alpha : forall k, (k < K)%nat -> 0 < m_alpha m k
}.
Lemma prior_pos : forall n prior d r, (forall i, (i < n)%nat -> 0 < prior i) -> forall i, (i < n)%nat -> 0 < update_dir_prior n prior d r i.
Proof.
  intros n prior d r H i Hi. unfold update_dir_prior. destruct (all_pos n _) eqn:A; [|apply H; exact Hi]. unfold all_pos in A. rewrite forallb_forall in A. assert (X : In i (seq 0 n)) by (apply in_seq; lia). specialize (A i X). cbv beta in A. destruct (Rlt_dec 0 (r * d i + prior i)); [assumption | discriminate A].
Qed.
Lemma stretch_nonneg : forall t d, 0 <= stretch t d.
Proof. intros t d. unfold stretch. destruct (_ || _)%bool; [lra|]. unfold Rdiv. destruct (Nat.eq_dec d 0) as [->|D]; [|apply Rmult_le_pos; [apply pos_INR | apply Rlt_le; apply Rinv_0_lt_compat; apply lt_0_INR; lia]]. cbn [INR]. rewrite Rinv_0. lra. Qed.
Lemma blend_nonneg : forall r s o t k w, 0 <= r <= 1 -> 0 <= stats s k w -> 0 <= stats o k w -> 0 <= stats (blend r s o t) k w.
Proof.
  intros r s o t k w Hr Hs Ho. cbn [blend stats]. assert (A := stretch_nonneg (match t with Some x => x | None => numdocs s end) (numdocs s)). assert (B := stretch_nonneg (match t with Some x => x | None => numdocs s end) (numdocs o)).
  apply Rplus_le_le_0_compat; repeat apply Rmult_le_pos; try assumption; lra.
Qed.
Lemma mstep_good : forall m pass r o x, Good m -> 0 <= r <= 1 -> (forall k w, (k < K)%nat -> 0 <= stats o k w) -> Good (do_mstep V edir newton_eta m pass r o x).
Proof.
  intros m pass r o x [G1 G2 G3 G4] Hr Ho. constructor; cbn [do_mstep m_state m_state_eta m_beta m_alpha].
  - intros k w Hk. apply blend_nonneg; [exact Hr | apply G1; exact Hk | apply Ho; exact Hk].
  - exact G2.
  - intros k w Hk. apply edir_pos.
  - exact G4.
Qed.
Lemma inference_nonneg : forall m chunk gs, Good m -> Forall counts_ok chunk -> inference (model_params m) (m_draws m) chunk = Ok gs -> forall k w, (k < K)%nat -> 0 <= snd gs k w.
Proof.
  intros m chunk gs [G1 G2 G3 G4] F E k w Hk. unfold LdaTrain_Model.inference in E. destruct (infer_loop _ _ _ _) as [gs'|e] eqn:E'; [|discriminate E]. cbn [rbind] in E. injection E as <-. cbn [snd]. apply Rmult_le_pos; [|apply Rlt_le; apply G3; exact Hk].
  apply (infer_loop_nonneg _ _ _ _ _) with (3 := E'); [|intros; lra | exact Hk]. eapply Forall_impl; [|exact F]. intros d Hd. split; [exact Hd|]. intros k0 w0 Hk0 _. apply G3. exact Hk0.
Qed.
Lemma chunk_good : forall a len pass s i chunk s', 1 <= a_offset a -> 0 <= a_decay a -> (0 < a_chunksize a)%nat -> Forall counts_ok chunk -> Good (g_model s) -> (forall k w, (k < K)%nat -> 0 <= stats (g_other s) k w) ->
  chunk_step K V eps edir draw newton_alpha newton_eta a len pass s (i, chunk) = Ok s' -> Good (g_model s') /\ (forall k w, (k < K)%nat -> 0 <= stats (g_other s') k w).
Proof.
  intros a len pass s i chunk s' Ho Hd Hn F G O E. unfold chunk_step in E. destruct (evaluate V a len (g_reallen s + length chunk) i (g_model s) chunk) as [m|e] eqn:Ev; [|discriminate E]. cbn [rbind] in E.
  assert (Gm : Good m). { unfold evaluate in Ev. destruct (_ && _)%bool; [destruct (forallb _ _); [|discriminate Ev]; injection Ev as <-; destruct G; constructor; assumption | injection Ev as <-; exact G]. }
  unfold do_estep in E. destruct (inference (model_params m) (m_draws m) chunk) as [gs|e] eqn:Ei; [|discriminate E]. cbn [rbind] in E. assert (Sn := inference_nonneg m chunk gs Gm F Ei).
  assert (O2 : forall k w, (k < K)%nat -> 0 <= stats (g_other s) k w + snd gs k w) by (intros k w Hk; specialize (O k w Hk); specialize (Sn k w Hk); lra).
  set (m2 := if m_auto_alpha (set_draws m (m_draws m + length chunk)) then _ else _) in E. assert (G2 : Good m2).
  { unfold m2. destruct Gm as [H1 H2 H3 H4]. destruct (m_auto_alpha _); constructor; try assumption. cbn [update_alpha set_alpha m_alpha set_draws]. apply prior_pos. exact H4. } clearbody m2.
  assert (Rr : 0 <= rho a m2 pass <= 1). { assert (X : 0 < rho a m2 pass <= 1); [|lra]. apply rho_range; [|exact Hd]. assert (P1 := pos_INR pass). assert (P2 := pos_INR (m_updates m2)). assert (P3 : 0 <= INR (m_updates m2) / INR (a_chunksize a)); [|lra]. unfold Rdiv. apply Rmult_le_pos; [exact P2 | apply Rlt_le; apply Rinv_0_lt_compat; apply lt_0_INR; exact Hn]. }
  destruct (_ && _)%bool; injection E as <-; cbn [g_model g_other].
  - split; [apply mstep_good; [exact G2 | exact Rr | exact O2]|]. intros k w _. cbn. lra.
  - split; [exact G2 | exact O2].
Qed.
Lemma update_good : forall a corpus len m m', 1 <= a_offset a -> 0 <= a_decay a -> (0 < a_chunksize a)%nat -> Forall counts_ok corpus -> Good m ->
  update K V eps edir draw newton_alpha newton_eta a corpus len m = Ok m' -> Good m'.
Proof.
  intros a corpus len m m' Ho Hd Hn F G E. unfold update in E. destruct (len =? 0)%nat; [injection E as <-; exact G|].
  assert (G0 : Good (add_docs m len)) by (destruct G; constructor; assumption). revert E. generalize (add_docs m len) G0. clear m G G0. generalize (seq 0 (a_passes a)). intros l. induction l as [|p l IH]; intros m G E; cbn [rfold] in E; [injection E as <-; exact G|].
  destruct (pass_step K V eps edir draw newton_alpha newton_eta a corpus len m p) as [m1|e] eqn:E1; [|discriminate E]. cbn [rbind] in E. apply (IH m1) with (2 := E). clear E IH.
  unfold pass_step in E1. destruct (chunkize_serial_exact corpus (a_chunksize a) Hn) as (C1 & _ & _). set (cs := chunkize_serial corpus (a_chunksize a)) in *. clearbody cs.
  destruct (rfold _ _ _) as [s|e] eqn:Ef; [|discriminate E1]. cbn [rbind] in E1.
  assert (Inv : Good (g_model s) /\ (forall k w, (k < K)%nat -> 0 <= stats (g_other s) k w)).
  { assert (Fc : Forall (fun nc => Forall counts_ok (snd nc)) (combine (seq 0 (length cs)) cs)).
    { rewrite Forall_forall. intros [i c] Hin. apply in_combine_r in Hin. rewrite Forall_forall in *. intros d Hd2. apply F. rewrite <- C1. apply in_concat. exists c. split; assumption. }
    revert Ef Fc. generalize (combine (seq 0 (length cs)) cs). intros ncs. assert (I0 : Good (g_model (Progress m fresh false 0)) /\ (forall k w, (k < K)%nat -> 0 <= stats (g_other (Progress m fresh false 0)) k w)) by (split; [exact G | intros k w _; cbn; lra]).
    revert I0. generalize (Progress m fresh false 0). clear - edir_pos eps_nonneg K_pos Ho Hd Hn. induction ncs as [|[i c] ncs IHn]; intros s0 [I1 I2] Ef Fc; cbn [rfold] in Ef; [injection Ef as <-; split; assumption|].
    destruct (chunk_step _ _ _ _ _ _ _ _ _ _ s0 (i, c)) as [s1|e] eqn:Es; [|discriminate Ef]. cbn [rbind] in Ef. inversion Fc as [|? ? Fc1 Fc2]; subst. apply (IHn s1) with (2 := Ef) (3 := Fc2). exact (chunk_good _ _ _ _ _ _ _ Ho Hd Hn Fc1 I1 I2 Es). }
  destruct Inv as [I1 I2]. destruct (negb _); [discriminate E1|]. destruct (g_dirty s); injection E1 as <-; [|exact I1]. apply mstep_good; [exact I1 | | exact I2].
  assert (X : 0 < rho a (g_model s) p <= 1); [|lra]. apply rho_range; [|exact Hd]. assert (P1 := pos_INR p). assert (P2 := pos_INR (m_updates (g_model s))). assert (P3 : 0 <= INR (m_updates (g_model s)) / INR (a_chunksize a)); [|lra]. unfold Rdiv. apply Rmult_le_pos; [exact P2 | apply Rlt_le; apply Rinv_0_lt_compat; apply lt_0_INR; exact Hn].
Qed.
End Lda.
