(** Documents and slices; fitting a chain; the loop of the training. *)
From Coq Require Import Reals Lra Psatz Lia.
From Verif Require Import Base MatReal_Model LdaTrain_Model LdaTrain_Proofs2 SoftCosine_Model Lsi_Linear LdaSeq_Model LdaSeq_Spec LdaSeq_Proofs LdaSeq_Proofs2 LdaSeq_Proofs3.
Local Open Scope R_scope.

Definition sum_nat (l : list nat) : nat := fold_right Nat.add 0%nat l.
Lemma slice_unique : forall ts d j, (sum_nat (firstn j ts) <= d < sum_nat (firstn (S j) ts))%nat -> slice_of ts d = j.
Proof.
  intros ts. induction ts as [|n ts IH]; intros d j H; [destruct j; cbn in H; lia|].
  cbn [slice_of]. destruct (Nat.ltb_spec d n).
  - destruct j as [|j]; [reflexivity|]. cbn in H. lia.
  - destruct j as [|j]; [cbn in H; lia|]. f_equal. apply IH. cbn [firstn sum_nat fold_right] in H. unfold sum_nat. cbn [firstn] in *. lia.
Qed.
Lemma slice_range : forall ts d, (d < sum_nat ts)%nat -> (sum_nat (firstn (slice_of ts d) ts) <= d < sum_nat (firstn (S (slice_of ts d)) ts))%nat /\ (slice_of ts d < length ts)%nat.
Proof.
  intros ts. induction ts as [|n ts IH]; intros d H; [cbn in H; lia|]. cbn [slice_of]. destruct (Nat.ltb_spec d n).
  - cbn. lia.
  - cbn [sum_nat fold_right] in H. destruct (IH (d - n)%nat) as [A B]; [unfold sum_nat; lia|]. cbn [length]. split; [|lia]. cbn [firstn sum_nat fold_right] in *. unfold sum_nat in *. lia.
Qed.
Definition next_time (ts : list nat) (time idx : nat) : nat := if (cumsum ts time <? idx)%nat then S time else time.
Lemma firstn_S_sum : forall ts j, (j < length ts)%nat -> sum_nat (firstn (S j) ts) = (sum_nat (firstn j ts) + nth j ts 0)%nat.
Proof.
  intros ts. induction ts as [|n ts IH]; intros j H; [cbn in H; lia|]. destruct j as [|j]; [cbn; lia|].
  cbn [length] in H. specialize (IH j ltac:(lia)). change (firstn (S (S j)) (n :: ts)) with (n :: firstn (S j) ts). change (firstn (S j) (n :: ts)) with (n :: firstn j ts).
  cbn [nth]. unfold sum_nat in *. cbn [fold_right]. lia.
Qed.
Lemma next_slice : forall ts d, Forall (fun n => 0 < n)%nat ts -> (d < sum_nat ts)%nat -> next_time ts (slice_of ts (d - 1)) (S d) = slice_of ts d.
Proof.
  intros ts d P H. unfold next_time, cumsum. destruct (slice_range ts (d - 1) ltac:(lia)) as [A B]. set (j := slice_of ts (d - 1)) in *.
  fold (sum_nat (firstn (S j) ts)). destruct (Nat.ltb_spec (sum_nat (firstn (S j) ts)) (S d)) as [L|L].
  - symmetry. apply slice_unique. split; [lia|].
    assert (J : (S j < length ts)%nat).
    { destruct (Nat.lt_ge_cases (S j) (length ts)) as [G|G]; [exact G|]. rewrite firstn_all2 in L, A by lia. unfold sum_nat in *. destruct d; [|lia].
      assert (j = 0)%nat by (unfold j; destruct ts as [|n ts']; [reflexivity|]; cbn [slice_of]; cbn in H; inversion P; subst; destruct (0 - 1 <? n)%nat eqn:E; [reflexivity|]; apply Nat.ltb_ge in E; lia).
      destruct ts as [|n [|n' ts']]; cbn in *; lia. }
    rewrite (firstn_S_sum ts (S j) J). assert (0 < nth (S j) ts 0)%nat by (rewrite Forall_forall in P; apply P, nth_In; lia). lia.
  - destruct d as [|d]; [reflexivity|]. symmetry. apply slice_unique. replace (S d - 1)%nat with d in A by lia. lia.
Qed.

Section Infer.
Variables psi lgam : R -> R.
Variables K W : nat.
Variable alphas : row.
Hypothesis HK : (0 < K)%nat.
Variable chains : list sslm.
Variable ts : list nat.
Variable mi : nat.

Lemma make_slice_shape : forall time l, make_slice K W alphas chains time = Ok l -> l_K l = K /\ l_W l = W /\ l_alpha l = alphas /\ Forall (fun c => (time < s_T c)%nat) chains.
Proof.
  intros time l H. unfold make_slice in H. destruct (forallb _ chains) eqn:E; [|discriminate]. cbn [negb] in H. injection H as <-. repeat split.
  apply Forall_forall. intros c Hc. rewrite forallb_forall in E. apply Nat.ltb_lt. now apply E.
Qed.
(** Which counts are in which slice *)
Definition mass (w t : nat) (times : list nat) (docs : list doc) : R := Rsum (map (fun td => if (fst td =? t)%nat then count_in w (snd td) else 0) (combine times docs)).
Record inv (docs : list doc) (st : infer_state) : Prop := mkInv {
  v_index : i_index st = length docs;
  v_times : length (i_times st) = length docs;
  v_last : i_time st = last (i_times st) 0%nat;
  v_step : forall d, (S d < length docs)%nat -> nth (S d) (i_times st) 0%nat = next_time ts (nth d (i_times st) 0%nat) (S d);
  v_first : nth 0 (i_times st) 0%nat = 0%nat;
  v_lda : make_slice K W alphas chains (i_time st) = Ok (i_lda st);
  v_mass : forall w t, sumn K (fun k => i_suff st k w t) = mass w t (i_times st) docs;
  v_docs : exists lhs, length lhs = length docs /\ i_bound st = Rsum lhs /\
    forall n, (n < length docs)%nat -> exists l p p' it, make_slice K W alphas chains (nth n (i_times st) 0%nat) = Ok l /\ fit_post psi lgam l (nth n docs []) mi p = Ok (p', nth n lhs 0, it) /\ i_gammas st n = p_gamma p' }.
Lemma last_nth : forall (l : list nat) d, l <> [] -> last l d = nth (length l - 1) l d.
Proof.
  intros l. induction l as [|x l IH]; intros d H; [congruence|]. destruct l as [|y l]; [reflexivity|].
  change (last (x :: y :: l) d) with (last (y :: l) d). rewrite IH by discriminate. cbn [length]. replace (S (S (length l)) - 1)%nat with (S (S (length l) - 1)) by lia. reflexivity.
Qed.
Lemma combine_snoc : forall A B (l : list A) (l' : list B) x y, length l = length l' -> combine (l ++ [x]) (l' ++ [y]) = combine l l' ++ [(x, y)].
Proof. intros A B l. induction l as [|a l IH]; intros [|b l'] x y H; try discriminate; [reflexivity|]. cbn. f_equal. apply IH. now injection H. Qed.
Lemma infer_doc_inv : forall docs st d st', inv docs st -> infer_doc psi lgam K W alphas chains ts mi st d = Ok st' -> inv (docs ++ [d]) st' /\ Forall (fun wc => (fst wc < W)%nat) d.
Proof.
  intros docs st d st' I H. unfold infer_doc in H.
  destruct (if (cumsum ts (i_time st) <? i_index st)%nat then _ else _) as [tl|e] eqn:Etl; [|discriminate]. cbn [rbind] in H.
  assert (TL : fst tl = next_time ts (i_time st) (i_index st) /\ make_slice K W alphas chains (fst tl) = Ok (snd tl)).
  { unfold next_time. destruct (cumsum ts (i_time st) <? i_index st)%nat.
    - destruct (make_slice K W alphas chains (S (i_time st))) as [l|e] eqn:El; [|discriminate]. cbn [rbind] in Etl. injection Etl as <-. auto.
    - injection Etl as <-. split; [reflexivity|]. apply (v_lda docs st I). }
  destruct tl as [time l]. cbn [fst snd] in *. destruct TL as [T1 T0]. destruct (make_slice_shape _ _ T0) as [T2 [T3 [T4 _]]].
  destruct (fit_post psi lgam l d mi (i_post st)) as [[[p lh] it]|e] eqn:Ef; [|discriminate]. cbn [rbind] in H. injection H as <-.
  assert (HKl : (0 < l_K l)%nat) by (rewrite T2; exact HK).
  destruct (fit_post_ok psi lgam l HKl d mi (i_post st) p lh it Ef) as [FW [RD _]]. rewrite T3 in FW. split; [|exact FW].
  pose proof (rounded_rows psi l HKl d p RD) as RO.
  assert (RA : forall a b, Rsum (a ++ b) = Rsum a + Rsum b) by (intros a b; unfold Rsum; induction a as [|x a IH]; cbn; [ring | rewrite IH; ring]).
  destruct I as [I1 I2 I3 I4 I5 I6 I7 I8]. constructor; cbn [i_index i_times i_time i_lda i_suff i_gammas i_bound].
  - rewrite app_length, I1. cbn. lia.
  - rewrite !app_length, I2. reflexivity.
  - now rewrite last_last.
  - intros k Hk. rewrite app_length in Hk. cbn in Hk. destruct (Nat.eq_dec (S k) (length docs)) as [E|E].
    + rewrite app_nth2 by lia. rewrite app_nth1 by lia. rewrite E, I2, Nat.sub_diag. cbn [nth]. rewrite T1, I3, I1.
      rewrite last_nth by (intros N; rewrite N in I2; cbn in I2; lia). rewrite I2. f_equal. f_equal. lia.
    + rewrite !app_nth1 by lia. apply I4. lia.
  - destruct (i_times st) as [|t0 tt] eqn:Et; [|exact I5]. cbn. cbn in I3, I2. rewrite T1, I3, I1, <- I2. unfold next_time. now rewrite (proj2 (Nat.ltb_ge _ _)) by lia.
  - exact T0.
  - intros w t. pose proof (seq_ss_mass l time d p (i_suff st) w t RO) as SM. rewrite T2 in SM. rewrite SM, I7. unfold mass. rewrite combine_snoc by exact I2. rewrite map_app.
    rewrite RA. cbn [map fst snd]. rewrite (Nat.eqb_sym t time). unfold Rsum at 3. cbn [fold_right]. ring.
  - destruct I8 as [lhs [L1 [L2 L3]]]. exists (lhs ++ [lh]). split; [rewrite !app_length; cbn; lia|]. split; [rewrite RA, L2; cbn; ring|].
    intros n Hn. rewrite app_length in Hn. cbn in Hn. unfold put. rewrite I1. destruct (n =? length docs)%nat eqn:E.
    + apply Nat.eqb_eq in E. subst n. rewrite !app_nth2 by lia. rewrite I2, L1, !Nat.sub_diag. cbn [nth]. exists l, (i_post st), p, it. auto.
    + apply Nat.eqb_neq in E. rewrite !app_nth1 by lia. apply L3. lia.
Qed.
Lemma infer_fold_inv : forall corpus docs st st', inv docs st -> rfold (infer_doc psi lgam K W alphas chains ts mi) corpus st = Ok st' -> inv (docs ++ corpus) st' /\ Forall (Forall (fun wc => (fst wc < W)%nat)) corpus.
Proof.
  intros corpus. induction corpus as [|d corpus IH]; intros docs st st' I H; cbn [rfold] in H.
  - injection H as <-. rewrite app_nil_r. auto.
  - destruct (infer_doc psi lgam K W alphas chains ts mi st d) as [st1|e] eqn:E; [|discriminate]. cbn [rbind] in H. destruct (infer_doc_inv docs st d st1 I E) as [I1 F1].
    destruct (IH (docs ++ [d]) st1 st' I1 H) as [I2 F2]. rewrite <- app_assoc in I2. auto.
Qed.
Lemma infer_inv : forall corpus st, infer psi lgam K W alphas chains ts mi corpus = Ok st -> inv corpus st /\ Forall (Forall (fun wc => (fst wc < W)%nat)) corpus.
Proof.
  intros corpus st H. unfold infer in H. destruct (make_slice K W alphas chains 0) as [l|e] eqn:E; [|discriminate]. cbn [rbind] in H.
  destruct (make_slice_shape _ _ E) as [A [B [C _]]]. refine (infer_fold_inv corpus [] _ st _ H).
  constructor; cbn; auto; try (intros; lia).
  - intros w t. rewrite sumn_zero. reflexivity.
  - exists []. repeat split. cbn. intros; lia.
Qed.
Lemma times_are : forall corpus st, infer psi lgam K W alphas chains ts mi corpus = Ok st -> Forall (fun n => 0 < n)%nat ts -> (length corpus <= S (sum_nat ts))%nat ->
  i_times st = map (fun d => slice_of ts (d - 1)) (seq 0 (length corpus)).
Proof.
  intros corpus st H P L. destruct (infer_inv corpus st H) as [[I1 I2 I3 I4 I5 _ _ _] _].
  apply (nth_ext _ _ 0%nat (slice_of ts (0 - 1))); [now rewrite map_length, seq_length|]. intros n Hn. rewrite I2 in Hn.
  rewrite (map_nth (fun d => slice_of ts (d - 1))). rewrite seq_nth by exact Hn. cbn [Nat.add].
  induction n as [|n IH].
  - rewrite I5. destruct ts as [|n0 ts']; [reflexivity|]. cbn [slice_of]. inversion P; subst. destruct (0 - 1 <? n0)%nat eqn:E; [reflexivity|]. apply Nat.ltb_ge in E. lia.
  - rewrite I4 by exact Hn. rewrite IH by lia. replace (S n - 1)%nat with n by lia. apply next_slice; [exact P | lia].
Qed.
(** Nothing else can go wrong *)
Lemma fit_post_total : forall l d p, Forall (fun wc => (fst wc < l_W l)%nat) d -> exists r, fit_post psi lgam l d mi p = Ok r.
Proof.
  intros l d p F. unfold fit_post. assert (E : forallb (fun wc => (fst wc <? l_W l)%nat) d = true).
  { apply forallb_forall. intros wc H. rewrite Forall_forall in F. apply Nat.ltb_lt. now apply F. }
  rewrite E. cbn [negb]. eauto.
Qed.
Lemma make_slice_total : forall time, Forall (fun c => (time < s_T c)%nat) chains -> exists l, make_slice K W alphas chains time = Ok l.
Proof.
  intros time F. unfold make_slice. assert (E : forallb (fun c => (time <? s_T c)%nat) chains = true).
  { apply forallb_forall. intros c H. rewrite Forall_forall in F. apply Nat.ltb_lt. now apply F. }
  rewrite E. cbn [negb]. eauto.
Qed.
Lemma infer_total : forall (corpus : list doc), ts <> [] -> Forall (fun n => 0 < n)%nat ts -> (length corpus <= S (sum_nat ts))%nat -> Forall (fun c => s_T c = length ts) chains ->
  Forall (Forall (fun wc => (fst wc < W)%nat)) corpus -> exists st, infer psi lgam K W alphas chains ts mi corpus = Ok st.
Proof.
  intros corpus NE P L C FW. assert (MS : forall time, (time < length ts)%nat -> exists l, make_slice K W alphas chains time = Ok l).
  { intros time Ht. apply make_slice_total. apply Forall_forall. intros c Hc. rewrite Forall_forall in C. now rewrite (C c Hc). }
  assert (LT : (0 < length ts)%nat) by (destruct ts; [congruence | cbn; lia]).
  unfold infer. destruct (MS 0%nat LT) as [l El]. rewrite El. cbn [rbind].
  match goal with |- exists st, rfold _ _ ?s = _ => set (st0 := s) end.
  assert (G : forall (rest docs : list doc) st, (length docs + length rest <= S (sum_nat ts))%nat -> Forall (Forall (fun wc => (fst wc < W)%nat)) rest ->
     i_index st = length docs -> i_time st = slice_of ts (length docs - 2) -> l_W (i_lda st) = W -> exists st', rfold (infer_doc psi lgam K W alphas chains ts mi) rest st = Ok st').
  { intros rest. induction rest as [|d rest IH]; intros docs st Lr Fr Hi Ht Hl; [eexists; reflexivity|]. cbn [rfold length] in *.
    assert (NT : next_time ts (i_time st) (i_index st) = slice_of ts (length docs - 1)).
    { rewrite Ht, Hi. destruct (length docs) as [|n] eqn:E; [|].
      - unfold next_time. now rewrite (proj2 (Nat.ltb_ge _ _)) by lia.
      - replace (S n - 2)%nat with (n - 1)%nat by lia. replace (S n - 1)%nat with n by lia. apply next_slice; [exact P | lia]. }
    assert (SL : (slice_of ts (length docs - 1) < length ts)%nat) by (apply slice_range; destruct ts as [|n0 ts']; [congruence|]; inversion P; subst; cbn [sum_nat fold_right] in *; unfold sum_nat in *; cbn [fold_right] in *; lia).
    pose proof (Forall_inv Fr) as Fd. pose proof (Forall_inv_tail Fr) as Fr'.
    assert (ST : exists st1, infer_doc psi lgam K W alphas chains ts mi st d = Ok st1 /\ i_index st1 = S (i_index st) /\ i_time st1 = slice_of ts (length docs - 1) /\ l_W (i_lda st1) = W).
    { unfold infer_doc. unfold next_time in NT. destruct (cumsum ts (i_time st) <? i_index st)%nat.
      - destruct (MS (S (i_time st)) ltac:(lia)) as [l1 E1]. rewrite E1. cbn [rbind fst snd]. destruct (make_slice_shape _ _ E1) as [_ [B _]].
        destruct (fit_post_total l1 d (i_post st) ltac:(now rewrite B)) as [[[p lh] it] Ef]. rewrite Ef. cbn [rbind]. eexists. split; [reflexivity|]. cbn. auto.
      - cbn [rbind fst snd]. destruct (fit_post_total (i_lda st) d (i_post st) ltac:(now rewrite Hl)) as [[[p lh] it] Ef]. rewrite Ef. cbn [rbind]. eexists. split; [reflexivity|]. cbn. auto. }
    destruct ST as [st1 [E1 [E2 [E3 E4]]]]. rewrite E1. cbn [rbind]. apply (IH (docs ++ [d])); [rewrite app_length; cbn; lia | exact Fr' | rewrite app_length; cbn; lia | rewrite E3, app_length; cbn; f_equal; lia | exact E4]. }
  apply (G corpus [] st0); [cbn; lia | exact FW | reflexivity | | destruct (make_slice_shape _ _ El) as [_ [B _]]; exact B].
  cbn. destruct ts as [|n0 ts']; [reflexivity|]. inversion P; subst. cbn [slice_of]. destruct (0 <? n0)%nat eqn:E; [reflexivity | apply Nat.ltb_ge in E; lia].
Qed.
End Infer.
