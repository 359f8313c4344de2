(** Theorems about the perplexity, the priors and the differences of topics. *)
From Coq Require Import Reals Lra Psatz Lia Permutation Sorting.Sorted.
From Verif Require Import Base Str MatReal_Model LdaTrain_Model LdaTrain_Proofs2 LdaTrain_Properties Lsi_Model Lsi_Linear LdaBound_Model LdaBound_Spec LdaBound_Proofs LdaBound_Properties.
Local Open Scope R_scope.

(** ** C117: the perplexity *)
(** All occurrences of words in the chunk *)
Definition occurrences_all (chunk : list doc) : R := Rsum (map snd (concat chunk)).
Lemma words_all : forall chunk, corpus_words chunk = occurrences_all chunk.
Proof. intros chunk. unfold corpus_words, occurrences_all. induction chunk as [|d c IH]; [reflexivity|]. cbn [map concat]. rewrite map_app, MatReal_Proofs.Rsum_app, <- IH. reflexivity. Qed.
(** The bound per word: the documents count as they are, the topics count less when the chunk stands for a larger corpus. *)
Theorem per_word_bound : forall K V psi lgam eps draw m eta chunk total gammas, flat_prior eta -> chunk <> [] -> (match total with Some t => (0 < t)%nat | None => True end) -> occurrences_all chunk <> 0 ->
  forallb (in_vocab V) chunk = true -> infer_each K V psi eps draw m chunk = Ok gammas -> length gammas = length chunk ->
  let lam := lambda (m_state_eta m) (m_state m) in
  let t := INR (match total with Some t => t | None => length chunk end) / INR (length chunk) in
  log_perplexity K V psi lgam eps draw m eta chunk total =
    Ok ((Rsum (map (fun dg => doc_bound psi lgam K 0 (m_alpha m) (fun k => elog psi V (lam k)) (fst dg) (snd dg)) (combine chunk gammas)) + topics_part psi lgam K V (eta_at eta) lam / t) / occurrences_all chunk).
Proof.
  intros K V psi lgam eps draw m eta chunk total gammas HF HC HT HW HV HI HL lam t. rewrite <- words_all in *. unfold log_perplexity. assert (NC : length chunk <> 0%nat) by (destruct chunk; cbn; congruence). apply Nat.eqb_neq in NC. rewrite NC. apply Nat.eqb_neq in NC.
  unfold bound_inferred. rewrite HI. cbn [rbind]. pose proof (score_is_bound psi lgam K V (m_alpha m) eta lam chunk gammas HF HL HV) as SB. unfold bound in *. rewrite HL, Nat.ltb_irrefl, HV in *. cbn [rbind]. injection SB as SB. unfold score_all in *. fold lam. unfold corpus_bound in SB. f_equal.
  set (D := Rsum (map (fun dg => doc_score K psi lgam (m_alpha m) (fun k => dir_exp psi V (lam k)) (fst dg) (snd dg)) (combine chunk gammas))) in *.
  assert (ED : D = Rsum (map (fun dg => doc_bound psi lgam K 0 (m_alpha m) (fun k => elog psi V (lam k)) (fst dg) (snd dg)) (combine chunk gammas))) by (apply rs_ext; intros; apply score_doc).
  rewrite <- ED in *. assert (ET : topic_score K V psi lgam eta lam = topics_part psi lgam K V (eta_at eta) lam) by lra. rewrite ET.
  assert (TP : 0 < t). { apply Rdiv_lt_0_compat; [|apply lt_0_INR; lia]. destruct total as [n|]; [now apply lt_0_INR | apply lt_0_INR; lia]. }
  replace (1 * INR (match total with Some t => t | None => length chunk end) / INR (length chunk)) with t by (unfold t; unfold Rdiv; ring). clearbody t. field. split; first [exact HW | intros X; lra].
Qed.
Print Assumptions per_word_bound.
Theorem no_documents : forall K V psi lgam eps draw m eta total, log_perplexity K V psi lgam eps draw m eta [] total = Err ZeroDivErr.
Proof. reflexivity. Qed.
Print Assumptions no_documents.
(** The bound is made of natural logarithms, the reported perplexity is a power of two: two words that both have probability 1/2 have perplexity 2. *)
Theorem perplexity_base_refuted : exists b, b = ln (1 / 2) /\ exp (- b) = 2 /\ perplexity b < 2.
Proof.
  exists (ln (1 / 2)). split; [reflexivity|]. assert (E1 : - ln (1 / 2) = ln 2) by (unfold Rdiv; rewrite ln_mult, ln_1, ln_Rinv; lra). rewrite E1. split; [apply exp_ln; lra|]. unfold perplexity. rewrite E1.
  apply Rlt_le_trans with (Rpower 2 1); [|rewrite Rpower_1; lra]. unfold Rpower. apply exp_increasing. assert (L2 : 0 < ln 2) by (rewrite <- ln_1; apply ln_increasing; lra). apply Rmult_lt_compat_r; [exact L2|].
  apply exp_lt_inv. rewrite exp_ln by lra. pose proof (exp_ineq1 1 ltac:(lra)). lra.
Qed.
Print Assumptions perplexity_base_refuted.
(** It is e to the power of the bound in bits, so all comparisons keep their direction *)
Theorem perplexity_decreasing : forall a b, a < b -> perplexity b < perplexity a.
Proof. intros a b H. unfold perplexity. apply Rpower_lt; lra. Qed.
Print Assumptions perplexity_decreasing.

(** ** C118: priors *)
Lemma ND_app : forall {A} (l l' : list A), NoDup l -> NoDup l' -> (forall x, In x l -> In x l' -> False) -> NoDup (l ++ l').
Proof. intros A l l' H1 H2 H3. induction H1 as [|x l N H1 IH]; [exact H2|]. cbn. constructor; [|apply IH; intros y Hy; apply H3; now right]. intros I. apply in_app_or in I. destruct I as [I|I]; [contradiction | exact (H3 x (or_introl eq_refl) I)]. Qed.

Lemma Rsum_const : forall {A} c (l : list A), Rsum (map (fun _ => c) l) = INR (length l) * c.
Proof. intros A c l. induction l as [|x l IH]; [cbn; lra|]. cbn [map length]. rewrite S_INR. change (c + Rsum (map (fun _ => c) l) = (INR (length l) + 1) * c). rewrite IH. ring. Qed.
Theorem symmetric_prior : forall K shape p, (0 < K)%nat -> In p [ANone; AStr s_symmetric; AStr s_auto] ->
  init_dir_prior K shape p = Ok (Arr1 (repeat (1 / INR K) shape), match p with AStr s => eqb s s_auto | _ => false end) /\ 0 < 1 / INR K /\ Rsum (repeat (1 / INR K) shape) = INR shape / INR K.
Proof.
  intros K shape p HK Hp. pose proof (lt_0_INR K HK) as PK.
  assert (ER : map (fun _ : nat => 1 / INR K) (seq 0 shape) = repeat (1 / INR K) shape) by (generalize 0%nat; induction shape as [|n IH]; intros s; [reflexivity | cbn; f_equal; apply IH]).
  split; [|split; [apply Rdiv_lt_0_compat; lra | rewrite <- ER, Rsum_const, seq_length; field; lra]]. rewrite <- ER. destruct Hp as [<-|[<-|[<-|[]]]]; reflexivity.
Qed.
Print Assumptions symmetric_prior.
(** The asymmetric prior is positive, decreases and sums to one. *)
Theorem asymmetric_prior : forall K shape, (0 < shape)%nat -> exists l, init_dir_prior K shape (AStr s_asymmetric) = Ok (Arr1 l, false) /\ length l = shape /\ Rsum l = 1 /\ (forall x, In x l -> 0 < x) /\ StronglySorted Rgt l /\
  (forall i, (i < shape)%nat -> nth i l 0 / nth 0 l 0 = sqrt (INR shape) / (INR i + sqrt (INR shape))).
Proof.
  intros K shape Hs. pose proof (lt_0_INR shape Hs) as PS. pose proof (sqrt_lt_R0 _ PS) as PQ. set (q := sqrt (INR shape)) in *. set (raw := fun i => 1 / (INR i + q)). set (tot := Rsum (map raw (seq 0 shape))).
  assert (PR : forall i, 0 < raw i) by (intros i; unfold raw; apply Rdiv_lt_0_compat; [lra|]; pose proof (pos_INR i); lra).
  assert (PT : 0 < tot). { unfold tot. destruct shape as [|n]; [lia|]. cbn [seq map]. change (0 < raw 0%nat + Rsum (map raw (seq 1 n))). pose proof (PR 0%nat). assert (0 <= Rsum (map raw (seq 1 n))); [|lra]. apply MatReal_Proofs.Rsum_nonneg. intros x Hx. apply in_map_iff in Hx. destruct Hx as [i [<- _]]. apply Rlt_le, PR. }
  exists (map (fun x => x / tot) (map raw (seq 0 shape))). split; [reflexivity|]. split; [now rewrite !map_length, seq_length|]. rewrite map_map. split; [|split; [|split]].
  - rewrite (rs_ext _ (fun i => / tot * raw i)) by (intros; unfold Rdiv; ring). rewrite rs_scal. fold tot. field. lra.
  - intros x Hx. apply in_map_iff in Hx. destruct Hx as [i [<- _]]. apply Rdiv_lt_0_compat; [apply PR | exact PT].
  - assert (G : forall s, StronglySorted Rgt (map (fun i => raw i / tot) (seq s shape))); [|apply G]. clearbody tot. clearbody q. clear - PQ PT. induction shape as [|n IH]; intros s; cbn [seq map]; [constructor|]. constructor; [apply IH|]. rewrite Forall_forall. intros x Hx. apply in_map_iff in Hx. destruct Hx as [i [<- Hi]]. apply in_seq in Hi.
    unfold Rdiv. apply Rmult_gt_compat_r; [now apply Rinv_0_lt_compat|]. unfold raw, Rdiv. rewrite !Rmult_1_l. apply Rinv_lt_contravar; [pose proof (pos_INR s); pose proof (pos_INR i); apply Rmult_lt_0_compat; lra|]. assert (INR s < INR i) by (apply lt_INR; lia). lra.
  - intros i Hi. assert (N : forall j, (j < shape)%nat -> nth j (map (fun i => raw i / tot) (seq 0 shape)) 0 = raw j / tot).
    { intros j Hj. rewrite (nth_indep _ 0 (raw 0%nat / tot)) by (rewrite map_length, seq_length; exact Hj). rewrite (map_nth (fun i => raw i / tot)), seq_nth by exact Hj. reflexivity. }
    rewrite !N by assumption. unfold raw. cbn [INR]. pose proof (pos_INR i). field. repeat split; lra.
Qed.
Print Assumptions asymmetric_prior.
Theorem prior_fails : forall K shape p, init_dir_prior K shape p = Err ValueError <-> (p = AOther \/ exists s, p = AStr s /\ s <> s_symmetric /\ s <> s_asymmetric /\ s <> s_auto).
Proof.
  intros K shape p. split.
  - destruct p as [|s|l|l|r|]; cbn [init_dir_prior]; try discriminate; [|intros _; now left]. intros H. right. exists s. destruct (eqb s s_symmetric) eqn:E1; [discriminate|]. destruct (eqb s s_asymmetric) eqn:E2; [discriminate|]. destruct (eqb s s_auto) eqn:E3; [discriminate|].
    split; [reflexivity|]. repeat split; intros ->; [rewrite eqb_refl in E1 | rewrite eqb_refl in E2 | rewrite eqb_refl in E3]; discriminate.
  - intros [->|[s [-> [N1 [N2 N3]]]]]; [reflexivity|]. cbn [init_dir_prior]. rewrite (proj2 (eqb_false _ _) N1), (proj2 (eqb_false _ _) N2), (proj2 (eqb_false _ _) N3). reflexivity.
Qed.
Print Assumptions prior_fails.
(** A model has one number per topic in alpha, and one per word (or a row of them per topic) in eta; the topics cannot have an 'asymmetric' prior. *)
Theorem priors_shapes : forall K V a e al auto eta auto', new_priors K V a e = Ok (al, auto, (eta, auto')) ->
  length al = K /\ (auto = true <-> a = AStr s_auto) /\ (auto' = true <-> e = AStr s_auto) /\ e <> AStr s_asymmetric /\
  match eta with Arr1 l => length l = V | Arr2 l => length l = K /\ forall r, In r l -> length r = V end.
Proof.
  intros K V a e al auto eta auto' H. unfold new_priors in H. destruct (init_dir_prior K K a) as [[a1 f1]|] eqn:EA; [|discriminate]. cbn [rbind fst snd] in H. destruct a1 as [al'|]; [|discriminate]. destruct (Nat.eqb_spec (length al') K) as [LA|]; [|discriminate]. cbn [negb] in H.
  assert (AU : forall n p r f, init_dir_prior K n p = Ok (r, f) -> (f = true <-> p = AStr s_auto)).
  { clear. intros n p r f H. destruct p as [|s|l|l|r0|]; cbn [init_dir_prior] in H; try (injection H as <- <-; split; discriminate); try discriminate.
    destruct (eqb s s_symmetric) eqn:E1; [injection H as <- <-; apply (proj1 (eqb_true _ _)) in E1; subst; split; [discriminate | intros X; inversion X]|]. destruct (eqb s s_asymmetric) eqn:E2; [injection H as <- <-; apply (proj1 (eqb_true _ _)) in E2; subst; split; [discriminate | intros X; inversion X]|]. destruct (eqb s s_auto) eqn:E3; [|discriminate]. injection H as <- <-. apply (proj1 (eqb_true _ _)) in E3. subst. split; reflexivity. }
  destruct (match e with AStr s => eqb s s_asymmetric | _ => false end) eqn:EE; [discriminate|]. destruct (init_dir_prior K V e) as [[e1 f2]|] eqn:EB; [|discriminate]. cbn [rbind fst snd] in H.
  destruct (match e1 with Arr1 l => Nat.eqb (length l) V | Arr2 l => Nat.eqb (length l) K && forallb (fun r => Nat.eqb (length r) V) l end) eqn:EK; [|discriminate]. injection H as <- <- <- <-.
  split; [exact LA|]. split; [exact (AU _ _ _ _ EA)|]. split; [exact (AU _ _ _ _ EB)|]. split; [intros ->; rewrite eqb_refl in EE; discriminate|].
  destruct e1 as [l|l]; [now apply Nat.eqb_eq in EK|]. apply andb_true_iff in EK. destruct EK as [E1 E2]. apply Nat.eqb_eq in E1. split; [exact E1|]. intros r Hr. rewrite forallb_forall in E2. now apply Nat.eqb_eq, E2.
Qed.
Print Assumptions priors_shapes.
(** Nothing requires the numbers to be positive *)
Theorem positive_prior_refuted : exists K V a e al auto eta auto', new_priors K V a e = Ok (al, auto, (eta, auto')) /\ exists x, In x al /\ x < 0.
Proof. exists 1%nat, 1%nat, (AReal (-1)), ANone, [-1], false, (Arr1 [1 / INR 1]), false. split; [reflexivity|]. exists (-1). split; [now left | lra]. Qed.
Print Assumptions positive_prior_refuted.
Example asymmetric_x : exists a b, init_dir_prior 7 4 (AStr s_asymmetric) = Ok (Arr1 [a; b; nth 2 (match init_dir_prior 7 4 (AStr s_asymmetric) with Ok (Arr1 l, _) => l | _ => [] end) 0; nth 3 (match init_dir_prior 7 4 (AStr s_asymmetric) with Ok (Arr1 l, _) => l | _ => [] end) 0], false) /\ b / a = 2 / 3.
Proof.
  destruct (asymmetric_prior 7 4 ltac:(lia)) as [l [E [L [_ [_ [_ N]]]]]]. rewrite E. destruct l as [|a [|b [|c [|d [|]]]]]; try discriminate L. exists a, b. split; [reflexivity|]. specialize (N 1%nat ltac:(lia)). cbn [nth] in N. rewrite N. replace (INR 4) with (2 * 2) by (cbn; ring). rewrite sqrt_square by lra. cbn. field.
Qed.

(** ** C119: differences of topics *)
Theorem diff_cells : forall t1 t2 dist z, diff true true t1 t2 dist false false = Ok z -> NoDup (map fst z) /\ forall i j x, In ((i, j), x) z <-> ((i < t1)%nat /\ (j < t2)%nat /\ x = dist i j).
Proof.
  intros t1 t2 dist z H. injection H as <-. rewrite map_map. cbn [fst]. rewrite map_id. split.
  - unfold cells. assert (G : forall s n, NoDup (flat_map (fun i => map (fun j => (i, j)) (seq 0 t2)) (seq s n))); [|apply G]. intros s n. revert s. induction n as [|n IH]; intros s; cbn [seq flat_map]; [constructor|]. apply ND_app; [|apply IH|].
    + apply FinFun.Injective_map_NoDup; [intros a b E; now injection E | apply seq_NoDup].
    + intros [a b] I1 I2. apply in_map_iff in I1. destruct I1 as [j [E1 _]]. injection E1 as <- _. apply in_flat_map in I2. destruct I2 as [i [I2 I3]]. apply in_seq in I2. apply in_map_iff in I3. destruct I3 as [j' [E3 _]]. injection E3 as -> _. lia.
  - intros i j x. rewrite in_map_iff. unfold cells. split.
    + intros [[i' j'] [E I]]. injection E as -> -> <-. apply in_flat_map in I. destruct I as [i' [I1 I2]]. apply in_map_iff in I2. destruct I2 as [j' [E2 I2]]. injection E2 as -> ->. apply in_seq in I1. apply in_seq in I2. repeat split; lia.
    + intros [Hi [Hj ->]]. exists (i, j). split; [reflexivity|]. apply in_flat_map. exists i. split; [apply in_seq; lia|]. apply in_map_iff. exists j. split; [reflexivity | apply in_seq; lia].
Qed.
Print Assumptions diff_cells.
Lemma max_of_spec : forall l x, (forall y, In y (x :: l) -> y <= max_of x l) /\ In (max_of x l) (x :: l).
Proof.
  induction l as [|z l IH]; intros x; cbn [max_of]; [split; [intros y [->|[]]; lra | now left]|]. destruct (IH (Rmax x z)) as [U I]. split.
  - intros y [<-|[<-|Hy]]; [eapply Rle_trans; [apply (Rmax_l x z)|]; apply U; now left | eapply Rle_trans; [apply (Rmax_r x z)|]; apply U; now left | apply U; now right].
  - destruct I as [E|I]; [|right; now right]. rewrite <- E. unfold Rmax. destruct (Rle_dec x z); [right; now left | now left].
Qed.
(** Scaled differences lie between 0 and 1, the greatest is 1, and all keep their proportions. *)
Theorem diff_normed : forall t1 t2 dist diagonal z zn, (forall i j, 0 <= dist i j) -> diff true true t1 t2 dist diagonal false = Ok z -> diff true true t1 t2 dist diagonal true = Ok zn ->
  (exists c, In c z /\ 1 / 100000000 < snd c) ->
  exists top, 0 < top /\ (forall c, In c z -> snd c <= top) /\ (exists c, In c z /\ snd c = top) /\ zn = map (fun c => (fst c, snd c / top)) z /\ (forall c, In c zn -> 0 <= snd c <= 1) /\ (exists c, In c zn /\ snd c = 1).
Proof.
  intros t1 t2 dist diagonal z zn HD H1 H2 [c0 [I0 L0]]. unfold diff in *. cbn [negb] in *. destruct (diagonal && negb (Nat.eqb t1 t2)); [discriminate|]. injection H1 as E1. injection H2 as E2. rewrite E1 in E2. unfold normalise in E2.
  assert (NN : forall c, In c z -> 0 <= snd c) by (intros c Hc; rewrite <- E1 in Hc; apply in_map_iff in Hc; destruct Hc as [ij [<- _]]; apply HD).
  destruct (map snd z) as [|x l] eqn:EM; [destruct z; [destruct I0 | discriminate]|]. destruct (max_of_spec l x) as [U IM]. rewrite <- EM in U, IM. set (top := max_of x l) in *.
  assert (LT : 1 / 100000000 < top) by (eapply Rlt_le_trans; [exact L0 | apply U, in_map, I0]). assert (TP : 0 < top) by lra. destruct (Rlt_dec (1 / 100000000) (Rabs top)) as [_|NL]; [|exfalso; apply NL; rewrite Rabs_right; lra].
  apply in_map_iff in IM. destruct IM as [cm [EC IC]]. exists top. split; [exact TP|]. split; [intros c Hc; apply U, in_map, Hc|]. split; [exists cm; split; assumption|]. split; [now symmetry|]. rewrite <- E2. split.
  - intros c Hc. apply in_map_iff in Hc. destruct Hc as [c' [<- Hc]]. cbn [snd]. pose proof (NN c' Hc) as N0. pose proof (U _ (in_map snd _ _ Hc)) as U0. split; [apply Rmult_le_pos; [exact N0 | apply Rlt_le, Rinv_0_lt_compat, TP]|]. apply (Rmult_le_reg_r top); [exact TP|]. unfold Rdiv. rewrite Rmult_assoc, Rinv_l by lra. lra.
  - exists (fst cm, snd cm / top). split; [apply in_map_iff; exists cm; now split|]. cbn [snd]. rewrite EC. field. lra.
Qed.
Print Assumptions diff_normed.
(** With [diagonal] only the distances of the topics with equal numbers are returned. *)
Theorem diff_diagonal : forall t dist z, diff true true t t dist true false = Ok z -> z = map (fun i => ((i, i), dist i i)) (seq 0 t).
Proof. intros t dist z H. unfold diff in H. rewrite Nat.eqb_refl in H. cbn in H. injection H as <-. now rewrite map_map. Qed.
Print Assumptions diff_diagonal.
Theorem diff_fails : forall kd sc t1 t2 dist diagonal normed e, diff kd sc t1 t2 dist diagonal normed = Err e <->
  (kd = false /\ e = ValueError) \/ (kd = true /\ sc = false /\ e = AttributeErr) \/ (kd = true /\ sc = true /\ diagonal = true /\ t1 <> t2 /\ e = AssertionErr).
Proof.
  intros kd sc t1 t2 dist diagonal normed e. unfold diff. destruct kd, sc; cbn [negb].
  - destruct diagonal; cbn [andb]; [destruct (Nat.eqb_spec t1 t2) as [E|N]; cbn [negb]|]; (split; [intros H; try discriminate H; try (injection H as <-); tauto | intros H; intuition (subst; try discriminate; try congruence)]).
  - split; [intros H; injection H as <-; tauto | intros H; intuition (subst; try discriminate; try congruence)].
  - split; [intros H; injection H as <-; tauto | intros H; intuition (subst; try discriminate; try congruence)].
  - split; [intros H; injection H as <-; tauto | intros H; intuition (subst; try discriminate; try congruence)].
Qed.
Print Assumptions diff_fails.
(** Another kind of model gives an AttributeError instead of the documented ValueError. *)
Theorem diff_class_refuted : exists t dist, diff true false t t dist false false = Err AttributeErr.
Proof. exists 2%nat, (fun _ _ => 0). reflexivity. Qed.
Print Assumptions diff_class_refuted.
(** The scaled diagonal is not the diagonal of the scaled differences. *)
Theorem diff_diagonal_scale_refuted : exists t dist z zd x, diff true true t t dist false true = Ok z /\ diff true true t t dist true true = Ok zd /\ In ((0, 0)%nat, x) zd /\ ~ In ((0, 0)%nat, x) z.
Proof.
  exists 2%nat, (fun i j => if Nat.eqb i j then 1 else 2). eexists. eexists. exists 1. split; [reflexivity|]. split; [reflexivity|].
  assert (B : Rlt 1 2) by lra. unfold normalise, cells. cbn [seq map flat_map app fst snd Nat.eqb max_of]. rewrite (Rmax_left 1 1), (Rmax_right 1 2), (Rmax_left 2 2), (Rmax_left 2 1) by lra. rewrite !Rabs_right by lra.
  destruct (Rlt_dec (1 / 100000000) 1) as [_|N]; [|lra]. destruct (Rlt_dec (1 / 100000000) 2) as [_|N]; [|lra]. cbn [map fst snd]. split; [left; f_equal; field|]. intros [H|[H|[H|[H|[]]]]]; injection H; intros; try discriminate; lra.
Qed.
Print Assumptions diff_diagonal_scale_refuted.
(** *** Distances *)
Lemma ln_strict : forall x, 0 < x -> x <> 1 -> ln x < x - 1.
Proof. intros x Hx N. pose proof (exp_ineq1 (ln x)) as E. rewrite exp_ln in E by exact Hx. assert (ln x <> 0) as NZ by (intros Z0; apply N; rewrite <- (exp_ln x Hx), Z0; apply exp_0). specialize (E NZ). lra. Qed.
Lemma sumn_null : forall n f, (forall k, (k < n)%nat -> 0 <= f k) -> sumn n f = 0 -> forall k, (k < n)%nat -> f k = 0.
Proof.
  intros n f. induction n as [|n IH]; intros P H k Hk; [lia|]. rewrite sumn_S in H. pose proof (sumn_nonneg n f (fun j Hj => P j ltac:(lia))) as A. pose proof (P n ltac:(lia)) as B. destruct (Nat.eq_dec k n) as [->|N]; [lra|]. apply IH; [intros j Hj; apply P; lia | lra | lia].
Qed.
Lemma kl_terms : forall n p q, distribution n p -> distribution n q -> kullback n p q = sumn n (fun i => q i - p i - p i * ln (q i / p i)).
Proof.
  intros n p q [Pp Sp] [Pq Sq]. rewrite !sumn_minus, Sp, Sq. unfold kullback. rewrite (sumn_ext n (fun i => p i * ln (p i / q i)) (fun i => -1 * (p i * ln (q i / p i)))); [rewrite sumn_scal; ring|]. intros i Hi. unfold Rdiv. rewrite !ln_mult, !ln_Rinv; auto using Rinv_0_lt_compat. ring.
Qed.
Lemma kl_term_nonneg : forall x y, 0 < x -> 0 < y -> 0 <= y - x - x * ln (y / x) /\ (y - x - x * ln (y / x) = 0 -> x = y).
Proof.
  intros x y Hx Hy. assert (Q : 0 < y / x) by (now apply Rdiv_lt_0_compat). assert (E : x * (y / x) = y) by (field; lra). split.
  - pose proof (ln_tangent (y / x) 1 Q ltac:(lra)) as T. rewrite ln_1 in T. replace (y / x / 1) with (y / x) in T by (field; lra). apply (Rmult_le_compat_l x) in T; [|lra]. rewrite <- E at 1. lra.
  - intros H. destruct (Req_dec (y / x) 1) as [E1|N]; [rewrite E1 in E; lra|]. pose proof (ln_strict _ Q N) as T. apply (Rmult_lt_compat_l x) in T; [|exact Hx]. rewrite Rmult_minus_distr_l, E in T. lra.
Qed.
Theorem kullback_distance : forall n p q, distribution n p -> distribution n q -> 0 <= kullback n p q /\ (kullback n p q = 0 <-> forall i, (i < n)%nat -> p i = q i).
Proof.
  intros n p q Hp Hq. pose proof (kl_terms n p q Hp Hq) as T. destruct Hp as [Pp Sp]. destruct Hq as [Pq Sq].
  assert (NN : forall i, (i < n)%nat -> 0 <= q i - p i - p i * ln (q i / p i)) by (intros i Hi; apply kl_term_nonneg; auto). split; [rewrite T; now apply sumn_nonneg|]. split.
  - intros H i Hi. rewrite T in H. apply kl_term_nonneg; auto. exact (sumn_null n _ NN H i Hi).
  - intros H. unfold kullback. apply sumn_all0. intros i Hi. rewrite (H i Hi). unfold Rdiv. rewrite Rinv_r, ln_1; [ring|]. pose proof (Pq i Hi). lra.
Qed.
Print Assumptions kullback_distance.
Theorem jensen_distance : forall n p q, distribution n p -> distribution n q -> jensen n p q = jensen n q p /\ 0 <= jensen n p q <= ln 2 /\ (jensen n p q = 0 <-> forall i, (i < n)%nat -> p i = q i).
Proof.
  intros n p q Hp Hq. set (a := fun i => (1 / 2) * (p i + q i)).
  assert (Ha : distribution n a). { destruct Hp as [Pp Sp]. destruct Hq as [Pq Sq]. split; [intros i Hi; unfold a; pose proof (Pp i Hi); pose proof (Pq i Hi); lra|]. unfold a. rewrite sumn_scal, sumn_plus, Sp, Sq. field. }
  destruct (kullback_distance n p a Hp Ha) as [K1 E1]. destruct (kullback_distance n q a Hq Ha) as [K2 E2].
  assert (UB : forall r, distribution n r -> (forall i, (i < n)%nat -> r i <= 2 * a i) -> kullback n r a <= ln 2).
  { intros r [Pr Sr] Hr. unfold kullback. replace (ln 2) with (sumn n (fun i => r i * ln 2)) by (rewrite sumn_scal_r, Sr; ring). apply sumn_le. intros i Hi. apply Rmult_le_compat_l; [apply Rlt_le; auto|]. destruct Ha as [Pa _]. pose proof (Pa i Hi) as A. pose proof (Pr i Hi) as B.
    assert (Q : r i / a i <= 2) by (apply (Rmult_le_reg_r (a i)); [exact A|]; unfold Rdiv; rewrite Rmult_assoc, Rinv_l by lra; specialize (Hr i Hi); lra). destruct Q as [Q| ->]; [apply Rlt_le, ln_increasing; [now apply Rdiv_lt_0_compat | exact Q] | lra]. }
  assert (U1 : kullback n p a <= ln 2) by (apply UB; [exact Hp|]; intros i Hi; destruct Hq as [Pq _]; pose proof (Pq i Hi); unfold a; lra).
  assert (U2 : kullback n q a <= ln 2) by (apply UB; [exact Hq|]; intros i Hi; destruct Hp as [Pp _]; pose proof (Pp i Hi); unfold a; lra).
  assert (J : jensen n p q = 1 / 2 * (kullback n p a + kullback n q a)) by reflexivity. split; [|split; [lra|split]].
  - unfold jensen. cbv zeta. replace (fun i => 1 / 2 * (q i + p i)) with (fun i => 1 / 2 * (p i + q i)) by (apply FunctionalExtensionality.functional_extensionality; intros; ring). ring.
  - intros H i Hi. assert (Z1 : kullback n p a = 0) by lra. apply E1 with (i := i) in Z1; [|exact Hi]. unfold a in Z1. lra.
  - intros H. assert (Z1 : kullback n p a = 0) by (apply E1; intros i Hi; unfold a; rewrite (H i Hi); field). assert (Z2 : kullback n q a = 0) by (apply E2; intros i Hi; unfold a; rewrite (H i Hi); field). lra.
Qed.
Print Assumptions jensen_distance.
(** The annotation: words of both topics and words of only one, each once, and as many as wanted where there are enough. *)
Theorem annotation : forall order a b n pos neg, (forall l, Permutation l (order l)) -> NoDup a -> NoDup b -> annotate order a b n = (pos, neg) ->
  NoDup pos /\ NoDup neg /\ (forall w, In w pos -> In w a /\ In w b) /\ (forall w, In w neg -> (In w a /\ ~ In w b) \/ (In w b /\ ~ In w a)) /\
  length pos = min (length (filter (fun w => memb w b) a)) n /\ ((forall w, In w a -> In w b -> In w pos) \/ length pos = n) /\ ((forall w, (In w a /\ ~ In w b) \/ (In w b /\ ~ In w a) -> In w neg) \/ length neg = n).
Proof.
  intros order a b n pos neg HO Na Nb H. unfold annotate in H. set (l1 := filter (fun w => memb w b) a) in *. set (l2 := filter (fun w => negb (memb w b)) a ++ filter (fun w => negb (memb w a)) b) in *. injection H as <- <-. pose proof (HO l1) as P1. pose proof (HO l2) as P2.
  assert (I1 : forall w, In w l1 <-> In w a /\ In w b) by (intros w; unfold l1; rewrite filter_In, memb_true; tauto).
  assert (I2 : forall w, In w l2 <-> (In w a /\ ~ In w b) \/ (In w b /\ ~ In w a)) by (intros w; unfold l2; rewrite in_app_iff, !filter_In, !negb_true_iff, !memb_false; tauto).
  assert (N1 : NoDup l1) by now apply NoDup_filter. assert (N2 : NoDup l2). { apply ND_app; [now apply NoDup_filter | now apply NoDup_filter|]. intros x X Y. apply filter_In in X. apply filter_In in Y. destruct Y as [Y _]. destruct X as [_ X]. apply negb_true_iff, memb_false in X. contradiction. }
  assert (FN : forall (l : list pystr) k, NoDup l -> NoDup (firstn k l)). { intros l k Hl. rewrite <- (firstn_skipn k l) in Hl. clear - Hl. induction (firstn k l) as [|x m IH]; [constructor|]. cbn in Hl. inversion Hl as [|y r A B]. constructor; [intros I; apply A; apply in_or_app; now left | now apply IH]. }
  assert (FI : forall (l : list pystr) k w, In w (firstn k l) -> In w l) by (intros l k w I; rewrite <- (firstn_skipn k l); apply in_or_app; now left).
  split; [apply FN; exact (Permutation_NoDup P1 N1)|]. split; [apply FN; exact (Permutation_NoDup P2 N2)|].
  split; [intros w I; apply I1, (Permutation_in _ (Permutation_sym P1)), (FI _ _ _ I)|]. split; [intros w I; apply I2, (Permutation_in _ (Permutation_sym P2)), (FI _ _ _ I)|].
  rewrite !firstn_length. rewrite <- (Permutation_length P1), <- (Permutation_length P2). split; [lia|]. split.
  - destruct (Nat.le_gt_cases (length l1) n) as [L|L]; [left | right; lia]. intros w A B. rewrite firstn_all2 by (rewrite <- (Permutation_length P1); lia). apply (Permutation_in _ P1), I1. now split.
  - destruct (Nat.le_gt_cases (length l2) n) as [L|L]; [left | right; lia]. intros w A. rewrite firstn_all2 by (rewrite <- (Permutation_length P2); lia). apply (Permutation_in _ P2), I2, A.
Qed.
Print Assumptions annotation.
Example annotation_x : annotate (fun l => l) [[1]; [2]; [3]]%N [[2]; [4]; [3]]%N 1 = ([[2]], [[1]])%N.
Proof. reflexivity. Qed.
Example normed_x : exists z, diff true true 1 2 (fun _ j => INR j + 1) false true = Ok z /\ z = [((0, 0)%nat, 1 / 2); ((0, 1)%nat, 1)].
Proof.
  eexists. split; [reflexivity|]. unfold normalise, cells. cbn [seq map flat_map app fst snd max_of INR]. replace (0 + 1) with 1 by ring. replace (1 + 1) with 2 by ring. rewrite (Rmax_right 1 2), Rabs_right by lra. destruct (Rlt_dec (1 / 100000000) 2) as [_|N]; [|lra]. cbn [map fst snd]. repeat f_equal; field.
Qed.
