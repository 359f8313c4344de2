(** * C74: segmentation of topics, and the u_mass coherence. *)
From Coq Require Import List Arith Lia Reals Lra Permutation.
From Verif Require Import Base MatReal_Model MatReal_Proofs CohAccum_Model CohPar_Properties CohMeasure_Model.
Local Open Scope R_scope.

(** ** Specification, with no reference to the model's helpers *)

(** How many documents contain a word; both words. *)
Definition docs_with {W : Type} (corpus : list (list (nat * W))) (w : nat) : nat :=
  length (filter (fun doc => memb w (map fst doc)) corpus).
Definition docs_with2 {W : Type} (corpus : list (list (nat * W))) (w w' : nat) : nat :=
  length (filter (fun doc => memb w (map fst doc) && memb w' (map fst doc)) corpus).

(** The confirmation of a word [w] by an earlier word [w0]: the logarithm of the
    smoothed conditional probability P(w | w0); 0 when [w0] is never seen. *)
Definition confirmation {W : Type} (corpus : list (list (nat * W))) (w w0 : nat) : R :=
  if (docs_with corpus w0 =? 0)%nat then 0
  else ln ((INR (docs_with2 corpus w w0) / INR (length corpus) + / 1000000000000)
           / (INR (docs_with corpus w0) / INR (length corpus))).

(** Sum over all pairs of positions [j < i] of the topic. *)
Definition earlier_pairs_sum (f : nat -> nat -> R) (t : list nat) : R :=
  Rsum (map (fun i => Rsum (map (fun j => f (nth i t 0%nat) (nth j t 0%nat)) (seq 0 i))) (seq 0 (length t))).

(** ** Segmentation *)

Lemma s_one_pre1_snoc : forall t w, s_one_pre1 (t ++ [w]) = s_one_pre1 t ++ map (fun w0 => (w, w0)) t.
Proof.
  intros [|x t] w; [reflexivity|]. unfold s_one_pre1. cbn [tl app].
  rewrite app_length. cbn [length]. rewrite seq_app. cbn [seq Nat.add].
  assert (C : forall (a : list nat) (b : list nat) x y, length a = length b -> combine (a ++ [x]) (b ++ [y]) = combine a b ++ [(x, y)]).
  { induction a as [|u a IH]; intros [|v b] x' y' L; try discriminate; [reflexivity|]. cbn. f_equal. apply IH. now injection L. }
  rewrite C by now rewrite seq_length. rewrite map_app, concat_app. cbn [map concat fst snd]. rewrite app_nil_r. f_equal.
  - f_equal. apply map_ext_in. intros [i v] HI. cbn [fst snd]. f_equal.
    apply in_combine_l, in_seq in HI. rewrite app_comm_cons, firstn_app.
    replace (i + 1 - length (x :: t))%nat with 0%nat by (cbn [length]; lia). now rewrite firstn_O, app_nil_r.
  - rewrite app_comm_cons, firstn_app. replace (length t + 1)%nat with (length (x :: t)) by (cbn [length]; lia).
    now rewrite firstn_all, Nat.sub_diag, firstn_O, app_nil_r.
Qed.

(** [s_one_pre]: every position paired with every earlier position, in order. *)
Theorem s_one_pre_pairs : forall t,
  (2 * length (s_one_pre1 t) = length t * (length t - 1))%nat /\
  (forall i j, (j < i < length t)%nat ->
     nth_error (s_one_pre1 t) (i * (i - 1) / 2 + j) = Some (nth i t 0%nat, nth j t 0%nat)).
Proof.
  induction t as [|w t IH] using rev_ind; [split; [reflexivity|cbn; lia]|].
  destruct IH as [L P]. rewrite s_one_pre1_snoc. split.
  - rewrite !app_length, map_length. cbn [length].
    destruct (length t) as [|n]; [|cbn [Nat.sub Nat.add] in *; rewrite ?Nat.sub_0_r in *]; [lia|nia].
  - intros i j HI. rewrite app_length in HI. cbn [length] in HI.
    destruct (Nat.eq_dec i (length t)) as [->|NE].
    + assert (E : (length t * (length t - 1) / 2 = length (s_one_pre1 t))%nat)
        by (rewrite <- L, Nat.mul_comm; apply Nat.div_mul; lia).
      rewrite E, nth_error_app2 by lia. replace (length (s_one_pre1 t) + j - length (s_one_pre1 t))%nat with j by lia.
      rewrite nth_error_map, (nth_error_nth' t 0%nat) by lia. cbn.
      rewrite app_nth2, Nat.sub_diag by lia. rewrite app_nth1 by lia. reflexivity.
    + assert (HI' : (j < i < length t)%nat) by lia.
      rewrite nth_error_app1 by (apply nth_error_Some; rewrite (P i j HI'); discriminate).
      rewrite (P i j HI'), !app_nth1 by lia. reflexivity.
Qed.
Print Assumptions s_one_pre_pairs.

Example s_one_pre_ex : s_one_pre1 [7; 3; 9; 3]%nat = [(3, 7); (9, 7); (9, 3); (3, 7); (3, 3); (3, 9)]%nat.
Proof. reflexivity. Qed.

(** [s_one_one]: every position paired with every other position, in order. *)
Lemma s_one_one1_rows : forall t, s_one_one1 t =
  flat_map (fun i => map (fun j => (nth i t 0%nat, nth (if (j <? i)%nat then j else S j) t 0%nat)) (seq 0 (length t - 1))) (seq 0 (length t)).
Proof.
  intros t. unfold s_one_one1.
  assert (E : combine (seq 0 (length t)) t = map (fun i => (i, nth i t 0%nat)) (seq 0 (length t))).
  { apply nth_ext with (d := (0, 0)%nat) (d' := (0, 0)%nat); [rewrite combine_length, map_length, seq_length; lia|].
    intros n Hn. rewrite combine_length, seq_length, Nat.min_id in Hn. rewrite combine_nth by apply seq_length.
    set (g := fun i => (i, nth i t 0%nat)). rewrite nth_indep with (d' := g 0%nat) by (now rewrite map_length, seq_length).
    rewrite (map_nth g). unfold g. rewrite seq_nth by lia. reflexivity. }
  rewrite E. rewrite flat_map_concat_map, map_map, <- flat_map_concat_map.
  assert (EX : forall (f g : nat -> list (nat * nat)) l, (forall x, In x l -> f x = g x) -> flat_map f l = flat_map g l).
  { intros f g l H. rewrite !flat_map_concat_map. f_equal. now apply map_ext_in. }
  apply EX. intros i Hi. apply in_seq in Hi. cbn [fst snd].
  rewrite flat_map_concat_map, map_map, <- flat_map_concat_map. cbn [fst snd].
  replace (length t) with (i + S (length t - 1 - i))%nat at 1 by lia.
  rewrite seq_app. cbn [Nat.add seq]. rewrite flat_map_app. cbn [flat_map]. rewrite Nat.eqb_refl. cbn [app].
  replace (length t - 1)%nat with (i + (length t - 1 - i))%nat at 2 by lia. rewrite seq_app, map_app. f_equal.
  - rewrite (EX _ (fun j => [(nth i t 0%nat, nth (if (j <? i)%nat then j else S j) t 0%nat)])).
    + rewrite flat_map_concat_map. induction (seq 0 i) as [|y l IHl]; [reflexivity|]. cbn. now f_equal.
    + intros j Hj. apply in_seq in Hj. rewrite (proj2 (Nat.eqb_neq i j)) by lia. now rewrite (proj2 (Nat.ltb_lt j i)) by lia.
  - rewrite <- seq_shift. rewrite flat_map_concat_map, map_map, <- flat_map_concat_map. cbn [Nat.add].
    rewrite (EX _ (fun j => [(nth i t 0%nat, nth (if (j <? i)%nat then j else S j) t 0%nat)])).
    + rewrite flat_map_concat_map. induction (seq i (length t - 1 - i)) as [|y l IHl]; [reflexivity|]. cbn. now f_equal.
    + intros j Hj. apply in_seq in Hj. rewrite (proj2 (Nat.eqb_neq i (S j))) by lia. now rewrite (proj2 (Nat.ltb_ge j i)) by lia.
Qed.

Lemma nth_error_rows {A} : forall (m : nat) (f : nat -> list A) n i j,
  (forall x, length (f x) = m) -> (i < n)%nat -> (j < m)%nat ->
  forall s, nth_error (flat_map f (seq s n)) (i * m + j) = nth_error (f (s + i)%nat) j.
Proof.
  intros m f n. induction n as [|n IH]; intros i j L Hi Hj s; [lia|]. cbn [seq flat_map].
  destruct i as [|i].
  - cbn [Nat.mul Nat.add]. rewrite nth_error_app1 by now rewrite L. now rewrite Nat.add_0_r.
  - rewrite nth_error_app2 by (rewrite L; nia). rewrite L. replace (S i * m + j - m)%nat with (i * m + j)%nat by nia.
    rewrite IH by (auto; lia). f_equal. f_equal. lia.
Qed.

Theorem s_one_one_pairs : forall t,
  (length (s_one_one1 t) = length t * (length t - 1))%nat /\
  (forall i j, (i < length t)%nat -> (j < length t)%nat -> i <> j ->
     nth_error (s_one_one1 t) (i * (length t - 1) + (if (j <? i)%nat then j else j - 1)) = Some (nth i t 0%nat, nth j t 0%nat)).
Proof.
  intros t. rewrite s_one_one1_rows. split.
  - rewrite flat_map_concat_map.
    assert (G : forall (l : list nat) (f : nat -> list (nat * nat)) m, (forall x, length (f x) = m) -> length (concat (map f l)) = (length l * m)%nat).
    { induction l as [|y l IHl]; intros f m L; [reflexivity|]. cbn [map concat]. rewrite app_length, L, (IHl f m L). cbn. lia. }
    rewrite (G _ _ (length t - 1)%nat); [now rewrite seq_length|]. intros x. now rewrite map_length, seq_length.
  - intros i j Hi Hj NE.
    set (k := if (j <? i)%nat then j else (j - 1)%nat).
    assert (HK : (k < length t - 1)%nat) by (unfold k; destruct (Nat.ltb_spec j i); lia).
    rewrite (nth_error_rows (length t - 1)) by (auto; intros; now rewrite map_length, seq_length).
    rewrite nth_error_map, (nth_error_nth' (seq 0 (length t - 1)) 0%nat) by now rewrite seq_length.
    rewrite seq_nth by lia. cbn [option_map Nat.add]. do 2 f_equal. f_equal.
    unfold k. destruct (Nat.ltb_spec j i); destruct (Nat.ltb_spec (if (j <? i)%nat then j else j - 1) i);
      destruct (Nat.ltb_spec j i); try lia; destruct (Nat.ltb_spec (j - 1) i); lia.
Qed.
Print Assumptions s_one_one_pairs.

Example s_one_one_ex : s_one_one1 [7; 3; 9]%nat = [(7, 3); (7, 9); (3, 7); (3, 9); (9, 7); (9, 3)]%nat.
Proof. reflexivity. Qed.

(** ** u_mass *)

Lemma rmapM_ok_map {A B} : forall (f : A -> result B) g l, (forall x, In x l -> f x = Ok (g x)) -> rmapM f l = Ok (map g l).
Proof.
  intros f g l. induction l as [|x l IH]; intros H; [reflexivity|]. cbn. rewrite H by (simpl; auto).
  cbn. rewrite IH by (intros; apply H; simpl; auto). reflexivity.
Qed.

Lemma Rsum_app : forall a b, Rsum (a ++ b) = Rsum a + Rsum b.
Proof. induction a; intros; cbn [app]; rewrite ?Rsum_cons; [cbn; lra|rewrite IHa; lra]. Qed.

Lemma Rsum_pre : forall f t, Rsum (map (fun p : nat * nat => f (fst p) (snd p)) (s_one_pre1 t)) = earlier_pairs_sum f t.
Proof.
  intros f t. induction t as [|w t IH] using rev_ind; [reflexivity|].
  rewrite s_one_pre1_snoc, map_app, Rsum_app, IH. unfold earlier_pairs_sum.
  rewrite app_length. cbn [length]. rewrite Nat.add_1_r, seq_S, map_app, Rsum_app. cbn [map Nat.add]. f_equal.
  - f_equal. apply map_ext_in. intros i Hi. apply in_seq in Hi. f_equal. apply map_ext_in. intros j Hj. apply in_seq in Hj.
    now rewrite !app_nth1 by lia.
  - rewrite Rsum_cons. cbn [Rsum fold_right]. rewrite Rplus_0_r. f_equal. rewrite map_map. cbn [fst snd].
    rewrite app_nth2, Nat.sub_diag by lia. cbn [nth].
    rewrite <- (CohAccum_Proofs.map_nth_seq t 0%nat) at 1. rewrite map_map. apply map_ext_in. intros j Hj. apply in_seq in Hj.
    now rewrite app_nth1 by lia.
Qed.

Lemma docs_len {W} : forall (corpus : list (list (nat * W))) w, (docs_with corpus w <= length corpus)%nat.
Proof. intros. unfold docs_with. induction corpus as [|d c IH]; cbn; [lia|]. destruct (memb w (map fst d)); cbn; lia. Qed.
Lemma docs2_le {W} : forall (corpus : list (list (nat * W))) w w0, (docs_with2 corpus w w0 <= docs_with corpus w0)%nat.
Proof.
  intros. unfold docs_with, docs_with2. induction corpus as [|d c IH]; cbn; [lia|].
  destruct (memb w (map fst d)), (memb w0 (map fst d)); cbn; lia.
Qed.

Lemma pre_len : forall t, (2 <= length t)%nat -> INR (length (s_one_pre1 t)) = INR (length t) * (INR (length t) - 1) / 2.
Proof.
  intros t H. destruct (s_one_pre_pairs t) as [L _]. apply (f_equal INR) in L.
  rewrite !mult_INR, minus_INR in L by lia. cbn [INR] in L. lra.
Qed.

Lemma confirm_model {W} : forall (corpus : list (list (nat * W))) rel s w w0,
  ii_docs s = length corpus -> ii_occurrences rel s w0 = Ok (docs_with corpus w0) ->
  ii_co_occurrences rel s w w0 = Ok (docs_with2 corpus w w0) ->
  m_lc (corpus_accumulator rel s) w w0 = Ok (confirmation corpus w w0).
Proof.
  intros corpus rel s w w0 HD HO HC. unfold m_lc, corpus_accumulator, confirmation, EPSILON. cbn [a_docs a_occ a_co].
  rewrite HO, HC, HD. cbn [rbind].
  destruct (Nat.eqb_spec (docs_with corpus w0) 0) as [E|E].
  - now rewrite orb_true_r.
  - assert (length corpus <> 0)%nat by (pose proof (docs_len corpus w0); lia).
    rewrite (proj2 (Nat.eqb_neq (length corpus) 0)) by assumption. reflexivity.
Qed.

Lemma seg_ids_in : forall topics t p, In t topics -> In p (s_one_pre1 t) ->
  In (fst p) (segment_ids (map s_one_pre1 topics)) /\ In (snd p) (segment_ids (map s_one_pre1 topics)).
Proof.
  intros topics t p HT HP. unfold segment_ids. split; apply nodup_In, in_flat_map; exists p; (split; [|simpl; auto]);
    apply in_concat; exists (s_one_pre1 t); split; auto; now apply in_map.
Qed.

Lemma sims_model {W} : forall (corpus : list (list (nat * W))) rel s t,
  ii_docs s = length corpus ->
  (forall i, In i rel -> ii_occurrences rel s i = Ok (docs_with corpus i)) ->
  (forall i j, In i rel -> In j rel -> ii_co_occurrences rel s i j = Ok (docs_with2 corpus i j)) ->
  (forall p, In p (s_one_pre1 t) -> In (fst p) rel /\ In (snd p) rel) ->
  (let* sims := rmapM (fun p : nat * nat => m_lc (corpus_accumulator rel s) (fst p) (snd p)) (s_one_pre1 t) in mean sims) =
  mean (map (fun p : nat * nat => confirmation corpus (fst p) (snd p)) (s_one_pre1 t)).
Proof.
  intros corpus rel s t HD HO HC HI.
  rewrite (rmapM_ok_map _ (fun p : nat * nat => confirmation corpus (fst p) (snd p))); [reflexivity|].
  intros p HP. destruct (HI p HP). apply confirm_model; auto.
Qed.

(** With the counts of any set of ids that contains those of the segments. *)
Lemma lcp_means {W} : forall (corpus : list (list (nat * W))) rel topics, NoDup rel ->
  (forall i, In i (segment_ids (map s_one_pre1 topics)) -> In i rel) ->
  (let* s := corpus_accumulate rel (ii_init (length rel)) corpus in
   log_conditional_probability (map s_one_pre1 topics) (corpus_accumulator rel s)) =
  rmapM (fun t => mean (map (fun p : nat * nat => confirmation corpus (fst p) (snd p)) (s_one_pre1 t))) topics.
Proof.
  intros corpus rel topics HN HR.
  assert (HS : forall t p, In t topics -> In p (s_one_pre1 t) -> In (fst p) rel /\ In (snd p) rel)
    by (intros t p HT HP; destruct (seg_ids_in topics t p HT HP); auto).
  destruct (corpus_exact W rel corpus HN) as (s & Es & HD & HO & HC). rewrite Es. cbn [rbind].
  unfold log_conditional_probability.
  assert (G : forall l, (forall t, In t l -> In t topics) ->
    rmapM (fun s_i => let* sims := rmapM (fun p : nat * nat => m_lc (corpus_accumulator rel s) (fst p) (snd p)) s_i in mean sims) (map s_one_pre1 l) =
    rmapM (fun t => mean (map (fun p : nat * nat => confirmation corpus (fst p) (snd p)) (s_one_pre1 t))) l).
  { induction l as [|t l IH]; intros HI; [reflexivity|]. cbn [map rmapM].
    rewrite (sims_model corpus rel s t HD HO HC) by (intros p; apply HS; apply HI; simpl; auto).
    now rewrite IH by (intros; apply HI; simpl; auto). }
  apply G. auto.
Qed.

Lemma u_mass_means {W} : forall (corpus : list (list (nat * W))) topics,
  u_mass_per_topic corpus topics =
  rmapM (fun t => mean (map (fun p : nat * nat => confirmation corpus (fst p) (snd p)) (s_one_pre1 t))) topics.
Proof. intros corpus topics. unfold u_mass_per_topic. apply lcp_means; [apply NoDup_nodup|auto]. Qed.

(** The coherence of each topic is the mean confirmation over all pairs of positions. *)
Theorem u_mass_exact : forall (W : Type) (corpus : list (list (nat * W))) topics,
  (forall t, In t topics -> (2 <= length t)%nat) ->
  u_mass_per_topic corpus topics =
    Ok (map (fun t => earlier_pairs_sum (confirmation corpus) t / (INR (length t) * (INR (length t) - 1) / 2)) topics).
Proof.
  intros W corpus topics HL. rewrite u_mass_means. apply rmapM_ok_map. intros t HT.
  rewrite <- pre_len, <- Rsum_pre by auto. unfold mean.
  rewrite <- (map_length (fun p : nat * nat => confirmation corpus (fst p) (snd p)) (s_one_pre1 t)).
  destruct (map _ (s_one_pre1 t)) eqn:E; [|reflexivity].
  apply (f_equal (@length R)) in E. rewrite map_length in E. cbn in E.
  destruct (s_one_pre_pairs t) as [L _]. specialize (HL t HT). rewrite E in L. nia.
Qed.
Print Assumptions u_mass_exact.

Example u_mass_ex : u_mass_per_topic [[(1, tt); (2, tt)]; [(2, tt)]]%nat [[2; 1]]%nat = Ok [ln (/ 2 + / 1000000000000)].
Proof.
  rewrite u_mass_exact by (intros t [<-|[]]; cbn; lia). do 2 f_equal. unfold earlier_pairs_sum, confirmation, docs_with, docs_with2.
  cbn -[INR]. cbn [INR]. 
  match goal with |- context [ln ?x] => replace x with (/ 2 + / 1000000000000) by lra end. f_equal. field.
Qed.

(** A topic of fewer than two words has no coherence (numpy: nan). *)
Theorem u_mass_short : forall (W : Type) (corpus : list (list (nat * W))) topics,
  (exists t, In t topics /\ (length t < 2)%nat) -> u_mass_per_topic corpus topics = Err ZeroDivErr.
Proof.
  intros W corpus topics (t & HT & HL). rewrite u_mass_means. induction topics as [|x l IH]; [destruct HT|]. cbn [rmapM].
  assert (D : mean (map (fun p : nat * nat => confirmation corpus (fst p) (snd p)) (s_one_pre1 t)) = Err ZeroDivErr).
  { destruct t as [|a [|b t]]; [reflexivity|reflexivity|cbn in HL; lia]. }
  destruct HT as [->|HT]; [now rewrite D|].
  unfold mean at 1. destruct (map _ (s_one_pre1 x)); [reflexivity|]. cbn [rbind]. now rewrite (IH HT).
Qed.
Print Assumptions u_mass_short.

Example u_mass_short_ex : u_mass [[(1, tt)]]%nat [[1; 2]; [1]]%nat = Err ZeroDivErr.
Proof. unfold u_mass. rewrite u_mass_short; [reflexivity|]. exists [1%nat]. cbn. auto. Qed.

(** The order of the documents, the counts within them and the order of the
    words in them do not matter. *)
Lemma filter_perm {A} : forall (f : A -> bool) l l', Permutation l l' -> length (filter f l) = length (filter f l').
Proof. intros f l l' P. induction P; cbn; repeat (match goal with |- context [if ?b then _ else _] => destruct b end); cbn; lia. Qed.

Lemma docs_ext {W W'} : forall (corpus : list (list (nat * W))) (corpus' : list (list (nat * W'))),
  Forall2 (fun d d' => forall w, In w (map fst d) <-> In w (map fst d')) corpus corpus' ->
  length corpus = length corpus' /\ (forall w, docs_with corpus w = docs_with corpus' w) /\ (forall w w', docs_with2 corpus w w' = docs_with2 corpus' w w').
Proof.
  assert (MB : forall (a b : list nat) w, (In w a <-> In w b) -> memb w a = memb w b).
  { intros a b w H. destruct (memb w a) eqn:E.
    - apply memb_true, H in E. symmetry. now apply memb_true.
    - apply memb_false in E. symmetry. apply memb_false. tauto. }
  induction 1 as [|d d' c c' H F (IH1 & IH2 & IH3)]; [repeat split|]. cbn [length]. split; [now f_equal|].
  unfold docs_with, docs_with2 in *. split.
  - intros w. cbn. rewrite (MB _ _ w (H w)). destruct (memb w (map fst d')); cbn; now rewrite IH2.
  - intros w w'. cbn. rewrite (MB _ _ w (H w)), (MB _ _ w' (H w')). destruct (memb w (map fst d') && memb w' (map fst d')); cbn; now rewrite IH3.
Qed.

Theorem u_mass_bag : forall (W W' : Type) (corpus : list (list (nat * W))) corpus1 (corpus' : list (list (nat * W'))) topics,
  Permutation corpus corpus1 ->
  Forall2 (fun d d' => forall w, In w (map fst d) <-> In w (map fst d')) corpus1 corpus' ->
  u_mass corpus topics = u_mass corpus' topics.
Proof.
  intros W W' corpus corpus1 corpus' topics P F. destruct (docs_ext _ _ F) as (E1 & E2 & E3).
  assert (E : forall w w0, confirmation corpus w w0 = confirmation corpus' w w0).
  { intros w w0. unfold confirmation. rewrite <- E2, <- E3, <- E1, <- (Permutation_length P).
    unfold docs_with, docs_with2. now rewrite !(filter_perm _ _ _ P). }
  unfold u_mass. rewrite !u_mass_means. f_equal. induction topics as [|t l IH]; [reflexivity|]. cbn [rmapM]. rewrite IH. f_equal. f_equal.
  apply map_ext. intros p. apply E.
Qed.
Print Assumptions u_mass_bag.

Example u_mass_bag_ex : u_mass [[(1, 3); (2, 1)]; [(2, 5)]]%nat [[2; 1]]%nat = u_mass [[(2, tt)]; [(2, tt); (1, tt); (2, tt)]]%nat [[2; 1]]%nat.
Proof.
  apply u_mass_bag with (corpus1 := [[(2, 5)]; [(1, 3); (2, 1)]]%nat).
  - constructor.
  - constructor; [|constructor; [|constructor]]; intros w; cbn; tauto.
Qed.

(** *** Range *)

Lemma eps_pos : 0 < / 1000000000000.
Proof. lra. Qed.

Lemma confirmation_range {W} : forall (corpus : list (list (nat * W))) w w0,
  ln (/ 1000000000000) <= confirmation corpus w w0 <= ln (1 + INR (length corpus) / 1000000000000).
Proof.
  intros corpus w w0. unfold confirmation.
  pose proof (docs_len corpus w0) as L1. pose proof (docs2_le corpus w w0) as L2.
  pose proof (pos_INR (length corpus)) as P0.
  assert (U : 0 <= ln (1 + INR (length corpus) / 1000000000000)).
  { rewrite <- ln_1. destruct (Req_dec (INR (length corpus)) 0) as [->|]; [right; f_equal; lra|]. left. apply ln_increasing; lra. }
  assert (LE : ln (/ 1000000000000) <= 0) by (rewrite <- ln_1; left; apply ln_increasing; lra).
  destruct (Nat.eqb_spec (docs_with corpus w0) 0) as [E|E]; [lra|].
  apply le_INR in L1, L2. assert (D1 : 1 <= INR (docs_with corpus w0)) by (apply (le_INR 1); lia).
  pose proof (pos_INR (docs_with2 corpus w w0)) as P2.
  set (d := INR (length corpus)) in *. set (n := INR (docs_with corpus w0)) in *. set (k := INR (docs_with2 corpus w w0)) in *.
  assert (X : (k / d + / 1000000000000) / (n / d) = k / n + d / n * / 1000000000000) by (field; lra). rewrite X.
  assert (I1 : 0 < / n <= 1) by (split; [apply Rinv_0_lt_compat; lra|rewrite <- Rinv_1; apply Rinv_le_contravar; lra]).
  assert (K1 : 0 <= k / n <= 1).
  { unfold Rdiv. split; [nra|]. apply Rmult_le_reg_r with n; [lra|]. rewrite Rmult_assoc, Rinv_l by lra. lra. }
  assert (K2 : 1 <= d / n <= d).
  { unfold Rdiv. split; [|nra]. apply Rmult_le_reg_r with n; [lra|]. rewrite Rmult_assoc, Rinv_l by lra. lra. }
  assert (LM : forall x y, 0 < x -> x <= y -> ln x <= ln y) by (intros x y Hx [H|H]; [left; now apply ln_increasing|right; now f_equal]).
  split; apply LM; lra.
Qed.

Lemma mean_range : forall lo hi l m, (forall x, In x l -> lo <= x <= hi) -> mean l = Ok m -> lo <= m <= hi.
Proof.
  intros lo hi l m H E. unfold mean in E. destruct l as [|x0 l0]; [discriminate|].
  assert (EM : m = Rsum (x0 :: l0) / INR (length (x0 :: l0))) by (injection E; auto). rewrite EM. clear EM E.
  assert (G : forall l', (forall x, In x l' -> lo <= x <= hi) -> lo * INR (length l') <= Rsum l' <= hi * INR (length l')).
  { induction l' as [|y l' IH]; intros HH; [cbn; lra|]. rewrite Rsum_cons. change (length (y :: l')) with (S (length l')). rewrite S_INR.
    specialize (HH y (or_introl eq_refl)) as HY. assert (forall x, In x l' -> lo <= x <= hi) as H2 by (intros; apply HH; simpl; auto).
    specialize (IH H2). lra. }
  specialize (G _ H). assert (P : 0 < INR (length (x0 :: l0))) by (apply (lt_INR 0); cbn; lia).
  set (n := INR (length (x0 :: l0))) in *. set (r := Rsum (x0 :: l0)) in *.
  assert (E : r / n * n = r) by (field; lra). split; apply Rmult_le_reg_r with n; auto; rewrite E; lra.
Qed.

Lemma rmapM_in {A B} : forall (f : A -> result B) l l' y, rmapM f l = Ok l' -> In y l' -> exists x, In x l /\ f x = Ok y.
Proof.
  intros f. induction l as [|x l IH]; intros l' y E HY; cbn in E; [injection E as <-; destruct HY|].
  destruct (f x) eqn:Ef; [|discriminate]. cbn in E. destruct (rmapM f l) eqn:Er; [|discriminate]. injection E as <-.
  destruct HY as [<-|HY]; [exists x; simpl; auto|]. destruct (IH _ _ eq_refl HY) as (z & HZ & Ez). exists z; simpl; auto.
Qed.

(** Every value, and the coherence itself, lies between ln(EPSILON) and
    ln(1 + D * EPSILON), D the number of documents. *)
Theorem u_mass_range : forall (W : Type) (corpus : list (list (nat * W))) topics c,
  u_mass corpus topics = Ok c ->
  ln (/ 1000000000000) <= c <= ln (1 + INR (length corpus) / 1000000000000).
Proof.
  intros W corpus topics c E. unfold u_mass in E. rewrite u_mass_means in E.
  destruct (rmapM _ topics) as [l|] eqn:Er; [|discriminate]. cbn in E.
  apply (mean_range _ _ l c); [|exact E]. intros x HX. destruct (rmapM_in _ _ _ _ Er HX) as (t & HT & Et).
  eapply mean_range; [|exact Et]. intros y HY. apply in_map_iff in HY. destruct HY as (p & <- & _). apply confirmation_range.
Qed.
Print Assumptions u_mass_range.

Example u_mass_range_ex : exists c, u_mass [[(1, tt); (2, tt)]; [(2, tt)]]%nat [[2; 1]]%nat = Ok c /\ ln (/ 1000000000000) < c < 0.
Proof.
  unfold u_mass. rewrite u_mass_ex. cbn [rbind mean]. eexists. split; [reflexivity|]. cbn [Rsum fold_right length INR].
  unfold Rdiv. rewrite Rplus_0_r, Rinv_1, Rmult_1_r. split; [apply ln_increasing; lra|]. rewrite <- ln_1. apply ln_increasing; lra.
Qed.

(** A mean of logarithms of conditional probabilities should not exceed 0: it
    does for words that always occur together. *)
Theorem u_mass_nonpositive_refuted : exists (corpus : list (list (nat * unit))) topics c, u_mass corpus topics = Ok c /\ 0 < c.
Proof.
  exists [[(1, tt); (2, tt)]]%nat, [[1; 2]]%nat. unfold u_mass. rewrite u_mass_exact by (intros t [<-|[]]; cbn; lia).
  cbn [rbind map mean]. eexists. split; [reflexivity|]. unfold earlier_pairs_sum, confirmation, docs_with, docs_with2.
  cbn -[INR]. cbn [INR].
  assert (P : 0 < ln ((1 / 1 + / 1000000000000) / (1 / 1))) by (rewrite <- ln_1; apply ln_increasing; lra). lra.
Qed.
Print Assumptions u_mass_nonpositive_refuted.

(** Putting a word that occurs in no document into a topic should not raise its
    coherence: here it goes from ln(2 * EPSILON) up to 0, the greatest value
    (up to EPSILON) there is. *)
Theorem u_mass_unseen_word_refuted : exists (corpus : list (list (nat * unit))) unseen c c',
  docs_with corpus unseen = 0%nat /\ u_mass corpus [[1; 2]]%nat = Ok c /\ u_mass corpus [[unseen; 2%nat]] = Ok c' /\ c < 0 /\ c' = 0.
Proof.
  exists [[(1, tt)]; [(2, tt)]]%nat, 3%nat. unfold u_mass. rewrite !u_mass_exact by (intros t [<-|[]]; cbn; lia).
  cbn [rbind map mean]. do 2 eexists. split; [reflexivity|]. split; [reflexivity|]. split; [reflexivity|].
  unfold earlier_pairs_sum, confirmation, docs_with, docs_with2. cbn -[INR]. cbn [INR]. split; [|lra].
  assert (P : ln ((0 / (1 + 1) + / 1000000000000) / (1 / (1 + 1))) < 0) by (replace 0 with (ln 1) at 2 by apply ln_1; apply ln_increasing; lra). lra.
Qed.
Print Assumptions u_mass_unseen_word_refuted.
