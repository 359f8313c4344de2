(** * C75, second part: the cosine measure (c_v) with its two caches. *)
From Coq Require Import List Arith Lia Reals Lra Permutation.
From Verif Require Import Base MatReal_Model MatReal_Proofs CohAccum_Model CohAccum_Properties CohMeasure_Model CohUMass_Properties CohNpmi_Properties.
Local Open Scope R_scope.

(** ** Specification: no caches, no mapping to contiguous ids *)

(** The entry of a word [w] of the topic [t] in the context vector of a segment. *)
Definition context (f : nat -> nat -> R) (gamma : nat) (t : list nat) (seg : segment) (w : nat) : R :=
  INR (count_occ Nat.eq_dec t w) * Rsum (map (fun u => f u w ^ gamma) (seg_words seg)).

(** The cosine of two vectors indexed by words, over a list of words. *)
Definition cos_over (l : list nat) (f g : nat -> R) : result R :=
  let d := sqrt (Rsum (map (fun w => f w * f w) l)) * sqrt (Rsum (map (fun w => g w * g w) l)) in
  if Req_EM_T d 0 then Err ZeroDivErr else Ok (Rsum (map (fun w => f w * g w) l) / d).

(** ** The mapping *)

Lemma combine_snoc {A B} : forall (a : list A) (b : list B) x y, length a = length b -> combine (a ++ [x]) (b ++ [y]) = combine a b ++ [(x, y)].
Proof. induction a as [|u a IH]; intros [|v b] x y L; try discriminate; [reflexivity|]. cbn. f_equal. apply IH. now injection L. Qed.

Lemma mapping_inv : forall (l ks : list nat), NoDup ks ->
  exists ks', fold_left (fun d i => if dmem d i then d else dset d i (length d)) l (combine ks (seq 0 (length ks))) = combine ks' (seq 0 (length ks')) /\
    NoDup ks' /\ (forall w, In w ks' <-> In w ks \/ In w l).
Proof.
  induction l as [|i l IH]; intros ks HN; [exists ks; cbn; intuition|]. cbn [fold_left].
  assert (KS : dkeys (combine ks (seq 0 (length ks))) = ks).
  { unfold dkeys. generalize (seq 0 (length ks)) (seq_length (length ks) 0). clear. induction ks as [|k ks IH]; intros [|s q] L; try discriminate; [reflexivity|]. cbn. f_equal. apply IH. now injection L. }
  destruct (dmem (combine ks (seq 0 (length ks))) i) eqn:E.
  - rewrite dmem_true, KS in E. destruct (IH ks HN) as (ks' & E' & N' & I'). exists ks'. split; [exact E'|]. split; [exact N'|].
    intros w. rewrite I'. cbn. intuition (subst; auto).
  - rewrite dmem_false, KS in E. rewrite dset_notin by now rewrite KS.
    assert (C : combine ks (seq 0 (length ks)) ++ [(i, length (combine ks (seq 0 (length ks))))] = combine (ks ++ [i]) (seq 0 (length (ks ++ [i])))).
    { rewrite combine_length, seq_length, Nat.min_id, app_length. cbn [length]. rewrite Nat.add_1_r, seq_S. cbn [Nat.add].
      symmetry. apply combine_snoc. now rewrite seq_length. }
    rewrite C. destruct (IH (ks ++ [i])) as (ks' & E' & N' & I').
    { rewrite <- (rev_involutive (ks ++ [i])). apply NoDup_rev. rewrite rev_app_distr. cbn. constructor; [now rewrite <- in_rev|now apply NoDup_rev]. }
    exists ks'. split; [exact E'|]. split; [exact N'|]. intros w. rewrite I', in_app_iff. cbn. intuition (subst; auto).
Qed.

Lemma mapping_ok : forall topics : list (list nat), exists ks, NoDup ks /\ (forall w, In w ks <-> exists t, In t topics /\ In w t) /\
  map_to_contiguous topics = combine ks (seq 0 (length ks)) /\ length (map_to_contiguous topics) = length ks /\
  (forall w k, dget (map_to_contiguous topics) w = Some k <-> nth_error ks k = Some w).
Proof.
  intros topics. destruct (mapping_inv (concat topics) [] (NoDup_nil _)) as (ks & E & HN & HI). exists ks.
  cbn [length seq combine] in E. unfold map_to_contiguous. rewrite E. split; [exact HN|]. split.
  { intros w. rewrite HI, in_concat. cbn. firstorder. }
  split; [reflexivity|]. split; [now rewrite combine_length, seq_length, Nat.min_id|].
  intros w k. rewrite (dget_combine_seq ks 0 w k HN). rewrite Nat.sub_0_r. intuition lia.
Qed.

(** ** One context vector *)

Lemma add_at_add : forall v n x y, add_at (add_at v n x) n y = add_at v n (x + y).
Proof.
  unfold add_at. induction v as [|a v IH]; intros [|n] x y; cbn; auto.
  - f_equal. lra.
  - f_equal. apply IH.
Qed.
Lemma add_at_0 : forall v n, add_at v n 0 = v.
Proof. unfold add_at. induction v as [|a v IH]; intros [|n]; cbn; auto; f_equal; auto; lra. Qed.
Lemma add_at_map : forall (g : nat -> R) ks n w x, NoDup ks -> nth_error ks n = Some w ->
  add_at (map g ks) n x = map (fun w' => if Nat.eq_dec w w' then g w' + x else g w') ks.
Proof.
  intros g. unfold add_at. induction ks as [|k ks IH]; intros [|n] w x HN E; try discriminate; inversion HN as [|? ? H1 H2]; subst.
  - injection E as ->. cbn. destruct (Nat.eq_dec w w); [|congruence]. f_equal. apply map_ext_in. intros a Ha.
    destruct (Nat.eq_dec w a); [subst; contradiction|reflexivity].
  - cbn in E. cbn. f_equal.
    + destruct (Nat.eq_dec w k); [|reflexivity]. subst. exfalso. apply H1. now apply nth_error_In in E.
    + now apply IH.
Qed.

Section Cosine.
  Context (a : accumulator) (n : nat) (o : nat -> nat) (c : nat -> nat -> nat) (ws : list nat) (f : nat -> nat -> R).
  Context (HC : counts ws a n o c) (HF : forall i j, In i ws -> In j ws -> m_nlr a i j = Ok (f i j)).
  Context (gamma : nat) (ks : list nat) (mapping : dict nat nat).
  Context (HKn : NoDup ks) (HKl : length mapping = length ks) (HKg : forall w k, dget mapping w = Some k <-> nth_error ks k = Some w).

  Let Fsym : forall i j, In i ws -> In j ws -> f i j = f j i.
  Proof.
    intros i j Hi Hj. pose proof (m_nlr_sym ws a n o c i j HC Hi Hj) as E. rewrite (HF i j Hi Hj), (HF j i Hj Hi) in E. now injection E.
  Qed.

  (** Every cached similarity is the similarity of its pair. *)
  Definition sim_sound (d : dict (nat * nat) R) : Prop :=
    forall i j x, dget d (i, j) = Some x -> In i ws -> In j ws -> x = f i j.

  Lemma sorted_pair_in i j : In i ws -> In j ws ->
    In (fst (sorted_pair i j)) ws /\ In (snd (sorted_pair i j)) ws /\ f (fst (sorted_pair i j)) (snd (sorted_pair i j)) = f i j.
  Proof. intros Hi Hj. unfold sorted_pair. destruct (j <? i)%nat; cbn; auto. Qed.

  Lemma inner_fold : forall us d v idx w, sim_sound d -> In w ws -> (forall u, In u us -> In u ws) ->
    exists d', sim_sound d' /\
    rfold (sim_step a gamma idx w) us (d, v) = Ok (d', add_at v idx (Rsum (map (fun u => f u w ^ gamma) us))).
  Proof.
    induction us as [|u us IH]; intros d v idx w SD Hw HU.
    - exists d. split; [exact SD|]. cbn. now rewrite add_at_0.
    - cbn [rfold]. unfold sim_step at 1. cbn [fst snd]. destruct (sorted_pair_in u w (HU u (or_introl eq_refl)) Hw) as (A1 & A2 & A3).
      assert (X : exists d1, sim_sound d1 /\ (match dget d (sorted_pair u w) with
                 | Some x => Ok (d, x)
                 | None => let* x := m_nlr a (fst (sorted_pair u w)) (snd (sorted_pair u w)) in Ok (dset d (sorted_pair u w) x, x)
                 end) = Ok (d1, f u w)).
      { destruct (dget d (sorted_pair u w)) as [x|] eqn:E.
        - exists d. split; [exact SD|]. rewrite <- A3. destruct (sorted_pair u w) as [p q]. now rewrite (SD p q x E A1 A2).
        - rewrite (HF _ _ A1 A2). cbn [rbind]. rewrite A3. eexists. split; [|reflexivity].
          intros i j x E1 Hi Hj. rewrite dget_dset in E1. destruct (eq_dec (sorted_pair u w) (i, j)) as [EQ|NE].
          + injection E1 as <-. rewrite EQ in A3. cbn in A3. congruence.
          + eapply SD; eauto. }
      destruct X as (d1 & SD1 & ->). cbn [rbind fst snd].
      destruct (IH d1 (add_at v idx (f u w ^ gamma)) idx w SD1 Hw) as (d2 & SD2 & E2); [intros; apply HU; simpl; auto|].
      exists d2. split; [exact SD2|]. etransitivity; [exact E2|]. now rewrite add_at_add.
  Qed.

  Lemma make_seg_ok : forall d seg t, sim_sound d -> (forall w, In w t -> In w ws /\ In w ks) -> (forall u, In u (seg_words seg) -> In u ws) ->
    exists d', sim_sound d' /\ make_seg a gamma mapping d seg t = Ok (d', map (context f gamma t seg) ks).
  Proof.
    intros d seg t SD HT HS. unfold make_seg. rewrite HKl.
    replace (repeat 0 (length ks)) with (map (context f gamma [] seg) ks).
    2:{ clear. induction ks; cbn; [reflexivity|]. f_equal; [unfold context; cbn; lra|assumption]. }
    change t with ([] ++ t) at 2. generalize (@nil nat) as t0. revert d SD.
    induction t as [|w t IH]; intros d SD t0.
    - exists d. split; [exact SD|]. now rewrite app_nil_r.
    - cbn [rfold]. destruct (HT w (or_introl eq_refl)) as [Hw Hk]. apply In_nth_error in Hk. destruct Hk as [k Ek].
      rewrite (proj2 (HKg w k) Ek). cbn [of_option rbind fst snd].
      destruct (inner_fold (seg_words seg) d (map (context f gamma t0 seg) ks) k w SD Hw HS) as (d1 & SD1 & E1).
      rewrite E1. cbn [rbind]. rewrite (add_at_map _ ks k w) by assumption.
      replace (map (fun w' => if Nat.eq_dec w w' then _ else _) ks) with (map (context f gamma (t0 ++ [w]) seg) ks).
      2:{ apply map_ext. intros w'. unfold context. rewrite count_occ_app. cbn [count_occ]. destruct (Nat.eq_dec w w') as [->|NE].
          - rewrite plus_INR. cbn [INR]. lra.
          - now rewrite Nat.add_0_r. }
      destruct (IH (fun w' H' => HT w' (or_intror H')) d1 SD1 (t0 ++ [w])) as (d2 & SD2 & E2). exists d2. split; [exact SD2|].
      rewrite E2. now rewrite <- app_assoc.
  Qed.

  (** ** The two caches *)
  Definition cv_sound (cs : caches) : Prop :=
    sim_sound (sim_cache cs) /\
    (forall seg t v, dget (context_vector_cache cs) (seg, t) = Some v -> v = map (context f gamma t seg) ks).

  Lemma context_vector_ok cs seg t : cv_sound cs -> (forall w, In w t -> In w ws /\ In w ks) -> (forall u, In u (seg_words seg) -> In u ws) ->
    exists cs', cv_sound cs' /\ compute_context_vector a gamma mapping cs seg t = Ok (cs', map (context f gamma t seg) ks).
  Proof.
    intros [S1 S2] HT HS. unfold compute_context_vector. destruct (dget (context_vector_cache cs) (seg, t)) as [v|] eqn:E.
    - exists cs. split; [split; assumption|]. now rewrite (S2 _ _ _ E).
    - destruct (make_seg_ok _ seg t S1 HT HS) as (d' & SD & ->). cbn [rbind fst snd]. eexists. split; [|reflexivity].
      split; [exact SD|]. cbn [context_vector_cache]. intros seg' t' v E'. rewrite dget_dset in E'.
      destruct (eq_dec (seg, t) (seg', t')) as [EQ|NE]; [injection EQ as <- <-; now injection E'|eapply S2; eauto].
  Qed.

  Lemma sum_keys : forall (h : nat -> R) t, (forall w, In w t -> In w ks) -> (forall w, ~ In w t -> h w = 0) ->
    Rsum (map h ks) = Rsum (map h (nodup Nat.eq_dec t)).
  Proof.
    intros h t HI HZ. transitivity (Rsum (map h (filter (fun w => memb w t) ks))).
    - clear HI HKn HKl HKg. induction ks as [|k l IH]; [reflexivity|]. cbn [map filter]. rewrite Rsum_cons.
      destruct (memb k t) eqn:E; cbn [map]; rewrite ?Rsum_cons, IH; [reflexivity|]. rewrite memb_false in E. rewrite HZ by assumption. lra.
    - apply Rsum_perm, Permutation_map, NoDup_Permutation; [now apply NoDup_filter|apply NoDup_nodup|].
      intros x. rewrite filter_In, nodup_In, memb_true. firstorder.
  Qed.

  Lemma context_zero t seg w : ~ In w t -> context f gamma t seg w = 0.
  Proof. intros NI. unfold context. rewrite (proj1 (count_occ_not_In Nat.eq_dec t w) NI). cbn. lra. Qed.

  Lemma cossim_ok t s1 s2 : (forall w, In w t -> In w ks) ->
    cv_cossim (map (context f gamma t s1) ks) (map (context f gamma t s2) ks) =
    cos_over (nodup Nat.eq_dec t) (context f gamma t s1) (context f gamma t s2).
  Proof.
    intros HI. unfold cv_cossim, cos_over, magnitude, vdot.
    assert (CM : forall (g h : nat -> R) l, combine (map g l) (map h l) = map (fun w => (g w, h w)) l).
    { intros g h l. induction l; cbn; [reflexivity|now f_equal]. }
    rewrite CM, !map_map. cbn [fst snd].
    rewrite !(sum_keys _ t) by (auto; intros w NI; rewrite !(context_zero t) by assumption; lra). reflexivity.
  Qed.

  Definition topic_cos (t : list nat) (ss : list (segment * segment)) : result R :=
    let* sims := rmapM (fun p : segment * segment => cos_over (nodup Nat.eq_dec t) (context f gamma t (fst p)) (context f gamma t (snd p))) ss in
    mean sims.

  Lemma segments_ok : forall t ss, (forall w, In w t -> In w ws /\ In w ks) ->
    (forall p u, In p ss -> In u (seg_words (fst p)) \/ In u (seg_words (snd p)) -> In u ws) ->
    forall cs acc, cv_sound cs ->
    match rmapM (fun p : segment * segment => cos_over (nodup Nat.eq_dec t) (context f gamma t (fst p)) (context f gamma t (snd p))) ss with
    | Ok l => exists cs', cv_sound cs' /\ rfold (cos_segment a gamma mapping t) ss (cs, acc) = Ok (cs', acc ++ l)
    | Err e => rfold (cos_segment a gamma mapping t) ss (cs, acc) = Err e
    end.
  Proof.
    intros t ss HT. induction ss as [|p ss IH]; intros HS cs acc SC.
    - cbn. exists cs. now rewrite app_nil_r.
    - cbn [rmapM rfold]. unfold cos_segment at 1 3. cbn [fst snd].
      destruct (context_vector_ok cs (fst p) t SC HT) as (c1 & SC1 & ->); [intros u Hu; apply (HS p); simpl; auto|]. cbn [rbind fst snd].
      destruct (context_vector_ok c1 (snd p) t SC1 HT) as (c2 & SC2 & ->); [intros u Hu; apply (HS p); simpl; auto|]. cbn [rbind fst snd].
      rewrite cossim_ok by (intros w Hw; now apply HT).
      destruct (cos_over _ _ _) as [x|e]; cbn [rbind]; [|reflexivity].
      specialize (IH (fun p' u H' => HS p' u (or_intror H')) c2 (acc ++ [x]) SC2).
      destruct (rmapM _ ss) as [l|e]; cbn [rbind]; [|exact IH]. destruct IH as (cs' & SC' & E'). exists cs'. split; [exact SC'|].
      rewrite E'. now rewrite <- app_assoc.
  Qed.

  Lemma topics_ok : forall l,
    (forall t ss, In (t, ss) l -> (forall w, In w t -> In w ws /\ In w ks) /\
       (forall p u, In p ss -> In u (seg_words (fst p)) \/ In u (seg_words (snd p)) -> In u ws)) ->
    forall cs acc, cv_sound cs ->
    (let* st := rfold (fun (st : caches * list R) (ts : list nat * list (segment * segment)) =>
      let* s := rfold (cos_segment a gamma mapping (fst ts)) (snd ts) (fst st, []) in
      let* m := mean (snd s) in
      Ok (fst s, snd st ++ [m])) l (cs, acc) in Ok (snd st)) =
    (let* r := rmapM (fun ts => topic_cos (fst ts) (snd ts)) l in Ok (acc ++ r)).
  Proof.
    induction l as [|[t ss] l IH]; intros HL cs acc SC; [cbn; now rewrite app_nil_r|].
    cbn [rfold rmapM fst snd]. destruct (HL t ss (or_introl eq_refl)) as [HT HS].
    pose proof (segments_ok t ss HT HS cs [] SC) as G. unfold topic_cos at 1.
    destruct (rmapM _ ss) as [sims|e]; cbn [rbind]; [|rewrite G; reflexivity].
    destruct G as (cs' & SC' & ->). cbn [rbind fst snd app].
    destruct (mean sims) as [m|e]; cbn [rbind]; [|reflexivity].
    rewrite IH by (auto; intros; apply HL; simpl; auto).
    destruct (rmapM _ l) as [r|e]; cbn [rbind]; [|reflexivity]. now rewrite <- app_assoc.
  Qed.
End Cosine.

(** For all topics and segments, in whatever order the caches are filled: the
    mean cosine of the context vectors. *)
Theorem cosine_exact : forall a n o c ws f gamma topics segs, counts ws a n o c ->
  (forall i j, In i ws -> In j ws -> m_nlr a i j = Ok (f i j)) ->
  (forall t w, In t topics -> In w t -> In w ws) ->
  (forall ss p u, In ss segs -> In p ss -> In u (seg_words (fst p)) \/ In u (seg_words (snd p)) -> In u ws) ->
  cosine_similarity segs a topics gamma =
    rmapM (fun ts : list nat * list (segment * segment) =>
      let* sims := rmapM (fun p : segment * segment =>
        cos_over (nodup Nat.eq_dec (fst ts)) (context f gamma (fst ts) (fst p)) (context f gamma (fst ts) (snd p))) (snd ts) in
      mean sims) (combine topics segs).
Proof.
  intros a n o c ws f gamma topics segs HC HF HT HS. unfold cosine_similarity.
  destruct (mapping_ok topics) as (ks & K1 & K2 & _ & K4 & K5).
  rewrite (topics_ok a n o c ws f HC HF gamma ks (map_to_contiguous topics) K1 K4 K5).
  - unfold topic_cos. destruct (rmapM _ (combine topics segs)); reflexivity.
  - intros t ss Hp. split.
    + intros w Hw. apply in_combine_l in Hp. split; [eauto|]. apply K2. eauto.
    + intros p u H1 H2. apply in_combine_r in Hp. eapply HS; eauto.
  - split; cbn; discriminate.
Qed.
Print Assumptions cosine_exact.

(** Words 2 and 3, each in one of two windows: similarity [v] with themselves, [u] with each other. *)
Lemma cosine_values : exists u v, m_nlr acc_ex 2 2 = Ok v /\ m_nlr acc_ex 3 3 = Ok v /\ m_nlr acc_ex 2 3 = Ok u /\ m_nlr acc_ex 3 2 = Ok u /\ 1 < v /\ -1 <= u <= 1.
Proof.
  destruct (npmi_range [1; 2; 3]%nat acc_ex 2 o_ex c_ex 2 3 acc_ex_counts) as (u & E1 & E2 & L & _ & U); cbn [In]; auto; try discriminate.
  { unfold prob. cbn. lra. }
  destruct (npmi_range [1; 2; 3]%nat acc_ex 2 o_ex c_ex 2 2 acc_ex_counts) as (v & E3 & _ & _ & U3 & _); cbn [In]; auto; try discriminate.
  { unfold prob. cbn. lra. }
  exists u, v. split; [exact E3|]. split; [rewrite <- E3; reflexivity|]. split; [exact E1|]. split; [exact E2|]. split.
  - destruct (Rle_dec v 1) as [LE|]; [|lra]. exfalso. apply U3 in LE. unfold prob in LE. cbn in LE. lra.
  - split; [exact L|]. apply U; [reflexivity|cbn; lra].
Qed.

Example cosine_ex : exists u v, m_nlr acc_ex 2 3 = Ok u /\ m_nlr acc_ex 2 2 = Ok v /\ 1 < v /\
  cosine_similarity [[(One 2, One 3)]]%nat acc_ex [[2; 3]]%nat 1 = Ok [2 * u * v / (u * u + v * v)].
Proof.
  destruct cosine_values as (u & v & E22 & E33 & E23 & E32 & V & U). exists u, v. repeat (split; [assumption|]).
  set (f := fun i j : nat => if Nat.eq_dec i j then v else u).
  assert (H : counts [2; 3]%nat acc_ex 2 o_ex c_ex).
  { destruct acc_ex_counts. split; auto; intros; cbn [In] in *; intuition auto. }
  rewrite (cosine_exact acc_ex 2 o_ex c_ex [2; 3]%nat f 1 [[2; 3]]%nat [[(One 2, One 3)]]%nat H).
  - cbn [combine rmapM fst snd]. unfold cos_over, context, f. cbn -[INR sqrt]. cbn [INR].
    match goal with |- context [Req_EM_T (sqrt ?x * sqrt ?y) 0] =>
      replace x with (v * v + u * u) by ring; replace y with (v * v + u * u) by ring end.
    assert (P : 0 < v * v + u * u) by nra. rewrite sqrt_sqrt by lra. destruct (Req_EM_T _ 0) as [|_]; [lra|]. cbn [rbind].
    cbn [mean rbind Rsum fold_right length INR]. f_equal. f_equal. field. nra.
  - intros i j [<-|[<-|[]]] [<-|[<-|[]]]; assumption.
  - intros t w [<-|[]] Hw; exact Hw.
  - intros ss p w [<-|[]] [<-|[]]. cbn. tauto.
Qed.

(** Every coherence value of the cosine measure lies in [-1, 1]. *)
Lemma cossim_range : forall v1 v2 x, cv_cossim v1 v2 = Ok x -> -1 <= x <= 1.
Proof.
  intros v1 v2 x E. unfold cv_cossim in E. destruct (Req_EM_T _ 0) as [|NZ]; [discriminate|]. injection E as <-.
  unfold magnitude in *. set (s1 := Rsum (map (fun x => x * x) v1)) in *. set (s2 := Rsum (map (fun x => x * x) v2)) in *.
  assert (N : forall v, 0 <= Rsum (map (fun x => x * x) v)).
  { intros v. apply Rsum_nonneg. intros y Hy. apply in_map_iff in Hy. destruct Hy as (z & <- & _). nra. }
  assert (TR : forall (u v : list R), Rsum (map (fun p : R * R => fst p ^ 2) (combine u v)) <= Rsum (map (fun x => x * x) u)).
  { induction u as [|y u IH]; intros [|z v]; cbn [combine map]; rewrite ?Rsum_cons; try (cbn; lra); try (pose proof (N u)).
    - change (Rsum []) with 0. nra.
    - specialize (IH v). cbn [fst]. lra. }
  assert (TR2 : forall (u v : list R), Rsum (map (fun p : R * R => snd p ^ 2) (combine u v)) <= Rsum (map (fun x => x * x) v)).
  { induction u as [|y u IH]; intros [|z v]; cbn [combine map]; rewrite ?Rsum_cons; try (cbn; lra); try (pose proof (N v)).
    - change (Rsum []) with 0. nra.
    - specialize (IH v). cbn [snd]. lra. }
  pose proof (cauchy_schwarz (fun p : R * R => fst p) (fun p => snd p) (combine v1 v2)) as CS.
  fold (vdot v1 v2) in CS. specialize (TR v1 v2). specialize (TR2 v1 v2). fold s1 in TR. fold s2 in TR2.
  pose proof (N v1) as N1. pose proof (N v2) as N2. fold s1 in N1. fold s2 in N2.
  assert (Q1 : 0 <= Rsum (map (fun p : R * R => fst p ^ 2) (combine v1 v2))) by (apply Rsum_nonneg; intros y Hy; apply in_map_iff in Hy; destruct Hy as (z & <- & _); nra).
  assert (Q2 : 0 <= Rsum (map (fun p : R * R => snd p ^ 2) (combine v1 v2))) by (apply Rsum_nonneg; intros y Hy; apply in_map_iff in Hy; destruct Hy as (z & <- & _); nra).
  assert (CS2 : vdot v1 v2 ^ 2 <= s1 * s2) by (eapply Rle_trans; [exact CS|now apply Rmult_le_compat]).
  pose proof (sqrt_pos s1) as P1. pose proof (sqrt_pos s2) as P2.
  set (d := sqrt s1 * sqrt s2) in *. assert (D2 : d * d = s1 * s2).
  { unfold d. replace (sqrt s1 * sqrt s2 * (sqrt s1 * sqrt s2)) with ((sqrt s1 * sqrt s1) * (sqrt s2 * sqrt s2)) by ring.
    now rewrite !sqrt_sqrt by assumption. }
  assert (DP : 0 < d) by (assert (0 <= d) by (unfold d; now apply Rmult_le_pos); lra).
  set (r := vdot v1 v2) in *. assert (E : r / d * d = r) by (field; lra).
  split; apply Rmult_le_reg_r with d; auto; rewrite E; nra.
Qed.

Theorem cosine_range : forall segs a topics gamma l, cosine_similarity segs a topics gamma = Ok l -> forall x, In x l -> -1 <= x <= 1.
Proof.
  intros segs a topics gamma l E. unfold cosine_similarity in E.
  set (mapping := map_to_contiguous topics) in E. clearbody mapping.
  assert (S1 : forall t ss st st', rfold (cos_segment a gamma mapping t) ss st = Ok st' ->
    (forall x, In x (snd st) -> -1 <= x <= 1) -> forall x, In x (snd st') -> -1 <= x <= 1).
  { induction ss as [|p ss IH]; intros st st' Er H; cbn in Er; [injection Er as <-; exact H|].
    destruct (cos_segment a gamma mapping t st p) as [st1|] eqn:E1; [|discriminate]. cbn in Er. apply (IH _ _ Er).
    unfold cos_segment in E1. destruct (compute_context_vector _ _ _ (fst st) _ _) as [c1|]; [|discriminate]. cbn in E1.
    destruct (compute_context_vector _ _ _ (fst c1) _ _) as [c2|]; [|discriminate]. cbn in E1.
    destruct (cv_cossim (snd c1) (snd c2)) as [y|] eqn:Ey; [|discriminate]. injection E1 as <-. cbn [snd]. intros x Hx.
    apply in_app_iff in Hx. destruct Hx as [Hx|[<-|[]]]; [auto|]. eapply cossim_range; eauto. }
  revert E. generalize (combine topics segs) as ts. intros ts.
  assert (G : forall ts cs acc, (forall x, In x acc -> -1 <= x <= 1) ->
    (let* st := rfold (fun (st : caches * list R) (ts : list nat * list (segment * segment)) =>
      let* s := rfold (cos_segment a gamma mapping (fst ts)) (snd ts) (fst st, []) in
      let* m := mean (snd s) in Ok (fst s, snd st ++ [m])) ts (cs, acc) in Ok (snd st)) = Ok l -> forall x, In x l -> -1 <= x <= 1).
  { clear ts. induction ts as [|t ts IH]; intros cs acc HA E; cbn in E; [injection E as <-; exact HA|].
    destruct (rfold (cos_segment a gamma mapping (fst t)) (snd t) (cs, [])) as [s|] eqn:Es; [|discriminate]. cbn [rbind] in E.
    destruct (mean (snd s)) as [m|] eqn:Em; [|discriminate]. cbn [rbind] in E. apply (IH (fst s) (acc ++ [m])); [|exact E].
    intros x Hx. apply in_app_iff in Hx. destruct Hx as [Hx|[<-|[]]]; [auto|].
    apply (mean_range (-1) 1 (snd s) m); [|exact Em]. apply (S1 _ _ _ _ Es). intros y []. }
  apply G. intros x [].
Qed.
Print Assumptions cosine_range.

Example cosine_range_ex : exists x, cosine_similarity [[(One 2, One 3)]]%nat acc_ex [[2; 3]]%nat 1 = Ok [x] /\ -1 <= x <= 1.
Proof. destruct cosine_ex as (u & v & _ & _ & _ & E). eexists. split; [exact E|]. eapply cosine_range; [exact E|]. now left. Qed.
