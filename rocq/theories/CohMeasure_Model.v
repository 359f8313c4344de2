(** * Topic coherence: segmentation, confirmation measures, aggregation.

    Model of gensim/topic_coherence/segmentation.py, direct_confirmation_measure.py,
    indirect_confirmation_measure.py (cosine_similarity) and aggregation.py, over
    the mathematical reals (no rounding, infinities or NaN: a division by zero or a
    mean of nothing, which gives inf or nan with numpy numbers and raises
    ZeroDivisionError with Python numbers, is [Err ZeroDivErr] here). *)
From Coq Require Import List Arith Reals.
From Verif Require Import Base MatReal_Model CohAccum_Model.
Local Open Scope R_scope.

(** ** segmentation.py *)

(** 44-53: one topic of [s_one_pre]. *)
Definition s_one_pre1 (top_words : list nat) : list (nat * nat) :=
  concat (map (fun iw : nat * nat => map (fun w_star => (snd iw, w_star)) (firstn (fst iw + 1) top_words))
    (combine (seq 0 (length (tl top_words))) (tl top_words))).

(** 82-95: one topic of [s_one_one]. *)
Definition s_one_one1 (top_words : list nat) : list (nat * nat) :=
  let e := combine (seq 0 (length top_words)) top_words in
  flat_map (fun iw : nat * nat => flat_map (fun jw : nat * nat =>
    if (fst iw =? fst jw)%nat then [] else [(snd iw, snd jw)]) e) e.

(** 125-133: one topic of [s_one_set]. *)
Definition s_one_set1 (top_words : list nat) : list (nat * list nat) :=
  map (fun w => (w, top_words)) top_words.

(** ** direct_confirmation_measure.py *)

(** What the measures use of an accumulator. *)
Record accumulator : Type := Accum {
  a_docs : nat;
  a_occ : nat -> result nat;
  a_co : nat -> nat -> result nat
}.

(** 16: [EPSILON]. *)
Definition EPSILON : R := / 1000000000000.

(** 116-125: [aggregate_segment_sims] without standard deviation and support. *)
Definition mean (l : list R) : result R :=
  match l with [] => Err ZeroDivErr | _ => Ok (Rsum l / INR (length l)) end.

(** 66, 70-78: one pair of [log_conditional_probability]; with an accumulator of
    Python counts a zero count raises ZeroDivisionError, which is caught. *)
Definition m_lc (a : accumulator) (w_prime w_star : nat) : result R :=
  match (let* w_star_count := a_occ a w_star in
         let* co_occur_count := a_co a w_prime w_star in
         if (a_docs a =? 0)%nat || (w_star_count =? 0)%nat then Err ZeroDivErr
         else Ok (ln ((INR co_occur_count / INR (a_docs a) + EPSILON) / (INR w_star_count / INR (a_docs a))))) with
  | Err KeyError | Err ZeroDivErr => Ok 0
  | r => r
  end.

(** 65-84. *)
Definition log_conditional_probability (segmented_topics : list (list (nat * nat))) (a : accumulator) : result (list R) :=
  rmapM (fun s_i => let* sims := rmapM (fun p : nat * nat => m_lc a (fst p) (snd p)) s_i in mean sims) segmented_topics.

(** 187, 191-193, 201-205: one pair of [log_ratio_measure], [normalize=False]. *)
Definition m_lr (a : accumulator) (w_prime w_star : nat) : result R :=
  let* w_prime_count := a_occ a w_prime in
  let* w_star_count := a_occ a w_star in
  let* co_occur_count := a_co a w_prime w_star in
  if (a_docs a =? 0)%nat || (w_prime_count =? 0)%nat || (w_star_count =? 0)%nat then Err ZeroDivErr
  else
    let numerator := INR co_occur_count / INR (a_docs a) + EPSILON in
    let denominator := (INR w_prime_count / INR (a_docs a)) * (INR w_star_count / INR (a_docs a)) in
    Ok (ln (numerator / denominator)).

(** 191-199: [normalize=True]; the inner call works on one pair and takes the mean of its one value. *)
Definition m_nlr (a : accumulator) (w_prime w_star : nat) : result R :=
  let* _ := a_occ a w_prime in
  let* _ := a_occ a w_star in
  let* co_occur_count := a_co a w_prime w_star in
  let* numerator := m_lr a w_prime w_star in
  let d := - ln (INR co_occur_count / INR (a_docs a) + EPSILON) in
  if Req_EM_T d 0 then Err ZeroDivErr else Ok (numerator / d).

(** 186-215. *)
Definition log_ratio_measure (normalize : bool) (segmented_topics : list (list (nat * nat))) (a : accumulator) : result (list R) :=
  rmapM (fun s_i =>
    let* sims := rmapM (fun p : nat * nat => if normalize then m_nlr a (fst p) (snd p) else m_lr a (fst p) (snd p)) s_i in
    mean sims) segmented_topics.

(** ** The u_mass pipeline (models/coherencemodel.py 51-56, 534-539, 548-584, 586-600, 602-615) *)

(** topic_coherence/probability_estimation.py 231-263: [unique_ids_from_segments]; in any order. *)
Definition segment_ids (segmented_topics : list (list (nat * nat))) : list nat :=
  nodup Nat.eq_dec (flat_map (fun p : nat * nat => [fst p; snd p]) (concat segmented_topics)).

Definition corpus_accumulator (relevant_ids : list nat) (s : ii_state) : accumulator :=
  Accum (ii_docs s) (ii_occurrences relevant_ids s) (ii_co_occurrences relevant_ids s).

Definition u_mass_per_topic {W : Type} (corpus : list (list (nat * W))) (topics : list (list nat)) : result (list R) :=
  let segmented_topics := map s_one_pre1 topics in
  let relevant_ids := segment_ids segmented_topics in
  let* s := corpus_accumulate relevant_ids (ii_init (length relevant_ids)) corpus in
  log_conditional_probability segmented_topics (corpus_accumulator relevant_ids s).

(** aggregation.py 15-39: [arithmetic_mean]. *)
Definition u_mass {W : Type} (corpus : list (list (nat * W))) (topics : list (list nat)) : result R :=
  let* l := u_mass_per_topic corpus topics in mean l.

(** ** indirect_confirmation_measure.py *)

(** 330-337: [_map_to_contiguous]. *)
Definition map_to_contiguous (topics : list (list nat)) : dict nat nat :=
  fold_left (fun d i => if dmem d i then d else dset d i (length d)) (concat topics) [].

(** A segment: one word, or an iterable of words. *)
Inductive segment : Type := One (w : nat) | Many (ws : list nat).
Global Instance EqDec_segment : EqDec segment.
Proof. intros [a|a] [b|b]; try (right; congruence); destruct (eq_dec a b); [left|right|left|right]; congruence. Defined.
Definition seg_words (s : segment) : list nat := match s with One w => [w] | Many ws => ws end.

(** The caches of a [ContextVectorComputer] (244-245). *)
Record caches : Type := Caches {
  sim_cache : dict (nat * nat) R;
  context_vector_cache : dict (segment * list nat) (list R)
}.

(** [tuple(sorted((w_i, w_j)))]. *)
Definition sorted_pair (i j : nat) : nat * nat := if (j <? i)%nat then (j, i) else (i, j).

(** [context_vector[idx] += x] for an index within the vector. *)
Definition add_at (v : list R) (n : nat) (x : R) : list R :=
  firstn n v ++ match skipn n v with [] => [] | y :: r => (y + x) :: r end.

(** 294-298: one pair of [_make_seg]. *)
Definition sim_step (a : accumulator) (gamma idx w_j : nat) (st : dict (nat * nat) R * list R) (w_i : nat) : result (dict (nat * nat) R * list R) :=
  let pair := sorted_pair w_i w_j in
  let* cx := match dget (fst st) pair with
             | Some x => Ok (fst st, x)
             | None => let* x := m_nlr a (fst pair) (snd pair) in Ok (dset (fst st) pair x, x)
             end in
  Ok (fst cx, add_at (snd st) idx (snd cx ^ gamma)).

(** 273-300: [_make_seg]. *)
Definition make_seg (a : accumulator) (gamma : nat) (mapping : dict nat nat) (c : dict (nat * nat) R)
    (seg : segment) (topic_words : list nat) : result (dict (nat * nat) R * list R) :=
  rfold (fun (st : dict (nat * nat) R * list R) w_j =>
    let* idx := of_option KeyError (dget mapping w_j) in
    rfold (sim_step a gamma idx w_j) (seg_words seg) st)
    topic_words (c, repeat 0 (length mapping)).

(** 250-271, 340-343: [compute_context_vector]. *)
Definition compute_context_vector (a : accumulator) (gamma : nat) (mapping : dict nat nat) (c : caches)
    (seg : segment) (topic_words : list nat) : result (caches * list R) :=
  match dget (context_vector_cache c) (seg, topic_words) with
  | Some v => Ok (c, v)
  | None =>
    let* cv := make_seg a gamma mapping (sim_cache c) seg topic_words in
    Ok (Caches (fst cv) (dset (context_vector_cache c) (seg, topic_words) (snd cv)), snd cv)
  end.

(** 322-327: [_cossim], [_magnitude]. *)
Definition vdot (v1 v2 : list R) : R := Rsum (map (fun xy : R * R => fst xy * snd xy) (combine v1 v2)).
Definition magnitude (v : list R) : R := sqrt (Rsum (map (fun x => x * x) v)).
Definition cv_cossim (v1 v2 : list R) : result R :=
  if Req_EM_T (magnitude v1 * magnitude v2) 0 then Err ZeroDivErr
  else Ok (vdot v1 v2 / (magnitude v1 * magnitude v2)).

(** 169-182: [cosine_similarity]. *)
Definition cos_segment (a : accumulator) (gamma : nat) (mapping : dict nat nat) (topic_words : list nat)
    (st : caches * list R) (p : segment * segment) : result (caches * list R) :=
  let* c1 := compute_context_vector a gamma mapping (fst st) (fst p) topic_words in
  let* c2 := compute_context_vector a gamma mapping (fst c1) (snd p) topic_words in
  let* x := cv_cossim (snd c1) (snd c2) in
  Ok (fst c2, snd st ++ [x]).
Definition cosine_similarity (segmented_topics : list (list (segment * segment))) (a : accumulator) (topics : list (list nat))
    (gamma : nat) : result (list R) :=
  let mapping := map_to_contiguous topics in
  let* st := rfold (fun (st : caches * list R) (ts : list nat * list (segment * segment)) =>
      let* s := rfold (cos_segment a gamma mapping (fst ts)) (snd ts) (fst st, []) in
      let* m := mean (snd s) in
      Ok (fst s, snd st ++ [m])) (combine topics segmented_topics) (Caches [] [], []) in
  Ok (snd st).
