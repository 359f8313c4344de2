(** * CoherenceModel: topics, topn and the cached accumulator.

    Model of gensim/models/coherencemodel.py for the u_mass measure (s_one_pre,
    document counts of a corpus, log conditional probability).  The corpus and the
    dictionary are fixed.  The accumulator is represented by its set of relevant
    ids: its counts are those of [corpus_accumulate] on the corpus. *)
From Coq Require Import List Arith Reals.
From Verif Require Import Base Str MatReal_Model CohAccum_Model CohMeasure_Model.

(** A topic as given by the caller: tokens, or ids. *)
Inductive elem : Type := Tok (t : pystr) | Id (i : nat).

Section CM.
  Context {W : Type} (corpus : list (list (nat * W))).
  Context (token2id : dict pystr nat) (id2token : dict nat pystr).
  (** [np.array_equal] on two lists of topics. *)
  Context (array_equal : list (list nat) -> list (list nat) -> bool).
  (** A topic model: its topics, longest first [topn] words ([_get_topics_from_model], 466-491). *)
  Definition tmodel : Type := nat -> list (list nat).

  Record cm : Type := CM {
    c_model : option tmodel;
    c_topn : nat;
    c_acc : option (list nat);
    c_topics : option (list (list nat))
  }.

  (** 438-443: [_ensure_elements_are_ids]. *)
  Definition tok_id (e : elem) : result nat :=
    match e with Tok t => of_option KeyError (dget token2id t) | Id _ => Err KeyError end.
  Definition id_tok_id (e : elem) : result nat :=
    match e with
    | Tok _ => Err KeyError
    | Id i => let* t := of_option KeyError (dget id2token i) in of_option KeyError (dget token2id t)
    end.
  Definition ensure_ids (topic : list elem) : result (list nat) :=
    match rmapM tok_id topic with
    | Ok l => Ok l
    | Err KeyError => rmapM id_tok_id topic
    | Err e => Err e
    end.

  (** 445-461: [_update_accumulator], [_relevant_ids_will_differ], [_topics_differ]. *)
  Definition update_accumulator (s : cm) (new_topics : option (list (list nat))) : cm :=
    match c_acc s, new_topics, c_topics s with
    | Some rel, Some new, Some old =>
      if negb (array_equal new old) && negb (forallb (fun i => memb i rel) (segment_ids (map s_one_pre1 new)))
      then CM (c_model s) (c_topn s) None (c_topics s) else s
    | _, _, _ => s
    end.

  (** 412-436: the [topics] setter. *)
  Definition set_topics (s : cm) (topics : option (list (list elem))) : result cm :=
    let* new_topics :=
      match topics, c_model s with
      | Some ts, _ => let* l := rmapM ensure_ids ts in Ok (Some l)
      | None, Some m => Ok (Some (m (c_topn s)))
      | None, None => Ok None
      end in
    let s := update_accumulator s new_topics in
    Ok (CM (c_model s) (c_topn s) (c_acc s) new_topics).

  (** 338-351: the [model] setter. *)
  Definition set_model (s : cm) (model : option tmodel) : cm :=
    let s := CM model (c_topn s) (c_acc s) (c_topics s) in
    match model with
    | None => s
    | Some m =>
      let new_topics := Some (m (c_topn s)) in
      let s := update_accumulator s new_topics in
      CM (c_model s) (c_topn s) (c_acc s) new_topics
    end.

  (** 365-387: the [topn] setter. *)
  Definition set_topn (s : cm) (topn : nat) : result cm :=
    match c_topics s with
    | None => Err TypeError
    | Some [] => Err IndexError
    | Some (t0 :: _) =>
      let requires_expansion := length t0 <? topn in
      match c_model s with
      | Some m =>
        let s := CM (c_model s) topn (c_acc s) (c_topics s) in
        if requires_expansion then Ok (set_model s (Some m)) else Ok s
      | None => if requires_expansion then Err ValueError else Ok (CM None topn (c_acc s) (c_topics s))
      end
    end.

  (** 402-410: the [topics] getter. *)
  Definition visible (topn : nat) (topics : list (list nat)) : result (list (list nat)) :=
    match topics with
    | [] => Err IndexError
    | t0 :: _ => if topn <? length t0 then Ok (map (firstn topn) topics) else Ok topics
    end.
  Definition get_topics (s : cm) : result (list (list nat)) :=
    match c_topics s with None => Err TypeError | Some ts => visible (c_topn s) ts end.

  (** 548-584: [get_coherence_per_topic], with 512-546: [estimate_probabilities].
      A topic without any pair has the coherence nan; that is no exception, so
      the list of values is a result of its own. *)
  Definition coherence_per_topic (s : cm) : result (cm * result (list R)) :=
    let* topics := get_topics s in
    let segmented_topics := map s_one_pre1 topics in
    let rel := match c_acc s with Some rel => rel | None => segment_ids segmented_topics end in
    Ok (CM (c_model s) (c_topn s) (Some rel) (c_topics s),
        let* acc := corpus_accumulate rel (ii_init (length rel)) corpus in
        log_conditional_probability segmented_topics (corpus_accumulator rel acc)).

  (** 164-215: the constructor (for the arguments it accepts). *)
  Definition new_cm (model : option tmodel) (topics : option (list (list elem))) (topn : nat) : result cm :=
    match model, topics with
    | None, None => Err ValueError
    | _, _ => set_topics (CM model topn None None) topics
    end.

  (** 518-546: [estimate_probabilities] on the own topics. *)
  Definition estimate_probabilities (s : cm) : result cm :=
    let* topics := get_topics s in
    Ok (CM (c_model s) (c_topn s) (Some (segment_ids (map s_one_pre1 topics))) (c_topics s)).

  (** 303-325: [for_topics]. *)
  Definition for_topics (topics_as_topn_terms : list (list (list elem))) (topn : option nat) : result cm :=
    if (length topics_as_topn_terms =? 0) || existsb (fun l => length l =? 0) topics_as_topn_terms then Err ValueError
    else
      let longest := fold_left (fun n topic => Nat.max n (length topic)) (concat topics_as_topn_terms) 0 in
      let topn := match topn with Some n => Nat.min n longest | None => longest end in
      let super_topic := concat (concat topics_as_topn_terms) in
      let* s := new_cm None (Some [super_topic]) (length super_topic) in
      let* s := estimate_probabilities s in
      set_topn s topn.

  (** 680-683: [topn_grid]. *)
  Fixpoint down5 (fuel n last : nat) : list nat :=
    match fuel with
    | O => []
    | S fuel => if last <? n then n :: down5 fuel (n - 5) last else []
    end.
  (** For [topn = 0] the last value is -1 and the grid is [0]. *)
  Definition topn_grid (topn : nat) : list nat :=
    if topn =? 0 then [0] else down5 topn topn (Nat.min (topn - 1) 4).

  (** 685-700: [_compare_model_topics], the coherence of each topic for each model
      and each value of topn (the averages over them are not modelled). *)
  Definition compare_grid (s : cm) (grid : list nat) : result (cm * list (result (list R))) :=
    rfold (fun (st : cm * list (result (list R))) n =>
      let* s := set_topn (fst st) n in
      let* sl := coherence_per_topic s in
      Ok (fst sl, snd st ++ [snd sl])) grid (s, []).
  Definition compare_inner (s : cm) (model_topics : list (list (list elem))) : result (cm * list (list (result (list R)))) :=
    let grid := topn_grid (c_topn s) in
    rfold (fun (st : cm * list (list (result (list R)))) topics =>
      let* s := set_topics (fst st) (Some topics) in
      let* sl := compare_grid s grid in
      Ok (fst sl, snd st ++ [snd sl])) model_topics (s, []).

  (** 652-663: [compare_model_topics]. The original topics are put back as ids.
      (When the comparison fails, the [finally] part runs on an intermediate
      state; only the failure is kept here.) *)
  Definition compare_model_topics (s : cm) (model_topics : list (list (list elem))) : result (cm * list (list (result (list R)))) :=
    let* sl := compare_inner s model_topics in
    let* s1 := set_topics (fst sl) (option_map (map (map Id)) (c_topics s)) in
    let* s2 := set_topn s1 (c_topn s) in
    Ok (s2, snd sl).
End CM.


