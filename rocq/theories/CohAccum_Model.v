(** * Topic coherence: the occurrence accumulators of
    gensim/topic_coherence/text_analysis.py.

    Simplifications: words are strings, word ids and counts are unbounded
    naturals (uint32 in the code); a sparse matrix is the function from its two
    indices to the entry; logging is left out; [relevant_ids] (a set in the
    code) is the list of its elements in iteration order. *)
From Coq Require Import List Bool Arith Lia.
From Verif Require Import Base Str Utils_Model.

(** [l[i] = x] for an array. *)
Definition lput {A : Type} (l : list A) (i : nat) (x : A) : result (list A) :=
  if i <? length l then Ok (firstn i l ++ x :: skipn (S i) l) else Err IndexError.

(** text_analysis.py 25-67: [_ids_to_words] for a dictionary whose [id2token]
    gives one word per id (a dict, already initialised). *)
Definition ids_to_words (id2token : dict nat pystr) (ids : list nat) : result (list pystr) :=
  rmapM (fun i => of_option KeyError (dget id2token i)) ids.

(** 109: [self.id2contiguous]. *)
Definition id2contiguous (relevant_ids : list nat) : dict nat nat :=
  dict_of (combine relevant_ids (seq 0 (length relevant_ids))).

(** 309-314: [text_is_relevant]. *)
Definition text_is_relevant (relevant_words : list pystr) (text : list pystr) : bool :=
  existsb (fun w => memb w relevant_words) text.

(** 300-307: one array of [_iter_texts]; [_none_token] is [len(relevant_ids)]
    (288). *)
Definition contig_text (token2id : dict pystr nat) (relevant_ids : list nat) (relevant_words : list pystr)
    (text : list pystr) : result (list nat) :=
  rmapM (fun w =>
    if memb w relevant_words then
      let* i := of_option KeyError (dget token2id w) in
      of_option KeyError (dget (id2contiguous relevant_ids) i)
    else Ok (length relevant_ids)) text.

Definition iter_texts (token2id : dict pystr nat) (relevant_ids : list nat) (relevant_words : list pystr)
    (texts : list (list pystr)) : result (list (list nat)) :=
  rmapM (contig_text token2id relevant_ids relevant_words) (filter (text_is_relevant relevant_words) texts).

(** ** WordOccurrenceAccumulator (326-407) *)

Record occ_state : Type := OS {
  occ : list nat;                        (* _occurrences *)
  co : nat -> nat -> nat;                (* _co_occurrences *)
  ndocs : nat;                           (* _num_docs *)
  uniq : list bool;                      (* _uniq_words *)
  cur_doc : option nat;                  (* _current_doc_num; None is -1 *)
  edge : option nat;                     (* _token_at_edge *)
  counter : dict (nat * nat) nat         (* _counter *)
}.

(** 329-335: [__init__]. *)
Definition occ_init (vocab_size : nat) : occ_state :=
  OS (repeat 0 vocab_size) (fun _ _ => 0) 0 (repeat false (S vocab_size)) None None [].

(** 373-382: [_slide_window]. *)
Definition slide_window (s : occ_state) (window : list nat) (doc_num : nat) : result occ_state :=
  let* u :=
    match cur_doc s with
    | Some d =>
      if d =? doc_num then
        let* e := of_option TypeError (edge s) in
        let* u1 := lput (uniq s) e false in
        let* x := of_option IndexError (nth_error window (length window - 1)) in
        lput u1 x true
      else rfold (fun u x => lput u x true) window (map (fun _ => false) (uniq s))
    | None => rfold (fun u x => lput u x true) window (map (fun _ => false) (uniq s))
    end in
  let* e := of_option IndexError (nth_error window 0) in
  Ok (OS (occ s) (co s) (ndocs s) u (Some doc_num) (Some e) (counter s)).

(** [itertools.combinations(l, 2)]. *)
Fixpoint combinations2 {A : Type} (l : list A) : list (A * A) :=
  match l with
  | [] => []
  | x :: l' => map (fun y => (x, y)) l' ++ combinations2 l'
  end.

(** [Counter.update(l)]. *)
Definition counter_update (d : dict (nat * nat) nat) (l : list (nat * nat)) : dict (nat * nat) nat :=
  fold_left (fun d k => dset d k (dget_or d k 0 + 1)) l d.

(** [np.nonzero(mask)[0]]. *)
Definition nonzero (mask : list bool) : list nat :=
  filter (fun i => nth i mask false) (seq 0 (length mask)).

(** [self._occurrences[mask] += 1]. *)
Definition mask_incr (o : list nat) (mask : list bool) : list nat :=
  map (fun om : nat * bool => if snd om then fst om + 1 else fst om) (combine o mask).

(** 366-371: [analyze_text]. *)
Definition analyze_text (s : occ_state) (window : list nat) (doc_num : nat) : result occ_state :=
  let* s := slide_window s window doc_num in
  let mask := removelast (uniq s) in
  if existsb (fun b => b) mask then
    Ok (OS (mask_incr (occ s) mask) (co s) (ndocs s) (uniq s) (cur_doc s) (edge s)
           (counter_update (counter s) (combinations2 (nonzero mask))))
  else Ok s.

Definition count_doc (s : occ_state) : occ_state :=
  OS (occ s) (co s) (ndocs s + 1) (uniq s) (cur_doc s) (edge s) (counter s).

(** 290-298: [WindowedTextsAnalyzer.accumulate] after [_iter_texts]. *)
Definition acc_windows (s : occ_state) (relevant_texts : list (list nat)) (window_size : nat) : result occ_state :=
  rfold (fun s (dw : nat * list (option nat)) =>
    let* win := rmapM (of_option IndexError) (snd dw) in
    let* s := analyze_text s win (fst dw) in
    Ok (count_doc s)) (iter_windows_num relevant_texts window_size false) s.

(** [self._co_occurrences[combo] += count]. *)
Definition co_add (m : nat -> nat -> nat) (kc : (nat * nat) * nat) : nat -> nat -> nat :=
  fun i j => if (i =? fst (fst kc)) && (j =? snd (fst kc)) then m i j + snd kc else m i j.

(** 346-364: [partial_accumulate], given the arrays of [_iter_texts] (in a
    worker the texts come as such arrays, 410-413). *)
Definition partial_accumulate (s : occ_state) (arrays : list (list nat)) (window_size : nat) : result occ_state :=
  let s := OS (occ s) (co s) (ndocs s) (uniq s) None None [] in
  let* s := acc_windows s arrays window_size in
  Ok (OS (occ s) (fold_left co_add (counter s) (co s)) (ndocs s) (uniq s) (cur_doc s) (edge s) (counter s)).

(** 384-396: [_symmetrize]. *)
Definition symmetrize (s : occ_state) : occ_state :=
  let m := fun i j => if i =? j then nth i (occ s) 0 else co s i j in
  OS (occ s) (fun i j => m i j + m j i - (if i =? j then m i i else 0)) (ndocs s) (uniq s) (cur_doc s) (edge s) (counter s).

(** 340-344: [accumulate]. *)
Definition accumulate (s : occ_state) (arrays : list (list nat)) (window_size : nat) : result occ_state :=
  let* s := partial_accumulate s arrays window_size in
  Ok (symmetrize s).

(** 404-407: [merge]. *)
Definition merge (s other : occ_state) : occ_state :=
  OS (map (fun ab : nat * nat => fst ab + snd ab) (combine (occ s) (occ other)))
     (fun i j => co s i j + co other i j) (ndocs s + ndocs other) (uniq s) (cur_doc s) (edge s) (counter s).

(** 194-213, 398-402: [get_occurrences], [get_co_occurrences] for a word id
    (an id is not a key of [token2id]). *)
Definition get_occurrences (relevant_ids : list nat) (s : occ_state) (word_id : nat) : result nat :=
  let* n := of_option KeyError (dget (id2contiguous relevant_ids) word_id) in
  of_option IndexError (nth_error (occ s) n).
Definition get_co_occurrences (relevant_ids : list nat) (s : occ_state) (word_id1 word_id2 : nat) : result nat :=
  let* n1 := of_option KeyError (dget (id2contiguous relevant_ids) word_id1) in
  let* n2 := of_option KeyError (dget (id2contiguous relevant_ids) word_id2) in
  Ok (co s n1 n2).

(** The whole: a fresh [WordOccurrenceAccumulator(relevant_ids, dictionary)],
    then [accumulate(texts, window_size)]. *)
Definition word_occurrence (token2id : dict pystr nat) (id2token : dict nat pystr) (relevant_ids : list nat)
    (texts : list (list pystr)) (window_size : nat) : result occ_state :=
  let* rw := ids_to_words id2token relevant_ids in
  let* arrays := iter_texts token2id relevant_ids rw texts in
  accumulate (occ_init (length relevant_ids)) arrays window_size.

(** ** The inverted index accumulators (216-270, 317-323) *)

(** [_inverted_index] (one set of document numbers per contiguous id, as the
    list of its elements) and [_num_docs]. *)
Record ii_state : Type := II { index : list (list nat); ii_docs : nat }.

Definition ii_init (vocab_size : nat) : ii_state := II (repeat [] vocab_size) 0.

(** [s.add(x)]. *)
Definition set_add (x : nat) (l : list nat) : list nat := if memb x l then l else l ++ [x].

(** [self._inverted_index[n].add(self._num_docs)]. *)
Definition ii_add (s : ii_state) (n : nat) : result ii_state :=
  let* l := of_option IndexError (nth_error (index s) n) in
  let* idx := lput (index s) n (set_add (ii_docs s) l) in
  Ok (II idx (ii_docs s)).

(** 259-264: [CorpusAccumulator.analyze_text]; the intersection is iterated in
    the order of [relevant_ids]. *)
Definition corpus_analyze {W : Type} (relevant_ids : list nat) (s : ii_state) (text : list (nat * W)) : result ii_state :=
  rfold (fun s word_id =>
    let* n := of_option KeyError (dget (id2contiguous relevant_ids) word_id) in ii_add s n)
    (filter (fun i => memb i (map fst text)) relevant_ids) s.

(** 266-270: [CorpusAccumulator.accumulate]. *)
Definition corpus_accumulate {W : Type} (relevant_ids : list nat) (s : ii_state) (corpus : list (list (nat * W))) : result ii_state :=
  rfold (fun s text =>
    let* s := corpus_analyze relevant_ids s text in Ok (II (index s) (ii_docs s + 1))) corpus s.

(** 320-323: [InvertedIndexAccumulator.analyze_text].  [word_id] is a numpy
    scalar taken out of the window, [_none_token] a Python int: the two objects
    are never the same, so [word_id is not self._none_token] is always true. *)
Definition ii_analyze (s : ii_state) (window : list nat) : result ii_state :=
  rfold (fun s word_id => ii_add s word_id) window s.

Definition ii_accumulate (s : ii_state) (relevant_texts : list (list nat)) (window_size : nat) : result ii_state :=
  rfold (fun s (dw : nat * list (option nat)) =>
    let* win := rmapM (of_option IndexError) (snd dw) in
    let* s := ii_analyze s win in
    Ok (II (index s) (ii_docs s + 1))) (iter_windows_num relevant_texts window_size false) s.

Definition inverted_index (token2id : dict pystr nat) (id2token : dict nat pystr) (relevant_ids : list nat)
    (texts : list (list pystr)) (window_size : nat) : result ii_state :=
  let* rw := ids_to_words id2token relevant_ids in
  let* arrays := iter_texts token2id relevant_ids rw texts in
  ii_accumulate (ii_init (length relevant_ids)) arrays window_size.

(** 243-249: [_get_occurrences], [_get_co_occurrences]. *)
Definition ii_occurrences (relevant_ids : list nat) (s : ii_state) (word_id : nat) : result nat :=
  let* n := of_option KeyError (dget (id2contiguous relevant_ids) word_id) in
  let* l := of_option IndexError (nth_error (index s) n) in
  Ok (length l).
Definition ii_co_occurrences (relevant_ids : list nat) (s : ii_state) (word_id1 word_id2 : nat) : result nat :=
  let* n1 := of_option KeyError (dget (id2contiguous relevant_ids) word_id1) in
  let* n2 := of_option KeyError (dget (id2contiguous relevant_ids) word_id2) in
  let* l1 := of_option IndexError (nth_error (index s) n1) in
  let* l2 := of_option IndexError (nth_error (index s) n2) in
  Ok (length (filter (fun d => memb d l2) l1)).

(** ** ParallelWordOccurrenceAccumulator (416-600) *)

(** 482-492: [yield_batches]. *)
Fixpoint yield_batches_from {A : Type} (batch_size : nat) (batch : list A) (texts : list A) : list (list A) :=
  match texts with
  | [] => match batch with [] => [] | _ => [batch] end
  | t :: texts' =>
    let batch := batch ++ [t] in
    if length batch =? batch_size then batch :: yield_batches_from batch_size [] texts'
    else yield_batches_from batch_size batch texts'
  end.
Definition yield_batches {A : Type} (batch_size : nat) (texts : list A) : list (list A) :=
  yield_batches_from batch_size [] texts.

(** A worker process: waiting for a message, accumulating a batch, or ended.
    An ended worker has put its accumulator on the output queue. *)
Inductive worker : Type :=
| Waiting (a : occ_state)
| Working (a : occ_state) (batch : list (list nat))
| Ended.

(** The program: the messages the master has still to put on the input queue
    (batches, then one [None] per worker: 494-498, 522-524), the input queue,
    the workers, the output queue (as received by the master: the accumulators
    in the order they were put there). *)
Record par_state : Type := PS {
  todo : list (option (list (list nat)));
  input_q : list (option (list (list nat)));
  workers : list worker;
  output_q : list occ_state
}.

(** 454-480, 494-498, 522-524. *)
Definition par_init (processes vocab_size : nat) (batches : list (list (list nat))) : par_state :=
  PS (map Some batches ++ repeat None processes) [] (repeat (Waiting (occ_init vocab_size)) processes) [].

Definition set_worker (l : list worker) (i : nat) (w : worker) : list worker :=
  firstn i l ++ w :: skipn (S i) l.

(** One step of one process. The input queue holds at most [processes] messages
    (471).  A worker that hits an exception logs it and replies with what it
    has (566-576). *)
Inductive par_step (processes window_size : nat) : par_state -> par_state -> Prop :=
| step_put : forall m t q ws o, length q < processes ->
    par_step processes window_size (PS (m :: t) q ws o) (PS t (q ++ [m]) ws o)
| step_get : forall t b q ws o i a, nth_error ws i = Some (Waiting a) ->
    par_step processes window_size (PS t (Some b :: q) ws o) (PS t q (set_worker ws i (Working a b)) o)
| step_work : forall t q ws o i a b a', nth_error ws i = Some (Working a b) ->
    partial_accumulate a b window_size = Ok a' ->
    par_step processes window_size (PS t q ws o) (PS t q (set_worker ws i (Waiting a')) o)
| step_fail : forall t q ws o i a b e, nth_error ws i = Some (Working a b) ->
    partial_accumulate a b window_size = Err e ->
    par_step processes window_size (PS t q ws o) (PS t q (set_worker ws i Ended) (o ++ [a]))
| step_end : forall t q ws o i a, nth_error ws i = Some (Waiting a) ->
    par_step processes window_size (PS t (None :: q) ws o) (PS t q (set_worker ws i Ended) (o ++ [a])).

(** As above, but a worker may also hit an exception of its surroundings (out
    of memory, an interrupt) before it accumulates its batch. *)
Inductive crash_step (processes window_size : nat) : par_state -> par_state -> Prop :=
| crash_par : forall s s', par_step processes window_size s s' -> crash_step processes window_size s s'
| crash_work : forall t q ws o i a b, nth_error ws i = Some (Working a b) ->
    crash_step processes window_size (PS t q ws o) (PS t q (set_worker ws i Ended) (o ++ [a])).

Inductive steps {S : Type} (R : S -> S -> Prop) : S -> S -> Prop :=
| steps_none : forall s, steps R s s
| steps_more : forall s s' s'', R s s' -> steps R s' s'' -> steps R s s''.

(** 526-528: the master has put everything and has as many accumulators as
    workers. *)
Definition par_done (s : par_state) : Prop := todo s = [] /\ length (output_q s) = length (workers s).

(** 539-552: [merge_accumulators]. *)
Definition merge_accumulators (vocab_size : nat) (accs : list occ_state) : occ_state :=
  symmetrize (fold_left merge accs (occ_init vocab_size)).
