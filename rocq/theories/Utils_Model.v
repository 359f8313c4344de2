(** Model of parts of gensim/utils.py: chunking, corpus views, vocabulary
    pruning, sliding windows. *)

From Verif Require Import Base Str.
Local Open Scope nat_scope.

(** ** itertools *)

(** [list(itertools.islice(it, n))] together with the iterator left behind. *)
Definition islice_take {A : Type} (n : nat) (it : list A) : list A * list A := (firstn n it, skipn n it).

(** [itertools.cycle]: hands out the items of the iterator while saving them,
    then replays the saved ones for ever (an empty iterator ends at once).
    [cycle_take n saved cur] are the next [n] items once all of [saved] is known. *)
Fixpoint cycle_take {A : Type} (n : nat) (saved cur : list A) : list A :=
  match n with
  | 0 => []
  | S n' =>
    match cur with
    | x :: cur' => x :: cycle_take n' saved cur'
    | [] => match saved with [] => [] | x :: cur' => x :: cycle_take n' saved cur' end
    end
  end.

(** [itertools.islice(it, start, stop, step)] for a finite stream, arguments
    given or [None]; negative arguments (or a zero step) raise [ValueError].
    The C code counts positions and hands out the item whenever the position
    reaches the next wanted one. *)
Fixpoint islice_loop {A : Type} (it : list A) (cnt next : nat) (stop : option nat) (step : nat) : list A :=
  match it with
  | [] => []
  | x :: it' =>
    match stop with
    | Some s => if s <=? cnt then [] else
        if cnt =? next then x :: islice_loop it' (S cnt) (next + step) stop step else islice_loop it' (S cnt) next stop step
    | None =>
        if cnt =? next then x :: islice_loop it' (S cnt) (next + step) stop step else islice_loop it' (S cnt) next stop step
    end
  end.

Definition islice {A : Type} (it : list A) (start stop step : option Z) : result (list A) :=
  let bad o := match o with Some z => (z <? 0)%Z | None => false end in
  let st := match step with Some z => z | None => 1%Z end in
  if bad start || bad stop || (st <? 1)%Z then Err ValueError
  else Ok (islice_loop it 0 (match start with Some z => Z.to_nat z | None => 0 end)
             (option_map Z.to_nat stop) (Z.to_nat st)).

(** ** Chunking *)

(** utils.py 1131-1169: [chunkize_serial].  The generator is unrolled with one
    unit of fuel per chunk; a stream of [length it] items has at most that many
    non-empty chunks, so [S (length it)] is enough (proved). [as_numpy] only
    changes the container of a document. *)
Fixpoint chunkize_serial_loop {A : Type} (fuel : nat) (it : list A) (chunksize : nat) : list (list A) :=
  match fuel with
  | 0 => []
  | S fuel' =>
    let '(chunk, it) := islice_take chunksize it in
    match chunk with
    | [] => []
    | _ => chunk :: chunkize_serial_loop fuel' it chunksize
    end
  end.

Definition chunkize_serial {A : Type} (iterable : list A) (chunksize : nat) : list (list A) :=
  chunkize_serial_loop (S (length iterable)) iterable chunksize.

(** ** Corpus views *)

(** utils.py 916-947: [RepeatCorpus.__iter__]. *)
Definition repeat_corpus {A : Type} (corpus : list A) (reps : Z) : result (list A) :=
  if (reps <? 0)%Z then Err ValueError else Ok (cycle_take (Z.to_nat reps) corpus corpus).

(** utils.py 950-981: [RepeatCorpusNTimes.__iter__] ([range(n)] of a negative [n] is empty). *)
Definition repeat_corpus_ntimes {A : Type} (corpus : list A) (n : Z) : list A :=
  flat_map (fun _ => corpus) (seq 0 (Z.to_nat n)).

(** utils.py 1005-1006: [ClippedCorpus.__iter__]. *)
Definition clipped_iter {A : Type} (corpus : list A) (max_docs : option Z) : result (list A) :=
  match max_docs with
  | None => Ok corpus
  | Some m => islice corpus None (Some m) None
  end.

(** utils.py 1008-1009: [ClippedCorpus.__len__]: [min(None, n)] raises
    [TypeError]; Python's [len] raises [ValueError] for a negative result. *)
Definition clipped_len {A : Type} (corpus : list A) (max_docs : option Z) : result nat :=
  match max_docs with
  | None => Err TypeError
  | Some m => let r := Z.min m (Z.of_nat (length corpus)) in
              if (r <? 0)%Z then Err ValueError else Ok (Z.to_nat r)
  end.

(** A Python slice object. *)
Record pyslice : Type := mkSlice { sl_start : option Z; sl_stop : option Z; sl_step : option Z }.

(** CPython [slice.indices(n)] (PySlice_AdjustIndices); step 0 raises. *)
Definition slice_step (s : pyslice) : Z := match sl_step s with Some z => z | None => 1%Z end.
Definition adjust (n step : Z) (v : Z) : Z :=
  (if v <? 0 then let v := v + n in if v <? 0 then (if step <? 0 then -1 else 0) else v
   else if n <=? v then (if step <? 0 then n - 1 else n) else v)%Z.
Definition slice_indices (s : pyslice) (n : nat) : result (Z * Z * Z) :=
  let nz := Z.of_nat n in
  let step := slice_step s in
  if (step =? 0)%Z then Err ValueError
  else
    let start := match sl_start s with Some v => adjust nz step v | None => if (step <? 0)%Z then (nz - 1)%Z else 0%Z end in
    let stop := match sl_stop s with Some v => adjust nz step v | None => if (step <? 0)%Z then (-1)%Z else nz end in
    Ok (start, stop, step).

(** CPython list slicing [l[s]] (list_subscript): number of items as in
    PySlice_AdjustIndices, then the items at [start], [start + step], ... *)
Definition slice_count (start stop step : Z) : Z :=
  (if step <? 0 then (if stop <? start then (start - stop - 1) / (- step) + 1 else 0)
   else (if start <? stop then (stop - start - 1) / step + 1 else 0))%Z.

Definition slice_positions (start stop step : Z) : list Z :=
  map (fun k => (start + Z.of_nat k * step)%Z) (seq 0 (Z.to_nat (slice_count start stop step))).

(** Item access at a computed position (always in range for [slice_indices]). *)
Definition nth_z {A : Type} (l : list A) (z : Z) : result A :=
  if (z <? 0)%Z then Err IndexError else of_option IndexError (nth_error l (Z.to_nat z)).

(** The kinds of corpus [SlicedCorpus] may wrap: one with an offset index
    (document [i] is the one at [index[i]]), a stream without an [index]
    attribute, or a plain Python list, whose [index] attribute is a method. *)
Inductive corpus_kind : Type := CIndexed | CStream | CPyList.

(** utils.py 1037-1040: [SlicedCorpus.__iter__] for a slice object. *)
Definition sliced_iter {A : Type} (kind : corpus_kind) (corpus : list A) (s : pyslice) : result (list A) :=
  match kind with
  | CPyList => Err TypeError (* len() of a method *)
  | CIndexed =>
    if 0 <? length corpus then
      let* (start, stop, step) := slice_indices s (length corpus) in
      rmapM (nth_z corpus) (slice_positions start stop step)
    else islice corpus (sl_start s) (sl_stop s) (sl_step s)
  | CStream => islice corpus (sl_start s) (sl_stop s) (sl_step s)
  end.

(** utils.py 1042-1054: [SlicedCorpus.__len__] for a slice object: the value
    stored in [self.length] (line 1050), with Python's floor division. *)
Definition sliced_length_attr {A : Type} (kind : corpus_kind) (corpus : list A) (s : pyslice) : result Z :=
  match kind with
  | CPyList => Err TypeError
  | CStream => Err AttributeErr
  | CIndexed =>
    let* (start, stop, step) := slice_indices s (length corpus) in
    let diff := (stop - start)%Z in
    Ok (diff / step + (if 0 <? diff mod step then 1 else 0))%Z
  end.

(** Python's [len] refuses a negative [__len__]. *)
Definition sliced_len {A : Type} (kind : corpus_kind) (corpus : list A) (s : pyslice) : result nat :=
  let* z := sliced_length_attr kind corpus s in
  if (z <? 0)%Z then Err ValueError else Ok (Z.to_nat z).

(** ** Vocabulary pruning *)

(** utils.py 1744-1746: what a trim rule may answer; anything else counts as default. *)
Inductive rule_answer : Type := RuleDefault | RuleDiscard | RuleKeep.
Definition trim_rule_t : Type := option (pystr -> nat -> nat -> rule_answer).

(** utils.py 1749-1781: [keep_vocab_item]. *)
Definition keep_vocab_item (word : pystr) (count min_count : nat) (trim_rule : trim_rule_t) : bool :=
  let default_res := min_count <=? count in
  match trim_rule with
  | None => default_res
  | Some rule =>
    match rule word count min_count with
    | RuleKeep => true
    | RuleDiscard => false
    | RuleDefault => default_res
    end
  end.

(** utils.py 1646-1676: [prune_vocab]: loop over a copy of the keys, deleting
    from the dict; returns the dict and the sum of the removed counts. *)
Definition prune_step (min_reduce : nat) (trim_rule : trim_rule_t) (s : dict pystr nat * nat) (w : pystr)
  : result (dict pystr nat * nat) :=
  let '(vocab, res) := s in
  let* c := of_option KeyError (dget vocab w) in
  if keep_vocab_item w c min_reduce trim_rule then Ok (vocab, res)
  else Ok (ddel vocab w, res + c).

Definition prune_vocab (vocab : dict pystr nat) (min_reduce : nat) (trim_rule : trim_rule_t)
  : result (dict pystr nat * nat) :=
  rfold (prune_step min_reduce trim_rule) (dkeys vocab) (vocab, 0).

(** [heapq.nlargest(k, l)]: the first [k] of the list sorted in decreasing order. *)
Definition nlargest (k : Z) (l : list nat) : list nat :=
  firstn (Z.to_nat k) (isort (fun a b => b <=? a) l).

(** utils.py 1679-1698: [trim_vocab_by_freq]. [[][-1]] raises [IndexError]. *)
Definition trim_vocab_by_freq (vocab : dict pystr nat) (topk : Z) (trim_rule : trim_rule_t) : result (dict pystr nat) :=
  if (Z.of_nat (length vocab) <=? topk)%Z then Ok vocab
  else
    match rev (nlargest topk (dvals vocab)) with
    | [] => Err IndexError
    | min_count :: _ => let* r := prune_vocab vocab min_count trim_rule in Ok (fst r)
    end.

(** utils.py 1701-1720: [merge_counts]. *)
Definition merge_counts (dict1 dict2 : dict pystr nat) : dict pystr nat :=
  fold_left (fun d (wf : pystr * nat) =>
    let '(word, freq) := wf in
    match dget d word with
    | Some c => dset d word (c + freq)
    | None => dset d word freq
    end) dict2 dict1.

(** ** Sliding windows *)

(** utils.py 1844-1889: [strided_windows].  [as_strided] reads element [i + j]
    of the buffer for row [i], column [j] without bounds checks: an element
    outside the buffer is [None] here. [window_size = 0] and negative sizes are
    not distinguished from 0 by this model (sizes are naturals). *)
Definition strided_windows {A : Type} (ndarray : list A) (window_size : nat) : list (list (option A)) :=
  if window_size =? length ndarray then [map Some ndarray]
  else if length ndarray <? window_size then []
  else map (fun i => map (fun j => nth_error ndarray (i + j)) (seq 0 window_size))
           (seq 0 (length ndarray - window_size + 1)).

(** utils.py 1919-1927: [_iter_windows].  Views and copies have the same
    contents. *)
Definition iter_windows1 {A : Type} (document : list A) (window_size : nat) (ignore_below_size : bool)
  : list (list (option A)) :=
  match strided_windows document window_size with
  | [] => if ignore_below_size then [] else [map Some document]
  | ws => ws
  end.

(** utils.py 1892-1916: [iter_windows] with [include_doc_num=True]; without it
    the numbers are dropped. *)
Fixpoint iter_windows_from {A : Type} (doc_num : nat) (texts : list (list A)) (window_size : nat) (ignore_below_size : bool)
  : list (nat * list (option A)) :=
  match texts with
  | [] => []
  | document :: texts' =>
    map (fun w => (doc_num, w)) (iter_windows1 document window_size ignore_below_size)
      ++ iter_windows_from (S doc_num) texts' window_size ignore_below_size
  end.

Definition iter_windows_num {A : Type} (texts : list (list A)) (window_size : nat) (ignore_below_size : bool) :=
  iter_windows_from 0 texts window_size ignore_below_size.
Definition iter_windows {A : Type} (texts : list (list A)) (window_size : nat) (ignore_below_size : bool) :=
  map snd (iter_windows_num texts window_size ignore_below_size).

(** ** Other helpers *)

(** A nested Python sequence; strings are leaves. *)
Inductive nested (A : Type) : Type :=
| Leaf (a : A)
| Seq (l : list (nested A)).
Arguments Leaf {A} a.
Arguments Seq {A} l.

(** utils.py 1930-1967: [flatten] / [lazy_flatten] of the sequence [l]. *)
Fixpoint flatten_el {A : Type} (t : nested A) : list A :=
  match t with
  | Leaf a => [a]
  | Seq l => flat_map flatten_el l
  end.
Definition flatten {A : Type} (l : list (nested A)) : list A := flat_map flatten_el l.

(** utils.py 711-733: [get_max_id]. Ids are integers. *)
Definition get_max_id {W : Type} (corpus : list (list (Z * W))) : Z :=
  fold_left (fun maxid document =>
    match document with
    | [] => maxid
    | (i, _) :: rest => Z.max maxid (fold_left (fun m e => Z.max m (fst e)) rest i)
    end) corpus (-1)%Z.

(** utils.py 736-797: [FakeDict]. *)
Definition fakedict_getitem (num_terms val : Z) : result pystr :=
  if (0 <=? val)%Z && (val <? num_terms)%Z then Ok (show_Z val) else Err ValueError.
Definition fakedict_get (num_terms val : Z) (default : option pystr) : option pystr :=
  if (0 <=? val)%Z && (val <? num_terms)%Z then Some (show_Z val) else default.
Definition fakedict_iteritems (num_terms : Z) : list (Z * pystr) :=
  map (fun i => (Z.of_nat i, show_Z (Z.of_nat i))) (seq 0 (Z.to_nat num_terms)).
Definition fakedict_keys (num_terms : Z) : list Z := [(num_terms - 1)%Z].
Definition fakedict_len (num_terms : Z) : result nat := if (num_terms <? 0)%Z then Err ValueError else Ok (Z.to_nat num_terms).

(** utils.py 797-823: [dict_from_corpus]; a [FakeDict] is its [num_terms]. *)
Definition dict_from_corpus {W : Type} (corpus : list (list (Z * W))) : Z := (1 + get_max_id corpus)%Z.

(** utils.py 826-877: [is_corpus] for an object whose class name does not contain
    "Corpus".  [looks] says what the checks of lines 865-872 find in the first
    element; [is_iter] whether the object is a one-shot iterator, in which case
    [next] removes the element and [itertools.chain] puts it back.  Returned:
    the verdict and the items the returned object will yield. *)
Inductive doc_look : Type := LookEmpty | LookPairs | LookOther.
Definition is_corpus {A : Type} (looks : A -> doc_look) (is_iter : bool) (obj : list A) : bool * list A :=
  match obj with
  | [] => (false, [])
  | doc1 :: rest =>
    let obj' := if is_iter then [doc1] ++ rest else obj in
    match looks doc1 with
    | LookEmpty | LookPairs => (true, obj')
    | LookOther => (false, obj')
    end
  end.
