(** Model of the vocabulary of Word2Vec: /repo/gensim/models/word2vec.py 434-748 ([build_vocab], [_scan_vocab],
    [prepare_vocab]), 776-780 ([add_null_word]), 818-860 ([prepare_weights]) and
    /repo/gensim/models/keyedvectors.py 352-362, 1938-1955 ([resize_vectors], [prep_vectors]).

    Simplifications: counts are natural numbers in the scan and integers in the vector set; subsampling (683-715) is in
    Downsample_*; Huffman codes and the table for negative sampling are in Huffman_* and NegSampling_*; syn1 and syn1neg
    are left out.  The random rows of [prep_vectors] come from a parameter.  Logging and [estimate_memory] are left out. *)

From Verif Require Import Base Str Utils_Model Matutils_Model KeyedVectors_Model.
Local Open Scope nat_scope.

(** 534-564 (the first word of a sentence is checked only for a warning). *)
Definition scan_sentence (vocab : dict pystr nat) (sentence : list pystr) : dict pystr nat :=
  fold_left (fun d w => dset d w (dget_or d w 0 + 1)) sentence vocab.
Fixpoint scan (sentences : list (list pystr)) (max_vocab_size : option nat) (trim_rule : trim_rule_t)
    (vocab : dict pystr nat) (min_reduce total_words : nat) : result (dict pystr nat * nat) :=
  match sentences with
  | [] => Ok (vocab, total_words)
  | s :: r =>
    let vocab1 := scan_sentence vocab s in
    let total_words1 := total_words + length s in
    match max_vocab_size with
    | Some (S m) =>
      if S m <? length vocab1
      then let* p := prune_vocab vocab1 min_reduce trim_rule in scan r max_vocab_size trim_rule (fst p) (min_reduce + 1) total_words1
      else scan r max_vocab_size trim_rule vocab1 min_reduce total_words1
    | _ => scan r max_vocab_size trim_rule vocab1 min_reduce total_words1
    end
  end.
(** The raw vocabulary, the number of words and of sentences. *)
Definition scan_vocab (sentences : list (list pystr)) (max_vocab_size : option nat) (trim_rule : trim_rule_t) : result (dict pystr nat * nat * nat) :=
  let* p := scan sentences max_vocab_size trim_rule [] 1 0 in Ok (p, length sentences).

(** 597-615; [min_count or self.min_count]. *)
Definition or_default (min_count : option nat) (self_min_count : nat) : nat := match min_count with Some (S m) => S m | _ => self_min_count end.
Definition effective_min_count (raw : dict pystr nat) (max_final_vocab : option nat) (min_count : nat) : result nat :=
  match max_final_vocab with
  | None => Ok min_count
  | Some k =>
    let sorted_vocab := isort (fun a b => dget_or raw b 0 <=? dget_or raw a 0) (dkeys raw) in
    let* calc_min_count := if k <? length sorted_vocab
                           then let* w := of_option IndexError (nth_error sorted_vocab k) in Ok (dget_or raw w 0 + 1)
                           else Ok 1 in
    Ok (Nat.max calc_min_count min_count)
  end.

Section Vocab.
Context {V R : Type}.
Variable np_argsort : list Z -> list nat.
Variable random_row : nat -> V.
Notation kvs := (kv V R).

Definition kept (eff : nat) (trim_rule : trim_rule_t) (raw : dict pystr nat) : dict pystr nat :=
  filter (fun wc => keep_vocab_item (fst wc) (snd wc) eff trim_rule) raw.

(** 617-644: fresh vocabulary. *)
Definition append_key (m : kvs) (w : pystr) : kvs :=
  mkKv (index_to_key m ++ [Some (KStr w)]) (next_index m) (dset (key_to_index m) (KStr w) (length (index_to_key m)))
       (vectors m) (norms m) (counts m).
Definition clear_keys (m : kvs) : kvs := mkKv [] (next_index m) [] (vectors m) (norms m) (counts m).
Definition fresh_vocab (m : kvs) (retained raw : dict pystr nat) : result kvs :=
  let m1 := fold_left append_key (dkeys retained) (clear_keys m) in
  rfold (fun m' k => match k with
                     | Some (KStr w) => set_count m' (KStr w) (Z.of_nat (dget_or raw w 0))
                     | _ => Err TypeError
                     end) (index_to_key m1) m1.
(** 655-681: update. *)
Definition update_vocab (m : kvs) (retained raw : dict pystr nat) : result kvs :=
  let m1 := fold_left (fun m' w => if has_index_for m' (KStr w) then m' else append_key m' w) (dkeys retained) m in
  let m2 := set_counts m1 (Some (resize (kv_len m1) (match counts m1 with Some l => l | None => [] end))) in
  rfold (fun m' k => match k with
                     | Some (KStr w) => let* c := get_count m' (KStr w) in set_count m' (KStr w) (c + Z.of_nat (dget_or raw w 0))
                     | _ => Err TypeError
                     end) (index_to_key m2) m2.
(** 776-780 *)
Definition null_key : pystr := [0%N].
Definition add_null_word (m : kvs) : result kvs := set_count (append_key m null_key) (KStr null_key) 1.

(** 580-748 without subsampling; [dry_run] touches neither keys nor counts, but the null word is added and the keys are
    sorted all the same.  The result: drop_unique, retain_total and num_retained_words, and the vector set. *)
Definition total (d : dict pystr nat) : nat := fold_left (fun a wc => a + snd wc) d 0.
Definition prepare_vocab (m : kvs) (raw : dict pystr nat) (max_final_vocab : option nat) (min_count : nat) (trim_rule : trim_rule_t)
    (null_word sorted_vocab update dry_run : bool) : result ((nat * nat * nat) * kvs) :=
  let* eff := effective_min_count raw max_final_vocab min_count in
  let retained := kept eff trim_rule raw in
  let* m1 := if dry_run then Ok m else if update then update_vocab m retained raw else fresh_vocab m retained raw in
  let* m2 := if null_word then add_null_word m1 else Ok m1 in
  let* m3 := if sorted_vocab && negb update then sort_by_descending_frequency np_argsort m2 else Ok m2 in
  Ok ((length raw - length retained, total retained, length retained), m3).

(** keyedvectors.py 1938-1955: rows of [prior] that do not fit are a ValueError (numpy cannot broadcast them, except a
    single row to none). *)
Definition prep_vectors (target : nat) (prior : list V) : result (list V) :=
  if length prior =? target then Ok prior
  else if length prior <? target then Ok (prior ++ map random_row (seq (length prior) (target - length prior)))
  else if (target =? 0) && (length prior =? 1) then Ok []
  else Err ValueError.
(** 352-362 *)
Definition resize_vectors (m : kvs) : result kvs :=
  let* vs := prep_vectors (kv_len m) (vectors m) in Ok (set_norms (allocate (set_vectors m vs)) None).
(** 818-860 *)
Definition prepare_weights (m : kvs) (update : bool) : result kvs :=
  if update && (length (vectors m) =? 0) then Err RuntimeErr else resize_vectors m.

(** 434-483 *)
Definition build_vocab (m : kvs) (sentences : list (list pystr)) (max_vocab_size max_final_vocab : option nat) (min_count : nat)
    (trim_rule : trim_rule_t) (null_word sorted_vocab update : bool) : result kvs :=
  let* p := scan_vocab sentences max_vocab_size trim_rule in
  let '(raw, _, _) := p in
  let* q := prepare_vocab m raw max_final_vocab min_count trim_rule null_word sorted_vocab update false in
  prepare_weights (snd q) update.
End Vocab.
