(** Model of training document vectors from a [corpus_file]: /repo/gensim/models/doc2vec.py 514-556
    ([_get_offsets_and_start_doctags_for_corpusfile]), 1126-1170 (TaggedLineDocument) and
    /repo/gensim/models/doc2vec_corpusfile.pyx 58-97 ([prepare_c_structures_for_batch]), 165-236 ([d2v_train_epoch_dbow]; the loop
    of [d2v_train_epoch_dm] 305-382 treats documents and tags in the same way), 458-541 ([d2v_train_epoch_dm_concat]).

    Simplifications: as in CorpusFile_Model; what is kept is which document is trained with which tag. *)

From Verif Require Import Base Str Formats_Base Sentences_Model NegSampling_Model TrainJobs_Model CorpusFile_Model.
Local Open Scope nat_scope.

(** doc2vec.py 548-552: the inner while loop *)
Fixpoint take_below (curr prev line_no : nat) (approx : list nat) : list (nat * nat) * list nat :=
  match approx with
  | [] => ([], [])
  | a :: r => if a <? curr then let (o, rest) := take_below curr prev line_no r in ((prev, line_no) :: o, rest) else ([], approx)
  end.
(** 543-554 *)
Fixpoint offsets_loop (approx : list nat) (lines : list (list N)) (line_no prev : nat) : list (nat * nat) :=
  match lines with
  | [] => []
  | l :: r =>
    match approx with
    | [] => []
    | _ => let (o, rest) := take_below (prev + length l) prev line_no approx in o ++ offsets_loop rest r (S line_no) (prev + length l)
    end
  end.
(** 534-556: offsets and start tags, paired. *)
Definition offsets_and_doctags (file : list N) (workers : nat) : list (nat * nat) :=
  offsets_loop (map (fun i => length file / workers * i) (seq 0 workers)) (file_lines file) 0 0.

Section Docs.
Variable max_len : nat. (* MAX_DOCUMENT_LEN *)
Variable index_of : pystr -> option nat.
Variable sample : option (nat -> Z).
(** The random state after a document has been trained on. *)
Variable after : Z -> nat -> list nat -> Z.

(** A document trained on: tag, words read, word indexes kept. *)
Definition doc_record : Type := (nat * list pystr * list nat)%type.
(** doc2vec_corpusfile.pyx 165-234; [None] for lack of fuel. *)
Fixpoint doc_loop (fuel : nat) (limit : Z) (r : reader) (s : Z) (doc_tag total_words : nat) : option (list doc_record * nat) :=
  if rd_eof r || (limit <? Z.of_nat total_words)%Z then Some ([], total_words)
  else match fuel with
       | 0 => None
       | S fuel =>
         let (doc_words, r) := read_sentence r in
         match doc_words with
         | [] => doc_loop fuel limit r s doc_tag total_words
         | _ =>
           let '(s, indexes) := prep_sentence max_len index_of sample doc_words s [] in
           match doc_loop fuel limit r (after s doc_tag indexes) (S doc_tag) (total_words + length doc_words) with
           | None => None
           | Some (recs, total) => Some ((doc_tag, doc_words, indexes) :: recs, total)
           end
         end
       end.
Definition train_epoch_docs (file : list N) (workers : nat) (expected_words : Z) (start : nat * nat) (s : Z) : option (list doc_record * nat) :=
  doc_loop (2 + length file) (Z.quot expected_words (Z.of_nat workers)) (open_at file (fst start)) s (snd start) 0.
(** The epoch: worker [i] takes the [i]-th offset and start tag ([offsets[thread_id]] raises if there are not enough). *)
Definition all_docs (file : list N) (workers : nat) (expected_words : Z) (s : nat -> Z) : list (result (option (list doc_record * nat))) :=
  map (fun i => match nth_error (offsets_and_doctags file workers) i with
                | None => Err IndexError
                | Some start => Ok (train_epoch_docs file workers expected_words start (s i))
                end) (seq 0 workers).

(** 458-541: the tag is the number of documents this worker has trained on; documents are skipped when it is out of range
    ([expected_doctag_len] is 1). *)
Variable docvecs_count : nat.
Fixpoint dmc_loop (fuel : nat) (limit : Z) (r : reader) (s : Z) (total_documents total_words : nat) : option (list doc_record * nat) :=
  if rd_eof r || (limit <? Z.of_nat total_words)%Z then Some ([], total_words)
  else match fuel with
       | 0 => None
       | S fuel =>
         let (doc_words, r) := read_sentence r in
         let doc_tag := total_documents in
         if match doc_words with [] => true | _ => false end || negb (doc_tag <? docvecs_count) then dmc_loop fuel limit r s total_documents total_words
         else
           let '(s, indexes) := prep_sentence max_len index_of sample doc_words s [] in
           match dmc_loop fuel limit r (after s doc_tag indexes) (S total_documents) (total_words + length doc_words) with
           | None => None
           | Some (recs, total) => Some ((doc_tag, doc_words, indexes) :: recs, total)
           end
       end.
Definition train_epoch_dmc (file : list N) (workers : nat) (expected_words : Z) (start : nat * nat) (s : Z) : option (list doc_record * nat) :=
  dmc_loop (2 + length file) (Z.quot expected_words (Z.of_nat workers)) (open_at file (fst start)) s 0 0.
End Docs.

(** doc2vec.py 1153-1170: tags are line numbers. *)
Definition tagged_line_documents (file : list N) : option (list (list pystr * nat)) :=
  option_map (fun ds => combine ds (seq 0 (length ds)))
    ((fix go (ls : list (list N)) := match ls with
                                     | [] => Some []
                                     | l :: r => match tokens_of l, go r with Some ws, Some d => Some (ws :: d) | _, _ => None end
                                     end) (file_lines file)).

(** 497-527: the errors handed to the document vector and to the [2 * window] context words.  [work] holds the errors of the
    concatenated input layer, one entry per vector (the document's first); after [for m in range(2 * c.window)], [m] is [2 * window - 1]. *)
Definition dmc_updates {V} (window : nat) (work : list V) : option V * list (option V) :=
  let m := 2 * window - 1 in (nth_error work m, map (fun m => nth_error work (1 + m)) (seq 0 (2 * window))).
