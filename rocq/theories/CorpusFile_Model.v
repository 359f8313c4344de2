(** Model of training from a [corpus_file]: /repo/gensim/models/fast_line_sentence.h (FastLineSentence),
    /repo/gensim/models/word2vec_corpusfile.pyx 79-182 (CythonLineSentence), 185-229 ([prepare_c_structures_for_batch]) and
    303-315 (the loop of [train_epoch_sg]; the one of [train_epoch_cbow] is the same up to the inner function),
    /repo/gensim/models/word2vec.py 1313-1340 ([_train_epoch_corpusfile]).

    Simplifications: the file does not change; [offset] is the exact [size * thread_id / workers] rounded down (the code goes
    through a float); machine integers do not overflow; opening and seeking succeed.  A write past the end of a C array is
    an error here ([None]).  The inner functions and the learning rate are left out; what is kept is which word indexes reach
    them, in which sentences. *)

From Verif Require Import Base Str Formats_Base Sentences_Model NegSampling_Model TrainJobs_Model.
Local Open Scope nat_scope.

(** fast_line_sentence.h 23: [std::getline]; [None] if the end of the file was reached before a newline ([fs_.eof()]). *)
Fixpoint getline (s : list N) : list N * option (list N) :=
  match s with
  | [] => ([], None)
  | c :: r => if (c =? chr_nl)%N then ([], Some r) else let (l, k) := getline r in (c :: l, k)
  end.

(** The state of a reader: the bytes not read yet, [is_eof_] and [buf_data]. *)
Record reader : Type := Reader { rd_rest : list N; rd_eof : bool; rd_buf : list (list pystr) }.
(** 11-17 and 38: the stream is placed at [offset]; seeking past the end leaves nothing to read. *)
Definition open_at (file : list N) (offset : nat) : reader := Reader (skipn offset file) false [].

(** 19-36: [ReadSentence].  [iss >> word] skips and stops at [isspace] characters. *)
Definition read_sentence (r : reader) : list pystr * reader :=
  if rd_eof r then ([], r)
  else match getline (rd_rest r) with
       | (l, None) => (words is_bspace l, Reader [] true (rd_buf r))
       | (l, Some rest) => (words is_bspace l, Reader rest false (rd_buf r))
       end.

(** word2vec_corpusfile.pyx 104-120: [_chunk_sentence] *)
Definition chunk_sentence (m : nat) (sent : list pystr) : list (list pystr) :=
  if m <? length sent then slices (length sent) m sent else [sent].

(** 125-131: [__iter__], the sentences it yields. *)
Fixpoint iter_loop (fuel m : nat) (r : reader) : list (list pystr) :=
  match fuel with
  | 0 => []
  | S fuel =>
    if rd_eof r then []
    else let (sent, r) := read_sentence r in
         filter (fun c => negb (length c =? 0)) (chunk_sentence m sent) ++ iter_loop fuel m r
  end.
Definition cython_iter (m : nat) (file : list N) (offset : nat) : list (list pystr) :=
  iter_loop (S (length file)) m (open_at file offset).

(** 155-161: the while loop *)
Fixpoint fill (fuel m : nat) (job_batch : list (list pystr)) (batch_size : nat) (r : reader) : list (list pystr) * nat * reader :=
  match fuel with
  | 0 => (job_batch, batch_size, r)
  | S fuel =>
    if negb (rd_eof r) && (batch_size <=? m) then
      let (data, r) := read_sentence r in
      let chunked := chunk_sentence m data in
      fill fuel m (job_batch ++ chunked) (batch_size + length (concat chunked)) r
    else (job_batch, batch_size, r)
  end.
(** 167-176: [last_idx]; the chunks come in reverse order, [n] is [idx + 1]. *)
Fixpoint find_last (m tmp n : nat) (rev_batch : list (list pystr)) : nat :=
  match rev_batch with
  | [] => 0
  | c :: r => if tmp - length c <=? m then n else find_last m (tmp - length c) (n - 1) r
  end.
(** 137-182: [next_batch] *)
Definition next_batch (m : nat) (r : reader) : list (list pystr) * reader :=
  let job_batch := rd_buf r in
  let r := Reader (rd_rest r) (rd_eof r) [] in
  let '(job_batch, batch_size, r) := fill (S (length (rd_rest r))) m job_batch (length (concat job_batch)) r in
  if m <? batch_size then
    let last_idx := find_last m batch_size (length job_batch) (rev job_batch) in
    (firstn last_idx job_batch, Reader (rd_rest r) (rd_eof r) (skipn last_idx job_batch))
  else (job_batch, r).

Section Epoch.
Variable max_len : nat. (* MAX_SENTENCE_LEN *)
Variable index_of : pystr -> option nat.
Variable sample : option (nat -> Z).

(** 185-225: [prepare_c_structures_for_batch] up to the reduced windows; returns the random state, [indexes],
    [sentence_idx] and [total_words]. *)
Fixpoint prep_file_batch (sents : list (list pystr)) (s : Z) (indexes sentence_idx : list nat) (total_words : nat) : option (Z * list nat * list nat * nat) :=
  match sents with
  | [] => Some (s, indexes, sentence_idx, total_words)
  | [] :: r => prep_file_batch r s indexes sentence_idx total_words
  | sent :: r =>
    let '(s, indexes) := prep_sentence max_len index_of sample sent s indexes in
    if length sentence_idx <? max_len + 1 then
      let sentence_idx := sentence_idx ++ [length indexes] in
      if length indexes =? max_len then Some (s, indexes, sentence_idx, total_words + length sent)
      else prep_file_batch r s indexes sentence_idx (total_words + length sent)
    else None
  end.
(** 227-229: one random number per word for the reduced windows. *)
Fixpoint skip_randoms (n : nat) (s : Z) : Z := match n with 0 => s | S n => skip_randoms n (snd (random_int32 s)) end.

(** 303-...: the loop of [train_epoch_sg].  [after s indexes] is the random state after the inner functions (negative
    sampling draws from it).  The result lists, for every batch, the sentences it was made of, [indexes] and [sentence_idx]; [None] is an
    out-of-bounds write or lack of fuel. *)
Variable after : Z -> list nat -> Z.
Definition batch_record : Type := (list (list pystr) * list nat * list nat)%type.
Fixpoint epoch_loop (fuel : nat) (limit : Z) (r : reader) (s : Z) (total_words : nat) : option (list batch_record * nat) :=
  if rd_eof r || (limit <? Z.of_nat total_words)%Z then Some ([], total_words)
  else match fuel with
       | 0 => None
       | S fuel =>
         let (sents, r) := next_batch max_len r in
         match prep_file_batch sents s [] [0] total_words with
         | None => None
         | Some (s, indexes, sentence_idx, total_words) =>
           match epoch_loop fuel limit r (after (skip_randoms (length indexes) s) indexes) total_words with
           | None => None
           | Some (recs, total) => Some ((sents, indexes, sentence_idx) :: recs, total)
           end
         end
       end.
(** [expected_words / c.workers] is a C division (cdivision=True). *)
Definition train_epoch (file : list N) (workers thread_id : nat) (expected_words : Z) (s : Z) : option (list batch_record * nat) :=
  let offset := length file * thread_id / workers in
  epoch_loop (2 + length file) (Z.quot expected_words (Z.of_nat workers)) (open_at file offset) s 0.
End Epoch.
