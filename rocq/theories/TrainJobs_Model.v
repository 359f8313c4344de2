(** Model of how training data is cut into jobs and prepared for the inner loops:
    /repo/gensim/models/word2vec.py 1142-1211 ([_job_producer]), 1411-1433 ([_get_next_alpha]), 1448-1461 ([_raw_word_count]),
    1012-1013 (in [train]) and /repo/gensim/models/word2vec_inner.pyx 539-586 ([train_batch_sg]; [train_batch_cbow] 632-684 is
    the same up to the inner function).

    The learning rate is a real number.  Logging is left out. *)

From Verif Require Import Base NegSampling_Model.
From Coq Require Import Reals.

(** 1427-1430 *)
Definition get_next_alpha (alpha min_alpha : R) (epochs cur_epoch : nat) (epoch_progress : R) : R :=
  let progress := ((INR cur_epoch + epoch_progress) / INR epochs)%R in
  let next_alpha := (alpha - (alpha - min_alpha) * progress)%R in
  Rmax min_alpha next_alpha.
(** 1012-1013: zero is taken as "not given". *)
Definition given_or (given : option R) (old : R) : R :=
  match given with Some a => if Req_EM_T a 0%R then old else a | None => old end.

Local Open Scope nat_scope.
Section Jobs.
Context {D : Type}.
Variable len : D -> nat.

Fixpoint raw_word_count (job : list D) : nat := match job with [] => 0 | d :: r => len d + raw_word_count r end.

(** 1183-1193: [total_examples] and [total_words] may be None; 0 counts as None in the test.  A quotient by zero raises. *)
Definition epoch_progress (total_examples total_words : option nat) (pushed_examples pushed_words : nat) : result R :=
  match total_examples with
  | Some (S t) => Ok (INR pushed_examples / INR (S t))%R
  | _ => match total_words with
         | None => Err TypeError
         | Some 0 => Err ZeroDivErr
         | Some (S t) => Ok (INR pushed_words / INR (S t))%R
         end
  end.

(** 1167-1200: the jobs put into the queue, and the exception that ends the producer, if any.  Only one of the two counters is
    kept up in the code; the other is not used. *)
Fixpoint produce (batch_words : nat) (total_examples total_words : option nat) (alpha_at : R -> R)
    (data : list D) (batch : list D) (size pushed_examples pushed_words : nat) (alpha : R) : list (list D * R) * option exn :=
  match data with
  | [] => match batch with [] => ([], None) | _ => ([(batch, alpha)], None) end
  | d :: r =>
    if size + len d <=? batch_words then produce batch_words total_examples total_words alpha_at r (batch ++ [d]) (size + len d) pushed_examples pushed_words alpha
    else
      let pe := pushed_examples + length batch in
      let pw := pushed_words + raw_word_count batch in
      match epoch_progress total_examples total_words pe pw with
      | Err e => ([(batch, alpha)], Some e)
      | Ok p => let '(js, e) := produce batch_words total_examples total_words alpha_at r [d] (len d) pe pw (alpha_at p) in ((batch, alpha) :: js, e)
      end
  end.
(** The last of these is followed by one None per worker, see TrainSched_Model. *)
Definition job_producer (batch_words : nat) (total_examples total_words : option nat) (alpha_at : R -> R) (data : list D) : list (list D * R) * option exn :=
  produce batch_words total_examples total_words alpha_at data [] 0 0 0 (alpha_at 0%R).
End Jobs.

(** word2vec_inner.pyx 539-566.  [max_len] is MAX_SENTENCE_LEN; [c.indexes] has that many entries and [c.sentence_idx] one more.
    Writing past the end is an error here.  [sample] holds the sample_ints if sampling is on. *)
Section Batch.
Context {W : Type}.
Variable max_len : nat.
Variable index_of : W -> option nat.
Variable sample : option (nat -> Z).

(** 544-557: the words of one sentence; the state is the random state and the indexes so far. *)
Fixpoint prep_sentence (sent : list W) (s : Z) (indexes : list nat) : Z * list nat :=
  match sent with
  | [] => (s, indexes)
  | w :: r =>
    match index_of w with
    | None => prep_sentence r s indexes
    | Some i =>
      let '(keep, s) := match sample with
                        | None => (true, s)
                        | Some si => let '(x, s') := random_int32 s in (negb (si i <? x)%Z, s')
                        end in
      if keep then
        let indexes := indexes ++ [i] in
        if length indexes =? max_len then (s, indexes) else prep_sentence r s indexes
      else prep_sentence r s indexes
    end
  end.
(** 541-566: [None] if [c.sentence_idx] overflows. *)
Fixpoint prep_batch (sents : list (list W)) (s : Z) (indexes sentence_idx : list nat) : option (Z * list nat * list nat) :=
  match sents with
  | [] => Some (s, indexes, sentence_idx)
  | [] :: r => prep_batch r s indexes sentence_idx
  | sent :: r =>
    let '(s, indexes) := prep_sentence sent s indexes in
    if length sentence_idx <? max_len + 1 then
      let sentence_idx := sentence_idx ++ [length indexes] in
      if length indexes =? max_len then Some (s, indexes, sentence_idx) else prep_batch r s indexes sentence_idx
    else None
  end.
Definition prepare_batch (sents : list (list W)) (s : Z) : option (Z * list nat * list nat) := prep_batch sents s [] [0].
End Batch.

(** 573-586: the pairs (i, j) of positions trained on, in order; [reduced] are the random window reductions. *)
Section Pairs.
Variable window : nat.
Variable reduced : nat -> nat.
Definition window_of (start stop i : nat) : list nat :=
  let j := Z.max (Z.of_nat i - Z.of_nat window + Z.of_nat (reduced i)) (Z.of_nat start) in
  let k := Z.min (Z.of_nat i + Z.of_nat window + 1 - Z.of_nat (reduced i)) (Z.of_nat stop) in
  filter (fun j => negb (j =? i)) (seq (Z.to_nat j) (Z.to_nat (k - j))).
Definition sentence_pairs (start stop : nat) : list (nat * nat) := flat_map (fun i => map (pair i) (window_of start stop i)) (seq start (stop - start)).
Fixpoint batch_pairs (sentence_idx : list nat) : list (nat * nat) :=
  match sentence_idx with
  | a :: ((b :: _) as r) => sentence_pairs a b ++ batch_pairs r
  | _ => []
  end.
End Pairs.
