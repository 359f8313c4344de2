(** Character n-grams and their hashes in fastText: /repo/gensim/models/fasttext_inner.pyx 614-715 and
    /repo/gensim/models/fasttext.py 1298-1319.

    A word is a list of code points, encoded text a list of bytes; a [bytes] index is a [nat].  The code's unsigned
    32-bit arithmetic is reduction modulo 2^32 on [N].  [range] and [while] loops that count upwards carry a fuel that
    [FtNgrams_Properties] shows to be sufficient. *)

From Verif Require Import Base Str W2vFormat_Model.
Local Open Scope nat_scope.

(** ** [ft_hash_bytes]: pyx 614-636 *)

(** [<np.uint32_t>(<np.int8_t>b)]: sign extension. *)
Definition extend (b : N) : N := (if b <? 128 then b else b + 4294967040)%N.
Definition u32 (x : N) : N := (x mod 4294967296)%N.
Definition hash_step (h b : N) : N := u32 (N.lxor h (extend b) * 16777619).
Definition ft_hash_bytes (bytez : list N) : N := fold_left hash_step bytez 2166136261%N.

(** ** [compute_ngrams]: pyx 639-662 *)
Definition extended (word : pystr) : pystr := 60%N :: word ++ [62%N].     (* f'<{word}>' *)
(** [s[i:j]] *)
Definition slice {A} (s : list A) (i j : nat) : list A := firstn (j - i) (skipn i s).
(** [range(a, b)] *)
Definition range (a b : nat) : list nat := seq a (b - a).
Definition compute_ngrams (word : pystr) (min_n max_n : nat) : list pystr :=
  let w := extended word in
  flat_map (fun n => map (fun i => slice w i (i + n)) (range 0 (length w - n + 1)))
           (range min_n (Nat.min (length w) max_n + 1)).

(** ** [compute_ngrams_bytes]: pyx 672-715 *)
Definition continuation (b : N) : bool := (N.land b 192 =? 128)%N.

(** [while j < num_bytes and (bytez[j] & _MB_MASK) == _MB_START: j += 1] *)
Fixpoint skip_continuation (fuel : nat) (bytez : list N) (j : nat) : nat :=
  match fuel with
  | O => j
  | S f =>
    match nth_error bytez j with
    | Some b => if continuation b then skip_continuation f bytez (j + 1) else j
    | None => j
    end
  end.

(** The loop over lengths, from one start [i]. *)
Fixpoint grow (fuel : nat) (bytez : list N) (min_n max_n i j n : nat) : list (list N) :=
  match fuel with
  | O => []
  | S f =>
    if (j <? length bytez) && (n <=? max_n) then
      let j' := skip_continuation (length bytez) bytez (j + 1) in
      (if (min_n <=? n) && negb ((n =? 1) && ((i =? 0) || (j' =? length bytez))) then [slice bytez i j'] else [])
      ++ grow f bytez min_n max_n i j' (n + 1)
    else []
  end.
Definition ngrams_of_bytes (bytez : list N) (min_n max_n : nat) : list (list N) :=
  flat_map (fun i =>
    match nth_error bytez i with
    | Some b => if continuation b then [] else grow (length bytez) bytez min_n max_n i i 1
    | None => []
    end) (range 0 (length bytez)).
(** [.encode("utf-8")] is strict: a lone surrogate is an error. *)
Definition compute_ngrams_bytes (word : pystr) (min_n max_n : nat) : result (list (list N)) :=
  if forallb valid_char (extended word) then Ok (ngrams_of_bytes (utf8 (extended word)) min_n max_n) else Err UnicodeErr.

(** ** [ft_ngram_hashes]: fasttext.py 1298-1319 *)
Definition ft_ngram_hashes (word : pystr) (minn maxn : nat) (num_buckets : N) : result (list N) :=
  let* grams := compute_ngrams_bytes word minn maxn in
  rmapM (fun g => if (num_buckets =? 0)%N then Err ZeroDivErr else Ok (ft_hash_bytes g mod num_buckets)%N) grams.
