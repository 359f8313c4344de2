(** Model of the word2vec text and binary formats: /repo/gensim/models/keyedvectors.py 1502-1579 (saving) and
    1744-1917 (loading).

    Simplifications: a text file is the sequence of its code points (the same UTF-8 coding is used both ways); in
    binary files words are UTF-8 bytes.  A scalar is a value of an abstract type with a textual form, and a packed
    form of four bytes.  Counts are integers.  The file being written when an error occurs is not modelled.
    [prefix], [write_header]/[no_header], [fvocab] and [limit] are; [total_vec] and [append] are left at their defaults,
    as are [encoding] and [unicode_errors] (strict UTF-8).  A word missing from the vocabulary file is a TypeError
    (numpy refuses None in the array of counts). *)

From Verif Require Import Base Str Matutils_Model KeyedVectors_Model.
Local Open Scope nat_scope.

(** ** UTF-8 *)
Definition valid_char (c : N) : bool := ((c <? 55296) || ((57344 <=? c) && (c <? 1114112)))%N.
Definition utf8_char (c : N) : list N :=
  (if c <? 128 then [c]
   else if c <? 2048 then [192 + c / 64; 128 + c mod 64]
   else if c <? 65536 then [224 + c / 4096; 128 + (c / 64) mod 64; 128 + c mod 64]
   else [240 + c / 262144; 128 + (c / 4096) mod 64; 128 + (c / 64) mod 64; 128 + c mod 64])%N.
Definition utf8 (w : pystr) : list N := flat_map utf8_char w.
Fixpoint utf8_read (bs : list N) : pystr :=
  match bs with
  | [] => []
  | b :: r =>
    if (b <? 128)%N then b :: utf8_read r else
    match r with
    | [] => []
    | b1 :: r1 =>
      if (b <? 224)%N then ((b - 192) * 64 + (b1 - 128))%N :: utf8_read r1 else
      match r1 with
      | [] => []
      | b2 :: r2 =>
        if (b <? 240)%N then ((b - 224) * 4096 + (b1 - 128) * 64 + (b2 - 128))%N :: utf8_read r2 else
        match r2 with
        | [] => []
        | b3 :: r3 => ((b - 240) * 262144 + (b1 - 128) * 4096 + (b2 - 128) * 64 + (b3 - 128))%N :: utf8_read r3
        end
      end
    end
  end.
(** [bs.decode('utf-8')]: strict, so only the exact encoding of valid characters is accepted. *)
Definition utf8_decode (bs : list N) : option pystr :=
  let w := utf8_read bs in
  if forallb valid_char w && eqb (utf8 w) bs then Some w else None.

(** ** Scalars *)
Record sfmt (A : Type) : Type := {
  s_zero : A;
  s_repr : A -> pystr;              (* repr(val) *)
  s_parse : pystr -> option A;      (* datatype(x) *)
  s_pack : A -> list N;             (* val.astype(REAL).tobytes() *)
  s_unpack : list N -> A            (* frombuffer(..., dtype=REAL).astype(datatype) *)
}.
Arguments s_zero {A}. Arguments s_repr {A}. Arguments s_parse {A}. Arguments s_pack {A}. Arguments s_unpack {A}.

Section W2v.
Context {A R : Type}.
Variable F : sfmt A.
Notation vec := (list A).
Notation kvs := (kv (list A) R).

(** ** Saving *)

Definition key_text (k : key) : pystr := match k with KStr s => s | KInt z => show_Z z end.

(** [self[key]] *)
Definition getitem (m : kvs) (k : option key) : result vec :=
  match k with
  | None => Err TypeError
  | Some k => match get_index m k with None => Err KeyError | Some i => of_option IndexError (nth_error (vectors m) i) end
  end.

(** 1536-1548: [sorted(..., key=lambda k: -count)] is stable. *)
Definition store_order (m : kvs) : result (list (option key)) :=
  match counts m with
  | None => Ok (index_to_key m)
  | Some _ =>
    let* kc := rmapM (fun k => let* c := get_count m k in Ok (k, c)) (dkeys (key_to_index m)) in
    Ok (map (fun p => Some (fst p)) (isort (fun p q => (snd q <=? snd p)%Z) kc))
  end.
(** 1563-1567 *)
Fixpoint leading_ints (i : nat) (ks : list (option key)) : nat :=
  match ks with
  | Some (KInt z) :: r => if (z =? Z.of_nat i)%Z then S (leading_ints (S i) r) else 0
  | _ => 0
  end.
Definition keys_to_write (m : kvs) : result (list (option key)) :=
  let* order := store_order m in
  if negb (length (index_to_key m) =? length (vectors m)) then Err AssertionErr else
  Ok (map (fun i => Some (KInt (Z.of_nat i))) (seq 0 (leading_ints 0 (index_to_key m))) ++ order).

Definition header (m : kvs) (vector_size : nat) : pystr :=
  show_nat (length (index_to_key m)) ++ [chr_sp] ++ show_nat vector_size ++ [chr_nl].
Definition opt_text (k : option key) : pystr := match k with Some k => key_text k | None => [] end.
Definition text_line (word : pystr) (v : vec) : pystr := word ++ [chr_sp] ++ join [chr_sp] (map (s_repr F) v) ++ [chr_nl].
Definition binary_entry (word : pystr) (v : vec) : list N := utf8 word ++ [chr_sp] ++ flat_map (s_pack F) v.

(** 1502-1579 *)
Definition save_text (m : kvs) (vector_size : nat) (prefix : pystr) (write_header : bool) : result pystr :=
  let* ks := keys_to_write m in
  let* ls := rmapM (fun k => let* v := getitem m k in Ok (text_line (prefix ++ opt_text k) v)) ks in
  Ok ((if write_header then header m vector_size else []) ++ concat ls).
Definition save_binary (m : kvs) (vector_size : nat) (prefix : pystr) : result (list N) :=
  let* ks := keys_to_write m in
  let* ls := rmapM (fun k => let* v := getitem m k in Ok (binary_entry (prefix ++ opt_text k) v)) ks in
  Ok (header m vector_size ++ concat ls).
(** 1550-1554 *)
Definition save_vocab (m : kvs) (prefix : pystr) : result pystr :=
  match counts m with
  | None => Err ValueError
  | Some _ =>
    let* ks := store_order m in
    let* ls := rmapM (fun k => match k with
                               | None => Err KeyError
                               | Some k => let* c := get_count m k in Ok (prefix ++ key_text k ++ [chr_sp] ++ show_Z c ++ [chr_nl])
                               end) ks in
    Ok (concat ls)
  end.

(** ** Loading *)

(** [self.vectors[i] = vector]: numpy repeats a single value. *)
Definition shape (d : nat) (v : vec) : result vec :=
  if length v =? d then Ok v else match v with [x] => Ok (repeat x d) | _ => Err ValueError end.

(** 1746-1764 *)
Definition add_word (n d : nat) (cnts : option (dict pystr Z)) (m : kvs) (word : pystr) (weights : vec) : result kvs :=
  if has_index_for m (KStr word) then Ok m else
  let* v := shape d weights in
  let '(r, m1) := add_vector m (KStr word) v in
  let* word_id := r in
  let* c := match cnts with
            | None => Ok (Z.of_nat n - Z.of_nat word_id)%Z
            | Some cs => of_option TypeError (dget cs word)
            end in
  set_count m1 (KStr word) c.

(** 1816-1819 *)
Definition line_to_vector (line : pystr) : result (pystr * vec) :=
  match split_on chr_sp (rstrip is_bspace line) with
  | [] => Err IndexError
  | word :: ps => let* ws := rmapM (fun p => of_option ValueError (s_parse F p)) ps in Ok (word, ws)
  end.
(** 1807-1813; [k] lines remain to be read. *)
Fixpoint read_text (n d : nat) (cnts : option (dict pystr Z)) (k : nat) (lines : list pystr) (m : kvs) : result kvs :=
  match k with
  | 0 => Ok m
  | S k' =>
    match lines with
    | [] => Err EOFErr
    | line :: rest =>
      let* wv := line_to_vector line in
      let* m' := add_word n d cnts m (fst wv) (snd wv) in
      read_text n d cnts k' rest m'
    end
  end.

(** [chunk.find(b' ')]: what precedes the first space and what follows it. *)
Fixpoint at_space (bs : list N) : option (list N * list N) :=
  match bs with
  | [] => None
  | b :: r => if (b =? chr_sp)%N then Some ([], r)
              else match at_space r with Some (w, r') => Some (b :: w, r') | None => None end
  end.
(** [d] scalars of four bytes. *)
Fixpoint unpack (d : nat) (bs : list N) : vec :=
  match d with
  | 0 => []
  | S d' => s_unpack F (firstn 4 bs) :: unpack d' (skipn 4 bs)
  end.
(** 1773-1788: at most [k] words; how many were read, the rest of the chunk. *)
Fixpoint add_bytes (n d : nat) (cnts : option (dict pystr Z)) (k : nat) (chunk : list N) (m : kvs) : result (nat * list N * kvs) :=
  match k with
  | 0 => Ok (0, chunk, m)
  | S k' =>
    match at_space chunk with
    | None => Ok (0, chunk, m)
    | Some (w, r) =>
      if length r <? 4 * d then Ok (0, chunk, m) else
      let* word := of_option UnicodeErr (utf8_decode w) in
      let* m' := add_word n d cnts m (lstrip (fun c => c =? chr_nl)%N word) (unpack d r) in
      let* p := add_bytes n d cnts k' (skipn (4 * d) r) m' in
      let '(processed, chunk', m'') := p in
      Ok (S processed, chunk', m'')
    end
  end.
(** 1791-1804; [rest]: the bytes not yet read.  Out of [fuel] stands for the loop not ending. *)
Fixpoint read_binary (fuel n d : nat) (cnts : option (dict pystr Z)) (chunk_size tot : nat) (chunk rest : list N) (m : kvs) : result kvs :=
  if tot <? n then
    match fuel with
    | 0 => Err RuntimeErr
    | S fuel' =>
      let new_chunk := firstn chunk_size rest in
      let max_words := n - next_index m in
      if max_words =? 0 then Err AssertionErr else
      let* p := add_bytes n d cnts max_words (chunk ++ new_chunk) m in
      let '(processed, chunk', m') := p in
      if length new_chunk <? chunk_size then (if tot + processed =? n then Ok m' else Err EOFErr)
      else read_binary fuel' n d cnts chunk_size (tot + processed) chunk' (skipn chunk_size rest) m'
    end
  else if tot =? n then Ok m else Err EOFErr.

(** [fin.readline()] *)
Fixpoint readline (s : pystr) : pystr * pystr :=
  match s with
  | [] => ([], [])
  | c :: r => if (c =? chr_nl)%N then ([c], r) else let (l, r') := readline r in (c :: l, r')
  end.
(** 1882-1883, 1887: a negative size makes numpy raise ValueError. *)
Definition parse_header (line : pystr) : result (nat * nat) :=
  let* zs := rmapM (fun w => of_option ValueError (parse_Z w)) (words is_space line) in
  match zs with
  | [n; d] => if ((n <? 0) || (d <? 0))%Z then Err ValueError else Ok (Z.to_nat n, Z.to_nat d)
  | _ => Err ValueError
  end.
(** 1884-1885: a limit of 0 is no limit. *)
Definition limited (limit : option nat) (n : nat) : nat :=
  match limit with Some (S l) => Nat.min n (S l) | _ => n end.
(** 1822-1832, without header: the number of lines (at most the limit) and the length of the first non-empty vector. *)
Fixpoint detect_dim (cur : option nat) (lines : list pystr) : result (option nat) :=
  match lines with
  | [] => Ok cur
  | line :: rest =>
    match cur with
    | Some (S _) => detect_dim cur rest
    | _ => let* wv := line_to_vector line in detect_dim (Some (length (snd wv))) rest
    end
  end.
Definition detect_sizes (limit : option nat) (lines : list pystr) : result (nat * nat) :=
  let seen := match limit with Some l => firstn l lines | None => lines end in
  let* d := detect_dim None seen in
  match d with Some d => Ok (length seen, d) | None => Err TypeError end.

(** 1865-1871 *)
Definition load_vocab (file : pystr) : result (dict pystr Z) :=
  rfold (fun cs line => match words is_space line with
                        | [w; c] => let* z := of_option ValueError (parse_Z c) in Ok (dset cs w z)
                        | _ => Err ValueError
                        end) (file_lines file) [].

(** 1835-1917; the matrix never needs shrinking: its rows and the slots are both [vocab_size] in number. *)
Definition load_text (file : pystr) (limit : option nat) (no_header : bool) (cnts : option (dict pystr Z)) : result (nat * kvs) :=
  let* sizes := if no_header then detect_sizes limit (file_lines file) else parse_header (fst (readline file)) in
  let body := if no_header then file else snd (readline file) in
  let n := limited limit (fst sizes) in
  let d := snd sizes in
  let* m := read_text n d cnts n (file_lines body) (kv_new (repeat (s_zero F) d) n) in
  Ok (d, m).
Definition load_binary (file : list N) (limit : option nat) (cnts : option (dict pystr Z)) (chunk_size : nat) : result (nat * kvs) :=
  let '(line, body) := readline file in
  let* line' := of_option UnicodeErr (utf8_decode line) in
  let* sizes := parse_header line' in
  let n := limited limit (fst sizes) in
  let d := snd sizes in
  let* m := read_binary (S (length body)) n d cnts chunk_size 0 [] body (kv_new (repeat (s_zero F) d) n) in
  Ok (d, m).
End W2v.
