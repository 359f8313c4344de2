(** Facebook's binary fastText format: /repo/gensim/models/_fasttext_bin.py 63-674 (load, save) and
    /repo/gensim/models/fasttext.py 437-455, 777-871, 1135-1161 (what a loaded file is turned into).

    A file is a list of bytes.  The machine is little endian with 4-byte int/float and 8-byte long long/double ('@'
    native sizes; no field needs padding).  A float32 or float64 is its bit pattern, an integer.  [np.int32(v)] and
    [np.int64(v)] are taken modulo the width (newer numpy versions raise instead; the theorems assume the values fit).
    [struct.error] is ValueError here.  A negative element count in a matrix header is a ValueError (numpy would read the
    whole rest for -1).  [word.encode(encoding)] and [bytes.decode(encoding)] are parameters, [utf8] instances below; the
    replacement text for undecodable bytes is a parameter, too.
    A loader that never returns is [None]; [fuel] bounds the turns of the loop reading one word, see [word_loop]. *)

From Verif Require Import Base Str W2vFormat_Model.
Local Open Scope nat_scope.

(** ** Integers as bytes *)
Fixpoint le (k : nat) (z : Z) : list N :=
  match k with
  | O => []
  | S k' => Z.to_N (z mod 256) :: le k' (z / 256)
  end.
Fixpoint unle (bs : list N) : Z :=
  match bs with
  | [] => 0%Z
  | b :: r => (Z.of_N b + 256 * unle r)%Z
  end.
Definition signed (k : nat) (u : Z) : Z :=
  if (u <? 2 ^ (8 * Z.of_nat k - 1))%Z then u else (u - 2 ^ (8 * Z.of_nat k))%Z.

(** ** The header: lines 68-96 *)
Inductive field : Type :=
| Dim | Ws | Epoch | MinCount | Neg | WordNgrams | Loss | ModelKind | Bucket | Minn | Maxn | LrUpdateRate | T.
#[export] Instance field_eq : EqDec field.
Proof. intros x y. destruct x, y; (left; reflexivity) || (right; discriminate). Defined.
Inductive ftype : Type := TInt | TDouble.
Definition ftype_size (t : ftype) : nat := match t with TInt => 4 | TDouble => 8 end.

Definition old_header : list (field * ftype) :=
  [(Epoch, TInt); (MinCount, TInt); (Neg, TInt); (WordNgrams, TInt); (Loss, TInt); (ModelKind, TInt); (Bucket, TInt);
   (Minn, TInt); (Maxn, TInt); (LrUpdateRate, TInt); (T, TDouble)].
Definition new_header : list (field * ftype) := (Dim, TInt) :: (Ws, TInt) :: old_header.

Definition magic : Z := 793712314.
Definition version : Z := 12.

(** ** Reading *)

(** [fin.read(n)] and the rest of the file. *)
Definition read (n : nat) (bs : list N) : list N * list N := (firstn n bs, skipn n bs).

(** [_struct_unpack] of one integer of [k] bytes: lines 166-168. *)
Definition read_raw (k : nat) (bs : list N) : result (Z * list N) :=
  let '(b, r) := read k bs in
  if length b =? k then Ok (unle b, r) else Err ValueError.
Definition read_int (k : nat) (bs : list N) : result (Z * list N) :=
  let* p := read_raw k bs in Ok (signed k (fst p), snd p).
Definition read_ftype (t : ftype) (bs : list N) : result (Z * list N) :=
  match t with TInt => read_int 4 bs | TDouble => read_raw 8 bs end.

(** Line 339. *)
Fixpoint read_header (spec : list (field * ftype)) (bs : list N) : result (dict field Z * list N) :=
  match spec with
  | [] => Ok ([], bs)
  | (f, t) :: spec' =>
    let* p := read_ftype t bs in
    let* q := read_header spec' (snd p) in
    Ok ((f, fst p) :: fst q, snd q)
  end.

Section Coding.
Variable encode : pystr -> option (list N).
Variable decode : list N -> option pystr.
Variable replace : list N -> pystr.       (* errors='backslashreplace' *)

(** Lines 211-213: [char_byte] is the last byte read, or nothing at the end of the file. *)
Fixpoint word_loop (fuel : nat) (word_bytes char_byte bs : list N) : option (list N * list N) :=
  match fuel with
  | O => None
  | S fuel' =>
    if eqb char_byte [0%N] then Some (word_bytes, bs)
    else let '(c, bs') := read 1 bs in word_loop fuel' (word_bytes ++ char_byte) c bs'
  end.

(** Lines 207-225: [n] entries. *)
Fixpoint read_entries (fuel n : nat) (bs : list N) (raw : dict pystr Z) : option (result (dict pystr Z * list N)) :=
  match n with
  | O => Some (Ok (raw, bs))
  | S n' =>
    let '(c, bs1) := read 1 bs in
    match word_loop fuel [] c bs1 with
    | None => None
    | Some (wb, bs2) =>
      let word := match decode wb with Some w => w | None => replace wb end in
      match (let* p := read_int 8 bs2 in let* q := read_int 1 (snd p) in Ok (fst p, snd q)) with
      | Err e => Some (Err e)
      | Ok (count, bs3) => read_entries fuel n' bs3 (dset raw word count)
      end
    end
  end.

Fixpoint skip_ints (n : nat) (bs : list N) : result (list N) :=
  match n with
  | O => Ok bs
  | S n' => let* p := read_int 4 bs in let* q := read_int 4 (snd p) in skip_ints n' (snd q)
  end.

Record vocab := mkVocab { v_raw : dict pystr Z; v_size : Z; v_nwords : Z; v_ntokens : Z }.

(** Lines 171-231. *)
Definition load_vocab (fuel : nat) (new_format : bool) (bs : list N) : option (result (vocab * list N)) :=
  match (let* a := read_int 4 bs in let* b := read_int 4 (snd a) in let* c := read_int 4 (snd b) in
         if (fst c >? 0)%Z then Err NotImplErr else
         let* t := read_int 8 (snd c) in
         let* p := if new_format then read_int 8 (snd t) else Ok (0%Z, snd t) in
         Ok (fst a, fst b, fst t, fst p, snd p)) with
  | Err e => Some (Err e)
  | Ok (size, nwords, ntokens, prune, bs1) =>
    match read_entries fuel (Z.to_nat size) bs1 [] with
    | None => None
    | Some (Err e) => Some (Err e)
    | Some (Ok (raw, bs2)) =>
      Some (let* bs3 := if new_format then skip_ints (Z.to_nat prune) bs2 else Ok bs2 in
            Ok (mkVocab raw size nwords ntokens, bs3))
    end
  end.

Record matrix := mkMat { m_rows : Z; m_cols : Z; m_data : list Z }.

(** [np.fromfile(fin, float32, count)]: as many as there are. *)
Fixpoint fromfile (count : nat) (bs : list N) : list Z * list N :=
  match count with
  | O => ([], bs)
  | S c => let '(b, r) := read 4 bs in
           if length b =? 4 then let '(xs, r') := fromfile c r in (unle b :: xs, r') else ([], r)
  end.

(** Lines 234-286, uncompressed file. *)
Definition load_matrix (new_format : bool) (bs : list N) : result (matrix * list N) :=
  let* b := if new_format then (let* p := read_raw 1 bs in Ok (snd p)) else Ok bs in
  let* n := read_int 8 b in
  let* d := read_int 8 (snd n) in
  let count := (fst n * fst d)%Z in
  if (count <? 0)%Z then Err ValueError else
  let '(xs, r) := fromfile (Z.to_nat count) (snd d) in
  if length xs =? Z.to_nat count then Ok (mkMat (fst n) (fst d) xs, r) else Err AssertionErr.

(** Lines 289-311: the same for a compressed file, [batch_size] floats at a time (1e6 in the code). *)
Fixpoint unpack_floats (n : nat) (bs : list N) : result (list Z * list N) :=
  match n with
  | O => Ok ([], bs)
  | S n' => let* p := read_raw 4 bs in let* q := unpack_floats n' (snd p) in Ok (fst p :: fst q, snd q)
  end.
Fixpoint batched (fuel batch_size count : nat) (bs : list N) : result (list Z * list N) :=
  match fuel with
  | O => Err RuntimeErr
  | S f =>
    if batch_size <? count then
      let* p := unpack_floats batch_size bs in
      let* q := batched f batch_size (count - batch_size) (snd p) in
      Ok (fst p ++ fst q, snd q)
    else unpack_floats count bs
  end.

Record fbmodel := mkFb { fb_header : dict field Z; fb_vocab : vocab; fb_vectors : matrix; fb_hidden : option matrix }.

(** Lines 314-358. *)
Definition load (fuel : nat) (full_model : bool) (file : list N) : option (result fbmodel) :=
  match (let* a := read_int 4 file in let* b := read_int 4 (snd a) in
         let new_format := (fst a =? magic)%Z in
         let* h := read_header (if new_format then new_header else old_header) (snd b) in
         Ok (new_format, if new_format then fst h else (Dim, fst a) :: (Ws, fst b) :: fst h, snd h)) with
  | Err e => Some (Err e)
  | Ok (new_format, header, bs) =>
    match load_vocab fuel new_format bs with
    | None => None
    | Some (Err e) => Some (Err e)
    | Some (Ok (v, bs1)) =>
      Some (let* m := load_matrix new_format bs1 in
            if full_model then
              let* h := load_matrix new_format (snd m) in
              match snd h with
              | [] => Ok (mkFb header v (fst m) (Some (fst h)))
              | _ => Err AssertionErr
              end
            else Ok (mkFb header v (fst m) None))
    end
  end.

(** ** Writing *)

Record ftmodel := mkFt {
  f_vector_size : Z; f_window : Z; f_epochs : Z; f_min_count : Z; f_negative : Z; f_hs : Z; f_sg : Z;
  f_bucket : Z; f_min_n : Z; f_max_n : Z; f_sample : Z (* float64 bits *);
  f_corpus_total_words : Z;
  f_words : list (pystr * Z);             (* wv.index_to_key with the 'count' attribute *)
  f_vectors_vocab : matrix; f_vectors_ngrams : matrix;
  f_syn1 : option matrix; f_syn1neg : option matrix
}.

(** Lines 430-484 and the [fb_fasttext_parameters] of 507-510. *)
Definition get_field (m : ftmodel) (lr_update_rate word_ngrams : Z) (f : field) : result Z :=
  match f with
  | Bucket => Ok (f_bucket m)
  | Dim => Ok (f_vector_size m)
  | Epoch => Ok (f_epochs m)
  | Loss => if (f_hs m =? 1)%Z then Ok 1%Z else if (f_hs m =? 0)%Z then Ok 2%Z else Err TypeError
  | Maxn => Ok (f_max_n m)
  | Minn => Ok (f_min_n m)
  | MinCount => Ok (f_min_count m)
  | ModelKind => Ok (if (f_sg m =? 1)%Z then 2%Z else 1%Z)
  | Neg => Ok (f_negative m)
  | T => Ok (f_sample m)
  | WordNgrams => Ok word_ngrams
  | Ws => Ok (f_window m)
  | LrUpdateRate => Ok lr_update_rate
  end.
Fixpoint args_save (m : ftmodel) (lr wn : Z) (spec : list (field * ftype)) : result (list N) :=
  match spec with
  | [] => Ok []
  | (f, t) :: spec' =>
    let* v := get_field m lr wn f in
    let* r := args_save m lr wn spec' in
    Ok (le (ftype_size t) v ++ r)
  end.

(** Lines 514-558. *)
Definition entry_save (wc : pystr * Z) : result (list N) :=
  let* e := of_option UnicodeErr (encode (fst wc)) in
  Ok (e ++ [0%N] ++ le 8 (snd wc) ++ [0%N]).
Definition dict_save (m : ftmodel) : result (list N) :=
  let n := Z.of_nat (length (f_words m)) in
  let* es := rmapM entry_save (f_words m) in
  Ok (le 4 n ++ le 4 n ++ le 4 0 ++ le 8 (f_corpus_total_words m) ++ le 8 (-1) ++ concat es).

Definition floats (xs : list Z) : list N := flat_map (le 4) xs.

(** Lines 561-586. *)
Definition input_save (m : ftmodel) : result (list N) :=
  let v := f_vectors_vocab m in let g := f_vectors_ngrams m in
  if (m_cols v =? m_cols g)%Z && (m_rows v =? Z.of_nat (length (f_words m)))%Z && (m_rows g =? f_bucket m)%Z then
    Ok (le 8 (m_rows v + m_rows g) ++ le 8 (m_cols v) ++ floats (m_data v) ++ floats (m_data g))
  else Err AssertionErr.

(** Lines 589-611. *)
Definition hidden_output (m : ftmodel) : result matrix :=
  let* h := if (f_hs m =? 0)%Z then Ok None else of_option AttributeErr (option_map Some (f_syn1 m)) in
  let* h := if (f_negative m =? 0)%Z then Ok h else of_option AttributeErr (option_map Some (f_syn1neg m)) in
  of_option UnboundLocalErr h.
Definition output_save (m : ftmodel) : result (list N) :=
  let* h := hidden_output m in
  Ok (le 8 (m_rows h) ++ le 8 (m_cols h) ++ floats (m_data h)).

(** Lines 614-643. *)
Definition save (m : ftmodel) (lr_update_rate word_ngrams : Z) : result (list N) :=
  let* a := args_save m lr_update_rate word_ngrams new_header in
  let* d := dict_save m in
  let* i := input_save m in
  let* o := output_save m in
  Ok (le 4 magic ++ le 4 version ++ a ++ d ++ [0%N] ++ i ++ [0%N] ++ o).

(** ** A gensim model from a loaded file: fasttext.py 777-871 *)

(** [FastText.__init__] 418-420: no buckets if no n-gram length is eligible.  [prepare_vocab(update=True, min_count=1)] on
    an empty vocabulary keeps the words seen at least once, in the order of the file (word2vec.py 655-681; C62).
    [word_vectors] (the averages over n-grams) are computed afterwards: [FtNgrams]. *)
Definition build (b : fbmodel) : result ftmodel :=
  let h f := dget_or (fb_header b) f 0%Z in
  let bucket := if (h Maxn <? h Minn)%Z then 0%Z else h Bucket in
  let words := filter (fun wc => (1 <=? snd wc)%Z) (v_raw (fb_vocab b)) in
  let n := Z.of_nat (length words) in
  let vs := fb_vectors b in
  if negb ((m_rows vs =? n + bucket)%Z && (m_cols vs =? h Dim)%Z) then Err AssertionErr else
  let k := Z.to_nat (n * m_cols vs) in
  let hs := if (h Loss =? 1)%Z then 1%Z else 0%Z in
  let neg := h Neg in
  let syn1 := if (hs =? 0)%Z then None else fb_hidden b in
  let syn1neg := if (neg =? 0)%Z then None else fb_hidden b in
  if (n =? 0)%Z then Err AssertionErr else
  if match syn1neg with Some s => negb (m_cols s =? h Dim)%Z | None => false end then Err ValueError else
  if negb (n =? v_nwords (fb_vocab b))%Z then Err ValueError else
  Ok (mkFt (h Dim) (h Ws) (h Epoch) (h MinCount) neg hs (if (h ModelKind =? 2)%Z then 1%Z else 0%Z)
           bucket (h Minn) (h Maxn) (h T) (v_ntokens (fb_vocab b)) words
           (mkMat n (m_cols vs) (firstn k (m_data vs))) (mkMat bucket (m_cols vs) (skipn k (m_data vs)))
           syn1 syn1neg).

Definition load_facebook_model (fuel : nat) (file : list N) : option (result ftmodel) :=
  match load fuel true file with
  | None => None
  | Some r => Some (let* b := r in build b)
  end.
End Coding.

(** UTF-8, the default encoding, strict: lone surrogates cannot be encoded. *)
Definition utf8_encode (w : pystr) : option (list N) := if forallb valid_char w then Some (utf8 w) else None.
(** UTF-16 for ASCII text, little endian with byte order mark: [encoding='utf-16']. *)
Definition utf16_encode (w : pystr) : option (list N) := Some (255%N :: 254%N :: flat_map (fun c => [c; 0%N]) w).
