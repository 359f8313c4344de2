(** Model of writing the vectors of a Doc2Vec model in the format of word2vec: /repo/gensim/models/doc2vec.py 732-749
    (`save_word2vec_format`) with /repo/gensim/models/keyedvectors.py 1531-1579 (arguments `total_vec`, `write_header`, `append`, `sort_attr`), and of the
    scripts /repo/gensim/scripts/glove2word2vec.py 85-89 (`get_glove_info`), 109-114 (`glove2word2vec`) and /repo/gensim/scripts/word2vec2tensor.py 68-76.

    Simplifications: those of W2vFormat_Model.  A file is its contents, None if it does not exist.  In the model of the document vectors [counts]
    stands for the attribute `doc_count`, by which they are sorted.  If the vectors of a file cannot be collected, the file is left as it was (the
    code would leave an unfinished one).  [s_str] is `str(x)` of a number. *)
From Verif Require Import Base Str Matutils_Model KeyedVectors_Model W2vFormat_Model DocTags_Model.
Local Open Scope nat_scope.

Record files : Type := mkFiles { f_main : option pystr; f_vocab : option pystr }.

(** opening with mode 'wb' or 'ab' and writing [text] *)
Definition put (append : bool) (old : option pystr) (text : pystr) : option pystr :=
  Some (match append, old with true, Some o => o ++ text | _, _ => text end).

Section D2v.
Context {A R : Type}.
Variable F : sfmt A.
Notation kvs := (kv (list A) R).

(** keyedvectors.py 1571-1579 *)
Definition vector_lines (binary : bool) (m : kvs) (prefix : pystr) : result pystr :=
  let* ks := keys_to_write m in
  let* ls := rmapM (fun k => let* v := getitem m k in
    Ok (if binary then binary_entry F (prefix ++ opt_text k) v else text_line F (prefix ++ opt_text k) v)) ks in
  Ok (concat ls).

(** keyedvectors.py 1531-1579 *)
Definition kv_save (m : kvs) (d : nat) (fvocab binary : bool) (total_vec : option nat) (write_header : bool) (prefix : pystr) (append : bool)
    (fs : files) : result unit * files :=
  let total := match total_vec with Some t => t | None => length (index_to_key m) end in
  match (if fvocab then rmap Some (save_vocab m prefix) else Ok None) with
  | Err e => (Err e, fs)
  | Ok voc =>
    let fs := match voc with Some t => mkFiles (f_main fs) (put append (f_vocab fs) t) | None => fs end in
    match vector_lines binary m prefix with
    | Err e => (Err e, fs)
    | Ok body =>
      let head := if write_header then show_nat total ++ [chr_sp] ++ show_nat d ++ [chr_nl] else [] in
      (Ok tt, mkFiles (put append (f_main fs) (head ++ body)) (f_vocab fs))
    end
  end.

(** doc2vec.py 732-749 *)
Definition d2v_save (wv dv : kvs) (d : nat) (doctag_vec word_vec : bool) (prefix : pystr) (fvocab binary : bool) (fs : files) : result unit * files :=
  let '(r, fs) :=
    if word_vec then
      let total_vec := if doctag_vec then Some (kv_len wv + kv_len dv) else None in
      kv_save wv d fvocab binary total_vec true [] false fs
    else (Ok tt, fs) in
  match r with
  | Err e => (Err e, fs)
  | Ok _ => if doctag_vec then kv_save dv d fvocab binary None (negb word_vec) prefix word_vec fs else (Ok tt, fs)
  end.

(** the document vectors of DocTags_Model *)
Definition of_dvs (m : dvs (list A)) : kvs :=
  mkKv (map Some (dv_keys m)) 0 (map (fun p => (KStr (fst p), snd p)) (dv_index m)) (dv_vectors m) None (dv_docs m).

(** ** Scripts *)

(** glove2word2vec.py 85-89; an empty file has dimension -1 *)
Definition get_glove_info (file : pystr) : nat * Z :=
  (length (file_lines file), Z.of_nat (length (words is_bspace (fst (readline file)))) - 1)%Z.

(** glove2word2vec.py 109-114 *)
Definition glove2word2vec (file : pystr) : result ((nat * nat) * pystr) :=
  let* r := load_text F file None true None in
  let m : kvs := snd r in
  let* out := save_text F m (fst r) [] true in
  Ok ((kv_len m, fst r), out).

(** word2vec2tensor.py 72-76: the files of vectors and of words; [to_utf8] refuses None *)
Variable s_str : A -> pystr.
Definition w2v2tensor (file : pystr) : result (pystr * pystr) :=
  let* r := load_text F file None false None in
  let m : kvs := snd r in
  rfold (fun out key =>
    match key with
    | None => Err TypeError
    | Some k =>
      let* v := getitem m (Some k) in
      Ok (fst out ++ join [9%N] (map s_str v) ++ [chr_nl], snd out ++ key_text k ++ [chr_nl])
    end) (index_to_key m) ([], []).
End D2v.
