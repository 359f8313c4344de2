(** Model of the UCI bag-of-words corpus: /repo/gensim/corpora/ucicorpus.py 23-293.
    The format is Matrix Market with another header, so the writing and reading loops of MmCorpus_Model are reused.

    Simplifications: as in MmCorpus_Model.  Counts are read back by the reader as C doubles; integers of
    magnitude at most 2^53 are exact there, and are identified with the double. *)

From Coq Require Import QArith.
From Verif Require Import Base Str Matutils_Model Dictionary_Model Formats_Base MmCorpus_Model LineCorpora_Model.
Close Scope Q_scope.
Local Open Scope Z_scope.

(** ucicorpus.py 78-87: FAKE_HEADER and [write_headers]. *)
Definition uci_fake_header : pystr := repeat chr_sp 20 ++ [chr_nl].
Definition uci_write_headers : pystr := uci_fake_header ++ uci_fake_header ++ uci_fake_header.

(** ucicorpus.py 89-100: [update_headers]. *)
Fixpoint uci_put (content : pystr) (offset : nat) (values : list Z) : result pystr :=
  match values with
  | [] => Ok content
  | v :: r =>
    if Z.of_nat (length uci_fake_header) <? Z.of_nat (length (show_Z v)) then Err ValueError
    else uci_put (overwrite content offset (show_Z v)) (offset + length uci_fake_header) r
  end.
Definition uci_update_headers (content : pystr) (num_docs num_terms num_nnz : Z) : result pystr :=
  uci_put content 0 [num_docs; num_terms; num_nnz].

(** ucicorpus.py 139: integer counts, zeros left out. *)
Definition uci_vector (bow : list (Z * Q)) : list (Z * Z) :=
  filter (fun p => negb (snd p =? 0)) (map (fun p => (fst p, q_int (snd p))) bow).

(** ucicorpus.py 102-157: [write_corpus(..., index=True)]; 249-293: [save_corpus] (the vocabulary is [vocab_file]). *)
Definition uci_save (corpus : list (list (Z * Q))) : result (pystr * list Z) :=
  let* s := rfold (fun s bow => mm_write_step zfmt s (uci_vector bow)) corpus
              {| ws_content := uci_write_headers; ws_last := -1; ws_terms := 0; ws_nnz := 0;
                 ws_docno := -1; ws_poslast := -1; ws_offsets := [] |} in
  let* content := uci_update_headers (ws_content s) (ws_docno s + 1) (ws_terms s) (ws_nnz s) in
  Ok (content, ws_offsets s).

(** ucicorpus.py 26-52: [UciReader.__init__]; missing lines leave zeros. *)
Definition uci_int (line : pystr) : result Z :=
  let* n := of_option ValueError (parse_Z (strip is_bspace line)) in
  if ll_ok n then Ok n else Err OverflowErr.
Definition uci_init (content : pystr) : result mm_hdr :=
  match file_lines content with
  | [] => Ok {| num_docs := 0; num_terms := 0; num_nnz := 0 |}
  | l1 :: r1 =>
    let* a := uci_int l1 in
    match r1 with
    | [] => Ok {| num_docs := a; num_terms := 0; num_nnz := 0 |}
    | l2 :: r2 =>
      let* b := uci_int l2 in
      match r2 with
      | [] => Ok {| num_docs := a; num_terms := b; num_nnz := 0 |}
      | l3 :: _ => let* c := uci_int l3 in Ok {| num_docs := a; num_terms := b; num_nnz := c |}
      end
    end
  end.

(** ucicorpus.py 54-66 [skip_headers], 195-205 [__iter__] over _mmreader.pyx 103-161. *)
Definition uci_iter (h : mm_hdr) (content : pystr) : gen (list (Z * Z)) :=
  let (ys, r) := mm_loop zfmt true (skipn 3 (file_lines content)) (-1) None in
  match r with
  | Err e => (map snd ys, Some e)
  | Ok (previd, document) =>
    (map snd (ys ++ (if 0 <=? previd then match document with Some d => [(previd, d)] | None => [] end else [])
                 ++ empties (previd + 1) (num_docs h)), None)
  end.
Definition uci_docbyoffset (content : pystr) (offset : Z) : result (list (Z * Z)) := mm_docbyoffset zfmt true content offset.

(** ucicorpus.py 188-191: the vocabulary; the words are byte strings. *)
Definition uci_load_vocab (vocab : pystr) : dict Z pystr :=
  let ws := map (strip is_bspace) (file_lines vocab) in
  combine (zrange 0 (Z.of_nat (length ws))) ws.

(** ucicorpus.py 207-247: [create_dictionary], given the documents of one iteration. *)
Record uci_dict : Type := {
  u_id2token : dict Z pystr; u_token2id : dict pystr Z; u_num_docs : Z; u_num_nnz : Z; u_dfs : dict Z Z; u_num_pos : Z }.
Definition uci_count (s : dict Z Z * Z) (p : Z * Z) : dict Z Z * Z :=
  (dset (fst s) (fst p) (dget_or (fst s) (fst p) 0 + 1), snd s + snd p).
Definition uci_create_dictionary (id2word : dict Z pystr) (h : mm_hdr) (docs : list (list (Z * Z))) : uci_dict :=
  let s := fold_left (fun s d => fold_left uci_count d s) docs ([], 0) in
  {| u_id2token := id2word; u_token2id := revdict id2word; u_num_docs := num_docs h; u_num_nnz := num_nnz h;
     u_dfs := fst s; u_num_pos := snd s |}.
