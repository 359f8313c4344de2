(** Model of the Matrix Market writer, reader and indexed corpus:
    /repo/gensim/matutils.py 1135-1342 (MmWriter), /repo/gensim/corpora/_mmreader.pyx 41-212 (MmReader),
    /repo/gensim/corpora/mmcorpus.py 54-126, /repo/gensim/corpora/indexedcorpus.py 49-188.

    Simplifications: the output file is a fresh local uncompressed file; logging and the metadata pickle are
    left out; weights are abstract ([wfmt], Formats_Base.v); term ids are arbitrary integers. *)

From Verif Require Import Base Str Matutils_Model Formats_Base.
Local Open Scope Z_scope.

Section Mm.
Context {W : Type} (F : wfmt W).

Local Notation doc := (list (Z * W)).

(** Python's order on [(id, weight)] pairs. *)
Definition pair_leb (a b : Z * W) : bool :=
  (fst a <? fst b) || ((fst a =? fst b) && w_leb F (snd a) (snd b)).

(** matutils.py 1149: HEADER_LINE. *)
Definition mm_header : pystr := str "%%MatrixMarket matrix coordinate real general" ++ [chr_nl].

(** matutils.py 1170-1196: [write_headers(-1, -1, -1)]. *)
Definition mm_write_headers : pystr := mm_header ++ repeat chr_sp 50 ++ [chr_nl].

(** matutils.py 1198-1217: [fake_headers]. *)
Definition mm_stats (num_docs num_terms num_nnz : Z) : pystr :=
  show_Z num_docs ++ [chr_sp] ++ show_Z num_terms ++ [chr_sp] ++ show_Z num_nnz.
Definition mm_fake_headers (content : pystr) (num_docs num_terms num_nnz : Z) : result pystr :=
  let stats := mm_stats num_docs num_terms num_nnz in
  if (50 <? Z.of_nat (length stats)) then Err ValueError
  else Ok (overwrite content (length mm_header) stats).

(** matutils.py 1219-1244: [write_vector]; the third component is [last_docno]. *)
Definition mm_line (docno : Z) (p : Z * W) : pystr :=
  show_Z (docno + 1) ++ [chr_sp] ++ show_Z (fst p + 1) ++ [chr_sp] ++ w_show F (snd p) ++ [chr_nl].
Definition mm_write_vector (content : pystr) (last_docno docno : Z) (vector : doc)
  : result (pystr * Z * (Z * Z)) :=
  if negb (last_docno <? docno) then Err AssertionErr else
  let vector := isort pair_leb (filter (fun p => w_keep F (snd p)) vector) in
  let content := content ++ concat (map (mm_line docno) vector) in
  Ok (content, docno, match vector with
                      | [] => (-1, 0)
                      | p :: _ => (fst (last vector p), Z.of_nat (length vector))
                      end).

(** matutils.py 1246-1329: [write_corpus(..., index=True)]. State of the loop: the file, [last_docno],
    [_num_terms], [num_nnz], [docno], [poslast], [offsets]. *)
Record mm_wstate : Type := {
  ws_content : pystr; ws_last : Z; ws_terms : Z; ws_nnz : Z; ws_docno : Z; ws_poslast : Z; ws_offsets : list Z }.

Definition set_last {A} (l : list A) (x : A) : list A := removelast l ++ [x].

Definition mm_write_step (s : mm_wstate) (bow : doc) : result mm_wstate :=
  let docno := ws_docno s + 1 in
  let posnow := Z.of_nat (length (ws_content s)) in
  let offsets := if posnow =? ws_poslast s then set_last (ws_offsets s) (-1) else ws_offsets s in
  let* (content, last_docno, (max_id, veclen)) := mm_write_vector (ws_content s) (ws_last s) docno bow in
  Ok {| ws_content := content; ws_last := last_docno;
        ws_terms := Z.max (ws_terms s) (1 + max_id); ws_nnz := ws_nnz s + veclen;
        ws_docno := docno; ws_poslast := posnow; ws_offsets := offsets ++ [posnow] |}.

Definition mm_write_corpus (num_terms : option Z) (corpus : list doc) : result (pystr * list Z) :=
  let* s := rfold mm_write_step corpus
              {| ws_content := mm_write_headers; ws_last := -1; ws_terms := 0; ws_nnz := 0;
                 ws_docno := -1; ws_poslast := -1; ws_offsets := [] |} in
  let num_docs := ws_docno s + 1 in
  let num_terms := match num_terms with Some n => if n =? 0 then ws_terms s else n | None => ws_terms s end in
  let* content := mm_fake_headers (ws_content s) num_docs num_terms (ws_nnz s) in
  Ok (content, ws_offsets s).

(** mmcorpus.py 86-126: [save_corpus]; [id2word] only matters through its length. *)
Definition mm_save_corpus (id2word_len : option nat) (corpus : list doc) : result (pystr * list Z) :=
  mm_write_corpus (option_map Z.of_nat id2word_len) corpus.

(** ** Reader *)

Definition ascii_lower (s : pystr) : pystr :=
  map (fun c => if ((65 <=? c) && (c <=? 90))%N then (c + 32)%N else c) s.
Fixpoint startswith (p s : pystr) : bool :=
  match p, s with
  | [], _ => true
  | a :: p', b :: s' => (a =? b)%N && startswith p' s'
  | _, [] => false
  end.

Record mm_hdr : Type := { num_docs : Z; num_terms : Z; num_nnz : Z }.

(** _mmreader.pyx 67-74: the first line after the banner that does not start with '%'. *)
Fixpoint mm_read_stats (transposed : bool) (lines : list pystr) : result mm_hdr :=
  match lines with
  | [] => Ok {| num_docs := 0; num_terms := 0; num_nnz := 0 |}
  | line :: rest =>
    if startswith [37%N] line then mm_read_stats transposed rest
    else
      let* ns := rmapM (fun w => of_option ValueError (parse_Z w)) (words is_space line) in
      match ns with
      | [a; b; c] =>
        if ll_ok a && ll_ok b && ll_ok c then
          Ok (if transposed then {| num_docs := a; num_terms := b; num_nnz := c |}
              else {| num_docs := b; num_terms := a; num_nnz := c |})
        else Err OverflowErr
      | _ => Err ValueError
      end
  end.

(** _mmreader.pyx 41-79: [__init__]. *)
Definition mm_init (transposed : bool) (content : pystr) : result mm_hdr :=
  match file_lines content with
  | [] => Ok {| num_docs := 0; num_terms := 0; num_nnz := 0 |}
  | header :: lines =>
    if startswith (str "%%matrixmarket matrix coordinate real general") (ascii_lower (strip is_space header))
    then mm_read_stats transposed lines else Err ValueError
  end.

(** _mmreader.pyx 89-101: [skip_headers]. *)
Fixpoint mm_skip_headers (lines : list pystr) : list pystr :=
  match lines with
  | [] => []
  | line :: rest => if startswith [37%N] line then mm_skip_headers rest else rest
  end.

(** _mmreader.pyx 127-135, 192-200: one data line, as 0-based [(docid, termid, val)]. *)
Definition mm_parse_line (transposed : bool) (line : pystr) : option (Z * Z * W) :=
  match scan_ll line with
  | Some (a, r) =>
    match scan_ll r with
    | Some (b, r') =>
      match w_scan F r' with
      | Some v => let (docid, termid) := if transposed then (a, b) else (b, a) in Some (docid - 1, termid - 1, v)
      | None => None
      end
    | None => None
    end
  | None => None
  end.

(** [range(a, b)] *)
Definition zrange (a b : Z) : list Z := map (fun i => a + Z.of_nat i) (seq 0 (Z.to_nat (b - a))).
Definition empties (a b : Z) : list (Z * doc) := map (fun i => (i, [])) (zrange a b).

(** _mmreader.pyx 124-152: the loop over data lines. [document = None] is Python's unbound local. *)
Fixpoint mm_loop (transposed : bool) (lines : list pystr) (previd : Z) (document : option doc)
  : list (Z * doc) * result (Z * option doc) :=
  match lines with
  | [] => ([], Ok (previd, document))
  | line :: rest =>
    match mm_parse_line transposed line with
    | None => ([], Err ValueError)
    | Some (docid, termid, val) =>
      if negb (previd <=? docid) then ([], Err AssertionErr)
      else if docid =? previd then
        match document with
        | None => ([], Err UnboundLocalErr)
        | Some d => mm_loop transposed rest previd (Some (d ++ [(termid, val)]))
        end
      else
        let ys := (if 0 <=? previd then match document with Some d => [(previd, d)] | None => [] end else [])
                  ++ empties (previd + 1) docid in
        let (ys', r) := mm_loop transposed rest docid (Some [(termid, val)]) in
        (ys ++ ys', r)
    end
  end.

(** _mmreader.pyx 103-161: [__iter__]. *)
Definition mm_iter_ids (transposed : bool) (h : mm_hdr) (content : pystr) : gen (Z * doc) :=
  let (ys, r) := mm_loop transposed (mm_skip_headers (file_lines content)) (-1) None in
  match r with
  | Err e => (ys, Some e)
  | Ok (previd, document) =>
    (ys ++ (if 0 <=? previd then match document with Some d => [(previd, d)] | None => [] end else [])
        ++ empties (previd + 1) (num_docs h), None)
  end.

(** mmcorpus.py 69-84: documents only. *)
Definition mm_iter (transposed : bool) (h : mm_hdr) (content : pystr) : gen doc :=
  let g := mm_iter_ids transposed h content in (map snd (fst g), snd g).

(** _mmreader.pyx 190-208: the loop of [docbyoffset]. *)
Fixpoint mm_doc_loop (transposed : bool) (lines : list pystr) (previd : Z) (document : doc) : result doc :=
  match lines with
  | [] => Ok document
  | line :: rest =>
    match mm_parse_line transposed line with
    | None => Err ValueError
    | Some (docid, termid, val) =>
      if negb (previd <=? docid) then Err AssertionErr
      else if docid =? previd then mm_doc_loop transposed rest previd (document ++ [(termid, val)])
      else if 0 <=? previd then Ok document
      else mm_doc_loop transposed rest docid (document ++ [(termid, val)])
    end
  end.

(** _mmreader.pyx 163-212: [docbyoffset]; seeking before the start of the file is an OSError. *)
Definition mm_docbyoffset (transposed : bool) (content : pystr) (offset : Z) : result doc :=
  if offset =? -1 then Ok []
  else if offset <? 0 then Err OSErr
  else mm_doc_loop transposed (lines_at content (Z.to_nat offset)) (-1) [].
End Mm.

(** indexedcorpus.py 157-188: [__getitem__] with an integer, over a format's [docbyoffset]. *)
Definition ix_getitem {D} (docbyoffset : Z -> result D) (index : option (list Z)) (docno : Z) : result D :=
  match index with
  | None => Err RuntimeErr
  | Some ix => let* i := np_index (length ix) docno in docbyoffset (nth i ix 0)
  end.

(** indexedcorpus.py 137-155: [__len__] of an indexed corpus. *)
Definition ix_len {D} (index : option (list Z)) (docs : result (list D)) : result Z :=
  match index with
  | Some ix => Ok (Z.of_nat (length ix))
  | None => rmap (fun ds => Z.of_nat (length ds)) docs
  end.
