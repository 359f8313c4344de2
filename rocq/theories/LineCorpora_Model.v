(** Models of the corpus formats that store one document per line:
    /repo/gensim/corpora/svmlightcorpus.py 46-189, bleicorpus.py 37-185, lowcorpus.py 19-288,
    malletcorpus.py 57-236.

    Simplifications: local uncompressed files; a file is the sequence of its characters, so that positions
    count characters where the code counts UTF-8 bytes (writer and reader agree on either count); logging
    is left out; weights are abstract ([wfmt]) except for the list-of-words formats, where they are
    rationals truncated by [int]. *)

From Coq Require Import QArith.
From Verif Require Import Base Str Matutils_Model Dictionary_Model Utils_Model Formats_Base MmCorpus_Model.
Close Scope Q_scope.
Local Open Scope Z_scope.

(** [for line in lines: yield f(line)] *)
Fixpoint gen_map {A B} (f : A -> result B) (l : list A) : gen B :=
  match l with
  | [] => ([], None)
  | x :: l' =>
    match f x with
    | Err e => ([], Some e)
    | Ok y => let (ys, e) := gen_map f l' in (y :: ys, e)
    end
  end.

(** The writing loop common to these formats: [offsets.append(fout.tell()); fout.write(line)]. *)
Fixpoint write_lines (content : pystr) (lines : list pystr) : pystr * list Z :=
  match lines with
  | [] => (content, [])
  | l :: r => let (c, os) := write_lines (content ++ l) r in (c, Z.of_nat (length content) :: os)
  end.

(** [s.rsplit(':', 1)] *)
Fixpoint break_at (c : N) (s : pystr) : pystr * option pystr :=
  match s with
  | [] => ([], None)
  | x :: s' => if (x =? c)%N then ([], Some s') else let (a, b) := break_at c s' in (x :: a, b)
  end.
Definition rsplit_colon (s : pystr) : list pystr :=
  match break_at 58%N (rev s) with
  | (a, Some b) => [rev b; rev a]
  | (_, None) => [s]
  end.

(** ** SVMlight *)

Section Svm.
Context {W : Type} (F : wfmt W).
Local Notation doc := (list (Z * W)).

(** svmlightcorpus.py 170-189: [doc2line]; the label is given as the text ["%s" % label]. *)
Definition svm_pair (p : Z * W) : pystr := show_Z (fst p + 1) ++ [58%N] ++ w_show F (snd p).
Definition svm_doc2line (d : doc) (label : pystr) : pystr :=
  label ++ [chr_sp] ++ join [chr_sp] (map svm_pair d) ++ [chr_nl].

(** svmlightcorpus.py 86-123: [save_corpus]; [labels = None] is the default [False]. *)
Fixpoint svm_lines (labels : option (list pystr)) (docno : nat) (corpus : list doc) : result (list pystr) :=
  match corpus with
  | [] => Ok []
  | d :: r =>
    let* label := match labels with
                  | None | Some [] => Ok (str "0")
                  | Some ls => of_option IndexError (nth_error ls docno)
                  end in
    let* ls := svm_lines labels (S docno) r in
    Ok (svm_doc2line d label :: ls)
  end.
Definition svm_save (labels : option (list pystr)) (corpus : list doc) : result (pystr * list Z) :=
  let* ls := svm_lines labels 0 corpus in Ok (write_lines [] ls).

(** Python's [line[:line.find('#')]]: everything but the last character when there is no '#'. *)
Definition cut_comment (line : pystr) : pystr :=
  match break_at 35%N line with
  | (a, Some _) => a
  | (_, None) => removelast line
  end.

(** svmlightcorpus.py 143-168: [line2doc]; [None] for comments and empty lines. *)
Definition svm_field (f : list pystr) : result (option (Z * W)) :=
  match f with
  | [p1; p2] =>
    if eq_dec p1 (str "qid") then Ok None
    else
      let* i := of_option ValueError (parse_Z p1) in
      let* w := of_option ValueError (w_parse F p2) in
      Ok (Some (i - 1, w))
  | _ => Err ValueError
  end.
Fixpoint somes {A} (l : list (option A)) : list A :=
  match l with [] => [] | Some a :: r => a :: somes r | None :: r => somes r end.
Definition svm_line2doc (line : pystr) : result (option (doc * pystr)) :=
  let line := strip is_space (cut_comment line) in
  match line with
  | [] => Ok None
  | _ =>
    match words is_space line with
    | [] => Err ValueError
    | target :: parts =>
      let* es := rmapM svm_field (map rsplit_colon parts) in
      Ok (Some (somes es, target))
    end
  end.

(** svmlightcorpus.py 66-84: [__iter__]; also the labels collected and the final [length]. *)
Definition svm_iter_full (content : pystr) : gen (option (doc * pystr)) := gen_map svm_line2doc (file_lines content).
Definition svm_iter (content : pystr) : gen doc :=
  let g := svm_iter_full content in (map fst (somes (fst g)), snd g).
Definition svm_labels (content : pystr) : list pystr := map snd (somes (fst (svm_iter_full content))).

(** svmlightcorpus.py 125-141: [docbyoffset]; subscripting [None] is a TypeError. *)
Definition svm_docbyoffset (content : pystr) (offset : Z) : result doc :=
  if offset <? 0 then Err OSErr else
  let* r := svm_line2doc (readline_at content (Z.to_nat offset)) in
  match r with Some (d, _) => Ok d | None => Err TypeError end.
End Svm.

(** ** Blei LDA-C *)

(** [id2word]: a dict, or the [FakeDict] of [dict_from_corpus] when none was given. *)
Definition id2word_terms {W} (id2word : option (dict Z pystr)) (corpus : list (list (Z * W))) : Z :=
  match id2word with
  | None => dict_from_corpus corpus
  | Some [] => 0
  | Some (kv :: r) => 1 + fold_left Z.max (dkeys r) (fst kv)
  end.
Definition id2word_get {W} (id2word : option (dict Z pystr)) (corpus : list (list (Z * W))) (i : Z) : pystr :=
  match id2word with
  | None => if (0 <=? i) && (i <? dict_from_corpus corpus) then show_Z i else str "---"
  | Some d => match dget d i with Some w => w | None => str "---" end
  end.
(** The vocabulary file (bleicorpus.py 158-164, ucicorpus.py 280-287). *)
Definition vocab_file {W} (id2word : option (dict Z pystr)) (corpus : list (list (Z * W))) : pystr :=
  concat (map (fun i => id2word_get id2word corpus i ++ [chr_nl]) (zrange 0 (id2word_terms id2word corpus))).

Section Blei.
Context {W : Type} (F : wfmt W).   (* here [w_show] is "%g" and [w_keep] is [abs(w) > 1e-7] *)
Local Notation doc := (list (Z * W)).

(** bleicorpus.py 116-166: [save_corpus]: the corpus file and offsets (the vocabulary is [vocab_file]). *)
Definition blei_pair (p : Z * W) : pystr := show_Z (fst p) ++ [58%N] ++ w_show F (snd p).
Definition blei_line (d : doc) : pystr :=
  show_Z (Z.of_nat (length d)) ++ [chr_sp]
    ++ join [chr_sp] (map blei_pair (filter (fun p => w_keep F (snd p)) d)) ++ [chr_nl].
Definition blei_save (corpus : list doc) : pystr * list Z := write_lines [] (map blei_line corpus).

(** bleicorpus.py 95-114: [line2doc]. *)
Definition blei_field (f : list pystr) : result (Z * W) :=
  match f with
  | [p1; p2] =>
    let* i := of_option ValueError (parse_Z p1) in
    let* w := of_option ValueError (w_parse F p2) in
    Ok (i, w)
  | _ => Err ValueError
  end.
Definition blei_line2doc (line : pystr) : result doc :=
  match words is_space line with
  | [] => Err IndexError
  | n :: parts =>
    let* n := of_option ValueError (parse_Z n) in
    if negb (n =? Z.of_nat (length parts)) then Err ValueError
    else rmapM blei_field (map rsplit_colon parts)
  end.

(** bleicorpus.py 80-93, 168-185. *)
Definition blei_iter (content : pystr) : gen doc := gen_map blei_line2doc (file_lines content).
Definition blei_docbyoffset (content : pystr) (offset : Z) : result doc :=
  if offset <? 0 then Err OSErr else blei_line2doc (readline_at content (Z.to_nat offset)).

(** bleicorpus.py 73-78: loading the vocabulary file. *)
Definition blei_load_vocab (vocab : pystr) : dict Z pystr :=
  let ws := map (rstrip is_space) (file_lines vocab) in
  combine (zrange 0 (Z.of_nat (length ws))) ws.
End Blei.

(** ** List-of-words (GibbsLDA++) *)

(** [int(value)]: truncation towards zero. *)
Definition q_int (q : Q) : Z := Z.quot (Qnum q) (Zpos (Qden q)).

(** lowcorpus.py 19-33: [split_on_space]. *)
Definition split_on_space (s : pystr) : list pystr :=
  filter (fun w => match w with [] => false | _ => true end) (split_on chr_sp (strip is_space s)).

(** lowcorpus.py 218-239, malletcorpus.py 180-192: the words of one document. [id2word[wordid]] raises
    KeyError for a dict and ValueError for the [FakeDict]. *)
Definition low_lookup (id2word : option (dict Z pystr)) (num_terms : Z) (i : Z) : result pystr :=
  match id2word with
  | Some d => of_option KeyError (dget d i)
  | None => if (0 <=? i) && (i <? num_terms) then Ok (show_Z i) else Err ValueError
  end.
Definition low_words (id2word : option (dict Z pystr)) (num_terms : Z) (d : list (Z * Q)) : result (list pystr) :=
  let* wss := rmapM (fun p => let* w := low_lookup id2word num_terms (fst p) in
                              Ok (repeat w (Z.to_nat (q_int (snd p))))) d in
  Ok (concat wss).

(** lowcorpus.py 195-246: [save_corpus]. *)
Definition low_save (id2word : option (dict Z pystr)) (corpus : list (list (Z * Q))) : result (pystr * list Z) :=
  let* wss := rmapM (low_words id2word (dict_from_corpus corpus)) corpus in
  Ok (write_lines (show_Z (Z.of_nat (length corpus)) ++ [chr_nl])
                  (map (fun ws => join [chr_sp] ws ++ [chr_nl]) wss)).

(** [Counter]: counts in order of first occurrence. *)
Definition counter_add (c : dict pystr Z) (w : pystr) : dict pystr Z :=
  dset c w (match dget c w with Some n => n + 1 | None => 1 end).
Definition counter (ws : list pystr) : dict pystr Z := fold_left counter_add ws [].

(** lowcorpus.py 141-179: [line2doc] with [use_wordids] set ... *)
Definition low_doc_ids (word2id : dict pystr Z) (ws : list pystr) : list (Z * Z) :=
  let step (s : list pystr * dict pystr Z) (w : pystr) :=
    let (use_words, counts) := s in
    if dmem word2id w then
      (if dmem counts w then use_words else use_words ++ [w], counter_add counts w)
    else s in
  let (use_words, counts) := fold_left step ws ([], []) in
  map (fun w => (dget_or word2id w 0, dget_or counts w 0)) use_words.
(** ... and not set (while the vocabulary is being collected). *)
Definition low_doc_words (ws : list pystr) : list (pystr * Z) := counter ws.

(** The vocabulary collected by [__init__] when [id2word] is missing or empty (lowcorpus.py 99-109). *)
Definition low_vocab (wss : list (list pystr)) : dict Z pystr :=
  let all_terms := isort str_leb (nodup eq_dec (concat wss)) in
  combine (zrange 0 (Z.of_nat (length all_terms))) all_terms.

Record low_corpus : Type := { low_num_docs : Z; low_id2word : dict Z pystr; low_word2id : dict pystr Z }.

(** lowcorpus.py 181-193: [__iter__] skips the first line. *)
Definition low_doc_lines (content : pystr) : list pystr := tl (file_lines content).

(** lowcorpus.py 77-136: [__init__] and [_calculate_num_docs] ([int] strips white space). *)
Definition low_init (id2word : option (dict Z pystr)) (content : pystr) : result low_corpus :=
  let* n := match file_lines content with
            | [] => Ok 0
            | l :: _ => of_option ValueError (parse_Z (strip is_space l))
            end in
  let m := match id2word with
           | None | Some [] => low_vocab (map split_on_space (low_doc_lines content))
           | Some d => d
           end in
  Ok {| low_num_docs := n; low_id2word := m; low_word2id := revdict m |}.

Definition low_line2doc (c : low_corpus) (line : pystr) : list (Z * Z) := low_doc_ids (low_word2id c) (split_on_space line).
Definition low_iter (c : low_corpus) (content : pystr) : list (list (Z * Z)) :=
  map (low_line2doc c) (low_doc_lines content).
Definition low_docbyoffset (c : low_corpus) (content : pystr) (offset : Z) : result (list (Z * Z)) :=
  if offset <? 0 then Err OSErr else Ok (low_line2doc c (readline_at content (Z.to_nat offset))).

(** ** Mallet *)

(** malletcorpus.py 139-205: [save_corpus]. With [metadata] every document carries its id and language. *)
Definition mallet_line (docid lang : pystr) (ws : list pystr) : pystr :=
  docid ++ [chr_sp] ++ lang ++ [chr_sp] ++ join [chr_sp] ws ++ [chr_nl].
Fixpoint mallet_lines (id2word : option (dict Z pystr)) (num_terms : Z) (docs : list (list (Z * Q) * (pystr * pystr)))
  : result (list pystr) :=
  match docs with
  | [] => Ok []
  | (d, (docid, lang)) :: r =>
    let* ws := low_words id2word num_terms d in
    let* ls := mallet_lines id2word num_terms r in
    Ok (mallet_line docid lang ws :: ls)
  end.
(** With [metadata=True] the documents are [(doc, (doc_id, doc_lang))]; [dict_from_corpus] would then
    iterate over such pairs, so that a missing [id2word] is only modelled without metadata. *)
Definition mallet_save_meta (id2word : dict Z pystr) (docs : list (list (Z * Q) * (pystr * pystr)))
  : result (pystr * list Z) :=
  let* ls := mallet_lines (Some id2word) 0 docs in Ok (write_lines [] ls).
Definition mallet_save (id2word : option (dict Z pystr)) (corpus : list (list (Z * Q))) : result (pystr * list Z) :=
  let docs := combine corpus (map (fun i => (show_Z i, str "__unknown__")) (zrange 0 (Z.of_nat (length corpus)))) in
  let* ls := mallet_lines id2word (dict_from_corpus corpus) docs in Ok (write_lines [] ls).

(** [s.split(None, 2)] of a string with no white space at either end: at most two words and the rest. *)
Fixpoint take_word (s : pystr) : pystr * pystr :=
  match s with
  | [] => ([], [])
  | c :: s' => if is_space c then ([], s) else let (w, r) := take_word s' in (c :: w, r)
  end.
Definition split_none_2 (s : pystr) : list pystr :=
  match lstrip is_space s with
  | [] => []
  | s1 =>
    let (w1, r1) := take_word s1 in
    match lstrip is_space r1 with
    | [] => [w1]
    | s2 =>
      let (w2, r2) := take_word s2 in
      match lstrip is_space r2 with
      | [] => [w1; w2]
      | s3 => [w1; w2; s3]
      end
    end
  end.

(** malletcorpus.py 103-137: [line2doc], up to the conversion of the words. *)
Definition mallet_split (line : pystr) : result (pystr * pystr * list pystr) :=
  match split_none_2 (strip is_space line) with
  | docid :: lang :: r => Ok (docid, lang, split_on_space (match r with [] => [] | ws :: _ => ws end))
  | _ => Err IndexError
  end.

(** malletcorpus.py 57-88, lowcorpus.py 95-118: [__init__]. With [metadata] and no [id2word] the vocabulary
    loop [for word, wordCnt in doc] runs over the pair [(doc, (docid, lang))]: unpacking [doc] needs exactly
    two distinct words, and if it never fails, [sorted] compares tuples with strings. *)
Definition mallet_init (id2word : option (dict Z pystr)) (metadata : bool) (content : pystr) : result low_corpus :=
  let lines := file_lines content in
  let num_docs := Z.of_nat (length lines) in
  let* m := match id2word with
            | None | Some [] =>
              let* ss := rmapM (fun l => let* (_, _, ws) := mallet_split l in
                                         if metadata && negb (length (low_doc_words ws) =? 2)%nat
                                         then Err ValueError else Ok ws) lines in
              if metadata && negb (length lines =? 0)%nat then Err TypeError
              else Ok (low_vocab ss)
            | Some d => Ok d
            end in
  Ok {| low_num_docs := num_docs; low_id2word := m; low_word2id := revdict m |}.

Definition mallet_line2doc (c : low_corpus) (line : pystr) : result (list (Z * Z) * (pystr * pystr)) :=
  let* (docid, lang, ws) := mallet_split line in
  Ok (low_doc_ids (low_word2id c) ws, (docid, lang)).
Definition mallet_iter (c : low_corpus) (content : pystr) : gen (list (Z * Z) * (pystr * pystr)) :=
  gen_map (mallet_line2doc c) (file_lines content).
Definition mallet_docbyoffset (c : low_corpus) (content : pystr) (offset : Z) : result (list (Z * Z) * (pystr * pystr)) :=
  if offset <? 0 then Err OSErr else mallet_line2doc c (readline_at content (Z.to_nat offset)).
