(** Model of the corpora of plain texts: /repo/gensim/corpora/textcorpus.py 53-115 (`remove_stopwords`, `remove_short`,
    `lower_to_unicode`), 263-471 (`TextCorpus`), 473-621 (`TextDirectoryCorpus`), 623-683 (`walk`); with `file_or_filename` of
    /repo/gensim/utils.py 111-131.

    Simplifications: the outcomes of `randint` are an argument.  A directory tree is a value that does not change.  A path is
    the list of the names below the top directory.  Whether a file name matches one of the two regular expressions is an argument.
    The text of a file is given decoded.  Generators are modelled by what they yield and by what happens at their end; where the
    program can change something between two steps of a generator, the model says so. *)
From Verif Require Import Base Str W2vFormat_Model Porter_Model Text_Model Dictionary_Model.
Local Open Scope nat_scope.

(** ** Preprocessing *)
Section Pipeline.
Context {C T : Type}.  (* texts and tokens *)
(** 343-348 *)
Definition apply_all {A : Type} (fs : list (A -> A)) (x : A) : A := fold_left (fun x f => f x) fs x.
Definition preprocess_text (chars : list (C -> C)) (tok : C -> list T) (filters : list (list T -> list T)) (text : C) : list T :=
  apply_all filters (tok (apply_all chars text)).
(** 367-376: the outputs of the character filters, of the tokenizer, and of the token filters.  [lazy]: the tokenizer returns a
    generator, which is used up by the first that reads it; [read]: the caller reads it when it is yielded. *)
Fixpoint char_steps (chars : list (C -> C)) (text : C) : list C :=
  match chars with [] => [] | f :: fs => f text :: char_steps fs (f text) end.
Definition step_through (lazy read : bool) (chars : list (C -> C)) (tok : C -> list T) (filters : list (list T -> list T)) (text : C) : list C * list T * list (list T) :=
  let tokens := tok (apply_all chars text) in
  (char_steps chars text, tokens,
   map (fun kf => snd kf (if lazy && (read || (0 <? fst kf)) then [] else tokens)) (combine (seq 0 (length filters)) filters)).
End Pipeline.

(** 69, 88 *)
Definition remove_stopwords_t (tokens : list pystr) : list pystr := filter (fun t => negb (memb t STOPWORDS)) tokens.
Definition remove_short (minsize : nat) (tokens : list pystr) : list pystr := filter (fun t => minsize <=? length t) tokens.
(** 114: [bytes.lower()] changes the ASCII letters only *)
Definition bytes_lower (b : N) : N := (if (65 <=? b) && (b <=? 90) then b + 32 else b)%N.
Definition lower_to_unicode (bytes : list N) : option pystr := utf8_decode (map bytes_lower bytes).

(** ** Samples: 418-451 *)
Section Sample.
Context {D O : Type} (get : D -> O) (draw : nat -> Z).  (* the outcome of the randint for document [i] *)
(** the documents chosen, and what is left of [n] *)
Fixpoint sample_loop (len : Z) (i : nat) (n : Z) (stream : list D) : list O * Z :=
  match stream with
  | [] => ([], n)
  | d :: rest =>
    if (Z.of_nat i =? len)%Z then ([], n)
    else if (draw i <=? n)%Z then let r := sample_loop len (S i) (n - 1) rest in (get d :: fst r, snd r)
    else sample_loop len (S i) n rest
  end.
(** what is yielded, and the error at the end *)
Definition sample_texts (n len : Z) (stream : list D) : list O * option exn :=
  if negb (n <=? len)%Z then ([], Some ValueError)
  else if negb (0 <=? n)%Z then ([], Some ValueError)
  else let r := sample_loop len 0 n stream in (fst r, if (snd r =? 0)%Z then None else Some ValueError).
End Sample.
(** 444-447: with metadata a document should be a pair, but 306-325 and 580-600 yield the text: [sample[0]] and [sample[1]] are
    its first two characters *)
Definition sampled_metadata (pre : pystr -> list pystr) (sample : pystr) : result (list pystr * N) :=
  match sample with a :: b :: _ => Ok (pre [a], b) | _ => Err IndexError end.

(** ** One file: 306-325, utils.py 111-131 *)
(** a name, or an open file, which [with] closes at the end *)
Inductive source : Type := Filename (content : pystr) | FileObject (content : pystr) (closed : bool).
Definition getstream (s : source) : result (list pystr) * source :=
  match s with
  | Filename c => (Ok (file_lines c), s)
  | FileObject c false => (Ok (file_lines c), FileObject c true)
  | FileObject c true => (Err ValueError, s)     (* seek of a closed file *)
  end.
(** 390-393 and 391 *)
Definition get_texts {T : Type} (pre : pystr -> list T) (s : source) : result (list (list T)) * source :=
  let r := getstream s in (rmap (map pre) (fst r), snd r).
Definition get_texts_meta {T : Type} (pre : pystr -> list T) (s : source) : result (list (list T * nat)) * source :=
  let r := getstream s in (rmap (fun ls => map (fun kl => (pre (snd kl), fst kl)) (combine (seq 0 (length ls)) ls)) (fst r), snd r).

(** 277-288 without a dictionary, 298-304; 471 (prune_at is 2000000, dictionary.py 164) *)
Definition init_dictionary (pre : pystr -> list pystr) (s : source) : result dictionary * source :=
  let r := get_texts pre s in
  (let* ts := fst r in d_add_documents d_empty ts (Some 2000000%Z), snd r).
Definition bow (d : dictionary) (text : list pystr) : list (nat * nat) := fst (snd (d_doc2bow d text false false)).
Definition corpus_iter (pre : pystr -> list pystr) (d : dictionary) (s : source) : result (list (list (nat * nat))) * source :=
  let r := get_texts pre s in (rmap (map (bow d)) (fst r), snd r).

(** ** Directories *)
(** [listed]: os.listdir works; [link]: the directory is reached by a symbolic link *)
Inductive entry : Type := File (text : pystr) | Dir (listed link : bool) (entries : list (pystr * entry)).
Definition nondirs (es : list (pystr * entry)) : list (pystr * pystr) :=
  flat_map (fun ne => match snd ne with File t => [(fst ne, t)] | Dir _ _ _ => [] end) es.
(** 623-683, top down: the depth, the path and the files of each directory *)
Fixpoint walk (depth : nat) (path : list pystr) (top : entry) : list (nat * list pystr * list (pystr * pystr)) :=
  match top with
  | File _ => []
  | Dir false _ _ => []
  | Dir true _ es =>
    (depth, path, nondirs es) ::
    (fix below (es : list (pystr * entry)) : list (nat * list pystr * list (pystr * pystr)) :=
       match es with
       | [] => []
       | (name, e) :: es' =>
         match e with
         | Dir _ false _ => walk (S depth) (path ++ [name]) e
         | _ => []
         end ++ below es'
       end) es
  end.

Record settings : Type := mkSettings {
  min_depth : Z; max_depth : option Z;                      (* None: set to None after the construction *)
  pattern : option (pystr -> bool); exclude_pattern : option (pystr -> bool);
  lines_are_documents : bool }.
(** 507-512 *)
Definition maxsize : Z := 9223372036854775807.
Definition new_settings (mind : Z) (maxd : option Z) (pat excl : option (pystr -> bool)) (ls : bool) : settings :=
  mkSettings mind (Some (match maxd with None => maxsize | Some m => m end)) pat excl ls.
(** 571-578 *)
Definition name_ok (s : settings) (name : pystr) : bool :=
  match pattern s with None => true | Some p => p name end && match exclude_pattern s with None => true | Some p => negb (p name) end.
Definition files_of (s : settings) (d : nat * list pystr * list (pystr * pystr)) : result (list (list pystr * pystr)) :=
  let '(depth, path, files) := d in
  if (min_depth s <=? Z.of_nat depth)%Z then
    match max_depth s with
    | None => Err TypeError
    | Some m => Ok (if (Z.of_nat depth <=? m)%Z then map (fun f => (path ++ [fst f], snd f)) (filter (fun f => name_ok s (fst f)) files) else [])
    end
  else Ok [].
Definition iter_filepaths (s : settings) (top : entry) : result (list (list pystr * pystr)) :=
  rmap (@concat _) (rmapM (files_of s) (walk 0 [] top)).
(** 588-599 *)
Definition documents (lines : bool) (text : pystr) : list pystr :=
  if lines then map (strip is_space) (file_lines text) else [strip is_space text].
Definition dir_stream (s : settings) (top : entry) : result (list pystr) :=
  rmap (fun fs => flat_map (fun f => documents (lines_are_documents s) (snd f)) fs) (iter_filepaths s top).
(** 615-621 *)
Definition count_documents (s : settings) (top : entry) : result nat :=
  if lines_are_documents s then rmap (@length _) (dir_stream s top) else rmap (@length _) (iter_filepaths s top).

(** The object: its settings, [self.length], and a stream of documents that was read up to its last document but not to its end
    (the number of its documents).  Changed settings are taken not to make more documents follow in that stream. *)
Record dcorpus : Type := mkDcorpus { conf : settings; cached : option nat; suspended : option nat }.
Inductive dop : Type :=
| SetMin (z : Z) | SetMax (z : option Z) | SetPattern (p : option (pystr -> bool)) | SetExclude (p : option (pystr -> bool)) | SetLines (b : bool)
| Len | ReadAll       (* a stream from beginning to end *)
| ReadMost            (* a stream up to its last document *)
| ReadEnd.            (* the end of that stream *)
Definition reset (c : dcorpus) (s : settings) : dcorpus := mkDcorpus s None (suspended c).
(** 515-558, 580-613; an error leaves the object as it is *)
Definition dstep (top : entry) (c : dcorpus) (o : dop) : dcorpus :=
  let s := conf c in
  match o with
  | SetMin z => reset c (mkSettings z (max_depth s) (pattern s) (exclude_pattern s) (lines_are_documents s))
  | SetMax z => reset c (mkSettings (min_depth s) z (pattern s) (exclude_pattern s) (lines_are_documents s))
  | SetPattern p => reset c (mkSettings (min_depth s) (max_depth s) p (exclude_pattern s) (lines_are_documents s))
  | SetExclude p => reset c (mkSettings (min_depth s) (max_depth s) (pattern s) p (lines_are_documents s))
  | SetLines b => reset c (mkSettings (min_depth s) (max_depth s) (pattern s) (exclude_pattern s) b)
  | Len => match cached c with
           | Some _ => c
           | None => match count_documents s top with Ok n => mkDcorpus s (Some n) (suspended c) | Err _ => c end
           end
  | ReadAll => match dir_stream s top with Ok l => mkDcorpus s (Some (length l)) (suspended c) | Err _ => c end
  | ReadMost => match dir_stream s top with Ok l => mkDcorpus s (cached c) (Some (length l)) | Err _ => mkDcorpus s (cached c) None end
  | ReadEnd => match suspended c with Some n => mkDcorpus s (Some n) None | None => c end
  end.
Definition dlen (top : entry) (c : dcorpus) : result nat :=
  match cached c with Some n => Ok n | None => count_documents (conf c) top end.
