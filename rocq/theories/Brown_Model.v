(** Models of the readers of the Brown corpus: /repo/gensim/models/word2vec.py 1968-1990 ([BrownCorpus]) and
    /repo/gensim/models/doc2vec.py 1088-1123 ([TaggedBrownCorpus]).

    A directory is given by what [os.listdir] lists, in that order, each name with the bytes of the file or [None] for what is no file;
    decoding is strict UTF-8, line by line.  [lower] is [str.lower], [alpha] is [str.isalpha] of one character. *)
From Verif Require Import Base Str W2vFormat_Model Sentences_Model.
Local Open Scope nat_scope.

Section Brown.
Context (lower : pystr -> pystr) (alpha : N -> bool).
Definition isalpha (s : pystr) : bool := match s with [] => false | _ => forallb alpha s end.
(** word2vec.py 1983-1985, doc2vec.py 1117-1119 *)
Definition brown_words (tokens : list pystr) : list pystr :=
  let token_tags := filter (fun t => length t =? 2) (map (split_on 47%N) tokens) in
  let token_tags := filter (fun t => isalpha (firstn 2 (nth 1 t []))) token_tags in
  map (fun t => lower (nth 0 t []) ++ str "/" ++ firstn 2 (nth 1 t [])) token_tags.
(** [os.path.join(dirname, fname)] for a name without "/" *)
Definition os_join (dirname fname : pystr) : pystr :=
  match rev dirname with [] => fname | c :: _ => if N.eqb c 47 then dirname ++ fname else dirname ++ str "/" ++ fname end.
Definition directory : Type := list (pystr * option (list N)).

Definition docs (A : Type) : Type := (list A * stop)%type.
(** The lines of one file; [item_no] is the number of the next line *)
Fixpoint file_loop {A : Type} (yield : nat -> list pystr -> A) (item_no : nat) (lines : list (list N)) : docs A :=
  match lines with
  | [] => ([], Ended)
  | l :: lines' =>
    match tokens_of l with
    | None => ([], Raised UnicodeErr)
    | Some ts => let (ys, e) := file_loop yield (S item_no) lines' in
                 (match brown_words ts with [] => ys | ws => yield item_no ws :: ys end, e)
    end
  end.
Fixpoint dir_loop {A : Type} (yield : pystr -> nat -> list pystr -> A) (dirname : pystr) (dir : directory) : docs A :=
  match dir with
  | [] => ([], Ended)
  | (_, None) :: dir' => dir_loop yield dirname dir'
  | (fname, Some bytes) :: dir' =>
    match file_loop (yield (os_join dirname fname)) 0 (file_lines bytes) with
    | (ys, Ended) => let (zs, e) := dir_loop yield dirname dir' in (ys ++ zs, e)
    | (ys, e) => (ys, e)
    end
  end.
Definition brown (dirname : pystr) (dir : directory) : docs (list pystr) := dir_loop (fun _ _ ws => ws) dirname dir.
(** doc2vec.py 1123: the tag *)
Definition tag_of (fname : pystr) (item_no : nat) : pystr := fname ++ str "_SENT_" ++ show_nat item_no.
Definition tagged_brown (dirname : pystr) (dir : directory) : docs (list pystr * pystr) :=
  dir_loop (fun fname item_no ws => (ws, tag_of fname item_no)) dirname dir.
End Brown.
