(** Models of the sentence readers: /repo/gensim/models/word2vec.py 1993-2018 (Text8Corpus), 2021-2067 (LineSentence),
    2070-2121 (PathLineSentences), and of /repo/gensim/utils.py 1970-1982 (save_as_line_sentence).

    Simplifications: files are byte sequences and decoding is strict UTF-8; for [Text8Corpus] the results of successive
    [fin.read(8192)] are given as a list of non-empty chunks, of whatever sizes; [max_sentence_length] and [limit] are
    not negative.  A reader that never stops yielding is marked as such ([Loops]). *)

From Verif Require Import Base Str Formats_Base W2vFormat_Model.
Local Open Scope nat_scope.

Inductive stop : Type := Ended | Raised (e : exn) | Loops.
Definition stream : Type := (list (list pystr) * stop)%type.

(** [utils.to_unicode(line).split()] *)
Definition tokens_of (bs : list N) : option (list pystr) := option_map (words is_space) (utf8_decode bs).

(** word2vec.py 2016-2018: [while len(sentence) >= m: yield sentence[:m]; sentence = sentence[m:]] *)
Fixpoint drain (fuel m : nat) (sentence : list pystr) : list (list pystr) * list pystr :=
  match fuel with
  | 0 => ([], sentence)
  | S fuel => if m <=? length sentence
              then let (ys, s) := drain fuel m (skipn m sentence) in (firstn m sentence :: ys, s)
              else ([], sentence)
  end.

(** [text.rfind(b' ')]: the text before the last space and the text from it on. *)
Fixpoint rfind_space (text : list N) : option (list N * list N) :=
  match text with
  | [] => None
  | b :: r =>
    match rfind_space r with
    | Some (a, c) => Some (b :: a, c)
    | None => if (b =? chr_sp)%N then Some ([], text) else None
    end
  end.

(** word2vec.py 2000-2018. *)
Fixpoint text8_loop (m : nat) (sentence : list pystr) (rest : list N) (chunks : list (list N)) : stream :=
  match chunks with
  | [] =>
    match tokens_of rest with
    | None => ([], Raised UnicodeErr)
    | Some ws => (match sentence ++ ws with [] => [] | s => [s] end, Ended)
    end
  | c :: chunks' =>
    let text := rest ++ c in
    match (match rfind_space text with
           | None => Some ([], text)
           | Some (a, r) => option_map (fun ws => (ws, strip is_bspace r)) (tokens_of a)
           end) with
    | None => ([], Raised UnicodeErr)
    | Some (ws, rest') =>
      match m with
      | 0 => ([], Loops)
      | _ => let (ys, s) := drain (length (sentence ++ ws)) m (sentence ++ ws) in
             let (zs, e) := text8_loop m s rest' chunks' in (ys ++ zs, e)
      end
    end
  end.
Definition text8 (m : nat) (chunks : list (list N)) : stream := text8_loop m [] [] chunks.

(** word2vec.py 2055-2058: [i = 0; while i < len(line): yield line[i: i + m]; i += m] *)
Fixpoint slices (fuel m : nat) (line : list pystr) : list (list pystr) :=
  match fuel, line with
  | 0, _ | _, [] => []
  | S fuel, _ => firstn m line :: slices fuel m (skipn m line)
  end.
Fixpoint line_loop (m : nat) (lines : list (list N)) : stream :=
  match lines with
  | [] => ([], Ended)
  | l :: lines' =>
    match tokens_of l with
    | None => ([], Raised UnicodeErr)
    | Some ws =>
      match m, ws with
      | 0, _ :: _ => ([], Loops)
      | _, _ => let (zs, e) := line_loop m lines' in (slices (length ws) m ws ++ zs, e)
      end
    end
  end.
(** [itertools.islice(fin, limit)] *)
Definition islice {A} (limit : option nat) (l : list A) : list A := match limit with None => l | Some n => firstn n l end.
(** word2vec.py 2046-2067 *)
Definition line_sentence (m : nat) (limit : option nat) (file : list N) : stream := line_loop m (islice limit (file_lines file)).

(** word2vec.py 2093-2121: a directory is the list of its entries in the order of [os.listdir]; [None] is a
    subdirectory, which cannot be opened as a file. *)
Definition sort_names {A} (es : list (pystr * A)) : list (pystr * A) := isort (fun a b => str_leb (fst a) (fst b)) es.
Fixpoint path_loop (m : nat) (limit : option nat) (es : list (pystr * option (list N))) : stream :=
  match es with
  | [] => ([], Ended)
  | (_, None) :: _ => ([], Raised OSErr)
  | (_, Some file) :: es' =>
    match line_sentence m limit file with
    | (ys, Ended) => let (zs, e) := path_loop m limit es' in (ys ++ zs, e)
    | s => s
    end
  end.
Definition path_line_sentences (m : nat) (limit : option nat) (dir : list (pystr * option (list N))) : stream := path_loop m limit (sort_names dir).

(** utils.py 1970-1982 *)
Definition save_as_line_sentence (corpus : list (list pystr)) : list N :=
  flat_map (fun sentence => utf8 (join [chr_sp] sentence ++ [chr_nl])) corpus.
