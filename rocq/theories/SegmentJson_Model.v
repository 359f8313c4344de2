(** Model of the writing of segmented articles: /repo/gensim/scripts/segment_wiki.py 109-169 ([segment_and_write_all_articles]), with
    [json.dumps] of the standard library (ASCII only, separators ", " and ": ") for strings, [None], lists and dictionaries.

    The articles are those of WikiPages_Model.v; the file is what was written when the stream of articles ended without an exception. *)
From Verif Require Import Base Str WikiPages_Model.
Local Open Scope nat_scope.

Inductive json : Type := JNull | JStr (s : pystr) | JList (l : list json) | JObj (l : list (pystr * json)).

(** [json.encoder.py_encode_basestring_ascii] *)
Definition hex_digit (n : N) : N := (if n <? 10 then 48 + n else 87 + n)%N.
Definition hex4 (n : N) : pystr := map hex_digit [n / 4096 mod 16; n / 256 mod 16; n / 16 mod 16; n mod 16]%N.
Definition uxxxx (n : N) : pystr := str "\u" ++ hex4 n.
Definition escape (c : N) : pystr :=
  if N.eqb c 34 then str "\""" else if N.eqb c 92 then str "\\" else if N.eqb c 10 then str "\n" else if N.eqb c 13 then str "\r"
  else if N.eqb c 9 then str "\t" else if N.eqb c 12 then str "\f" else if N.eqb c 8 then str "\b"
  else if ((32 <=? c) && (c <=? 126))%N then [c]
  else if (c <? 65536)%N then uxxxx c
  else let v := (c - 65536)%N in uxxxx (55296 + v / 1024 mod 1024)%N ++ uxxxx (56320 + v mod 1024)%N.
Definition dump_str (s : pystr) : pystr := [34%N] ++ concat (map escape s) ++ [34%N].
Fixpoint dumps (j : json) : pystr :=
  match j with
  | JNull => str "null"
  | JStr s => dump_str s
  | JList l => str "[" ++ join (str ", ") (map dumps l) ++ str "]"
  | JObj l => str "{" ++ join (str ", ") (map (fun kv => dump_str (fst kv) ++ str ": " ++ dumps (snd kv)) l) ++ str "}"
  end.

(** 142-169: one line for each article *)
Definition strings (l : list pystr) : json := JList (map JStr l).
Definition output_data (include : bool) (a : article) : result json :=
  let '(title, sections, links) := a in
  let* more := match include, links with
               | true, Some l => Ok [(str "interlinks", JList (map (fun p => strings [fst p; snd p]) l))]
               | true, None => Err IndexError
               | false, _ => Ok []
               end in
  Ok (JObj ([(str "title", match title with Some t => JStr t | None => JNull end); (str "section_titles", strings (map fst sections));
             (str "section_texts", strings (map snd sections))] ++ more)).
Definition write_articles (include : bool) (articles : list article) : result pystr :=
  rfold (fun out a => let* j := output_data include a in Ok (out ++ dumps j ++ [chr_nl])) articles [].
Section Segment.
Context (wordc decimal : N -> bool) (lower : pystr -> pystr) (n2cp : pystr -> option N).
Definition segment_and_write (root : elem) (min_article_character workers : nat) (include : bool) : result pystr :=
  let* articles := fst (get_texts_with_sections wordc decimal lower n2cp (mkS [str "0"] min_article_character workers include None) root) in
  write_articles include articles.
End Segment.
