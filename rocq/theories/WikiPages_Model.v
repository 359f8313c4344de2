(** Model of the reading of wiki dumps: /repo/gensim/corpora/wikicorpus.py 84-88 ([IGNORED_NAMESPACES]), 366-384 ([get_namespace]),
    390-449 ([extract_pages]), 455-529 ([process_article], [_process_article]), [WikiCorpus] 570-718, and
    /repo/gensim/scripts/segment_wiki.py 172-203 ([extract_page_xmls]), 206-259 ([segment]), 262-366 ([_WikiSectionsCorpus]);
    /repo/gensim/corpora/textcorpus.py 290-304 and 453-470 ([__iter__] and [__len__] as [WikiCorpus] inherits them).

    A dump is the parsed tree.  [iterparse] gives the elements in the order of their end tags; [clear] empties each page after it was
    used, so an element that ends later sees the empty page.  What is yielded before an exception is not modelled.  The groups of articles
    come from the background reader (Chunkize_Model.v) and from [pool.imap] in order.  [tostring] and [fromstring] of a page are inverse. *)
From Verif Require Import Base Str Text_Model Utils_Model Regex_Model Wiki_Model Dictionary_Model.
Local Open Scope nat_scope.

Inductive elem : Type := Elem (tag : pystr) (text : option pystr) (kids : list elem).
Definition e_tag (e : elem) : pystr := match e with Elem t _ _ => t end.
Definition e_text (e : elem) : option pystr := match e with Elem _ x _ => x end.
Definition e_kids (e : elem) : list elem := match e with Elem _ _ ks => ks end.

(** [elem.find("./a/b")] *)
Fixpoint first_some {A B : Type} (f : A -> option B) (l : list A) : option B :=
  match l with [] => None | x :: l' => match f x with Some y => Some y | None => first_some f l' end end.
Fixpoint find (path : list pystr) (e : elem) : option elem :=
  match path with [] => Some e | t :: p => first_some (fun k => if eqb (e_tag k) t then find p k else None) (e_kids e) end.
Definition find_text (path : list pystr) (e : elem) : result (option pystr) :=
  match find path e with Some k => Ok (e_text k) | None => Err AttributeErr end.

(** get_namespace, 366-384 *)
Definition RE_NS : re := seq [ch 123; Grp 1 (lazy dot); ch 125].
Definition EXPORT : pystr := str "http://www.mediawiki.org/xml/export-".
Definition get_namespace (tag : pystr) : result pystr :=
  let namespace := match m1 RE_NS [] tag with Some x => group 1 x | None => [] end in
  if begins EXPORT namespace then Ok namespace else Err ValueError.
Definition qualified (namespace name : pystr) : pystr := str "{" ++ namespace ++ str "}" ++ name.

(** The elements at their end tags *)
Fixpoint prune (page_tag : pystr) (e : elem) : elem :=
  match e with Elem t x ks => if eqb t page_tag then Elem t None [] else Elem t x (map (prune page_tag) ks) end.
Fixpoint ends (page_tag : pystr) (e : elem) : list elem :=
  match e with Elem t x ks => concat (map (ends page_tag) ks) ++ [Elem t x (map (prune page_tag) ks)] end.
Fixpoint first_tag (e : elem) : pystr := match e with Elem t _ [] => t | Elem _ _ (k :: _) => first_tag k end.
Definition pages_of (root : elem) : result (pystr * list elem) :=
  let* namespace := get_namespace (first_tag root) in
  let page_tag := qualified namespace (str "page") in
  Ok (namespace, filter (fun e => eqb (e_tag e) page_tag) (tl (ends page_tag root))).

(** extract_pages, 390-449 *)
Definition article_filter : Type := elem -> option pystr -> option pystr -> bool.
Definition extract_page (filter_namespaces : list pystr) (filter_articles : option article_filter) (namespace : pystr) (e : elem)
  : result (option pystr * pystr * option pystr) :=
  let q n := qualified namespace (str n) in
  let* title := find_text [q "title"%string] e in
  let* text := find_text [q "revision"%string; q "text"%string] e in
  let* text := match filter_namespaces with
               | [] => Ok text
               | _ => let* ns := find_text [q "ns"%string] e in
                      Ok (match ns with Some n => if memb n filter_namespaces then text else None | None => None end)
               end in
  let text := match filter_articles with Some f => if f e title text then text else None | None => text end in
  let* pageid := find_text [q "id"%string] e in
  Ok (title, match text with Some t => t | None => [] end, pageid).
Definition extract_pages (root : elem) (filter_namespaces : list pystr) (filter_articles : option article_filter)
  : result (list (option pystr * pystr * option pystr)) :=
  let* (namespace, pages) := pages_of root in rmapM (extract_page filter_namespaces filter_articles namespace) pages.

Definition IGNORED_NAMESPACES : list pystr :=
  map str ["Wikipedia"; "Category"; "File"; "Portal"; "Template"; "MediaWiki"; "User"; "Help"; "Book"; "Draft"; "WikiProject"; "Special"; "Talk"]%string.
(** [any(title.startswith(ignore + ':') for ignore in IGNORED_NAMESPACES)] *)
Definition ignored (title : option pystr) : result bool :=
  match title with Some t => Ok (existsb (fun i => begins (i ++ str ":") t) IGNORED_NAMESPACES) | None => Err AttributeErr end.

Section WikiCorpus.
Context (wordc decimal : N -> bool) (lower : pystr -> pystr) (n2cp : pystr -> option N).
Definition tokenizer : Type := pystr -> Z -> Z -> bool -> list pystr.
(** process_article, 455-489 *)
Definition process_article (args : pystr * option pystr * option pystr) (tok : tokenizer) (lo hi : Z) (low : bool) : list pystr * option pystr * option pystr :=
  let '(text, title, pageid) := args in (tok (filter_wiki wordc decimal n2cp true true text) lo hi low, title, pageid).

(** WikiCorpus, 570-718; [w_length] is [None] as long as the attribute does not exist. *)
Record wcorpus : Type := mkW {
  w_namespaces : list pystr; w_articles : option article_filter; w_metadata : bool; w_processes : nat; w_tok : tokenizer;
  w_min_tokens : Z; w_lo : Z; w_hi : Z; w_low : bool; w_length : option nat }.
Definition with_length (w : wcorpus) (n : nat) : wcorpus :=
  mkW (w_namespaces w) (w_articles w) (w_metadata w) (w_processes w) (w_tok w) (w_min_tokens w) (w_lo w) (w_hi w) (w_low w) (Some n).
Definition text_item : Type := list pystr * option (option pystr * option pystr).
(** The body of the loop of 684-698 *)
Definition collect (w : wcorpus) (got : list text_item) (a : list pystr * option pystr * option pystr) : result (list text_item) :=
  let '(tokens, title, pageid) := a in
  if (Z.of_nat (length tokens) <? w_min_tokens w)%Z then Ok got
  else let* skip := ignored title in
       if skip then Ok got else Ok (got ++ [(tokens, if w_metadata w then Some (pageid, title) else None)]).
Definition get_texts (w : wcorpus) (root : elem) : result (list text_item) * wcorpus :=
  match (if w_processes w =? 0 then Err ValueError else
         let* pages := extract_pages root (w_namespaces w) (w_articles w) in
         let texts := map (fun p => let '(title, text, pageid) := p in (text, title, pageid)) pages in
         let groups := chunkize_serial texts (10 * w_processes w) in
         rfold (collect w) (concat (map (map (fun a => process_article a (w_tok w) (w_lo w) (w_hi w) (w_low w))) groups)) []) with
  | Ok l => (Ok l, with_length w (length l))
  | Err e => (Err e, w)
  end.
(** [__init__] sets [metadata] to [False]; [Dictionary(self.get_texts())] has prune_at = 2000000 (dictionary.py 44). *)
Definition new_corpus (namespaces : list pystr) (articles : option article_filter) (processes : nat) (tok : tokenizer) (min_tokens lo hi : Z) (low : bool)
  (dictionary : option (Dictionary_Model.dictionary)) (root : elem) : result (Dictionary_Model.dictionary * wcorpus) :=
  let w := mkW namespaces articles false processes tok min_tokens lo hi low None in
  match dictionary with
  | Some d => Ok (d, w)
  | None => match get_texts w root with
            | (Ok l, w') => let* d := d_add_documents d_empty (map fst l) (Some 2000000%Z) in Ok (d, w')
            | (Err e, _) => Err e
            end
  end.
Definition wlen (w : wcorpus) : result nat := match w_length w with Some n => Ok n | None => Err AttributeErr end.

(** ** segment_wiki.py *)
Definition heading_body : re := seq [none_of (str "="); many dot; none_of (str "=")].
Definition HEADING : re := seq [ch nl; lit (str "=="); heading_body; lit (str "=="); ch nl].
Definition HEADING_CAPTURE : re := seq [ch nl; lit (str "=="); Grp 1 heading_body; lit (str "=="); ch nl].
Definition section_texts (text : pystr) : list pystr := resplit HEADING text.
Definition section_headings (text : pystr) : list pystr :=
  map (strip is_space) (str "Introduction" :: map (fun g => group 1 (snd g)) (finditer HEADING_CAPTURE text)).
Definition article : Type := option pystr * list (pystr * pystr) * option (list (pystr * pystr)).
Definition segment (include : bool) (e : elem) : result article :=
  let* namespace := get_namespace (e_tag e) in
  let q n := qualified namespace (str n) in
  let* title := find_text [q "title"%string] e in
  let* text := find_text [q "revision"%string; q "text"%string] e in
  let* ns := find_text [q "ns"%string] e in
  let text := match ns with Some n => if memb n [str "0"] then text else None | None => None end in
  let* (links, contents, headings) :=
    match text with
    | Some t =>
      let contents := section_texts t in
      let headings := section_headings t in
      if length contents =? length headings then Ok (find_interlinks wordc decimal n2cp t, contents, headings) else Err AssertionErr
    | None => Ok ([], [], [])
    end in
  Ok (title, combine headings (map (filter_wiki wordc decimal n2cp true true) contents), if include then Some links else None).

(** get_texts_with_sections, 303-366; the parameter [filter_namespaces] of the corpus is used nowhere. *)
Record scorpus : Type := mkS { s_namespaces : list pystr; s_min : nat; s_processes : nat; s_include : bool; s_length : option nat }.
Definition redirect (sections : list (pystr * pystr)) : bool :=
  match sections with [] => true | (_, body) :: _ => begins (str "#redirect") (lower (lstrip is_space body)) end.
Definition characters (sections : list (pystr * pystr)) : nat := fold_right Nat.add 0 (map (fun s => length (strip is_space (snd s))) sections).
Definition collect_sections (c : scorpus) (got : list article) (a : article) : result (list article) :=
  let '(title, sections, _) := a in
  let* skip := ignored title in
  if skip then Ok got
  else if redirect sections then Ok got
  else if characters sections <? s_min c then Ok got
  else Ok (got ++ [a]).
Definition get_texts_with_sections (c : scorpus) (root : elem) : result (list article) * scorpus :=
  match (if s_processes c =? 0 then Err ValueError else
         let* (_, pages) := pages_of root in
         let groups := chunkize_serial pages (10 * s_processes c) in
         let* articles := rmapM (segment (s_include c)) (concat groups) in
         rfold (collect_sections c) articles []) with
  | Ok l => (Ok l, mkS (s_namespaces c) (s_min c) (s_processes c) (s_include c) (Some (length l)))
  | Err e => (Err e, c)
  end.
End WikiCorpus.
