(** Model of gensim/examples/dmlcz/sources.py: 129-152 ([DmlSource.isArticle], [findArticles]), 154-160 ([getContent]), 191-234 ([DmlCzSource]: [idFromDir],
    [isArticle], [getContent]), 295-328 ([ArxmlivSource]: [idFromDir], [isArticle], [findArticles], [getContent]); with [id_from_dir], [path_join] and
    [dmlcz_content] of Dmlcz_Model.

    Simplifications: a directory tree is a value that does not change, without symbolic links, and every directory can be listed; the order of the subdirectories is
    that of [os.walk]; [os.path.normpath] is the identity, which it is on what [os.walk] makes of a normalized directory other than '.'; a failure of the generator
    takes the articles before it along; [getContent] is given articles whose texts are files. *)
From Verif Require Import Base Str Phrases_Model Dmlcz_Model.

(** names and contents of files, names and trees of subdirectories *)
Inductive tree : Type := Dir (files : dict pystr pystr) (subs : list (pystr * tree)).
Definition files (t : tree) : dict pystr pystr := match t with Dir f _ => f end.
Definition subs (t : tree) : list (pystr * tree) := match t with Dir _ s => s end.
Inductive kind : Type := Dml | DmlCz | Arxmliv.

(** os.walk, top down *)
Fixpoint walk (path : pystr) (t : tree) : list (pystr * tree) :=
  (path, t) :: match t with Dir _ s => flat_map (fun nt => walk (path_join path (fst nt)) (snd nt)) s end.
(** os.path.basename *)
Definition basename (path : pystr) : pystr := match after_last slash path with Some t => t | None => path end.
(** os.path.exists of a name in a directory *)
Definition exists_in (t : tree) (f : pystr) : bool := existsb (fun x => if eq_dec x f then true else false) (map fst (files t) ++ map fst (subs t)).
(** 129-141, 196-213, 300-308 *)
Definition is_article (k : kind) (path : pystr) (t : tree) : bool :=
  is_prefix [hash] (basename path) &&
  match k with
  | Dml => exists_in t (str "fulltext.txt") && exists_in t (str "meta.xml")
  | DmlCz => exists_in t (str "dspace_id") && (exists_in t (str "fulltext.txt") || exists_in t (str "fulltext-dspace.txt")) && exists_in t (str "meta.xml")
  | Arxmliv => exists_in t (str "tex.xml")
  end.
(** 123-127, 191-194, 295-298 *)
Definition article_id (k : kind) (base path : pystr) (t : tree) : result (pystr * pystr) :=
  match k with
  | DmlCz =>
      let* ip := id_from_dir base path in
      let* c := of_option OSErr (dget (files t) (str "dspace_id")) in
      Ok (strip is_space c, snd ip)
  | _ => id_from_dir base path
  end.
(** 143-152, 310-319 *)
Definition find_articles (k : kind) (base : pystr) (t : tree) : result (list (pystr * pystr)) :=
  rmapM (fun d => article_id k base (fst d) (snd d)) (filter (fun d => is_article k (fst d) (snd d)) (walk base t)).
(** 154-160, 215-234, 321-328 *)
Definition get_content (k : kind) (base : pystr) (t : tree) (uri : pystr * pystr) : result pystr :=
  let* d := of_option OSErr (dget (walk base t) (path_join base (snd uri))) in
  match k with
  | Dml => of_option OSErr (dget (files d) (str "fulltext.txt"))
  | DmlCz => dmlcz_content (dget (files d) (str "fulltext.txt")) (dget (files d) (str "fulltext-dspace.txt"))
  | Arxmliv => of_option OSErr (dget (files d) (str "tex.xml"))
  end.
