(** Model of gensim/examples/dmlcz: sources.py 94-121 ([parseDmlMeta]), 123-127 ([idFromDir]), 215-234 ([DmlCzSource.getContent]); dmlcorpus.py 160-176
    ([saveDictionary], [loadDictionary]); gensim_xml.py 57-69 ([generateSimilar]: the articles listed for one document).

    Simplifications: files are read with '\n' as the only end of line; the size of a file is its number of characters; [saveDictionary] is given the pairs
    it writes (the attribute it takes them from is of an older version of dictionaries). *)
From Coq Require Import QArith.
From Verif Require Import Base Str Phrases_Model.
Close Scope Q_scope.

Definition lt : N := 60%N.
Definition gt : N := 62%N.
Definition slash : N := 47%N.
Definition hash : N := 35%N.

(** ** Metadata *)
Fixpoint cut (c : N) (s : pystr) : option (pystr * pystr) :=
  match s with
  | [] => None
  | x :: r => if eq_dec x c then Some ([], r) else match cut c r with Some ab => Some (x :: fst ab, snd ab) | None => None end
  end.
Fixpoint contains (sub s : pystr) : bool := is_prefix sub s || match s with [] => false | _ :: r => contains sub r end.
(** what is before the last closing tag *)
Fixpoint before_close (s : pystr) : option pystr :=
  match s with
  | [] => None
  | x :: r => match before_close r with Some b => Some (x :: b) | None => if is_prefix [lt; slash] s && existsb (fun c => if eq_dec c gt then true else false) (skipn 2 s) then Some [] else None end
  end.
(** 31: the pattern of an opening tag up to the first '>', and anything up to the last closing tag *)
Definition tag_of (line : pystr) : option (pystr * pystr) :=
  match cut lt line with
  | None => None
  | Some (_, r) => match cut gt r with None => None | Some (name, r2) => option_map (fun cont => (name, cont)) (before_close r2) end
  end.
Inductive field : Type := One (s : pystr) | Many (l : list pystr).
Definition many (f : option field) : list pystr := match f with Some (Many l) => l | _ => [] end.
(** 107-119 *)
Definition read_field (acc : dict pystr field) (line : pystr) : result (dict pystr field) :=
  match tag_of line with
  | None => Ok acc
  | Some (name, cont) =>
    match words is_space name with
    | [] => Err IndexError
    | name :: _ =>
      let cont := strip is_space cont in
      if eq_dec name (str "msc") then Ok (dset acc (str "msc") (Many (many (dget acc (str "msc")) ++ [cont])))
      else
        let cont := if eq_dec name (str "idMR") then skipn 2 cont else cont in
        match cont with [] => Ok acc | _ => Ok (dset acc name (One cont)) end
    end
  end.
Fixpoint after_line (sub : pystr) (lines : list pystr) : list pystr :=
  match lines with [] => [] | l :: r => if contains sub l then r else after_line sub r end.
Fixpoint read_fields (acc : dict pystr field) (lines : list pystr) : result (dict pystr field) :=
  match lines with
  | [] => Ok acc
  | l :: r => if contains (str "</article>") l then Ok acc else let* acc := read_field acc l in read_fields acc r
  end.
Definition parse_meta (content : pystr) : result (dict pystr field) := read_fields [] (after_line (str "<article>") (file_lines content)).

(** ** Places *)
Fixpoint after_last (c : N) (s : pystr) : option pystr :=
  match s with [] => None | x :: r => match after_last c r with Some t => Some t | None => if eq_dec x c then Some r else None end end.
Definition id_from_dir (base path : pystr) : result (pystr * pystr) :=
  if length path <=? length base then Err AssertionErr
  else Ok (match after_last hash path with Some t => t | None => path end, skipn (1 + length base) path).
(** os.path.join *)
Definition path_join (a b : pystr) : pystr :=
  if is_prefix [slash] b then b else if is_prefix [slash] (rev a) || match a with [] => true | _ => false end then a ++ b else a ++ [slash] ++ b.

(** ** Contents: the two files, if they exist *)
Definition dmlcz_content (fulltext dspace : option pystr) : result pystr :=
  match fulltext, dspace with
  | Some a, Some b => if length a <? length b then Ok b else Ok a
  | Some a, None => Ok a
  | None, Some b => Ok b
  | None, None => Err AssertionErr
  end.

(** ** Dictionaries *)
Definition save_dictionary (rows : list (Z * pystr)) : pystr := concat (map (fun iw => show_Z (fst iw) ++ [chr_tab] ++ snd iw ++ [chr_nl]) rows).
Definition load_line (acc : dict Z pystr) (line : pystr) : result (dict Z pystr) :=
  match split_on chr_tab (removelast line) with
  | [i; word] => let* i := of_option ValueError (parse_Z (strip is_space i)) in Ok (dset acc i word)
  | _ => Ok acc
  end.
Definition load_dictionary (content : pystr) : result (dict Z pystr) := rfold load_line (file_lines content) [].

(** ** Similar articles *)
Fixpoint similar {D : Type} (documents : list D) (min_score : Q) (max_similar docno n : nat) (sims : list (nat * Q)) : result (list (D * Q)) :=
  match sims with
  | [] => Ok []
  | (d, score) :: r =>
    if negb (Qle_bool score min_score) && negb (docno =? d) then
      let* doc := of_option IndexError (nth_error documents d) in
      if max_similar <=? S n then Ok [(doc, score)]
      else let* l := similar documents min_score max_similar docno (S n) r in Ok ((doc, score) :: l)
    else similar documents min_score max_similar docno n r
  end.
