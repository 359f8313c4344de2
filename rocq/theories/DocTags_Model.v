(** Model of the document tags of Doc2Vec: /repo/gensim/models/doc2vec.py 336-339 ([init_weights]), 393-432 ([_do_train_job]: the
    tags of a document), 833-880 ([build_vocab]), 883-931 ([build_vocab_from_freq]), 933-1003 ([_scan_vocab]) and
    /repo/gensim/models/keyedvectors.py 274-350 (attributes), 352-362 ([resize_vectors]), 386-399 ([get_index]).

    Simplifications: a tag is a string or an integer.  The words of the documents are counted as in Word2Vec
    (W2vVocab_Model.scan: same code); what [build_vocab] does to the word vectors is in W2vVocab_Model, so here it is only
    followed on the document vectors.  Of the checks only those that stop the program are modelled; logging is left out. *)

From Verif Require Import Base Str Utils_Model KeyedVectors_Model W2vVocab_Model.
Local Open Scope nat_scope.

Record document : Type := Doc { d_words : list pystr; d_tags : list key }.
(** 142-161 *)
Record doctag : Type := Doctag { t_index : nat; t_words : nat; t_docs : nat }.
(** The local variables [max_rawint], [doctags_lookup], [doctags_list]. *)
Record tagscan : Type := Tagscan { ts_max : Z; ts_lookup : dict pystr doctag; ts_list : list pystr }.
Definition no_tags : tagscan := Tagscan (-1) [] [].

(** 962-972 *)
Definition note_tag (document_length : nat) (s : tagscan) (tag : key) : tagscan :=
  match tag with
  | KInt z => Tagscan (Z.max (ts_max s) z) (ts_lookup s) (ts_list s)
  | KStr t =>
    match dget (ts_lookup s) t with
    | Some dt => Tagscan (ts_max s) (dset (ts_lookup s) t (Doctag (t_index dt) (t_words dt + document_length) (t_docs dt + 1))) (ts_list s)
    | None => Tagscan (ts_max s) (dset (ts_lookup s) t (Doctag (length (ts_list s)) document_length 1)) (ts_list s ++ [t])
    end
  end.
Definition note_document (s : tagscan) (d : document) : tagscan := fold_left (note_tag (length (d_words d))) (d_tags d) s.
Definition scan_tags (docs : list document) : tagscan := fold_left note_document docs no_tags.

(** 989-993 *)
Definition shift_tag (by_ : nat) (lookup : dict pystr doctag) (t : pystr) : dict pystr doctag :=
  match dget lookup t with
  | Some dt => dset lookup t (Doctag (t_index dt + by_) (t_words dt) (t_docs dt))
  | None => lookup
  end.
Definition adjust (s : tagscan) : dict pystr doctag * list key :=
  if (-1 <? ts_max s)%Z then
    (fold_left (shift_tag (Z.to_nat (ts_max s + 1))) (ts_list s) (ts_lookup s),
     map (fun i => KInt (Z.of_nat i)) (seq 0 (Z.to_nat (ts_max s + 1))) ++ map KStr (ts_list s))
  else (ts_lookup s, map KStr (ts_list s)).

Section Dv.
Context {V : Type}.
Variable random_row : nat -> V.

(** The document vectors. [dv_index] is [key_to_index]: only strings are ever put there. *)
Record dvs : Type := Dv {
  dv_keys : list key;                 (* index_to_key *)
  dv_index : dict pystr nat;
  dv_words : option (list Z);         (* expandos['word_count'] *)
  dv_docs : option (list Z);          (* expandos['doc_count'] *)
  dv_vectors : list V
}.
Definition dv_new : dvs := Dv [] [] None None [].

(** 386-399 *)
Definition dv_get (m : dvs) (k : key) : option nat :=
  match k with
  | KStr t => dget (dv_index m) t
  | KInt z => if ((0 <=? z) && (z <? Z.of_nat (length (dv_keys m))))%Z then Some (Z.to_nat z) else None
  end.

(** 308-329 *)
Definition set_attr (size : nat) (attr : option (list Z)) (i : nat) (c : Z) : option (list Z) :=
  Some (set_nth (resize size (match attr with Some l => l | None => [] end)) i c).
(** 331-350 *)
Definition get_attr (m : dvs) (attr : dvs -> option (list Z)) (k : key) : result Z :=
  match dv_get m k with
  | None => Err KeyError
  | Some i => match attr m with
              | None => Err KeyError
              | Some l => of_option IndexError (nth_error l i)
              end
  end.

(** 995-999 *)
Definition store_tag (m : dvs) (p : pystr * doctag) : dvs :=
  let '(t, dt) := p in
  let n := length (dv_keys m) in
  Dv (dv_keys m) (dset (dv_index m) t (t_index dt)) (set_attr n (dv_words m) (t_index dt) (Z.of_nat (t_words dt)))
     (set_attr n (dv_docs m) (t_index dt) (Z.of_nat (t_docs dt))) (dv_vectors m).
Definition store_tags (m : dvs) (s : tagscan) : dvs :=
  let '(lookup, keys) := adjust s in
  fold_left store_tag lookup (Dv keys (dv_index m) (dv_words m) (dv_docs m) (dv_vectors m)).

(** 933-1003: the raw vocabulary, the numbers of words and documents, the document vectors. *)
Definition scan_docs (m : dvs) (docs : list document) (max_vocab_size : option nat) (trim_rule : trim_rule_t)
  : result (dict pystr nat * nat * nat * dvs) :=
  let* p := scan_vocab (map d_words docs) max_vocab_size trim_rule in
  Ok (p, store_tags m (scan_tags docs)).

(** 352-362 *)
Definition dv_resize (m : dvs) : result dvs :=
  let n := length (dv_keys m) in
  let* vs := prep_vectors random_row n (dv_vectors m) in
  Ok (Dv (dv_keys m) (dv_index m) (option_map (resize n) (dv_words m)) (option_map (resize n) (dv_docs m)) vs).

(** 833-880 with 336-339: [update_weights] is Word2Vec's and leaves the document vectors alone. *)
Definition dv_build (m : dvs) (docs : list document) (update : bool) : result dvs :=
  let m1 := store_tags m (scan_tags docs) in
  if update then Ok m1 else dv_resize m1.
(** 883-931: the tags are not looked at. *)
Definition dv_from_freq (m : dvs) (update : bool) : result dvs := if update then Ok m else dv_resize m.

(** 408: [doctag_indexes] *)
Fixpoint doctag_indexes (m : dvs) (tags : list key) : list nat :=
  match tags with
  | [] => []
  | k :: r => match dv_get m k with Some i => i :: doctag_indexes m r | None => doctag_indexes m r end
  end.
End Dv.
Arguments dvs : clear implicits.
