(** Model of models that share a vocabulary: gensim/models/word2vec.py 1840-1846 and doc2vec.py 356-364 ([reset_from], words), 618-640 and 663-686
    ([prepare_vocab]: which objects are made anew and which are changed), 831-858 ([init_weights], [update_weights]), keyedvectors.py 274-306
    ([allocate_vecattrs]), 308-330 ([set_vecattr]), 352-362 ([resize_vectors]) and 1944-1955 ([prep_vectors]).

    Objects are on a heap and known by their number.  The two maps of a vocabulary ([index_to_key], [key_to_index]) are always made, handed on and changed
    together and are one object here; the object [expandos] has the attribute 'count' only.  Simplifications: words are kept by their count alone and
    not sorted ([sorted_vocab] 0); a row of weights is an abstract value; training sets rows. *)
From Verif Require Import Base Str Matutils_Model.

Record vocab : Type := Vocab { i2k : list pystr; k2i : dict pystr nat }.
Definition no_words : vocab := Vocab [] [].
Record heap : Type := Heap { h_voc : list vocab; h_cnt : list (option (list nat)) }.

Section Shared.
Variable V : Type.
(** a random row for a position, and a row of zeros *)
Variable fresh : nat -> V.
Variable zero : V.
Record w2v : Type := W2V { voc : nat; cnt : nat; vectors : list V; syn1 : list V }.
Record world : Type := World { w_heap : heap; w_models : list w2v }.

(** ** Words *)
Definition push (v : vocab) (w : pystr) : vocab := Vocab (i2k v ++ [w]) (dset (k2i v) w (length (i2k v))).
Definition kept (min_count : nat) (raw : list (pystr * nat)) : list (pystr * nat) := filter (fun wc => min_count <=? snd wc) (dict_of raw).
(** 668-678 *)
Definition push_new (v : vocab) (w : pystr) : vocab := if dmem (k2i v) w then v else push v w.

(** ** Counts *)
(** keyedvectors.py 293-306; [required]: the attribute is asked for by name *)
Definition allocate (required : bool) (n : nat) (c : option (list nat)) : option (list nat) :=
  match c with
  | None => if required then Some (repeat 0 n) else None
  | Some l => Some (firstn n l ++ repeat 0 (n - length l))
  end.
Definition set_count (n i x : nat) (c : option (list nat)) : option (list nat) := option_map (fun l => list_set l i x) (allocate true n c).
Definition counts_of (c : option (list nat)) : list nat := match c with Some l => l | None => [] end.

(** ** Rows *)
Definition prep (prior : list V) (n : nat) : result (list V) :=
  if (n <? length prior) && negb (length prior =? 1) then Err ValueError
  else Ok (firstn n prior ++ map fresh (seq (length prior) (n - length prior))).

Definition the_voc (h : heap) (r : nat) : vocab := nth r (h_voc h) no_words.
Definition the_cnt (h : heap) (r : nat) : option (list nat) := nth r (h_cnt h) None.
Definition with_cnt (h : heap) (r : nat) (c : option (list nat)) : heap := Heap (h_voc h) (list_set (h_cnt h) r c).

(** ** Calls *)
(** a new model without words *)
Definition new_model (w : world) : world :=
  let h := w_heap w in
  World (Heap (h_voc h ++ [no_words]) (h_cnt h ++ [None])) (w_models w ++ [W2V (length (h_voc h)) (length (h_cnt h)) [] []]).
(** 618-640, 831-839: a new object for the words, the same object for their counts *)
Definition build (min_count : nat) (raw : list (pystr * nat)) (h : heap) (m : w2v) : result (heap * w2v) :=
  let ws := kept min_count raw in
  let n := length ws in
  let v := fold_left push (map fst ws) no_words in
  let c := fold_left (fun c ix => set_count n (fst ix) (snd ix) c) (combine (seq 0 n) (map snd ws)) (the_cnt h (cnt m)) in
  let* rows := prep (vectors m) n in
  Ok (with_cnt (Heap (h_voc h ++ [v]) (h_cnt h)) (cnt m) (allocate false n c), W2V (length (h_voc h)) (cnt m) rows (repeat zero n)).
(** 663-686, 841-858: the objects themselves are changed *)
Definition expand (min_count : nat) (raw : list (pystr * nat)) (h : heap) (m : w2v) : result (heap * w2v) :=
  let v := fold_left push_new (map fst (kept min_count raw)) (the_voc h (voc m)) in
  let n := length (i2k v) in
  let l := counts_of (allocate true n (the_cnt h (cnt m))) in
  let l := map (fun iw => nth (fst iw) l 0 + dget_or (dict_of raw) (snd iw) 0) (combine (seq 0 n) (i2k v)) in
  match vectors m with
  | [] => Err RuntimeErr
  | _ =>
    let* rows := prep (vectors m) n in
    Ok (with_cnt (Heap (list_set (h_voc h) (voc m) v) (h_cnt h)) (cnt m) (Some l), W2V (voc m) (cnt m) rows (syn1 m ++ repeat zero (length rows - length (vectors m))))
  end.
(** word2vec.py 1840-1846; doc2vec.py 356-364 keeps its rows *)
Definition reset_from (keep : bool) (h : heap) (m other : w2v) : result (heap * w2v) :=
  let n := length (i2k (the_voc h (voc other))) in
  let* rows := prep (if keep then vectors m else []) n in
  Ok (with_cnt h (cnt other) (allocate false n (the_cnt h (cnt other))), W2V (voc other) (cnt other) rows (repeat zero n)).

Inductive op : Type :=
| New
| Build (a : nat) (min_count : nat) (raw : list (pystr * nat))
| Expand (a : nat) (min_count : nat) (raw : list (pystr * nat))
| Reset (doc2vec : bool) (a b : nat)
| Train (a : nat) (i : nat) (x y : V).
Definition on_model (w : world) (a : nat) (f : heap -> w2v -> result (heap * w2v)) : result world :=
  match nth_error (w_models w) a with
  | None => Err IndexError
  | Some m => let* hm := f (w_heap w) m in Ok (World (fst hm) (list_set (w_models w) a (snd hm)))
  end.
Definition do_op (w : world) (o : op) : result world :=
  match o with
  | New => Ok (new_model w)
  | Build a k raw => on_model w a (build k raw)
  | Expand a k raw => on_model w a (expand k raw)
  | Reset d a b => match nth_error (w_models w) b with None => Err IndexError | Some other => on_model w a (fun h m => reset_from d h m other) end
  | Train a i x y => on_model w a (fun h m => Ok (h, W2V (voc m) (cnt m) (list_set (vectors m) i x) (list_set (syn1 m) i y)))
  end.
Definition start : world := World (Heap [] []) [].
(** the vector of a word: keyedvectors.py 367-384, 401-430 *)
Definition word_vec (w : world) (a : nat) (word : pystr) : result V :=
  match nth_error (w_models w) a with
  | None => Err IndexError
  | Some m => let* i := of_option KeyError (dget (k2i (the_voc (w_heap w) (voc m))) word) in of_option IndexError (nth_error (vectors m) i)
  end.
(** 332-350 *)
Definition word_count (w : world) (a : nat) (word : pystr) : result nat :=
  match nth_error (w_models w) a with
  | None => Err IndexError
  | Some m => let* i := of_option KeyError (dget (k2i (the_voc (w_heap w) (voc m))) word) in
              let* l := of_option KeyError (the_cnt (w_heap w) (cnt m)) in of_option IndexError (nth_error l i)
  end.
End Shared.
