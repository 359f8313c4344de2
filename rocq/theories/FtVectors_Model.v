(** Word vectors of fastText: /repo/gensim/models/fasttext.py 457-460, 1000-1197, with the parts of
    /repo/gensim/models/keyedvectors.py it inherits: 401-433, 440-528, 613-622, 659-672, 1463-1471, 1938-1955.

    Vectors are lists of real numbers (float32 rounding is not modelled); division by a zero norm (nan in numpy) is
    whatever Coq's division gives, the theorems assume it away.  [vectors] is the same array as [vectors_vocab] when there
    are no buckets ([aliased]); [vectors_vocab] then names both.  Per-key attributes other than 'count', lockf arrays and
    preallocated slots are left out.  [KeyError]s carry no message. *)

From Coq Require Import Reals.
From Verif Require Import Base Str MatReal_Model KeyedVectors_Model W2vFormat_Model FtNgrams_Model.
Local Open Scope nat_scope.

Notation vec := (list R).
Definition vadd (a b : vec) : vec := map (fun p => (fst p + snd p)%R) (combine a b).
Definition vdiv (a : vec) (r : R) : vec := map (fun x => (x / r)%R) a.
Definition vzero (n : nat) : vec := repeat 0%R n.
Definition vnorm (a : vec) : R := sqrt (sumsq a).

Record ftkv : Type := mkFtkv {
  min_n : nat; max_n : nat; bucket : N; vector_size : nat;
  index_to_key : list pystr;
  key_to_index : dict pystr nat;
  counts : list Z;                       (* expandos['count'] *)
  vectors_vocab : list vec;
  vectors_ngrams : list vec;
  buckets_word : list (list nat);
  vectors_ : list vec;                   (* [vectors] if there are buckets *)
  norms : option (list R)
}.
Definition aliased (m : ftkv) : bool := (bucket m =? 0)%N.
Definition vectors (m : ftkv) : list vec := if aliased m then vectors_vocab m else vectors_ m.

Definition with_words (m : ftkv) ks d c :=
  mkFtkv (min_n m) (max_n m) (bucket m) (vector_size m) ks d c (vectors_vocab m) (vectors_ngrams m) (buckets_word m) (vectors_ m) (norms m).
Definition with_weights (m : ftkv) vv ng :=
  mkFtkv (min_n m) (max_n m) (bucket m) (vector_size m) (index_to_key m) (key_to_index m) (counts m) vv ng (buckets_word m) (vectors_ m) (norms m).
Definition with_buckets (m : ftkv) b :=
  mkFtkv (min_n m) (max_n m) (bucket m) (vector_size m) (index_to_key m) (key_to_index m) (counts m) (vectors_vocab m) (vectors_ngrams m) b (vectors_ m) (norms m).
Definition with_norms (m : ftkv) n :=
  mkFtkv (min_n m) (max_n m) (bucket m) (vector_size m) (index_to_key m) (key_to_index m) (counts m) (vectors_vocab m) (vectors_ngrams m) (buckets_word m) (vectors_ m) n.
(** Changing the array [vectors] in place. *)
Definition with_vectors (m : ftkv) vs :=
  if aliased m then with_weights m vs (vectors_ngrams m)
  else mkFtkv (min_n m) (max_n m) (bucket m) (vector_size m) (index_to_key m) (key_to_index m) (counts m) (vectors_vocab m) (vectors_ngrams m) (buckets_word m) vs (norms m).

(** 1182-1197 *)
Definition recalc_char_ngram_buckets (m : ftkv) : result ftkv :=
  if (bucket m =? 0)%N then Ok (with_buckets m (map (fun _ => []) (index_to_key m)))
  else let* bs := rmapM (fun word => rmap (map N.to_nat) (ft_ngram_hashes word (min_n m) (max_n m) (bucket m))) (index_to_key m) in
       Ok (with_buckets m bs).

(** [acc += rows[h]] for all [h] *)
Fixpoint add_rows (rows : list vec) (hs : list nat) (acc : vec) : result vec :=
  match hs with
  | [] => Ok acc
  | h :: r => let* v := of_option IndexError (nth_error rows h) in add_rows rows r (vadd acc v)
  end.

(** 1163-1180 *)
Fixpoint adjust_rows (m : ftkv) (is : list nat) (vs : list vec) : result (list vec) :=
  match is with
  | [] => Ok vs
  | i :: r =>
    let* hs := of_option IndexError (nth_error (buckets_word m) i) in
    let* v := of_option IndexError (nth_error vs i) in
    let* s := add_rows (vectors_ngrams m) hs v in
    adjust_rows m r (set_nth vs i (vdiv s (INR (length hs + 1))))
  end.
Definition adjust_vectors (m : ftkv) : result ftkv :=
  if (bucket m =? 0)%N then Ok m
  else let* vs := adjust_rows m (seq 0 (length (index_to_key m))) (vectors_vocab m) in Ok (with_vectors m vs).

(** keyedvectors.py 613-622 *)
Definition fill_norms (m : ftkv) (force : bool) : ftkv :=
  match norms m with
  | Some _ => if force then with_norms m (Some (map vnorm (vectors m))) else m
  | None => with_norms m (Some (map vnorm (vectors m)))
  end.

(** 1076-1120 *)
Definition get_vector (m : ftkv) (word : pystr) (norm : bool) : result vec * ftkv :=
  match dget (key_to_index m) word with
  | Some i =>
    if norm then
      let m1 := fill_norms m false in
      match nth_error (vectors m1) i, nth_error (match norms m1 with Some l => l | None => [] end) i with
      | Some v, Some n => (Ok (vdiv v n), m1)
      | _, _ => (Err IndexError, m1)
      end
    else (of_option IndexError (nth_error (vectors m) i), m)
  | None =>
    if (bucket m =? 0)%N then (Err KeyError, m)
    else
      (let* hs := ft_ngram_hashes word (min_n m) (max_n m) (bucket m) in
       let zero := vzero (vector_size m) in
       match hs with
       | [] => Ok zero
       | _ =>
         let* s := add_rows (vectors_ngrams m) (map N.to_nat hs) zero in
         let v := vdiv s (INR (length hs)) in
         Ok (if norm then vdiv v (vnorm v) else v)
       end, m)
  end.

(** 1018-1048 *)
Definition contains (m : ftkv) (word : pystr) : bool := true.

(** keyedvectors.py 1938-1955: [rand] are the rows of fresh random numbers. *)
Definition prep_vectors (count : nat) (prior : list vec) (rand : list vec) : list vec := prior ++ firstn (count - length prior) rand.

(** 1122-1133, after new words have been appended by build_vocab (word2vec.py 660-681). *)
Definition add_words (m : ftkv) (ws : list (pystr * Z)) : ftkv :=
  fold_left (fun m wc => with_words m (index_to_key m ++ [fst wc]) (dset (key_to_index m) (fst wc) (length (index_to_key m))) (counts m ++ [snd wc])) ws m.
Definition resize_vectors (m : ftkv) (rand_v rand_n : list vec) : result ftkv :=
  let m1 := with_weights m (prep_vectors (length (index_to_key m)) (vectors_vocab m) rand_v)
                           (prep_vectors (N.to_nat (bucket m)) (vectors_ngrams m) rand_n) in
  let* m2 := recalc_char_ngram_buckets (with_norms m1 None) in
  adjust_vectors m2.

(** Training changes both weight arrays in place; 457-460 is called at its end. *)
Definition train (m : ftkv) (vv ng : list vec) : result ftkv := adjust_vectors (with_norms (with_weights m vv ng) None).

(** 1059-1065, 1000-1016: 'vectors' and 'buckets_word' are not saved but computed on loading, 'norms' is saved. *)
Definition save_load (m : ftkv) : result ftkv :=
  let* m1 := recalc_char_ngram_buckets m in
  adjust_vectors m1.

(** keyedvectors.py 1463-1471 *)
Definition unit_normalize_all (m : ftkv) : ftkv :=
  let m1 := fill_norms m false in
  let ns := match norms m1 with Some l => l | None => [] end in
  let m2 := with_vectors m1 (map (fun p => vdiv (fst p) (snd p)) (combine (vectors m1) ns)) in
  with_norms m2 (Some (map (fun _ => 1%R) (vectors m2))).

(** keyedvectors.py 659-672.  [vectors] becomes a new array (a permuted copy) even if it was aliased. *)
Definition sort_by_descending_frequency (np_argsort : list Z -> list nat) (m : ftkv) : result ftkv :=
  let ord := rev (np_argsort (counts m)) in
  let* ks := rmapM (fun i => of_option IndexError (nth_error (index_to_key m) i)) ord in
  let* cs := rmapM (fun i => of_option IndexError (nth_error (counts m) i)) ord in
  let* vs := rmapM (fun i => of_option IndexError (nth_error (vectors m) i)) ord in
  let m1 := with_words m ks (fold_left (fun d p => dset d (fst p) (snd p)) (combine ks (seq 0 (length ks))) []) cs in
  if aliased m then Err NotImplErr (* two separate arrays: not represented *) else Ok (with_vectors m1 vs).

(** keyedvectors.py 480-528, [key in self] being [contains]. *)
Definition add_vectors (m : ftkv) (keys : list pystr) (weights : list vec) (replace : bool) : result ftkv :=
  let mask := map (contains m) keys in
  let m1 := add_words m (map (fun k => (k, 0%Z)) (pick (map negb mask) keys)) in
  let m2 := with_vectors m1 (vectors m1 ++ pick (map negb mask) weights) in
  if replace then
    let* idxs := rmapM (fun k => of_option KeyError (dget (key_to_index m2) k)) (pick mask keys) in
    Ok (with_vectors m2 (assign (vectors m2) idxs (pick mask weights)))
  else Ok m2.

(** keyedvectors.py 440-478, no preallocated slots: the index returned. *)
Definition add_vector (m : ftkv) (key : pystr) (vector : vec) : result (nat * ftkv) :=
  let target := length (index_to_key m) in
  let* m1 := add_vectors m [key] [vector] false in Ok (target, m1).

(** [FastTextKeyedVectors(vector_size, min_n, max_n, bucket)]: 956-976; the n-gram rows come with the first resize. *)
Definition ft_new (vector_size min_n max_n : nat) (bucket : N) : ftkv := mkFtkv min_n max_n bucket vector_size [] [] [] [] [] [] [] None.
