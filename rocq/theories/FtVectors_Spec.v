(** What fastText word vectors should be: means. *)

From Coq Require Import Reals.
From Verif Require Import Base Str FtNgrams_Model FtVectors_Model.
Local Open Scope nat_scope.

(** [v] is the mean of [vs], coordinate by coordinate: count times it is the sum. *)
Definition coordinate (v : vec) (j : nat) : R := nth j v 0%R.
Definition total (vs : list vec) (j : nat) : R := fold_right (fun v s => (coordinate v j + s)%R) 0%R vs.
Definition mean_of (n : nat) (vs : list vec) (v : vec) : Prop :=
  length v = n /\ forall j, j < n -> (INR (length vs) * coordinate v j = total vs j)%R.

(** The rows of the n-grams of [word]. *)
Definition gram_rows (m : ftkv) (word : pystr) (rows : list vec) : Prop :=
  exists hs, ft_ngram_hashes word (min_n m) (max_n m) (bucket m) = Ok hs
    /\ Forall2 (fun h row => nth_error (vectors_ngrams m) (N.to_nat h) = Some row) hs rows.

(** The vector of the word with index [i]. *)
Definition word_vector (m : ftkv) (i : nat) (v : vec) : Prop :=
  exists word own, nth_error (index_to_key m) i = Some word /\ nth_error (vectors_vocab m) i = Some own /\
    if (bucket m =? 0)%N then v = own else exists rows, gram_rows m word rows /\ mean_of (vector_size m) (own :: rows) v.

(** Everything in order: one row per word, [vectors] are the word vectors, cached norms are theirs. *)
Record coherent (m : ftkv) : Prop := {
  co_rows : length (vectors_vocab m) = length (index_to_key m);
  co_width : Forall (fun v => length v = vector_size m) (vectors_vocab m);
  co_ngrams : length (vectors_ngrams m) = N.to_nat (bucket m);
  co_ngwidth : Forall (fun v => length v = vector_size m) (vectors_ngrams m);
  co_keys : forall w i, dget (key_to_index m) w = Some i <-> nth_error (index_to_key m) i = Some w;
  co_encodable : bucket m <> 0%N -> Forall (fun w => exists hs, ft_ngram_hashes w (min_n m) (max_n m) (bucket m) = Ok hs) (index_to_key m);
  co_buckets : bucket m <> 0%N -> forall i w, nth_error (index_to_key m) i = Some w ->
    exists hs, ft_ngram_hashes w (min_n m) (max_n m) (bucket m) = Ok hs /\ nth_error (buckets_word m) i = Some (map N.to_nat hs);
  co_len : length (vectors m) = length (index_to_key m);
  co_vectors : forall i v, nth_error (vectors m) i = Some v -> word_vector m i v;
  co_norms : forall l, norms m = Some l -> l = map vnorm (vectors m)
}.

(** The life of a model. *)
Inductive event : Type :=
| Grow (ws : list (pystr * Z)) (rand_v rand_n : list vec)     (* build_vocab, first or update=True *)
| Train (vv ng : list vec)                                    (* train: the weights it leaves *)
| SaveLoad
| Ask (word : pystr) (norm : bool)
| FillNorms (force : bool).
Definition happen (m : ftkv) (e : event) : result ftkv :=
  match e with
  | Grow ws rv rn => resize_vectors (add_words m ws) rv rn
  | Train vv ng => train m vv ng
  | SaveLoad => save_load m
  | Ask w norm => Ok (snd (get_vector m w norm))
  | FillNorms force => Ok (fill_norms m force)
  end.
(** New words are new, distinct and encodable; arrays have the right shapes. *)
Definition proper (m : ftkv) (e : event) : Prop :=
  match e with
  | Grow ws rv rn =>
    NoDup (map fst ws) /\ (forall w, In w (map fst ws) -> ~ In w (index_to_key m))
    /\ Forall (fun w => Forall (fun c => W2vFormat_Model.valid_char c = true) w) (map fst ws)
    /\ length ws <= length rv /\ N.to_nat (bucket m) <= length rn
    /\ Forall (fun v => length v = vector_size m) rv /\ Forall (fun v => length v = vector_size m) rn
  | Train vv ng =>
    length vv = length (index_to_key m) /\ length ng = N.to_nat (bucket m)
    /\ Forall (fun v => length v = vector_size m) vv /\ Forall (fun v => length v = vector_size m) ng
  | _ => True
  end.
Inductive history : ftkv -> list event -> ftkv -> Prop :=
| hist_nil m : history m [] m
| hist_cons m e m' es m'' : proper m e -> happen m e = Ok m' -> history m' es m'' -> history m (e :: es) m''.
