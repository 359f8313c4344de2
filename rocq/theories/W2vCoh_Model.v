(** Model of the coherence of topics by word vectors: /repo/gensim/topic_coherence/text_analysis.py 603-665 (`WordVectorsAccumulator`), 25-67 (the table of `_ids_to_words`),
    /repo/gensim/topic_coherence/indirect_confirmation_measure.py 89-115 (`word2vec_similarity`) and /repo/gensim/topic_coherence/direct_confirmation_measure.py 118-125
    (`aggregate_segment_sims`), over the real numbers.

    Simplifications: the model is a plain KeyedVectors (KvSim_Model), for which `word in model` is membership in its index; ids are natural numbers and a single id is a list of
    one (the code wraps it); the mean of nothing (nan) is None; the values of keyword arguments are integers. *)
From Coq Require Import Reals.
From Verif Require Import Base Str MatReal_Model LdaTrain_Model Lsi_Spec KvSim_Model.
Local Open Scope R_scope.

Definition in_model (m : kvs) (w : pystr) : bool := match dget (ks_index m) w with Some _ => true | None => false end.
(** a Dictionary: the words by id are filled in lazily (corpora/dictionary.py 120-137) *)
Record dictionary : Type := mkDict { d_token2id : dict pystr nat; d_id2token : dict nat pystr }.
(** 56-57 *)
Definition id_table (dc : dictionary) : dict nat pystr :=
  match d_id2token dc with [] => dict_of (map (fun kv => (snd kv, fst kv)) (d_token2id dc)) | t => t end.

Section Dim.
Variable d : nat.
Variable m : kvs.
Variable tok : dict nat pystr.

(** 660-665 *)
Definition words_with_embeddings (ids : list nat) : result (list pystr) :=
  let* words := rmapM (fun i => of_option KeyError (dget tok i)) ids in Ok (filter (in_model m) words).
(** 655-658 *)
Definition ids_similarity (ids1 ids2 : list nat) : result R :=
  let* words1 := words_with_embeddings ids1 in
  let* words2 := words_with_embeddings ids2 in
  n_similarity d m words1 words2.

(** 92-104 *)
Fixpoint segment_sims (segs : list (list nat * list nat)) : result (list R) :=
  match segs with
  | [] => Ok []
  | (w_prime, w_star) :: segs' =>
    match ids_similarity w_prime w_star with
    | Ok s => let* l := segment_sims segs' in Ok (s :: l)
    | Err ZeroDivErr => segment_sims segs'
    | Err e => Err e
    end
  end.
(** 118-125: mean, standard deviation, support *)
Definition avg (l : list R) : option R := match l with [] => None | _ => Some (Rsum l / INR (length l)) end.
Definition std (l : list R) : option R := match avg l with None => None | Some a => option_map sqrt (avg (map (fun x => (x - a) * (x - a)) l)) end.
Definition aggregate (l : list R) : option R * option R * nat := (avg l, std l, length l).
Definition word2vec_similarity (topics : list (list (list nat * list nat))) : result (list (option R * option R * nat)) :=
  rmapM (fun segs => let* l := segment_sims segs in Ok (aggregate l)) topics.
End Dim.

(** 636-653: the arguments of the model that is trained if none is given *)
Definition default (k : pystr) (src : pystr) (v : Z) (kwargs : dict pystr Z) : dict pystr Z := dset kwargs k (dget_or kwargs src v).
Definition train_args (kwargs : dict pystr Z) (window_size : option Z) : dict pystr Z :=
  let kwargs := match window_size with Some w => dset kwargs (str "window") w | None => kwargs end in
  let kwargs := default (str "min_count") (str "min_count") 1 kwargs in
  let kwargs := default (str "sg") (str "sg") 1 kwargs in
  default (str "hs") (str "hw") 0 kwargs.
