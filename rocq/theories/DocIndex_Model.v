(** Model of the in-memory indexes: /repo/gensim/interfaces.py 305-398 (`SimilarityABC.__getitem__`, `__iter__`),
    /repo/gensim/similarities/docsim.py 796-875 (`MatrixSimilarity`), 932-979 (`SoftCosineSimilarity`: the empty corpus only), 1032-1089 (`WmdSimilarity`), 1144-1228
    (`SparseMatrixSimilarity`), with /repo/gensim/matutils.py 263-310 (`scipy2scipy_clipped`: the type of its argument), 403-428 (`sparse2full`).

    Simplifications: real numbers.  Ids below zero are outside the model; an id beyond the number of features raises IndexError (for the sparse index scipy
    decides).  The choice of the best similarities of a row, [clip], is a parameter (see Matutils_Model).  Arrays of one and two dimensions, sparse matrices and
    lists are kept apart, since the code treats them differently; the word mover's distance is a parameter that gives None for infinity. *)
From Coq Require Import Reals.
From Verif Require Import Base MatReal_Model.
Local Open Scope R_scope.

(** A query: a document, a corpus (of at least one document: utils.is_corpus), an array with one dimension, a matrix in the format of the index *)
Inductive query : Type := QDoc (d : rbow) | QCorpus (ds : list rbow) | QArray (v : list R) | QMatrix (rows : list (list R)).
(** A result: an array with one dimension, a matrix, a sparse matrix, a list of pairs, a list of such lists, a clipped sparse matrix *)
Inductive answer : Type := AVec (v : list R) | AMat (m : list (list R)) | ASparse (m : list (list R))
  | ABest (b : list (nat * R)) | ABests (b : list (list (nat * R))) | AClipped (b : list (list (nat * R))).
(** What a loop over the index gets *)
Inductive item : Type := INum (x : R) | IVec (v : list R) | ISparse (v : list R) | IPair (p : nat * R) | IBest (b : list (nat * R)) | IClipped (b : list (nat * R)).
Definition items (a : answer) : list item :=
  match a with AVec v => map INum v | AMat m => map IVec m | ASparse m => map ISparse m | ABest b => map IPair b | ABests b => map IBest b | AClipped b => map IClipped b end.
Definition whole (a : answer) : item :=
  match a with AVec v => IVec v | AMat m => IVec (concat m) | ASparse m => ISparse (concat m) | ABest b => IBest b | ABests b => IBest (concat b) | AClipped b => IClipped (concat b) end.

Definition ids (n : nat) : list Z := map Z.of_nat (seq 0 n).
Definition in_range (n : nat) (d : rbow) : bool := forallb (fun iv => (Z.leb 0 (fst iv) && Z.ltb (fst iv) (Z.of_nat n))%bool) d.
(** sparse2full: the last value of an id counts *)
Definition full_row (n : nat) (d : rbow) : result (list R) := if in_range n d then Ok (map (fun j => dget_or (dict_of d) j 0) (ids n)) else Err IndexError.
(** A column of corpus2csc: the values of an id are added in products *)
Definition sparse_row (n : nat) (d : rbow) : result (list R) := if in_range n d then Ok (map (fun j => Rsum (map snd (filter (fun iv => Z.eqb (fst iv) j) d))) (ids n)) else Err IndexError.
Definition dotl (a b : list R) : R := Rsum (map (fun xy => fst xy * snd xy) (combine a b)).

Inductive kind : Type := Dense | Sparse (maintain_sparsity : bool).
Record index : Type := Index { ix_kind : kind; ix_rows : list (list R); ix_features : nat; ix_best : option Z; ix_normalize : bool; ix_chunk : nat }.
(** docsim.py 796-832; [max_id]: utils.get_max_id *)
Definition max_id (corpus : list rbow) : Z := fold_left Z.max (map fst (concat corpus)) (-1)%Z.
Definition new_dense (corpus : list rbow) (num_features : option nat) (num_best : option Z) (chunksize : nat) : result index :=
  let n := match num_features with Some n => n | None => Z.to_nat (1 + max_id corpus) end in
  if Nat.eqb n 0 then Err ValueError else
  let* rows := rmapM (fun d => let* r := full_row n d in Ok (fst (unitvec_dense r L2))) corpus in
  Ok (Index Dense rows n num_best true chunksize).
(** 1144-1177 *)
Definition new_sparse (corpus : list rbow) (num_features : option nat) (num_best : option Z) (chunksize : nat) (maintain : bool) : result index :=
  match num_features with
  | None => Err ValueError
  | Some n =>
    let* rows := rmapM (fun d => let* u := unitvec_bow d L2 in sparse_row n (fst u)) corpus in
    Ok (Index (Sparse maintain) rows n num_best true chunksize)
  end.

Section Query.
Variable clip : list R -> Z -> list (nat * R).
Definition sims (ix : index) (v : list R) : list R := map (fun r => dotl r v) (ix_rows ix).
(** 856-875 and 1203-1228 *)
Definition get_similarities (ix : index) (q : query) : result answer :=
  match ix_kind ix with
  | Dense =>
      match q with
      | QDoc d => let* v := full_row (ix_features ix) d in Ok (AVec (sims ix v))
      | QCorpus ds => let* vs := rmapM (full_row (ix_features ix)) ds in Ok (AMat (map (sims ix) vs))
      | QArray v => Ok (AVec (sims ix v))
      | QMatrix rows => Ok (AMat (map (sims ix) rows))
      end
  | Sparse maintain =>
      let many rows := if maintain then ASparse (map (sims ix) rows) else AMat (map (sims ix) rows) in
      match q with
      | QDoc d => let* v := sparse_row (ix_features ix) d in Ok (AVec (sims ix v))
      | QCorpus ds => let* vs := rmapM (sparse_row (ix_features ix)) ds in Ok (many vs)
      | QArray v => Ok (AVec (sims ix v))
      | QMatrix rows => if Nat.eqb (length rows) 1 then Ok (AVec (sims ix (nth 0 rows []))) else Ok (many rows)
      end
  end.
(** interfaces.py 325-353 *)
Definition maintains (ix : index) : bool := match ix_kind ix with Sparse m => m | Dense => false end.
Definition getitem (ix : index) (q : query) : result answer :=
  let* q := (if ix_normalize ix then
    match q with
    | QDoc d => let* u := unitvec_bow d L2 in Ok (QDoc (fst u))
    | QCorpus ds => let* us := rmapM (fun d => let* u := unitvec_bow d L2 in Ok (fst u)) ds in Ok (QCorpus us)
    | QArray v => Ok (QArray (fst (unitvec_dense v L2)))
    | QMatrix rows => Ok q
    end else Ok q) in
  let* a := get_similarities ix q in
  match ix_best ix with
  | None => Ok a
  | Some n =>
      if maintains ix then match a with ASparse m => Ok (AClipped (map (fun r => clip r n) m)) | _ => Err ValueError end
      else match a with
      | AVec v => Ok (ABest (clip v n))
      | AMat m => Ok (ABests (map (fun r => clip r n) m))
      | _ => Ok a
      end
  end.
(** 365-398: what a loop gets when it is run to its end, and the index afterwards.  [fuel] bounds the chunks. *)
Definition set_normalize (ix : index) (b : bool) : index := Index (ix_kind ix) (ix_rows ix) (ix_features ix) (ix_best ix) b (ix_chunk ix).
Fixpoint chunks (fuel n : nat) (rows : list (list R)) : list (list (list R)) :=
  match fuel, rows with S fuel', _ :: _ => firstn n rows :: chunks fuel' n (skipn n rows) | _, _ => [] end.
Definition iter_items (ix : index) : result (list item) :=
  if Nat.ltb 1 (ix_chunk ix) then
    let* l := rmapM (fun c => let* a := getitem ix (QMatrix c) in Ok (items a)) (chunks (length (ix_rows ix)) (ix_chunk ix) (ix_rows ix)) in Ok (concat l)
  else
    rmapM (fun r => let* a := getitem ix (match ix_kind ix with Dense => QArray r | Sparse _ => QMatrix [r] end) in Ok (whole a)) (ix_rows ix).
Definition iterate (ix : index) : result (list item) * index := let off := set_normalize ix false in (iter_items off, match iter_items off with Ok _ => set_normalize off (ix_normalize ix) | Err _ => off end).
(** ... and after a loop that is left early *)
Definition abandon (ix : index) : index := set_normalize ix false.
End Query.

(** ** WmdSimilarity, 1032-1089 *)
Section Wmd.
Context {W : Type}.
Variable wmdistance : list W -> list W -> option R.
Definition wmd_row (corpus : list (list W)) (q : list W) : list R := map (fun d => match wmdistance d q with Some x => 1 / (1 + x) | None => 0 end) corpus.
(** 1065-1089: documents or one document; a single result is not wrapped *)
Definition wmd_similarities (corpus queries : list (list W)) : answer :=
  match map (wmd_row corpus) queries with [r] => AVec r | rs => AMat rs end.
Fixpoint chunks_of {A} (fuel n : nat) (l : list A) : list (list A) :=
  match fuel, l with S fuel', _ :: _ => firstn n l :: chunks_of fuel' n (skipn n l) | _, _ => [] end.
Definition wmd_iter (corpus : list (list W)) (chunksize : nat) : list item := concat (map (fun c => items (wmd_similarities corpus c)) (chunks_of (length corpus) chunksize corpus)).
End Wmd.
(** 967-968: `numpy.array()` *)
Definition soft_cosine_empty : result answer := Err TypeError.
