(** Model of the sharded similarity index: /repo/gensim/similarities/docsim.py 93-255 (Shard, _nlargest),
    303-740 (Similarity), with the query of one shard from /repo/gensim/interfaces.py 305-353.

    Simplifications: an indexed vector is a value of an abstract type [V]; [conv] is the conversion and normalization
    of one added document (which may fail), [doclen] the count used for [fresh_nnz], [nnz] the number of entries that
    [scipy2sparse]/[full2sparse] find in a vector; [score normalize q v] is the similarity of a query to a vector;
    [issparse] is the density test of line 447 (any decision).  Float32 rounding is not modelled.  A failing
    [close_shard] changes nothing, since the shard is appended last. *)

From Coq Require Import QArith Qabs.
From Verif Require Import Base Matutils_Model.
Close Scope Q_scope.
Local Open Scope nat_scope.

Section Sim.
Context {D V Y : Type}.
Variable conv : D -> result V.
Variable doclen : D -> nat.
Variable nnz : V -> nat.
Variable issparse : nat -> nat -> bool.      (* fresh_nnz, number of fresh documents *)
Variable num_features shardsize : nat.

Record shard : Type := { sh_len : nat; sh_nnz : nat; sh_rows : list V }.

(** [x_disk]: the shard files, by shard number. *)
Record sim : Type := {
  x_shards : list shard; x_fresh : list V; x_fresh_nnz : nat; x_norm : bool; x_disk : dict nat (list V) }.

Definition x_empty : sim := {| x_shards := []; x_fresh := []; x_fresh_nnz := 0; x_norm := true; x_disk := [] |}.

(** 356-358: [__len__] *)
Definition x_len (s : sim) : nat := length (x_fresh s) + list_sum (map sh_len (x_shards s)).

(** 435-462: [close_shard]; building a sparse index checks the number of non-zeros (matutils.py 106-140). *)
Definition close_shard (s : sim) : result sim :=
  match x_fresh s with
  | [] => Ok s
  | fresh =>
    if num_features =? 0 then Err ZeroDivErr
    else if issparse (x_fresh_nnz s) (length fresh) && negb (list_sum (map nnz fresh) =? x_fresh_nnz s) then Err AssertionErr
    else Ok {| x_shards := x_shards s ++ [{| sh_len := length fresh; sh_nnz := x_fresh_nnz s; sh_rows := fresh |}];
               x_fresh := []; x_fresh_nnz := 0; x_norm := x_norm s;
               x_disk := dset (x_disk s) (length (x_shards s)) fresh |}
  end.

(** 464-476: [reopen_shard] *)
Definition reopen_shard (s : sim) : result sim :=
  match rev (x_shards s) with
  | [] => Err AssertionErr
  | last_shard :: _ =>
    match x_fresh s with
    | _ :: _ => Err ValueError
    | [] => Ok {| x_shards := removelast (x_shards s); x_fresh := sh_rows last_shard; x_fresh_nnz := sh_nnz last_shard;
                  x_norm := x_norm s; x_disk := x_disk s |}
    end
  end.

(** 365-414: [add_documents]; the index keeps what was added before an exception. *)
Definition push (s : sim) (v : V) (n : nat) : sim :=
  {| x_shards := x_shards s; x_fresh := x_fresh s ++ [v]; x_fresh_nnz := x_fresh_nnz s + n; x_norm := x_norm s;
     x_disk := x_disk s |}.
Fixpoint add_loop (s : sim) (corpus : list D) : result unit * sim :=
  match corpus with
  | [] => (Ok tt, s)
  | doc :: r =>
    match conv doc with
    | Err e => (Err e, s)
    | Ok v =>
      let s1 := push s v (doclen doc) in
      if shardsize <=? length (x_fresh s1) then
        match close_shard s1 with
        | Err e => (Err e, s1)
        | Ok s2 => add_loop s2 r
        end
      else add_loop s1 r
    end
  end.
Definition add_documents (s : sim) (corpus : list D) : result unit * sim :=
  match rev (x_shards s) with
  | last_shard :: _ =>
    if sh_len last_shard <? shardsize then
      match reopen_shard s with
      | Err e => (Err e, s)
      | Ok s1 => add_loop s1 corpus
      end
    else add_loop s corpus
  | [] => add_loop s corpus
  end.

(** Operations that close the fresh shard first; on failure nothing changes. *)
Definition closing {A} (s : sim) (k : sim -> result A) : result A * sim :=
  match close_shard s with Err e => (Err e, s) | Ok s1 => (k s1, s1) end.

(** 582-618: [vector_by_id]: the loop leaves [shard] at the first shard reaching beyond [docpos], or at the last one. *)
Fixpoint find_shard (docpos : Z) (pos : Z) (prev : option shard) (shards : list shard) : Z * option shard :=
  match shards with
  | [] => (pos, prev)
  | sh :: r =>
    let pos := (pos + Z.of_nat (sh_len sh))%Z in
    if (docpos <? pos)%Z then (pos, Some sh) else find_shard docpos pos (Some sh) r
  end.
Definition get_document_id (sh : shard) (pos : Z) : result V :=
  if ((0 <=? pos) && (pos <? Z.of_nat (sh_len sh)))%Z then of_option IndexError (nth_error (sh_rows sh) (Z.to_nat pos))
  else Err AssertionErr.
Definition vector_by_id (s : sim) (docpos : Z) : result V * sim :=
  closing s (fun s =>
    match find_shard docpos 0 None (x_shards s) with
    | (pos, Some sh) =>
      if (docpos <? 0)%Z || (pos <=? docpos)%Z then Err ValueError
      else get_document_id sh (docpos - pos + Z.of_nat (sh_len sh))
    | (_, None) => Err ValueError
    end).

(** The numpy primitives used by the top-n selection. *)
Variable np_argsort : list Q -> list nat.
Variable np_argpartition : list Q -> nat -> list nat.
Variable score : bool -> Y -> V -> Q.

(** interfaces.py 305-353 for one shard and one query document. *)
Definition shard_scores (norm : bool) (q : Y) (sh : shard) : list Q := map (score norm q) (sh_rows sh).
Definition shard_best (norm : bool) (num_best : Z) (q : Y) (sh : shard) : list (nat * Q) :=
  full2sparse_clipped np_argsort np_argpartition (shard_scores norm q sh) num_best eps9.

(** 234-255: [_nlargest]: [heapq.nlargest] is [sorted(..., reverse=True)[:n]], which is stable. *)
Definition abs_desc (a b : nat * Q) : bool := Qle_bool (Qabs (snd b)) (Qabs (snd a)).
Definition nlargest (n : Z) (parts : list (list (nat * Q))) : list (nat * Q) :=
  firstn (Z.to_nat n) (isort abs_desc (concat parts)).

(** 541-548: global document numbers. *)
Fixpoint convert (offset : nat) (shards : list shard) (results : list (list (nat * Q))) : list (list (nat * Q)) :=
  match shards, results with
  | sh :: shs, r :: rs => map (fun p => (fst p + offset, snd p)) r :: convert (offset + sh_len sh) shs rs
  | _, _ => []
  end.

(** 503-580: [__getitem__] of one document without and with [num_best]; [numpy.hstack] of nothing is a ValueError. *)
Definition query_all (s : sim) (q : Y) : result (list Q) * sim :=
  closing s (fun s =>
    match x_shards s with
    | [] => Err ValueError
    | shs => Ok (concat (map (shard_scores (x_norm s) q) shs))
    end).
Definition query_best (s : sim) (num_best : Z) (q : Y) : result (list (nat * Q)) * sim :=
  closing s (fun s =>
    Ok (nlargest num_best (convert 0 (x_shards s) (map (shard_best (x_norm s) num_best q) (x_shards s))))).

(** ... and of a corpus: [zip( *results)] over the shards. *)
Fixpoint zip_star {A} (n : nat) (rows : list (list (list A))) : list (list (list A)) :=
  match n with
  | 0 => []
  | S n' =>
    match rows with
    | [] => []
    | _ => if forallb (fun r => match r with [] => false | _ => true end) rows
           then map (hd []) rows :: zip_star n' (map (@tl (list A)) rows)
           else []
    end
  end.
Fixpoint convert_corpus (offset : nat) (shards : list shard) (results : list (list (list (nat * Q)))) : list (list (list (nat * Q))) :=
  match shards, results with
  | sh :: shs, r :: rs =>
    map (map (fun p => (fst p + offset, snd p))) r :: convert_corpus (offset + sh_len sh) shs rs
  | _, _ => []
  end.
Definition query_best_corpus (s : sim) (num_best : Z) (qs : list Y) : result (list (list (nat * Q))) * sim :=
  closing s (fun s =>
    Ok (map (nlargest num_best)
          (zip_star (length qs)
            (convert_corpus 0 (x_shards s) (map (fun sh => map (fun q => shard_best (x_norm s) num_best q sh) qs) (x_shards s)))))).

(** 652-672: [__iter__] switches normalization off, and back on only when the generator is exhausted. *)
Definition set_norm (s : sim) (b : bool) : sim :=
  {| x_shards := x_shards s; x_fresh := x_fresh s; x_fresh_nnz := x_fresh_nnz s; x_norm := b; x_disk := x_disk s |}.
Definition iterate (s : sim) (exhausted : bool) : result unit * sim :=
  match close_shard (set_norm s false) with
  | Err e => (Err e, set_norm s false)
  | Ok s1 => (Ok tt, if exhausted then set_norm s1 (x_norm s) else s1)
  end.

(** 706-741: [save] pickles everything but the rows of the shards; [load] maps them back from the shard files. *)
Definition save (s : sim) : result unit * sim := closing s (fun _ => Ok tt).
Definition load (pickled : sim) (disk : dict nat (list V)) : sim :=
  {| x_shards := map (fun ish => {| sh_len := sh_len (snd ish); sh_nnz := sh_nnz (snd ish);
                                    sh_rows := dget_or disk (fst ish) [] |})
                     (combine (seq 0 (length (x_shards pickled))) (x_shards pickled));
     x_fresh := x_fresh pickled; x_fresh_nnz := x_fresh_nnz pickled; x_norm := x_norm pickled; x_disk := disk |}.
End Sim.
