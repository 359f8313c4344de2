(** Model of the approximate indexers: /repo/gensim/similarities/annoy.py 70-85 ([__init__]), 104-107 ([save]), 137-152 ([load]), 155-167
    ([_build_from_model]), 186-189 ([most_similar]) and /repo/gensim/similarities/nmslib.py 101-142 ([__init__]), 159-163 ([save]), 176-186 ([load]),
    188-210 (building), 228-232 ([most_similar]).

    The libraries are functions from what an index was made of to its answers; a written index file has all of that except the parameters for queries of
    nmslib, which belong to an index in memory.  Files are the two files of a path; vectors are abstract, [normed] is the unit vector of one. *)
From Coq Require Import QArith.
From Verif Require Import Base Str.
Close Scope Q_scope.
Local Open Scope nat_scope.

Section Indexers.
Context {V P : Type}.
Variable normed : V -> V.
(** Answers of Annoy: dimension, items, trees, query, number; of nmslib: items, parameters of the index, parameters of queries, query, number *)
Variable annoy_nns : nat -> list V -> nat -> V -> nat -> list (nat * Q).
Variable hnsw_nns : list V -> P -> P -> V -> nat -> list (nat * Q).
Variable default_query : P.

Record kvs : Type := mkKvs { k_keys : list pystr; k_vectors : list V; k_size : nat }.
Inductive pymodel : Type := Doc2Vec (wv dv : kvs) | Word2Vec (wv : kvs) | Keyed (kv : kvs) | Other.
(** [bool(model)]: keyed vectors have a length *)
Definition truthy (m : pymodel) : bool := match m with Keyed kv => negb (length (k_keys kv) =? 0) | _ => true end.
Definition vectors_of (m : pymodel) : result kvs := match m with Doc2Vec _ dv => Ok dv | Word2Vec wv => Ok wv | Keyed kv => Ok kv | Other => Err ValueError end.
Definition model_size (m : pymodel) : nat := match m with Doc2Vec _ dv => k_size dv | Word2Vec wv => k_size wv | Keyed kv => k_size kv | Other => 0 end.

(** ** Annoy *)
Record annoy_index : Type := mkAI { ai_dim : nat; ai_items : list V; ai_trees : nat }.
Record annoy : Type := mkAnnoy { a_index : option annoy_index; a_labels : option (list pystr); a_model : option pymodel; a_trees : option nat }.
Record annoy_meta : Type := mkMeta { me_f : nat; me_trees : option nat; me_labels : option (list pystr) }.
Record annoy_files : Type := mkAF { af_index : dict pystr annoy_index; af_meta : dict pystr annoy_meta }.
(** annoy.py 155-167 *)
Definition annoy_build (kv : kvs) (trees : nat) : annoy_index := mkAI (k_size kv) (map normed (k_vectors kv)) trees.
(** 70-85 *)
Definition annoy_new (model : option pymodel) (trees : option nat) : result annoy :=
  match model, trees with
  | Some m, Some (S t) =>
    if truthy m then let* kv := vectors_of m in Ok (mkAnnoy (Some (annoy_build kv (S t))) (Some (k_keys kv)) model trees)
    else Ok (mkAnnoy None None model trees)
  | _, _ => Ok (mkAnnoy None None model trees)
  end.
(** 104-107: the index is written first *)
Definition annoy_save (fname : pystr) (a : annoy) (fs : annoy_files) : result unit * annoy_files :=
  match a_index a with
  | None => (Err AttributeErr, fs)
  | Some i =>
    let fs := mkAF (dset (af_index fs) fname i) (af_meta fs) in
    match a_model a with
    | None => (Err AttributeErr, fs)
    | Some m => (Ok tt, mkAF (af_index fs) (dset (af_meta fs) fname (mkMeta (model_size m) (a_trees a) (a_labels a))))
    end
  end.
(** 137-152 *)
Definition annoy_load (fname : pystr) (a : annoy) (fs : annoy_files) : result annoy :=
  match dget (af_index fs) fname, dget (af_meta fs) fname with
  | Some i, Some d => Ok (mkAnnoy (Some (mkAI (me_f d) (ai_items i) (ai_trees i))) (me_labels d) (a_model a) (me_trees d))
  | _, _ => Err OSErr
  end.
Definition label (labels : list pystr) (f : Q -> Q) (n : nat * Q) : result (pystr * Q) :=
  match nth_error labels (fst n) with Some w => Ok (w, f (snd n)) | None => Err IndexError end.
(** 186-189 *)
Definition annoy_similar (a : annoy) (v : V) (n : nat) : result (list (pystr * Q)) :=
  match a_index a with
  | None => Err AttributeErr
  | Some i => match a_labels a with
              | Some ls => rmapM (label ls (fun d => 1 - d / 2)%Q) (annoy_nns (ai_dim i) (ai_items i) (ai_trees i) v n)
              | None => Err TypeError
              end
  end.

(** ** nmslib *)
Record hnsw : Type := mkHnsw { h_items : list V; h_params : P; h_query : P }.
Record nmslib : Type := mkNms { n_index : option hnsw; n_labels : option (list pystr); n_model : option pymodel; n_params : P; n_query : P }.
Record nms_meta : Type := mkNM { nm_params : P; nm_query : P; nm_labels : option (list pystr) }.
Record nms_files : Type := mkNF { nf_index : dict pystr (list V * P); nf_meta : dict pystr nms_meta }.
(** nmslib.py 101-142, 188-210 *)
Definition nms_new (model : option pymodel) (ip qp : P) : result nmslib :=
  match model with
  | Some m => if truthy m then let* kv := vectors_of m in Ok (mkNms (Some (mkHnsw (map normed (k_vectors kv)) ip qp)) (Some (k_keys kv)) model ip qp)
              else Ok (mkNms None None model ip qp)
  | None => Ok (mkNms None None None ip qp)
  end.
(** 159-163 *)
Definition nms_save (fname : pystr) (a : nmslib) (fs : nms_files) : result unit * nms_files :=
  match n_index a with
  | None => (Err AttributeErr, fs)
  | Some i => (Ok tt, mkNF (dset (nf_index fs) fname (h_items i, h_params i)) (dset (nf_meta fs) fname (mkNM (n_params a) (n_query a) (n_labels a))))
  end.
(** 176-186: [setQueryTimeParams] is not called *)
Definition nms_load (fname : pystr) (fs : nms_files) : result nmslib :=
  match dget (nf_meta fs) fname with
  | None => Err OSErr
  | Some d =>
    let* a := nms_new None (nm_params d) (nm_query d) in
    match dget (nf_index fs) fname with
    | None => Err RuntimeErr
    | Some (items, ip) => Ok (mkNms (Some (mkHnsw items ip default_query)) (nm_labels d) (n_model a) (n_params a) (n_query a))
    end
  end.
(** 228-232 *)
Definition nms_similar (a : nmslib) (v : V) (n : nat) : result (list (pystr * Q)) :=
  match n_index a with
  | None => Err AttributeErr
  | Some i => match n_labels a with
              | Some ls => rmapM (label ls (fun d => 1 - d)%Q) (hnsw_nns (h_items i) (h_params i) (h_query i) v n)
              | None => Err TypeError
              end
  end.
End Indexers.
