(** Model of the forms in which a [ShardedCorpus] gives its rows: /repo/gensim/corpora/sharded_corpus.py 559-582 and 708-744 ([__getitem__],
    [_getitem_format], [_getitem_sparse2gensim], [_getitem_dense2gensim]), 747-753 ([__iter__]), 428-450 ([resize_shards]), 495-538
    ([_guess_n_features]) and 266-276 (the dimension of [init_shards]); which rows are taken is ShardedCorpus_Model.v.

    Shards are all of one kind, dense arrays or CSR matrices made from dense arrays (so a row stores its nonzero entries by increasing index).
    Files of dense arrays written for a corpus with [sparse_serialization] are read as such; CSR files for a corpus without it are not modelled. *)
From Coq Require Import QArith.
From Verif Require Import Base Matutils_Model ShardedCorpus_Model.
Close Scope Q_scope.
Local Open Scope nat_scope.

Definition bow : Type := list (nat * Q).
(** A vector, a matrix, a CSR matrix, a bag of words, a generator of bags of words (its items, an exception where one is raised) *)
Inductive shown : Type :=
| Vec (row : list Q) | Mat (rows : list (list Q)) | Csr (rows : list (list Q)) | Bow (doc : bow) | Gen (docs : list (result bow)).
Record settings : Type := mkSettings { f_ser : bool; f_gensim : bool; f_ret : bool }.

(** 721-735: the stored entries of a row *)
Definition stored (row : list Q) : bow := filter (fun iv => negb (Qeq_bool (snd iv) 0)) (combine (seq 0 (length row)) row).
Definition sparse2gensim (x : shown) : result shown :=
  match x with
  | Csr rows => Ok (Gen (map (fun r => Ok (stored r)) rows))
  | Mat rows => Ok (Gen (map (fun _ => Err AttributeErr) rows))
  | Vec row => Ok (Gen (map (fun _ => Err AttributeErr) row))
  | _ => Err AttributeErr
  end.
(** 737-744 *)
Definition dense2gensim (x : shown) : result shown :=
  match x with
  | Vec row => Ok (Bow (full2sparse row eps9))
  | Mat rows => Ok (Gen (map (fun r => Ok (full2sparse r eps9)) rows))
  | _ => Err NotImplErr
  end.
(** 708-719 *)
Definition getitem_format (c : settings) (x : shown) : result shown :=
  if f_ser c then
    if f_gensim c then sparse2gensim x
    else if negb (f_ret c) then match x with Csr rows => Ok (Mat rows) | _ => Err AttributeErr end
    else Ok x
  else
    if f_gensim c then dense2gensim x
    else if f_ret c then match x with Vec row => Ok (Csr [row]) | Mat rows => Ok (Csr rows) | y => Ok y end
    else Ok x.
(** What indexing a shard gives; [csr] tells the kind of the files. *)
Definition raw_int (csr : bool) (row : list Q) : shown := if csr then Csr [row] else Vec row.
Definition raw_rows (csr : bool) (rows : list (list Q)) : shown := if csr then Csr rows else Mat rows.

Section Requests.
Context (c : settings) (csr : bool) (zero : list Q).
Definition request {A : Type} (raw : A -> shown) (r : result A * @sc (list Q)) : result shown := let* x := fst r in getitem_format c (raw x).
Definition f_int (i : Z) (s : @sc (list Q)) : result shown := request (raw_int csr) (getitem_int i s).
Definition f_slice (a b : Z) (s : @sc (list Q)) : result shown := request (raw_rows csr) (getitem_slice zero a b s).
(** 564-582: [sparse.vstack] of rows of CSR matrices, or [numpy.array] of rows *)
Definition f_list (l : list Z) (s : @sc (list Q)) : result shown := request (raw_rows csr) (getitem_list l s).
(** 747-753, all items *)
Definition f_iter (s : @sc (list Q)) : result (list shown) := let* rows := fst (sc_iter s) in rmapM (fun r => getitem_format c (raw_int csr r)) rows.

(** 428-450: each new shard is [self[new_start:new_stop]], which is pickled; generators cannot be pickled.  The kind of the new files. *)
Definition pickled (x : shown) : result bool := match x with Csr _ => Ok true | Gen _ => Err TypeError | _ => Ok false end.
Definition new_kind (rows : list (list Q)) : result bool := let* x := getitem_format c (raw_rows csr rows) in pickled x.
Definition f_resize (shardsize : Z) (s : @sc (list Q)) : result (bool * @sc (list Q)) :=
  match resize_shards zero shardsize s with
  | (Ok _, s') => let* ks := rmapM new_kind (s_files s') in Ok (match ks with k :: _ => k | [] => csr end, s')
  | (Err e, _) => Err e
  end.
End Requests.

(** 495-538: a corpus with the attributes that are asked for, in this order; the last argument are [corpus.obj] and [corpus.corpus] of a [TransformedCorpus] *)
Inductive source : Type := Src (dim dictionary n_out num_terms : option nat) (transformed : option (source * source)).
Fixpoint guess (self_dim : option nat) (s : source) : result nat :=
  match s with
  | Src (Some n) _ _ _ _ | Src None (Some n) _ _ _ | Src None None (Some n) _ _ | Src None None None (Some n) _ => Ok n
  | Src None None None None (Some (obj, corpus)) =>
    match guess self_dim obj with Ok n => Ok n | Err TypeError => guess self_dim corpus | Err e => Err e end
  | Src None None None None None => match self_dim with Some (S n) => Ok (S n) | _ => Err TypeError end
  end.
(** 266-276: [self.dim = proposed_dim] *)
Definition init_dim (self_dim : option nat) (corpus : source) : result nat := guess self_dim corpus.
