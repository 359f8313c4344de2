(** Model of /repo/gensim/corpora/sharded_corpus.py: ShardedCorpus.

    Simplifications: a row of a shard is a value of an abstract type [R] (retrieval never looks inside a row;
    the conversion of documents to rows is [sc_row]); the shard files [prefix.0], [prefix.1], ... are a list;
    [int(offset / shardsize)] is exact integer division (offsets below 2^53); the output format
    conversions ([_getitem_format]) are the identity on rows, which for [resize_shards] means
    [gensim=False] and [sparse_retrieval = sparse_serialization]; the bounds of a slice are integers; a failing
    [offsets[n]] in [load_shard] (more shard files than offsets) leaves the object unchanged. *)

From Coq Require Import QArith.
From Verif Require Import Base Matutils_Model Utils_Model.
Close Scope Q_scope.
Local Open Scope Z_scope.

(** Row [i] of a chunk: [doc = dict(doc); current_shard[i][list(doc)] = list(doc.values())] (287-289), the same
    operation as [sparse2full]. *)
Definition sc_row (dim : nat) (doc : list (Z * Q)) : result (list Q) := sparse2full doc dim.

(** Python / numpy subscripts and slices. *)
Definition py_get {A} (l : list A) (i : Z) : result A :=
  let* k := np_index (length l) i in of_option IndexError (nth_error l k).
Definition py_bound (n : nat) (i : Z) : nat :=
  Z.to_nat (if i <? 0 then Z.max 0 (i + Z.of_nat n) else Z.min i (Z.of_nat n)).
Definition py_slice {A} (l : list A) (a b : Z) : list A :=
  let a := py_bound (length l) a in let b := py_bound (length l) b in firstn (b - a) (skipn a l).
(** [dst[a:b] = src] on the first axis, with numpy's broadcasting of a single row. *)
Definition np_slice_set {A} (dst : list A) (a b : Z) (src : list A) : result (list A) :=
  let lo := py_bound (length dst) a in
  let n := length (py_slice dst a b) in
  if (length src =? n)%nat then Ok (firstn lo dst ++ src ++ skipn (lo + n) dst)
  else match src with
       | [x] => Ok (firstn lo dst ++ repeat x n ++ skipn (lo + n) dst)
       | _ => Err ValueError
       end.

Section Sharded.
Context {R : Type} (zero : R).   (* [zero]: a row of zeros *)

Record sc : Type := {
  s_files : list (list R);
  s_shardsize : Z;
  s_n_docs : Z;
  s_n_shards : Z;
  s_offsets : list Z;
  s_sparse : bool;                            (* sparse_serialization *)
  s_cur : option (list R * Z * Z)             (* current_shard, current_shard_n, current_offset *)
}.

(** Operations may change the object even when they raise. *)
Definition M (A : Type) : Type := sc -> result A * sc.
Definition mret {A} (a : A) : M A := fun s => (Ok a, s).
Definition merr {A} (e : exn) : M A := fun s => (Err e, s).
Definition mlift {A} (r : result A) : M A := fun s => (r, s).
Definition mget : M sc := fun s => (Ok s, s).
Definition mput (s : sc) : M unit := fun _ => (Ok tt, s).
Definition mbind {A B} (m : M A) (k : A -> M B) : M B :=
  fun s => match m s with (Ok a, s') => k a s' | (Err e, s') => (Err e, s') end.
Local Notation "'do' x <- m ; k" := (mbind m (fun x => k)) (at level 200, x name, m at level 100, k at level 200).
Fixpoint mmap {A B} (f : A -> M B) (l : list A) : M (list B) :=
  match l with
  | [] => mret []
  | a :: r => do b <- f a ; do bs <- mmap f r ; mret (b :: bs)
  end.

Definition with_cur (s : sc) (c : option (list R * Z * Z)) : sc :=
  {| s_files := s_files s; s_shardsize := s_shardsize s; s_n_docs := s_n_docs s; s_n_shards := s_n_shards s;
     s_offsets := s_offsets s; s_sparse := s_sparse s; s_cur := c |}.

(** 326-347: [save_shard(shard)] for a new shard. *)
Definition save_new_shard (s : sc) (shard : list R) : sc :=
  {| s_files := s_files s ++ [shard]; s_shardsize := s_shardsize s;
     s_n_docs := s_n_docs s + Z.of_nat (length shard); s_n_shards := s_n_shards s + 1;
     s_offsets := s_offsets s ++ [last (s_offsets s) 0 + Z.of_nat (length shard)];
     s_sparse := s_sparse s; s_cur := s_cur s |}.

(** 224-256 and 260-301: [__init__] building the shards ([overwrite] or no file yet). *)
Definition sc_init (sparse : bool) (shardsize : nat) (rows : list R) : sc :=
  fold_left save_new_shard (chunkize_serial rows shardsize)
    {| s_files := []; s_shardsize := Z.of_nat shardsize; s_n_docs := 0; s_n_shards := 0; s_offsets := [0];
       s_sparse := sparse; s_cur := None |}.

(** 349-365: [load_shard]. *)
Definition cur_is (c : option (list R * Z * Z)) (n : Z) : bool :=
  match c with Some (_, k, _) => k =? n | None => false end.
Definition load_shard (n : Z) : M unit :=
  do s <- mget ;
  if cur_is (s_cur s) n then mret tt
  else if negb ((0 <=? n) && (n <? Z.of_nat (length (s_files s)))) then merr ValueError
  else do o <- mlift (py_get (s_offsets s) n) ;
       mput (with_cur s (Some (nth (Z.to_nat n) (s_files s) [], n, o))).

(** 376-390: [shard_by_offset] ([int] truncates towards zero). *)
Definition shard_by_offset (s : sc) (offset : Z) : result Z :=
  if s_shardsize s =? 0 then Err ZeroDivErr else
  let k := Z.quot offset (s_shardsize s) in
  if s_n_docs s <=? offset then Err ValueError
  else if offset <? 0 then Err ValueError
  else Ok k.

(** 392-397: [in_current] *)
Definition in_current (s : sc) (c : list R * Z * Z) (offset : Z) : result bool :=
  let '(_, n, cur_offset) := c in
  if cur_offset <=? offset then rmap (fun o => offset <? o) (py_get (s_offsets s) (n + 1)) else Ok false.

(** 399-409: [in_next] *)
Definition in_next (s : sc) (c : list R * Z * Z) (offset : Z) : result bool :=
  let '(_, n, _) := c in
  if n =? s_n_shards s then Ok false else
  let* o1 := py_get (s_offsets s) (n + 1) in
  if o1 <=? offset then rmap (fun o2 => offset <? o2) (py_get (s_offsets s) (n + 2)) else Ok false.

(** 540-551: [_ensure_shard] *)
Definition ensure_shard (offset : Z) : M unit :=
  do s <- mget ;
  match s_cur s with
  | None => do k <- mlift (shard_by_offset s offset) ; load_shard k
  | Some c =>
    do cur <- mlift (in_current s c offset) ;
    if cur then mret tt else
    do nxt <- mlift (in_next s c offset) ;
    if nxt then load_shard (snd (fst c) + 1)
    else do k <- mlift (shard_by_offset s offset) ; load_shard k
  end.

(** 553-557: [get_by_offset]; [None[...]] is a TypeError. *)
Definition get_by_offset (offset : Z) : M R :=
  do _ <- ensure_shard offset ;
  do s <- mget ;
  match s_cur s with
  | Some (shard, _, cur_offset) => mlift (py_get shard (offset - cur_offset))
  | None => merr TypeError
  end.

(** 565-582: [__getitem__] with a list; stacking no sparse rows is a ValueError. *)
Definition getitem_list (offsets : list Z) : M (list R) :=
  do rows <- mmap get_by_offset offsets ;
  do s <- mget ;
  match rows with
  | [] => if s_sparse s then merr ValueError else mret []
  | _ => mret rows
  end.

(** 668-705: [__add_to_slice] *)
Definition add_to_slice (sparse : bool) (shard s_result : list R) (result_start result_stop start stop : Z) : result (list R) :=
  if negb (result_stop - result_start =? stop - start) then Err ValueError
  else if negb sparse then np_slice_set s_result result_start result_stop (py_slice shard start stop)
  else if negb (Z.of_nat (length s_result) =? result_start) then Err ValueError
  else Ok (s_result ++ py_slice shard start stop).

Definition cur_shard (s : sc) : result (list R * Z * Z) := of_option TypeError (s_cur s).

(** 636-646: the intermediate shards of a slice. *)
Fixpoint slice_middle (ns : list Z) (s_result : list R) (result_stop : Z) : M (list R * Z) :=
  match ns with
  | [] => mret (s_result, result_stop)
  | n :: r =>
    do _ <- load_shard n ;
    do s <- mget ;
    do c <- mlift (cur_shard s) ;
    let result_stop' := result_stop + s_shardsize s in
    do s_result' <- mlift (add_to_slice (s_sparse s) (fst (fst c)) s_result result_stop result_stop' 0 (s_shardsize s)) ;
    slice_middle r s_result' result_stop'
  end.

(** 584-660: [__getitem__] with a slice. *)
Definition getitem_slice (start stop : Z) : M (list R) :=
  do s <- mget ;
  if s_n_docs s <? stop then merr IndexError else
  do first_shard <- mlift (shard_by_offset s start) ;
  do last_shard <- (if stop =? s_n_docs s then mret (s_n_shards s - 1) else mlift (shard_by_offset s stop)) ;
  do _ <- load_shard first_shard ;
  do s <- mget ;
  do c <- mlift (cur_shard s) ;
  let '(shard, n, cur_offset) := c in
  if first_shard =? last_shard then mret (py_slice shard (start - cur_offset) (stop - cur_offset))
  else if stop - start <? 0 then merr ValueError      (* numpy.zeros of a negative size, 619 *)
  else
    let s_result := if s_sparse s then [] else repeat zero (Z.to_nat (stop - start)) in
    do o <- mlift (py_get (s_offsets s) (n + 1)) ;
    do s_result <- mlift (add_to_slice (s_sparse s) shard s_result 0 (o - start) (start - cur_offset) (o - cur_offset)) ;
    do mid <- slice_middle (map (fun i => first_shard + 1 + Z.of_nat i) (seq 0 (Z.to_nat (last_shard - (first_shard + 1)))))
                s_result (o - start) ;
    do _ <- load_shard last_shard ;
    do s <- mget ;
    do c <- mlift (cur_shard s) ;
    let '(shard, _, cur_offset) := c in
    mlift (add_to_slice (s_sparse s) shard (fst mid) (snd mid) (snd mid + (stop - cur_offset)) 0 (stop - cur_offset)).

(** The step of a slice is never read. *)
Definition getitem_slice_step (start stop step : Z) : M (list R) := getitem_slice start stop.

(** 662-666: [__getitem__] with an int. *)
Definition getitem_int (offset : Z) : M R := get_by_offset offset.

(** 741-749: [__iter__] *)
Definition sc_iter : M (list R) :=
  do s <- mget ; mmap getitem_int (map Z.of_nat (seq 0 (Z.to_nat (s_n_docs s)))).

(** 411-482: [resize_shards]; Python's floor division and modulo for any sign. *)
Fixpoint resize_loop (shardsize n_docs n_new : Z) (idxs : list Z) : M (list (list R) * list Z) :=
  match idxs with
  | [] => mret ([], [])
  | i :: r =>
    let new_start := shardsize * i in
    let new_stop := new_start + shardsize in
    if (n_docs <? new_stop) && negb (i =? n_new - 1) then merr AssertionErr else
    let new_stop := if n_docs <? new_stop then n_docs else new_stop in
    do shard <- getitem_slice new_start new_stop ;
    do rest <- resize_loop shardsize n_docs n_new r ;
    mret (shard :: fst rest, new_stop :: snd rest)
  end.
Definition resize_shards (shardsize : Z) : M unit :=
  do s <- mget ;
  if shardsize =? 0 then merr ZeroDivErr else
  let n_new := Z.div (s_n_docs s) shardsize + (if Z.modulo (s_n_docs s) shardsize =? 0 then 0 else 1) in
  do r <- resize_loop shardsize (s_n_docs s) n_new (map Z.of_nat (seq 0 (Z.to_nat n_new))) ;
  mput {| s_files := fst r; s_shardsize := shardsize; s_n_docs := s_n_docs s; s_n_shards := n_new;
          s_offsets := 0 :: snd r; s_sparse := s_sparse s; s_cur := None |}.

(** 755-777 [save]/[load]: the wrapper without its current shard; the shard files stay on disk. *)
Definition sc_save (s : sc) : sc := with_cur s None.
Definition sc_load (wrapper : sc) (files : list (list R)) : sc :=
  {| s_files := files; s_shardsize := s_shardsize wrapper; s_n_docs := s_n_docs wrapper; s_n_shards := s_n_shards wrapper;
     s_offsets := s_offsets wrapper; s_sparse := s_sparse wrapper; s_cur := None |}.

(** 224-258 and 303-324: [__init__] when the wrapper file exists ([init_by_clone]): the shard size and format are
    those of the constructor arguments, the rest is copied. *)
Definition sc_clone (shardsize : Z) (sparse : bool) (wrapper : sc) (files : list (list R)) : sc :=
  {| s_files := files; s_shardsize := shardsize; s_n_docs := s_n_docs wrapper; s_n_shards := s_n_shards wrapper;
     s_offsets := s_offsets wrapper; s_sparse := sparse; s_cur := None |}.
End Sharded.

(** 260-301: [init_shards] from a bag-of-words corpus. *)
Definition sc_build (sparse : bool) (shardsize dim : nat) (corpus : list (list (Z * Q))) : result (@sc (list Q)) :=
  rmap (sc_init sparse shardsize) (rmapM (sc_row dim) corpus).
