(** Model of latent semantic indexing: /repo/gensim/models/lsimodel.py 80-105 ([clip_spectrum]), 153-318 ([Projection]),
    446-525 ([LsiModel.add_documents]), 538-604 ([LsiModel.__getitem__]), 858-1016 ([stochastic_svd]);
    /repo/gensim/matutils.py 168-194 ([pad]), 1090-1131 ([qr_destroy]); /repo/gensim/models/lsi_dispatcher.py 167-215 and
    lsi_worker.py 117-181 (distributed training).

    Simplifications: real numbers (no rounding).  A matrix is a function of its row and its column; its shape is kept beside it.
    A document is a column: the weight of each of the [m] terms.  LAPACK is not modelled: what a QR or a singular value
    decomposition returns is an argument of the function that calls it, and [qr_of] / [svd_of] say what it promises.  The random
    matrix of [stochastic_svd] is an argument.  [sparsesvd], logging, dtypes and memory layout are left out. *)
From Coq Require Import Reals.
From Verif Require Import Base MatReal_Model Utils_Model LdaTrain_Model.
Local Open Scope R_scope.

Notation mat := (nat -> nat -> R).
Notation col := (nat -> R).

(** ** What the libraries promise *)
Definition delta (a b : nat) : R := if (a =? b)%nat then 1 else 0.
Definition mmul (n : nat) (A B : mat) : mat := fun i j => sumn n (fun l => A i l * B l j).
Definition tr (A : mat) : mat := fun i j => A j i.
(** the first [t] columns of [u], which has [m] rows, are orthonormal *)
Definition orthonormal (m t : nat) (u : mat) : Prop :=
  forall a b, (a < t)%nat -> (b < t)%nat -> mmul m (tr u) u a b = delta a b.
(** [q, r = qr(w)] of a matrix with [m] rows and [n] columns; [q] has [min m n] columns *)
Definition qr_of (m n : nat) (w q r : mat) : Prop :=
  orthonormal m (Nat.min m n) q /\ forall i j, (i < m)%nat -> (j < n)%nat -> mmul (Nat.min m n) q r i j = w i j.
(** [u, s, v.T = svd(K, full_matrices=False)] *)
Definition svd_of (m n : nat) (K u : mat) (s : nat -> R) : Prop :=
  let t := Nat.min m n in
  orthonormal m t u /\
  (forall a, (a < t)%nat -> 0 <= s a) /\
  (forall a b, (a <= b)%nat -> (b < t)%nat -> s b <= s a) /\
  exists v : mat, orthonormal n t v /\
    forall i j, (i < m)%nat -> (j < n)%nat -> K i j = sumn t (fun a => u i a * s a * v j a).

(** ** clip_spectrum (80-105); [e] has [n] elements *)
Definition clip_spectrum (n : nat) (e : nat -> R) (k : nat) (discard : R) : result nat :=
  let total := sumn n e in
  let rel i := Rabs (1 - sumn (S i) (fun j => e j / total)) in
  if (k =? 0)%nat then Err ZeroDivErr
  else
    (* a sum of zero makes everything NaN, which is not larger than anything *)
    let large i := if Req_EM_T total 0 then false else if Rlt_dec (Rmin discard (1 / INR k)) (rel i) then true else false in
    let small := (1 + length (filter large (seq 0 n)))%nat in
    let k' := Nat.min k small in
    if (k' - 1 <? n)%nat then Ok k' else Err IndexError.  (* rel_spectrum[k - 1], in the log message *)

(** ** Projection *)
Record factors := { f_n : nat; f_u : mat; f_s : nat -> R }.  (* self.u and self.s, [f_n] columns *)
Record proj := { p_m : nat; p_k : nat; p_us : option factors }.

(** 265-268: the small matrix *)
Definition kmat (decay : R) (n1 : nat) (s1 : nat -> R) (c r : mat) (s2 : nat -> R) : mat := fun i j =>
  if (i <? n1)%nat
  then if (j <? n1)%nat then (if (i =? j)%nat then decay * s1 i else 0) else c i (j - n1)%nat * s2 (j - n1)%nat
  else if (j <? n1)%nat then 0 else r (i - n1)%nat (j - n1)%nat * s2 (j - n1)%nat.
(** 252, 254 *)
Definition c_of (m : nat) (f1 f2 : factors) : mat := mmul m (tr (f_u f1)) (f_u f2).
Definition w_of (m : nat) (f1 f2 : factors) : mat := fun i j => f_u f2 i j - mmul (f_n f1) (f_u f1) (c_of m f1 f2) i j.
(** 314-318: every column starts with a non-negative number *)
Definition canonical (m : nat) (u : mat) : mat := fun i a =>
  if (0 <? m)%nat then (if Rlt_dec (u O a) 0 then - u i a else u i a) else u i a.

(** what the libraries return during a merge; [l_failed]: the first decomposition raised a LinAlgError, and [l_uk], [l_sk] are those
    of [k * k.T] (279-287) *)
Record lib := { l_q : mat; l_r : mat; l_failed : bool; l_uk : mat; l_sk : nat -> R }.
Definition rows_k (m n1 n2 : nat) : nat := (n1 + Nat.min m n2)%nat.
Definition lib_ok (m : nat) (decay : R) (f1 f2 : factors) (l : lib) : Prop :=
  let K := kmat decay (f_n f1) (f_s f1) (c_of m f1 f2) (l_r l) (f_s f2) in
  let h := rows_k m (f_n f1) (f_n f2) in
  let n := (f_n f1 + f_n f2)%nat in
  qr_of m (f_n f2) (w_of m f1 f2) (l_q l) (l_r l) /\
  if l_failed l then svd_of h h (mmul n K (tr K)) (l_uk l) (l_sk l) else svd_of h n K (l_uk l) (l_sk l).

Definition discard_merge : R := 1 / 1000.
Definition eps_svd : R := 1 / 1000000.

(** 209-318 *)
Definition merge (p other : proj) (decay : R) (l : lib) : result proj :=
  match p_us other with
  | None => Ok p
  | Some f2 =>
    match p_us p with
    | None => Ok {| p_m := p_m p; p_k := p_k p; p_us := Some f2 |}
    | Some f1 =>
      if negb (p_m p =? p_m other)%nat then Err ValueError
      else
        let m := p_m p in
        let n1 := f_n f1 in
        let h := rows_k m n1 (f_n f2) in
        let t := if l_failed l then h else Nat.min h (n1 + f_n f2) in
        let s := if l_failed l then (fun a => sqrt (l_sk l a)) else l_sk l in
        let* k := clip_spectrum t (fun a => s a ^ 2) (p_k p) discard_merge in
        let u i a := mmul n1 (f_u f1) (l_uk l) i a
                     + sumn (Nat.min m (f_n f2)) (fun b => l_q l i b * l_uk l (n1 + b)%nat a) in
        Ok {| p_m := m; p_k := p_k p; p_us := Some {| f_n := k; f_u := canonical m u; f_s := s |} |}
    end
  end.

(** ** stochastic_svd (858-1016) *)
(** 928: the number of samples *)
Definition samples_of (rank : nat) (extra : option nat) : nat :=
  match extra with None => Nat.max 10 (2 * rank) | Some e => (rank + e)%nat end.
(** 943-946, 967-978: [y += chunk * o]; a chunk comes with the rows of its random matrix, one for each document *)
Definition act (chunk : list (col * col)) : mat := fun i a => Rsum (map (fun d => fst d i * snd d a) chunk).
Definition madd (A B : mat) : mat := fun i j => A i j + B i j.
Definition mzero : mat := fun _ _ => 0.
Definition action (chunks : list (list (col * col))) : mat := fold_left (fun y c => madd y (act c)) chunks mzero.
(** 960-962, 991-993: [chunk * (chunk.T * q)] *)
Definition power1 (m : nat) (q : mat) (chunk : list col) : mat := fun i a =>
  Rsum (map (fun d : col => d i * sumn m (fun j => d j * q j a)) chunk).
Definition power (m : nat) (q : mat) (chunks : list (list col)) : mat := fold_left (fun y c => madd y (power1 m q c)) chunks mzero.
(** the range finder: [q] and [r] of the last decomposition of the matrix [y]; [iters] power iterations *)
Inductive range_finder (m samples : nat) (docs : list (list col)) (y0 : mat) : nat -> mat -> mat -> mat -> Prop :=
| rf_first : forall q r, qr_of m samples y0 q r -> range_finder m samples docs y0 0 y0 q r
| rf_power : forall n y q r q' r', range_finder m samples docs y0 n y q r ->
    qr_of m (Nat.min m samples) (power m q docs) q' r' ->
    range_finder m samples docs y0 (S n) (power m q docs) q' r'.
(** 986, 1004: [b = qt * chunk] *)
Definition project (m : nat) (q : mat) (chunk : list col) : list col := map (fun (d : col) a => sumn m (fun i => q i a * d i)) chunk.
Definition of_cols (l : list col) : mat := fun i j => nth j l (fun _ => 0) i.
(** 1006: [np.dot(b, b.T)] *)
Definition outer (b : list col) : mat := fun i j => Rsum (map (fun d : col => d i * d j) b).
Definition covariance (m : nat) (q : mat) (chunks : list (list col)) : mat :=
  fold_left (fun x c => madd x (outer (project m q c))) chunks mzero.

(** 987-990 (a sparse matrix) and 1013-1016 (a stream of documents): the decomposition [u], [s] that the library returns *)
Definition final_svd_ok (m p : nat) (q : mat) (sparse : bool) (chunks : list (list col)) (u : mat) (s : nat -> R) : Prop :=
  if sparse then svd_of p (length (concat chunks)) (of_cols (project m q (concat chunks))) u s
  else svd_of p p (covariance m q chunks) u s.
(** 1020-1025 *)
Definition finish (p : nat) (q : mat) (sparse : bool) (ndocs : nat) (rank : nat) (u : mat) (s : nat -> R) : result factors :=
  let t := if sparse then Nat.min p ndocs else p in
  let s' := if sparse then s else fun a => sqrt (s a) in
  let* keep := clip_spectrum t (fun a => s' a ^ 2) rank eps_svd in
  Ok {| f_n := keep; f_u := mmul p q u; f_s := s' |}.

(** One run.  The documents come in chunks, each with its row of the random matrix; a sparse matrix is one chunk. *)
Definition svd_run (m rank : nat) (extra : option nat) (iters : nat) (sparse : bool) (input : list (list (col * col))) (y : mat) (f : factors) : Prop :=
  let samples := samples_of rank extra in
  let p := Nat.min m samples in
  let docs := map (map fst) input in
  exists (q r u : mat) (s : nat -> R),
    range_finder m samples docs (action input) iters y q r /\
    final_svd_ok m p q sparse docs u s /\
    finish p q sparse (length (concat docs)) rank u s = Ok f.

(** ** Training: 446-525 *)
(** One chunk and what the libraries do with it: the projection of the chunk (496-499, 518-521) is merged into the model's (501, 522). *)
Fixpoint train (p : proj) (decay : R) (updates : list (proj * lib)) : result proj :=
  match updates with
  | [] => Ok p
  | (up, l) :: rest => let* p' := merge p up decay l in train p' decay rest
  end.
Definition empty_like (p : proj) : proj := {| p_m := p_m p; p_k := p_k p; p_us := None |}.
(** lsi_dispatcher.py 185-194: the states of the workers are merged, in the order in which they registered, with the default
    decay of 1 *)
Definition getstate (workers : list (proj * lib)) : result proj :=
  match workers with
  | [] => Err IndexError
  | (p, _) :: rest => train p 1 rest
  end.

(** lsimodel.py 476-478, 506-509, lsi_worker.py 143-181: every worker starts empty, trains on the jobs that it gets, with the model's decay,
    and the model's projection is replaced *)
Definition dist_add (p : proj) (decay : R) (workers : list (list (proj * lib) * lib)) : result proj :=
  let* states := rmapM (fun w => let* s := train (empty_like p) decay (fst w) in Ok (s, snd w)) workers in
  getstate states.

(** ** Use: 538-604 *)
(** a document or a chunk of documents (columns), on [n] topics; [None]: the shapes do not broadcast (a ValueError) *)
Definition latent (m : nat) (f : factors) (d : col) : nat -> R := fun a => sumn m (fun i => d i * f_u f i a).
Definition getitem_doc (m num_topics : nat) (f : factors) (scaled : bool) (d : col) : list R :=
  let n := Nat.min num_topics (f_n f) in
  map (fun a => if scaled then 1 / f_s f a * latent m f d a else latent m f d a) (seq 0 n).
(** [topic_dist] has a row for each topic and a column for each document; [1.0 / s] is a row vector, so it is multiplied into the
    columns: there must be as many of them as topics, or one of either *)
Definition getitem_chunk (m num_topics : nat) (f : factors) (scaled : bool) (ds : list col) : result (list (list R)) :=
  let n := Nat.min num_topics (f_n f) in
  let plain := map (fun d => map (latent m f d) (seq 0 n)) ds in
  if negb scaled then Ok plain
  else if (length ds =? n)%nat
  then Ok (map (fun jd => map (fun x => 1 / f_s f (fst jd) * x) (snd jd)) (combine (seq 0 n) plain))
  else if (n =? 1)%nat then Ok (map (map (fun x => 1 / f_s f O * x)) plain)
  else if (length ds =? 1)%nat
  then Ok (map (fun j => map (fun a => 1 / f_s f j * latent m f (hd (fun _ => 0) ds) a) (seq 0 n)) (seq 0 n))
  else Err ValueError.
(** [lsi[corpus]] and [lsi.__getitem__(corpus, scaled=..., chunksize=...)]: with a chunk size the corpus is transformed lazily by
    [TransformedCorpus], which calls [__getitem__(chunk, chunksize=None)] (interfaces.py 172-175) *)
Definition getitem_corpus (m num_topics : nat) (f : factors) (scaled : bool) (chunksize : option nat) (ds : list col) : result (list (list R)) :=
  match chunksize with
  | None => getitem_chunk m num_topics f scaled ds
  | Some c => rmap (@concat _) (rmapM (getitem_chunk m num_topics f false) (chunkize_serial ds c))
  end.
