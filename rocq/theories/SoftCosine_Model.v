(** Model of SparseTermSimilarityMatrix.inner_product (gensim/similarities/termsim.py 482-593) and its normalisation helpers
    (290-390), over the mathematical reals (rounding, overflow and NaN are not modelled).  The matrix is a function on indices
    below [n]; a vector is a list of (index, weight).  Weights that numpy would make infinite (division by a zero norm) are an
    [OverflowErr]; explicit zero weights, which the code forbids in its assertion message, are treated like absent ones. *)

From Verif Require Import Base MatReal_Model.
From Coq Require Import Reals.
Local Open Scope R_scope.

Definition vec : Type := list (nat * R).
Definition mat : Type := nat -> nat -> R.
Inductive norm : Type := NFalse | NTrue | NMaintain.
Fixpoint rsum (idx : list nat) (f : nat -> R) : R := match idx with [] => 0 | i :: idx => f i + rsum idx f end.
(** x^T M y and x^T y over the given indices. *)
Definition bil (idx : list nat) (M : mat) (x y : nat -> R) : R := rsum idx (fun i => rsum idx (fun j => x i * M i j * y j)).
Definition dot (idx : list nat) (x y : nat -> R) : R := rsum idx (fun i => x i * y i).
(** [dict(X)] and a lookup with default 0: the last weight of an index counts. *)
Definition dict_get (x : vec) (i : nat) : R := dget_or (dict_of x) i 0.
(** A column of [corpus2csc]: the weights of an index add up. *)
Definition csc_get (x : vec) (i : nat) : R := Rsum (map snd (filter (fun iw => Nat.eqb (fst iw) i) x)).
(** 290-326: [_normalize_dense_vector] *)
Definition normalize_vector (idx : list nat) (M : mat) (nz : norm) (x : nat -> R) : result (nat -> R) :=
  match nz with
  | NFalse => Ok x
  | _ =>
    let v := bil idx M x x in
    if Rlt_dec v 0 then Err AssertionErr
    else
      let v := match nz with NMaintain => if Rlt_dec 0 v then v / dot idx x x else v | _ => v end in
      let r := sqrt v in
      Ok (if Rlt_dec 0 r then fun i => x i / r else x)
  end.
(** 329-390: [_normalize_dense_corpus], [_normalize_sparse_corpus], by document. *)
Definition all_zero (idx : list nat) (y : nat -> R) : bool := forallb (fun i => if Req_EM_T (y i) 0 then true else false) idx.
Definition normalize_document (idx : list nat) (M : mat) (nz : norm) (y : nat -> R) : result (nat -> R) :=
  if all_zero idx y then Ok (fun _ => 0)
  else
    let v := bil idx M y y in
    let v := match nz with NMaintain => v / dot idx y y | _ => v end in
    if Req_EM_T v 0 then Err OverflowErr else Ok (fun i => y i * (1 / sqrt v)).
Definition normalize_corpus (idx : list nat) (M : mat) (nz : norm) (ys : list (nat -> R)) : result (list (nat -> R)) :=
  match nz with
  | NFalse => Ok ys
  | _ => if existsb (fun y => if Rlt_dec (bil idx M y y) 0 then true else false) ys then Err AssertionErr
         else rmapM (normalize_document idx M nz) ys
  end.
Definition clip (r : R) : R := if Rlt_dec r (-1) then -1 else if Rlt_dec 1 r then 1 else r.
Definition clipped (nx ny : norm) (r : R) : R := match nx, ny with NTrue, NTrue => clip r | _, _ => r end.
Definition in_range (n : nat) (x : vec) : bool := forallb (fun iw => Nat.ltb (fst iw) n) x.
(** 542-559: two vectors. *)
Definition inner_vectors (n : nat) (M : mat) (X Y : vec) (nx ny : norm) : result R :=
  match X, Y with
  | [], _ => Ok 0
  | _, [] => Ok 0
  | _, _ =>
    if in_range n X && in_range n Y then
      let idx := filter (fun i => memb i (map fst X ++ map fst Y)) (seq 0 n) in
      let* x := normalize_vector idx M nx (dict_get X) in
      let* y := normalize_vector idx M ny (dict_get Y) in
      Ok (clipped nx ny (bil idx M x y))
    else Err IndexError
  end.
(** 560-586: a vector and a corpus, neither empty (the other way round, the result is transposed). *)
Definition inner_vector_corpus (n : nat) (M : mat) (X : vec) (Ys : list vec) (nx ny : norm) : result (list R) :=
  if in_range n X && forallb (in_range n) Ys then
    let expanded := fun j => rsum (seq 0 n) (fun i => csc_get X i * M i j) in
    let idx := filter (fun j => if Req_EM_T (expanded j) 0 then false else true) (seq 0 n) in
    if Nat.eqb (length idx) 0 then Err IndexError else       (* an empty index array is no index array *)
    let* x := normalize_vector idx M nx (dict_get X) in
    let* ys := normalize_corpus idx M ny (map csc_get Ys) in
    Ok (map (fun y => clipped nx ny (bil idx M x y)) ys)
  else Err IndexError.
(** 587-601: two corpora, neither empty. *)
Definition inner_corpora (n : nat) (M : mat) (Xs Ys : list vec) (nx ny : norm) : result (list (list R)) :=
  if forallb (in_range n) Xs && forallb (in_range n) Ys then
    let idx := seq 0 n in
    let* xs := normalize_corpus idx M nx (map csc_get Xs) in
    let* ys := normalize_corpus idx M ny (map csc_get Ys) in
    Ok (map (fun x => map (fun y => clipped nx ny (bil idx M x y)) ys) xs)
  else Err IndexError.
