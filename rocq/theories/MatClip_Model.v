(** Model of [matutils.scipy2scipy_clipped] on a sparse matrix (several rows). *)
From Verif Require Import Base Matutils_Model.
From Coq Require Import QArith Qabs.
Local Open Scope nat_scope.

(** A sparse matrix by rows: the indices and the data of each row. *)
Definition srow : Type := list nat * list Q.

Record clipped : Type := Clipped {
  cl_data : list Q; cl_indices : list nat; cl_indptr : list nat; cl_cols : nat
}.

(** matutils.py 280-314, [matrix.shape[0] != 1]. [np.concatenate] of no arrays
    and [np.max] of an empty array raise ValueError. *)
Definition scipy_clipped_matrix (np_argsort : list Q -> list nat) (np_argpartition : list Q -> nat -> list nat)
    (rows : list srow) (topn : Z) : result clipped :=
  if (topn <=? 0)%Z then Ok (Clipped [] [] [0; 0] 0)
  else
    let clip := map (fun r : srow => scipy_clipped_row np_argsort np_argpartition (fst r) (snd r) topn) rows in
    let indptr := fold_left (fun p (c : srow) => p ++ [last p 0 + Nat.min (length (fst c)) (Z.to_nat topn)]) clip [0] in
    let indices := concat (map fst clip) in
    let data := concat (map snd clip) in
    match indices with
    | [] => Err ValueError
    | _ => Ok (Clipped data indices indptr (list_max indices + 1))
    end.

(** Row [i] of the result, as scipy reads it. *)
Definition clipped_row (m : clipped) (i : nat) : srow :=
  let a := nth i (cl_indptr m) 0 in
  let b := nth (S i) (cl_indptr m) 0 in
  (firstn (b - a) (skipn a (cl_indices m)), firstn (b - a) (skipn a (cl_data m))).
