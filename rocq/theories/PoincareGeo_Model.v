(** Model of the geometry of Poincaré embeddings: /repo/gensim/models/poincare.py 318-385 (`_loss_fn`, `_clip_vectors`),
    545-600 (`_handle_duplicates`, `_update_vectors_batch`), 432-467 (the batch), 762-855 (`PoincareBatch`), 891-933
    (`vector_distance`), 1032-1108 (`distance`, `similarity`).

    Simplifications: real numbers (no rounding, infinities or NaN; `arccosh` of a number below 1 and a division by zero have
    some value here, the theorems show that they do not happen inside the unit ball).  A matrix is the list of its rows, and
    assigning to several rows (`vectors[indices] = ...`) goes from left to right.  The arrays of a batch have one axis for the
    examples, which never mix: they are written here for one example.  The gradients do not depend on autograd, which is only
    used for checking them. *)
From Coq Require Import Reals.
From Verif Require Import Base KeyedVectors_Model MatReal_Model.
Local Open Scope R_scope.

Notation vec := (list R).
(** [x + c y] *)
Fixpoint lin (x y : vec) (c : R) : vec :=
  match x, y with
  | a :: x', b :: y' => (a + c * b) :: lin x' y' c
  | _, _ => []
  end.
Definition vsub (x y : vec) : vec := lin x y (-1).
Definition scale (c : R) (x : vec) : vec := map (Rmult c) x.
Definition norm (x : vec) : R := sqrt (sumsq x).
Definition zero (n : nat) : vec := repeat 0 n.
Definition total (n : nat) (l : list vec) : vec := fold_left (fun a x => lin a x 1) l (zero n).

(** 891-933 *)
Definition arccosh (x : R) : R := ln (x + sqrt (x ^ 2 - 1)).
Definition vector_distance (u v : vec) : R := arccosh (1 + 2 * (norm (vsub u v) ^ 2 / ((1 - norm u ^ 2) * (1 - norm v ^ 2)))).
(** 1072-1108 *)
Definition similarity (u v : vec) : R := 1 / (1 + vector_distance u v).

(** ** One example of a batch: the node [u] and the rows [vs], first the related node, then the negative samples. *)
(** 762-776 *)
Definition euclid (u v : vec) : R := norm (vsub u v).
Definition alpha_of (u : vec) : R := 1 - norm u ^ 2.
Definition gamma (u v : vec) : R := 1 + 2 * (euclid u v ^ 2 / (alpha_of u * alpha_of v)).
Definition pdist (u v : vec) : R := arccosh (gamma u v).
Definition expnd (u v : vec) : R := exp (- pdist u v).
Definition Zsum (u : vec) (vs : list vec) : R := Rsum (map (expnd u) vs).
(** 823-834 *)
Definition coef (u v : vec) : R := 4 / (alpha_of u * alpha_of v * sqrt (gamma u v ^ 2 - 1)).
Definition dgrad_u (u v : vec) : vec :=
  if Req_EM_T (gamma u v) 1 then zero (length u)
  else scale (coef u v) (vsub (scale ((euclid u v ^ 2 + alpha_of u) / alpha_of u) u) v).
(** 837-843 *)
Definition dgrad_v (u v : vec) : vec :=
  if Req_EM_T (gamma u v) 1 then zero (length u)
  else scale (coef u v) (vsub (scale ((euclid u v ^ 2 + alpha_of v) / alpha_of v) v) u).
(** 799-802 *)
Definition grad_v (reg : R) (u : vec) (vs : list vec) : list vec :=
  let g v := scale (/ Zsum u vs) (scale (- expnd u v) (dgrad_v u v)) in
  match vs with
  | [] => []
  | v0 :: ns => lin (lin (g v0) (dgrad_v u v0) 1) v0 (reg * 2) :: map g ns
  end.
(** 805-808 *)
Definition grad_u (u : vec) (vs : list vec) : vec :=
  let g v := scale (/ Zsum u vs) (scale (- expnd u v) (dgrad_u u v)) in
  match vs with
  | [] => zero (length u)
  | v0 :: _ => lin (total (length u) (map g vs)) (dgrad_u u v0) 1
  end.
(** 853 (one example; the loss of the batch is the sum) *)
Definition batch_loss (u : vec) (vs : list vec) : R := match vs with [] => 0 | v0 :: _ => - ln (expnd u v0 / Zsum u vs) end.
(** 338-350 *)
Definition loss_fn (reg : R) (u : vec) (vs : list vec) : R :=
  match vs with [] => 0 | v0 :: _ => - ln (exp (- vector_distance u v0) / Rsum (map (fun v => exp (- vector_distance u v)) vs)) + reg * norm v0 ^ 2 end.

(** ** Applying the updates *)
(** 371-376: a single vector *)
Definition sign (x : R) : R := if Rlt_dec 0 x then 1 else if Rlt_dec x 0 then -1 else 0.
Definition clip_vector (eps : R) (v : vec) : vec :=
  if Rlt_dec (norm v) (1 - eps) then v else lin (map (fun x => x / norm v) v) (map sign v) (- eps).
(** 378-385: the rows of a matrix *)
Definition clip_row (eps : R) (v : vec) : vec :=
  let t := 1 - eps in
  if Rlt_dec (norm v) t then v
  else let w := map (fun x => x * (t / norm v)) v in lin w (map sign w) (- eps).
Definition clip_vectors (eps : R) (vs : list vec) : list vec := map (clip_row eps) vs.

(** 563-573 *)
Definition positions (nodes : list nat) : dict nat (list nat) :=
  fold_left (fun d p => dset d (snd p) (dget_or d (snd p) [] ++ [fst p])) (combine (seq 0 (length nodes)) nodes) [].
Definition merge_updates (size : nat) (ups : list vec) (ps : list nat) : list vec :=
  if (length ps =? 1)%nat then ups
  else
    let s := total size (map (fun p => nth p ups []) ps) in
    fold_left (fun us p => set_nth us p (zero size)) (removelast ps) (set_nth ups (last ps 0%nat) s).
Definition handle_duplicates (size : nat) (ups : list vec) (nodes : list nat) : list vec :=
  fold_left (fun us kp => merge_updates size us (snd kp)) (positions nodes) ups.

(** [vectors[indices] = rows] and [vectors[indices] -= updates] *)
Definition take_rows (X : list vec) (indices : list nat) : list vec := map (fun i => nth i X []) indices.
Definition put_rows (X : list vec) (indices : list nat) (rows : list vec) : list vec := fold_left (fun X ir => set_nth X (fst ir) (snd ir)) (combine indices rows) X.
Definition sub_rows (X : list vec) (indices : list nat) (ups : list vec) : list vec :=
  put_rows X indices (map (fun p => vsub (fst p) (snd p)) (combine (take_rows X indices) ups)).
Definition apply_updates (eps : R) (size : nat) (X : list vec) (indices : list nat) (ups : list vec) : list vec :=
  let X1 := sub_rows X indices (handle_duplicates size ups indices) in
  put_rows X1 indices (clip_vectors eps (take_rows X1 indices)).

(** An example is [(u, v :: negatives)], by row numbers. *)
Definition example : Type := (nat * list nat)%type.
(** 588-600 *)
Definition u_update (lr : R) (u : vec) (vs : list vec) : vec := scale (lr * alpha_of u ^ 2 / 4) (grad_u u vs).
Definition v_updates (lr reg : R) (u : vec) (vs : list vec) : list vec := map (fun p => scale (lr * alpha_of (fst p) ^ 2 / 4) (snd p)) (combine vs (grad_v reg u vs)).
Definition update_vectors_batch (lr reg eps : R) (size : nat) (X : list vec) (batch : list example) : list vec :=
  let vecs := map (fun e => (nth (fst e) X [], take_rows X (snd e))) batch in
  let X1 := apply_updates eps size X (map fst batch) (map (fun p => u_update lr (fst p) (snd p)) vecs) in
  apply_updates eps size X1 (concat (map snd batch)) (concat (map (fun p => v_updates lr reg (fst p) (snd p)) vecs)).
