(** Model of /repo/gensim/similarities/levenshtein.py 20-153.

    The C function [Levenshtein.distance] is not part of the repository; it stands here as the usual recursion.  Over the
    mathematical reals (float rounding and overflow are not modelled); [x ** y] for [x >= 0]. *)

From Verif Require Import Base Str NegSampling_Model.
From Coq Require Import Reals.

Section Dist.
Local Open Scope nat_scope.
(** The outer recursion is on the first term, the inner one on the second. *)
Fixpoint lev (a : pystr) : pystr -> nat :=
  match a with
  | [] => fun b => length b
  | x :: a' =>
    fix lev_in (b : pystr) : nat :=
      match b with
      | [] => S (length a')
      | y :: b' => Nat.min (lev a' b' + (if (x =? y)%N then 0 else 1)) (Nat.min (S (lev a' b)) (S (lev_in b')))
      end
  end.
End Dist.

Local Open Scope R_scope.
(** 44-50; [None] is infinity. *)
Definition levdist (t1 t2 : pystr) (max_distance : option Z) : nat :=
  let distance := lev t1 t2 in
  match max_distance with
  | Some m => if (Z.of_nat distance >? m)%Z then Nat.max (length t1) (length t2) else distance
  | None => distance
  end.

(** Python's power of floats, for a base that is not negative. *)
Definition rpow (x y : R) : R := if Req_EM_T x 0 then (if Req_EM_T y 0 then 1 else 0) else Rpower x y.
(** [max(min(s, 1.0), 0.0)] *)
Definition clamp (s : R) : R := Rmax (Rmin s 1) 0.

(** 90-102 *)
Definition levsim (alpha beta min_similarity : R) (t1 t2 : pystr) : result R :=
  if Rlt_dec alpha 0 then Err AssertionErr
  else if Rlt_dec beta 0 then Err AssertionErr
  else
    let max_lengths := Nat.max (length t1) (length t2) in
    if (max_lengths =? 0)%nat then Ok 1
    else
      let min_similarity := clamp min_similarity in
      if Req_EM_T alpha 0 then Err ZeroDivErr
      else if Req_EM_T beta 0 then Err ZeroDivErr
      else
        let max_distance := py_floor (INR max_lengths * (1 - rpow (min_similarity / alpha) (1 / beta))) in
        let distance := levdist t1 t2 (Some max_distance) in
        Ok (alpha * rpow (1 - INR distance / INR max_lengths) beta).

(** 141-153: [sorted(similarities, reverse=True)] compares the pairs (similarity, term). *)
Definition sim_geb (a b : R * pystr) : bool :=
  if Rlt_dec (fst b) (fst a) then true else if Req_EM_T (fst a) (fst b) then str_leb (snd b) (snd a) else false.
Definition lev_most_similar (alpha beta threshold : R) (terms : list pystr) (t1 : pystr) (topn : nat) : result (list (pystr * R)) :=
  let* sims := rmapM (fun t2 => let* s := levsim alpha beta threshold t1 t2 in Ok (s, t2)) (filter (fun t2 => negb (eqb t1 t2)) terms) in
  Ok (firstn topn (map (fun p => (snd p, fst p)) (filter (fun p => if Rlt_dec 0 (fst p) then true else false) (isort sim_geb sims)))).
