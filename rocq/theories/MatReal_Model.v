(** Model of the real-valued vector functions of gensim/matutils.py, over the
    mathematical reals (float rounding, overflow and NaN are not modelled). *)

From Verif Require Import Base.
From Coq Require Import Reals.
Local Open Scope R_scope.

Definition rbow : Type := list (Z * R).
Definition Rsum (l : list R) : R := fold_right Rplus 0 l.

(** matutils.py 786-814: [cossim].  Python's [sum] starts from 0 on the left; over the reals the order is immaterial. *)
Definition sumsq (l : list R) : R := Rsum (map (fun v => v * v) l).
Definition cossim (vec1 vec2 : rbow) : result R :=
  let vec1 := dict_of vec1 in
  let vec2 := dict_of vec2 in
  match vec1, vec2 with
  | [], _ => Ok 0
  | _, [] => Ok 0
  | _, _ =>
    let vec1len := 1 * sqrt (sumsq (dvals vec1)) in
    let vec2len := 1 * sqrt (sumsq (dvals vec2)) in
    if Rlt_dec 0 vec1len then
      if Rlt_dec 0 vec2len then
        let '(vec1, vec2) := if Nat.ltb (length vec2) (length vec1) then (vec2, vec1) else (vec1, vec2) in
        let result := Rsum (map (fun iv => snd iv * dget_or vec2 (fst iv) 0) vec1) in
        Ok (result / (vec1len * vec2len))
      else Err AssertionErr
    else Err AssertionErr
  end.

(** matutils.py 918-949: [hellinger] of two bags.  [indices] is the set of all
    ids in its iteration order, which Python leaves unspecified. *)
Definition hellinger (indices : list Z) (vec1 vec2 : rbow) : R :=
  let vec1 := dict_of vec1 in
  let vec2 := dict_of vec2 in
  sqrt (1/2 * Rsum (map (fun i => (sqrt (dget_or vec1 i 0) - sqrt (dget_or vec2 i 0)) ^ 2) indices)).

(** matutils.py 947-949: [hellinger] of two dense arrays (equal shapes; otherwise numpy raises). *)
Definition hellinger_dense (vec1 vec2 : list R) : result R :=
  if Nat.eqb (length vec1) (length vec2)
  then Ok (sqrt (1/2 * Rsum (map (fun xy => (sqrt (fst xy) - sqrt (snd xy)) ^ 2) (combine vec1 vec2))))
  else Err ValueError.

(** matutils.py 619-636: [veclen]. *)
Definition veclen (vec : rbow) : result R :=
  match vec with
  | [] => Ok 0
  | _ => let len := 1 * sqrt (Rsum (map (fun iv => snd iv ^ 2) vec)) in
         if Rlt_dec 0 len then Ok len else Err AssertionErr
  end.

(** matutils.py 639-657: [ret_normalized_vec]. *)
Definition ret_normalized_vec (vec : rbow) (len : R) : rbow :=
  if Req_EM_T len 1 then vec else map (fun iv => (fst iv, snd iv / len)) vec.

Inductive norm_kind : Type := L1 | L2 | Unique.

(** matutils.py 757-783: [unitvec] of a bag, with [return_norm]. *)
Definition unitvec_bow (vec : rbow) (norm : norm_kind) : result (rbow * R) :=
  match vec with
  | [] => Ok (vec, 1)
  | _ =>
    let len := match norm with
      | L1 => Rsum (map (fun iv => Rabs (snd iv)) vec)
      | L2 => 1 * sqrt (Rsum (map (fun iv => snd iv ^ 2) vec))
      | Unique => 1 * INR (length vec)
      end in
    if Rlt_dec 0 len then Ok (ret_normalized_vec vec len, len) else Err AssertionErr
  end.

(** matutils.py 735-755: [unitvec] of a dense array. *)
Definition count_nonzero (v : list R) : nat := length (filter (fun x => if Req_EM_T x 0 then false else true) v).
Definition unitvec_dense (vec : list R) (norm : norm_kind) : list R * R :=
  let len := match norm with
    | L1 => Rsum (map Rabs vec)
    | L2 => match vec with [] => 0 | _ => sqrt (sumsq vec) end
    | Unique => INR (count_nonzero vec)
    end in
  if Rlt_dec 0 len then (map (fun x => (1 / len) * x) vec, len) else (vec, 1).

(** matutils.py 713-733: [unitvec] of a sparse matrix: works on the stored data.
    [tocsr()] of a CSR matrix is the matrix itself and [/=] updates it in
    place, so the caller's matrix afterwards is also returned. *)
Record csr_out : Type := mkCsrOut { out_data : list R; out_norm : R; caller_data_after : list R }.
Definition unitvec_csr (data : list R) (integer_dtype : bool) (norm : norm_kind) : csr_out :=
  let len := match norm with
    | L1 => Rsum (map Rabs data)
    | L2 => sqrt (sumsq data)
    | Unique => INR (length data)
    end in
  if Rlt_dec 0 len then
    let new := map (fun x => x / len) data in
    mkCsrOut new len (if integer_dtype then data else new)
  else mkCsrOut data 1 data.
