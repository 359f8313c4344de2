(** Model of parts of gensim/matutils.py: conversions between bag-of-words,
    dense and sparse formats, top-n selection, Jaccard distances.  Weights are
    exact rationals (float rounding is not modelled). *)

From Verif Require Import Base.
From Coq Require Import QArith Qabs Qminmax.
Local Open Scope nat_scope.

Definition Qltb (a b : Q) : bool := negb (Qle_bool b a).

(** numpy's index rule: negative indices count from the end. *)
Definition np_index (n : nat) (i : Z) : result nat :=
  if (i <? 0)%Z then (if (i + Z.of_nat n <? 0)%Z then Err IndexError else Ok (Z.to_nat (i + Z.of_nat n)))
  else if (Z.of_nat n <=? i)%Z then Err IndexError else Ok (Z.to_nat i).

(** [arr[i] = x] for a valid [i]. *)
Fixpoint list_set {A : Type} (l : list A) (i : nat) (x : A) : list A :=
  match l, i with
  | [], _ => []
  | _ :: l', 0 => x :: l'
  | y :: l', S i' => y :: list_set l' i' x
  end.

(** [arr.take(idx)]; all indices used below are in range (proved), so the default is never read. *)
Definition take {A : Type} (d : A) (l : list A) (idx : list nat) : list A := map (fun i => nth i l d) idx.

(** ** Dense <-> sparse *)

(** matutils.py 370-399: [sparse2full]: [dict(doc)], then one fancy-index
    assignment (all indices are checked before anything is written). *)
Definition sparse2full (doc : list (Z * Q)) (length_ : nat) : result (list Q) :=
  let d := dict_of doc in
  let* idx := rmapM (np_index length_) (dkeys d) in
  Ok (fold_left (fun r iv => list_set r (fst iv) (snd iv)) (combine idx (dvals d)) (repeat 0%Q length_)).

(** matutils.py 402-426: [full2sparse]. *)
Definition nonzero_above (eps : Q) (vec : list Q) : list nat :=
  map fst (filter (fun iv => Qltb eps (Qabs (snd iv))) (combine (seq 0 (length vec)) vec)).
Definition full2sparse (vec : list Q) (eps : Q) : list (nat * Q) :=
  let nnz := nonzero_above eps vec in combine nnz (take 0%Q vec nnz).

(** matutils.py 240-260: last case of [any2sparse] (a bag of words). *)
Definition any2sparse_bow (vec : list (Z * Q)) (eps : Q) : list (Z * Q) :=
  filter (fun iw => Qltb eps (Qabs (snd iw))) vec.

Definition eps9 : Q := 1 # 1000000000.

(** matutils.py 468-508: [corpus2dense]; the matrix is the list of its columns. *)
Definition corpus2dense (corpus : list (list (Z * Q))) (num_terms : nat) (num_docs : option nat) : result (list (list Q)) :=
  match num_docs with
  | Some nd =>
    let* cols := rfold (fun (s : nat * list (list Q)) doc =>
        let '(docno, cols) := s in
        let* col := sparse2full doc num_terms in
        if docno <? nd then Ok (S docno, cols ++ [col]) else Err IndexError) corpus (0, []) in
    if fst cols =? nd then Ok (snd cols) else Err AssertionErr
  | None =>
    match corpus with
    | [] => Err ValueError (* column_stack of nothing *)
    | _ => rmapM (fun doc => sparse2full doc num_terms) corpus
    end
  end.

(** matutils.py 511-555: [Dense2Corpus.__iter__] on the columns. *)
Definition dense2corpus (cols : list (list Q)) : list (list (nat * Q)) := map (fun c => full2sparse c eps9) cols.

(** ** Top-n *)

Section Argsort.
  (** numpy primitives. *)
  Variable np_argsort : list Q -> list nat.
  Variable np_argpartition : list Q -> nat -> list nat.

  (** matutils.py 48-79: [argsort]. *)
  Definition argsort (x : list Q) (topn : option Z) (reverse : bool) : list nat :=
    let topn := match topn with None => Z.of_nat (length x) | Some t => t end in
    if (topn <=? 0)%Z then []
    else
      let x := if reverse then map Qopp x else x in
      if (Z.of_nat (length x) <=? topn)%Z then firstn (Z.to_nat topn) (np_argsort x)
      else
        let most_extreme := firstn (Z.to_nat topn) (np_argpartition x (Z.to_nat topn)) in
        take 0 most_extreme (np_argsort (take 0%Q x most_extreme)).

  (** matutils.py 432-465: [full2sparse_clipped]. *)
  Definition full2sparse_clipped (vec : list Q) (topn : Z) (eps : Q) : list (nat * Q) :=
    if (topn <=? 0)%Z then []
    else
      let nnz := nonzero_above eps vec in
      let biggest := take 0 nnz (argsort (take 0%Q (map Qabs vec) nnz) (Some topn) true) in
      combine biggest (take 0%Q vec biggest).

  (** matutils.py 283-291: [scipy2scipy_clipped] of a sparse row vector
      (indices and data). *)
  Definition scipy_clipped_row (indices : list nat) (data : list Q) (topn : Z) : list nat * list Q :=
    if (topn <=? 0)%Z then ([], [])
    else
      let biggest := argsort (map Qabs data) (Some topn) true in
      (take 0 indices biggest, take 0%Q data biggest).
End Argsort.

(** ** Sparse matrices *)

Section Csc.
  Context {W : Type}.

  Record csc : Type := mkCsc {
    csc_data : list W; csc_indices : list nat; csc_indptr : list nat; csc_rows : nat; csc_cols : nat
  }.

  (** [scipy.sparse.csc_matrix((data, indices, indptr), shape)]: the checks scipy makes. *)
  Definition csc_make (data : list W) (indices indptr : list nat) (rows cols : nat) : result csc :=
    if negb (length indptr =? cols + 1) then Err ValueError
    else if negb (length data =? length indices) then Err ValueError
    else if length indices <? last indptr 0 then Err ValueError
    else Ok (mkCsc data indices indptr rows cols).

  (** [arr[a:b] = vals] in numpy: shapes must agree, or a single value is broadcast. *)
  Definition slice_assign {B : Type} (arr : list B) (a b : nat) (vals : list B) : result (list B) :=
    let a := Nat.min a (length arr) in
    let b := Nat.min b (length arr) in
    if b - a =? length vals then Ok (firstn a arr ++ vals ++ skipn b arr)
    else match vals with
         | [v] => Ok (firstn a arr ++ repeat v (b - a) ++ skipn b arr)
         | _ => Err ValueError
         end.

  (** matutils.py 131-147: fast path.  [junk_i], [junk_d] are the unspecified
      contents of [np.empty].  Ids are assumed to fit in 32 bits (see the HACK
      comment in the source). *)
  Record fast_state : Type := mkFast { f_pos : nat; f_indptr : list nat; f_indices : list nat; f_data : list W }.
  Definition fast_step (s : fast_state) (doc : list (nat * W)) : result fast_state :=
    let posnext := f_pos s + length doc in
    let* indices := slice_assign (f_indices s) (f_pos s) posnext (map fst doc) in
    let* data := slice_assign (f_data s) (f_pos s) posnext (map snd doc) in
    Ok (mkFast posnext (f_indptr s ++ [posnext]) indices data).
  Definition corpus2csc_fast (junk_i : list nat) (junk_d : list W) (corpus : list (list (nat * W)))
      (num_terms num_docs num_nnz : nat) : result csc :=
    let* s := rfold fast_step corpus (mkFast 0 [0] junk_i junk_d) in
    if f_pos s =? num_nnz then csc_make (f_data s) (f_indices s) (f_indptr s) num_terms num_docs
    else Err AssertionErr.

  (** matutils.py 148-165: slow path. *)
  Definition slow_step (s : nat * list W * list nat * list nat) (doc : list (nat * W)) :=
    let '(nnz, data, indices, indptr) := s in
    (nnz + length doc, data ++ map snd doc, indices ++ map fst doc, indptr ++ [nnz + length doc]).
  Definition corpus2csc_slow (corpus : list (list (nat * W))) (num_terms : option nat) : result csc :=
    let '(nnz, data, indices, indptr) := fold_left slow_step corpus (0, [], [], [0]) in
    let num_terms := match num_terms with
      | Some t => t
      | None => match indices with [] => 0 | _ => list_max indices + 1 end
      end in
    csc_make data indices indptr num_terms (length indptr - 1).

  (** matutils.py 583-596: [Sparse2Corpus.__iter__]. *)
  Definition slice {B : Type} (l : list B) (a b : nat) : list B := firstn (b - a) (skipn a l).
  Definition sparse2corpus_iter (m : csc) : list (list (nat * W)) :=
    map (fun pn => combine (slice (csc_indices m) (fst pn) (snd pn)) (slice (csc_data m) (fst pn) (snd pn)))
        (combine (csc_indptr m) (tl (csc_indptr m))).

  (** matutils.py 597-598: [__len__]. *)
  Definition sparse2corpus_len (m : csc) : nat := csc_cols m.

  (** matutils.py 600-616: [__getitem__]; [indptr] is indexed like any numpy array. *)
  Definition sparse2corpus_getitem (m : csc) (i : Z) : result (list (nat * W)) :=
    let* a := np_index (length (csc_indptr m)) i in
    let* b := np_index (length (csc_indptr m)) (i + 1) in
    let indprev := nth a (csc_indptr m) 0 in
    let indnow := nth b (csc_indptr m) 0 in
    Ok (combine (slice (csc_indices m) indprev indnow) (slice (csc_data m) indprev indnow)).
End Csc.

(** Value of a matrix entry (scipy): the stored values of that column with that row index, added up. *)
Definition csc_entry (m : @csc Q) (row col : nat) : Q :=
  let a := nth col (csc_indptr m) 0 in
  let b := nth (S col) (csc_indptr m) 0 in
  fold_left (fun acc k => if (nth k (csc_indices m) 0 =? row)%nat then acc + nth k (csc_data m) 0%Q else acc)%Q
    (seq a (b - a)) 0%Q.

(** ** Distances on bags and sets *)

(** matutils.py 843-865: [_convert_vec], both arguments bags of words. *)
Definition convert_vec_bow (vec1 vec2 : list (Z * Q)) (num_features : option nat) : result (list Q * list Q) :=
  let n := match num_features with Some n => n | None => Nat.max (length vec1) (length vec2) end in
  let* d1 := sparse2full vec1 n in
  let* d2 := sparse2full vec2 n in
  Ok (d1, d2).

Definition Qsum (l : list Q) : Q := fold_right Qplus 0%Q l.

(** matutils.py 976-985: [jaccard] of two bags; [None] is a [ZeroDivisionError]. *)
Definition jaccard_bow (vec1 vec2 : list (Z * Q)) : option Q :=
  let union := (Qsum (map snd vec1) + Qsum (map snd vec2))%Q in
  let d1 := dict_of vec1 in
  let d2 := dict_of vec2 in
  let intersection := fold_left (fun acc iw => acc + Qmin (snd iw) (dget_or d2 (fst iw) 0))%Q d1 0%Q in
  if Qeq_bool union 0 then None else Some (1 - intersection / union)%Q.

(** matutils.py 986-995: [jaccard] of two other sequences, as sets. *)
Definition set_len {A : Type} `{EqDec A} (l : list A) : nat := length (nodup eq_dec l).
Definition set_and {A : Type} `{EqDec A} (a b : list A) : list A := filter (fun x => memb x b) (nodup eq_dec a).
Definition set_or {A : Type} `{EqDec A} (a b : list A) : list A := nodup eq_dec (a ++ b).
Definition Qnat (n : nat) : Q := inject_Z (Z.of_nat n).
Definition jaccard_sets {A : Type} `{EqDec A} (vec1 vec2 : list A) : option Q :=
  let i := set_len (set_and vec1 vec2) in
  let u := set_len (set_or vec1 vec2) in
  if u =? 0 then None else Some (1 - Qnat i / Qnat u)%Q.

(** matutils.py 998-1019: [jaccard_distance]. *)
Definition jaccard_distance {A : Type} `{EqDec A} (set1 set2 : list A) : Q :=
  let u := set_len (set_or set1 set2) in
  if u =? 0 then 1%Q else (1 - Qnat (set_len (set_and set1 set2)) / Qnat u)%Q.
