(** Model of /repo/gensim/models/keyedvectors.py 842-944 ([wmdistance]) over the real numbers.

    Simplifications: keys are strings, a vector is a function giving its first [d] coordinates, float rounding is left out, the
    vectors of the words used are required to be different from zero where it matters.  The numpy matrix and the numpy vectors are
    functions on the indexes, of which the ones below [vocab_len] are used.  [emd] of the C extension pyemd is a parameter. *)
From Coq Require Import Reals.
From Verif Require Import Base Str LdaTrain_Model KvSim_Model Dictionary_Model.
Local Open Scope R_scope.

(** A float that may be [float('inf')]. *)
Inductive wm := Inf | Val (x : R).

Section Dim.
Variable d : nat.
Variable emd : nat -> (nat -> R) -> (nat -> R) -> (nat -> nat -> R) -> R.

(** [np.sqrt(np_sum((v1 - v2)**2))] *)
Definition euclid (x y : vec) : R := sqrt (sumn d (fun i => (x i - y i) ^ 2)).

Definition set_both (D : nat -> nat -> R) (i j : nat) (x : R) : nat -> nat -> R :=
  fun a b => if ((a =? i) && (b =? j))%nat || ((a =? j) && (b =? i))%nat then x else D a b.

(** [dictionary.items()] (collections.abc.Mapping over dictionary.py 81-107): pairs of an id and its token. *)
Definition items (dic : dictionary) : list (nat * pystr) := map (fun ti => (snd ti, fst ti)) (d_token2id dic).

(** 914-925 *)
Definition fill_row (m : kvs) (doc2 : list pystr) (its : list (nat * pystr)) (i : nat) (t1 : pystr) (D : nat -> nat -> R) : result (nat -> nat -> R) :=
  rfold (fun D jt =>
           if negb (memb (snd jt) doc2) then Ok D
           else if Req_EM_T (D i (fst jt)) 0 then
             let* v1 := get_normed d m t1 in
             let* v2 := get_normed d m (snd jt) in
             Ok (set_both D i (fst jt) (euclid v1 v2))
           else Ok D) its D.
Definition distance_matrix (m : kvs) (doc1 doc2 : list pystr) (its : list (nat * pystr)) : result (nat -> nat -> R) :=
  rfold (fun D it => if memb (snd it) doc1 then fill_row m doc2 its (fst it) (snd it) D else Ok D) its (fun _ _ => 0).

(** 932-938 *)
Definition nbow (dic : dictionary) (doc : list pystr) : nat -> R :=
  fold_left (fun (v : nat -> R) if_ => fun k => if (k =? fst if_)%nat then INR (snd if_) / INR (length doc) else v k)
    (fst (snd (d_doc2bow dic doc false false))) (fun _ => 0).

Definition wmdistance (m : kvs) (document1 document2 : list pystr) : result wm :=
  let document1 := filter (fun t => dmem (ks_index m) t) document1 in
  let document2 := filter (fun t => dmem (ks_index m) t) document2 in
  match document1, document2 with
  | [], _ => Ok Inf
  | _, [] => Ok Inf
  | _, _ =>
    let* dic := d_add_documents d_empty [document1; document2] (Some 2000000%Z) in
    let vocab_len := d_len dic in
    if (vocab_len =? 1)%nat then Ok (Val 0)
    else
      let* D := distance_matrix m document1 document2 (items dic) in
      if Req_EM_T (sumn vocab_len (fun i => sumn vocab_len (D i))) 0 then Ok Inf
      else Ok (Val (emd vocab_len (nbow dic document1) (nbow dic document2) D))
  end.
End Dim.
