(** Model of gensim/similarities/termsim.py 170-288: [_create_source], the greedy construction of a sparse term similarity
    matrix.  Floats are rationals (rounding, infinities and NaN are not modelled).  The dictionary is its [token2id]; the index is
    a function from term and [topn] to the answers in order.  The answer is the list of triplets (row, column, value) given to
    [coo_matrix], whose duplicates are added up by [tocsc]. *)

From Verif Require Import Base Str.
From Coq Require Import QArith Qabs.
Open Scope nat_scope.

Inductive dtype : Type := F16 | F32 | F64 | OtherDtype.
Definition triplet : Type := nat * nat * Q.
Definition t_row (t : triplet) : nat := fst (fst t).
Definition t_col (t : triplet) : nat := snd (fst t).
Definition t_val (t : triplet) : Q := snd t.

Record config : Type := mkConfig {
  c_index : pystr -> nat -> list (pystr * Q);
  c_token2id : dict pystr nat;
  c_idfs : option (dict nat Q);           (* tfidf.idfs *)
  c_symmetric : bool;
  c_dominant : bool;
  c_limit : option Z;                     (* nonzero_limit *)
  c_dtype : dtype
}.
Record state : Type := mkState {
  s_triplets : list triplet;              (* row_buffer, column_buffer, data_buffer *)
  s_nonzero : nat -> nat;                 (* column_nonzero *)
  s_sum : nat -> Q;                       (* column_sum *)
  s_assigned : list (nat * nat)           (* assigned_cells *)
}.
Definition fset {V} (f : nat -> V) (i : nat) (v : V) : nat -> V := fun j => if Nat.eqb j i then v else f j.
(** 181, 186-187 *)
Definition n_terms (c : config) : nat := length (c_token2id c).
Definition limit (c : config) : Z := match c_limit c with None => Z.of_nat (n_terms c) | Some l => l end.
(** 189-193: [tfidf_sort_key]; 196, 200: comparison of the keys. *)
Definition key_le (a b : Q * nat) : bool := if Qlt_le_dec (fst a) (fst b) then true else if Qeq_dec (fst a) (fst b) then snd a <=? snd b else false.
Definition sort_by_idf {A} (idfs : dict nat Q) (id : A -> nat) (l : list A) : result (list A) :=
  let* keyed := rmapM (fun x => let* idf := of_option KeyError (dget idfs (id x)) in Ok (Qopp idf, id x, x)) l in
  Ok (map snd (isort (fun a b => key_le (fst a) (fst b)) keyed)).
(** 195-201 *)
Definition columns (c : config) : result (list nat) :=
  match c_idfs c with
  | None => Ok (isort Nat.leb (dvals (c_token2id c)))
  | Some idfs =>
    match dkeys idfs with
    | [] => Err ValueError
    | k :: ks => if fold_left Nat.max ks k =? n_terms c - 1 then sort_by_idf idfs (fun i => i) (dkeys idfs) else Err AssertionErr
    end
  end.
(** 221-229: [cell_full] *)
Definition cell_full (c : config) (s : state) (t1 t2 : nat) (similarity : Q) : result bool :=
  if n_terms c <=? t1 then Err IndexError
  else if c_dominant c && Qle_bool 1 (s_sum s t1 + Qabs similarity) then Ok true
  else if (limit c <? Z.of_nat (s_nonzero s t1))%Z then Err AssertionErr
  else if (Z.of_nat (s_nonzero s t1) =? limit c)%Z then Ok true
  else Ok (c_symmetric c && memb (t1, t2) (s_assigned s)).
(** 231-239: [populate_buffers] *)
Definition populate (c : config) (s : state) (t1 t2 : nat) (similarity : Q) : state :=
  mkState (s_triplets s ++ [(t2, t1, similarity)]) (fset (s_nonzero s) t1 (s_nonzero s t1 + 1))
          (if c_dominant c then fset (s_sum s) t1 (s_sum s t1 + Qabs similarity)%Q else s_sum s)
          (if c_symmetric c then (t1, t2) :: s_assigned s else s_assigned s).
(** 271-278 *)
Definition add_row (c : config) (t1 : nat) (s : state) (row : nat * Q) : result state :=
  let '(t2, similarity) := row in
  let* full := cell_full c s t1 t2 similarity in
  if full then Ok s
  else if negb (c_symmetric c) then Ok (populate c s t1 t2 similarity)
  else let* full := cell_full c s t2 t1 similarity in
       if full then Ok s else Ok (populate c (populate c s t1 t2 similarity) t2 t1 similarity).
(** 257-269: the rows to be considered for a column, in order. *)
Definition row_le (a b : nat * Q) : bool :=
  if fst a <? fst b then true else if fst b <? fst a then false else Qle_bool (snd a) (snd b).
Definition answers (c : config) (term : pystr) (num_rows : Z) : list (nat * Q) :=
  if (0 <? num_rows)%Z
  then flat_map (fun ts => match dget (c_token2id c) (fst ts) with Some i => [(i, snd ts)] | None => [] end) (c_index c term (Z.to_nat num_rows))
  else [].
Definition rows (c : config) (found : list (nat * Q)) : result (list (nat * Q)) :=
  match c_idfs c with None => Ok (isort row_le found) | Some idfs => sort_by_idf idfs fst found end.
(** 247-278: one column; [dictionary[t1_index]] looks the id up in [id2token], the reverse of [token2id]. *)
Definition id2token (c : config) : dict nat pystr := dict_of (map (fun ti => (snd ti, fst ti)) (c_token2id c)).
Definition add_column (c : config) (s : state) (nt : nat * nat) : result state :=
  let '(column_number, t1) := nt in
  let s := mkState (s_triplets s ++ [(column_number, column_number, 1%Q)]) (s_nonzero s) (s_sum s) (s_assigned s) in
  if (limit c <=? 0)%Z then Ok s
  else
    let* term := of_option KeyError (dget (id2token c) t1) in
    if n_terms c <=? t1 then Err IndexError
    else
      let* rs := rows c (answers c term (limit c - Z.of_nat (s_nonzero s t1))) in
      rfold (add_row c t1) rs s.
(** 181-284; the buffer of float16 has four bytes per entry and is read back as two-byte entries. *)
Definition create_source (c : config) : result (list triplet) :=
  if n_terms c =? 0 then Err ValueError
  else
    let* cols := columns c in
    match c_dtype c with
    | OtherDtype => Err ValueError
    | _ =>
      let* s := rfold (add_column c) (combine (seq 0 (length cols)) cols) (mkState [] (fun _ => 0) (fun _ => 0%Q) []) in
      match c_dtype c with
      | F16 => Err ValueError
      | _ => if forallb (fun t => (t_row t <? n_terms c) && (t_col t <? n_terms c)) (s_triplets s) then Ok (s_triplets s) else Err ValueError
      end
    end.
(** 88-95: [UniformTermSimilarityIndex]; the dictionary's items sorted by id. *)
Definition uniform_index (token2id : dict pystr nat) (similarity : Q) (t1 : pystr) (topn : nat) : list (pystr * Q) :=
  let items := isort (fun a b : nat * pystr => fst a <=? fst b) (map (fun ti => (snd ti, fst ti)) token2id) in
  firstn topn (map (fun it => (snd it, similarity)) (filter (fun it => negb (Base.eqb (snd it) t1)) items)).
