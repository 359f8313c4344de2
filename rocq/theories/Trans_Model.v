(** Model of /repo/gensim/models/translation_matrix.py 109-163 (class `Space`), 221-356 (`TranslationMatrix.train`, `apply_transmat`, `translate`), and of what
    /repo/gensim/similarities/annoy.py 186-188 and /repo/gensim/similarities/nmslib.py 230-232 (`most_similar`) return.

    Simplifications: real numbers; a vector is a function of its coordinates, the dimensions [d1], [d2] of the two languages are arguments.  A `KeyedVectors`
    is the list of its keys, each once, with their vectors.  Python's order of a set is the argument [order], `np.linalg.lstsq` the argument [lstsq], `np.argsort`
    (not stable) the argument [argsort], the draws of `random_state.choice` the argument [draw].  A vector of zeros gives nan in the code: the theorems that
    need it exclude it.  `BackMappingTranslationMatrix`, saving and warnings are left out. *)
From Coq Require Import Reals.
From Verif Require Import Base Str LdaTrain_Model SoftCosine_Model.
Local Open Scope R_scope.

Definition vec : Type := nat -> R.
Definition vectors : Type := list (pystr * vec).
(** lang_vec.vectors[lang_vec.get_index(item)] *)
Definition vector_of (kv : vectors) (w : pystr) : result vec := match dget kv w with Some v => Ok v | None => Err KeyError end.

(** ** Space, 109-163 *)
Record space : Type := mkSpace { sp_mat : list vec; sp_words : list pystr }.
Definition word2index (s : space) : dict pystr nat := dict_of (combine (sp_words s) (seq 0 (length (sp_words s)))).
Definition build (kv : vectors) (lexicon : option (list pystr)) : result space :=
  let words := match lexicon with Some l => l | None => dkeys kv end in
  let* rows := rmapM (vector_of kv) words in
  Ok (mkSpace rows words).
Definition inner (d : nat) (x y : vec) : R := sumn d (fun i => x i * y i).
Definition unit (d : nat) (x : vec) : vec := fun i => x i / sqrt (inner d x x).
(** 163: without rows there is no axis 1 *)
Definition normalize (d : nat) (s : space) : result space :=
  match sp_mat s with [] => Err ValueError | _ => Ok (mkSpace (map (unit d) (sp_mat s)) (sp_words s)) end.
Definition row_of (s : space) (w : pystr) : result vec :=
  match dget (word2index s) w with
  | None => Err KeyError
  | Some i => match nth_error (sp_mat s) i with Some v => Ok v | None => Err IndexError end
  end.

Section Trans.
Variables d1 d2 : nat.
Variable order : list pystr -> list pystr.
Variable argsort : list R -> list nat.

(** train, 230-242 *)
Definition train (lstsq : list vec -> list vec -> mat) (src tgt : vectors) (pairs : list (pystr * pystr)) : result mat :=
  match pairs with
  | [] => Err ValueError
  | _ =>
      let source_word := map fst pairs in
      let target_word := map snd pairs in
      let* s := build src (Some (order source_word)) in
      let* t := build tgt (Some (order target_word)) in
      let* s := normalize d1 s in
      let* t := normalize d2 t in
      let* m1 := rmapM (row_of s) source_word in
      let* m2 := rmapM (row_of t) target_word in
      Ok (lstsq m1 m2)
  end.

(** apply_transmat, 263 *)
Definition map_vec (W : mat) (x : vec) : vec := fun j => sumn d1 (fun i => x i * W i j).
Definition apply_transmat (W : mat) (s : space) : space := mkSpace (map (map_vec W) (sp_mat s)) (sp_words s).

(** 311-321: the words of the source space with globally corrected retrieval *)
Definition gc_lexicon (src : vectors) (words : list pystr) (sample_num : option Z) (draw : nat -> nat) : result (list pystr) :=
  match sample_num with
  | None => Err RuntimeErr
  | Some n =>
      let addition := Z.min n (Z.of_nat (length (dkeys src)) - Z.of_nat (length words)) in
      if (addition <? 0)%Z then Err ValueError else
      let others := order (filter (fun w => negb (memb w words)) (dkeys src)) in
      let lexicon := map (fun i => nth (draw i mod length others) others []) (seq 0 (Z.to_nat addition)) in
      Ok (order (words ++ lexicon))
  end.
(** 334: one row for each target word *)
Definition sim_matrix (t s : space) : list (list R) := map (fun y => map (fun x => - inner d2 y x) (sp_mat s)) (sp_mat t).
Definition column (c : nat) (m : list (list R)) : list R := map (fun row => nth c row 0) m.
(** 338: np.argsort(np.argsort(row)) + row *)
Definition corrected (row : list R) : list R :=
  map (fun rs => INR (fst rs) + snd rs) (combine (argsort (map INR (argsort row))) row).
(** translate, 294-356; [gc]: the number of samples and the draws *)
Definition pick_words (t : space) (idx : list nat) (topn : nat) : result (list pystr) :=
  rmapM (fun j => match nth_error idx j with None => Err IndexError | Some i => match nth_error (sp_words t) i with Some w => Ok w | None => Err IndexError end end) (seq 0 topn).
Definition translate (W : mat) (src tgt : vectors) (words : list pystr) (topn : nat) (gc : bool) (sample_num : option Z) (draw : nat -> nat) : result (dict pystr (list pystr)) :=
  let* lexicon := if gc then gc_lexicon src words sample_num draw else Ok words in
  let* s := build src (Some lexicon) in
  let* t := build tgt None in
  let* s := normalize d1 s in
  let* t := normalize d2 t in
  let m := apply_transmat W s in
  let sims := sim_matrix t m in
  let keys := if gc then map corrected sims else sims in
  let* l := rmapM (fun w => match dget (word2index s) w with
                            | None => Err KeyError
                            | Some c => let* ws := pick_words t (argsort (column c keys)) topn in Ok (w, ws)
                            end) words in
  Ok (dict_of l).
End Trans.

(** ** Approximate indexers: the neighbours with their distances are what the library returns *)
(** annoy.py, 186-188 *)
Definition annoy_similar (labels : list pystr) (nns : list (nat * R)) : result (list (pystr * R)) :=
  rmapM (fun n => match nth_error labels (fst n) with Some w => Ok (w, 1 - snd n / 2) | None => Err IndexError end) nns.
(** nmslib.py, 230-232 *)
Definition nmslib_similar (labels : list pystr) (nns : list (nat * R)) : result (list (pystr * R)) :=
  rmapM (fun n => match nth_error labels (fst n) with Some w => Ok (w, 1 - snd n) | None => Err IndexError end) nns.
