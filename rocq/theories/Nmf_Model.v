(** Model of online non-negative matrix factorization: /repo/gensim/models/nmf_pgd.pyx 18-61 (`solve_h`), /repo/gensim/models/nmf.py
    213-233 (`get_topics`), 333-360 (`get_topic_terms`), 417-461 (`get_term_topics`), 463-510 (`get_document_topics`), 512-531 (`_setup`),
    543-659 (`update`), 661-686 (`_solve_w`), 709-714 (`_transform`), 723-770 (`_solveproj`).

    Simplifications: real numbers (no rounding).  A matrix is a function of its row and its column, as in Lsi_Model; a document is a
    column of [m] weights that are not negative.  Numbers that are no number (a division of zero by zero) are kept apart: [None] in place
    of a number, [NaN] in place of the matrix W, which then consists of nothing else.  Random permutations and the random start of W
    are arguments.  The two ways of giving a corpus (a matrix, a stream of documents) are not told apart.  Logging and the
    evaluation are left out. *)
From Coq Require Import Reals.
From Verif Require Import Base MatReal_Model Utils_Model LdaTrain_Model Lsi_Model.
Local Open Scope R_scope.

(** ** nmf_pgd.pyx *)
Definition gram_w (m : nat) (W : mat) : mat := fun k l => sumn m (fun i => W i k * W i l).
Definition wtv (m : nat) (W : mat) (v : col) : col := fun k => sumn m (fun i => W i k * v i).
Definition upd (h : col) (k : nat) (x : R) : col := fun l => if (l =? k)%nat then x else h l.
Definition grad (m K : nat) (W : mat) (v h : col) (k : nat) : R := - wtv m W v k + sumn K (fun l => gram_w m W k l * h l).
(** 43-59: one component of one document.  Without a word in topic [k] the gradient is 0 / 0, and [fmax] of that and 0 is 0. *)
Definition coord (m K : nat) (kappa : R) (W : mat) (v : col) (s : col * option R) (k : nat) : col * option R :=
  let (h, violation) := s in
  let hessian := gram_w m W k k in
  if Req_EM_T hessian 0 then (upd h k 0, None)
  else
    let g := grad m K W v h k * kappa / hessian in
    let projected := if Req_EM_T (h k) 0 then Rmin 0 g else g in
    (upd h k (Rmax (h k - g) 0), option_map (fun x => x + projected * projected) violation).
Definition sweep (m K : nat) (kappa : R) (W : mat) (perm : list nat) (v h : col) : col * option R :=
  fold_left (coord m K kappa W v) perm (h, Some 0).
Definition oadd (a b : option R) : option R := match a, b with Some x, Some y => Some (x + y) | _, _ => None end.
(** 40-61: the documents of a batch and their columns of h *)
Definition solve_h (m K : nat) (kappa : R) (W : mat) (perm : list nat) (vs hs : list col) : list col * option R :=
  let rs := map (fun vh => sweep m K kappa W perm (fst vh) (snd vh)) (combine vs hs) in
  (map fst rs, option_map sqrt (fold_left oadd (map snd rs) (Some 0))).

(** ** nmf.py *)
(** 752-770; one permutation for each iteration; [h_error] None: not set, or no number *)
Definition h_stops (stop : R) (h_error e : option R) : bool :=
  match h_error, e with
  | Some a, Some b => if Req_EM_T a 0 then false else if Rlt_dec (Rabs (a - b)) stop then true else false
  | _, _ => false
  end.
Fixpoint iter_h (m K : nat) (kappa stop : R) (W : mat) (vs : list col) (perms : list (list nat)) (h_error : option R) (hs : list col) : list col :=
  match perms with
  | [] => hs
  | p :: rest =>
    let r := solve_h m K kappa W p vs hs in
    let e := option_map (fun x => x / INR m) (snd r) in
    if h_stops stop h_error e then fst r else iter_h m K kappa stop W vs rest e (fst r)
  end.
Definition zeros (n : nat) : list col := repeat (fun _ => 0) n.
(** 746-749 *)
Definition start_h (n : nat) (h : option (list col)) : list col :=
  match h with Some hs => if (length hs =? n)%nat then hs else zeros n | None => zeros n end.

(** [self.v_max] *)
Inductive bound : Type := Unset | Infinite | Max (x : R).
(** 739-742 *)
Definition largest (m : nat) (vs : list col) : R := fold_right Rmax 0 (flat_map (fun v => map v (seq 0 m)) vs).
Definition bound_after (m : nat) (vs : list col) (old : bound) : bound := match old with Unset => Max (largest m vs) | b => b end.

(** 711-714 *)
Definition clip (b : bound) (x : R) : R := match b with Max y => Rmin (Rmax x 0) y | _ => Rmax x 0 end.
Definition transform (m : nat) (b : bound) (W : mat) : mat :=
  fun i k => clip b (W i k) / Rmax (sqrt (sumn m (fun j => clip b (W j k) ^ 2))) 1.
(** 664-666 *)
Definition w_error (m K : nat) (A B W : mat) : R :=
  1 / 2 * sumn m (fun i => sumn K (fun k => mmul K W A i k * W i k)) - sumn m (fun i => sumn K (fun k => W i k * B i k)).
(** 668: np.linalg.norm *)
Definition frobenius (K : nat) (A : mat) : R := sqrt (sumn K (fun i => sumn K (fun j => A i j ^ 2))).
(** 685-686 *)
Definition w_step (m K : nat) (b : bound) (eta : R) (A B W : mat) : mat := transform m b (fun i k => W i k - eta * (mmul K W A i k - B i k)).
Definition w_stops (stop : R) (old : option R) (e : R) : bool :=
  match old with
  | Some w => if Req_EM_T w 0 then false else if Rlt_dec (Rabs ((e - w) / w)) stop then true else false
  | None => false
  end.
Inductive wmat : Type := NoW | NaN | Mat (W : mat).
(** 668-686; [old]: the error, None if infinite or no number *)
Fixpoint iter_w (m K : nat) (b : bound) (eta stop : R) (A B : mat) (n : nat) (W : mat) (old : option R) : mat * option R :=
  match n with
  | O => (W, old)
  | S n' => let e := w_error m K A B W in if w_stops stop old e then (W, old) else iter_w m K b eta stop A B n' (w_step m K b eta A B W) (Some e)
  end.
Definition solve_w (m K : nat) (b : bound) (kappa stop : R) (A B : mat) (n : nat) (W : mat) (old : option R) : wmat * option R :=
  if Req_EM_T (frobenius K A) 0 then
    (* eta is infinite, and W * A - B is zero *)
    match n with
    | O => (Mat W, old)
    | S _ => if w_stops stop old (w_error m K A B W) then (Mat W, old) else (NaN, None)
    end
  else let r := iter_w m K b (kappa / frobenius K A) stop A B n W old in (Mat (fst r), snd r).

Record params : Type := mkParams { kappa : R; h_stop : R; w_stop : R; w_iter : nat; chunksize : nat; own_passes : nat }.
Record nmf : Type := mkNmf { n_W : wmat; n_A : mat; n_B : mat; v_max : bound; n_error : option R; n_h : option (list col) }.
Definition new_nmf : nmf := mkNmf NoW mzero mzero Unset None None.

(** 520-529: the start of W; [noise] is not negative *)
Definition start_w (m K : nat) (vs : list col) (noise : mat) : mat :=
  fun i k => Rabs (sqrt (Rsum (map (sumn m) vs) / (INR m * INR (length vs)) / (INR m * INR K)) * noise i k).
(** 645-651 *)
Definition outer_h (hs : list col) : mat := fun k l => Rsum (map (fun h : col => h k * h l) hs).
Definition cross (vs hs : list col) : mat := fun i k => Rsum (map (fun vh : col * col => fst vh i * snd vh k) (combine vs hs)).
Definition running (t : nat) (M add : mat) : mat := fun i j => (INR (t - 1) * M i j + add i j) / INR t.

(** 634-657: one batch, the number [t] of it, its permutations *)
Definition batch (m K : nat) (p : params) (noise : mat) (t : nat) (s : nmf) (vs : list col) (perms : list (list nat)) : nmf :=
  let W := match n_W s with NoW => Mat (start_w m K vs noise) | w => w end in
  let b := bound_after m vs (v_max s) in
  let hs := match W with
            | Mat W' => iter_h m K (kappa p) (h_stop p) W' vs perms None (start_h (length vs) (n_h s))
            | _ => match perms with [] => start_h (length vs) (n_h s) | _ => zeros (length vs) end
            end in
  let A := running t (n_A s) (outer_h hs) in
  let B := running t (n_B s) (cross vs hs) in
  match W with
  | Mat W' => let r := solve_w m K b (kappa p) (w_stop p) A B (w_iter p) W' (n_error s) in mkNmf (fst r) A B b (snd r) (Some hs)
  | _ => mkNmf NaN A B b None (Some hs)
  end.

(** What is random: the order of the documents of batch [t] (positions), and its permutations of the topics. *)
Record chance : Type := mkChance { shuffled : nat -> list nat; topic_perms : nat -> list (list nat) }.
Definition pick_docs (chunk : list col) (order : list nat) : list col := map (fun j => nth j chunk (fun _ => 0)) order.
Fixpoint batches (m K : nat) (p : params) (noise : mat) (c : chance) (t : nat) (chunks : list (list col)) (s : nmf) : nmf :=
  match chunks with
  | [] => s
  | chunk :: rest => batches m K p noise c (S t) rest (batch m K p noise t s (pick_docs chunk (shuffled c t)) (topic_perms c t))
  end.
(** 577-657; [one_shot]: the corpus is an iterator, which has no length and is empty after the first pass.  The argument [chunksize]
    is used for the messages only. *)
Definition all_chunks (p : params) (one_shot : bool) (arg_chunksize : option nat) (passes : nat) (docs : list col) : list (list col) :=
  concat (map (fun pass => chunkize_serial (if one_shot && negb (pass =? 0)%nat then [] else docs) (chunksize p)) (seq 0 passes)).
Definition update (m K : nat) (p : params) (noise : mat) (c : chance) (one_shot : bool) (arg_chunksize arg_passes : option nat) (docs : list col) (s : nmf) : result nmf :=
  let passes := match arg_passes with Some n => n | None => own_passes p end in
  if negb one_shot && (length docs =? 0)%nat then Ok s
  else if one_shot && (1 <? own_passes p)%nat then Err ValueError
  else Ok (batches m K p noise c 1 (all_chunks p one_shot arg_chunksize passes docs) s).

(** ** Queries *)
(** 225-233 *)
Definition get_topics (m : nat) (normalize : bool) (W : mat) : mat := fun k i => if normalize then W i k / sumn m (fun j => W j k) else W i k.
(** 351-360: [topic] is a view of W; the weights, and W afterwards (the choice of the best is left out) *)
Definition get_topic_terms (m : nat) (normalize : bool) (W : mat) (topicid : nat) : list R * mat :=
  let W' : mat := if normalize then fun i k => if (k =? topicid)%nat then W i k / sumn m (fun j => W j topicid) else W i k else W in
  (map (fun i => W' i topicid) (seq 0 m), W').
(** 443-461 *)
Definition get_term_topics (K : nat) (normalize : bool) (minimum : R) (W : mat) (word : nat) : list (nat * R) * mat :=
  let total := sumn K (W word) in
  let W' : mat := if normalize then (if Rlt_dec 0 total then fun i k => if (i =? word)%nat then W i k / total else W i k else W) else W in
  (filter (fun kw => if Rle_dec (Rmax minimum (1 / 100000000)) (snd kw) then true else false) (map (fun k => (k, W' word k)) (seq 0 K)), W').
(** 482-510: one document; [v_max] becomes infinite *)
Definition get_document_topics (m K : nat) (p : params) (normalize : bool) (minimum : R) (perms : list (list nat)) (W : mat) (s : nmf) (v : col) : list (nat * R) * nmf :=
  let h := hd (fun _ => 0) (iter_h m K (kappa p) (h_stop p) W [v] perms None (zeros 1)) in
  let total := sumn K h in
  let h' k := if normalize then (if Req_EM_T total 0 then h k else h k / total) else h k in
  (filter (fun kw => if Rlt_dec (Rmax minimum (1 / 100000000)) (snd kw) then true else false) (map (fun k => (k, h' k)) (seq 0 K)),
   mkNmf (n_W s) (n_A s) (n_B s) Infinite (n_error s) (n_h s)).
