(** Model of the similarity queries of /repo/gensim/models/keyedvectors.py over the real numbers: 565-583
    ([most_similar_to_given], [closer_than], [rank]), 946-1020 ([most_similar_cosmul], the scores), 1022-1181
    ([rank_by_centrality], [doesnt_match], [cosine_similarities], [distances], [distance], [similarity], [n_similarity]) and
    1473-1501 ([relative_cosine_similarity]).

    Simplifications: a vector is a function giving its first [d] coordinates; keys are strings; float rounding is left out.
    The quotients numpy would compute as 0/0 are [None] in [distances] (NaN); elsewhere the vectors divided by their norms are
    required to be different from zero where it matters.  Cached norms are up to date (C37 tells when). *)

From Coq Require Import Reals.
From Verif Require Import Base Str MatReal_Model LdaTrain_Model Lsi_Spec.
Local Open Scope R_scope.

Definition vec : Type := nat -> R.
Record kvs : Type := mkKvs { ks_keys : list pystr; ks_index : dict pystr nat; ks_rows : list vec }.

Section Dim.
Variable d : nat.

Definition vnorm (v : vec) : R := sqrt (dotv d v v).

(** matutils.py 735-755: [unitvec] of a dense vector. *)
Definition unitvec (v : vec) : vec := if Rlt_dec 0 (vnorm v) then fun i => 1 / vnorm v * v i else v.

(** 386-433: [get_index], [get_vector] *)
Definition get_index (m : kvs) (k : pystr) : result nat := of_option KeyError (dget (ks_index m) k).
Definition get_vector (m : kvs) (k : pystr) : result vec :=
  let* i := get_index m k in of_option IndexError (nth_error (ks_rows m) i).
Definition normed (v : vec) : vec := fun i => v i / vnorm v.
Definition get_normed (m : kvs) (k : pystr) : result vec := let* v := get_vector m k in Ok (normed v).

(** [array(vs).mean(axis=0)] *)
Definition mean (vs : list vec) : vec := fun i => Rsum (map (fun v : vec => v i) vs) / INR (length vs).

(** 1143-1159, 1124-1141, 1161-1181 *)
Definition similarity (m : kvs) (w1 w2 : pystr) : result R :=
  let* v1 := get_vector m w1 in
  let* v2 := get_vector m w2 in
  Ok (dotv d (unitvec v1) (unitvec v2)).
Definition distance (m : kvs) (w1 w2 : pystr) : result R := let* s := similarity m w1 w2 in Ok (1 - s).
Definition n_similarity (m : kvs) (ws1 ws2 : list pystr) : result R :=
  match ws1, ws2 with
  | [], _ => Err ZeroDivErr
  | _, [] => Err ZeroDivErr
  | _, _ =>
    let* v1 := rmapM (get_vector m) ws1 in
    let* v2 := rmapM (get_vector m) ws2 in
    Ok (dotv d (unitvec (mean v1)) (unitvec (mean v2)))
  end.

(** 1067-1088: [cosine_similarities]; a zero norm gives 0/0. *)
Definition cosine_similarities (v : vec) (vs : list vec) : list (option R) :=
  map (fun u => if Req_EM_T (vnorm v * vnorm u) 0 then None else Some (dotv d u v / (vnorm v * vnorm u))) vs.
(** 1090-1122: [distances] of a key. *)
Definition distances (m : kvs) (w : pystr) (others : list pystr) : result (list (option R)) :=
  let* v := get_vector m w in
  let* vs := match others with
             | [] => Ok (ks_rows m)
             | _ => rmapM (fun k => let* i := get_index m k in of_option IndexError (nth_error (ks_rows m) i)) others
             end in
  Ok (map (option_map (fun s => 1 - s)) (cosine_similarities v vs)).

(** 569-583; [<] with a NaN is false. *)
Definition nan_lt (x y : option R) : bool :=
  match x, y with Some a, Some b => if Rlt_dec a b then true else false | _, _ => false end.
Definition closer_than (m : kvs) (key1 key2 : pystr) : result (list pystr) :=
  let* ds := distances m key1 [] in
  let* e1 := get_index m key1 in
  let* e2 := get_index m key2 in
  let* limit := of_option IndexError (nth_error ds e2) in
  let closer := filter (fun i => nan_lt (nth i ds None) limit) (seq 0 (length ds)) in
  rmapM (fun i => of_option IndexError (nth_error (ks_keys m) i)) (filter (fun i => negb (i =? e1)%nat) closer).
Definition rank (m : kvs) (key1 key2 : pystr) : result nat := let* l := closer_than m key1 key2 in Ok (length l + 1)%nat.

(** 565-567; [argmax] takes the first of the largest. *)
Fixpoint argmax (l : list R) : nat :=
  match l with
  | [] => 0%nat
  | [_] => 0%nat
  | x :: r => let j := argmax r in if Rle_dec (nth j r 0) x then 0%nat else S j
  end.
Definition most_similar_to_given (m : kvs) (key1 : pystr) (keys : list pystr) : result pystr :=
  let* ss := rmapM (similarity m key1) keys in
  match ss with
  | [] => Err ValueError
  | _ => of_option IndexError (nth_error keys (argmax ss))
  end.

(** 1022-1066: [sorted(zip(dists, words), reverse=True)] *)
Definition pair_le (a b : R * pystr) : bool :=
  if Rlt_dec (fst a) (fst b) then true else if Req_EM_T (fst a) (fst b) then str_leb (snd a) (snd b) else false.
Definition rank_by_centrality (m : kvs) (words : list pystr) (use_norm : bool) : result (list (R * pystr)) :=
  let used := filter (fun w => dmem (ks_index m) w) words in
  match used with
  | [] => Err ValueError
  | _ =>
    let* vs := rmapM (if use_norm then get_normed m else get_vector m) used in
    let centre := unitvec (mean vs) in
    Ok (rev (isort pair_le (combine (map (fun v => dotv d v centre) vs) used)))
  end.
Definition doesnt_match (m : kvs) (words : list pystr) : result pystr :=
  let* l := rank_by_centrality m words true in
  match rev l with
  | [] => Err IndexError
  | (_, w) :: _ => Ok w
  end.

(** 733-771: the score [most_similar] gives to a row.  A key without a weight gets 1 if positive and -1 if negative; the weighted
    unit vectors are averaged and the mean is made a unit vector. *)
Definition weights (positive negative : list (vec * option R)) : list (vec * R) :=
  map (fun kw => (fst kw, match snd kw with Some w => w | None => 1 end)) positive ++
  map (fun kw => (fst kw, match snd kw with Some w => w | None => -1 end)) negative.
Definition similar_score (positive negative : list (vec * option R)) (row : vec) : R :=
  let terms := map (fun kw => fun i => snd kw * normed (fst kw) i) (weights positive negative) in
  dotv d row (unitvec (mean terms)) / vnorm row.

(** 998-1010: [most_similar_cosmul], the score of a row. *)
Definition Rprod (l : list R) : R := fold_right Rmult 1 l.
Definition shifted (term row : vec) : R := (1 + dotv d row term / vnorm row) / 2.
Definition cosmul_score (positive negative : list vec) (row : vec) : R :=
  let pos_dists := map (fun t => shifted t row) (map normed positive) in
  let neg_dists := map (fun t => shifted t row) (map normed negative) in
  Rprod pos_dists / (Rprod neg_dists + 1 / 1000000).

(** 1473-1501; [sims] is the list [similar_by_word(wa, topn)]. *)
Definition relative_cosine_similarity (m : kvs) (sims : list (pystr * R)) (wa wb : pystr) : result R :=
  match sims with
  | [] => Err AssertionErr
  | _ => let* s := similarity m wa wb in Ok (s / Rsum (map snd sims))
  end.
End Dim.
