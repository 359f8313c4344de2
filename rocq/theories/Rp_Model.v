(** Model of /repo/gensim/models/rpmodel.py: [RpModel] 48-165, over the reals (float32 rounding is not modelled, so [isfinite] always holds).
    The random draws (0 or 1) of [np.random.binomial] are an argument. *)
From Coq Require Import Reals.
From Verif Require Import Base Utils_Model MatReal_Model Matutils_Model.
Local Open Scope R_scope.

Record rp : Type := mkRp { r_topics : nat; r_terms : nat; r_projection : list (list R) }.
(** 84-92; [None]: no mapping given; otherwise the keys of the mapping *)
Definition num_terms (id2word : option (list Z)) (corpus : list rbow) : Z :=
  match id2word with
  | None => dict_from_corpus corpus
  | Some [] => 0
  | Some (k :: ks) => (1 + fold_left Z.max ks k)%Z
  end.
(** 94-105: [1 - 2 * np.random.binomial(1, 0.5, shape)] *)
Definition projection (draws : list (list nat)) : list (list R) := map (map (fun b => 1 - 2 * INR b)) draws.
Definition new_rp (id2word : option (list Z)) (corpus : list rbow) (topics : nat) (draws : list (list nat)) : rp :=
  mkRp topics (Z.to_nat (num_terms id2word corpus)) (projection draws).
(** matutils.py 370-399: [sparse2full], as in Matutils_Model.v, over the reals *)
Definition full_of (doc : rbow) (n : nat) : result (list R) :=
  let d := dict_of doc in
  let* idx := rmapM (np_index n) (dkeys d) in
  Ok (fold_left (fun r iv => list_set r (fst iv) (snd iv)) (combine idx (dvals d)) (repeat 0 n)).
Definition rdot (row v : list R) : R := Rsum (map (fun p => fst p * snd p) (combine row v)).
(** [not np.allclose(v, 0.0)] *)
Definition tiny : R := 1 / 100000000.
Definition visible (v : R) : bool := if Rle_dec (Rabs v) tiny then false else true.
(** __getitem__ of one document, 107-152 *)
Definition rp_get (m : rp) (bow : rbow) : result (list (nat * R)) :=
  let* full := full_of bow (r_terms m) in
  let vec := map (fun x => x / sqrt (INR (r_topics m))) full in
  let topic_dist := map (fun row => rdot row vec) (r_projection m) in
  Ok (filter (fun tv => visible (snd tv)) (combine (seq 0 (length topic_dist)) topic_dist)).
