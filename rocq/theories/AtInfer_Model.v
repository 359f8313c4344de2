(** Model of the inference of the author-topic model: /repo/gensim/models/atmodel.py 377-396 ([compute_phinorm]), 398-538
    ([inference]), 1107-1164 ([get_author_topics]).

    Simplifications: real numbers, arrays as functions of their indices, [K] topics and [V] terms, [edir] as in LdaTrain_Model.  Authors
    are given by their rows; which rows a document has is in AtMaps_Model.  [ndocs a] is [len(self.author2doc[self.id2author[a]])].
    An id of [V] or more is an IndexError. *)
From Coq Require Import Reals.
From Verif Require Import Base MatReal_Model LdaTrain_Model.
Local Open Scope R_scope.

(** 467: [np.fromiter(..., dtype=np.int)] cuts off the fraction. *)
Definition trunc (x : R) : R := if Rle_dec 0 x then IZR (Int_part x) else IZR (- Int_part (- x)).
Definition cts (d : doc) : doc := map (fun wc => (fst wc, trunc (snd wc))) d.

(** What the loop keeps for one author of the document: its row, [gammad], [tilde_gamma] and [expElogthetad]. *)
Record slot : Type := Slot { s_author : nat; s_old : nat -> R; s_gamma : nat -> R; s_theta : nat -> R }.

Section At.
Variables K V : nat.
Variable eps : R.
Variable edir : nat -> (nat -> R) -> nat -> R.
Variable ndocs : nat -> nat.

(** 393-396 *)
Definition theta_sum (ss : list slot) (k : nat) : R := Rsum (map (fun s => s_theta s k) ss).
Definition at_phinorm (beta : nat -> nat -> R) (ss : list slot) (w : nat) : R := sumn K (fun k => theta_sum ss k * beta k w) + eps.

Record at_params : Type := AtParams { q_alpha : nat -> R; q_beta : nat -> nat -> R; q_iterations : nat; q_threshold : R; q_rho : R }.
(** 490-496 *)
Definition new_gamma (p : at_params) (d : doc) (ss : list slot) (s : slot) (k : nat) : R :=
  (1 - q_rho p) * s_old s k +
  q_rho p * (q_alpha p k + INR (ndocs (s_author s)) * s_theta s k * Rsum (map (fun wc => snd wc / at_phinorm (q_beta p) ss (fst wc) * q_beta p k (fst wc)) d)).
Definition at_step (p : at_params) (d : doc) (ss : list slot) : list slot :=
  map (fun s => let g := new_gamma p d ss s in Slot (s_author s) (s_old s) g (edir K g)) ss.
(** 507 *)
Definition at_change (p : at_params) (d : doc) (ss : list slot) : R :=
  Rsum (map (fun s => sumn K (fun k => Rabs (new_gamma p d ss s k - s_gamma s k))) ss) / (INR (length ss) * INR K).
(** 484-511 *)
Fixpoint at_iterate (n : nat) (p : at_params) (d : doc) (ss : list slot) : list slot :=
  match n with
  | O => ss
  | S n' => if Rlt_dec (at_change p d ss) (q_threshold p) then at_step p d ss else at_iterate n' p d (at_step p d ss)
  end.
(** 472-511 *)
Definition at_doc (p : at_params) (gamma : nat -> nat -> R) (authors : list nat) (d : doc) : list slot :=
  at_iterate (q_iterations p) p (cts d) (map (fun a => Slot a (gamma a) (gamma a) (edir K (gamma a))) authors).
(** 514: [self.state.gamma[authors_d, :] = tilde_gamma] *)
Definition write_rows (ss : list slot) (gamma : nat -> nat -> R) : nat -> nat -> R :=
  fold_left (fun g s a => if Nat.eqb a (s_author s) then s_gamma s else g a) ss gamma.
(** 522-523 *)
Definition at_scatter (p : at_params) (ss : list slot) (d : doc) (acc : nat -> nat -> R) (k w : nat) : R :=
  match last_count (cts d) w with Some c => acc k w + theta_sum ss k * (c / at_phinorm (q_beta p) ss w) | None => acc k w end.
(** 453-523.  The gamma of the state is left as it is when an exception comes. *)
Fixpoint at_loop (p : at_params) (chunk : list (list nat * doc)) (gamma acc : nat -> nat -> R) : (nat -> nat -> R) * result (list (nat -> R) * (nat -> nat -> R)) :=
  match chunk with
  | [] => (gamma, Ok ([], acc))
  | (authors, d) :: chunk' =>
    if in_vocab V d then
      let ss := at_doc p gamma authors d in
      let (gamma', rest) := at_loop p chunk' (write_rows ss gamma) (at_scatter p ss d acc) in
      (gamma', let* r := rest in Ok (map s_gamma ss ++ fst r, snd r))
    else (gamma, Err IndexError)
  end.
(** 398-538 *)
Definition at_inference (p : at_params) (gamma : nat -> nat -> R) (chunk : list (list nat * doc)) : (nat -> nat -> R) * result (list (nat -> R) * (nat -> nat -> R)) :=
  let (gamma', r) := at_loop p chunk gamma (fun _ _ => 0) in
  (gamma', let* gs := r in Ok (fst gs, fun k w => snd gs k w * q_beta p k w)).

(** 1145-1164 *)
Definition author_topics (gamma : nat -> nat -> R) (author2id : list (list N * nat)) (name : list N) (minimum : R) : result (list (nat * R)) :=
  let* a := of_option KeyError (dget author2id name) in
  let minimum := Rmax minimum (1 / 100000000) in
  Ok (filter (fun kp => if Rle_dec minimum (snd kp) then true else false) (map (fun k => (k, gamma a k / sumn K (gamma a))) (seq 0 K))).
End At.
