(** What a term similarity matrix should be. *)
From Verif Require Import Base Str TermSim_Model.
From Coq Require Import QArith Qabs.
Open Scope nat_scope.

Fixpoint Qsum (l : list Q) : Q := match l with [] => 0 | x :: l => x + Qsum l end%Q.
(** The entry in row [r] and column [k]: duplicates add up. *)
Definition entry (ts : list triplet) (r k : nat) : Q :=
  Qsum (map t_val (filter (fun t => (t_row t =? r) && (t_col t =? k)) ts)).
(** The entries of column [k] off the diagonal. *)
Definition off (ts : list triplet) (k : nat) : list triplet := filter (fun t => (t_col t =? k) && negb (t_row t =? k)) ts.
(** The dictionary numbers its terms 0, 1, ..., and the tf-idf model, if any, knows exactly these. *)
Definition good_dictionary (c : config) : Prop :=
  NoDup (dkeys (c_token2id c)) /\ Permutation (dvals (c_token2id c)) (seq 0 (n_terms c)) /\ 0 < n_terms c.
Definition good_idfs (c : config) : Prop :=
  match c_idfs c with None => True | Some idfs => Permutation (dkeys idfs) (seq 0 (n_terms c)) end.
(** The index answers with terms distinct from each other and from the one asked for. *)
Definition good_index (c : config) : Prop := forall term n, NoDup (map fst (c_index c term n)) /\ ~ In term (map fst (c_index c term n)).
(** The index gave similarity [v] for term number [r] when asked about term number [k]. *)
Definition answered (c : config) (k r : nat) (v : Q) : Prop :=
  exists term term' n, dget (c_token2id c) term = Some k /\ dget (c_token2id c) term' = Some r /\ In (term', v) (c_index c term n).
(** x^T M y *)
Definition form (ts : list triplet) (x y : nat -> Q) : Q := Qsum (map (fun t => t_val t * x (t_row t) * y (t_col t))%Q ts).
