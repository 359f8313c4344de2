(** What users expect of a Dictionary, stated without the model's helpers. *)

From Verif Require Import Base Str.

(** The partial map [m] assigns the ids [0 .. n-1], each to exactly one token. *)
Definition dense_ids (m : pystr -> option nat) (n : nat) : Prop :=
  (forall t i, m t = Some i -> i < n) /\
  (forall i, i < n -> exists t, m t = Some i) /\
  (forall t t' i, m t = Some i -> m t' = Some i -> t = t').

(** Number of documents containing token [t]. *)
Definition doc_freq (docs : list (list pystr)) (t : pystr) : nat :=
  length (filter (fun doc => if in_dec eq_dec t doc then true else false) docs).

(** Total number of occurrences of token [t]. *)
Definition coll_freq (docs : list (list pystr)) (t : pystr) : nat :=
  fold_right (fun doc acc => count_occ eq_dec doc t + acc) 0 docs.

(** Total number of tokens. *)
Definition total_positions (docs : list (list pystr)) : nat :=
  fold_right (fun doc acc => length doc + acc) 0 docs.

(** Total number of distinct (document, token) pairs. *)
Definition total_distinct (docs : list (list pystr)) : nat :=
  fold_right (fun doc acc => length (nodup eq_dec doc) + acc) 0 docs.

(** [a] occurs before [b] in the list. *)
Definition precedes {A : Type} (l : list A) (a b : A) : Prop :=
  exists l1 l2 l3, l = l1 ++ a :: l2 ++ b :: l3.

(** The three maps of a dictionary fit together: dict entries are unique, ids
    are distinct, exactly the ids in use have a document frequency, and only
    ids in use have a collection frequency.  (Ids may have gaps.) *)
Definition consistent (token2id : list (pystr * nat)) (dfs cfs : list (nat * nat)) : Prop :=
  NoDup (map fst token2id) /\ NoDup (map snd token2id) /\
  NoDup (map fst dfs) /\ NoDup (map fst cfs) /\
  (forall i, In i (map fst dfs) <-> In i (map snd token2id)) /\
  (forall i, In i (map fst cfs) -> In i (map snd token2id)).

(** A (partially filled) reverse map that only tells the truth. *)
Definition coherent_cache (token2id : list (pystr * nat)) (id2token : list (nat * pystr)) : Prop :=
  NoDup (map fst id2token) /\ (forall i t, In (i, t) id2token -> In (t, i) token2id).

(** Tokens that the tab-separated text format can represent. *)
Definition text_safe (t : pystr) : Prop := ~ In 9%N t /\ ~ In 10%N t.
