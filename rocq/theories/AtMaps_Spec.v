(** Who wrote what. *)
From Verif Require Import Base Str.

Definition wrote (author2doc : list (pystr * list nat)) (a : pystr) (d : nat) : Prop := exists ds, In (a, ds) author2doc /\ In d ds.
Definition written_by (doc2author : list (nat * list pystr)) (d : nat) (a : pystr) : Prop := exists l, In (d, l) doc2author /\ In a l.
(** The two maps tell the same, over documents from [lo] up to [hi], and every author has a document. *)
Record maps_agree (author2doc : list (pystr * list nat)) (doc2author : list (nat * list pystr)) (lo hi : nat) : Prop := {
  ma_akeys : NoDup (map fst author2doc);
  ma_dkeys : NoDup (map fst doc2author);
  ma_same : forall a d, wrote author2doc a d <-> written_by doc2author d a;
  ma_range : forall d, In d (map fst doc2author) -> lo <= d < hi;
  ma_docs : forall a ds, In (a, ds) author2doc -> ds <> [] }.
(** Names and numbers [0 .. n-1] of authors correspond to each other. *)
Record numbering (author2id : list (pystr * nat)) (id2author : list (nat * pystr)) (n : nat) : Prop := {
  nu_akeys : NoDup (map fst author2id);
  nu_ikeys : NoDup (map fst id2author);
  nu_inv : forall a i, In (a, i) author2id <-> In (i, a) id2author;
  nu_dense : forall i, i < n <-> In i (map fst id2author) }.
