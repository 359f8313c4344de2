(** Edit distance and similarity, stated without the recursion. *)
From Verif Require Import Base Str.
From Coq Require Import Reals.

(** One edit: a character inserted, deleted or replaced somewhere. *)
Inductive edit : pystr -> pystr -> Prop :=
| e_ins : forall u c v, edit (u ++ v) (u ++ c :: v)
| e_del : forall u c v, edit (u ++ c :: v) (u ++ v)
| e_sub : forall u c d v, edit (u ++ c :: v) (u ++ d :: v).
Inductive edits : nat -> pystr -> pystr -> Prop :=
| es_nil : forall a, edits 0 a a
| es_cons : forall n a b c, edits n a b -> edit b c -> edits (S n) a c.

(** The similarity of Charlet and Damnati (2017), for terms at distance [d] that are not both empty. *)
Definition similarity (alpha beta : R) (d n : nat) : R :=
  (if (d =? n)%nat then 0 else alpha * Rpower (1 - INR d / INR n) beta)%R.
