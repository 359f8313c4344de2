(** * What the occurrence accumulators should count. *)
From Coq Require Import List Bool Arith.
From Verif Require Import Base.

Definition at_pos {A : Type} `{EqDec A} (t : list A) (p : nat) (x : A) : bool :=
  match nth_error t p with Some y => eqb y x | None => false end.

(** The start positions of the windows of a text of [len] words. *)
Definition slots (w len : nat) : list nat :=
  if len <? w then [0] else seq 0 (S (len - w)).

(** [x] is in the window of [w] words that starts at [k]. *)
Definition inside {A : Type} `{EqDec A} (w : nat) (t : list A) (k : nat) (x : A) : bool :=
  existsb (fun p => at_pos t p x) (seq k w).

(** [x] is at a place [p] of the window, and every place of [x] before the
    window is [w] or more words before [p]. *)
Definition seen {A : Type} `{EqDec A} (w : nat) (t : list A) (k : nat) (x : A) : bool :=
  existsb (fun p => at_pos t p x &&
    forallb (fun q => negb (at_pos t q x) || (q + w <=? p)) (seq 0 k)) (seq k w).

(** The number of windows of the texts with the property [f]. *)
Definition total {A : Type} (w : nat) (f : list A -> nat -> bool) (texts : list (list A)) : nat :=
  list_sum_nat (map (fun t => length (filter (f t) (slots w (length t)))) texts).

(** No word for which [r] holds occurs twice within [w] consecutive words. *)
Definition spread {A : Type} (w : nat) (r : A -> Prop) (t : list A) : Prop :=
  forall p q x, r x -> nth_error t p = Some x -> nth_error t q = Some x -> p < q -> p + w <= q.
