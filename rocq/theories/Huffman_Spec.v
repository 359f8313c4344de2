(** Specification of Huffman codes (property C41). *)

From Coq Require Import Permutation.
From Verif Require Import Base Huffman_Model.
Local Open Scope nat_scope.

(** Contract of [heapq]: on lists it has itself arranged ([ok]), the item popped is one of the smallest; which one of equal
    items is not specified. *)
Definition heap_contract (Q : heapq) : Prop :=
  exists ok : list item -> Prop,
    (forall l, ok (heapify Q l) /\ Permutation (heapify Q l) l) /\
    (forall h x, ok h -> ok (heappush Q h x) /\ Permutation (heappush Q h x) (x :: h)) /\
    (forall h, ok h -> h <> [] -> exists x h', heappop Q h = Ok (x, h') /\ ok h' /\ Permutation h (x :: h') /\
                                               Forall (fun y => count x <= count y) h').

(** No code is the beginning of another one. *)
Definition prefix_free (codes : list (list bool)) : Prop :=
  forall i j c c', nth_error codes i = Some c -> nth_error codes j = Some c' -> (exists s, c' = c ++ s) -> i = j.

Fixpoint sum (l : list nat) : nat := match l with [] => 0 | x :: r => x + sum r end.
(** The Kraft sum, scaled by [2^M] for any [M] at least the longest length. *)
Definition kraft (M : nat) (lengths : list nat) : nat := sum (map (fun l => 2 ^ (M - l)) lengths).
(** The total length of the text coded. *)
Definition cost (counts lengths : list nat) : nat := sum (map (fun p => fst p * snd p) (combine counts lengths)).

(** The codes and points of the words in order. *)
Definition codes_of (D : dict nat (list bool * list nat)) (n : nat) : list (list bool) :=
  map (fun i => match dget D i with Some (c, _) => c | None => [] end) (seq 0 n).

(** [p] leads to an inner node. *)
Definition inner_path (codes : list (list bool)) (p : list bool) : Prop := exists c b s, In c codes /\ c = p ++ b :: s.
