(** Model of the Huffman tree of hierarchical softmax: /repo/gensim/models/word2vec.py 2134-2192 and 783-789.

    Simplifications: the vocabulary is the list of its counts (natural numbers), words are their indices
    ([get_vecattr]/[set_vecattr] with an integer index); a code is a list of booleans, points are naturals (the
    uint32 range is not modelled).  The [heapq] functions of the Python library are parameters with the contract of
    Huffman_Spec. *)

From Verif Require Import Base.
Local Open Scope nat_scope.

(** 2134-2136 *)
Inductive item : Type :=
| Leaf (count index : nat)
| Node (count index : nat) (left right : item).
Definition count (x : item) : nat := match x with Leaf c _ | Node c _ _ _ => c end.
Definition index (x : item) : nat := match x with Leaf _ i | Node _ i _ _ => i end.

Record heapq : Type := {
  heapify : list item -> list item;
  heappop : list item -> result (item * list item);
  heappush : list item -> item -> list item
}.

Section Huffman.
Variable Q : heapq.

(** 2141-2146; [todo] rounds remain, [i] is the round. *)
Fixpoint merge_rounds (n todo i : nat) (heap : list item) : result (list item) :=
  match todo with
  | 0 => Ok heap
  | S todo' =>
    let* p1 := heappop Q heap in
    let '(min1, heap1) := p1 in
    let* p2 := heappop Q heap1 in
    let '(min2, heap2) := p2 in
    merge_rounds n todo' (S i) (heappush Q heap2 (Node (count min1 + count min2) (i + n) min1 min2))
  end.
(** 2139-2147 *)
Definition build_heap (counts : list nat) : result (list item) :=
  let n := length counts in
  let heap := map (fun p => Leaf (snd p) (fst p)) (combine (seq 0 n) counts) in
  merge_rounds n (n - 1) 0 (heapify Q heap).

(** 2171-2190: the stack, topmost first; [acc]: the codes and points stored so far.  Out of [fuel] stands for the loop not
    ending. *)
Fixpoint walk (fuel n : nat) (stack : list (item * list bool * list nat)) (acc : dict nat (list bool * list nat))
  : result (dict nat (list bool * list nat)) :=
  match stack with
  | [] => Ok acc
  | (node, codes, points) :: stack' =>
    match fuel with
    | 0 => Err RuntimeErr
    | S fuel' =>
      if index node <? n then walk fuel' n stack' (dset acc (index node) (codes, points))
      else match node with
           | Leaf _ _ => Err AttributeErr
           | Node _ _ l r =>
             let points' := points ++ [index node - n] in
             walk fuel' n ((r, codes ++ [true], points') :: (l, codes ++ [false], points') :: stack') acc
           end
    end
  end.
Definition assign_binary_codes (counts : list nat) : result (dict nat (list bool * list nat)) :=
  let* heap := build_heap counts in
  match heap with
  | [] => Ok []
  | root :: _ => walk (2 * length counts) (length counts) [(root, [], [])] []
  end.
End Huffman.
