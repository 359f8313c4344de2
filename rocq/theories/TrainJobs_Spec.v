(** What jobs and batches should be. *)

From Verif Require Import Base NegSampling_Model.
From Coq Require Import Reals.
Local Open Scope nat_scope.

Section Jobs.
Context {D : Type}.
Variable len : D -> nat.
Definition words_in (b : list D) : nat := list_sum (map len b).
(** Greedy cutting of [data] into [batches]: in order, each batch within the limit or a single sentence, no batch could have
    taken the next sentence, no empty batch except before a first sentence that exceeds the limit. *)
Definition greedy (limit : nat) (data : list D) (batches : list (list D)) : Prop :=
  concat batches = data /\
  (forall b, In b batches -> words_in b <= limit \/ length b = 1) /\
  (forall l b d b' r, batches = l ++ b :: (d :: b') :: r -> limit < words_in b + len d) /\
  (forall l b r, batches = l ++ b :: r -> b = [] -> l = [] /\ exists d r', data = d :: r' /\ limit < len d).
(** The share of the epoch done before each of the jobs. *)
Fixpoint shares {A} (size : list A -> nat) (total : nat) (done : nat) (batches : list (list A)) : list R :=
  match batches with
  | [] => []
  | b :: r => (INR done / INR total)%R :: shares size total (done + size b) r
  end.
End Jobs.

(** The words selected from each non-empty sentence, no limit applied. *)
Section Batch.
Context {W : Type}.
Variable index_of : W -> option nat.
Variable sample : option (nat -> Z).
Fixpoint select_words (sent : list W) (s : Z) : list nat * Z :=
  match sent with
  | [] => ([], s)
  | w :: r =>
    match index_of w, sample with
    | None, _ => select_words r s
    | Some i, None => let '(l, s') := select_words r s in (i :: l, s')
    | Some i, Some si => let '(l, s') := select_words r (next_random s) in (if (s / 2 ^ 16 <=? si i)%Z then i :: l else l, s')
    end
  end.
Fixpoint select_all (sents : list (list W)) (s : Z) : list (list nat) :=
  match sents with
  | [] => []
  | [] :: r => select_all r s
  | sent :: r => let '(l, s') := select_words sent s in l :: select_all r s'
  end.
End Batch.
(** Where sentences of these lengths end, up to a limit: 0, then the running totals; nothing after the limit is reached. *)
Fixpoint ends (limit done : nat) (lens : list nat) : list nat :=
  match lens with
  | [] => []
  | n :: r => if limit <=? done + n then [limit] else (done + n) :: ends limit (done + n) r
  end.
(** Positions [i] and [j] belong to the same sentence. *)
Definition same_sentence (sentence_idx : list nat) (i j : nat) : Prop :=
  exists k a b, nth_error sentence_idx k = Some a /\ nth_error sentence_idx (S k) = Some b /\ a <= i < b /\ a <= j < b.
