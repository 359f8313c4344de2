(** What a tf-idf model should know about a collection of documents. *)
From Verif Require Import Base Str Dictionary_Model Dictionary_Spec MatReal_Model.
From Coq Require Import Reals.
Local Open Scope nat_scope.

(** The dictionary's token map is one-to-one and its document frequencies are those of the documents, for the terms it knows
    (all of which occur). *)
Definition describes (d : dictionary) (docs : list (list pystr)) : Prop :=
  d_num_docs d = length docs /\
  (forall t t' i, dget (d_token2id d) t = Some i -> dget (d_token2id d) t' = Some i -> t = t') /\
  (forall t i, dget (d_token2id d) t = Some i -> dget (d_dfs d) i = Some (doc_freq docs t) /\ 0 < doc_freq docs t) /\
  (forall i n, dget (d_dfs d) i = Some n -> exists t, dget (d_token2id d) t = Some i).
(** The bag-of-words corpus of the documents. *)
Definition bows (d : dictionary) (docs : list (list pystr)) : list rbow :=
  map (fun doc => map (fun p => (Z.of_nat (fst p), INR (snd p))) (fst (snd (d_doc2bow d doc false false)))) docs.
(** In how many bags an id occurs. *)
Definition bag_freq (corpus : list rbow) (i : Z) : nat :=
  length (filter (fun b => if in_dec eq_dec i (map fst b) then true else false) corpus).
(** A sublist, order kept. *)
Inductive subseq {A : Type} : list A -> list A -> Prop :=
| ss_nil : forall l, subseq [] l
| ss_take : forall x a b, subseq a b -> subseq (x :: a) (x :: b)
| ss_skip : forall x a b, subseq a b -> subseq a (x :: b).
