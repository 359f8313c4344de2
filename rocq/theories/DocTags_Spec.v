(** What the tags of a corpus should become (property C77), stated on the corpus itself. *)
From Verif Require Import Base Str KeyedVectors_Model DocTags_Model.
Local Open Scope nat_scope.

(** Every use of a tag, with the length of the document. *)
Definition uses (docs : list document) : list (key * nat) :=
  flat_map (fun d => map (fun k => (k, length (d_words d))) (d_tags d)) docs.
(** The number of slots kept for integers. *)
Definition int_slots (l : list (key * nat)) (n : nat) : Prop :=
  (forall z w, In (KInt z, w) l -> (z < Z.of_nat n)%Z) /\ (n = 0 \/ exists w, In (KInt (Z.of_nat n - 1), w) l).
(** The string tags in the order of their first use. *)
Fixpoint firsts (l : list (key * nat)) : list pystr :=
  match l with
  | [] => []
  | (KStr t, _) :: r => t :: filter (fun x => negb (eqb x t)) (firsts r)
  | (KInt _, _) :: r => firsts r
  end.
Definition uses_of (l : list (key * nat)) (t : pystr) : list nat := map snd (filter (fun p => eqb (fst p) (KStr t)) l).
Definition slots (n : nat) (ts : list pystr) : list key := map (fun i => KInt (Z.of_nat i)) (seq 0 n) ++ map KStr ts.
(** Usable tags: strings and integers from 0 on. *)
Definition usable (k : key) : Prop := match k with KStr _ => True | KInt z => (0 <= z)%Z end.
Fixpoint usable_tags (l : list key) : list key :=
  match l with
  | [] => []
  | KInt z :: r => if (0 <=? z)%Z then KInt z :: usable_tags r else usable_tags r
  | k :: r => k :: usable_tags r
  end.
