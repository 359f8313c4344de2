(** What a Word2Vec vocabulary should be (property C44, C62). *)

From Verif Require Import Base Str Utils_Model KeyedVectors_Model W2vVocab_Model.
Local Open Scope nat_scope.

Section Spec.
Context {V R : Type}.

(** Keys and rows are inverse to each other, every row has a key, all keys are words. *)
Definition sound (m : kv V R) : Prop :=
  Forall (fun o => exists w, o = Some (KStr w)) (index_to_key m) /\
  (forall k i, nth_error (index_to_key m) i = Some (Some k) <-> dget (key_to_index m) k = Some i).
(** The words of the vocabulary are those with a count in [f]. *)
Definition has_counts (m : kv V R) (f : pystr -> option nat) : Prop :=
  forall w, get_count m (KStr w) = match f w with Some c => Ok (Z.of_nat c) | None => Err KeyError end.

(** How often a word occurs. *)
Definition occurrences (sentences : list (list pystr)) (w : pystr) : nat :=
  length (filter (fun x => if eq_dec x w then true else false) (concat sentences)).
(** Whether a word is wanted: it occurs, and either the rule decides or it occurs often enough. *)
Definition wanted (rule : trim_rule_t) (min_count : nat) (w : pystr) (c : nat) : bool :=
  match c with
  | 0 => false
  | _ => match rule with
         | None => min_count <=? c
         | Some r => match r w c min_count with RuleKeep => true | RuleDiscard => false | RuleDefault => min_count <=? c end
         end
  end.
(** A fresh vocabulary, and one extended by another corpus: words known before are counted further in any case. *)
Definition first_counts (rule : trim_rule_t) (min_count : nat) (occ : pystr -> nat) (w : pystr) : option nat :=
  if wanted rule min_count w (occ w) then Some (occ w) else None.
Definition more_counts (rule : trim_rule_t) (min_count : nat) (occ : pystr -> nat) (f : pystr -> option nat) (w : pystr) : option nat :=
  match f w with
  | Some c => Some (c + occ w)
  | None => first_counts rule min_count occ w
  end.
(** Counts decrease along the rows. *)
Definition by_frequency (m : kv V R) : Prop :=
  match counts m with Some c => StronglySorted (fun x y => y <= x)%Z c | None => index_to_key m = [] end.
End Spec.

(** One vector and one count for each row. *)
Definition filled {V R} (m : kv V R) : Prop :=
  length (vectors m) = kv_len m /\ match counts m with Some c => length c = kv_len m | None => kv_len m = 0 end.
(** How many words occur at least [e] times. *)
Definition at_least (e : nat) (raw : dict pystr nat) : nat := length (filter (fun c => e <=? c) (map snd raw)).
