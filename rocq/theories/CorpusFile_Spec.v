(** What reading and training from a file in LineSentence format should do. *)
From Verif Require Import Base Str Sentences_Spec.
Local Open Scope nat_scope.

(** The lines of a file (what follows the last newline counts, even if empty), and the words on each of them. *)
Definition line_words (bytes : list N) : list (list pystr) := map (words is_bspace) (split_on chr_nl bytes).
(** A line is handed over whole if it has at most [m] words, otherwise in consecutive full pieces (the last may be shorter). *)
Definition in_pieces (m : nat) (line : list pystr) (ps : list (list pystr)) : Prop :=
  (length line <= m /\ ps = [line]) \/ (m < length line /\ pieces m line ps).
Definition word_count (sents : list (list pystr)) : nat := length (concat sents).
(** The vocabulary indexes of the known words, in order. *)
Fixpoint known (index_of : pystr -> option nat) (ws : list pystr) : list nat :=
  match ws with
  | [] => []
  | w :: r => match index_of w with Some i => i :: known index_of r | None => known index_of r end
  end.
