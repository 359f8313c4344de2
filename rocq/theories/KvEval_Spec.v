(** What evaluating a set of vectors on analogies and on word pairs must give. *)

From Coq Require Import QArith.
From Verif Require Import Base Str KvEval_Model.
Close Scope Q_scope.
Local Open Scope nat_scope.

(** One row per key. *)
Definition proper (m : kvm) : Prop :=
  NoDup (index_to_key m) /\ forall k i, dget (key_to_index m) k = Some i <-> nth_error (index_to_key m) i = Some k.

(** The number of rows searched: [l[:k]]. *)
Definition window (restrict_vocab : option Z) (total : nat) : nat :=
  match restrict_vocab with
  | None => total
  | Some z => if (z <? 0)%Z then Z.to_nat (Z.of_nat total + z) else Nat.min total (Z.to_nat z)
  end.

Section Spec.
Variable norm : pystr -> pystr.     (* upper case, or nothing *)
Variable score : nat -> nat -> nat -> nat -> Q.

(** Row [i] is searched and its word reads [w]. *)
Definition reads (m : kvm) (n : nat) (w : pystr) (i : nat) : Prop :=
  i < n /\ exists k, nth_error (index_to_key m) i = Some k /\ norm k = w.
(** The first such row. *)
Definition first_row (m : kvm) (n : nat) (w : pystr) (i : nat) : Prop :=
  reads m n w i /\ forall j, j < i -> ~ reads m n w j.
Definition known (m : kvm) (n : nat) (w : pystr) : Prop := exists i, reads m n w i.

Definition known_quad (m : kvm) (n : nat) (q : quad) : Prop :=
  let '(a, b, c, e) := q in known m n a /\ known m n b /\ known m n c /\ known m n e.

(** [w] is the answer to "a is to b as c is to ...": the best word that is none of the three. *)
Definition best_word (m : kvm) (n : nat) (q : quad) (w : pystr) : Prop :=
  let '(a, b, c, _) := q in
  exists ia ib ic j, first_row m n a ia /\ first_row m n b ib /\ first_row m n c ic /\
    reads m n w j /\ ~ In w [a; b; c] /\
    forall j' w', reads m n w' j' -> ~ In w' [a; b; c] -> (score ia ib ic j' <= score ia ib ic j)%Q.

(** At most four rows besides the first ones read like one of the three words, and some row reads differently. *)
Definition answerable (m : kvm) (n : nat) (q : quad) : Prop :=
  let '(a, b, c, _) := q in
  length (filter (fun k => memb (norm k) [a; b; c]) (firstn n (index_to_key m))) <= 4 + length (nodup eq_dec [a; b; c]) /\
  exists w, known m n w /\ ~ In w [a; b; c].
End Spec.

(** A file of analogies: sections, each a title line and other lines. *)
Definition block : Type := pystr * list pystr.
Definition title_line (l : pystr) : Prop := exists r, l = str ": " ++ r.
Definition well_formed (b : block) : Prop := title_line (fst b) /\ Forall (fun l => ~ title_line l) (snd b).
Definition file_of (bs : list block) : list pystr := flat_map (fun b => fst b :: snd b) bs.
(** The quadruplets of a section: the lines of four words. *)
Definition quads_of (norm : pystr -> pystr) (b : block) : list quad :=
  flat_map (fun l => match words is_space l with
                     | [a; b; c; e] => [(norm a, norm b, norm c, norm e)]
                     | _ => []
                     end) (snd b).

(** The judged pairs of a file. *)
Definition judgments (norm : pystr -> pystr) (parse_float : pystr -> option Q) (delimiter : N) (ls : list pystr) : list (pystr * pystr * Q) :=
  flat_map (fun l => if eqb (firstn 1 l) (str "#") then [] else
                     match split_on delimiter l with
                     | [a; b; s] => match parse_float (norm s) with Some g => [(norm a, norm b, g)] | None => [] end
                     | _ => []
                     end) ls.
