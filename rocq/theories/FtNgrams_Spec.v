(** N-grams and the hash, stated on characters and on plain FNV-1a. *)

From Verif Require Import Base Str W2vFormat_Model.
Local Open Scope nat_scope.

(** [g] stands at position [i] of [w]. *)
Definition occurs_at (w g : pystr) (i : nat) : Prop := exists a b, w = a ++ g ++ b /\ length a = i.

(** Facebook's rule: the lengths asked for, but not the single characters '<' and '>' at the ends. *)
Definition eligible (len min_n max_n i n : nat) : Prop :=
  1 <= n /\ min_n <= n <= max_n /\ i + n <= len /\ ~ (n = 1 /\ (i = 0 \/ i + n = len)).

(** The places (start, length), every place once, by start and then by length. *)
Definition place := (nat * nat)%type.
Definition before (p q : place) : Prop := fst p < fst q \/ (fst p = fst q /\ snd p < snd q).
(** By length and then by start. *)
Definition before' (p q : place) : Prop := snd p < snd q \/ (snd p = snd q /\ fst p < fst q).

Definition between (word : pystr) : pystr := str "<" ++ word ++ str ">".

(** [grams] are the texts at exactly the places in [P], in the order [lt]. *)
Definition lists_places (w : pystr) (P : nat -> nat -> Prop) (lt : place -> place -> Prop) (grams : list pystr) : Prop :=
  exists places, StronglySorted lt places
    /\ (forall i n, In (i, n) places <-> P i n)
    /\ Forall2 (fun p g => length g = snd p /\ occurs_at w g (fst p)) places grams.

(** FNV-1a, 32 bits: xor with the byte, times the prime 2^24 + 2^8 + 0x93. *)
Fixpoint fnv1a (h : Z) (bs : list Z) : Z :=
  match bs with
  | [] => h
  | b :: r => fnv1a ((Z.lxor h b * (2 ^ 24 + 2 ^ 8 + 147)) mod 2 ^ 32)%Z r
  end.
Definition fnv_offset : Z := 2166136261.
(** Facebook's variant: a byte is a signed char, converted to an unsigned 32-bit number. *)
Definition signed_char (b : N) : Z := if (b <? 128)%N then Z.of_N b else (Z.of_N b - 256)%Z.
