(** Specification vocabulary for collocation detection, independent of the loops of the code. *)
From Coq Require Import List Arith Bool.
From Verif Require Import Base Str.
Import ListNotations.
Local Open Scope nat_scope.

(** ** Segmentation of a sentence *)
Section Parse.
  Context {St Sc : Type}.
  Variable conn : pystr -> Prop.
  (** A judge decides whether [a mid b] is a phrase; it may depend on and change a state. *)
  Variable judge : St -> pystr -> pystr -> list pystr -> St * option (pystr * Sc).

  (** A segment: its tokens, and the name and score if it is a phrase. *)
  Definition seg : Type := (list pystr * option (pystr * Sc))%type.
  Definition single (w : pystr) : seg := ([w], None).
  Definition shown (g : seg) : pystr * option Sc :=
    match g with
    | (_, Some (name, sc)) => (name, Some sc)
    | (ws, None) => (hd [] ws, None)
    end.

  (** Leftmost-first reading: words up to the next normal word form a candidate; if judged a phrase it is
      consumed whole, otherwise reading resumes at the candidate's last word. *)
  Inductive parse : St -> list pystr -> St -> list seg -> Prop :=
  | P_end st : parse st [] st []
  | P_conn st w s st' g : conn w -> parse st s st' g -> parse st (w :: s) st' (single w :: g)
  | P_tail st a mid : ~ conn a -> Forall conn mid -> parse st (a :: mid) st (map single (a :: mid))
  | P_join st a mid b s st1 r st' g : ~ conn a -> Forall conn mid -> ~ conn b ->
      judge st a b mid = (st1, Some r) -> parse st1 s st' g ->
      parse st (a :: mid ++ b :: s) st' ((a :: mid ++ [b], Some r) :: g)
  | P_split st a mid b s st1 st' g : ~ conn a -> Forall conn mid -> ~ conn b ->
      judge st a b mid = (st1, None) -> parse st1 (b :: s) st' g ->
      parse st (a :: mid ++ b :: s) st' (map single (a :: mid) ++ g).
End Parse.

(** ** Occurrence counts *)
Definition b2n (b : bool) : nat := if b then 1 else 0.
(** f 0 + ... + f (n-1) *)
Definition sum_to (n : nat) (f : nat -> nat) : nat := list_sum_nat (map f (seq 0 n)).

Definition is_normal (conn : list pystr) (s : list pystr) (i : nat) : bool :=
  match nth_error s i with Some w => negb (memb w conn) | None => false end.
(** Words i..j *)
Definition span (s : list pystr) (i j : nat) : list pystr := firstn (S j - i) (skipn i s).

(** Position [j] holds the normal word [key]. *)
Definition word_hit (conn s : list pystr) (key : pystr) (j : nat) : bool :=
  is_normal conn s j && match nth_error s j with Some w => eqb w key | None => false end.
(** Positions [i < j] hold normal words with only connectors in between, and words i..j joined are [key]. *)
Definition cand_hit (conn : list pystr) (delim : pystr) (s : list pystr) (key : pystr) (i j : nat) : bool :=
  is_normal conn s i && is_normal conn s j &&
  forallb (fun m => negb (is_normal conn s m)) (seq (S i) (j - S i)) &&
  eqb (join delim (span s i j)) key.

(** Occurrences of [key] as a word or as a candidate phrase in one sentence, and in a corpus. *)
Definition true_count (conn : list pystr) (delim : pystr) (s : list pystr) (key : pystr) : nat :=
  sum_to (length s) (fun j => b2n (word_hit conn s key j) + sum_to j (fun i => b2n (cand_hit conn delim s key i j))).
Definition corpus_count (conn : list pystr) (delim : pystr) (ss : list (list pystr)) (key : pystr) : nat :=
  list_sum_nat (map (fun s => true_count conn delim s key) ss).

(** The first character of the delimiter does not occur in the token. *)
Definition clean (delim w : pystr) : Prop := match delim with [] => False | c :: _ => ~ In c w end.
