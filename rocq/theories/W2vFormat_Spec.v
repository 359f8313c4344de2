(** Specification of the word2vec formats. *)

From Coq Require Import Permutation.
From Verif Require Import Base Str Matutils_Model KeyedVectors_Model W2vFormat_Model.
Local Open Scope nat_scope.

(** What is assumed of scalars: [repr] is one token that parses back; packing takes four bytes and is reversible. *)
Record sfmt_ok {A} (F : sfmt A) (dom : A -> Prop) : Prop := {
  sf_nospace : forall a, dom a -> s_repr F a <> [] /\ Forall (fun c => is_bspace c = false) (s_repr F a);
  sf_parse : forall a, dom a -> s_parse F (s_repr F a) = Some a;
  sf_size : forall a, dom a -> length (s_pack F a) = 4;
  sf_unpack : forall a, dom a -> s_unpack F (s_pack F a) = a
}.

Section Spec.
Context {A R : Type}.
Variable F : sfmt A.
Notation vec := (list A).
Notation entry := (pystr * list A)%type.

(** The first entry of each word. *)
Fixpoint firsts_from (seen : list pystr) (es : list entry) : list entry :=
  match es with
  | [] => []
  | e :: r => if memb (fst e) seen then firsts_from seen r else e :: firsts_from (fst e :: seen) r
  end.
Definition firsts (es : list entry) : list entry := firsts_from [] es.

(** [m] holds exactly these words, in this order, with these vectors and counts, followed by [free] empty slots. *)
Definition holds (d : nat) (m : kv vec R) (es : list entry) (count_of : nat -> pystr -> Z) (free : nat) : Prop :=
  index_to_key m = map (fun e => Some (KStr (fst e))) es ++ repeat None free /\
  vectors m = map snd es ++ repeat (repeat (s_zero F) d) free /\
  (forall w i, get_index m (KStr w) = Some i <-> nth_error (map fst es) i = Some w) /\
  (forall i w, nth_error (map fst es) i = Some w -> get_count m (KStr w) = Ok (count_of i w)).

(** The counts of a loaded word: from the vocabulary file, or invented so that they decrease. *)
Definition count_in (cnts : option (dict pystr Z)) (n i : nat) (w : pystr) : Z :=
  match cnts with
  | None => Z.of_nat n - Z.of_nat i
  | Some cs => match dget cs w with Some c => c | None => 0 end
  end%Z.
Definition counted (cnts : option (dict pystr Z)) (es : list entry) : Prop :=
  match cnts with None => True | Some cs => forall e, In e es -> dget cs (fst e) <> None end.

(** Words that the formats can express. *)
Definition text_word (w : pystr) : Prop := ~ In chr_sp w /\ ~ In chr_nl w.
Definition binary_word (w : pystr) : Prop :=
  ~ In chr_sp w /\ (forall r, w <> chr_nl :: r) /\ Forall (fun c => valid_char c = true) w.

(** A binary file as written here or by the original tool, which puts newlines before words. *)
Definition c_entry (e : nat * entry) : list N := repeat chr_nl (fst e) ++ binary_entry F (fst (snd e)) (snd (snd e)).
(** Bytes that do not contain a complete entry. *)
Definition incomplete (d : nat) (tail : list N) : Prop :=
  match at_space tail with None => True | Some (_, r) => length r < 4 * d end.
Definition file_header (n d : nat) : pystr := show_nat n ++ [chr_sp] ++ show_nat d ++ [chr_nl].
(** The order in which keys are stored. *)
Definition stored_order (m : kv vec R) (order : list pystr) : Prop :=
  match counts m with
  | None => map (fun s => Some (KStr s)) order = index_to_key m
  | Some _ => Permutation (map (fun s => Some (KStr s)) order) (index_to_key m) /\
              StronglySorted (fun s t => exists c c', get_count m (KStr s) = Ok c /\ get_count m (KStr t) = Ok c' /\ (c' <= c)%Z) order
  end.

(** What a saved file holds: the stored keys, prefixed, with their vectors; the first [limit] of them. *)
Definition entries_of (f : pystr -> option vec) (prefix : pystr) (order : list pystr) : list entry :=
  map (fun k => (prefix ++ k, match f k with Some v => v | None => [] end)) order.
Definition upto {X} (limit : option nat) (l : list X) : list X := match limit with Some (S n) => firstn (S n) l | _ => l end.
End Spec.
