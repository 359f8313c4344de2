(** What the sentence readers should deliver. *)
From Verif Require Import Base Str.
Local Open Scope nat_scope.

(** Consecutive pieces of [ws]: all of length [m] except that the last one may be shorter, none empty. *)
Definition pieces (m : nat) (ws : list pystr) (ps : list (list pystr)) : Prop :=
  concat ps = ws /\ forall a p b, ps = a ++ p :: b -> p <> [] /\ length p <= m /\ (b <> [] -> length p = m).
(** A token: not empty, no whitespace, only encodable characters. *)
Definition plain_token (ok : N -> bool) (w : pystr) : Prop :=
  w <> [] /\ Forall (fun c => is_space c = false) w /\ Forall (fun c => ok c = true) w.
(** The buffer does not end in whitespace other than the space. *)
Definition ends_well (chunk : list N) : Prop := forall c b, chunk = c ++ [b] -> is_bspace b = true -> b = chr_sp.
(** The printable part of a text. *)
Definition printable (s : pystr) : pystr := filter (fun c => negb (is_space c)) s.
