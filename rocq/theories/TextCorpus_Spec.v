(** What the properties of plain text corpora are stated with. *)
From Verif Require Import Base Str TextCorpus_Model.
Local Open Scope nat_scope.

(** The documents of [l] that [mask] marks, in order. *)
Fixpoint pick {A : Type} (mask : list bool) (l : list A) : list A :=
  match mask, l with
  | true :: m, x :: l' => x :: pick m l'
  | false :: m, _ :: l' => pick m l'
  | _, _ => []
  end.
Definition marked (mask : list bool) : nat := count_occ Bool.bool_dec mask true.
(** Legal outcomes of [randint(1, len - i)] for documents 0, 1, ... *)
Definition legal (len : Z) (draw : nat -> Z) : Prop := forall i, (Z.of_nat i < len)%Z -> (1 <= draw i <= len - Z.of_nat i)%Z.
(** All lists of legal outcomes for [L] documents. *)
Fixpoint all_draws (L : nat) : list (list nat) :=
  match L with
  | 0 => [[]]
  | S L' => flat_map (fun d => map (cons d) (all_draws L')) (seq 1 L)
  end.

(** The files of a directory tree that are reached without going through a symbolic link or an unreadable directory. *)
Inductive file_at : entry -> list pystr -> pystr -> Prop :=
| here : forall link es name text, In (name, File text) es -> file_at (Dir true link es) [name] text
| below : forall link es name listed es' path text, In (name, Dir listed false es') es -> file_at (Dir listed false es') path text ->
    file_at (Dir true link es) (name :: path) text.
(** No directory has a name twice. *)
Inductive tree : entry -> Prop :=
| tree_file : forall t, tree (File t)
| tree_dir : forall listed link es, NoDup (map fst es) -> (forall name e, In (name, e) es -> tree e) -> tree (Dir listed link es).
Definition admitted (s : settings) (name : pystr) : Prop :=
  (forall p, pattern s = Some p -> p name = true) /\ (forall p, exclude_pattern s = Some p -> p name = false).

(** No stream of documents is read to its end after the settings were changed in the middle of it. *)
Fixpoint safe (changed : bool) (ops : list dop) : Prop :=
  match ops with
  | [] => True
  | ReadMost :: r => safe false r
  | ReadEnd :: r => changed = false /\ safe false r
  | Len :: r | ReadAll :: r => safe changed r
  | _ :: r => safe true r
  end.
