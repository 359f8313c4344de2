(** What a history of insertions into a [KeyedVectors] should leave behind (properties C36-C38), stated on the history
    itself. *)

From Coq Require Import QArith.
From Verif Require Import Base Str Matutils_Model KeyedVectors_Model.
Close Scope Q_scope.
Local Open Scope nat_scope.

Section Spec.
Context {V R : Type}.

Inductive op : Type :=
| AddOne (k : pystr) (v : V)                                     (* add_vector(k, v) *)
| AddMany (ks : list pystr) (vs : list V) (replace : bool)       (* add_vectors(ks, vs, replace=...) *)
| SetItems (ks : list pystr) (vs : list V)                       (* kv[ks] = vs *)
| Normed (k : pystr)                                             (* get_vector(k, norm=True) *)
| FillNorms (force : bool).                                      (* fill_norms(force) *)

(** The last vector given for [k] in a batch. *)
Fixpoint last_given (k : pystr) (ks : list pystr) (vs : list V) : option V :=
  match ks, vs with
  | k' :: ks', v :: vs' =>
    match last_given k ks' vs' with
    | Some w => Some w
    | None => if eq_dec k' k then Some v else None
    end
  | _, _ => None
  end.

(** The vector of a key after a batch. *)
Definition after_batch (old : option V) (given : option V) (replace : bool) : option V :=
  match old, given with
  | None, g => g
  | Some v, Some w => if replace then Some w else Some v
  | Some v, None => Some v
  end.

(** Content after a history: the number of preallocated slots still free and the vector of every key.  While slots are
    free [add_vector] stores the vector in any case, later it keeps the vector of a key already present. *)
Definition step (s : nat * (pystr -> option V)) (o : op) : nat * (pystr -> option V) :=
  let (free, f) := s in
  match o with
  | AddOne k v =>
    match free with
    | S free' => (free', fun k' => if eq_dec k' k then Some v else f k')
    | 0 => (0, fun k' => after_batch (f k') (last_given k' [k] [v]) false)
    end
  | AddMany ks vs replace => (free, fun k' => after_batch (f k') (last_given k' ks vs) replace)
  | SetItems ks vs => (free, fun k' => after_batch (f k') (last_given k' ks vs) true)
  | Normed _ | FillNorms _ => (free, f)
  end.
Definition content (count : nat) (ops : list op) : nat * (pystr -> option V) :=
  fold_left step ops (count, fun _ => None).

(** As many vectors as keys. *)
Definition well_shaped (o : op) : Prop :=
  match o with
  | AddMany ks vs _ | SetItems ks vs => length vs = length ks
  | _ => True
  end.

(** No batch brings a new key twice, and a free slot is never used for a key already present. *)
Definition tidy_op (s : nat * (pystr -> option V)) (o : op) : Prop :=
  let new ks := filter (fun k => match snd s k with None => true | Some _ => false end) ks in
  match o with
  | AddOne k _ => fst s = 0 \/ snd s k = None
  | AddMany ks _ _ | SetItems ks _ => NoDup (new ks)
  | _ => True
  end.
Fixpoint tidy_from (s : nat * (pystr -> option V)) (ops : list op) : Prop :=
  match ops with
  | [] => True
  | o :: r => tidy_op s o /\ tidy_from (step s o) r
  end.
Definition tidy (count : nat) (ops : list op) : Prop := tidy_from (count, fun _ => None) ops.

(** Whether the cached norms are those of the present vectors. *)
Inductive cache : Type := NotComputed | Current | Stale.
Definition cache_step (c : cache) (o : op) : cache :=
  match o, c with
  | (AddOne _ _ | AddMany _ _ _ | SetItems _ _), NotComputed => NotComputed
  | (AddOne _ _ | AddMany _ _ _ | SetItems _ _), _ => Stale
  | Normed _, NotComputed => Current
  | Normed _, _ => c
  | FillNorms true, _ => Current
  | FillNorms false, NotComputed => Current
  | FillNorms false, _ => c
  end.
(** A normed lookup of an absent key fails before anything is computed. *)
Definition cache_of (ops : list op) : cache := fold_left cache_step ops NotComputed.

(** The model run on a history. *)
Variable zero : V.
Variable norm : V -> R.
Variable divide : V -> R -> V.
Definition run_op (m : kv V R) (o : op) : kv V R :=
  match o with
  | AddOne k v => snd (add_vector m (KStr k) v)
  | AddMany ks vs replace => snd (add_vectors m (map KStr ks) vs [] replace)
  | SetItems ks vs => snd (setitem m (map KStr ks) vs)
  | Normed k => snd (get_vector norm divide m (KStr k) true)
  | FillNorms force => fill_norms norm m force
  end.
Definition run (count : nat) (ops : list op) : kv V R := fold_left run_op ops (kv_new zero count).
End Spec.
Arguments op V : clear implicits.

(** ** most_similar *)

(** [idxs] are the [k] best eligible rows in decreasing order, or all of them if there are fewer. *)
Definition top_of (sc : nat -> Q) (eligible : nat -> Prop) (k : nat) (idxs : list nat) : Prop :=
  NoDup idxs /\ (forall i, In i idxs -> eligible i) /\
  StronglySorted (fun i j => sc j <= sc i)%Q idxs /\
  length idxs <= k /\ (length idxs = k \/ forall j, eligible j -> In j idxs) /\
  (forall i j, In i idxs -> eligible j -> ~ In j idxs -> sc j <= sc i)%Q.

(** Query items with their weights. *)
Definition weighted {V} (default : Q) (l : list (qitem V * option Q)) : list (qitem V * Q) :=
  map (fun p => (fst p, match snd p with Some w => w | None => default end)) l.

(** What one query item contributes. *)
Definition contributes {V R} (norm : V -> R) (divide : V -> R -> V) (m : kv V R) (it : qitem V * Q) (t : Q * V) : Prop :=
  match it with
  | (QVec v, w) => t = (w, v)
  | (QKey k, w) => exists i v, get_index m k = Some i /\ nth_error (vectors m) i = Some v /\ t = (w, divide v (norm v))
  end.

(** The rows searched. *)
Definition in_window (clip_start : nat) (clip_end restrict_vocab : option nat) (i : nat) : Prop :=
  match restrict_vocab with
  | Some (S r) => i < S r
  | _ => clip_start <= i /\ match clip_end with Some (S e) => i < S e | _ => True end
  end.
Definition is_query {V R} (m : kv V R) (items : list (qitem V * Q)) (i : nat) : Prop :=
  exists k w, In (QKey k, w) items /\ get_index m k = Some i.
