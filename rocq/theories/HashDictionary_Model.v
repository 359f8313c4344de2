(** Model of gensim/corpora/hashdictionary.py: [HashDictionary]. *)

From Verif Require Import Base Str.
From Coq Require Import QArith.
Local Open Scope nat_scope.

(** hashdictionary.py 61-96: the mutable state.  [h_id2token] maps an id to the
    set of words seen with it, kept as a duplicate-free list. [myhash],
    [id_range] and [debug] are fixed at construction and are parameters below. *)
Record hashdict : Type := mkHashdict {
  h_token2id : dict pystr nat;
  h_id2token : dict nat (list pystr);
  h_dfs : dict nat nat;
  h_dfs_debug : dict pystr nat;
  h_num_docs : nat;
  h_num_pos : nat;
  h_num_nnz : nat
}.

Definition h_empty : hashdict := mkHashdict [] [] [] [] 0 0 0.

(** [itertools.groupby] on a list, each group reduced to its length (lines 237-238). *)
Fixpoint groupby (l : list pystr) : list (pystr * nat) :=
  match l with
  | [] => []
  | w :: l' =>
    match groupby l' with
    | (w', n) :: gs => if eq_dec w w' then (w', S n) :: gs else (w, 1) :: (w', n) :: gs
    | [] => [(w, 1)]
    end
  end.

(** [set.add]. *)
Definition set_add (s : list pystr) (w : pystr) : list pystr := if memb w s then s else s ++ [w].

Section HashDictionary.
  (** [myhash] is the user-supplied hash function (default [zlib.adler32]); the
      conversion to UTF-8 before hashing is folded into it. *)
  Variable myhash : pystr -> Z.
  Variable id_range : nat.
  Variable debug : bool.

  (** hashdictionary.py 134: [myhash(token) % id_range] (Python's modulo). *)
  Definition h_hash (token : pystr) : nat := Z.to_nat (myhash token mod Z.of_nat id_range).

  (** hashdictionary.py 119-138: [restricted_hash]. *)
  Definition h_restricted_hash (h : hashdict) (token : pystr) : hashdict * nat :=
    let i := h_hash token in
    (if debug then
       mkHashdict (dset (h_token2id h) token i)
         (dset (h_id2token h) i (set_add (dget_or (h_id2token h) i []) token))
         (h_dfs h) (h_dfs_debug h) (h_num_docs h) (h_num_pos h) (h_num_nnz h)
     else h, i).

  (** hashdictionary.py 237-243: loop body over the groups. *)
  Definition h_group_step (s : hashdict * dict nat nat) (g : pystr * nat) : hashdict * dict nat nat :=
    let '(h, result) := s in
    let '(word, frequency) := g in
    let '(h, tokenid) := h_restricted_hash h word in
    let result := dset result tokenid (dget_or result tokenid 0 + frequency) in
    (if debug then
       mkHashdict (h_token2id h) (h_id2token h) (h_dfs h)
         (dset (h_dfs_debug h) word (dget_or (h_dfs_debug h) word 0 + 1))
         (h_num_docs h) (h_num_pos h) (h_num_nnz h)
     else h, result).

  (** Tuple order of [sorted(result.items())] (line 256). *)
  Definition h_pair_leb (a b : nat * nat) : bool :=
    if fst a <? fst b then true else if fst b <? fst a then false else snd a <=? snd b.

  (** hashdictionary.py 196-260: [doc2bow].  The attribute [self.allow_update]
      is [True] from construction (line 93) and nothing changes it, so the test
      [allow_update or self.allow_update] (line 245) is written out with it. *)
  Definition h_self_allow_update : bool := true.

  Definition h_doc2bow (h : hashdict) (document : list pystr) (allow_update : bool)
    : hashdict * list (nat * nat) :=
    let document := isort str_leb document in
    let '(h, result) := fold_left h_group_step (groupby document) (h, []) in
    let h :=
      if allow_update || h_self_allow_update then
        mkHashdict (h_token2id h) (h_id2token h)
          (if debug then fold_left (fun m i => dset m i (dget_or m i 0 + 1)) (dkeys result) (h_dfs h) else h_dfs h)
          (h_dfs_debug h)
          (h_num_docs h + 1) (h_num_pos h + length document) (h_num_nnz h + length result)
      else h in
    (h, isort h_pair_leb result).

  (** hashdictionary.py 98-117: [__getitem__]. *)
  Definition h_getitem (h : hashdict) (tokenid : nat) : list pystr := dget_or (h_id2token h) tokenid [].

  (** hashdictionary.py 262-308: [filter_extremes]. The product of line 292 is
      exact (no double rounding). *)
  Definition h_filter_extremes (h : hashdict) (no_below : Z) (no_above : Q) (keep_n : option Z) : hashdict :=
    let hi := Z.quot (Qnum no_above * Z.of_nat (h_num_docs h)) (Zpos (Qden no_above)) in
    let ok := filter (fun it => (no_below <=? Z.of_nat (snd it))%Z && (Z.of_nat (snd it) <=? hi)%Z) (h_dfs_debug h) in
    let sorted_ok := isort (fun a b => snd b <=? snd a) ok in
    let okw := map fst (match keep_n with Some k => py_prefix k sorted_ok | None => sorted_ok end) in
    let dfs_debug := filter (fun it => memb (fst it) okw) (h_dfs_debug h) in
    let id2token := map (fun it => (fst it, filter (fun t => dmem dfs_debug t) (snd it))) (h_id2token h) in
    mkHashdict
      (filter (fun it => dmem dfs_debug (fst it)) (h_token2id h))
      id2token
      (filter (fun it => match dget_or id2token (fst it) [] with [] => false | _ => true end) (h_dfs h))
      dfs_debug (h_num_docs h) (h_num_pos h) (h_num_nnz h).

  (** Histories of public calls. *)
  Inductive hash_op : Type :=
  | HDoc2bow (document : list pystr) (allow_update : bool)
  | HFilterExtremes (no_below : Z) (no_above : Q) (keep_n : option Z).

  Definition h_step (h : hashdict) (o : hash_op) : hashdict :=
    match o with
    | HDoc2bow doc u => fst (h_doc2bow h doc u)
    | HFilterExtremes nb na kn => h_filter_extremes h nb na kn
    end.

  Definition h_run (ops : list hash_op) (h : hashdict) : hashdict := fold_left h_step ops h.

  Definition h_docs (ops : list hash_op) : list (list pystr) :=
    flat_map (fun o => match o with HDoc2bow doc _ => [doc] | _ => [] end) ops.
End HashDictionary.
