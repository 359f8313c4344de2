(** Model of the vocabulary, the negative samples and the schedule of Poincaré training: /repo/gensim/models/poincare.py 148-170,
    172-252 (`build_vocab`), 253-316 (negative samples), 432-467 and 506-543 (the batch), 602-700 (`train`), 1357-1405
    (`NegativesBuffer`), with `set_vecattr` and `get_vecattr` of /repo/gensim/models/keyedvectors.py 274-350.

    Simplifications: random numbers are arguments: the initial vectors, the draws for the buffer (one list per refill), the
    outcome of `choice`, the shuffled indices.  Node names are of any type with decidable equality.  The fraction
    [relations / nodes < 0.01] is compared exactly (no rounding).  Logging, timing and gradient checks are left out, but for the
    remainder by [print_every]. *)
From Verif Require Import Base KeyedVectors_Model PoincareGeo_Model.

(** ** Vocabulary *)
Record model (K V : Type) : Type := mkModel {
  keys : list K;                     (* kv.index_to_key *)
  index : dict K nat;                (* kv.key_to_index *)
  counts : option (list Z);          (* kv.expandos['count'] *)
  vectors : list V;                  (* kv.vectors *)
  rels : list (nat * nat);           (* all_relations *)
  nrels : dict nat (list nat);       (* node_relations, sets *)
  cumsum : list Z                    (* _node_counts_cumsum *)
}.
Arguments mkModel {K V}. Arguments keys {K V}. Arguments index {K V}. Arguments counts {K V}. Arguments vectors {K V}.
Arguments rels {K V}. Arguments nrels {K V}. Arguments cumsum {K V}.

(** 149-152 *)
Definition new_model (K V : Type) : model K V := mkModel [] [] None [] [] [] [].

(** keyedvectors.py 293-306 *)
Definition allocate (n : nat) (cs : option (list Z)) : list Z :=
  match cs with None => repeat 0%Z n | Some l => firstn n l ++ repeat 0%Z (n - length l) end.
(** 212-218 *)
Definition add_item {K V : Type} `{EqDec K} (s : model K V) (x : K) : result (model K V) :=
  match dget (index s) x with
  | Some i =>
    let* cs := of_option KeyError (counts s) in
    let* c := of_option IndexError (nth_error cs i) in
    Ok (mkModel (keys s) (index s) (Some (set_nth (allocate (length (keys s)) (Some cs)) i (c + 1)%Z)) (vectors s) (rels s) (nrels s) (cumsum s))
  | None =>
    let i := length (keys s) in
    Ok (mkModel (keys s ++ [x]) (dset (index s) x i) (Some (set_nth (allocate (S i) (counts s)) i 1%Z)) (vectors s) (rels s) (nrels s) (cumsum s))
  end.
Definition set_add (j : nat) (l : list nat) : list nat := if memb j l then l else l ++ [j].
(** 209-224: one relation; what was done before an error stays. *)
Definition add_relation {K V : Type} `{EqDec K} (s : model K V) (r : list K) : model K V * option exn :=
  match r with
  | [a; b] =>
    match add_item s a with
    | Err e => (s, Some e)
    | Ok s1 =>
      match add_item s1 b with
      | Err e => (s1, Some e)
      | Ok s2 =>
        match dget (index s2) a, dget (index s2) b with
        | Some i, Some j => (mkModel (keys s2) (index s2) (counts s2) (vectors s2) (rels s2 ++ [(i, j)]) (dset (nrels s2) i (set_add j (dget_or (nrels s2) i []))) (cumsum s2), None)
        | _, _ => (s2, Some KeyError)
        end
      end
    end
  | _ => (s, Some ValueError)
  end.
Fixpoint add_relations {K V : Type} `{EqDec K} (s : model K V) (rs : list (list K)) : model K V * option exn :=
  match rs with
  | [] => (s, None)
  | r :: rs' => match add_relation s r with (s1, None) => add_relations s1 rs' | (s1, Some e) => (s1, Some e) end
  end.
(** [np.cumsum] *)
Fixpoint prefix_sums (acc : Z) (cs : list Z) : list Z := match cs with [] => [] | c :: cs' => (acc + c)%Z :: prefix_sums (acc + c)%Z cs' end.
(** 206-252; [g] gives the initial vectors. *)
Definition build_vocab {K V : Type} `{EqDec K} (g : nat -> V) (update : bool) (rs : list (list K)) (s : model K V) : result unit * model K V :=
  let old := length (keys s) in
  match add_relations s rs with
  | (s1, Some e) => (Err e, s1)
  | (s1, None) =>
    match counts s1 with
    | None => (Err KeyError, s1)
    | Some cs =>
      let n := length (keys s1) in
      let vs := if update then vectors s1 ++ map g (seq 0 (n - old)) else map g (seq 0 n) in
      (Ok tt, mkModel (keys s1) (index s1) (counts s1) vs (rels s1) (nrels s1) (prefix_sums 0 cs))
    end
  end.

(** ** Negative samples *)
(** [np.searchsorted(a, v)]: the first position whose value is not below [v]. *)
Fixpoint searchsorted (a : list Z) (v : Z) : nat := match a with [] => 0 | x :: a' => if (v <=? x)%Z then 0 else S (searchsorted a' v) end.
(** 1357-1405: the items and the current index *)
Definition buffer : Type := (list nat * nat)%type.
Definition num_items (b : buffer) : nat := length (fst b) - snd b.
Definition get_items (n : nat) (b : buffer) : list nat * buffer := (firstn n (skipn (snd b) (fst b)), (fst b, snd b + n)).
(** 253-270; no result if the random numbers given are used up. *)
Definition candidates (neg : nat) (cum : list Z) (b : buffer) (draws : list (list Z)) : option (list nat * buffer * list (list Z)) :=
  if num_items b <? neg then
    match draws with
    | [] => None
    | d :: ds => Some (get_items neg (map (searchsorted cum) d, 0), ds)
    end
  else Some (get_items neg b, draws).
(** 293-305 *)
Definition acceptable (related l : list nat) : bool := (length l =? length (nodup eq_dec l)) && forallb (fun i => negb (memb i related)) l.
Fixpoint resample (fuel neg : nat) (cum : list Z) (related : list nat) (b : buffer) (draws : list (list Z)) : option (list nat * buffer * list (list Z)) :=
  match fuel with
  | 0 => None
  | S f =>
    match candidates neg cum b draws with
    | None => None
    | Some (l, b', ds) => if acceptable related l then Some (l, b', ds) else resample f neg cum related b' ds
    end
  end.
(** 272-316; [choice valid k] is the outcome of [np.random.choice(valid, size=k, replace=False)]. *)
Definition sample_negatives {K V : Type} (choice : list nat -> nat -> list nat) (fuel neg : nat) (s : model K V) (b : buffer) (draws : list (list Z)) (node : nat) : result (option (list nat * buffer * list (list Z))) :=
  let related := dget_or (nrels s) node [] in
  let n := length (keys s) in
  if (Z.of_nat n - Z.of_nat (length related) <? Z.of_nat neg)%Z then Err ValueError
  else if 100 * length related <? n then Ok (resample fuel neg (cumsum s) related b draws)
  else Ok (Some (choice (filter (fun i => negb (memb i related)) (seq 0 n)) neg, b, draws)).

(** ** Batches *)
(** 451-459 *)
Definition prepare (neg : nat) (relations : list (nat * nat)) (negatives : list (list nat)) : result (list example) :=
  let indices_v := concat (map (fun p => snd (fst p) :: snd p) (combine relations negatives)) in
  if length indices_v =? length relations * (1 + neg) then Ok (map (fun p => (fst (fst p), snd (fst p) :: snd p)) (combine relations negatives)) else Err ValueError.
(** 677, 680: [for i in range(0, len(indices), batch_size): indices[i:i + batch_size]] *)
Fixpoint slices {A : Type} (fuel bs : nat) (l : list A) : list (list A) :=
  match fuel, l with S f, _ :: _ => firstn bs l :: slices f bs (skipn bs l) | _, _ => [] end.
Definition batches {A : Type} (bs : nat) (l : list A) : list (list A) := slices (length l) bs l.

(** ** Schedule *)
(** What was trained: the learning rate and the relations of each batch, in order. *)
Record trainer (A : Type) : Type := mkTrainer { rate : A; burnt : bool; trained : list (A * list (nat * nat)) }.
Arguments mkTrainer {A}. Arguments rate {A}. Arguments burnt {A}. Arguments trained {A}.
(** [fails] says whether the next batch raises an error (a node with too few negative samples), depending on the past. *)
Fixpoint train_batches {A : Type} (fails : list (A * list (nat * nat)) -> list (nat * nat) -> option exn) (print_every : Z) (bs : list (list (nat * nat))) (t : trainer A) : result unit * trainer A :=
  match bs with
  | [] => (Ok tt, t)
  | b :: bs' =>
    if (print_every =? 0)%Z then (Err ZeroDivErr, t)
    else match fails (trained t) b with
         | Some e => (Err e, t)
         | None => train_batches fails print_every bs' (mkTrainer (rate t) (burnt t) (trained t ++ [(rate t, b)]))
         end
  end.
(** 672-687; [shuffles] are the shuffled indices, one list per epoch. *)
Fixpoint train_epochs {A : Type} (fails : list (A * list (nat * nat)) -> list (nat * nat) -> option exn) (relations : list (nat * nat)) (batch_size print_every : Z) (shuffles : list (list nat)) (t : trainer A) : result unit * trainer A :=
  match shuffles with
  | [] => (Ok tt, t)
  | sh :: shs =>
    if (batch_size =? 0)%Z then (Err ValueError, t)
    else
      let bs := if (batch_size <? 0)%Z then [] else batches (Z.to_nat batch_size) sh in
      match train_batches fails print_every (map (map (fun i => nth i relations (0, 0))) bs) t with
      | (Err e, t1) => (Err e, t1)
      | (Ok _, t1) => train_epochs fails relations batch_size print_every shs t1
      end
  end.
(** 628-656; the shuffles of the burn-in epochs and of the others. *)
Definition train {A : Type} (fails : list (A * list (nat * nat)) -> list (nat * nat) -> option exn) (workers : nat) (train_alpha burn_alpha : A) (relations : list (nat * nat))
    (batch_size print_every : Z) (burn_shuffles shuffles : list (list nat)) (t : trainer A) : result unit * trainer A :=
  if 1 <? workers then (Err NotImplErr, t)
  else
    let (r, t1) :=
      if negb (length burn_shuffles =? 0) && negb (burnt t) then
        match train_epochs fails relations batch_size print_every burn_shuffles (mkTrainer burn_alpha (burnt t) (trained t)) with
        | (Err e, t1) => (Err e, t1)
        | (Ok _, t1) => (Ok tt, mkTrainer (rate t1) true (trained t1))
        end
      else (Ok tt, t) in
    match r with
    | Err e => (Err e, t1)
    | Ok _ => train_epochs fails relations batch_size print_every shuffles (mkTrainer train_alpha (burnt t1) (trained t1))
    end.
