(** Model of the queries and evaluations of Poincaré embeddings: /repo/gensim/models/poincare.py 935-1030 (`closest_child`,
    `closest_parent`, `descendants`, `ancestors`), 1110-1224 (`most_similar`, `distances`), 1226-1306 (`norm`,
    `difference_in_hierarchy`), 1408-1508 (`ReconstructionEvaluation`), 1511-1619 (`LinkPredictionEvaluation`), 1643-1680
    (`score_function`), with `get_index` of /repo/gensim/models/keyedvectors.py 386-399.

    Simplifications: the numbers are rational (floats are), the distance of two vectors and the norm of a vector are any functions
    into them.  Names are strings.  A whole number in place of a vector is broadcast by numpy: [scalar k] stands for what the
    distance then takes as vector.  The relations of the evaluations are given by the numbers of the nodes, sets as lists in
    their order of iteration; at least one node is not masked (numpy's sum over masked values only is masked itself). *)
From Coq Require Import QArith.
From Verif Require Import Base Str Matutils_Model.
Local Close Scope Q_scope.
Local Open Scope nat_scope.

Definition qlt (a b : Q) : bool := negb (Qle_bool b a).

Inductive node (V : Type) : Type := NName (name : pystr) | NInt (k : Z) | NVec (v : V) | NNone.
Arguments NName {V}. Arguments NInt {V}. Arguments NVec {V}. Arguments NNone {V}.

Section Query.
Context {V : Type} (dist : V -> V -> Q) (vnorm : V -> Q) (scalar : Z -> V).
Context (np_argsort : list Q -> list nat) (np_argpartition : list Q -> nat -> list nat).

Record emb : Type := mkEmb { keys : list pystr; vecs : list V }.

Fixpoint position (name : pystr) (ks : list pystr) : option nat :=
  match ks with [] => None | k :: ks' => if eqb k name then Some 0 else option_map S (position name ks') end.
(** keyedvectors.py 386-399 *)
Definition get_index (m : emb) (n : node V) : result nat :=
  match n with
  | NName name => of_option KeyError (position name (keys m))
  | NInt k => if ((0 <=? k) && (k <? Z.of_nat (length (keys m))))%Z then Ok (Z.to_nat k) else Err KeyError
  | NVec _ => Err TypeError                      (* an array has no hash *)
  | NNone => Err KeyError
  end.
(** 1212-1224: [other_nodes] empty means all *)
Definition input_vector (m : emb) (n : node V) : result V :=
  match n with
  | NName _ => let* i := get_index m n in of_option IndexError (nth_error (vecs m) i)
  | NInt k => Ok (scalar k)
  | NVec v => Ok v
  | NNone => Err TypeError
  end.
Definition distances (m : emb) (n : node V) (others : list (node V)) : result (list Q) :=
  let* v := input_vector m n in
  match others with
  | [] => Ok (map (dist v) (vecs m))
  | _ => rmapM (fun o => let* i := get_index m o in let* w := of_option IndexError (nth_error (vecs m) i) in Ok (dist v w)) others
  end.
(** 1259-1264, 1306 *)
Definition norm (m : emb) (n : node V) : result Q := let* v := input_vector m n in Ok (vnorm v).
Definition difference_in_hierarchy (m : emb) (a b : node V) : result Q :=
  let* y := norm m b in let* x := norm m a in Ok (y - x)%Q.

(** [np.ma.argmin] over the positions that are not masked: the first of the smallest *)
Fixpoint argmin (l : list (nat * Q)) : option (nat * Q) :=
  match l with
  | [] => None
  | (i, d) :: l' => match argmin l' with Some (j, e) => if qlt e d then Some (j, e) else Some (i, d) | None => Some (i, d) end
  end.
Definition closest (below : bool) (m : emb) (n : node V) : result (option pystr) :=
  let* ds := distances m n [] in
  let norms := map vnorm (vecs m) in
  let* i := get_index m n in
  let* x := of_option IndexError (nth_error norms i) in
  let free := filter (fun p => if below then qlt x (nth (fst p) norms 0%Q) else qlt (nth (fst p) norms 0%Q) x) (combine (seq 0 (length ds)) ds) in
  match argmin free with
  | None => Ok None
  | Some (j, _) => rmap Some (of_option IndexError (nth_error (keys m) j))
  end.
(** 949-958, 974-983 *)
Definition closest_child : emb -> node V -> result (option pystr) := closest true.
Definition closest_parent : emb -> node V -> result (option pystr) := closest false.
Definition as_node (o : option pystr) : node V := match o with Some k => NName k | None => NNone end.
(** 1001-1008 *)
Fixpoint descendants (max_depth : nat) (m : emb) (n : node V) : result (list (option pystr)) :=
  match max_depth with
  | 0 => Ok []
  | S d => let* c := closest_child m n in let* rest := descendants d m (as_node c) in Ok (c :: rest)
  end.
(** 1024-1030; no result if the fuel is used up *)
Fixpoint ancestors (fuel : nat) (m : emb) (n : node V) : result (option (list pystr)) :=
  match fuel with
  | 0 => Ok None
  | S f =>
    let* p := closest_parent m n in
    match p with
    | None => Ok (Some [])
    | Some k => let* rest := ancestors f m (NName k) in Ok (option_map (cons k) rest)
    end
  end.

(** 1146-1171 *)
Definition most_similar (m : emb) (n : node V) (topn : option Z) (restrict_vocab : option Z) : result (list (pystr * Q)) :=
  if match topn with Some t => (t <? 1)%Z | None => false end then Ok [] else
  let* ds := match restrict_vocab with
             | None | Some 0%Z => distances m n []
             | Some r => distances m n (map NName (py_prefix r (keys m)))
             end in
  let* node_index := match n with NName _ | NInt _ => rmap Some (get_index m n) | _ => Ok None end in
  let best := argsort np_argsort np_argpartition ds (option_map (Z.add 1) topn) false in
  let kept := filter (fun i => match node_index with None | Some 0 => true | Some k => negb (i =? k) end) best in
  let* res := rmapM (fun i => let* k := of_option IndexError (nth_error (keys m) i) in Ok (k, nth i ds 0%Q)) kept in
  Ok (match topn with Some t => firstn (Z.to_nat t) res | None => res end).
End Query.
Arguments mkEmb {V}. Arguments keys {V}. Arguments vecs {V}. Arguments emb V : clear implicits.

(** ** Evaluation *)
(** 1454-1459 and 1561-1568: the ranks of the relations [asked]; those of [hidden] (and of [asked]) do not count. *)
Definition rank (ds : list Q) (asked hidden : list nat) (p : nat) : nat :=
  1 + length (filter (fun k => negb (memb k asked || memb k hidden) && qlt (nth k ds 0%Q) (nth p ds 0%Q)) (seq 0 (length ds))).
Definition ranks (ds : list Q) (asked hidden : list nat) : list nat := map (rank ds asked hidden) asked.
Definition add_arange (l : list nat) : list nat := map (fun p => fst p + snd p) (combine l (seq 0 (length l))).
Definition qsum (l : list Q) : Q := fold_right Qplus 0%Q l.
Definition mean (l : list Q) : Q := (qsum l / inject_Z (Z.of_nat (length l)))%Q.
Definition nat_sort (l : list nat) : list nat := isort Nat.leb l.
Definition avg_precision (rs : list nat) : Q :=
  let map_ranks := nat_sort (add_arange (nat_sort rs)) in
  mean (map (fun p => (inject_Z (Z.of_nat (S (fst p))) / inject_Z (Z.of_nat (snd p)))%Q) (combine (seq 0 (length map_ranks)) map_ranks)).
(** 1494-1508 and 1604-1619: the items in order, with those they are related to; [ds i] are the distances of item [i]. The items
    that are evaluated, with their ranks and precision: *)
Fixpoint evaluated (max_n : option Z) (i : Z) (items : list nat) (relations : nat -> list nat) : list nat :=
  match items with
  | [] => []
  | x :: items' =>
    match relations x with
    | [] => evaluated max_n (i + 1) items' relations
    | _ => x :: (if match max_n with Some n => (n <? i)%Z | None => false end then [] else evaluated max_n (i + 1) items' relations)
    end
  end.
Definition evaluate (max_n : option Z) (items : list nat) (ds : nat -> list Q) (asked hidden : nat -> list nat) : Q * Q :=
  let es := evaluated max_n 1 items asked in
  let rs := map (fun x => ranks (ds x) (asked x) (hidden x)) es in
  (mean (map (fun r => inject_Z (Z.of_nat r)) (concat rs)), mean (map avg_precision rs)).

(** ** Lexical entailment *)
(** 1682-1700: the terms that begin with the word and a dot; 1663-1680 *)
Definition starts_with (p s : pystr) : bool := eqb (firstn (length p) s) p.
Definition matching (ks : list pystr) (word : pystr) : result (list pystr) :=
  match filter (starts_with (word ++ [46%N])) ks with [] => Err KeyError | l => Ok l end.
Definition nearest_pair (d : pystr -> pystr -> Q) (l : list (pystr * pystr)) : option (pystr * pystr * Q) :=
  fold_left (fun best p => match best with
                           | None => Some (p, d (fst p) (snd p))
                           | Some (_, e) => if qlt (d (fst p) (snd p)) e then Some (p, d (fst p) (snd p)) else best
                           end) l None.
Definition score_function (ks : list pystr) (d : pystr -> pystr -> Q) (nrm : pystr -> Q) (w1 w2 : pystr) : result Q :=
  match matching ks w1, matching ks w2 with
  | Ok l1, Ok l2 =>
    match nearest_pair d (list_prod l1 l2) with
    | None => Err AssertionErr
    | Some ((a, b), e) => Ok (- ((1 + 1000 * (nrm b - nrm a)) * e))%Q
    end
  | _, _ => Err ValueError
  end.
