(** Model of /repo/gensim/models/keyedvectors.py 194-784: storing, looking up, replacing, sorting vectors and
    [most_similar].

    Simplifications: a vector is a value of an abstract type [V], a norm one of type [R]; float arithmetic is not
    modelled: [norm], [divide], [mean_of] (unit vector of the weighted mean) and [score] (dot product divided by the
    norm) are parameters.  All vectors have the right size.  Of the per-key attributes only 'count' is modelled.
    Keys are strings or integers; warnings and logging are left out. *)

From Coq Require Import QArith.
From Verif Require Import Base Str Matutils_Model.
Close Scope Q_scope.
Local Open Scope nat_scope.

Inductive key : Type := KStr (s : pystr) | KInt (z : Z).
#[export] Instance key_eq : EqDec key.
Proof. intros x y. decide equality; apply eq_dec. Defined.

(** [l[i] = x] *)
Fixpoint set_nth {A} (l : list A) (i : nat) (x : A) : list A :=
  match l, i with
  | [], _ => []
  | _ :: r, 0 => x :: r
  | a :: r, S i' => a :: set_nth r i' x
  end.
(** [l[mask]] *)
Fixpoint pick {A} (mask : list bool) (l : list A) : list A :=
  match mask, l with
  | b :: mask', a :: l' => if b then a :: pick mask' l' else pick mask' l'
  | _, _ => []
  end.
(** [l[a:b]] *)
Definition slice {A} (l : list A) (a b : nat) : list A := firstn (b - a) (skipn a l).

Section KV.
Context {V R : Type}.
Variable zero : V.

Record kv : Type := mkKv {
  index_to_key : list (option key);
  next_index : nat;
  key_to_index : dict key nat;
  vectors : list V;
  norms : option (list R);
  counts : option (list Z)          (* expandos['count'] *)
}.
Definition set_vectors (m : kv) (vs : list V) : kv :=
  mkKv (index_to_key m) (next_index m) (key_to_index m) vs (norms m) (counts m).
Definition set_next (m : kv) (n : nat) : kv :=
  mkKv (index_to_key m) n (key_to_index m) (vectors m) (norms m) (counts m).
Definition set_counts (m : kv) (c : option (list Z)) : kv :=
  mkKv (index_to_key m) (next_index m) (key_to_index m) (vectors m) (norms m) c.
Definition set_norms (m : kv) (n : option (list R)) : kv :=
  mkKv (index_to_key m) (next_index m) (key_to_index m) (vectors m) n (counts m).

(** 194-237: [__init__] *)
Definition kv_new (count : nat) : kv := mkKv (repeat None count) 0 [] (repeat zero count) None None.

(** [__len__] *)
Definition kv_len (m : kv) : nat := length (index_to_key m).

(** 274-306: [allocate_vecattrs] for 'count': resized to the number of slots, filled with zeros. *)
Definition resize (n : nat) (l : list Z) : list Z := firstn n l ++ repeat 0%Z (n - length l).
Definition allocate (m : kv) : kv := set_counts m (option_map (resize (kv_len m)) (counts m)).

(** 386-399: [get_index]; [None] is the KeyError, or the default. *)
Definition get_index (m : kv) (k : key) : option nat :=
  match dget (key_to_index m) k with
  | Some i => Some i
  | None =>
    match k with
    | KInt z => if ((0 <=? z) && (z <? Z.of_nat (kv_len m)))%Z then Some (Z.to_nat z) else None
    | KStr _ => None
    end
  end.
(** 551-563: [has_index_for], [__contains__] *)
Definition has_index_for (m : kv) (k : key) : bool := match get_index m k with Some _ => true | None => false end.

(** 308-331: [set_vecattr(key, 'count', c)] *)
Definition set_count (m : kv) (k : key) (c : Z) : result kv :=
  let m1 := set_counts m (Some (resize (kv_len m) (match counts m with Some l => l | None => [] end))) in
  match get_index m1 k with
  | None => Err KeyError
  | Some i => Ok (set_counts m1 (option_map (fun l => set_nth l i c) (counts m1)))
  end.
(** 333-352: [get_vecattr(key, 'count')] *)
Definition get_count (m : kv) (k : key) : result Z :=
  match get_index m k with
  | None => Err KeyError
  | Some i => match counts m with
              | None => Err KeyError
              | Some l => of_option IndexError (nth_error l i)
              end
  end.

(** 480-528: [add_vectors]. *)
Definition add_key (m : kv) (k : key) : kv :=
  mkKv (index_to_key m ++ [Some k]) (next_index m) (dset (key_to_index m) k (length (index_to_key m)))
       (vectors m) (norms m) (counts m).
(** [vectors[idxs] = ws]: the last assignment to a row wins. *)
Fixpoint assign (vs : list V) (idxs : list nat) (ws : list V) : list V :=
  match idxs, ws with
  | i :: idxs', w :: ws' => assign (set_nth vs i w) idxs' ws'
  | _, _ => vs
  end.
Fixpoint known_indices (m : kv) (ks : list key) : list nat :=
  match ks with
  | [] => []
  | k :: r => match get_index m k with Some i => i :: known_indices m r | None => known_indices m r end
  end.
(** [extras]: the names of the extra attributes.  The loops [for attr, extra in extras] unpack each name. *)
Definition add_vectors (m : kv) (keys : list key) (weights : list V) (extras : list pystr) (replace : bool) : result unit * kv :=
  let mask := map (has_index_for m) keys in
  let m1 := fold_left add_key (pick (map negb mask) keys) m in
  if negb (length weights =? length keys) then (Err IndexError, m1) else
  let m2 := set_vectors m1 (vectors m1 ++ pick (map negb mask) weights) in
  match extras with
  | name :: _ => (Err (if length name =? 2 then KeyError else ValueError), m2)
  | [] =>
    if replace then
      let idxs := known_indices m2 (pick mask keys) in
      if forallb (fun i => i <? length (vectors m2)) idxs
      then (Ok tt, set_vectors m2 (assign (vectors m2) idxs (pick mask weights)))
      else (Err IndexError, m2)
    else (Ok tt, m2)
  end.

(** 440-478: [add_vector], with the index it returns. *)
Definition add_vector (m : kv) (k : key) (v : V) : result nat * kv :=
  match nth_error (index_to_key m) (next_index m) with
  | Some None =>
    let target := next_index m in
    let m1 := mkKv (set_nth (index_to_key m) target (Some k)) target (dset (key_to_index m) k target)
                   (vectors m) (norms m) (counts m) in
    if target <? length (vectors m)
    then (Ok target, set_next (set_vectors m1 (set_nth (vectors m) target v)) (S target))
    else (Err IndexError, m1)
  | _ =>
    let target := kv_len m in
    match add_vectors m [k] [v] [] false with
    | (Err e, m1) => (Err e, m1)
    | (Ok _, m1) => (Ok target, set_next (allocate m1) (S target))
    end
  end.

(** 530-549: [__setitem__] *)
Definition setitem (m : kv) (keys : list key) (weights : list V) : result unit * kv := add_vectors m keys weights [] true.

(** 613-622: [fill_norms] *)
Variable norm : V -> R.
Definition fill_norms (m : kv) (force : bool) : kv :=
  match norms m with
  | None => set_norms m (Some (map norm (vectors m)))
  | Some _ => if force then set_norms m (Some (map norm (vectors m))) else m
  end.
Definition the_norms (m : kv) : list R := match norms m with Some l => l | None => [] end.

(** 401-433: [get_vector] *)
Variable divide : V -> R -> V.
Definition get_vector (m : kv) (k : key) (normed : bool) : result V * kv :=
  match get_index m k with
  | None => (Err KeyError, m)
  | Some i =>
    if normed then
      let m1 := fill_norms m false in
      match nth_error (vectors m1) i, nth_error (the_norms m1) i with
      | Some v, Some n => (Ok (divide v n), m1)
      | _, _ => (Err IndexError, m1)
      end
    else (of_option IndexError (nth_error (vectors m) i), m)
  end.

(** 659-672: [sort_by_descending_frequency]; no entry is made for empty slots. *)
Variable np_argsort : list Z -> list nat.
Fixpoint index_keys (n : nat) (ks : list (option key)) (d : dict key nat) : dict key nat :=
  match ks with
  | [] => d
  | Some k :: r => index_keys (S n) r (dset d k n)
  | None :: r => index_keys (S n) r d
  end.
Definition sort_by_descending_frequency (m : kv) : result kv :=
  match index_to_key m with
  | [] => Ok m
  | _ =>
    match counts m with
    | None => Err KeyError
    | Some c =>
      let order := rev (np_argsort c) in
      let* ks := rmapM (fun i => of_option IndexError (nth_error (index_to_key m) i)) order in
      let c' := resize (length ks) c in
      let* cs := rmapM (fun i => of_option IndexError (nth_error c' i)) order in
      let* vs := match vectors m with
                 | [] => Ok []
                 | vs => rmapM (fun i => of_option IndexError (nth_error vs i)) order
                 end in
      Ok (mkKv ks (next_index m) (index_keys 0 ks []) vs (norms m) (Some cs))
    end
  end.

(** 690-784: [most_similar] without an indexer. *)
Inductive qitem : Type := QKey (k : key) | QVec (v : V).
Context {M : Type}.
Variable mean_of : list (Q * V) -> M.
Variable score : M -> V -> R -> Q.
Variable np_argsortQ : list Q -> list nat.
Variable np_argpartition : list Q -> nat -> list nat.

(** 755-764: the weighted query vectors and the set of query indices. *)
Fixpoint gather (m : kv) (items : list (qitem * Q)) : result (list (Q * V) * list nat) :=
  match items with
  | [] => Ok ([], [])
  | (QVec v, w) :: r => let* g := gather m r in Ok ((w, v) :: fst g, snd g)
  | (QKey k, w) :: r =>
    let* v := fst (get_vector m k true) in
    let* g := gather m r in
    Ok ((w, v) :: fst g, match get_index m k with
                         | Some i => if memb i (snd g) then snd g else i :: snd g
                         | None => snd g
                         end)
  end.
(** [dot(vectors[a:b], mean) / norms[a:b]]: numpy broadcasts a single norm. *)
Definition dists (mean : M) (vs : list V) (ns : list R) : result (list Q) :=
  if length vs =? length ns then Ok (map (fun p => score mean (fst p) (snd p)) (combine vs ns))
  else match ns, vs with
       | [n], _ => Ok (map (fun v => score mean v n) vs)
       | _, [v] => Ok (map (score mean v) ns)
       | _, _ => Err ValueError
       end.
Inductive similar : Type := AllScores (ds : list Q) | Best (l : list (option key * Q)).
Definition with_default (w : Q) (p : qitem * option Q) : qitem * Q := (fst p, match snd p with Some x => x | None => w end).
Definition most_similar (m : kv) (positive negative : list (qitem * option Q)) (topn : option Z)
    (clip_start : nat) (clip_end restrict_vocab : option nat) : result similar * kv :=
  if match topn with Some t => (t <? 1)%Z | None => false end then (Ok (Best []), m) else
  let m := fill_norms m false in
  let clip_end := match clip_end with Some (S e) => S e | _ => length (vectors m) end in
  let '(clip_start, clip_end) := match restrict_vocab with Some (S r) => (0, S r) | _ => (clip_start, clip_end) end in
  let items := map (with_default 1%Q) positive ++ map (with_default (-1#1)%Q) negative in
  (let* g := gather m items in
   let '(terms, all_keys) := g in
   match terms with
   | [] => Err ValueError
   | _ =>
     let* ds := dists (mean_of terms) (slice (vectors m) clip_start clip_end) (slice (the_norms m) clip_start clip_end) in
     match topn with
     | None => Ok (AllScores ds)
     | Some t =>
       let best := argsort np_argsortQ np_argpartition ds (Some (t + Z.of_nat (length all_keys))%Z) true in
       let* res := rmapM (fun i => let* k := of_option IndexError (nth_error (index_to_key m) (i + clip_start)) in
                                   let* d := of_option IndexError (nth_error ds i) in Ok (k, d))
                         (filter (fun i => negb (memb (i + clip_start) all_keys)) best) in
       Ok (Best (firstn (Z.to_nat t) res))
     end
   end, m).
End KV.
Arguments qitem V : clear implicits.
Arguments kv V R : clear implicits.
