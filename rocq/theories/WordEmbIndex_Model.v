(** Model of gensim/similarities/termsim.py 102-140 ([WordEmbeddingSimilarityIndex]) and 143-167 ([_shortest_uint_dtype]).
    The keyed vectors are those of KeyedVectors_Model, so vectors, norms and scores are arbitrary; raising to the exponent is an
    arbitrary function on rationals (rounding and NaN are not modelled).  The generator is modelled as the list of what it yields
    when it is run to the end. *)
From Coq Require Import QArith.
From Verif Require Import Base Str KeyedVectors_Model.
Close Scope Q_scope.
Local Open Scope nat_scope.

(** 121-125: the [kwargs] handed on to [KeyedVectors.most_similar]. *)
Record kwargs (V : Type) : Type := mkKw {
  kw_negative : list (qitem V * option Q);
  kw_clip_start : nat;
  kw_clip_end : option nat;
  kw_restrict : option nat
}.
Arguments mkKw {V}. Arguments kw_negative {V}. Arguments kw_clip_start {V}. Arguments kw_clip_end {V}. Arguments kw_restrict {V}.
Definition no_kwargs {V} : kwargs V := mkKw [] 0 None None.

Section Index.
Context {V R M : Type}.
Variable norm : V -> R.
Variable divide : V -> R -> V.
Variable mean_of : list (Q * V) -> M.
Variable score : M -> V -> R -> Q.
Variable np_argsort : list Q -> list nat.
Variable np_argpartition : list Q -> nat -> list nat.
(** 138: [similarity > threshold] *)
Definition above (threshold s : Q) : bool := negb (Qle_bool s threshold).
(** 127-140: [most_similar]; with [topn=None] the bare scores cannot be unpacked. *)
Definition wes_most_similar (power : Q -> Q) (threshold : Q) (kw : kwargs V) (m : kv V R) (t1 : key) (topn : option Z)
    : result (list (option key * Q)) * kv V R :=
  if negb (has_index_for m t1) then (Ok [], m)
  else
    let '(r, m') := most_similar norm divide mean_of score np_argsort np_argpartition m [(QKey t1, None)] (kw_negative kw) topn
                      (kw_clip_start kw) (kw_clip_end kw) (kw_restrict kw) in
    (let* l := r in
     match l with
     | AllScores [] => Ok []
     | AllScores _ => Err TypeError
     | Best l => Ok (map (fun ks => (fst ks, power (snd ks))) (filter (fun ks => above threshold (snd ks)) l))
     end, m').
(** What [_create_source] (254-258) can use of the answers: keys that are not strings are not in the dictionary. *)
Definition wes_index (power : Q -> Q) (threshold : Q) (kw : kwargs V) (m : kv V R) (term : pystr) (topn : nat) : list (pystr * Q) :=
  flat_map (fun ks => match fst ks with Some (KStr s) => [(s, snd ks)] | _ => [] end)
    (match fst (wes_most_similar power threshold kw m (KStr term) (Some (Z.of_nat topn))) with Ok l => l | Err _ => [] end).
End Index.

(** 161-167: the width in bits of the type chosen. *)
Definition shortest_uint (max_value : Z) : Z :=
  (if max_value <? 2 ^ 8 then 8 else if max_value <? 2 ^ 16 then 16 else if max_value <? 2 ^ 32 then 32 else 64)%Z.
