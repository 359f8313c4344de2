(** Model of the sizes of vocabulary that topic models take: gensim/models/ldamodel.py 427-443, atmodel.py 226-242, lsimodel.py 399-409, nmf.py 196-199,
    hdpmodel.py 352, ldaseqmodel.py 124-137, rpmodel.py 83-90, with the mapping made by utils.py 800-823 ([dict_from_corpus]) and 736-800 ([FakeDict]).

    A mapping given is a dict or a Dictionary, known by its ids, or a FakeDict.  Simplification: the words do not matter. *)
From Verif Require Import Base Utils_Model.
Local Open Scope Z_scope.

Inductive mapping : Type := Missing | Ids (ks : list Z) | Fake (n : Z).
Definition m_len (m : mapping) : result Z := match m with Missing => Err TypeError | Ids ks => Ok (Z.of_nat (length ks)) | Fake n => Ok n end.
Definition m_keys (m : mapping) : list Z := match m with Missing => [] | Ids ks => ks | Fake n => [n - 1] end.
(** max of a list that is not empty *)
Definition max_of (ks : list Z) : result Z := match ks with [] => Err ValueError | k :: r => Ok (fold_left Z.max r k) end.
(** iterating over a FakeDict asks for item after item and ends with its ValueError *)
Definition m_iter (m : mapping) : result (list Z) := match m with Missing => Err TypeError | Ids ks => Ok ks | Fake _ => Err ValueError end.

Section Terms.
Context {W : Type}.
Definition corpus : Type := option (list (list (Z * W))).
Definition made (c : corpus) : result Z := match c with None => Err TypeError | Some c => Ok (dict_from_corpus c) end.
Definition from_keys (m : mapping) : result Z := let* n := m_len m in if 0 <? n then let* k := max_of (m_keys m) in Ok (1 + k) else Ok 0.

Definition lda_terms (m : mapping) (c : corpus) : result Z :=
  let* n := match m, c with Missing, None => Err ValueError | Missing, _ => made c | _, _ => from_keys m end in
  if n =? 0 then Err ValueError else Ok n.
Definition at_terms (m : mapping) (c : corpus) : result Z :=
  let* n := match m, c with Missing, None => Err ValueError | Missing, _ => made c | _, _ => from_keys m end in
  if n =? 0 then Err ValueError else Ok n.
Definition lsi_terms (m : mapping) (c : corpus) : result Z :=
  match m, c with Missing, None => Err ValueError | Missing, _ => made c | _, _ => from_keys m end.
Definition nmf_terms (m : mapping) (c : corpus) : result Z := match m with Missing => made c | _ => m_len m end.
Definition hdp_terms (m : mapping) (c : corpus) : result Z := m_len m.
Definition seq_terms (m : mapping) (c : corpus) : result Z := match m, c with Missing, None => Err ValueError | Missing, _ => made c | _, _ => m_len m end.
Definition rp_terms (m : mapping) (c : corpus) : result Z :=
  match m with
  | Missing => made c
  | _ => let* n := m_len m in if n =? 0 then Ok 0 else let* ks := m_iter m in let* k := max_of ks in Ok (1 + k)
  end.
End Terms.
