(** Model of gensim/models/coherencemodel.py 217-257 ([CoherenceModel.for_models]) and 259-286 ([top_topics_as_word_lists]).
    The dictionary is that of Dictionary_Model, the rest of the construction that of CohModel_Model.  A model is what its
    [get_topics] gives: the weights of all words, one list per topic. *)
From Coq Require Import QArith.
From Verif Require Import Base Str Matutils_Model Dictionary_Model CohModel_Model.
Close Scope Q_scope.
Local Open Scope nat_scope.

Section Words.
Variable np_argsort : list Q -> list nat.
Variable np_argpartition : list Q -> nat -> list nat.
(** 277-278 *)
Definition fill_id2token (d : dictionary) : dictionary :=
  match d_id2token d with [] => with_id2token d (revdict (d_token2id d)) | _ => d end.
(** 280-286 *)
Definition topic_words (d : dictionary) (topn : nat) (topic : list Q) : result (list pystr) :=
  let bestn := argsort np_argsort np_argpartition topic (Some (Z.of_nat topn)) true in
  rmapM (fun i => of_option KeyError (dget (d_id2token d) i)) bestn.
Definition word_lists (d : dictionary) (topn : nat) (model : list (list Q)) : dictionary * result (list (list pystr)) :=
  let d := fill_id2token d in (d, rmapM (topic_words d topn) model).
(** 254: the models one after the other. *)
Fixpoint all_word_lists (d : dictionary) (topn : nat) (models : list (list (list Q))) : dictionary * result (list (list (list pystr))) :=
  match models with
  | [] => (d, Ok [])
  | m :: r =>
    match word_lists d topn m with
    | (d, Err e) => (d, Err e)
    | (d, Ok w) => let '(d, ws) := all_word_lists d topn r in (d, let* ws := ws in Ok (w :: ws))
    end
  end.
(** 254-257 *)
Definition for_models (array_equal : list (list nat) -> list (list nat) -> bool) (d : dictionary) (models : list (list (list Q))) (topn : nat) : dictionary * result cm :=
  let '(d, topics) := all_word_lists d topn models in
  (d, let* topics := topics in for_topics (d_token2id d) (d_id2token d) array_equal (map (map (map Tok)) topics) (Some topn)).
End Words.
