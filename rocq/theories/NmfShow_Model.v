(** Model of gensim/models/nmf.py 264-303 ([show_topics], not formatted), 323-331 ([show_topic]) and 351-360 ([get_topic_terms]), with 226-233 ([get_topics]).

    Simplifications: weights are rational numbers; the matrix is the list of its topics (its columns), all over the same words.  Dividing by a sum that is
    zero is left out (theorems assume that it is not).  [chosen_topics] of LdaTrain_Model is the same text as 275-283. *)
From Coq Require Import QArith.
From Verif Require Import Base Str Matutils_Model LdaTrain_Model ShowTopics_Model.
Close Scope Q_scope.
Local Open Scope nat_scope.

Section Show.
Variable np_argsort : list Q -> list nat.
Variable np_argpartition : list Q -> nat -> list nat.
Variable id2word : dict nat pystr.
(** 269-274 *)
Definition zeros (topic : list Q) : nat := length (filter (fun x => Qeq_bool x 0%Q) topic).
Definition sparsity (topic : list Q) : Q := (inject_Z (Z.of_nat (zeros topic)) / inject_Z (Z.of_nat (length topic)))%Q.
(** 229-231, 355-356 *)
Definition normal (normalize : bool) (topic : list Q) : list Q :=
  if normalize then map (fun x => x / qsum topic)%Q topic else topic.
(** 293-294 *)
Definition listed (topic : list Q) (num_words : Z) : result (list (pystr * Q)) :=
  rmapM (fun i => let* w := word_of id2word i in Ok (w, nth i topic 0%Q)) (argsort np_argsort np_argpartition topic (Some num_words) true).
(** 264-303; [self]: the setting of the model *)
Definition nmf_show_topics (self : bool) (wt : list (list Q)) (num_topics num_words : Z) (normalize : option bool) : result (list (nat * list (pystr * Q))) :=
  let normalize := match normalize with None => self | Some b => b end in
  let sorted_topics := argsort np_argsort np_argpartition (map sparsity wt) None false in
  let topics := map (normal normalize) wt in
  rmapM (fun i => let* topic := of_option IndexError (nth_error topics i) in let* l := listed topic num_words in Ok (i, l))
    (chosen_topics (length wt) num_topics sorted_topics).
(** 351-360; the column of the matrix is changed in its place *)
Definition nmf_topic_terms (wt : list (list Q)) (topicid : nat) (topn : Z) (normalize : bool) : list (list Q) * result (list (nat * Q)) :=
  match nth_error wt topicid with
  | None => (wt, Err IndexError)
  | Some topic =>
    let topic := normal normalize topic in
    (list_set wt topicid topic, Ok (map (fun i => (i, nth i topic 0%Q)) (argsort np_argsort np_argpartition topic (Some topn) true)))
  end.
(** 323-331 *)
Definition nmf_show_topic (self : bool) (wt : list (list Q)) (topicid : nat) (topn : Z) (normalize : option bool) : list (list Q) * result (list (pystr * Q)) :=
  let normalize := match normalize with None => self | Some b => b end in
  let '(wt, terms) := nmf_topic_terms wt topicid topn normalize in
  (wt, let* terms := terms in rmapM (fun iv => let* w := word_of id2word (fst iv) in Ok (w, snd iv)) terms).
End Show.
