(** Model of the listing of the words of topics: /repo/gensim/models/lsimodel.py 629-636 (`get_topics`), 662-667 (`show_topic`), 691-703
    (`show_topics`, not formatted), /repo/gensim/models/ldamodel.py 1182-1200 (`show_topic`), 1202-1213 (`get_topics`), 1231-1234
    (`get_topic_terms`), 1272-1286 (`top_topics`; nmf.py 401-415 is the same text), /repo/gensim/models/hdpmodel.py 1136-1148 (`show_topic`, not
    formatted) and 1166 (`show_topic_terms`).

    Simplifications: weights are exact rational numbers; the square root [sqrt] is an arbitrary function; dividing by a sum that is zero is left
    out (theorems about quotients assume that it is not).  The matrix of topics is the list of its rows; a topic is a row with one weight per word id.  [np_argsort] and
    [np_argpartition] are the functions of numpy that `matutils.argsort` calls.  The mapping `id2word` is a dictionary from ids to words.  The
    coherence scores of `top_topics` are an argument (CoherenceModel is modelled in Coherence_Model).  Logging and formatting are left out. *)
From Coq Require Import QArith Qabs.
From Verif Require Import Base Str Matutils_Model ShardedCorpus_Model.

Definition qsum (l : list Q) : Q := fold_left Qplus l 0%Q.

Section ShowTopics.
Variable np_argsort : list Q -> list nat.
Variable np_argpartition : list Q -> nat -> list nat.
Variable sqrt : Q -> Q.
Variable id2word : dict nat pystr.

Definition word_of (i : nat) : result pystr := of_option KeyError (dget id2word i).

(** ** LSI *)

(** lsimodel.py 634, 665: [norm = np.sqrt(np.sum(np.dot(c, c)))] *)
Definition norm (c : list Q) : Q := sqrt (qsum (map (fun x => x * x)%Q c)).

(** lsimodel.py 629-636 *)
Definition lsi_get_topics (ut : list (list Q)) : list (list Q) := map (fun c => map (fun x => 1 * x / norm c)%Q c) ut.

(** the result of `show_topic`: an empty string, or a list of pairs *)
Inductive shown_topic : Type := EmptyString_ | Terms (l : list (pystr * Q)).

(** lsimodel.py 662-667 *)
Definition lsi_show_topic (ut : list (list Q)) (topicno : Z) (topn : Z) : result shown_topic :=
  if (Z.of_nat (length ut) <=? topicno)%Z then Ok EmptyString_ else
  let* c := py_get ut topicno in
  let n := norm c in
  let most := argsort np_argsort np_argpartition (map Qabs c) (Some topn) true in
  let* l := rmapM (fun val => let* w := word_of val in Ok (w, 1 * nth val c 0 / n)%Q) most in
  Ok (Terms l).

(** lsimodel.py 691-703; [K] is `self.num_topics`, [ns] the length of `projection.s` *)
Definition lsi_show_topics (K ns : nat) (ut : list (list Q)) (num_topics num_words : Z) : result (list (nat * shown_topic)) :=
  let num_topics := if (num_topics <? 0)%Z then Z.of_nat K else num_topics in
  rfold (fun shown i =>
    if i <? ns then let* topic := lsi_show_topic ut (Z.of_nat i) num_words in Ok (shown ++ [(i, topic)])
    else Ok shown) (seq 0 (Nat.min (Z.to_nat num_topics) K)) [].

(** ** LDA *)

(** ldamodel.py 1202-1213 *)
Definition lda_get_topics (lam : list (list Q)) : list (list Q) := map (fun r => map (fun x => x / qsum r)%Q r) lam.

(** ldamodel.py 1231-1234 *)
Definition get_topic_terms (lam : list (list Q)) (topicid : Z) (topn : Z) : result (list (nat * Q)) :=
  let* topic := py_get (lda_get_topics lam) topicid in
  let topic := map (fun x => x / qsum topic)%Q topic in
  let bestn := argsort np_argsort np_argpartition topic (Some topn) true in
  Ok (map (fun idx => (idx, nth idx topic 0%Q)) bestn).

(** ldamodel.py 1200 *)
Definition lda_show_topic (lam : list (list Q)) (topicid : Z) (topn : Z) : result (list (pystr * Q)) :=
  let* terms := get_topic_terms lam topicid topn in
  rmapM (fun p => let* w := word_of (fst p) in Ok (w, snd p)) terms.

(** ldamodel.py 1272-1286, nmf.py 401-415; [topics] is `get_topics()` *)
Definition top_topics (topics : list (list Q)) (coherence_scores : list Q) (topn : Z) : result (list (list (Q * pystr) * Q)) :=
  let* str_topics := rmapM (fun topic =>
    let bestn := argsort np_argsort np_argpartition topic (Some topn) true in
    rmapM (fun id => let* w := word_of id in Ok (nth id topic 0%Q, w)) bestn) topics in
  Ok (isort (fun a b => Qle_bool (snd b) (snd a)) (combine str_topics coherence_scores)).

(** ** HDP *)

(** hdpmodel.py 1136-1148, 1166; [data] is the matrix of the formatter; [num_words] is None for all words *)
Definition hdp_show_topic (data : list (list Q)) (topic_id : Z) (num_words : option Z) : result (list (pystr * Q)) :=
  let* lambdak := py_get data topic_id in
  let lambdak := map (fun x => x / qsum lambdak)%Q lambdak in
  let temp := combine lambdak (seq 0 (length lambdak)) in
  let temp := isort (fun a b => Qle_bool (fst b) (fst a)) temp in
  let temp := match num_words with None => temp | Some k => py_prefix k temp end in
  rmapM (fun p => let* w := word_of (snd p) in Ok (w, fst p)) temp.
End ShowTopics.
