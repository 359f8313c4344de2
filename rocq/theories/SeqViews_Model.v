(** Model of the views of a dynamic topic model: gensim/models/ldaseqmodel.py 492-514 ([print_topic_times]), 516-534 ([print_topics]),
    536-562 ([print_topic]), 564-583 ([doc_topics]), 585-633 ([dtm_vis]) and 635-658 ([dtm_coherence]).
    Simplifications: numbers are rationals; the chains hold the exponentials of [e_log_prob.T], one row per time slice; sums are
    exact, so their order does not matter. *)
From Coq Require Import QArith.
From Verif Require Import Base Str Matutils_Model ShardedCorpus_Model.
Close Scope Q_scope.
Local Open Scope nat_scope.

Record seqmodel : Type := mkSeq {
  q_chains : list (list (list Q));     (* topic, time slice, word *)
  q_gammas : list (list Q);            (* document, topic *)
  q_id2word : dict nat pystr;
  q_topics : nat;                      (* num_topics *)
  q_slices : nat                       (* num_time_slices *)
}.
Definition total (x : list Q) : Q := fold_right Qplus 0%Q x.
(** 558, 613-614 *)
Definition normalize (x : list Q) : list Q := map (fun v => v / total x)%Q x.

Section Views.
Variable np_argsort : list Q -> list nat.
Variable np_argpartition : list Q -> nat -> list nat.
(** 555-562 *)
Definition print_topic (m : seqmodel) (topic time top_terms : Z) : result (list (pystr * Q)) :=
  let* chain := py_get (q_chains m) topic in
  let* row := py_get chain time in
  let row := normalize row in
  let bestn := argsort np_argsort np_argpartition row (Some top_terms) true in
  rmapM (fun i => let* w := of_option KeyError (dget (q_id2word m) i) in let* p := of_option IndexError (nth_error row i) in Ok (w, p)) bestn.
(** 510-514 *)
Definition print_topic_times (m : seqmodel) (topic top_terms : Z) : result (list (list (pystr * Q))) :=
  rmapM (fun time => print_topic m topic (Z.of_nat time) top_terms) (seq 0 (q_slices m)).
(** 534 *)
Definition print_topics (m : seqmodel) (time top_terms : Z) : result (list (list (pystr * Q))) :=
  rmapM (fun topic => print_topic m (Z.of_nat topic) time top_terms) (seq 0 (q_topics m)).
(** 651-658 *)
Definition dtm_coherence (m : seqmodel) (time : Z) : result (list (list pystr)) :=
  let* topics := print_topics m time 20 in Ok (map (map fst) topics).
End Views.
(** 582-583 *)
Definition mixture (m : seqmodel) (doc_number : Z) : result (list Q) := py_get (map normalize (q_gammas m)) doc_number.
(** 621-629: one entry of one document. *)
Definition count_term (freqs : list Q) (tf : Z * Q) : result (list Q) :=
  let* i := np_index (length freqs) (fst tf) in Ok (list_set freqs i (nth i freqs 0 + snd tf)%Q).
Record vis : Type := mkVis { v_doc_topic : list (list Q); v_topic_term : list (list Q); v_doc_lengths : list nat; v_term_frequency : list Q; v_vocab : list pystr }.
(** 611-633 *)
Definition dtm_vis (m : seqmodel) (time : Z) (corpus : list (list (Z * Q))) : result vis :=
  let doc_topic := map normalize (q_gammas m) in
  let* topic_term := rmapM (fun chain => let* row := py_get chain time in Ok (normalize row)) (q_chains m) in
  let* freqs := rfold (fun freqs doc => rfold count_term doc freqs) corpus (repeat 0%Q (length (q_id2word m))) in
  let* vocab := rmapM (fun i => of_option KeyError (dget (q_id2word m) i)) (seq 0 (length (q_id2word m))) in
  Ok (mkVis doc_topic topic_term (map (@length (Z * Q)) corpus) freqs vocab).
