(** Model of /repo/gensim/models/word2vec.py 1773-1817 (`Word2Vec.predict_output_word`) over the real numbers.

    Simplifications: no float rounding or overflow of exp; keyed vectors are those of KvSim_Model.  [contains] is `w in self.wv`: membership in the index for Word2Vec
    (keyedvectors.py 562-563), always true for FastText (fasttext.py 1018-1052).  [best xs n] is `matutils.argsort(xs, topn=n, reverse=True)`.  The attribute syn1neg exists iff
    negative sampling was set up. *)
From Coq Require Import Reals.
From Verif Require Import Base Str MatReal_Model LdaTrain_Model Lsi_Spec KvSim_Model.
Local Open Scope R_scope.

Section Predict.
Variable d : nat.
Variable best : list R -> nat -> list nat.
Variable contains : kvs -> pystr -> bool.

Definition hidden (cbow_mean : bool) (rows : list vec) : vec := fun c => Rsum (map (fun v : vec => v c) rows) / (if cbow_mean then INR (length rows) else 1).
Definition softmax (scores : list R) : list R := map (fun s => exp s / Rsum (map exp scores)) scores.
(** [syn1neg]: None if the model does not use negative sampling *)
Definition predict (m : kvs) (syn1neg : option (list vec)) (cbow_mean : bool) (context : list pystr) (topn : nat) : result (option (list (pystr * R))) :=
  match syn1neg with
  | None => Err RuntimeErr
  | Some out =>
    let* idx := rmapM (get_index m) (filter (contains m) context) in
    match idx with
    | [] => Ok None
    | _ =>
      let* rows := rmapM (fun i => of_option IndexError (nth_error (ks_rows m) i)) idx in
      let l1 := hidden cbow_mean rows in
      let probs := softmax (map (fun u => dotv d l1 u) out) in
      let* l := rmapM (fun i => let* w := of_option IndexError (nth_error (ks_keys m) i) in let* p := of_option IndexError (nth_error probs i) in Ok (w, p)) (best probs topn) in
      Ok (Some l)
    end
  end.
End Predict.
Definition in_index (m : kvs) (w : pystr) : bool := match dget (ks_index m) w with Some _ => true | None => false end.
Definition in_fasttext (m : kvs) (w : pystr) : bool := true.
