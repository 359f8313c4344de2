(** Model of gensim/models/hdpmodel.py 919-953 ([evaluate_test_corpus]), 345-389 ([__init__]: the output directory) and 851-875 ([save_options]),
    over the states of Hdp_Model.

    Simplifications: real numbers.  The likelihood of a document is an arbitrary function [lik] of the document and the topics (its value is that of
    lda_e_step, 135-140).  The scores of documents that are only logged are left out (they are numbers, or infinite with a warning).  The lines of
    the options file are their texts; a file opened for bytes takes bytes only. *)
From Coq Require Import Reals.
From Verif Require Import Base Str MatReal_Model Utils_Model LdaTrain_Model Lsi_Model Hdp_Model.
Local Open Scope R_scope.

(** ** Test corpus *)
Section Eval.
Variable lik : doc -> (nat -> R) -> mat -> R.
Variable o : opts.
(** 934-935 *)
Definition cache_lda (s : hdp) : hdp := match m_lda s with None => with_lda o s | Some _ => s end.
Definition topics_of (s : hdp) : (nat -> R) * mat := match m_lda s with Some ab => ab | None => hdp_to_lda o s end.
(** 938-947; a word outside the vocabulary: no such column (121) *)
Definition eval_doc (ab : (nat -> R) * mat) (acc : R * R) (d : doc) : result (R * R) :=
  match d with
  | [] => Ok acc
  | _ => if forallb (fun wc => (fst wc <? o_W o)%nat) d
         then Ok (fst acc + lik d (fst ab) (snd ab), snd acc + Rsum (map snd d))
         else Err IndexError
  end.
(** 948-953; [sized]: the corpus has a length *)
Definition evaluate (sized : bool) (s : hdp) (corpus : list doc) : hdp * result R :=
  let s := cache_lda s in
  (s, let* acc := rfold (eval_doc (topics_of s)) corpus (0, 0) in
      if Req_EM_T (snd acc) 0 then Err ZeroDivErr
      else if sized then Ok (fst acc) else Err TypeError).
End Eval.

(** ** Output directory *)
Inductive data : Type := Text (s : pystr) | Bytes (b : list N).
Definition files : Type := dict pystr (list N).
(** a file opened with 'wb' *)
Definition bin_write (name : pystr) (fs : files) (x : data) : files * result unit :=
  match x with
  | Bytes b => (dset fs name (dget_or fs name [] ++ b), Ok tt)
  | Text _ => (fs, Err TypeError)
  end.
Fixpoint bin_writes (name : pystr) (fs : files) (l : list data) : files * result unit :=
  match l with
  | [] => (fs, Ok tt)
  | x :: r => match bin_write name fs x with (fs, Ok _) => bin_writes name fs r | (fs, Err e) => (fs, Err e) end
  end.
Definition option_names : list pystr :=
  [str "tau"; str "chunksize"; str "var_converge"; str "D"; str "K"; str "T"; str "W"; str "alpha"; str "kappa"; str "eta"; str "gamma"].
(** 860-875; [dirs]: the directories there are; [show] gives the text of a value *)
Definition save_options (dirs : list pystr) (show : pystr -> pystr) (outputdir : pystr) (fs : files) : files * result unit :=
  match outputdir with
  | [] => (fs, Ok tt)
  | _ =>
    if memb outputdir dirs then
      let name := outputdir ++ str "/options.dat" in
      bin_writes name (dset fs name []) (map (fun n => Text (n ++ str ": " ++ show n ++ [10%N])) option_names)
    else (fs, Err OSErr)
  end.
(** 345, 384-389; without a corpus the model is left as it was made *)
Definition construct (psi : R -> R) order lik (o : opts) (draw : mat) (rounds : nat) (late : nat -> bool) (dirs : list pystr) (show : pystr -> pystr)
  (outputdir : option pystr) (corpus : option (list doc)) (fs : files) : files * result outcome :=
  let '(fs, r) := match outputdir with None | Some [] => (fs, Ok tt) | Some d => save_options dirs show d fs end in
  (fs, let* _ := r in
       Ok (match corpus with None => Done (new_hdp psi o draw) | Some c => update psi order lik o rounds late c (new_hdp psi o draw) end)).
