(** Model of gensim/models/poincare.py 1625-1642 ([LexicalEntailmentEvaluation.__init__]) and 1728-1758 ([evaluate_spearman]), over [score_function] of
    PoincareQuery_Model, and of gensim/corpora/csvcorpus.py 45-57 ([CsvCorpus.__init__]).

    Simplifications: the rows of a table are given split into fields.  The reader of rows ([csv.DictReader]) is modelled as documented: the first row
    has the names; empty rows are left out; a name given twice means the last column; fields that are missing are None.  [parse] reads a number. *)
From Coq Require Import QArith.
From Verif Require Import Base Str PoincareQuery_Model.
Close Scope Q_scope.
Local Open Scope nat_scope.

Definition cell : Type := option pystr.
(** the last column of a name *)
Fixpoint last_index (c : pystr) (names : list pystr) : option nat :=
  match names with
  | [] => None
  | x :: r => match last_index c r with Some i => Some (S i) | None => if eqb x c then Some 0 else None end
  end.
Definition field (names row : list pystr) (c : pystr) : result cell :=
  match last_index c names with None => Err KeyError | Some i => Ok (nth_error row i) end.
Definition word1 : pystr := str "WORD1".
Definition word2 : pystr := str "WORD2".
Definition avg_score : pystr := str "AVG_SCORE".

Section Lex.
Variable parse : pystr -> option Q.
(** 1638-1639 *)
Definition add_row (names : list pystr) (sc : dict (cell * cell) Q) (row : list pystr) : result (dict (cell * cell) Q) :=
  match row with
  | [] => Ok sc
  | _ =>
    let* w1 := field names row word1 in
    let* w2 := field names row word2 in
    let* v := field names row avg_score in
    let* x := match v with None => Err TypeError | Some t => of_option ValueError (parse t) end in
    Ok (dset sc (w1, w2) x)
  end.
(** 1634-1640 *)
Definition load_scores (rows : list (list pystr)) : result (dict (cell * cell) Q) :=
  match rows with [] => Ok [] | names :: body => rfold (add_row names) body [] end.
End Lex.

(** '%s' *)
Definition shown (c : cell) : pystr := match c with Some w => w | None => str "None" end.
Section Eval.
Variable ks : list pystr.
Variable d : pystr -> pystr -> Q.
Variable nrm : pystr -> Q.
(** 1746-1754: expected and predicted scores, pairs skipped, pairs counted *)
Definition eval_pair (acc : list Q * list Q * nat * nat) (kv : (cell * cell) * Q) : result (list Q * list Q * nat * nat) :=
  let '(expected, predicted, skipped, counted) := acc in
  match score_function ks d nrm (shown (fst (fst kv))) (shown (snd (fst kv))) with
  | Ok p => Ok (expected ++ [snd kv], predicted ++ [p], skipped, S counted)
  | Err ValueError => Ok (expected, predicted, S skipped, counted)
  | Err e => Err e
  end.
(** 1741-1758 *)
Definition evaluate_spearman (spearman : list Q -> list Q -> Q) (scores : dict (cell * cell) Q) : result Q :=
  let* acc := rfold eval_pair scores ([], [], 0, 0) in
  Ok (spearman (fst (fst (fst acc))) (snd (fst (fst acc)))).
End Eval.

(** ** CSV corpora *)
Inductive item : Type := Text (s : pystr) | Bytes (b : list N).
(** ''.join *)
Fixpoint join_text (l : list item) : result pystr :=
  match l with [] => Ok [] | Text s :: r => let* t := join_text r in Ok (s ++ t) | Bytes _ :: _ => Err TypeError end.
(** 51-57; opened with 'rb', the lines are bytes; [sniff] None: the error of a dialect that cannot be guessed *)
Definition csv_init {dialect : Type} (sniff : pystr -> option dialect) (header : pystr -> bool) (lines : list (list N)) : result (bool * dialect) :=
  let* head := join_text (map Bytes (firstn 5 lines)) in
  let* di := of_option RuntimeErr (sniff head) in
  Ok (header head, di).
