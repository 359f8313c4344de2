(** Model of the training steps of Word2Vec and Doc2Vec: /repo/gensim/models/word2vec_inner.pyx 74-139
    ([w2v_fast_sentence_sg_hs]), 159-246 ([w2v_fast_sentence_sg_neg]), 249-345 ([..._cbow_hs]), 348-466 ([..._cbow_neg]) and
    /repo/gensim/models/doc2vec_inner.pyx 36-223 (the dbow, dm and dmc passes), 285-412 ([train_document_dbow]), 415-557
    ([train_document_dm]), 560-694 ([train_document_dm_concat]); /repo/gensim/models/doc2vec.py 585-649 ([infer_vector]).

    Simplifications: scalars are of an arbitrary type [F] with arbitrary operations, so rounding is allowed for.  A matrix is
    a list of rows; all rows have the size of the layer and all row numbers are in range (the C code does not check them).
    Random numbers come from a state of type [S] with [draw]: the next negative word.  The words of a document arrive as the
    row numbers that are in the vocabulary and were not down-sampled (see TrainJobs_Model, Downsample_Model), at most 10000.
    Reading a lock factor outside its array gives [junk]. *)

From Verif Require Import Base KeyedVectors_Model TrainJobs_Model.
Local Open Scope nat_scope.

Section Step.
Context {F S : Type}.
Variables (f0 f1 junk : F) (fadd fsub fmul : F -> F -> F) (fneg : F -> F) (finv : nat -> F).
Variable skip : F -> bool.      (* f <= -MAX_EXP or f >= MAX_EXP *)
Variable act : F -> F.          (* EXP_TABLE[...] *)
Variable logact : F -> F.       (* LOG_TABLE[...] *)
Variable draw : S -> nat * S.

Notation vec := (list F).
Notation mat := (list (list F)).
Definition row (m : mat) (i : nat) : vec := nth i m [].
Definition dot (x y : vec) : F := fold_left (fun a p => fadd a (fmul (fst p) (snd p))) (combine x y) f0.
(** [y += a * x] *)
Fixpoint saxpy (a : F) (x y : vec) : vec :=
  match x, y with
  | u :: x', v :: y' => fadd (fmul a u) v :: saxpy a x' y'
  | _, _ => y
  end.
Definition sscal (a : F) (x : vec) : vec := map (fmul a) x.

(** One output of the pass: its row in the hidden layer and whether it is right. *)
Definition target : Type := nat * bool.
Definition label (b : bool) : F := if b then f1 else f0.
(** The argument of LOG_TABLE: word2vec_inner.pyx 121-122 and 319-320 (hierarchical softmax: -1 * sgn * f_dot, where sgn is 1
    for code 0, the label of which is 1), 230 and 440 (negative sampling). *)
Definition loss_arg (hs : bool) (b : bool) (f : F) : F := if hs then (if b then fneg f else f) else (if b then f else fneg f).

(** The body of the loop over outputs.  [h] is the input of the pass, [work] its error, [loss] the running loss. *)
Definition out_step (hs compute_loss learn_hidden : bool) (alpha : F) (h : vec) (st : vec * mat * F) (t : target) : vec * mat * F :=
  let '(work, W, loss) := st in
  let '(r, b) := t in
  let f := dot h (row W r) in
  if skip f then st else
  let g := fmul (fsub (label b) (act f)) alpha in
  if compute_loss && skip (loss_arg hs b f) then st else
  let loss' := if compute_loss then fsub loss (logact (loss_arg hs b f)) else loss in
  (saxpy g (row W r) work, if learn_hidden then set_nth W r (saxpy g h (row W r)) else W, loss').
Definition out_pass hs compute_loss learn_hidden alpha h (ts : list target) st := fold_left (out_step hs compute_loss learn_hidden alpha h) ts st.

(** The outputs of a word: its Huffman path, ... *)
Definition hs_targets (path : list (nat * bool)) : list target := map (fun pc => (fst pc, negb (snd pc))) path.
(** ... or the word and [negative] drawn words; a drawn word that is the word itself is left out. *)
Fixpoint draws (n : nat) (s : S) : list nat * S :=
  match n with
  | 0 => ([], s)
  | Datatypes.S n' => let '(t, s1) := draw s in let '(l, s2) := draws n' s1 in (t :: l, s2)
  end.
Definition neg_targets (w : nat) (ds : list nat) : list target := (w, true) :: map (fun t => (t, false)) (filter (fun t => negb (t =? w)) ds).

(** Lock factors: [lockf[i % n]]. *)
Definition lock (lockf : vec) (n i : nat) : F := nth (i mod n) lockf junk.

(** sg and dbow: row [c] of [X] predicts. *)
Definition dbow_update (hs compute_loss learn_context learn_hidden : bool) (alpha lockf : F) (size : nat) (X : mat) (c : nat) (ts : list target) (W : mat) (loss : F)
  : mat * mat * F :=
  let h := row X c in
  let '(work, W', loss') := out_pass hs compute_loss learn_hidden alpha h ts (repeat f0 size, W, loss) in
  (if learn_context then set_nth X c (saxpy lockf work h) else X, W', loss').

(** cbow and dm: the sum or mean of the rows [ws] of [X] and [ts] of [T] predicts. *)
Definition sum_rows (X : mat) (is : list nat) (acc : vec) : vec := fold_left (fun a i => saxpy f1 (row X i) a) is acc.
Definition inv_count (n : nat) : F := if n =? 0 then f1 else finv n.
Definition compose (mean : bool) (size : nat) (X T : mat) (ws ts : list nat) : vec :=
  let neu1 := sum_rows T ts (sum_rows X ws (repeat f0 size)) in
  if mean then sscal (inv_count (length ws + length ts)) neu1 else neu1.
Definition spread (lockf : nat -> F) (work : vec) (X : mat) (is : list nat) : mat := fold_left (fun X i => set_nth X i (saxpy (lockf i) work (row X i))) is X.
Definition ctx_step (compute_loss mean learn_words learn_tags learn_hidden : bool) (alpha : F) (lock_w lock_t : nat -> F) (size : nat)
    (X T : mat) (ws ts : list nat) (path : list target) (W1 : mat) (negs : list target) (W2 : mat) (loss : F) : mat * mat * mat * mat * F :=
  let h := compose mean size X T ws ts in
  let '(work1, W1', loss1) := out_pass true compute_loss learn_hidden alpha h path (repeat f0 size, W1, loss) in
  let '(work2, W2', loss2) := out_pass false compute_loss learn_hidden alpha h negs (work1, W2, loss1) in
  let work := if mean then work2 else sscal (inv_count (length ws + length ts)) work2 in
  (if learn_words then spread lock_w work X ws else X, if learn_tags then spread lock_t work T ts else T, W1', W2', loss2).

(** word2vec: one position of a sentence; only one of the output layers is used by each function. *)
Definition sg_hs compute_loss alpha lockf size X c path W loss := dbow_update true compute_loss true true alpha lockf size X c (hs_targets path) W loss.
Definition sg_neg compute_loss alpha lockf size X c w ds W loss := dbow_update false compute_loss true true alpha lockf size X c (neg_targets w ds) W loss.
Definition cbow_hs compute_loss mean alpha lock_w size X ws path W1 loss :=
  let '(X', _, W1', _, loss') := ctx_step compute_loss mean true false true alpha lock_w lock_w size X [] ws [] (hs_targets path) W1 [] [] loss in (X', W1', loss').
Definition cbow_neg compute_loss mean alpha lock_w size X ws w ds W2 loss :=
  let '(X', _, _, W2', loss') := ctx_step compute_loss mean true false true alpha lock_w lock_w size X [] ws [] [] [] (neg_targets w ds) W2 loss in (X', W2', loss').

(** ** Doc2Vec: training on a document *)
Record config : Type := Config {
  c_hs : bool; c_negative : nat; c_mean : bool; c_alpha : F; c_size : nat; c_window : nat;
  c_words_lockf : vec; c_tags_lockf : vec; c_path : nat -> list (nat * bool); c_train_words : bool;
  c_tag_count : nat; c_null : nat; c_vector_size : nat
}.
Record learn : Type := Learn { l_tags : bool; l_words : bool; l_hidden : bool }.
Record weights : Type := Weights { w_words : mat; w_tags : mat; w_syn1 : mat; w_neg : mat; w_rnd : S }.

(** One call of [fast_document_dbow_hs] and one of [fast_document_dbow_neg], on words (382-399) or tags (401-410). *)
Definition dbow_words (c : config) (l : learn) (m : weights) (w ctx : nat) : weights :=
  let lf := lock (c_words_lockf c) (length (c_words_lockf c)) ctx in
  let m1 := if c_hs c then
      let '(X, W, _) := dbow_update true false (l_words l) (l_hidden l) (c_alpha c) lf (c_size c) (w_words m) ctx (hs_targets (c_path c w)) (w_syn1 m) f0 in
      Weights X (w_tags m) W (w_neg m) (w_rnd m)
    else m in
  if c_negative c =? 0 then m1 else
    let '(ds, s) := draws (c_negative c) (w_rnd m1) in
    let '(X, W, _) := dbow_update false false (l_words l) (l_hidden l) (c_alpha c) lf (c_size c) (w_words m1) ctx (neg_targets w ds) (w_neg m1) f0 in
    Weights X (w_tags m1) (w_syn1 m1) W s.
Definition dbow_tags (c : config) (l : learn) (m : weights) (w tag : nat) : weights :=
  let lf := lock (c_tags_lockf c) (length (c_tags_lockf c)) tag in
  let m1 := if c_hs c then
      let '(T, W, _) := dbow_update true false (l_tags l) (l_hidden l) (c_alpha c) lf (c_size c) (w_tags m) tag (hs_targets (c_path c w)) (w_syn1 m) f0 in
      Weights (w_words m) T W (w_neg m) (w_rnd m)
    else m in
  if c_negative c =? 0 then m1 else
    let '(ds, s) := draws (c_negative c) (w_rnd m1) in
    let '(T, W, _) := dbow_update false false (l_tags l) (l_hidden l) (c_alpha c) lf (c_size c) (w_tags m1) tag (neg_targets w ds) (w_neg m1) f0 in
    Weights (w_words m1) T (w_syn1 m1) W s.

(** 376-411; [idx]: the words, [reduced]: the random reductions of the window. *)
Definition dbow_position (c : config) (l : learn) (idx : list nat) (reduced : nat -> nat) (tags : list nat) (m : weights) (i : nat) : weights :=
  let w := nth i idx 0 in
  let m1 := if c_train_words c then fold_left (fun m j => dbow_words c l m w (nth j idx 0)) (window_of (c_window c) reduced 0 (length idx) i) m else m in
  fold_left (fun m t => dbow_tags c l m w t) tags m1.
Definition train_dbow (c : config) (l : learn) (idx : list nat) (reduced : nat -> nat) (tags : list nat) (m : weights) : weights * nat :=
  (fold_left (dbow_position c l idx reduced tags) (seq 0 (length idx)) m, length idx + length tags).

(** 508-556.  Line 554 takes the lock factor of a word at its number modulo the length of the tags' lock factors. *)
Definition dm_position (c : config) (l : learn) (idx : list nat) (reduced : nat -> nat) (tags : list nat) (m : weights) (i : nat) : weights :=
  let w := nth i idx 0 in
  let ws := map (fun j => nth j idx 0) (window_of (c_window c) reduced 0 (length idx) i) in
  let path := if c_hs c then hs_targets (c_path c w) else [] in
  let '(ds, s) := if c_negative c =? 0 then ([], w_rnd m) else draws (c_negative c) (w_rnd m) in
  let negs := if c_negative c =? 0 then [] else neg_targets w ds in
  let '(X, T, W1, W2, _) := ctx_step false (c_mean c) (l_words l) (l_tags l) (l_hidden l) (c_alpha c)
      (lock (c_words_lockf c) (length (c_tags_lockf c))) (lock (c_tags_lockf c) (length (c_tags_lockf c))) (c_size c)
      (w_words m) (w_tags m) ws tags path (w_syn1 m) negs (w_neg m) f0 in
  Weights X T W1 W2 s.
Definition train_dm (c : config) (l : learn) (idx : list nat) (reduced : nat -> nat) (tags : list nat) (m : weights) : weights * nat :=
  (fold_left (dm_position c l idx reduced tags) (seq 0 (length idx)) m, length idx + length tags).

(** 648-692: the input is the concatenation of the tags and the [2 * window] words around, padded with the null word. *)
Definition concat_window (c : config) (idx : list nat) (i : nat) : list nat :=
  map (fun m => if ((m <? 0) || (Z.of_nat (length idx) <=? m))%Z then c_null c else nth (Z.to_nat m) idx 0)
    (filter (fun m => negb (m =? Z.of_nat i)%Z)
       (map (fun n => (Z.of_nat i - Z.of_nat (c_window c) + Z.of_nat n)%Z) (seq 0 (2 * c_window c + 1)))).
Definition piece (v n : nat) (x : vec) : vec := firstn v (skipn (n * v) x).
Definition spread_pieces (lockf : nat -> F) (v off : nat) (work : vec) (X : mat) (is : list nat) : mat :=
  fold_left (fun X p => set_nth X (snd p) (saxpy (lockf (snd p)) (piece v (off + fst p) work) (row X (snd p)))) (combine (seq 0 (length is)) is) X.
Definition concat_position (c : config) (l : learn) (idx tags : list nat) (m : weights) (i : nat) : weights :=
  let w := nth i idx 0 in
  let win := concat_window c idx i in
  let h := concat (map (row (w_tags m)) tags ++ map (row (w_words m)) win) in
  let '(work1, W1, _) := if c_hs c then out_pass true false (l_hidden l) (c_alpha c) h (hs_targets (c_path c w)) (repeat f0 (c_size c), w_syn1 m, f0)
                         else (repeat f0 (c_size c), w_syn1 m, f0) in
  let '(ds, s) := if c_negative c =? 0 then ([], w_rnd m) else draws (c_negative c) (w_rnd m) in
  let '(work, W2, _) := if c_negative c =? 0 then (work1, w_neg m, f0)
                        else out_pass false false (l_hidden l) (c_alpha c) h (neg_targets w ds) (work1, w_neg m, f0) in
  Weights (if l_words l then spread_pieces (lock (c_words_lockf c) (length (c_words_lockf c))) (c_vector_size c) (length tags) work (w_words m) win else w_words m)
          (if l_tags l then spread_pieces (lock (c_tags_lockf c) (length (c_tags_lockf c))) (c_vector_size c) 0 work (w_tags m) tags else w_tags m)
          W1 W2 s.
(** 623: a document with another number of tags is left out. *)
Definition train_concat (c : config) (l : learn) (idx tags : list nat) (m : weights) : weights * nat :=
  if negb (length tags =? c_tag_count c) then (m, 0)
  else (fold_left (concat_position c l idx tags) (seq 0 (length idx)) m, length idx + length tags).

(** ** [infer_vector]: doc2vec.py 617-649 *)
Inductive mode : Type := Dbow | Dm | DmConcat.
Definition set_alpha (c : config) (a : F) : config :=
  Config (c_hs c) (c_negative c) (c_mean c) a (c_size c) (c_window c) (c_words_lockf c) [f1] (c_path c) false (c_tag_count c) (c_null c) (c_vector_size c).
Definition infer_only : learn := Learn true false false.
(** The words kept and the window reductions of every epoch are drawn anew: [kept e], [reduced e]. *)
Definition infer_epoch (md : mode) (c : config) (kept : nat -> list nat) (reduced : nat -> nat -> nat) (alphas : nat -> F) (m : weights) (e : nat) : weights :=
  let c := set_alpha c (alphas e) in
  match md with
  | Dbow => fst (train_dbow c infer_only (kept e) (reduced e) [0] m)
  | Dm => fst (train_dm c infer_only (kept e) (reduced e) [0] m)
  | DmConcat => fst (train_concat c infer_only (kept e) [0] m)
  end.
(** The model's tags are replaced by the one new vector; the result is that vector and the weights after. *)
Definition infer_vector (md : mode) (c : config) (start : vec) (kept : nat -> list nat) (reduced : nat -> nat -> nat) (alphas : nat -> F) (epochs : nat) (m : weights)
  : vec * weights :=
  let m' := fold_left (infer_epoch md c kept reduced alphas) (seq 0 epochs) (Weights (w_words m) [start] (w_syn1 m) (w_neg m) (w_rnd m)) in
  (row (w_tags m') 0, Weights (w_words m') (w_tags m) (w_syn1 m') (w_neg m') (w_rnd m')).
(** 617-619: [alpha or self.alpha] takes the model's value also when 0 is given; 627 and 648: the learning rate of every epoch.
    The parameter [steps] is not used. *)
Definition or_else {A} (is_zero : A -> bool) (given : option A) (own : A) : A :=
  match given with Some a => if is_zero a then own else a | None => own end.
Definition infer_delta (alpha min_alpha : F) (epochs : nat) : F := fmul (fsub alpha min_alpha) (finv (Nat.max (epochs - 1) 1)).
Fixpoint infer_alpha (alpha delta : F) (e : nat) : F := match e with 0 => alpha | Datatypes.S e' => fsub (infer_alpha alpha delta e') delta end.
End Step.
