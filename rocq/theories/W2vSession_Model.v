(** Model of the calls that build and train a Word2Vec or Doc2Vec model: /repo/gensim/models/word2vec.py 363-433 ([__init__]), 476-485 ([build_vocab]),
    1007-1062 ([train]), 1464-1477 ([_check_corpus_sanity]), 1501-1517 ([_check_training_sanity]), 819-850 ([prepare_weights]), keyedvectors.py 1946-1955
    ([prep_vectors], number of rows), doc2vec.py 275-303 ([__init__]) and 490-512 ([train]).

    Which words are kept is left open ([new_vocab]; W2vVocab_Model.v).  Training on the sentences of an epoch is the event that they are read
    (TrainJobs_Model.v); callbacks are told apart by their number and change nothing; numbers are rationals. *)
From Coq Require Import QArith.
From Verif Require Import Base Str.
Close Scope Q_scope.
Local Open Scope nat_scope.

Definition sentence : Type := list pystr.
(** [corpus_iterable]: what can be read again, and what can be read once (a generator or another iterator) *)
Inductive corpus : Type := NoCorpus | NotIterable | Again (l : list sentence) | Once (generator : bool) (l : list sentence).
(** [corpus_file]: the sentences of an existing file *)
Inductive file : Type := NoFile | Missing | File (l : list sentence).
Definition read (c : corpus) : list sentence * corpus :=
  match c with Again l => (l, c) | Once g l => (l, Once g []) | _ => ([], c) end.
Record model : Type := mkModel { m_vocab : list pystr; m_rows : nat; m_alpha : Q; m_min_alpha : Q; m_epochs : option Z; m_loss : bool; m_trained : nat; m_count : nat; m_words : nat }.
Inductive event : Type := TrainBegin (callback : nat) | EpochBegin (callback : nat) | Read (l : list sentence) | EpochEnd (callback : nat) | TrainEnd (callback : nat).
Definition outcome : Type := result unit * model * corpus * list event.

(** word2vec.py 1464-1477 *)
Definition check_corpus (c : corpus) (f : file) (passes : Z) : result unit :=
  match c, f with
  | NoCorpus, NoFile => Err TypeError
  | NoCorpus, Missing => Err TypeError
  | NoCorpus, File _ => Ok tt
  | NotIterable, NoFile => Err TypeError
  | Once true _, NoFile => if (1 <? passes)%Z then Err TypeError else Ok tt
  | _, NoFile => Ok tt
  | _, _ => Err TypeError
  end.
(** 1504-1517 *)
Definition check_training (m : model) (epochs examples words : option Z) : result unit :=
  match m_vocab m with
  | [] => Err RuntimeErr
  | _ => if m_rows m =? 0 then Err RuntimeErr
         else match words, examples with
              | None, None => Err ValueError
              | _, _ => match epochs with Some e => if (e <=? 0)%Z then Err ValueError else Ok tt | None => Err ValueError end
              end
  end.

Record args : Type := mkArgs { a_examples : option Z; a_words : option Z; a_epochs : option Z; a_start : option Q; a_end : option Q; a_loss : bool }.
(** [x or y] *)
Definition num_or (x : option Q) (y : Q) : Q := match x with Some q => if Qeq_bool q 0 then y else q | None => y end.
(** The epochs: 1027-1050.  A file is read anew in every epoch. *)
Fixpoint epochs_of (callbacks : nat) (f : file) (n : nat) (c : corpus) : list event * corpus :=
  match n with
  | 0 => ([], c)
  | S n' =>
    let (l, c') := match c, f with NoCorpus, File l => (l, c) | _, _ => read c end in
    let (rest, c'') := epochs_of callbacks f n' c' in
    (map EpochBegin (seq 0 callbacks) ++ [Read l] ++ map EpochEnd (seq 0 callbacks) ++ rest, c'')
  end.
(** 1007-1062 *)
Definition train (callbacks : nat) (m : model) (c : corpus) (f : file) (a : args) : outcome :=
  let m := mkModel (m_vocab m) (m_rows m) (num_or (a_start a) (m_alpha m)) (num_or (a_end a) (m_min_alpha m)) (a_epochs a) (m_loss m) (m_trained m) (m_count m) (m_words m) in
  match check_training m (a_epochs a) (a_examples a) (a_words a) with
  | Err e => (Err e, m, c, [])
  | Ok _ =>
    let n := match a_epochs a with Some e => e | None => 0%Z end in
    match check_corpus c f n with
    | Err e => (Err e, m, c, [])
    | Ok _ =>
      let (evs, c') := epochs_of callbacks f (Z.to_nat n) c in
      (Ok tt, mkModel (m_vocab m) (m_rows m) (m_alpha m) (m_min_alpha m) (m_epochs m) (a_loss a) (S (m_trained m)) (m_count m) (m_words m), c',
       map TrainBegin (seq 0 callbacks) ++ evs ++ map TrainEnd (seq 0 callbacks))
    end
  end.
(** doc2vec.py 490-512: the corpus is looked at first, but not whether it is a generator *)
Definition d2v_train (callbacks : nat) (m : model) (c : corpus) (f : file) (a : args) : outcome :=
  match check_corpus c f 1 with Err e => (Err e, m, c, []) | Ok _ => train callbacks m c f a end.

Section Build.
(** The vocabulary from the old one and the sentences *)
Variable new_vocab : bool -> list pystr -> list sentence -> list pystr.
(** keyedvectors.py 1946-1955: an array of more than one row does not fit into a smaller one *)
Definition prep_rows (rows n : nat) : result nat := if (n <? rows) && negb (rows =? 1) then Err ValueError else Ok n.
(** word2vec.py 476-485, 819-850 *)
Definition build_vocab (update : bool) (m : model) (c : corpus) (f : file) : outcome :=
  match check_corpus c f 1 with
  | Err e => (Err e, m, c, [])
  | Ok _ =>
    let (l, c') := match f with File l => (l, c) | _ => read c end in
    let v := new_vocab update (m_vocab m) l in
    let with_rows := fun rows => mkModel v rows (m_alpha m) (m_min_alpha m) (m_epochs m) (m_loss m) (m_trained m) (length l) (length (concat l)) in
    if update && (m_rows m =? 0) then (Err RuntimeErr, with_rows (m_rows m), c', [Read l])
    else match prep_rows (m_rows m) (length v) with
         | Err e => (Err e, with_rows (m_rows m), c', [Read l])
         | Ok n => (Ok tt, with_rows n, c', [Read l])
         end
  end.

(** 363-412: the model before a corpus is looked at *)
Definition fresh (alpha min_alpha : Q) (epochs : Z) (loss : bool) : model := mkModel [] 0 alpha min_alpha (Some epochs) loss 0 0 0.
(** 363-433; [training] is the method [train] of the class *)
Definition construct (training : nat -> model -> corpus -> file -> args -> outcome) (callbacks : nat) (alpha min_alpha : Q) (epochs : Z) (loss : bool) (c : corpus) (f : file) : outcome :=
  let m := fresh alpha min_alpha epochs loss in
  match c, f with
  | NoCorpus, NoFile => (Ok tt, m, c, [])
  | _, _ =>
    match check_corpus c f (epochs + 1) with
    | Err e => (Err e, m, c, [])
    | Ok _ =>
      match build_vocab false m c f with
      | (Err e, m', c', evs) => (Err e, m', c', evs)
      | (Ok _, m', c', evs) =>
        let '(r, m'', c'', evs') := training callbacks m' c' f (mkArgs (Some (Z.of_nat (m_count m'))) (Some (Z.of_nat (m_words m'))) (m_epochs m') (Some (m_alpha m')) (Some (m_min_alpha m')) (m_loss m')) in
        (r, m'', c'', evs ++ evs')
      end
    end
  end.

(** A history of calls on one model; the exception of a call does not end it. *)
Inductive call : Type := CBuild (update : bool) (c : corpus) (f : file) | CTrain (callbacks : nat) (c : corpus) (f : file) (a : args).
Definition do_call (m : model) (x : call) : result unit * model :=
  match x with
  | CBuild u c f => let '(r, m', _, _) := build_vocab u m c f in (r, m')
  | CTrain k c f a => let '(r, m', _, _) := train k m c f a in (r, m')
  end.
Fixpoint do_calls (m : model) (l : list call) : list (result unit) * model :=
  match l with [] => ([], m) | x :: l' => let (r, m') := do_call m x in let (rs, m'') := do_calls m' l' in (r :: rs, m'') end.
End Build.

(** ** Settings of Doc2Vec: doc2vec.py 277-303, word2vec.py 376, 385, 407-408.  [cbow_mean] is passed on with other arguments. *)
Record settings : Type := mkSettings { s_sg : Z; s_cbow_mean : Z; s_layer1 : Z }.
Definition d2v_settings (dm dm_concat dm_tag_count window vector_size : Z) (dm_mean cbow_mean : option Z) : settings :=
  let before := dm_mean in (* 278: overwritten by word2vec.py 385 *)
  let layer1 := if negb (dm =? 0)%Z && negb (dm_concat =? 0)%Z then Some ((dm_tag_count + 2 * window) * vector_size)%Z else None in
  mkSettings ((1 + dm) mod 2)%Z (match cbow_mean with Some n => n | None => 1%Z end) (match layer1 with Some n => n | None => vector_size end).
