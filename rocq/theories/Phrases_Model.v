(** Collocation detection: models/phrases.py.

    Simplifications: logging/progress is dropped; scores are exact rationals, minus infinity or NaN
    (floating point rounding of the scorer is not modelled, the scorer itself is a parameter); tokens
    are strings, so [_is_single] (170-203) always takes the sentence branch; corpora are lists. *)
From Coq Require Import List Arith Lia Bool ZArith NArith QArith.
From Verif Require Import Base Str Utils_Model.
Import ListNotations.
Close Scope Q_scope.
Local Open Scope nat_scope.

(** ** Scores *)
Inductive score : Type := NegInf | Fin (q : Q) | NaN.
(** [score <= threshold] and [score > threshold] on floats. *)
Definition score_le (s : score) (t : Q) : bool :=
  match s with NegInf => true | Fin q => Qle_bool q t | NaN => false end.
Definition score_gt (s : score) (t : Q) : bool :=
  match s with NegInf => false | Fin q => negb (Qle_bool q t) | NaN => false end.

(** worda_count, wordb_count, bigram_count, len_vocab, min_count, corpus_word_count *)
Definition scorer : Type := nat -> nat -> nat -> nat -> Q -> nat -> score.

Definition inQ (n : nat) : Q := inject_Z (Z.of_nat n).

(** phrases.py 89-121: [original_scorer]. *)
Definition original_scorer : scorer := fun a b ab len_vocab min_count _ =>
  let denom := a * b in
  if denom =? 0 then NegInf
  else Fin ((inQ ab - min_count) / inQ denom * inQ len_vocab)%Q.

(** [str.split(delim)] for a non-empty delimiter: [skip] characters still belong to a delimiter. *)
Fixpoint is_prefix (d s : pystr) : bool :=
  match d, s with
  | [], _ => true
  | c :: d', c' :: s' => (c =? c')%N && is_prefix d' s'
  | _ :: _, [] => false
  end.
Fixpoint split_aux (d : pystr) (skip : nat) (cur s : pystr) : list pystr :=
  match s with
  | [] => [cur]
  | c :: s' =>
    match skip with
    | S k => split_aux d k cur s'
    | 0 => if is_prefix d s then cur :: split_aux d (length d - 1) [] s'
           else split_aux d 0 (cur ++ [c]) s'
    end
  end.
Definition str_split (d s : pystr) : result (list pystr) :=
  match d with [] => Err ValueError | _ => Ok (split_aux d 0 [] s) end.

(** ** The common transformation, phrases.py 206-336 *)

Section Analyze.
  Context {St : Type}.
  Variable connector_words : list pystr.
  (** [self.score_candidate(word_a, word_b, in_between)]; [None] stands for [(None, None)]. *)
  Variable score_candidate : St -> pystr -> pystr -> list pystr -> St * option (pystr * score).

  Definition plain (w : pystr) : pystr * option score := (w, None).
  (** [if start_token:] *)
  Definition truthy (o : option pystr) : option pystr :=
    match o with Some (c :: w) => Some (c :: w) | _ => None end.

  (** 226-274: [analyze_sentence], the yielded pairs in order. *)
  Fixpoint analyze (st : St) (start_token : option pystr) (in_between sentence : list pystr) : St * list (pystr * option score) :=
    match sentence with
    | [] =>
      match truthy start_token with
      | Some s => (st, plain s :: map plain in_between)
      | None => (st, [])
      end
    | word :: rest =>
      if negb (memb word connector_words) then
        match truthy start_token with
        | Some s =>
          match score_candidate st s word in_between with
          | (st', Some (phrase, sc)) =>
            let (st'', out) := analyze st' None [] rest in (st'', (phrase, Some sc) :: out)
          | (st', None) =>
            let (st'', out) := analyze st' (Some word) [] rest in (st'', plain s :: map plain in_between ++ out)
          end
        | None => analyze st (Some word) [] rest
        end
      else
        match truthy start_token with
        | Some s => analyze st (Some s) (in_between ++ [word]) rest
        | None => let (st', out) := analyze st start_token in_between rest in (st', plain word :: out)
        end
    end.
  Definition analyze_sentence (st : St) (sentence : list pystr) := analyze st None [] sentence.

  (** 276-302: [__getitem__] on one sentence. *)
  Definition transform (st : St) (sentence : list pystr) : St * list pystr :=
    let (st', out) := analyze_sentence st sentence in (st', map fst out).

  (** 304-336: [find_phrases]. *)
  Definition add_found (d : dict pystr score) (o : pystr * option score) : dict pystr score :=
    match snd o with Some sc => dset d (fst o) sc | None => d end.
  Fixpoint find_phrases_from (st : St) (d : dict pystr score) (sentences : list (list pystr)) : St * dict pystr score :=
    match sentences with
    | [] => (st, d)
    | s :: rest => let (st', out) := analyze_sentence st s in find_phrases_from st' (fold_left add_found out d) rest
    end.
  Definition find_phrases (st : St) (sentences : list (list pystr)) := find_phrases_from st [] sentences.
End Analyze.

(** ** Phrases, 424-725 *)

Record phrases : Type := mkPhrases {
  p_connectors : list pystr;
  p_scoring : scorer;
  p_min_count : Q;
  p_threshold : Q;
  p_max_vocab : Z;
  p_vocab : dict pystr nat;       (* defaultdict(int) *)
  p_min_reduce : nat;
  p_delim : pystr;
  p_words : nat                   (* corpus_word_count *)
}.

Definition with_vocab (p : phrases) (v : dict pystr nat) : phrases :=
  mkPhrases (p_connectors p) (p_scoring p) (p_min_count p) (p_threshold p) (p_max_vocab p) v (p_min_reduce p) (p_delim p) (p_words p).

(** 427-567, [sentences=None], a function given as [scoring] (so the threshold checks of the named
    scorers 528-531 do not apply). *)
Definition new_phrases (connectors : list pystr) (scoring : scorer) (min_count threshold : Q) (max_vocab : Z) (delim : pystr)
  : result phrases :=
  if Qle_bool min_count 0 then Err ValueError
  else Ok (mkPhrases connectors scoring min_count threshold max_vocab [] 1 delim 0).

(** [vocab[k] += n] on a defaultdict(int) *)
Definition incr (vocab : dict pystr nat) (k : pystr) (n : nat) : dict pystr nat := dset vocab k (dget_or vocab k 0 + n).

(** 590-600: one sentence of [_learn_vocab]. *)
Fixpoint learn_sentence (connectors : list pystr) (delim : pystr) (vocab : dict pystr nat) (start_token : option pystr)
    (in_between sentence : list pystr) : dict pystr nat :=
  match sentence with
  | [] => vocab
  | word :: rest =>
    if negb (memb word connectors) then
      let vocab1 := incr vocab word 1 in
      let vocab2 := match start_token with
                    | Some s => incr vocab1 (join delim (s :: in_between ++ [word])) 1
                    | None => vocab1
                    end in
      learn_sentence connectors delim vocab2 (Some word) [] rest
    else
      match start_token with
      | Some s => learn_sentence connectors delim vocab start_token (in_between ++ [word]) rest
      | None => learn_sentence connectors delim vocab start_token in_between rest
      end
  end.

(** 578-610: [_learn_vocab]; state is (min_reduce, vocab, total_words). *)
Definition learn_step (connectors : list pystr) (delim : pystr) (max_vocab : Z) (s : nat * dict pystr nat * nat) (sentence : list pystr)
  : result (nat * dict pystr nat * nat) :=
  let '(min_reduce, vocab, total) := s in
  let vocab' := learn_sentence connectors delim vocab None [] sentence in
  let total' := total + length sentence in
  if (max_vocab <? Z.of_nat (length vocab'))%Z
  then let* r := prune_vocab vocab' min_reduce None in Ok (min_reduce + 1, fst r, total')
  else Ok (min_reduce, vocab', total').

Definition learn_vocab (sentences : list (list pystr)) (max_vocab : Z) (delim : pystr) (connectors : list pystr)
  : result (nat * dict pystr nat * nat) :=
  rfold (learn_step connectors delim max_vocab) sentences (1, [], 0).

(** 612-665: [add_vocab]. *)
Definition add_vocab (p : phrases) (sentences : list (list pystr)) : result phrases :=
  let* r := learn_vocab sentences (p_max_vocab p) (p_delim p) (p_connectors p) in
  let '(min_reduce, vocab, total) := r in
  let mk v m := mkPhrases (p_connectors p) (p_scoring p) (p_min_count p) (p_threshold p) (p_max_vocab p) v m (p_delim p) (p_words p + total) in
  match p_vocab p with
  | [] => Ok (mk vocab (p_min_reduce p))
  | _ =>
    let m := Nat.max (p_min_reduce p) min_reduce in
    let merged := fold_left (fun d kc => incr d (fst kc) (snd kc)) vocab (p_vocab p) in
    if (p_max_vocab p <? Z.of_nat (length merged))%Z
    then let* r := prune_vocab merged m None in Ok (mk (fst r) (m + 1))
    else Ok (mk merged m)
  end.

(** [self.vocab[k]] on a defaultdict(int): reading a missing key stores 0. *)
Definition read_vocab (vocab : dict pystr nat) (k : pystr) : dict pystr nat * nat :=
  match dget vocab k with Some c => (vocab, c) | None => (dset vocab k 0, 0) end.

(** 667-690: [Phrases.score_candidate]. *)
Definition score_candidate (p : phrases) (word_a word_b : pystr) (in_between : list pystr) : phrases * option (pystr * score) :=
  let (v1, ca) := read_vocab (p_vocab p) word_a in
  if ca =? 0 then (with_vocab p v1, None) else
  let (v2, cb) := read_vocab v1 word_b in
  if cb =? 0 then (with_vocab p v2, None) else
  let phrase := join (p_delim p) (word_a :: in_between ++ [word_b]) in
  let (v3, cab) := read_vocab v2 phrase in
  if cab =? 0 then (with_vocab p v3, None) else
  let s := p_scoring p ca cb cab (length v3) (p_min_count p) (p_words p) in
  if score_le s (p_threshold p) then (with_vocab p v3, None) else (with_vocab p v3, Some (phrase, s)).

(** 708-725: [export_phrases]. The loop iterates over [self.vocab] itself: if [score_candidate] adds a
    key, the next step of the iteration raises RuntimeError. *)
Fixpoint export_loop (p : phrases) (res : dict pystr score) (tokens : list pystr) : result (phrases * dict pystr score) :=
  match tokens with
  | [] => Ok (p, res)
  | token :: rest =>
    let* unigrams := str_split (p_delim p) token in
    match unigrams with
    | [] | [_] => export_loop p res rest
    | u0 :: us =>
      let (p', r) := score_candidate p u0 (last us u0) (removelast us) in
      let res' := match r with Some (phrase, sc) => dset res phrase sc | None => res end in
      if length (p_vocab p') =? length (p_vocab p) then export_loop p' res' rest else Err RuntimeErr
    end
  end.
Definition export_phrases (p : phrases) : result (phrases * dict pystr score) := export_loop p [] (dkeys (p_vocab p)).

(** ** FrozenPhrases, 728-788 *)
Record frozen : Type := mkFrozen {
  f_connectors : list pystr;
  f_threshold : Q;
  f_delim : pystr;
  f_grams : dict pystr score
}.
Definition freeze (p : phrases) : result frozen :=
  let* r := export_phrases p in Ok (mkFrozen (p_connectors p) (p_threshold p) (p_delim p) (snd r)).

(** 783-788 *)
Definition frozen_score (f : frozen) (word_a word_b : pystr) (in_between : list pystr) : frozen * option (pystr * score) :=
  let phrase := join (f_delim f) (word_a :: in_between ++ [word_b]) in
  let s := dget_or (f_grams f) phrase NegInf in
  if score_gt s (f_threshold f) then (f, Some (phrase, s)) else (f, None).

Definition live_analyze (p : phrases) (sentence : list pystr) := analyze_sentence (p_connectors p) score_candidate p sentence.
Definition frozen_analyze (f : frozen) (sentence : list pystr) := snd (analyze_sentence (f_connectors f) frozen_score f sentence).

(** ** load, 338-421 *)

(** What a pickle of some version may hold. Byte strings are shown as the text they decode to. *)
Inductive gram_key : Type := GStr (s : pystr) | GTuple (parts : list pystr).
Inductive gram_val : Type := GScore (s : score) | GPair (freq : nat) (s : score).
Record pickled : Type := mkPickled {
  k_grams : dict gram_key gram_val;
  k_common_terms : option (list pystr);     (* attribute of versions before 4.0 *)
  k_connectors : option (list pystr);       (* attribute since 4.0 *)
  k_threshold : Q;
  k_delim : pystr
}.
#[export] Instance gram_key_eq : EqDec gram_key.
Proof. intros x y. decide equality; apply eq_dec. Defined.

(** 355-372. [delimiter.join(key)] of a str key is not reached by any version's files. *)
Definition gram_name (delim : pystr) (k : gram_key) : pystr := match k with GStr s => s | GTuple parts => join delim parts end.
Definition val_score (v : gram_val) : score := match v with GScore s => s | GPair _ s => s end.
Definition upgrade_grams (delim : pystr) (g : dict gram_key gram_val) : dict pystr score :=
  match g with
  | [] => []
  | (component, sc) :: _ =>
    match sc, component with
    | GPair _ _, _ => dict_of (map (fun kv => (gram_name delim (fst kv), val_score (snd kv))) g)
    | GScore s, GTuple _ => dict_of (map (fun _ => (gram_name delim component, s)) g)
    | GScore _, GStr _ => map (fun kv => (gram_name delim (fst kv), val_score (snd kv))) g
    end
  end.
(** 393-402: the connector words are taken from [common_terms] or else emptied. *)
Definition load_frozen (k : pickled) : frozen :=
  mkFrozen (match k_common_terms k with Some c => c | None => [] end) (k_threshold k) (k_delim k) (upgrade_grams (k_delim k) (k_grams k)).

(** What [save] of the present version writes. *)
Definition save_frozen (f : frozen) : pickled :=
  mkPickled (map (fun kv => (GStr (fst kv), GScore (snd kv))) (f_grams f)) None (Some (f_connectors f)) (f_threshold f) (f_delim f).
