(** Model of how models saved by older versions are brought up to date when loaded: /repo/gensim/models/word2vec.py 1917-1953 (`Word2Vec._load_specials`),
    /repo/gensim/models/keyedvectors.py 239-272 (`_load_specials`, `_upconvert_old_vocab`), 274-329 (`allocate_vecattrs`, `set_vecattr`), 386-399 (`get_index`), 646-657 (the
    property `vocab`) and 1693-1713 (`_upconvert_old_d2vkv`).

    Simplifications: attributes are values of a type [V]; the values of one per-word attribute have one type, so that no allocation is refused; an old per-word object is its
    index and its attributes; the objects `vocabulary` and `trainables` of an old model are tables of their attributes (None: the model has no such object). *)
From Verif Require Import Base Str.

Section W2v.
Context {V : Type}.
Variables (vnone v075 v0 : V) (truthy : V -> bool) (rng : V -> V).
(** the table for negative sampling of the words of the model, for an exponent *)
Variable cum : V -> V.

Definition defaulted (a : pystr) (v : V) (attrs : dict pystr V) : dict pystr V := match dget attrs a with Some _ => attrs | None => dset attrs a v end.
Definition attr (attrs : dict pystr V) (a : pystr) : result V := of_option AttributeErr (dget attrs a).

Definition from_vocabulary : list pystr := [str "max_vocab_size"; str "min_count"; str "sample"; str "sorted_vocab"; str "null_word"; str "raw_vocab"].
Definition from_trainables : list pystr := [str "hashfxn"; str "layer1_size"; str "seed"; str "syn1neg"; str "syn1"].

(** 1943-1944 *)
Definition take_vocabulary (voc : dict pystr V) (attrs : dict pystr V) : result (dict pystr V) :=
  rfold (fun at_ a => let* v := attr voc a in Ok (dset at_ a v)) from_vocabulary attrs.
(** 1947-1952 *)
Definition take_trainables (tr : dict pystr V) (attrs : dict pystr V) : dict pystr V :=
  let attrs := fold_left (fun at_ a => match dget tr a with Some v => dset at_ a v | None => at_ end) from_trainables attrs in
  match dget attrs (str "syn1") with Some v => ddel (dset attrs (str "syn1") v) (str "syn1") | None => attrs end.

(** 1921-1953; [has_words]: the vectors have the attribute index_to_key *)
Definition upgrade_w2v (has_words : bool) (voc tr : option (dict pystr V)) (attrs : dict pystr V) : result (dict pystr V) :=
  let attrs := defaulted (str "ns_exponent") v075 attrs in
  let* negative := attr attrs (str "negative") in
  let* ns := attr attrs (str "ns_exponent") in
  let attrs := if truthy negative && has_words then dset attrs (str "cum_table") (cum ns) else attrs in
  let attrs := defaulted (str "corpus_total_words") vnone (defaulted (str "corpus_count") vnone attrs) in
  let* attrs := match dget attrs (str "random") with Some _ => Ok attrs | None => let* seed := attr attrs (str "seed") in Ok (dset attrs (str "random") (rng seed)) end in
  let attrs := match dget attrs (str "train_count") with Some _ => attrs | None => dset (dset attrs (str "train_count") v0) (str "total_train_time") v0 end in
  let* attrs := match dget attrs (str "epochs") with Some _ => Ok attrs | None => let* it := attr attrs (str "iter") in Ok (ddel (dset attrs (str "epochs") it) (str "iter")) end in
  let attrs := defaulted (str "max_final_vocab") vnone attrs in
  let* attrs := match voc with Some v => take_vocabulary v attrs | None => Ok attrs end in
  Ok (match tr with Some t => take_trainables t attrs | None => attrs end).
End W2v.

(** ** Keyed vectors *)
Inductive key : Type := KS (s : pystr) | KI (i : nat).
#[export] Instance key_dec : EqDec key.
Proof. intros a b. decide equality; apply eq_dec. Defined.

Section Kv.
Context {V M : Type}.
Variable vzero : V.
(** the attributes an old or new object may have *)
Record okv : Type := mkOkv { o_index_to_key : option (list key); o_index2word : option (list key); o_index2entity : option (list key); o_vectors : option M; o_syn0 : option M;
  o_expandos : option (dict pystr (list V)); o_key_to_index : option (dict key nat); o_vocab : option (dict key (nat * dict pystr V)); o_doctags : bool }.
Record nkv : Type := mkNkv { n_keys : option (list key); n_vectors : M; n_expandos : dict pystr (list V); n_index : dict key nat }.

(** 274-306 for one attribute *)
Definition allocate (n : nat) (a : pystr) (ex : dict pystr (list V)) : dict pystr (list V) :=
  match dget ex a with
  | None => dset ex a (repeat vzero n)
  | Some prev => if length prev =? n then ex else dset ex a (firstn n prev ++ repeat vzero (n - length prev))
  end.
(** 386-399 for an integer *)
Definition index_of_int (n : nat) (kti : dict key nat) (i : nat) : result nat :=
  match dget kti (KI i) with Some j => Ok j | None => if i <? n then Ok i else Err KeyError end.
(** 327-329 *)
Definition set_vecattr (keys : option (list key)) (kti : dict key nat) (i : nat) (a : pystr) (v : V) (ex : dict pystr (list V)) : result (dict pystr (list V)) :=
  match keys with
  | None => Err TypeError
  | Some ks =>
    let ex := allocate (length ks) a ex in
    let* j := index_of_int (length ks) kti i in
    match dget ex a with
    | Some col => if j <? length col then Ok (dset ex a (firstn j col ++ v :: skipn (S j) col)) else Err IndexError
    | None => Err KeyError
    end
  end.
(** 265-269 *)
Definition convert_one (keys : option (list key)) (st : dict key nat * dict pystr (list V)) (e : key * (nat * dict pystr V)) : result (dict key nat * dict pystr (list V)) :=
  let '(kti, ex) := st in
  let '(k, (i, attrs)) := e in
  let kti := dset kti k i in
  let* ex := rfold (fun x av => set_vecattr keys kti i (fst av) (snd av) x) attrs ex in
  Ok (kti, ex).
(** 239-272; the setter of the property `vocab` raises, so that 1695 does *)
Definition upgrade_kv (o : okv) : result nkv :=
  if o_doctags o then Err AttributeErr else
  let keys := match o_index_to_key o with Some k => Some k | None => match o_index2word o with Some k => Some k | None => o_index2entity o end end in
  let* vectors := match o_vectors o with Some v => Ok v | None => of_option AttributeErr (o_syn0 o) end in
  let ex := match o_expandos o with Some e => e | None => [] end in
  match o_key_to_index o with
  | Some kti => Ok (mkNkv keys vectors ex kti)
  | None =>
    match o_vocab o with
    | None => Err AttributeErr
    | Some voc => let* st := rfold (convert_one keys) voc ([], ex) in Ok (mkNkv keys vectors (snd st) (fst st))
    end
  end.
End Kv.
