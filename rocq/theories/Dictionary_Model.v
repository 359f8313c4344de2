(** Model of gensim/corpora/dictionary.py (class Dictionary).

    Documents are lists of [str] tokens; the [bytes] branch of doc2bow (line 244)
    and the TypeError for a plain string argument (lines 238-239, 300-301) are
    not modelled because documents are typed.  Logging is not modelled, except
    where a log argument performs a lookup that may raise or refresh the cache. *)

From Verif Require Import Base Str.
From Coq Require Import QArith.
Local Open Scope nat_scope.

(** dictionary.py 69-76: the attributes set by [__init__]. *)
Record dictionary : Type := mkDictionary {
  d_token2id : dict pystr nat;
  d_id2token : dict nat pystr;
  d_cfs : dict nat nat;
  d_dfs : dict nat nat;
  d_num_docs : nat;
  d_num_pos : nat;
  d_num_nnz : nat
}.

(** dictionary.py 44-76: [Dictionary()]. *)
Definition d_empty : dictionary := mkDictionary [] [] [] [] 0 0 0.

Definition with_id2token (d : dictionary) (m : dict nat pystr) : dictionary :=
  mkDictionary (d_token2id d) m (d_cfs d) (d_dfs d) (d_num_docs d) (d_num_pos d) (d_num_nnz d).

(** utils.py 1385-1412: [revdict]. *)
Definition revdict {K V : Type} `{EqDec V} (m : dict K V) : dict V K :=
  dict_of (map (fun kv => (snd kv, fst kv)) m).

(** dictionary.py 100-103: refresh of the reverse map when the sizes differ. *)
Definition d_refresh (d : dictionary) : dictionary :=
  if length (d_id2token d) =? length (d_token2id d) then d
  else with_id2token d (revdict (d_token2id d)).

(** dictionary.py 81-104: [__getitem__]; returns the (possibly refreshed)
    dictionary and the token or KeyError. *)
Definition d_getitem (d : dictionary) (tokenid : nat) : dictionary * result pystr :=
  let d' := d_refresh d in
  (d', of_option KeyError (dget (d_id2token d') tokenid)).

(** dictionary.py 119-128, 130-139: [keys], [__len__]. *)
Definition d_keys (d : dictionary) : list nat := dvals (d_token2id d).
Definition d_len (d : dictionary) : nat := length (d_token2id d).

(** dictionary.py 242-244: the (word, frequency) counter. *)
Definition count_words (document : list pystr) : dict pystr nat :=
  fold_left (fun c w => dset c w (dget_or c w 0 + 1)) document [].

(** Order of the items [(word, freq)] under [sorted] (line 248): tuples compare
    lexicographically. *)
Definition item_leb (a b : pystr * nat) : bool :=
  if str_leb (fst a) (fst b)
  then if str_leb (fst b) (fst a) then snd a <=? snd b else true
  else false.

(** dictionary.py 248: [sorted(x for x in counter.items() if x[0] not in token2id)]. *)
Definition d_missing (token2id : dict pystr nat) (counter : dict pystr nat) : list (pystr * nat) :=
  isort item_leb (filter (fun x => negb (dmem token2id (fst x))) counter).

(** dictionary.py 249-253: new tokens get the next ids, in sorted order. *)
Definition d_assign (token2id : dict pystr nat) (missing : list (pystr * nat)) : dict pystr nat :=
  fold_left (fun t wf => dset t (fst wf) (length t)) missing token2id.

(** dictionary.py 254: [{token2id[w]: freq for w, freq in counter.items() if w in token2id}]. *)
Definition d_bow (token2id : dict pystr nat) (counter : dict pystr nat) : dict nat nat :=
  dict_of (flat_map (fun wf => match dget token2id (fst wf) with
                               | Some i => [(i, snd wf)]
                               | None => []
                               end) counter).

(** Order of [(id, freq)] tuples under [sorted] (line 266). *)
Definition pair_leb (a b : nat * nat) : bool :=
  if fst a <? fst b then true else if fst b <? fst a then false else snd a <=? snd b.

(** dictionary.py 206-270: [doc2bow]. Returns the new state, the bag of words,
    and the dict of missing words when [return_missing] is set. *)
Definition d_doc2bow (d : dictionary) (document : list pystr) (allow_update return_missing : bool)
  : dictionary * (list (nat * nat) * option (dict pystr nat)) :=
  let counter := count_words document in
  let missing := if allow_update || return_missing then d_missing (d_token2id d) counter else [] in
  let token2id := if allow_update then d_assign (d_token2id d) missing else d_token2id d in
  let res := d_bow token2id counter in
  let d' :=
    if allow_update then
      mkDictionary token2id (d_id2token d)
        (fold_left (fun m kf => dset m (fst kf) (dget_or m (fst kf) 0 + snd kf)) res (d_cfs d))
        (fold_left (fun m kf => dset m (fst kf) (dget_or m (fst kf) 0 + 1)) res (d_dfs d))
        (d_num_docs d + 1)
        (d_num_pos d + list_sum_nat (dvals counter))
        (d_num_nnz d + length res)
    else d in
  (d', (isort pair_leb res, if return_missing then Some (dict_of missing) else None)).

(** dictionary.py 272-304: [doc2idx]. *)
Definition d_doc2idx (d : dictionary) (document : list pystr) (unknown_word_index : Z) : list Z :=
  map (fun w => match dget (d_token2id d) w with Some i => Z.of_nat i | None => unknown_word_index end) document.

(** dictionary.py 455-466: [compactify]. [idmap[tokenid]] raises KeyError for a
    dfs/cfs entry whose id is not used by any token. *)
Definition remap_ids (idmap : dict nat nat) (m : dict nat nat) : result (dict nat nat) :=
  let* l := rmapM (fun kf => let* i := of_option KeyError (dget idmap (fst kf)) in Ok (i, snd kf)) m in
  Ok (dict_of l).

Definition d_compactify (d : dictionary) : result dictionary :=
  let ids := isort Nat.leb (dvals (d_token2id d)) in
  let idmap := dict_of (combine ids (seq 0 (length (d_token2id d)))) in
  let* token2id := rmapM (fun ti => let* i := of_option KeyError (dget idmap (snd ti)) in Ok (fst ti, i))
                         (d_token2id d) in
  let* dfs := remap_ids idmap (d_dfs d) in
  let* cfs := remap_ids idmap (d_cfs d) in
  Ok (mkDictionary (dict_of token2id) [] cfs dfs (d_num_docs d) (d_num_pos d) (d_num_nnz d)).

(** dictionary.py 443-447 and 448-452: restricting the three maps. *)
Definition restrict_ids (f : nat -> bool) (d : dictionary) : dictionary :=
  mkDictionary
    (dict_of (filter (fun ti => f (snd ti)) (d_token2id d)))
    (d_id2token d)
    (dict_of (filter (fun kf => f (fst kf)) (d_cfs d)))
    (dict_of (filter (fun kf => f (fst kf)) (d_dfs d)))
    (d_num_docs d) (d_num_pos d) (d_num_nnz d).

(** dictionary.py 411-453: [filter_tokens]. *)
Definition d_filter_tokens (d : dictionary) (bad_ids good_ids : option (list nat)) : result dictionary :=
  let d1 := match bad_ids with Some l => restrict_ids (fun i => negb (memb i l)) d | None => d end in
  let d2 := match good_ids with Some l => restrict_ids (fun i => memb i l) d1 | None => d1 end in
  d_compactify d2.

(** dictionary.py 348: [int(no_above * self.num_docs)], truncation toward zero.
    Simplification: the product is exact, not rounded to a double. *)
Definition no_above_abs (no_above : Q) (num_docs : nat) : Z :=
  Z.quot (Qnum no_above * Z.of_nat num_docs) (Zpos (Qden no_above)).

(** Sorting ids with [key=..., reverse=True]: stable, decreasing keys. *)
Definition sort_desc (key : nat -> nat) (ids : list nat) : list nat :=
  isort (fun a b => key b <=? key a) ids.

(** [sort(key=self.dfs.get)] raises TypeError when it has to compare a missing
    (None) key, i.e. when at least two elements are sorted and one has no entry. *)
Definition sort_by_dfs (dfs : dict nat nat) (ids : list nat) : result (list nat) :=
  if (length ids <=? 1) || forallb (fun i => dmem dfs i) ids
  then Ok (sort_desc (fun i => dget_or dfs i 0) ids)
  else Err TypeError.

(** Looking up a list of ids through [self[idx]] (lines 366 and 405). *)
Definition d_lookup_all (d : dictionary) (ids : list nat) : result dictionary :=
  rfold (fun d i => let '(d', r) := d_getitem d i in let* _ := r in Ok d') ids d.

(** dictionary.py 306-375: [filter_extremes]. [keep_tokens = []] stands for None. *)
Definition d_filter_extremes (d : dictionary) (no_below : Z) (no_above : Q) (keep_n : option Z)
  (keep_tokens : list pystr) : result dictionary :=
  let hi := no_above_abs no_above (d_num_docs d) in
  let df i := dget_or (d_dfs d) i 0 in
  let in_range i := (no_below <=? Z.of_nat (df i))%Z && (Z.of_nat (df i) <=? hi)%Z in
  let* good_ids :=
    match keep_tokens with
    | _ :: _ =>
      let keep_ids := flat_map (fun v => match dget (d_token2id d) v with Some i => [i] | None => [] end) keep_tokens in
      let good := filter (fun v => in_range v || memb v keep_ids) (d_keys d) in
      Ok (sort_desc (fun x => if memb x keep_ids then d_num_docs d else df x) good)
    | [] => sort_by_dfs (d_dfs d) (filter in_range (d_keys d))
    end in
  let good_ids := match keep_n with Some k => py_prefix k good_ids | None => good_ids end in
  let* d := d_lookup_all d (filter (fun i => negb (memb i good_ids)) (d_keys d)) in
  d_filter_tokens d None (Some good_ids).

(** dictionary.py 377-409: [filter_n_most_frequent]. *)
Definition d_filter_n_most_frequent (d : dictionary) (remove_n : Z) : result dictionary :=
  let* ids := sort_by_dfs (d_dfs d) (d_keys d) in
  let ids := py_prefix remove_n ids in
  let* d := d_lookup_all d ids in
  d_filter_tokens d (Some ids) None.

(** dictionary.py 164-204: [add_documents]; the prune check runs on every
    10000th document of the call. *)
Fixpoint d_add_documents_from (docno : N) (d : dictionary) (documents : list (list pystr))
  (prune_at : option Z) : result dictionary :=
  match documents with
  | [] => Ok d
  | document :: rest =>
    let* d :=
      if (docno mod 10000 =? 0)%N then
        match prune_at with
        | Some p => if (p <? Z.of_nat (d_len d))%Z then d_filter_extremes d 0 1 (Some p) [] else Ok d
        | None => Ok d
        end
      else Ok d in
    d_add_documents_from (docno + 1) (fst (d_doc2bow d document true false)) rest prune_at
  end.

Definition d_add_documents (d : dictionary) (documents : list (list pystr)) (prune_at : option Z) : result dictionary :=
  d_add_documents_from 0 d documents prune_at.

(** What [merge_with] sees of its argument: [items()], and [dfs] and the three
    counters when the argument has them. *)
Record other_map : Type := mkOther {
  o_items : list (nat * pystr);
  o_dfs : option (dict nat nat);
  o_nums : option (nat * nat * nat)   (* num_docs, num_nnz, num_pos *)
}.

(** A Dictionary seen through [Mapping.items()]: [(id, self[id]) for id in self]. *)
Definition other_of_dictionary (d : dictionary) : result other_map :=
  let* items := rmapM (fun i => let* t := snd (d_getitem d i) in Ok (i, t)) (d_keys d) in
  Ok (mkOther items (Some (d_dfs d)) (Some (d_num_docs d, d_num_nnz d, d_num_pos d))).

(** dictionary.py 566-578: one iteration of the merge loop. The [try] block
    swallows a missing attribute or key on either side. *)
Definition merge_step (odfs : option (dict nat nat)) (s : dictionary * dict nat nat) (it : nat * pystr)
  : dictionary * dict nat nat :=
  let '(d, old2new) := s in
  let '(other_id, other_token) := it in
  let '(d, new_id) :=
    match dget (d_token2id d) other_token with
    | Some i => (d, i)
    | None =>
      let i := length (d_token2id d) in
      (mkDictionary (dset (d_token2id d) other_token i) (d_id2token d) (d_cfs d) (dset (d_dfs d) i 0)
         (d_num_docs d) (d_num_pos d) (d_num_nnz d), i)
    end in
  let old2new := dset old2new other_id new_id in
  match odfs with
  | Some m =>
    match dget (d_dfs d) new_id, dget m other_id with
    | Some a, Some b =>
      (mkDictionary (d_token2id d) (d_id2token d) (d_cfs d) (dset (d_dfs d) new_id (a + b))
         (d_num_docs d) (d_num_pos d) (d_num_nnz d), old2new)
    | _, _ => (d, old2new)
    end
  | None => (d, old2new)
  end.

(** dictionary.py 528-587: [merge_with]; the second component is the [old2new]
    map wrapped in the returned VocabTransform. *)
Definition d_merge_with (d : dictionary) (o : other_map) : dictionary * dict nat nat :=
  let '(d, old2new) := fold_left (merge_step (o_dfs o)) (o_items o) (d, []) in
  match o_nums o with
  | Some (nd, nz, np) =>
    (mkDictionary (d_token2id d) (d_id2token d) (d_cfs d) (d_dfs d)
       (d_num_docs d + nd) (d_num_pos d + np) (d_num_nnz d + nz), old2new)
  | None => (d, old2new)
  end.

(** gensim/models/__init__.py 52-61: [VocabTransform.__getitem__] on one document:
    [sorted((old2new[oldid], weight) for oldid, weight in bow if oldid in old2new)]. *)
Definition vocab_transform (old2new : dict nat nat) (bow : list (nat * nat)) : list (nat * nat) :=
  isort pair_leb (flat_map (fun iw => match dget old2new (fst iw) with
                                      | Some i => [(i, snd iw)]
                                      | None => []
                                      end) bow).

(** dictionary.py 623-632: one iteration of [patch_with_special_tokens];
    [possible_ids] is a stack whose top is the head of the list. *)
Definition patch_step (s : dictionary * list nat) (it : pystr * nat) : result (dictionary * list nat) :=
  let '(d, possible_ids) := s in
  let '(token, idx) := it in
  let cur := dget (d_token2id d) token in
  if eq_dec cur (Some idx) then Ok (d, possible_ids)
  else
    let '(d, possible_ids) :=
      match cur with
      | Some i => (mkDictionary (ddel (d_token2id d) token) (d_id2token d) (d_cfs d) (d_dfs d)
                     (d_num_docs d) (d_num_pos d) (d_num_nnz d), i :: possible_ids)
      | None => (d, possible_ids)
      end in
    let '(d, r) := d_getitem d idx in
    let* old_token := r in
    let t1 := dset (d_token2id d) token idx in
    let '(new_id, possible_ids) :=
      match possible_ids with i :: rest => (i, rest) | [] => (length t1 - 1, []) end in
    Ok (mkDictionary (dset t1 old_token new_id) (d_id2token d) (d_cfs d) (d_dfs d)
          (d_num_docs d) (d_num_pos d) (d_num_nnz d), possible_ids).

(** dictionary.py 589-633: [patch_with_special_tokens]. *)
Definition d_patch_with_special_tokens (d : dictionary) (special : dict pystr nat) : result dictionary :=
  let* s := rfold patch_step special (d, []) in
  Ok (with_id2token (fst s) []).

(** dictionary.py 521, 525: one line ["%i\t%s\t%i\n"]. *)
Definition dict_line (tokenid : nat) (token : pystr) (freq : nat) : pystr :=
  show_nat tokenid ++ chr_tab :: token ++ chr_tab :: show_nat freq ++ [chr_nl].

(** dictionary.py 520: order of [(token, id)] under [sorted]. *)
Definition sorted_items (m : dict pystr nat) : list (pystr * nat) := isort item_leb m.

(** dictionary.py 468-526: [save_as_text]; result is the file content. *)
Definition d_save_as_text (d : dictionary) (sort_by_word : bool) : result pystr :=
  let header := show_nat (d_num_docs d) ++ [chr_nl] in
  if sort_by_word then
    Ok (header ++ concat (map (fun ti => dict_line (snd ti) (fst ti) (dget_or (d_dfs d) (snd ti) 0))
                              (sorted_items (d_token2id d))))
  else
    let* lines := rmapM (fun kf => let* t := snd (d_getitem d (fst kf)) in Ok (dict_line (fst kf) t (snd kf)))
                        (isort (fun a b => snd b <=? snd a) (d_dfs d)) in
    Ok (header ++ concat lines).

(** dictionary.py 679-688: one data line of [load_from_text]. [int()] of the two
    number fields strips whitespace and accepts a sign; ids and frequencies are
    non-negative in the model, a negative number is reported as ValueError. *)
Definition parse_nat_field (s : pystr) : option nat :=
  match parse_Z (strip is_space s) with
  | Some z => if (z <? 0)%Z then None else Some (Z.to_nat z)
  | None => None
  end.

Definition load_line (d : dictionary) (line : pystr) : result dictionary :=
  match split_on chr_tab (removelast line) with
  | [wordid; word; docfreq] =>
    let* wordid := of_option ValueError (parse_nat_field wordid) in
    if dmem (d_token2id d) word then Err KeyError
    else
      let* docfreq := of_option ValueError (parse_nat_field docfreq) in
      Ok (mkDictionary (dset (d_token2id d) word wordid) (d_id2token d) (d_cfs d)
            (dset (d_dfs d) wordid docfreq) (d_num_docs d) (d_num_pos d) (d_num_nnz d))
  | _ => Err ValueError
  end.

(** dictionary.py 635-689: [load_from_text]. [str.isdigit] is restricted to
    ASCII digits. *)
Definition all_digits (s : pystr) : bool :=
  match s with [] => false | _ => forallb is_digit s end.

Definition d_load_from_text (content : pystr) : result dictionary :=
  match file_lines content with
  | [] => Ok d_empty
  | first :: rest =>
    let s := strip is_space first in
    if all_digits s then
      let* n := of_option ValueError (parse_nat s) in
      rfold load_line rest (mkDictionary [] [] [] [] n 0 0)
    else rfold load_line (first :: rest) d_empty
  end.

(** dictionary.py 691-753: [from_corpus]; weights are natural numbers. *)
Definition d_from_corpus (corpus : list (list (nat * nat))) (id2word : option (dict nat pystr)) : dictionary :=
  let dfs0 := fold_left (fun m iw => dset m (fst iw) (dget_or m (fst iw) 0 + 1)) (concat corpus) [] in
  let num_pos := list_sum_nat (map snd (concat corpus)) in
  (* [S max_id], 0 when the corpus has no entry *)
  let bound := fold_left (fun b iw => Nat.max b (S (fst iw))) (concat corpus) 0 in
  let token2id :=
    match id2word with
    | None => dict_of (map (fun i => (show_nat i, i)) (seq 0 bound))
    | Some m => dict_of (map (fun it => (snd it, fst it)) m)
    end in
  let dfs := fold_left (fun m i => dset m i (dget_or m i 0)) (dvals token2id) dfs0 in
  mkDictionary token2id [] [] dfs (length corpus) num_pos (list_sum_nat (map (@length _) corpus)).

(** ** Histories of public calls *)

Inductive dict_op : Type :=
| OpDoc2bow (document : list pystr) (allow_update return_missing : bool)
| OpAddDocuments (documents : list (list pystr)) (prune_at : option Z)
| OpFilterExtremes (no_below : Z) (no_above : Q) (keep_n : option Z) (keep_tokens : list pystr)
| OpFilterNMostFrequent (remove_n : Z)
| OpFilterTokens (bad_ids good_ids : option (list nat))
| OpCompactify
| OpMergeWith (other : other_map)
| OpGetitem (tokenid : nat).

(** One public call. A failing [d[tokenid]] raises KeyError to the caller but
    the (possibly refreshed) object lives on, so the history continues. *)
Definition d_step (d : dictionary) (o : dict_op) : result dictionary :=
  match o with
  | OpDoc2bow doc u m => Ok (fst (d_doc2bow d doc u m))
  | OpAddDocuments docs p => d_add_documents d docs p
  | OpFilterExtremes nb na kn kt => d_filter_extremes d nb na kn kt
  | OpFilterNMostFrequent n => d_filter_n_most_frequent d n
  | OpFilterTokens b g => d_filter_tokens d b g
  | OpCompactify => d_compactify d
  | OpMergeWith o => Ok (fst (d_merge_with d o))
  | OpGetitem i => Ok (fst (d_getitem d i))
  end.

Definition d_run (ops : list dict_op) (d : dictionary) : result dictionary := rfold d_step ops d.
