(** Model of the author and document maps of the author-topic model: /repo/gensim/models/atmodel.py 102-155
    ([construct_doc2author], [construct_author2doc]), 340-374 ([extend_corpus]), 697-800 ([update], up to the training loop), which
    documents and authors the loop uses (819-852, 464-470), 889-978 ([bound], which authors it uses), 1035-1105
    ([get_new_author_topics]).

    Simplifications: author names are strings, document ids natural numbers, the corpus is a list ([serialized=False]).  A row of
    gamma is an abstract value; [draw i] is the [i]-th random row.  [order] is the order in which a set of strings is iterated.
    Lists are values: that the model keeps the caller's lists and extends them in place is not modelled. *)
From Verif Require Import Base Str Utils_Model.

Section Model.
Context {D G : Type}.
Variable order : list pystr -> list pystr.
Variable draw : nat -> G.

(** 102-125 *)
Definition construct_doc2author (corpus : list D) (author2doc : dict pystr (list nat)) : dict nat (list pystr) :=
  fold_left (fun m d => dset m d (map fst (filter (fun e => memb d (snd e)) author2doc))) (seq 0 (length corpus)) [].
(** 128-155 *)
Definition construct_author2doc (doc2author : dict nat (list pystr)) : dict pystr (list nat) :=
  fold_left (fun m a => dset m a (map fst (filter (fun e => memb a (snd e)) doc2author)))
    (order (nodup eq_dec (flat_map snd doc2author))) [].

Record at_model : Type := mkAt {
  m_corpus : list D; m_total : nat;
  m_author2doc : dict pystr (list nat); m_doc2author : dict nat (list pystr);
  m_author2id : dict pystr nat; m_id2author : dict nat pystr; m_authors : nat;
  m_gamma : list G }.
Definition at_empty : at_model := mkAt [] 0 [] [] [] [] 0 [].

(** [not self.author2doc.get(a)] *)
Definition has_docs (m : dict pystr (list nat)) (a : pystr) : bool :=
  match dget m a with Some (_ :: _) => true | _ => false end.

(** 697-778.  [None] for the training documents stands for returning at once (725-727).  The loop 755-756 that is to shift the
    document ids only assigns a local name. *)
Definition update_maps (st : at_model) (corpus : option (list D)) (author2doc : option (dict pystr (list nat)))
  (doc2author : option (dict nat (list pystr))) : result (at_model * option (list nat)) :=
  match corpus with
  | None => if m_total st =? 0 then Err AssertionErr else Ok (st, Some (seq 0 (m_total st)))
  | Some docs =>
    let* maps := match author2doc, doc2author with
                 | None, None => Err ValueError
                 | Some a2d, None => Ok (a2d, construct_doc2author docs a2d)
                 | None, Some d2a => Ok (construct_author2doc d2a, d2a)
                 | Some a2d, Some d2a => Ok (a2d, d2a)
                 end in
    let a2d := fst maps in
    let d2a := snd maps in
    match docs with
    | [] => Ok (st, None)
    | _ =>
      let new_authors := filter (fun a => negb (has_docs (m_author2doc st) a)) (isort str_leb (dkeys a2d)) in
      let numbered := combine new_authors (seq (m_authors st) (length new_authors)) in
      let author2doc' := fold_left (fun m e => if has_docs m (fst e) then dset m (fst e) (dget_or m (fst e) [] ++ snd e) else dset m (fst e) (snd e))
                           a2d (m_author2doc st) in
      let st' := mkAt (m_corpus st ++ docs) (m_total st + length docs) author2doc'
                   (fold_left (fun m e => dset m (fst e) (snd e)) d2a (m_doc2author st))
                   (fold_left (fun m e => dset m (fst e) (snd e)) numbered (m_author2id st))
                   (fold_left (fun m e => dset m (snd e) (fst e)) numbered (m_id2author st))
                   (m_authors st + length new_authors)
                   (m_gamma st ++ map draw (seq 0 (length new_authors))) in
      Ok (st', Some (isort Nat.leb (nodup eq_dec (flat_map snd author2doc'))))
    end
  end.

(** 464-470: the row numbers of the authors of a document. *)
Definition authors_of (st : at_model) (doc_no : nat) : result (list nat) :=
  let* names := of_option KeyError (dget (m_doc2author st) doc_no) in
  rmapM (fun a => of_option KeyError (dget (m_author2id st) a)) names.
(** 796, 819-852: one pass; each chunk is read from the corpus and then its documents are looked at one by one.  Without documents the
    number of updates per pass is 0/0 (ZeroDivisionError). *)
Definition read_chunk (st : at_model) (chunk : list nat) : result (list (nat * D * list nat)) :=
  let* docs := rmapM (fun d => of_option IndexError (nth_error (m_corpus st) d)) chunk in
  rmapM (fun dd => let* authors := authors_of st (fst dd) in Ok (dd, authors)) (combine chunk docs).
Definition one_pass (st : at_model) (chunksize : nat) (idx : list nat) : result (list (nat * D * list nat)) :=
  match idx with
  | [] => Err ZeroDivErr
  | _ => let* chunks := rmapM (read_chunk st) (chunkize_serial idx (Nat.min (length idx) chunksize)) in Ok (concat chunks)
  end.

(** 936-978: the authors [bound] uses for the documents of [chunk].  An empty [chunk_doc_idx] is like none. *)
Definition bound_authors (st : at_model) (chunk : list D) (chunk_doc_idx : list nat) (author2doc : option (dict pystr (list nat)))
  (doc2author : option (dict nat (list pystr))) : result (list (list nat)) :=
  let* _ := match author2doc, doc2author with
            | None, None => match chunk_doc_idx with [] => Err ValueError | _ => Ok tt end
            | Some a2d, Some _ =>
              if forallb (has_docs (m_author2doc st)) (dkeys a2d) then match chunk_doc_idx with [] => Ok tt | _ => Err ValueError end
              else Err ValueError
            | _, _ => Err ValueError
            end in
  rmapM (fun d => let* doc_no := match chunk_doc_idx with [] => Ok d | _ => of_option IndexError (nth_error chunk_doc_idx d) end in
                  authors_of st doc_no) (seq 0 (length chunk)).

(** 1035-1105.  [infer] is the inference on the documents with the ids given, followed by [get_author_topics]: the new rows of gamma,
    and the topics or an exception. *)
Definition placeholder : pystr := str "placeholder_name".
Definition add_placeholder (st : at_model) (ids : list nat) : at_model :=
  mkAt (m_corpus st) (m_total st) (dset (m_author2doc st) placeholder ids)
    (fold_left (fun m d => dset m d [placeholder]) ids (m_doc2author st))
    (dset (m_author2id st) placeholder (m_authors st)) (dset (m_id2author st) (m_authors st) placeholder)
    (m_authors st) (m_gamma st ++ [draw 0]).
Definition rollback (st : at_model) (ids : list nat) : result at_model :=
  let* a_id := of_option KeyError (dget (m_author2id st) placeholder) in
  Ok (mkAt (m_corpus st) (m_total st) (ddel (m_author2doc st) placeholder)
        (fold_left (fun m d => ddel m d) ids (m_doc2author st))
        (ddel (m_author2id st) placeholder) (ddel (m_id2author st) a_id) (m_authors st) (removelast (m_gamma st))).
Definition set_gamma (st : at_model) (g : list G) : at_model :=
  mkAt (m_corpus st) (m_total st) (m_author2doc st) (m_doc2author st) (m_author2id st) (m_id2author st) (m_authors st) g.
Definition get_new_author {X : Type} (infer : at_model -> list D -> list nat -> list G * result X) (st : at_model) (corpus : list D) : at_model * result X :=
  match corpus with
  | [] => (st, Err ValueError)
  | _ =>
    let ids := seq (m_total st) (length corpus) in
    if dmem (m_author2id st) placeholder then (st, Err ValueError)
    else
      let st1 := add_placeholder st ids in
      let (g, res) := infer st1 corpus ids in
      let st2 := set_gamma st1 g in
      match rollback st2 ids with
      | Ok st3 => (st3, res)
      | Err e => (st2, Err e)
      end
  end.
End Model.
Arguments mkAt {D G}.
