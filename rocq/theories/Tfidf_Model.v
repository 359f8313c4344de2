(** Model of /repo/gensim/models/tfidfmodel.py: resolve_weights 28-105, df2idf 108-129, precompute_idfs 132-153,
    smartirs_wlocal 155-186, smartirs_wglobal 189-214, TfidfModel.__init__ 363-414, initialize 440-470, __getitem__ 472-548.

    Over the mathematical reals (float rounding, infinities and NaN are not modelled: logarithms are taken of positive numbers
    in the theorems that speak of their values, and the pivoted norm is not zero).  A corpus given to the constructor is a list
    of documents (an empty list is false).  [normalize] is [True], [False] or a function that can also return the norm.
    The length of a term is read off the token map; [id2word] and the logging are left out. *)

From Verif Require Import Base Str Dictionary_Model MatReal_Model.
From Coq Require Import Reals.
Local Open Scope R_scope.

(** ** The SMART letters *)
Definition smart : Type := (N * N * N)%type.
Definition resolve_weights (s : pystr) : result smart :=
  match s with
  | [w_tf; w_df; w_n] =>
    if negb (memb w_tf (str "btnaldL")) then Err ValueError
    else if negb (memb w_df (str "xnftp")) then Err ValueError
    else if negb (memb w_n (str "xncub")) then Err ValueError
    else Ok (if (w_tf =? 116)%N then 110%N else w_tf, if (w_df =? 120)%N then 110%N else w_df, if (w_n =? 120)%N then 110%N else w_n)
  | _ => Err ValueError    (* of any other length, and the notation ddd.qqq *)
  end.
Definition ch_n : N := 110. Definition ch_l : N := 108. Definition ch_d : N := 100. Definition ch_a : N := 97. Definition ch_b : N := 98.
Definition ch_L : N := 76. Definition ch_f : N := 102. Definition ch_t : N := 116. Definition ch_p : N := 112. Definition ch_c : N := 99. Definition ch_u : N := 117.

Definition log2 (x : R) : R := ln x / ln 2.
Fixpoint Rmaximum (x : R) (l : list R) : R := match l with [] => x | y :: r => Rmaximum (Rmax x y) r end.
(** 172-186; the whole array of frequencies is given.  The maximum of an empty array is a ValueError. *)
Definition smartirs_wlocal (scheme : N) (tf : list R) : result (list R) :=
  if (scheme =? ch_n)%N then Ok tf
  else if (scheme =? ch_l)%N then Ok (map (fun x => 1 + log2 x) tf)
  else if (scheme =? ch_d)%N then Ok (map (fun x => 1 + log2 (1 + log2 x)) tf)
  else if (scheme =? ch_a)%N then
    match tf with [] => Err ValueError | x :: r => Ok (map (fun y => 1/2 + 1/2 * y / Rmaximum x r) tf) end
  else if (scheme =? ch_b)%N then Ok (map (fun x => if Req_EM_T x 0 then 0 else 1) tf)
  else Ok (map (fun x => (1 + log2 x) / (1 + log2 (Rsum tf / INR (length tf)))) tf).
(** 207-214 *)
Definition smartirs_wglobal (scheme : N) (docfreq totaldocs : nat) : R :=
  if (scheme =? ch_n)%N then 1
  else if (scheme =? ch_f)%N then log2 (INR totaldocs / INR docfreq)
  else if (scheme =? ch_t)%N then log2 ((INR totaldocs + 1) / INR docfreq)
  else if (totaldocs <=? docfreq)%nat then 0
  else Rmax 0 (log2 ((INR totaldocs - INR docfreq) / INR docfreq)).
(** 108-129 *)
Definition df2idf (docfreq totaldocs : nat) (log_base add : R) : R := add + ln (INR totaldocs / INR docfreq) / ln log_base.

(** ** The model *)
Inductive normalizer : Type :=
| NormTrue | NormFalse
| NormFun (f : rbow -> rbow) (fnorm : rbow -> result (rbow * R)).
Record tfidf : Type := mkTfidf {
  tf_num_docs : option nat; tf_num_nnz : option nat;
  tf_dfs : dict Z nat; tf_cfs : option (dict Z nat); tf_term_lens : option (dict Z nat);
  tf_idfs : option (dict Z R);
  tf_wlocal : list R -> result (list R);
  tf_normalize : normalizer; tf_smartirs : option smart; tf_pivot : option R; tf_slope : R }.

Definition zkeys {V} (d : dict nat V) : dict Z V := map (fun kv => (Z.of_nat (fst kv), snd kv)) d.
(** 132-153 *)
Definition precompute_idfs (wglobal : nat -> nat -> R) (dfs : dict Z nat) (total_docs : nat) : dict Z R :=
  map (fun kv => (fst kv, wglobal (snd kv) total_docs)) dfs.
(** 449-463 *)
Definition count_doc (dfs : dict Z nat) (bow : rbow) : dict Z nat :=
  fold_left (fun m p => dset m (fst p) (dget_or m (fst p) 0%nat + 1)%nat) bow dfs.
Definition corpus_dfs (corpus : list rbow) : dict Z nat := fold_left count_doc corpus [].
Fixpoint corpus_nnz (corpus : list rbow) : nat := match corpus with [] => 0%nat | b :: r => (length b + corpus_nnz r)%nat end.

(** 371-392, with [normalize], [pivot] and [slope] as given: what the two branches compute. *)
Definition from_dictionary (wl : list R -> result (list R)) (wglobal : nat -> nat -> R) normalize smartirs pivot slope (d : dictionary) : tfidf :=
  mkTfidf (Some (d_num_docs d)) (Some (d_num_nnz d)) (zkeys (d_dfs d)) (Some (zkeys (d_cfs d)))
    (Some (map (fun ti => (Z.of_nat (snd ti), length (fst ti))) (d_token2id d)))
    (Some (precompute_idfs wglobal (zkeys (d_dfs d)) (d_num_docs d))) wl normalize smartirs pivot slope.
Definition from_corpus (wl : list R -> result (list R)) (wglobal : nat -> nat -> R) normalize smartirs pivot slope (corpus : list rbow) : tfidf :=
  mkTfidf (Some (length corpus)) (Some (corpus_nnz corpus)) (corpus_dfs corpus) None None
    (Some (precompute_idfs wglobal (corpus_dfs corpus) (length corpus))) wl normalize smartirs pivot slope.
Definition uninitialized (wl : list R -> result (list R)) normalize smartirs pivot slope : tfidf :=
  mkTfidf None None [] None None None wl normalize smartirs pivot slope.

Definition set_pivot (m : tfidf) (p : R) : tfidf :=
  mkTfidf (tf_num_docs m) (tf_num_nnz m) (tf_dfs m) (tf_cfs m) (tf_term_lens m) (tf_idfs m) (tf_wlocal m) (tf_normalize m) (tf_smartirs m) (Some p) (tf_slope m).
(** 402-414: the pivot for the letters u and b.  [cfs] is None after training from a corpus. *)
Definition default_pivot (m : tfidf) (n_n : N) (dictionary : option dictionary) (nothing : bool) : result tfidf :=
  if ((n_n =? ch_u) || (n_n =? ch_b))%N && nothing then Ok m
  else if (n_n =? ch_u)%N then
    match tf_num_nnz m, tf_num_docs m with
    | Some nnz, Some (S n) => Ok (set_pivot m (1 * INR nnz / INR (S n)))
    | Some _, Some 0%nat => Err ZeroDivErr
    | _, _ => Err TypeError
    end
  else if (n_n =? ch_b)%N then
    match dictionary with
    | None => Err AttributeErr
    | Some d =>
      let* parts := rmapM (fun i =>
        match tf_cfs m, tf_term_lens m with
        | Some cfs, Some lens => let* c := of_option KeyError (dget cfs (Z.of_nat i)) in let* l := of_option KeyError (dget lens (Z.of_nat i)) in Ok (INR c * (INR l + 1))
        | _, _ => Err TypeError
        end) (d_keys d) in
      match tf_num_docs m with
      | Some (S n) => Ok (set_pivot m (1 * Rsum parts / INR (S n)))
      | Some 0%nat => Err ZeroDivErr
      | None => Err TypeError
      end
    end
  else Ok m.
(** 359-414 *)
Definition tfidf_new (wlocal : list R -> result (list R)) (wglobal : nat -> nat -> R) (normalize : normalizer) (pivot : option R) (slope : R)
  (smartirs : option pystr) (dictionary : option dictionary) (corpus : list rbow) : result tfidf :=
  let* letters := match smartirs with None => Ok None | Some s => rmap Some (resolve_weights s) end in
  let wl := match letters with Some (n_tf, _, _) => smartirs_wlocal n_tf | None => wlocal end in
  let wg := match letters with Some (_, n_df, _) => smartirs_wglobal n_df | None => wglobal end in
  let given := match dictionary with Some d => negb (d_len d =? 0)%nat | None => false end in
  let m := match dictionary, given, corpus with
           | Some d, true, _ => from_dictionary wl wg normalize letters pivot slope d
           | _, _, _ :: _ => from_corpus wl wg normalize letters pivot slope corpus
           | _, _, [] => uninitialized wl normalize letters pivot slope
           end in
  match letters, pivot with
  | Some (_, _, n_n), None => default_pivot m n_n dictionary (negb given && match corpus with [] => true | _ => false end)
  | _, _ => Ok m
  end.

(** 506-511 *)
Definition weighted (eps : R) (idfs : dict Z R) (ids : list Z) (tfs : list R) : rbow :=
  flat_map (fun it => let '(termid, tf) := it in
    if Rlt_dec eps (Rabs (dget_or idfs termid 0)) then [(termid, tf * dget_or idfs termid 0)] else []) (combine ids tfs).
Definition keep_eps (eps : R) (v : rbow) : rbow := filter (fun iw => if Rlt_dec eps (Rabs (snd iw)) then true else false) v.
Definition pivoted (slope pivot old_norm : R) : R := (1 - slope) * pivot + slope * old_norm.
(** 513-548: one document. *)
Definition tfidf_apply (m : tfidf) (eps : R) (bow : rbow) : result rbow :=
  let* tfs := tf_wlocal m (map snd bow) in
  let* idfs := match bow, tf_idfs m with
               | _, Some i => Ok i
               | [], None => Ok []
               | _ :: _, None => Err AttributeErr
               end in
  let vector := weighted eps idfs (map fst bow) tfs in
  let pivot_with old_norm p := Ok (keep_eps eps (map (fun iw => (fst iw, snd iw / pivoted (tf_slope m) p old_norm)) vector)) in
  match tf_smartirs m with
  | Some (_, _, n_n) =>
    if (n_n =? ch_n)%N then
      match tf_pivot m with
      | Some p => let* (_, old) := unitvec_bow vector L2 in pivot_with old p
      | None => Ok (keep_eps eps vector)
      end
    else if (n_n =? ch_c)%N then
      let* (nv, old) := unitvec_bow vector L2 in
      match tf_pivot m with Some p => pivot_with old p | None => Ok (keep_eps eps nv) end
    else
      match tf_pivot m with
      | None => Ok (keep_eps eps vector)
      | Some p =>
        if (n_n =? ch_u)%N then let* (_, old) := unitvec_bow vector Unique in pivot_with old p
        else
          let* parts := rmapM (fun iw =>
            match tf_term_lens m with
            | Some lens => let* l := of_option KeyError (dget lens (fst iw)) in Ok (snd iw * (INR l + 1))
            | None => Err AttributeErr
            end) bow in
          pivot_with (Rsum parts) p
      end
  | None =>
    match tf_normalize m, tf_pivot m with
    | NormTrue, Some p => let* (_, old) := unitvec_bow vector L2 in pivot_with old p
    | NormTrue, None => let* (nv, _) := unitvec_bow vector L2 in Ok (keep_eps eps nv)
    | NormFalse, Some _ => Err TypeError
    | NormFalse, None => Ok (keep_eps eps vector)
    | NormFun _ fnorm, Some p => let* (_, old) := fnorm vector in pivot_with old p
    | NormFun f _, None => Ok (keep_eps eps (f vector))
    end
  end.
(** 497-500, and TransformedCorpus.__iter__ (interfaces.py 172-195): a corpus is transformed by [self.obj[doc]] for each
    document, that is with the default [eps], which [self.eps] takes over each time. *)
Definition default_eps : R := 1 / 10 ^ 12.
Definition tfidf_getitem_corpus (m : tfidf) (eps : R) (corpus : list rbow) : result (list rbow) := rmapM (tfidf_apply m default_eps) corpus.
