(** Model of /repo/gensim/models/logentropy_model.py: [LogEntropyModel] 58-152, and /repo/gensim/models/normmodel.py: [NormModel] 15-99, over
    the reals.  A corpus is what its first and its second iteration give: the same for a list, nothing the second time for a generator.
    [is_corpus] and [_apply] are those of Utils_Model.v and Tfidf_Model.v ([TransformedCorpus]: one document after the other). *)
From Coq Require Import Reals.
From Verif Require Import Base MatReal_Model.
Local Open Scope R_scope.

Record logent : Type := mkL { l_normalize : bool; l_docs : Z; l_words : nat; l_entr : dict Z R }.
(** [d[k] = d.get(k, 0) + v] *)
Definition bump (d : dict Z R) (k : Z) (v : R) : dict Z R := dset d k (dget_or d k 0 + v).
(** 96-101 *)
Definition frequencies (corpus : list rbow) : dict Z R := fold_left (fun d bow => fold_left (fun d iv => bump d (fst iv) (snd iv)) bow d) corpus [].
(** [float(freq) / glob_freq[key]] and its [math.log], 118 *)
Definition share (glob : dict Z R) (key : Z) (freq : R) : result R :=
  let* g := of_option KeyError (dget glob key) in
  if Req_EM_T g 0 then Err ZeroDivErr else
  let r := freq / g in if Rlt_dec 0 r then Ok (r * ln r) else Err ValueError.
(** initialize, 82-125 *)
Definition initialize (normalize : bool) (first second : list rbow) : result logent :=
  let glob := frequencies first in
  let doc_no := (Z.of_nat (length first) - 1)%Z in
  let n := (doc_no + 1)%Z in
  let* entr := rfold (fun d bow => rfold (fun d iv => let* p := share glob (fst iv) (snd iv) in Ok (bump d (fst iv) p)) bow d) second [] in
  let doc_no2 := Z.of_nat (pred (length second)) in
  if negb (doc_no2 =? doc_no)%Z then Err ValueError
  else Ok (mkL normalize n (fold_right Nat.add 0%nat (map (@length _) first)) (map (fun kv => (fst kv, 1 + snd kv / ln (IZR n + 1))) entr)).
(** __getitem__ of one document, 127-152; [math.log] of something not positive raises *)
Definition weigh (m : logent) (iv : Z * R) : result rbow :=
  match dget (l_entr m) (fst iv) with
  | Some w => if Rlt_dec 0 (snd iv + 1) then Ok [(fst iv, ln (snd iv + 1) * w)] else Err ValueError
  | None => Ok []
  end.
Definition logent_get (m : logent) (bow : rbow) : result rbow :=
  let* vs := rmapM (weigh m) bow in
  let vector := concat vs in
  if l_normalize m then let* (v, _) := unitvec_bow vector L2 in Ok v else Ok vector.

(** ** NormModel: [None] as long as [calc_norm] has not run *)
Record normed : Type := mkNorm { m_norm : norm_kind; m_stats : option (nat * nat * list rbow) }.
Definition normalize (k : norm_kind) (bow : rbow) : result rbow := let* (v, _) := unitvec_bow bow k in Ok v.
Definition new_norm (corpus : option (list rbow)) (k : norm_kind) : result normed :=
  match corpus with
  | None => Ok (mkNorm k None)
  | Some c => let* ns := rmapM (normalize k) c in Ok (mkNorm k (Some (length c, fold_right Nat.add 0%nat (map (@length _) c), ns)))
  end.
