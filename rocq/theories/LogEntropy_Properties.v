(** C102: log-entropy weights and normalised documents *)
From Coq Require Import Reals Lra.
From Verif Require Import Base MatReal_Model MatReal_Proofs MatReal_Properties LogEntropy_Model LogEntropy_Spec LogEntropy_Proofs.
Local Open Scope R_scope.

Definition portion (g : Z -> R) (iv : Z * R) : Z * R := (fst iv, snd iv / g (fst iv) * ln (snd iv / g (fst iv))).
Lemma hits_portion : forall g t l, hits t (map (portion g) l) = map (fun f => f / g t * ln (f / g t)) (hits t l).
Proof.
  intros g t l. induction l as [|[k v] l IH]; [reflexivity|]. unfold hits. cbn [map filter portion fst snd]. destruct (eq_dec k t) as [->|]; cbn [map snd]; fold (hits t l) (hits t (map (portion g) l)); rewrite ?IH; reflexivity.
Qed.
Lemma second_pass : forall glob g ds d, (forall iv, In iv (concat ds) -> dget glob (fst iv) = Some (g (fst iv)) /\ 0 < g (fst iv) /\ 0 < snd iv) ->
  rfold (fun d bow => rfold (fun d iv => let* p := share glob (fst iv) (snd iv) in Ok (bump d (fst iv) p)) bow d) ds d = Ok (bumps (map (portion g) (concat ds)) d).
Proof.
  intros glob g. induction ds as [|b ds IH]; intros d H; [reflexivity|]. cbn [rfold concat]. rewrite map_app. unfold bumps. rewrite fold_left_app. fold (bumps (map (portion g) b) d).
  assert (B : forall b d, (forall iv, In iv b -> dget glob (fst iv) = Some (g (fst iv)) /\ 0 < g (fst iv) /\ 0 < snd iv) -> rfold (fun d iv => let* p := share glob (fst iv) (snd iv) in Ok (bump d (fst iv) p)) b d = Ok (bumps (map (portion g) b) d)).
  { clear. induction b as [|iv b IH]; intros d H; [reflexivity|]. cbn [rfold map]. unfold share at 1. destruct (H iv (or_introl eq_refl)) as (E & G & P). rewrite E. cbn [of_option rbind]. destruct (Req_EM_T (g (fst iv)) 0) as [Z0|_]; [lra|].
    destruct (Rlt_dec 0 (snd iv / g (fst iv))) as [_|K]; [|exfalso; apply K, Rdiv_lt_0_compat; assumption]. cbn [rbind]. rewrite IH by (intros jv I; apply H; right; exact I). reflexivity. }
  rewrite B by (intros iv I; apply H; cbn [concat]; apply in_or_app; left; exact I). cbn [rbind]. apply IH. intros iv I. apply H. cbn [concat]. apply in_or_app. right. exact I.
Qed.
Lemma dget_map_val : forall (f : R -> R) (d : dict Z R) t, dget (map (fun kv => (fst kv, f (snd kv))) d) t = option_map f (dget d t).
Proof. intros f d t. induction d as [|[k v] d IH]; [reflexivity|]. cbn [map fst snd dget]. destruct (eq_dec k t); [reflexivity | exact IH]. Qed.

(** The weights are exactly one minus the relative entropy of the term over the documents. *)
Theorem weights_exact : forall normalize (ds : list rbow), ds <> [] -> Forall counts ds -> exists m, initialize normalize ds ds = Ok m /\ l_normalize m = normalize /\
  l_docs m = Z.of_nat (length ds) /\ l_words m = length (concat ds) /\
  forall t fs, counted t ds fs -> dget (l_entr m) t = match fs with [] => None | _ => Some (weight (length ds) fs) end.
Proof.
  intros nm ds NE F. unfold initialize. rewrite frequencies_bumps. set (g := fun t => total (hits t (concat ds))).
  assert (AP : forall iv, In iv (concat ds) -> 0 < snd iv). { intros iv I. apply in_concat in I as (d & Id & I). rewrite Forall_forall in F. destruct (F d Id) as (_ & P). rewrite Forall_forall in P. apply P, I. }
  assert (HP : forall t, Forall (fun f => 0 < f) (hits t (concat ds))). { intros t. apply Forall_forall. intros f I. unfold hits in I. apply in_map_iff in I as (iv & <- & I). apply filter_In in I as (I & _). apply AP, I. }
  rewrite (second_pass _ g).
  2:{ intros iv I. assert (N0 : hits (fst iv) (concat ds) <> []) by (apply hits_in, in_map, I). split; [|split; [apply total_pos; [apply HP | exact N0] | apply AP, I]].
      rewrite bumps_get. unfold g. destruct (hits (fst iv) (concat ds)) as [|f fs]; [congruence|]. unfold dget_or. cbn [dget]. rewrite Rplus_0_l. reflexivity. }
  cbn [rbind]. match goal with |- context [negb ?b] => assert (EB : b = true) by (apply Z.eqb_eq; destruct ds; [congruence | cbn [length pred]; lia]); rewrite EB end. cbn [negb].
  eexists. split; [reflexivity|]. cbn [l_normalize l_docs l_words l_entr]. split; [reflexivity|]. split; [lia|]. split; [clear; induction ds as [|d ds IH]; [reflexivity|]; cbn [map fold_right concat]; rewrite app_length, IH; reflexivity|].
  intros t fs C. rewrite (dget_map_val (fun x => 1 + x / ln (IZR (Z.of_nat (length ds) - 1 + 1) + 1))). rewrite bumps_get, hits_portion, <- (counted_hits t ds fs F C). unfold dget_or. cbn [dget].
  assert (G : g t = total fs) by (unfold g; rewrite <- (counted_hits t ds fs F C); reflexivity). rewrite G. destruct fs as [|f fs]; [reflexivity|]. cbn [map option_map]. f_equal. unfold weight, entropy. cbn [map].
  replace (Z.of_nat (length ds) - 1 + 1)%Z with (Z.of_nat (length ds)) by lia. rewrite <- INR_IZR_INZ. rewrite Rplus_0_l. unfold Rdiv. lra.
Qed.

(** A weight is positive and at most one; it is one exactly for terms of one document, and smallest for equal counts. *)
Theorem weight_bounds : forall (ds : list rbow) t fs, Forall counts ds -> counted t ds fs -> fs <> [] -> let n := length ds in let k := length fs in
  0 < 1 - ln (INR k) / ln (INR n + 1) /\ 1 - ln (INR k) / ln (INR n + 1) <= weight n fs <= 1 /\ (weight n fs = 1 <-> k = 1%nat) /\
  (forall f, fs = repeat f k -> weight n fs = 1 - ln (INR k) / ln (INR n + 1)).
Proof.
  intros ds t fs F C NE n k. pose proof (counted_pos t ds fs F C) as P. pose proof (counted_length t ds fs C) as L. fold n in L. fold k in L.
  assert (K1 : 1 <= INR k) by (change 1 with (INR 1); apply le_INR; unfold k; destruct fs; [congruence | cbn; lia]). assert (KN : INR k <= INR n) by (apply le_INR, L).
  assert (LN : ln (INR k) < ln (INR n + 1)) by (apply ln_increasing; lra). assert (L0 : 0 <= ln (INR k)). { destruct (Req_dec (INR k) 1) as [->|N1]; [rewrite ln_1; lra|]. apply Rlt_le. rewrite <- ln_1. apply ln_increasing; lra. }
  set (q := ln (INR n + 1)) in *. assert (Q : 0 < q) by lra. pose proof (entropy_nonneg fs P) as E0. pose proof (entropy_max fs P NE) as E1. fold k in E1. unfold weight. fold q.
  assert (D : forall x y, x <= y -> x / q <= y / q) by (intros x y H; unfold Rdiv; apply Rmult_le_compat_r; [apply Rlt_le, Rinv_0_lt_compat, Q | exact H]).
  split; [|split; [|split]].
  - assert (ln (INR k) / q < 1); [|lra]. apply (Rmult_lt_reg_r q); [exact Q|]. unfold Rdiv. rewrite Rmult_assoc, Rinv_l by lra. lra.
  - pose proof (D _ _ E1). pose proof (D 0 _ E0) as D0. unfold Rdiv in D0 at 1. rewrite Rmult_0_l in D0. lra.
  - split.
    + intros W. assert (EZ : entropy fs = 0). { assert (Z1 : entropy fs / q = 0) by lra. unfold Rdiv in Z1. apply Rmult_integral in Z1 as [Z1|Z1]; [exact Z1|]. exfalso. pose proof (Rinv_0_lt_compat q Q). lra. }
      destruct fs as [|f [|f' fs]]; [congruence | reflexivity|]. pose proof (entropy_many f f' fs P). lra.
    + intros K. unfold k in K. destruct fs as [|f [|f' fs]]; try discriminate K. rewrite entropy_one by (inversion P; assumption). unfold Rdiv. lra.
  - intros f E. rewrite E. rewrite entropy_equal; [reflexivity| |unfold k; destruct fs; [congruence | cbn; lia]]. rewrite E in P. unfold k in *. destruct fs as [|f0 fs]; [congruence|]. cbn [length repeat] in P. inversion P. assumption.
Qed.

(** What a document becomes: known terms in order, each with the logarithm of its count times its weight *)
Inductive weighted (ds : list rbow) : rbow -> rbow -> Prop :=
| w_nil : weighted ds [] []
| w_known : forall t f fs b v, counted t ds fs -> fs <> [] -> weighted ds b v -> weighted ds ((t, f) :: b) ((t, ln (f + 1) * weight (length ds) fs) :: v)
| w_unknown : forall t f b v, counted t ds [] -> weighted ds b v -> weighted ds ((t, f) :: b) v.
(** With normalisation the length is one, and the assertion of [unitvec] never fails. *)
Theorem transform_exact : forall normalize (ds : list rbow) m bow, ds <> [] -> Forall counts ds -> initialize normalize ds ds = Ok m -> Forall (fun iv => 0 < snd iv) bow ->
  exists v r, weighted ds bow v /\ Forall (fun iv => 0 < snd iv) v /\ logent_get m bow = Ok r /\
    (normalize = false -> r = v) /\ (normalize = true -> v <> [] -> map fst r = map fst v /\ Rsum (map (fun iv => snd iv ^ 2) r) = 1 /\ exists len, 0 < len /\ forall t x, In (t, x) v -> In (t, x / len) r) /\
    (v = [] -> r = []).
Proof.
  intros nm ds m bow NE F E P. destruct (weights_exact nm ds NE F) as (m' & E' & NM & _ & _ & W). rewrite E in E'. injection E' as <-.
  assert (S1 : exists vs, rmapM (weigh m) bow = Ok vs /\ weighted ds bow (concat vs) /\ Forall (fun iv => 0 < snd iv) (concat vs)).
  { clear E. induction P as [|[t f] bow P0 P (vs & M & WE & PO)]; [exists []; repeat split; constructor|]. cbn [snd] in P0. cbn [rmapM]. unfold weigh at 1. cbn [fst snd]. destruct (counted_ex t ds) as (fs & C). rewrite (W t fs C). destruct fs as [|f0 fs].
    - cbn [rbind]. rewrite M. cbn [rbind]. eexists. split; [reflexivity|]. cbn [concat app]. split; [apply w_unknown; assumption | exact PO].
    - destruct (Rlt_dec 0 (f + 1)) as [_|K]; [|lra]. cbn [rbind]. rewrite M. cbn [rbind]. eexists. split; [reflexivity|]. cbn [concat app]. split; [apply w_known; [exact C | discriminate | exact WE]|]. constructor; [|exact PO]. cbn [snd].
      apply Rmult_lt_0_compat; [rewrite <- ln_1; apply ln_increasing; lra|]. destruct (weight_bounds ds t (f0 :: fs) F C ltac:(discriminate)) as (B1 & (B2 & _) & _). cbv zeta in B1, B2. lra. }
  destruct S1 as (vs & M & WE & PO). exists (concat vs). unfold logent_get. rewrite M. cbn [rbind]. rewrite NM. destruct nm.
  - destruct (concat vs) as [|[t x] v] eqn:V.
    + exists []. split; [exact WE|]. split; [exact PO|]. split; [reflexivity|]. split; [discriminate|]. split; [congruence | reflexivity].
    + assert (X : 0 < x) by (inversion PO; assumption). destruct (unitvec_bow_l2 ((t, x) :: v) t x (or_introl eq_refl) ltac:(lra)) as (r & len & U & LP & K & DI & S2 & _). exists r. split; [exact WE|]. split; [exact PO|]. rewrite U. split; [reflexivity|]. split; [discriminate|]. split; [|discriminate].
      intros _ _. split; [exact K|]. split; [exact S2|]. exists len. split; assumption.
  - exists (concat vs). repeat split; try assumption; try reflexivity; try discriminate. intros ->. reflexivity.
Qed.
Print Assumptions weights_exact.
Print Assumptions weight_bounds.
Print Assumptions transform_exact.

(** Three documents, the first term in two of them *)
Definition ds1 : list rbow := [[(0%Z, 2); (1%Z, 1)]; [(0%Z, 2)]; [(2%Z, 5)]].
Example ds1_ok : Forall counts ds1 /\ counted 0 ds1 [2; 2] /\ counted 1 ds1 [1] /\ counted 9 ds1 [].
Proof.
  split; [repeat constructor; cbn; try lra; intuition discriminate|]. split; [|split].
  - apply c_has; [left; reflexivity|]. apply c_has; [left; reflexivity|]. apply c_not; [cbn; intuition discriminate | constructor].
  - apply c_has; [right; left; reflexivity|]. apply c_not; [cbn; intuition discriminate|]. apply c_not; [cbn; intuition discriminate | constructor].
  - repeat (apply c_not; [cbn; intuition discriminate|]). constructor.
Qed.
Example weights_example : exists m, initialize false ds1 ds1 = Ok m /\ dget (l_entr m) 0%Z = Some (1 / 2) /\ dget (l_entr m) 1%Z = Some 1 /\ dget (l_entr m) 9%Z = None.
Proof.
  destruct ds1_ok as (F & C0 & C1 & C9). destruct (weights_exact false ds1 ltac:(discriminate) F) as (m & E & _ & _ & _ & W). exists m. split; [exact E|].
  rewrite (W _ _ C0), (W _ _ C1), (W _ _ C9). split; [f_equal | split; [f_equal | reflexivity]].
  - destruct (weight_bounds ds1 0 [2; 2] F C0 ltac:(discriminate)) as (_ & _ & _ & EQ). rewrite (EQ 2 eq_refl). cbn [length ds1]. replace (INR 3 + 1) with (INR 2 * INR 2) by (cbn; lra). rewrite ln_mult by (cbn; lra). assert (0 < ln (INR 2)) by (rewrite <- ln_1; apply ln_increasing; cbn; lra). field. lra.
  - destruct (weight_bounds ds1 1 [1] F C1 ltac:(discriminate)) as (_ & _ & O1 & _). apply O1. reflexivity.
Qed.

(** A generator of one document is not noticed: there are no weights and every document becomes empty. *)
Theorem one_document_generator_refuted : exists m, initialize true [[(0%Z, 1)]] [] = Ok m /\ forall bow, logent_get m bow = Ok [].
Proof.
  eexists. split; [reflexivity|]. intros bow. unfold logent_get. cbn [l_entr l_normalize].
  assert (M : exists vs, rmapM (weigh (mkL true 1 1 [])) bow = Ok vs /\ concat vs = []). { induction bow as [|iv bow (vs & M & C)]; [exists []; split; reflexivity|]. cbn [rmapM weigh l_entr dget rbind]. rewrite M. eexists. split; [reflexivity | exact C]. }
  destruct M as (vs & M & C). cbn in *. rewrite M. cbn [rbind]. rewrite C. reflexivity.
Qed.
(** An empty list is taken for a generator. *)
Theorem le_empty_corpus_refuted : exists corpus, corpus = [] /\ initialize true corpus corpus = Err ValueError.
Proof. exists []. split; reflexivity. Qed.
(** An explicit zero count raises. *)
Theorem le_zero_count_refuted : exists witness, witness = [[(0%Z, 0)]] /\ (initialize true witness witness = Err ZeroDivErr).
Proof. exists [[(0%Z, 0)]]. split; [reflexivity|].
  unfold initialize. rewrite frequencies_bumps. cbn [rfold concat app]. unfold share at 1. rewrite bumps_get. unfold hits. cbn [filter fst]. destruct (eq_dec 0%Z 0%Z) as [_|K]; [|congruence]. cbn [map snd of_option rbind dget_or dget total].
  destruct (Req_EM_T (0 + (0 + 0)) 0) as [_|K]; [reflexivity|]. exfalso. apply K. lra.
Qed.
(** A document that lists a term three times gives it a negative weight. *)
Theorem repeated_term_refuted : exists m w, initialize true [[(0%Z, 1); (0%Z, 1); (0%Z, 1)]] [[(0%Z, 1); (0%Z, 1); (0%Z, 1)]] = Ok m /\ dget (l_entr m) 0%Z = Some w /\ w < 0.
Proof.
  unfold initialize. rewrite frequencies_bumps. set (c := [[(0%Z, 1); (0%Z, 1); (0%Z, 1)]]). rewrite (second_pass _ (fun _ => 3)).
  - cbn [rbind]. eexists _, _. split; [reflexivity|]. cbn [l_entr]. rewrite (dget_map_val (fun x => 1 + x / ln (IZR (Z.of_nat (length c) - 1 + 1) + 1))). rewrite bumps_get, hits_portion. unfold c, hits. cbn [concat app filter fst]. destruct (eq_dec 0%Z 0%Z) as [_|K]; [|congruence].
    cbn [map snd option_map length]. split; [reflexivity|]. cbn [total]. unfold dget_or. cbn [dget]. change (Z.of_nat 1 - 1 + 1)%Z with 1%Z.
    replace (1 / 3) with (/ 3) by lra. rewrite ln_Rinv by lra. assert (L2 : 0 < ln 2) by (rewrite <- ln_1; apply ln_increasing; lra). assert (L3 : ln 2 < ln 3) by (apply ln_increasing; lra).
    replace (1 + 1) with 2 by lra. apply (Rmult_lt_reg_r (ln 2)); [exact L2|]. rewrite Rmult_0_l. field_simplify; lra.
  - intros iv I. cbn in I. assert (E : iv = (0%Z, 1)) by (destruct I as [I|[I|[I|[]]]]; congruence). subst iv. cbn [fst snd]. split; [|split; lra]. rewrite bumps_get. unfold c, hits. cbn [concat app filter fst]. destruct (eq_dec 0%Z 0%Z) as [_|K]; [|congruence]. cbn [map snd total]. unfold dget_or. cbn [dget]. f_equal. lra.
Qed.
Print Assumptions one_document_generator_refuted.
Print Assumptions le_empty_corpus_refuted.
Print Assumptions le_zero_count_refuted.
Print Assumptions repeated_term_refuted.

(** ** NormModel *)
Definition norm_of (k : norm_kind) (v : rbow) : R := match k with L1 => Rsum (map (fun iv => Rabs (snd iv)) v) | L2 => Rsum (map (fun iv => snd iv ^ 2) v) | Unique => 1 end.
(** Documents with a non-zero entry get norm one with the same ids and directions; the statistics count documents and entries. *)
Theorem norm_model_exact : forall k c, k <> Unique -> Forall (fun d => exists i w, In (i, w) d /\ w <> 0) c ->
  exists ns, new_norm (Some c) k = Ok (mkNorm k (Some (length c, length (concat c), ns))) /\
    Forall2 (fun d n => normalize k d = Ok n /\ map fst n = map fst d /\ norm_of k n = 1 /\ exists len, 0 < len /\ forall i w, In (i, w) d -> In (i, w / len) n) c ns.
Proof.
  intros k c NU F. assert (S1 : exists ns, rmapM (normalize k) c = Ok ns /\ Forall2 (fun d n => normalize k d = Ok n /\ map fst n = map fst d /\ norm_of k n = 1 /\ exists len, 0 < len /\ forall i w, In (i, w) d -> In (i, w / len) n) c ns).
  { induction F as [|d c (i & w & I & W) F (ns & M & F2)]; [exists []; split; [reflexivity | constructor]|]. assert (U : exists n, normalize k d = Ok n /\ map fst n = map fst d /\ norm_of k n = 1 /\ exists len, 0 < len /\ forall i w, In (i, w) d -> In (i, w / len) n).
    { unfold normalize. destruct k; [| |congruence].
      - destruct (unitvec_bow_l1 d i w I W) as (v & len & E & P & K & D & S1 & _). exists v. rewrite E. repeat split; try assumption. exists len. split; assumption.
      - destruct (unitvec_bow_l2 d i w I W) as (v & len & E & P & K & D & S1 & _). exists v. rewrite E. repeat split; try assumption. exists len. split; assumption. }
    destruct U as (n & E & R1). exists (n :: ns). cbn [rmapM]. rewrite E. cbn [rbind]. rewrite M. split; [reflexivity|]. constructor; [split; [exact E | exact R1] | exact F2]. }
  destruct S1 as (ns & M & F2). exists ns. split; [|exact F2]. unfold new_norm. rewrite M. cbn [rbind]. repeat f_equal. clear. induction c as [|d c IH]; [reflexivity|]. cbn [map fold_right concat]. rewrite app_length, IH. reflexivity.
Qed.
(** One document whose entries are all zero makes the model fail. *)
Theorem norm_zero_refuted : exists c, new_norm (Some ([(1%Z, 2)] :: c)) L2 = Err AssertionErr.
Proof.
  exists [[(0%Z, 0)]]. unfold new_norm. cbn [rmapM]. destruct (unitvec_bow_l2 [(1%Z, 2)] 1%Z 2 (or_introl eq_refl) ltac:(lra)) as (v & len & E & _). unfold normalize at 1. rewrite E. cbn [rbind]. unfold normalize.
  destruct (unitvec_bow_zero [(0%Z, 0)] L2) as [(K & _)|(_ & K)]; [discriminate | intros i w [I|[]]; congruence | discriminate K|]. rewrite K. reflexivity.
Qed.
Example norm_example : normalize L1 [(3%Z, 1); (7%Z, -3)] = Ok [(3%Z, 1 / 4); (7%Z, -3 / 4)].
Proof.
  unfold normalize, unitvec_bow, ret_normalized_vec. cbn [map snd Rsum fold_right]. rewrite (Rabs_right 1), (Rabs_left (-3)) by lra. destruct (Rlt_dec 0 (1 + (- (-3) + 0))) as [_|K]; [|lra]. destruct (Req_EM_T (1 + (- (-3) + 0)) 1) as [K|_]; [lra|]. cbn [rbind map fst snd]. repeat f_equal; lra.
Qed.
Print Assumptions norm_model_exact.
Print Assumptions norm_zero_refuted.
