(** Properties of the in-memory indexes. *)
From Coq Require Import Reals Lra Permutation.
From Verif Require Import Base MatReal_Model MatReal_Proofs DocIndex_Model DocIndex_Proofs.
Local Open Scope R_scope.

(** ** Queries *)

(** An index answers a document with its cosine (matutils.cossim) to every document of the corpus, or with the best of them *)
Theorem dense_query : forall clip corpus nf best chunk ix q, new_dense corpus nf best chunk = Ok ix -> Forall (proper (ix_features ix)) (q :: corpus) ->
  exists v, cosines q corpus v /\ getitem clip ix (QDoc q) = Ok (match best with None => AVec v | Some b => ABest (clip v b) end).
Proof.
  intros clip corpus nf best chunk ix q E P. inversion P as [|? ? Pq Pc]; subst. pose proof (dense_built _ _ _ _ _ E Pc) as Eix. rewrite Eix. cbn [ix_features].
  set (n := ix_features ix) in *. clearbody n.
  eexists. split; [apply (sims_cosines Dense n best true chunk); eassumption|]. rewrite getitem_doc by assumption. destruct best; reflexivity.
Qed.
Theorem sparse_query : forall clip corpus nf best chunk mt ix q, new_sparse corpus nf best chunk mt = Ok ix -> Forall (proper (ix_features ix)) (q :: corpus) -> best = None \/ mt = false ->
  exists v, cosines q corpus v /\ getitem clip ix (QDoc q) = Ok (match best with None => AVec v | Some b => ABest (clip v b) end).
Proof.
  intros clip corpus nf best chunk mt ix q E P Hb. inversion P as [|? ? Pq Pc]; subst. pose proof (sparse_built _ _ _ _ _ _ E Pc) as Eix. rewrite Eix. cbn [ix_features].
  set (n := ix_features ix) in *. clearbody n.
  eexists. split; [apply (sims_cosines (Sparse mt) n best true chunk); eassumption|]. rewrite getitem_doc by assumption. destruct best; [|reflexivity]. destruct Hb as [Hb|Hb]; [discriminate|]. subst. reflexivity.
Qed.
(** Both kinds of index give the same answer *)
Theorem same_index : forall clip corpus n best c1 c2 ix1 ix2 q, new_dense corpus (Some n) best c1 = Ok ix1 -> new_sparse corpus (Some n) best c2 false = Ok ix2 ->
  Forall (proper n) (q :: corpus) -> getitem clip ix1 (QDoc q) = getitem clip ix2 (QDoc q).
Proof.
  intros clip corpus n best c1 c2 ix1 ix2 q E1 E2 P. inversion P as [|? ? Pq Pc]; subst.
  assert (F1 : ix_features ix1 = n). { unfold new_dense in E1. destruct (Nat.eqb n 0); [discriminate|]. destruct (rmapM _ corpus); [|discriminate]. cbn [rbind] in E1. injection E1 as <-. reflexivity. }
  assert (F2 : ix_features ix2 = n). { unfold new_sparse in E2. destruct (rmapM _ corpus); [|discriminate]. cbn [rbind] in E2. injection E2 as <-. reflexivity. }
  pose proof (dense_built _ _ _ _ _ E1) as B1. pose proof (sparse_built _ _ _ _ _ _ E2) as B2. rewrite F1 in B1. rewrite F2 in B2. rewrite (B1 Pc), (B2 Pc).
  rewrite !getitem_doc by assumption. destruct best; reflexivity.
Qed.
(** An answer lies between -1 and 1; a document finds itself with similarity 1 *)
Theorem query_bounded : forall n q corpus v, Forall (proper n) (q :: corpus) -> cosines q corpus v ->
  length v = length corpus /\ (forall x, In x v -> -1 <= x <= 1) /\ (forall i, q <> [] -> nth_error corpus i = Some q -> nth_error v i = Some 1).
Proof.
  intros n q corpus v P C. inversion P as [|? ? Pq Pc]; subst. clear P. unfold cosines in C. induction C as [|d x corpus v Hx C IH]; [split; [reflexivity|split; [intros x []|intros [|]; discriminate]]|].
  inversion Pc as [|? ? Pd Pc']; subst. destruct (IH Pc') as (L & B & S1).
  assert (K : forall a b y, proper n a -> proper n b -> cossim a b = Ok y -> a <> [] -> b <> [] -> y = dot a b / (norm a * norm b) /\ 0 < sumsq (map snd a) /\ 0 < sumsq (map snd b)).
  { intros a b y (Na & _ & Za) (Nb & _ & Zb) E NEa NEb. destruct (cossim_cases a b) as (_ & C2 & _). rewrite (dict_proper a Na), (dict_proper b Nb) in C2.
    assert (Sa : 0 < sumsq (dvals a)) by (apply sumsq_pos; destruct Za; [contradiction|assumption]). assert (Sb : 0 < sumsq (dvals b)) by (apply sumsq_pos; destruct Zb; [contradiction|assumption]).
    rewrite (C2 NEa NEb Sa Sb) in E. injection E as <-. repeat split; assumption. }
  split; [cbn; congruence|]. split.
  - intros y [<-|Hy]; [|apply B; assumption]. destruct q as [|q0 q']; [cbn in Hx; injection Hx as <-; lra|]. destruct d as [|d0 d']; [destruct (cossim_cases (q0 :: q') []) as (C1 & _); rewrite C1 in Hx by auto; injection Hx as <-; lra|].
    destruct (K _ _ _ Pq Pd Hx) as (-> & Sa & Sb); [discriminate|discriminate|]. set (a := q0 :: q') in *. set (b := d0 :: d') in *. destruct Pq as (Na & _). destruct Pd as (Nb & _).
    pose proof (dot_cs a b Na Nb) as CS. assert (0 < norm a) by (apply sqrt_lt_R0; assumption). assert (0 < norm b) by (apply sqrt_lt_R0; assumption).
    assert (Ea : norm a * norm a = sumsq (map snd a)) by (apply sqrt_sqrt; lra). assert (Eb : norm b * norm b = sumsq (map snd b)) by (apply sqrt_sqrt; lra).
    assert (P0 : 0 < norm a * norm b) by nra. assert (CS' : (dot a b) ^ 2 <= (norm a * norm b) ^ 2) by (replace ((norm a * norm b) ^ 2) with ((norm a * norm a) * (norm b * norm b)) by ring; rewrite Ea, Eb; assumption).
    split; (apply Rmult_le_reg_r with (norm a * norm b); [assumption|]; unfold Rdiv; rewrite Rmult_assoc, Rinv_l, Rmult_1_r by lra; nra).
  - intros [|i] NE Hi; cbn in Hi |- *; [|apply S1; assumption]. injection Hi as ->. f_equal. destruct (K _ _ _ Pq Pq Hx NE NE) as (-> & Sa & _). destruct Pq as (Na & Rg & _).
    assert (Ed : dot q q = sumsq (map snd q)).
    { rewrite (dot_over q q (map fst q) Na Na (incl_refl _)), (sumsq_over q (map fst q) Na Na (incl_refl _)). apply Rsum_ext. intros; ring. }
    assert (En : norm q * norm q = sumsq (map snd q)) by (apply sqrt_sqrt; lra). rewrite Ed, En. field. lra.
Qed.
(** A corpus of queries is answered like its documents *)
Theorem corpus_query : forall clip corpus nf best chunk mt ix qs, new_dense corpus nf best chunk = Ok ix \/ new_sparse corpus nf best chunk mt = Ok ix ->
  Forall (proper (ix_features ix)) (qs ++ corpus) ->
  exists m, Forall2 (fun q v => cosines q corpus v) qs m /\
    getitem clip ix (QCorpus qs) = Ok (match best, maintains ix with
      | None, false => AMat m | None, true => ASparse m
      | Some b, false => ABests (map (fun v => clip v b) m) | Some b, true => AClipped (map (fun v => clip v b) m) end).
Proof.
  intros clip corpus nf best chunk mt ix qs E P. apply Forall_app in P. destruct P as (Pq & Pc).
  assert (B : exists k, ix = Index k (map (the_row (ix_features ix)) corpus) (ix_features ix) best true chunk).
  { destruct E as [E|E]; eexists; [eapply dense_built|eapply sparse_built]; eassumption. }
  destruct B as (k & Eix). rewrite Eix. cbn [maintains ix_kind ix_features]. set (n := ix_features ix) in *. clearbody n.
  exists (map (fun q => sims (Index k (map (the_row n) corpus) n best true chunk) (the_row n q)) qs). split.
  - clear - Pq Pc. induction Pq as [|q qs Pq P IH]; cbn [map]; constructor; [apply sims_cosines; assumption|exact IH].
  - rewrite getitem_corpus by assumption. destruct best, k as [|[|]]; reflexivity.
Qed.
(** Violation: a sparse index that keeps results sparse cannot give the best documents for a single document *)
Theorem maintain_best_refuted : exists ix q, new_sparse [[(0%Z, 1)]; [(1%Z, 1)]] (Some 2%nat) (Some 1%Z) 256 true = Ok ix /\ Forall (proper (ix_features ix)) [q] /\
  (forall clip, getitem clip ix (QDoc q) = Err ValueError) /\ (forall clip, exists b, getitem clip ix (QCorpus [q]) = Ok (AClipped [b])).
Proof.
  assert (P0 : proper 2 [(0%Z, 1)]). { split; [repeat constructor; easy|]. split; [intros i [<-|[]]; cbn; lia|]. right. exists 1. split; [left; reflexivity|lra]. }
  assert (P1 : proper 2 [(1%Z, 1)]). { split; [repeat constructor; easy|]. split; [intros i [<-|[]]; cbn; lia|]. right. exists 1. split; [left; reflexivity|lra]. }
  set (corpus := [[(0%Z, 1)]; [(1%Z, 1)]]). assert (Pc : Forall (proper 2) corpus) by (constructor; [assumption|constructor; [assumption|constructor]]).
  assert (E : new_sparse corpus (Some 2%nat) (Some 1%Z) 256 true = Ok (Index (Sparse true) (map (the_row 2) corpus) 2 (Some 1%Z) true 256)).
  { unfold new_sparse. rewrite (rmapM_ok _ (the_row 2)); [reflexivity|]. intros d Hd. destruct (unit_rows 2 d (proj1 (Forall_forall _ _) Pc _ Hd)) as (u & Hu & _ & Hs). rewrite Hu. cbn [rbind]. exact Hs. }
  eexists. exists [(0%Z, 1)]. split; [exact E|]. cbn [ix_features]. split; [constructor; [exact P0|constructor]|]. split.
  - intros clip. rewrite getitem_doc by exact P0. reflexivity.
  - intros clip. rewrite getitem_corpus by (constructor; [exact P0|constructor]). cbn zeta. cbn [map]. eexists. reflexivity.
Qed.
(** Errors: an id beyond the features, a document of explicit zeros (as query, and in a sparse corpus), no features, an unknown number of features *)
Theorem index_fails : forall clip,
  (forall corpus best chunk nf, nf = Some 0%nat \/ (nf = None /\ concat corpus = []) -> new_dense corpus nf best chunk = Err ValueError) /\
  (forall corpus best chunk mt, new_sparse corpus None best chunk mt = Err ValueError) /\
  (forall k rows n best chunk d, d <> [] -> (forall x, In x (map snd d) -> x = 0) -> getitem clip (Index k rows n best true chunk) (QDoc d) = Err AssertionErr) /\
  (forall k rows n best chunk d, in_range n d = false -> getitem clip (Index k rows n best false chunk) (QDoc d) = Err IndexError).
Proof.
  intros clip. split; [|split; [|split]].
  - intros corpus best chunk nf [->|(-> & E)]; [reflexivity|]. unfold new_dense, max_id. rewrite E. reflexivity.
  - reflexivity.
  - intros k rows n best chunk d NE Z0. unfold getitem. cbn [ix_normalize]. unfold unitvec_bow. destruct d as [|p d']; [congruence|]. set (d := p :: d') in *.
    assert (S0 : Rsum (map (fun iv => snd iv ^ 2) d) = 0).
    { rewrite (Rsum_ext (fun iv => snd iv ^ 2) (fun iv : Z * R => 0 * snd iv)); [rewrite (Rsum_scal (fun iv : Z * R => snd iv) 0); ring|]. intros iv Hi. rewrite (Z0 (snd iv)) by (apply in_map; assumption). ring. }
    rewrite S0, sqrt_0. destruct (Rlt_dec 0 (1 * 0)) as [L|_]; [lra|]. reflexivity.
  - intros k rows n best chunk d Rg. unfold getitem. cbn [ix_normalize rbind]. unfold get_similarities, full_row, sparse_row. cbn [ix_kind ix_features]. destruct k; rewrite Rg; reflexivity.
Qed.

(** ** Loops *)

(** A loop over an index gives for each document its cosines with all documents, and leaves the index as it was *)
Theorem dense_iterate : forall clip corpus nf best chunk ix, new_dense corpus nf best chunk = Ok ix -> Forall (proper (ix_features ix)) corpus ->
  exists m, Forall2 (fun d v => cosines d corpus v) corpus m /\ iterate clip ix = (Ok (map (fun v => match best with None => IVec v | Some b => IBest (clip v b) end) m), ix).
Proof.
  intros clip corpus nf best chunk ix E P. pose proof (dense_built _ _ _ _ _ E P) as Eix. set (n := ix_features ix) in *. clearbody n. clear E.
  exists (map (sims ix) (ix_rows ix)). rewrite Eix. split.
  - cbn [ix_rows]. rewrite map_map. assert (K : forall l, Forall (proper n) l -> Forall2 (fun d v => cosines d corpus v) l (map (fun x => sims (Index Dense (map (the_row n) corpus) n best true chunk) (the_row n x)) l)).
    { induction 1 as [|d l Pd _ IH]; cbn [map]; constructor; [apply sims_cosines; assumption|exact IH]. }
    apply K. exact P.
  - destruct (Nat.le_gt_cases chunk 1) as [L|L].
    + rewrite iterate_single by (cbn; auto). rewrite map_map. reflexivity.
    + rewrite iterate_chunked by (cbn; auto). rewrite map_map. destruct best; reflexivity.
Qed.
(** A sparse index likewise, unless its last chunk is a single document *)
Theorem sparse_iterate : forall clip corpus nf best chunk mt ix, new_sparse corpus nf best chunk mt = Ok ix -> Forall (proper (ix_features ix)) corpus ->
  (1 < chunk)%nat -> (length corpus mod chunk <> 1)%nat ->
  exists m, Forall2 (fun d v => cosines d corpus v) corpus m /\
    iterate clip ix = (Ok (map (fun v => match best, mt with None, false => IVec v | None, true => ISparse v | Some b, false => IBest (clip v b) | Some b, true => IClipped (clip v b) end) m), ix).
Proof.
  intros clip corpus nf best chunk mt ix E P Hc Hm. pose proof (sparse_built _ _ _ _ _ _ E P) as Eix. set (n := ix_features ix) in *. clearbody n. clear E.
  exists (map (sims ix) (ix_rows ix)). rewrite Eix. split.
  - cbn [ix_rows]. rewrite map_map. assert (K : forall l, Forall (proper n) l -> Forall2 (fun d v => cosines d corpus v) l (map (fun x => sims (Index (Sparse mt) (map (the_row n) corpus) n best true chunk) (the_row n x)) l)).
    { induction 1 as [|d l Pd _ IH]; cbn [map]; constructor; [apply sims_cosines; assumption|exact IH]. }
    apply K. exact P.
  - rewrite iterate_chunked; [|cbn; assumption|unfold last_alone; cbn; rewrite map_length; assumption].
    rewrite map_map. destruct best, mt; reflexivity.
Qed.
(** Violation: three documents in chunks of two.  The last document's similarities come one by one, as numbers. *)
Theorem sparse_iterate_refuted : exists ix, new_sparse [[(0%Z, 1)]; [(1%Z, 1)]; [(0%Z, 1)]] (Some 2%nat) None 2 false = Ok ix /\
  forall clip, fst (iterate clip ix) = Ok [IVec [1; 0; 1]; IVec [0; 1; 0]; INum 1; INum 0; INum 1].
Proof.
  set (e0 := [(0%Z, 1)]). set (e1 := [(1%Z, 1)]).
  assert (U : forall i, unitvec_bow [(i, 1)] L2 = Ok ([(i, 1)], 1)).
  { intros i. unfold unitvec_bow. cbn [map snd Rsum fold_right]. assert (E : 1 * sqrt (1 ^ 2 + 0) = 1) by (replace (1 ^ 2 + 0) with 1 by ring; rewrite sqrt_1; ring). rewrite E.
    destruct (Rlt_dec 0 1); [|lra]. unfold ret_normalized_vec. destruct (Req_EM_T 1 1); [reflexivity|congruence]. }
  eexists. split.
  - unfold new_sparse, e0, e1. cbn [rmapM]. rewrite !U. cbn [rbind fst]. unfold sparse_row, in_range, ids. cbn. reflexivity.
  - intros clip. unfold iterate, iter_items, set_normalize. cbn [ix_chunk ix_rows length Nat.ltb Nat.leb chunks firstn skipn fst].
    unfold getitem, get_similarities, sims, dotl. cbn -[Rplus Rmult]. repeat f_equal; ring.
Qed.
(** Violation: in a loop that is left early the index stops normalising its queries for good *)
Theorem abandoned_refuted : exists ix q, ix_normalize ix = true /\ Forall (proper (ix_features ix)) [q] /\
  (forall clip, getitem clip ix (QDoc q) = Ok (AVec [1])) /\ (forall clip, getitem clip (abandon ix) (QDoc q) = Ok (AVec [2])).
Proof.
  exists (Index Dense [[1]] 1 None true 256), [(0%Z, 2)]. split; [reflexivity|]. split; [|split].
  - constructor; [|constructor]. split; [repeat constructor; easy|]. split; [intros i [<-|[]]; cbn; lia|]. right. exists 2. split; [left; reflexivity|lra].
  - intros clip. unfold getitem. cbn [ix_normalize]. unfold unitvec_bow. cbn [map snd Rsum fold_right].
    assert (E : 1 * sqrt (2 ^ 2 + 0) = 2) by (replace (2 ^ 2 + 0) with (2 * 2) by ring; rewrite sqrt_square; lra). rewrite E.
    destruct (Rlt_dec 0 2); [|lra]. unfold ret_normalized_vec. destruct (Req_EM_T 2 1); [lra|]. cbn -[Rplus Rmult Rdiv]. unfold sims, dotl. cbn -[Rplus Rmult Rdiv]. do 3 f_equal. field.
  - intros clip. cbn -[Rplus Rmult]. unfold sims, dotl. cbn -[Rplus Rmult]. do 3 f_equal. ring.
Qed.

(** ** Word mover's similarity *)

(** Similarities lie in [0, 1], the greater the smaller the distance, 0 only for infinity *)
Theorem wmd_values : forall {W} (wmd : list W -> list W -> option R) corpus q, (forall a b x, wmd a b = Some x -> 0 <= x) ->
  length (wmd_row wmd corpus q) = length corpus /\
  (forall i d, nth_error corpus i = Some d -> exists s, nth_error (wmd_row wmd corpus q) i = Some s /\ 0 <= s <= 1 /\ (s = 0 <-> wmd d q = None) /\ (s = 1 <-> wmd d q = Some 0) /\
     forall j e t, nth_error corpus j = Some e -> nth_error (wmd_row wmd corpus q) j = Some t -> forall x y, wmd d q = Some x -> wmd e q = Some y -> (s < t <-> y < x)).
Proof.
  intros W wmd corpus q H0. split; [apply map_length|]. intros i d Hi. unfold wmd_row. rewrite (map_nth_error _ _ _ Hi). eexists. split; [reflexivity|].
  assert (Q : forall x, 0 <= x -> 0 < 1 / (1 + x) <= 1).
  { intros x Hx. unfold Rdiv. rewrite Rmult_1_l. split; [apply Rinv_0_lt_compat; lra|]. rewrite <- Rinv_1. apply Rinv_le_contravar; lra. }
  destruct (wmd d q) as [x|] eqn:Ed.
  - pose proof (H0 _ _ _ Ed) as Hx. pose proof (Q x Hx) as Qx. split; [lra|]. split; [split; [lra|discriminate]|]. split.
    + split; intros E; [|injection E as ->; field]. f_equal. assert (1 + x = 1); [|lra]. apply (f_equal (fun z => z * (1 + x))) in E. unfold Rdiv in E. rewrite Rmult_assoc, Rinv_l in E by lra. lra.
    + intros j e t Hj Ht x' y Ex Ey. injection Ex as <-. rewrite (map_nth_error _ _ _ Hj), Ey in Ht. injection Ht as <-. pose proof (H0 _ _ _ Ey) as Hy. unfold Rdiv. rewrite !Rmult_1_l. split; intros L.
      * apply Rnot_le_lt. intros L2. assert (/ (1 + y) <= / (1 + x)) by (apply Rinv_le_contravar; lra). lra.
      * apply Rinv_lt_contravar; [|lra]. apply Rmult_lt_0_compat; lra.
  - split; [lra|]. split; [split; reflexivity|]. split; [split; [lra|discriminate]|]. discriminate.
Qed.
(** A loop gives a row for each document when no chunk is a single document *)
Theorem wmd_loop : forall {W} (wmd : list W -> list W -> option R) corpus chunk, (1 < chunk)%nat -> (length corpus mod chunk <> 1)%nat ->
  wmd_iter wmd corpus chunk = map (fun d => IVec (wmd_row wmd corpus d)) corpus.
Proof.
  intros W wmd corpus chunk Hc. unfold wmd_iter.
  assert (K : forall fuel l, (length l <= fuel)%nat -> (length l mod chunk <> 1)%nat -> concat (map (fun c => items (wmd_similarities wmd corpus c)) (chunks_of fuel chunk l)) = map (fun d => IVec (wmd_row wmd corpus d)) l).
  { induction fuel as [|fuel IH]; intros l Hl Hm; [destruct l; [reflexivity|cbn in Hl; lia]|]. destruct l as [|d l'] eqn:El; [reflexivity|]. rewrite <- El in *. cbn [chunks_of]. rewrite El at 1. cbn [map concat].
    assert (Hp : (0 < length l)%nat) by (rewrite El; cbn; lia).
    rewrite IH; [|rewrite skipn_length; lia|].
    - assert (N1 : length (firstn chunk l) <> 1%nat).
      { rewrite firstn_length. destruct (Nat.le_gt_cases chunk (length l)); [lia|]. rewrite Nat.min_r by lia. rewrite Nat.mod_small in Hm by lia. assumption. }
      rewrite <- (firstn_skipn chunk l) at 3. rewrite map_app. f_equal. unfold wmd_similarities.
      destruct (firstn chunk l) as [|a [|b t]]; [reflexivity|cbn in N1; lia|]. cbn [map items]. rewrite map_map. reflexivity.
    - rewrite skipn_length. destruct (Nat.le_gt_cases chunk (length l)) as [L|L].
      + replace (length l) with ((length l - chunk) + 1 * chunk)%nat in Hm by lia. rewrite Nat.mod_add in Hm by lia. assumption.
      + replace (length l - chunk)%nat with 0%nat by lia. rewrite Nat.mod_0_l by lia. lia. }
  intros Hm. apply K; [apply le_n|assumption].
Qed.
(** Violation: with a single document in the last chunk it gives numbers *)
Theorem wmd_loop_refuted : forall wmd : list nat -> list nat -> option R, exists a b c, wmd_iter wmd [[1%nat]; [2%nat]; [3%nat]] 2 = [IVec a; IVec b; INum (nth 0 c 0); INum (nth 1 c 0); INum (nth 2 c 0)] /\ c = wmd_row wmd [[1%nat]; [2%nat]; [3%nat]] [3%nat].
Proof. intros wmd. do 3 eexists. split; [|reflexivity]. cbn. reflexivity. Qed.

(** Two documents at a right angle *)
Example index_x : exists ix, new_dense [[(0%Z, 1)]; [(1%Z, 1)]] None None 256 = Ok ix /\ ix_features ix = 2%nat /\
  forall clip, exists v, getitem clip ix (QDoc [(1%Z, 3)]) = Ok (AVec v) /\ v = [0; 1].
Proof.
  assert (P : forall i x, (0 <= i < 2)%Z -> x <> 0 -> proper 2 [(i, x)]). { intros i x Hi Hx. split; [repeat constructor; easy|]. split; [intros j [<-|[]]; cbn; lia|]. right. exists x. split; [left; reflexivity|assumption]. }
  set (corpus := [[(0%Z, 1)]; [(1%Z, 1)]]). assert (Pc : Forall (proper 2) corpus) by (constructor; [apply P; [lia|lra]|constructor; [apply P; [lia|lra]|constructor]]).
  assert (E : new_dense corpus None None 256 = Ok (Index Dense (map (the_row 2) corpus) 2 None true 256)).
  { unfold new_dense. replace (Z.to_nat (1 + max_id corpus)) with 2%nat by reflexivity. cbn [Nat.eqb]. rewrite (rmapM_ok _ (the_row 2)); [reflexivity|].
    intros d Hd. destruct (unit_row_dense 2 d (Nat.lt_0_succ _) (proj1 (Forall_forall _ _) Pc _ Hd)) as (r & Hr & Hu). rewrite Hr. cbn [rbind]. rewrite Hu. reflexivity. }
  eexists. split; [exact E|]. split; [reflexivity|]. intros clip.
  destruct (dense_query clip corpus None None 256%nat _ [(1%Z, 3)] E) as (v & C & G).
  { constructor; [apply P; [lia|lra]|exact Pc]. }
  exists v. split; [exact G|]. unfold corpus in C. inversion C as [|? x ? v' H1 C1]; subst. inversion C1 as [|? y ? v'' H2 C2]; subst. inversion C2; subst.
  assert (S3 : sqrt (3 * 3) = 3) by (apply sqrt_square; lra).
  f_equal; [|f_equal].
  - destruct (cossim_cases [(1%Z, 3)] [(0%Z, 1)]) as (_ & K & _). cbn [dict_of] in K. rewrite K in H1; try discriminate; [|apply sumsq_pos; exists 3; split; [left; reflexivity|lra]|apply sumsq_pos; exists 1; split; [left; reflexivity|lra]].
    injection H1 as <-. unfold dot. cbn -[Rplus Rmult Rdiv sqrt sumsq]. unfold Rdiv. ring.
  - destruct (cossim_cases [(1%Z, 3)] [(1%Z, 1)]) as (_ & K & _). cbn [dict_of] in K. rewrite K in H2; try discriminate; [|apply sumsq_pos; exists 3; split; [left; reflexivity|lra]|apply sumsq_pos; exists 1; split; [left; reflexivity|lra]].
    injection H2 as <-. unfold dot, sumsq. cbn -[Rplus Rmult Rdiv sqrt]. replace (3 * 3 + 0) with (3 * 3) by ring. rewrite S3. replace (1 * 1 + 0) with 1 by ring. rewrite sqrt_1. field.
Qed.
Example loop_x : wmd_iter (fun a b : list nat => if list_eq_dec Nat.eq_dec a b then Some 0 else None) [[1%nat]; [2%nat]] 2 = [IVec [1 / (1 + 0); 0]; IVec [0; 1 / (1 + 0)]].
Proof. reflexivity. Qed.

Print Assumptions dense_query.
Print Assumptions sparse_query.
Print Assumptions same_index.
Print Assumptions query_bounded.
Print Assumptions corpus_query.
Print Assumptions maintain_best_refuted.
Print Assumptions index_fails.
Print Assumptions dense_iterate.
Print Assumptions sparse_iterate.
Print Assumptions sparse_iterate_refuted.
Print Assumptions abandoned_refuted.
Print Assumptions wmd_values.
Print Assumptions wmd_loop.
Print Assumptions wmd_loop_refuted.
