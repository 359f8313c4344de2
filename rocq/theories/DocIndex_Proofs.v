(** Proofs about the in-memory indexes. *)
From Coq Require Import Reals Lra.
From Verif Require Import Base MatReal_Model MatReal_Proofs DocIndex_Model.
Local Open Scope R_scope.

(** A document as gensim documents are: distinct ids of the dictionary, and not all values zero *)
Definition proper (n : nat) (d : rbow) : Prop :=
  NoDup (map fst d) /\ (forall i, In i (map fst d) -> (0 <= i < Z.of_nat n)%Z) /\ (d = [] \/ exists x, In x (map snd d) /\ x <> 0).
Definition norm (d : rbow) : R := sqrt (sumsq (map snd d)).
Definition dir (d : rbow) (j : Z) : R := at_ d j / norm d.

Lemma NoDup_ids : forall n, NoDup (ids n).
Proof. intros n. apply FinFun.Injective_map_NoDup; [intros x y; lia|apply seq_NoDup]. Qed.
Lemma In_ids : forall n i, (0 <= i < Z.of_nat n)%Z -> In i (ids n).
Proof. intros n i H. unfold ids. rewrite <- (Z2Nat.id i) by lia. apply in_map, in_seq. lia. Qed.
Lemma proper_incl : forall n d, proper n d -> incl (map fst d) (ids n).
Proof. intros n d (_ & H & _) i Hi. apply In_ids. auto. Qed.
Lemma in_range_proper : forall n d, (forall i, In i (map fst d) -> (0 <= i < Z.of_nat n)%Z) -> in_range n d = true.
Proof.
  intros n d H. apply forallb_forall. intros iv Hi. specialize (H _ (in_map fst _ _ Hi)).
  apply Bool.andb_true_iff. split; [apply Z.leb_le|apply Z.ltb_lt]; lia.
Qed.
Lemma dict_proper : forall d : rbow, NoDup (map fst d) -> dict_of d = d.
Proof. intros. apply dict_of_NoDup. assumption. Qed.
Lemma full_row_proper : forall n d, NoDup (map fst d) -> in_range n d = true -> full_row n d = Ok (map (at_ d) (ids n)).
Proof. intros n d Nd Rg. unfold full_row. rewrite Rg, (dict_proper d Nd). reflexivity. Qed.
Lemma sum_filter : forall (d : rbow) j, NoDup (map fst d) -> Rsum (map snd (filter (fun iv => Z.eqb (fst iv) j) d)) = at_ d j.
Proof.
  induction d as [|[k v] d IH]; intros j Nd; [reflexivity|]. cbn [map fst] in Nd. inversion Nd as [|? ? Nk Nd']; subst.
  cbn [filter fst]. specialize (IH j Nd'). unfold at_, dget_or in *. cbn [dget].
  destruct (Z.eqb_spec k j) as [->|NE].
  - cbn [map snd]. rewrite Rsum_cons, IH. destruct (eq_dec j j); [|congruence]. assert (E : dget d j = None) by (apply dget_None; assumption). rewrite E. lra.
  - rewrite IH. destruct (eq_dec k j); [congruence|]. reflexivity.
Qed.
Lemma sparse_row_proper : forall n d, NoDup (map fst d) -> in_range n d = true -> sparse_row n d = Ok (map (at_ d) (ids n)).
Proof. intros n d Nd Rg. unfold sparse_row. rewrite Rg. f_equal. apply map_ext. intros j. apply sum_filter. assumption. Qed.

Lemma at_scale : forall (d : rbow) k j, at_ (map (fun iv => (fst iv, snd iv / k)) d) j = at_ d j / k.
Proof.
  intros d k j. unfold at_, dget_or. induction d as [|[i v] d IH]; [cbn; unfold Rdiv; lra|]. cbn [map dget fst snd]. destruct (eq_dec i j); [reflexivity|]. exact IH.
Qed.
Lemma unit_rows : forall n d, proper n d -> exists u, unitvec_bow d L2 = Ok u /\ full_row n (fst u) = Ok (map (dir d) (ids n)) /\ sparse_row n (fst u) = Ok (map (dir d) (ids n)).
Proof.
  intros n d (Nd & Rg & Nz). pose proof (in_range_proper n d Rg) as Rg'.
  destruct d as [|p d0] eqn:Ed.
  - exists ([], 1). split; [reflexivity|]. cbn [fst]. rewrite full_row_proper, sparse_row_proper by (auto; constructor).
    split; f_equal; apply map_ext; intros j; unfold dir, at_; cbn; unfold Rdiv; lra.
  - rewrite <- Ed in *. assert (Hs : 0 < sumsq (map snd d)).
    { apply sumsq_pos. destruct Nz as [->|]; [discriminate|assumption]. }
    assert (Hn : 0 < norm d) by (apply sqrt_lt_R0; assumption).
    assert (El : 1 * sqrt (Rsum (map (fun iv => snd iv ^ 2) d)) = norm d).
    { rewrite Rmult_1_l. unfold norm, sumsq. f_equal. rewrite map_map. apply Rsum_ext. intros; ring. }
    assert (U : unitvec_bow d L2 = Ok (ret_normalized_vec d (norm d), norm d)).
    { unfold unitvec_bow. rewrite Ed at 1. rewrite El. destruct (Rlt_dec 0 (norm d)); [reflexivity|contradiction]. }
    eexists. split; [exact U|]. cbn [fst].
    assert (Na : map fst (ret_normalized_vec d (norm d)) = map fst d).
    { unfold ret_normalized_vec. destruct (Req_EM_T (norm d) 1); [reflexivity|]. rewrite map_map. reflexivity. }
    assert (Ni : in_range n (ret_normalized_vec d (norm d)) = true) by (apply in_range_proper; rewrite Na; assumption).
    assert (Ea : forall j, at_ (ret_normalized_vec d (norm d)) j = dir d j).
    { intros j. unfold ret_normalized_vec, dir. destruct (Req_EM_T (norm d) 1) as [E1|_]; [rewrite E1; field|apply at_scale]. }
    rewrite full_row_proper, sparse_row_proper by (rewrite ?Na; assumption).
    split; f_equal; apply map_ext; intros j; apply Ea.
Qed.
Lemma unit_row_dense : forall n d, (0 < n)%nat -> proper n d -> exists r, full_row n d = Ok r /\ fst (unitvec_dense r L2) = map (dir d) (ids n).
Proof.
  intros n d Hn P. pose proof P as (Nd & Rg & Nz). exists (map (at_ d) (ids n)). split; [apply full_row_proper; [assumption|apply in_range_proper; assumption]|].
  assert (Es : sumsq (map (at_ d) (ids n)) = sumsq (map snd d)).
  { rewrite (sumsq_over d (ids n) Nd (NoDup_ids n) (proper_incl n d P)). unfold sumsq. rewrite map_map. apply Rsum_ext. intros; ring. }
  assert (El : match map (at_ d) (ids n) with [] => 0 | _ => sqrt (sumsq (map (at_ d) (ids n))) end = norm d).
  { destruct n as [|n']; [lia|]. unfold ids at 1. cbn [seq map]. rewrite Es. reflexivity. }
  unfold unitvec_dense. rewrite El. unfold norm at 1. destruct (Rlt_dec 0 (sqrt (sumsq (map snd d)))) as [L|L]; cbn [fst].
  - rewrite map_map. apply map_ext. intros j. unfold dir. fold (norm d) in *. field. lra.
  - destruct Nz as [->|Nz].
    + apply map_ext. intros j. unfold dir, at_. cbn. unfold Rdiv. lra.
    + exfalso. apply L. apply sqrt_lt_R0, sumsq_pos. assumption.
Qed.
Lemma dotl_map : forall (f g : Z -> R) l, dotl (map f l) (map g l) = Rsum (map (fun j => f j * g j) l).
Proof. intros f g l. unfold dotl. induction l as [|x l IH]; [reflexivity|]. cbn [map combine]. rewrite !Rsum_cons, IH. reflexivity. Qed.
Lemma cossim_dir : forall n q d, proper n q -> proper n d -> cossim q d = Ok (Rsum (map (fun j => dir d j * dir q j) (ids n))).
Proof.
  intros n q d Pq Pd. pose proof Pq as (Nq & Rq & Zq). pose proof Pd as (Ndd & Rd & Zd).
  destruct (cossim_cases q d) as (C1 & C2 & _). rewrite (dict_proper q Nq), (dict_proper d Ndd) in *.
  assert (Z0 : forall e : Z -> R, Rsum (map (fun j => 0 * e j) (ids n)) = 0).
  { intros e. rewrite (Rsum_scal e 0). ring. }
  destruct Zq as [->|Zq].
  - rewrite C1 by auto. f_equal. rewrite <- (Z0 (dir d)). apply Rsum_ext. intros j _. unfold dir at 3, at_. cbn. unfold Rdiv. ring.
  - destruct Zd as [->|Zd].
    + rewrite C1 by auto. f_equal. rewrite <- (Z0 (dir q)). apply Rsum_ext. intros j _. unfold dir at 2, at_. cbn. unfold Rdiv. ring.
    + assert (Sq : 0 < sumsq (dvals q)) by (apply sumsq_pos; exact Zq). assert (Sd : 0 < sumsq (dvals d)) by (apply sumsq_pos; exact Zd).
      rewrite C2; try assumption.
      * f_equal. change (dvals q) with (map snd q) in *. change (dvals d) with (map snd d) in *. fold (norm q). fold (norm d).
        assert (0 < norm q) by (apply sqrt_lt_R0; assumption). assert (0 < norm d) by (apply sqrt_lt_R0; assumption).
        rewrite (dot_over q d (ids n) Nq (NoDup_ids n) (proper_incl n q Pq)).
        replace (Rsum (map (fun i => at_ q i * at_ d i) (ids n)) / (norm q * norm d)) with (/ (norm q * norm d) * Rsum (map (fun i => at_ q i * at_ d i) (ids n))) by (field; lra).
        rewrite <- Rsum_scal. apply Rsum_ext. intros j _. unfold dir. field. lra.
      * intros ->. destruct Zq as (x & [] & _).
      * intros ->. destruct Zd as (x & [] & _).
Qed.

Lemma rmapM_ok : forall {A B} (f : A -> result B) (g : A -> B) l, (forall x, In x l -> f x = Ok (g x)) -> rmapM f l = Ok (map g l).
Proof. intros A B f g l. induction l as [|x l IH]; intros H; [reflexivity|]. cbn [rmapM]. rewrite (H x) by (left; reflexivity). cbn [rbind]. rewrite IH by (intros; apply H; right; assumption). reflexivity. Qed.

Definition the_row (n : nat) (d : rbow) : list R := map (dir d) (ids n).
Lemma dense_built : forall corpus nf best chunk ix, new_dense corpus nf best chunk = Ok ix -> Forall (proper (ix_features ix)) corpus ->
  ix = Index Dense (map (the_row (ix_features ix)) corpus) (ix_features ix) best true chunk.
Proof.
  intros corpus nf best chunk ix E P. unfold new_dense in E. set (n := match nf with Some n => n | None => _ end) in E. clearbody n.
  destruct (Nat.eqb_spec n 0); [discriminate|].
  destruct (rmapM _ corpus) as [rows|] eqn:Er; [|discriminate]. cbn [rbind] in E. injection E as <-. cbn [ix_features] in *.
  assert (H : rmapM (fun d => let* r := full_row n d in Ok (fst (unitvec_dense r L2))) corpus = Ok (map (the_row n) corpus)).
  { apply rmapM_ok. intros d Hd. destruct (unit_row_dense n d) as (r & Hr & Hu); [lia|apply (proj1 (Forall_forall _ _) P _ Hd)|]. rewrite Hr. cbn [rbind]. rewrite Hu. reflexivity. }
  rewrite H in Er. injection Er as <-. reflexivity.
Qed.
Lemma sparse_built : forall corpus nf best chunk mt ix, new_sparse corpus nf best chunk mt = Ok ix -> Forall (proper (ix_features ix)) corpus ->
  ix = Index (Sparse mt) (map (the_row (ix_features ix)) corpus) (ix_features ix) best true chunk.
Proof.
  intros corpus nf best chunk mt ix E P. unfold new_sparse in E. destruct nf as [n|]; [|discriminate].
  destruct (rmapM _ corpus) as [rows|] eqn:Er; [|discriminate]. cbn [rbind] in E. injection E as <-. cbn [ix_features] in *.
  assert (H : rmapM (fun d => let* u := unitvec_bow d L2 in sparse_row n (fst u)) corpus = Ok (map (the_row n) corpus)).
  { apply rmapM_ok. intros d Hd. destruct (unit_rows n d) as (u & Hu & _ & Hs); [apply (proj1 (Forall_forall _ _) P _ Hd)|]. rewrite Hu. cbn [rbind]. exact Hs. }
  rewrite H in Er. injection Er as <-. reflexivity.
Qed.

(** The rows of cosines *)
Definition cosines (q : rbow) (corpus : list rbow) (v : list R) : Prop := Forall2 (fun d x => cossim q d = Ok x) corpus v.
Lemma sims_cosines : forall k n best nz chunk corpus q, Forall (proper n) corpus -> proper n q -> cosines q corpus (sims (Index k (map (the_row n) corpus) n best nz chunk) (the_row n q)).
Proof.
  intros k n best nz chunk corpus q P Pq. unfold cosines, sims. cbn [ix_rows]. rewrite map_map. induction P as [|d corpus Pd P IH]; [constructor|]. cbn [map]. constructor; [|exact IH].
  unfold the_row. rewrite dotl_map. apply cossim_dir; assumption.
Qed.
Lemma getitem_doc : forall clip k rows n best chunk q, proper n q ->
  getitem clip (Index k rows n best true chunk) (QDoc q) =
  let v := sims (Index k rows n best true chunk) (the_row n q) in
  match best with None => Ok (AVec v) | Some b => match k with Sparse true => Err ValueError | _ => Ok (ABest (clip v b)) end end.
Proof.
  intros clip k rows n best chunk q Pq. destruct (unit_rows n q Pq) as (u & Hu & Hf & Hs).
  unfold getitem. cbn [ix_normalize]. rewrite Hu. cbn [rbind]. unfold get_similarities. cbn [ix_kind ix_features maintains ix_best].
  destruct k as [|m]; [rewrite Hf|rewrite Hs]; cbn [rbind]; fold (the_row n q); destruct best as [b|]; try reflexivity; destruct m; reflexivity.
Qed.
Lemma getitem_corpus : forall clip k rows n best chunk qs, Forall (proper n) qs ->
  getitem clip (Index k rows n best true chunk) (QCorpus qs) =
  let m := map (fun q => sims (Index k rows n best true chunk) (the_row n q)) qs in
  match best, k with
  | None, Sparse true => Ok (ASparse m)
  | None, _ => Ok (AMat m)
  | Some b, Sparse true => Ok (AClipped (map (fun v => clip v b) m))
  | Some b, _ => Ok (ABests (map (fun v => clip v b) m))
  end.
Proof.
  intros clip k rows n best chunk qs P. unfold getitem. cbn [ix_normalize].
  assert (H : exists us, rmapM (fun d => let* u := unitvec_bow d L2 in Ok (fst u)) qs = Ok us /\ rmapM (full_row n) us = Ok (map (the_row n) qs) /\ rmapM (sparse_row n) us = Ok (map (the_row n) qs)).
  { induction P as [|q qs Pq P IH]; [exists []; repeat split; reflexivity|]. destruct IH as (us & H1 & H2 & H3). destruct (unit_rows n q Pq) as (u & Hu & Hf & Hs).
    exists (fst u :: us). cbn [rmapM map]. rewrite Hu. cbn [rbind]. rewrite H1. cbn [rbind]. rewrite Hf, Hs. cbn [rbind]. rewrite H2, H3. cbn [rbind]. repeat split; reflexivity. }
  destruct H as (us & H1 & H2 & H3). rewrite H1. cbn [rbind]. unfold get_similarities. cbn [ix_kind ix_features maintains ix_best].
  destruct k as [|m]; [rewrite H2|rewrite H3]; cbn [rbind]; rewrite !map_map; destruct best as [b|]; try destruct m; reflexivity.
Qed.

(** ** Chunks *)
Lemma chunks_concat : forall n fuel rows, (1 <= n)%nat -> (length rows <= fuel)%nat -> concat (chunks fuel n rows) = rows.
Proof.
  intros n fuel. induction fuel as [|fuel IH]; intros rows Hn Hl; [destruct rows; [reflexivity|cbn in Hl; lia]|].
  destruct rows as [|r rows']; [reflexivity|]. cbn [chunks concat]. rewrite IH; [apply firstn_skipn|assumption|]. rewrite skipn_length. cbn [length] in *. lia.
Qed.
Lemma chunks_not_one : forall n fuel rows, (1 < n)%nat -> (length rows mod n <> 1)%nat -> (length rows <= fuel)%nat -> Forall (fun c => length c <> 1%nat) (chunks fuel n rows).
Proof.
  intros n fuel. induction fuel as [|fuel IH]; intros rows Hn Hm Hl; [constructor|].
  destruct rows as [|r rows'] eqn:Er; [constructor|]. cbn [chunks]. rewrite <- Er in *. constructor.
  - rewrite firstn_length. destruct (Nat.le_gt_cases n (length rows)) as [L|L]; [lia|]. rewrite Nat.min_r by lia. rewrite Nat.mod_small in Hm by lia. assumption.
  - assert (length rows > 0)%nat by (rewrite Er; cbn; lia). apply IH; [assumption| |rewrite skipn_length; lia]. rewrite skipn_length.
    destruct (Nat.le_gt_cases n (length rows)) as [L|L].
    + replace (length rows) with ((length rows - n) + 1 * n)%nat in Hm by lia. rewrite Nat.mod_add in Hm by lia. assumption.
    + replace (length rows - n)%nat with 0%nat by lia. rewrite Nat.mod_0_l by lia. lia.
Qed.
Lemma loop_chunks : forall {X Y} (f : list X -> result (list Y)) (g : X -> Y) cs, (forall c, In c cs -> f c = Ok (map g c)) ->
  (let* l := rmapM f cs in Ok (concat l)) = Ok (map g (concat cs)).
Proof. intros X Y f g cs H. rewrite (rmapM_ok f (map g) cs H). cbn [rbind]. rewrite concat_map. reflexivity. Qed.

(** What a loop over an index gives *)
Definition row_item (clip : list R -> Z -> list (nat * R)) (k : kind) (best : option Z) (v : list R) : item :=
  match best, k with None, Sparse true => ISparse v | None, _ => IVec v | Some b, Sparse true => IClipped (clip v b) | Some b, _ => IBest (clip v b) end.
Definition last_alone (ix : index) : Prop := match ix_kind ix with Dense => False | Sparse _ => (length (ix_rows ix) mod ix_chunk ix = 1)%nat end.
Lemma iterate_chunked : forall clip ix, (1 < ix_chunk ix)%nat -> ~ last_alone ix -> iterate clip ix = (Ok (map (fun r => row_item clip (ix_kind ix) (ix_best ix) (sims ix r)) (ix_rows ix)), ix).
Proof.
  intros clip [k rows n best nz ch] Hc La. cbn [ix_chunk ix_kind ix_rows ix_best] in *.
  assert (E : iter_items clip (set_normalize (Index k rows n best nz ch) false) = Ok (map (fun r => row_item clip k best (sims (Index k rows n best nz ch) r)) rows)).
  { unfold iter_items, set_normalize. cbn [ix_chunk ix_kind ix_rows ix_features ix_best]. rewrite (proj2 (Nat.ltb_lt _ _) Hc).
    rewrite (loop_chunks _ (fun r => row_item clip k best (sims (Index k rows n best nz ch) r))).
    - rewrite chunks_concat by lia. reflexivity.
    - intros c Hi. unfold getitem. cbn [ix_normalize rbind]. unfold get_similarities. cbn [ix_kind].
      change (sims (Index k rows n best false ch)) with (sims (Index k rows n best nz ch)).
      destruct k as [|mt].
      + cbn [rbind ix_best maintains ix_kind]. destruct best as [b|]; cbn [rbind items row_item]; rewrite ?map_map; reflexivity.
      + unfold last_alone in La. cbn in La. pose proof (chunks_not_one ch (length rows) rows Hc La (le_n _)) as F. rewrite Forall_forall in F. specialize (F c Hi).
        destruct (Nat.eqb_spec (length c) 1); [contradiction|]. cbn [rbind ix_best maintains ix_kind]. destruct mt, best as [b|]; cbn [rbind items row_item]; rewrite ?map_map; reflexivity. }
  unfold iterate. rewrite E. reflexivity.
Qed.
Lemma iterate_single : forall clip ix, (ix_chunk ix <= 1)%nat -> (ix_best ix = None \/ maintains ix = false) ->
  iterate clip ix = (Ok (map (fun r => match ix_best ix with None => IVec (sims ix r) | Some b => IBest (clip (sims ix r) b) end) (ix_rows ix)), ix).
Proof.
  intros clip [k rows n best nz ch] Hc Hb. cbn [ix_chunk ix_kind ix_rows ix_best maintains] in *.
  assert (E : iter_items clip (set_normalize (Index k rows n best nz ch) false) = Ok (map (fun r => match best with None => IVec (sims (Index k rows n best nz ch) r) | Some b => IBest (clip (sims (Index k rows n best nz ch) r) b) end) rows)).
  { unfold iter_items, set_normalize. cbn [ix_chunk ix_kind ix_rows ix_features ix_best]. rewrite (proj2 (Nat.ltb_ge _ _) Hc).
    apply rmapM_ok. intros r _. unfold getitem. destruct k as [|mt]; cbn [ix_normalize rbind get_similarities ix_kind length Nat.eqb nth ix_best maintains].
    - destruct best as [b|]; reflexivity.
    - destruct best as [b|]; [|reflexivity]. destruct Hb as [Hb|Hb]; [discriminate|]. cbn in Hb. rewrite Hb. reflexivity. }
  unfold iterate. rewrite E. reflexivity.
Qed.
