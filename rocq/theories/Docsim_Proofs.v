(** Lemmas about Docsim_Model. *)
From Coq Require Import QArith Qabs ZifyBool.
From Verif Require Import Base Matutils_Model Matutils_Proofs Matutils_Proofs2 Matutils_Properties Docsim_Model.
Close Scope Q_scope.
Local Open Scope nat_scope.

(** ** The growing sequence *)
Section P.
Context {D V : Type}.
Variable conv : D -> result V.
Variable doclen : D -> nat.
Variable nnz : V -> nat.
Variable issparse : nat -> nat -> bool.
Variable num_features shardsize : nat.
Hypothesis Hf : 1 <= num_features.
Hypothesis Hs : 1 <= shardsize.

Definition rows_of (s : @sim V) : list V := concat (map sh_rows (x_shards s)).
Definition shard_ok (sh : @shard V) : Prop :=
  sh_len sh = length (sh_rows sh) /\ sh_nnz sh = list_sum (map nnz (sh_rows sh)) /\ 1 <= sh_len sh <= shardsize.
Definition full (sh : @shard V) : Prop := sh_len sh = shardsize.

Record Inv (docs : list V) (s : sim) : Prop := {
  v_rows : rows_of s ++ x_fresh s = docs;
  v_ok : Forall shard_ok (x_shards s);
  v_full : Forall full (removelast (x_shards s));
  v_fresh : x_fresh s <> [] -> Forall full (x_shards s);
  v_small : length (x_fresh s) < shardsize;
  v_nnz : x_fresh_nnz s = list_sum (map nnz (x_fresh s));
  v_disk : forall i sh, nth_error (x_shards s) i = Some sh -> dget (x_disk s) i = Some (sh_rows sh)
}.

Lemma removelast_snoc {A} (l : list A) x : removelast (l ++ [x]) = l.
Proof. rewrite removelast_app by discriminate. simpl. apply app_nil_r. Qed.

Lemma list_rev_cases {A} (l : list A) : l = [] \/ exists l' x, l = l' ++ [x].
Proof. destruct l as [|a l]; [auto|]. right. destruct (@exists_last _ (a :: l)) as (l' & x & E); [discriminate|]. eauto. Qed.

(** Closing needs less than the invariant: the fresh part may have reached the shard size. *)
Lemma close_ok docs s : rows_of s ++ x_fresh s = docs -> Forall shard_ok (x_shards s) ->
  Forall full (removelast (x_shards s)) -> (x_fresh s <> [] -> Forall full (x_shards s)) ->
  length (x_fresh s) <= shardsize -> x_fresh_nnz s = list_sum (map nnz (x_fresh s)) ->
  (forall i sh, nth_error (x_shards s) i = Some sh -> dget (x_disk s) i = Some (sh_rows sh)) ->
  exists s', close_shard nnz issparse num_features s = Ok s' /\ Inv docs s' /\ x_fresh s' = [] /\ x_norm s' = x_norm s.
Proof.
  intros R O F FF L N K. unfold close_shard. destruct (x_fresh s) as [|v fresh] eqn:E.
  - exists s. split; [reflexivity|]. split; [|auto]. constructor; try rewrite E; simpl; auto; try tauto.
  - replace (num_features =? 0) with false by lia.
    rewrite N, Nat.eqb_refl. simpl (negb true). rewrite andb_false_r.
    eexists. split; [reflexivity|]. split; [|split; reflexivity].
    specialize (FF ltac:(discriminate)).
    constructor; cbn [x_shards x_fresh x_fresh_nnz x_disk]; unfold rows_of; cbn [x_shards].
    + rewrite map_app, concat_app. simpl. rewrite !app_nil_r. exact R.
    + apply Forall_app. split; [exact O|]. constructor; [|constructor]. unfold shard_ok. cbn [sh_len sh_nnz sh_rows length] in *.
      repeat split; lia.
    + rewrite removelast_snoc. exact FF.
    + congruence.
    + simpl. lia.
    + reflexivity.
    + intros i sh Hi. destruct (Nat.eq_dec (length (x_shards s)) i) as [<-|NE].
      * rewrite nth_error_app2, Nat.sub_diag in Hi by lia. simpl in Hi. injection Hi as <-.
        apply dget_dset_same.
      * rewrite dget_dset_other by congruence. apply K. rewrite nth_error_app1 in Hi; [exact Hi|].
        assert (i < length (x_shards s ++ [{| sh_len := length (v :: fresh); sh_nnz := list_sum (map nnz (v :: fresh)); sh_rows := v :: fresh |}]))
          by (apply nth_error_Some; congruence).
        rewrite app_length in H. simpl in H. lia.
Qed.

Lemma Inv_close docs s : Inv docs s ->
  exists s', close_shard nnz issparse num_features s = Ok s' /\ Inv docs s' /\ x_fresh s' = [] /\ x_norm s' = x_norm s.
Proof. intros []. apply close_ok; auto. lia. Qed.

(** What [add_documents] adds: the vectors of the longest convertible prefix. *)
Fixpoint converted (corpus : list D) : list V :=
  match corpus with
  | [] => []
  | d :: r => match conv d with Ok v => v :: converted r | Err _ => [] end
  end.
Definition convertible (corpus : list D) : bool := forallb (fun d => match conv d with Ok _ => true | Err _ => false end) corpus.
Definition good_doc (d : D) : Prop := forall v, conv d = Ok v -> nnz v = doclen d.

Lemma add_loop_ok corpus : forall docs s, Inv docs s -> (Forall full (x_shards s)) -> Forall good_doc corpus ->
  exists s' r, add_loop conv doclen nnz issparse num_features shardsize s corpus = (r, s') /\
    Inv (docs ++ converted corpus) s' /\ x_norm s' = x_norm s /\ (convertible corpus = true -> r = Ok tt).
Proof.
  induction corpus as [|d corpus IH]; intros docs s I F G.
  - exists s, (Ok tt). simpl. rewrite app_nil_r. auto.
  - inversion G as [|? ? Gd G']; subst. simpl. destruct (conv d) as [v|e] eqn:C.
    2:{ exists s, (Err e). rewrite app_nil_r. split; [reflexivity|]. split; [exact I|]. split; [reflexivity|discriminate]. }
    destruct I as [R O Fu FF Sm N K].
    destruct (shardsize <=? length (x_fresh s ++ [v])) eqn:L.
    + destruct (close_ok (docs ++ [v]) (push s v (doclen d))) as (s2 & E2 & I2 & Fe & Nm); simpl; auto.
      * unfold rows_of in *. simpl. rewrite app_assoc, R. reflexivity.
      * rewrite app_length. simpl. lia.
      * rewrite N, map_app, list_sum_app. simpl. rewrite (Gd v C). lia.
      * rewrite E2. destruct (IH (docs ++ [v]) s2 I2) as (s' & r & E & I' & Nm' & OK); [| exact G'|].
        -- unfold close_shard in E2. simpl in E2. destruct (x_fresh s ++ [v]) as [|v0 fr] eqn:Ef; [destruct (x_fresh s); discriminate|].
           replace (num_features =? 0) with false in E2 by lia.
           destruct (_ && _) in E2; [discriminate|]. injection E2 as <-. simpl.
           apply Forall_app. split; [exact F|]. constructor; [|constructor]. unfold full. cbn [sh_len].
           assert (EL : length (x_fresh s ++ [v]) = length (v0 :: fr)) by (f_equal; exact Ef).
           rewrite app_length in EL. cbn [length] in *. lia.
        -- exists s', r. rewrite <- app_assoc in I'. split; [exact E|]. split; [exact I'|]. split; [rewrite Nm'; exact Nm|exact OK].
    + destruct (IH (docs ++ [v]) (push s v (doclen d))) as (s' & r & E & I' & Nm' & OK); simpl; auto.
      * constructor; simpl; auto.
        -- unfold rows_of in *. simpl. rewrite app_assoc, R. reflexivity.
        -- simpl in L. lia.
        -- rewrite N, map_app, list_sum_app. simpl. rewrite (Gd v C). lia.
      * exists s', r. rewrite <- app_assoc in I'. auto.
Qed.

Lemma add_ok docs s corpus : Inv docs s -> Forall good_doc corpus ->
  exists s' r, add_documents conv doclen nnz issparse num_features shardsize s corpus = (r, s') /\
    Inv (docs ++ converted corpus) s' /\ x_norm s' = x_norm s /\ (convertible corpus = true -> r = Ok tt).
Proof.
  intros I G. unfold add_documents. destruct (list_rev_cases (x_shards s)) as [E|(shs & sh & E)].
  - rewrite E. simpl. apply add_loop_ok; auto. rewrite E. constructor.
  - rewrite E, rev_app_distr. simpl.
    pose proof (v_full _ _ I) as Fu. rewrite E, removelast_snoc in Fu.
    pose proof (v_ok _ _ I) as O. rewrite E in O. apply Forall_app in O. destruct O as [O1 O2]. inversion O2 as [|? ? Osh _]; subst.
    destruct (sh_len sh <? shardsize) eqn:L.
    + unfold reopen_shard. rewrite E, rev_app_distr. simpl.
      destruct (x_fresh s) as [|v fr] eqn:Ef.
      2:{ pose proof (v_fresh _ _ I ltac:(congruence)) as FF. rewrite E in FF. apply Forall_app in FF. destruct FF as [_ FF].
          inversion FF; subst. unfold full in *. lia. }
      rewrite removelast_snoc.
      set (s1 := {| x_shards := shs; x_fresh := sh_rows sh; x_fresh_nnz := sh_nnz sh; x_norm := x_norm s; x_disk := x_disk s |}).
      destruct (add_loop_ok corpus docs s1) as (s' & r & E' & I' & Nm & OK); auto.
      * destruct Osh as (L1 & N1 & B1). constructor; unfold s1; cbn [x_shards x_fresh x_fresh_nnz x_disk]; auto.
        -- pose proof (v_rows _ _ I) as R. unfold rows_of in *. rewrite E, map_app, concat_app, Ef in R. simpl in R.
           rewrite !app_nil_r in R. exact R.
        -- clear -Fu. induction shs as [|a [|b l] IH]; simpl; auto. inversion Fu; subst. constructor; auto.
        -- lia.
        -- intros i sh' Hi. apply (v_disk _ _ I). rewrite E, nth_error_app1; [exact Hi|]. apply nth_error_Some. congruence.
      * exists s', r. auto.
    + apply add_loop_ok; auto. rewrite E. apply Forall_app. split; [exact Fu|]. constructor; [|constructor].
      destruct Osh as (L1 & N1 & B1). unfold full. lia.
Qed.

Lemma x_len_ok docs s : Inv docs s -> x_len s = length docs.
Proof.
  intros [R O _ _ _ _ _]. unfold x_len, rows_of in *. rewrite <- R, app_length. rewrite Nat.add_comm. f_equal.
  clear -O. induction (x_shards s) as [|sh l IH]; [reflexivity|]. inversion O as [|? ? [L _] O']; subst. simpl.
  rewrite app_length, L, IH by assumption. reflexivity.
Qed.

Lemma find_shard_in i : forall shs pos prev sh0, Forall shard_ok shs -> (pos <= i)%Z ->
  (i < pos + Z.of_nat (length (concat (map sh_rows shs))))%Z ->
  exists sh p, find_shard i pos prev shs = ((p + Z.of_nat (sh_len sh))%Z, Some sh) /\ (p <= i < p + Z.of_nat (sh_len sh))%Z /\
    nth (Z.to_nat (i - pos)) (concat (map sh_rows shs)) sh0 = nth (Z.to_nat (i - p)) (sh_rows sh) sh0 /\ shard_ok sh.
Proof.
  induction shs as [|sh shs IH]; intros pos prev v0 O P L; [simpl in L; lia|].
  inversion O as [|? ? Osh O']; subst. pose proof Osh as [Ln _]. simpl in L |- *. rewrite app_length in L.
  destruct (i <? pos + Z.of_nat (sh_len sh))%Z eqn:C.
  - exists sh, pos. split; [reflexivity|]. split; [lia|]. split; [|exact Osh]. rewrite app_nth1 by lia. reflexivity.
  - destruct (IH (pos + Z.of_nat (sh_len sh))%Z (Some sh) v0 O') as (sh' & p & E & B & N & Ok'); [lia|lia|].
    exists sh', p. split; [exact E|]. split; [exact B|]. split; [|exact Ok'].
    rewrite <- N, app_nth2 by lia. f_equal. lia.
Qed.

Lemma find_shard_out i : forall shs pos prev, Forall shard_ok shs ->
  (i < pos \/ pos + Z.of_nat (length (concat (map sh_rows shs))) <= i)%Z ->
  let r := find_shard i pos prev shs in (i < pos)%Z \/ (fst r <= i)%Z.
Proof.
  induction shs as [|sh shs IH]; intros pos prev O L; simpl in *; [lia|].
  inversion O as [|? ? Osh O']; subst. pose proof Osh as [Ln _]. rewrite app_length in L.
  destruct (i <? pos + Z.of_nat (sh_len sh))%Z eqn:C; simpl; [lia|].
  specialize (IH (pos + Z.of_nat (sh_len sh))%Z (Some sh) O' ltac:(lia)). simpl in IH. lia.
Qed.

Lemma vector_ok docs s i v : Inv docs s -> nth_error docs i = Some v ->
  exists s', vector_by_id nnz issparse num_features s (Z.of_nat i) = (Ok v, s') /\ Inv docs s' /\ x_norm s' = x_norm s.
Proof.
  intros I E. destruct (Inv_close _ _ I) as (s' & C & I' & Fe & Nm). exists s'. split; [|auto].
  unfold vector_by_id, closing. rewrite C. f_equal.
  pose proof (v_rows _ _ I') as R. rewrite Fe, app_nil_r in R. unfold rows_of in R.
  assert (L : i < length docs) by (apply nth_error_Some; congruence).
  destruct (find_shard_in (Z.of_nat i) (x_shards s') 0%Z None v (v_ok _ _ I')) as (sh & p & F & B & N & (L1 & _)); [lia|rewrite R; lia|].
  rewrite F. replace ((Z.of_nat i <? 0) || (p + Z.of_nat (sh_len sh) <=? Z.of_nat i))%Z with false by lia.
  unfold get_document_id.
  match goal with |- context [if ?b then _ else _] => replace b with true by lia end.
  replace (Z.of_nat i - (p + Z.of_nat (sh_len sh)) + Z.of_nat (sh_len sh))%Z with (Z.of_nat i - p)%Z by lia.
  rewrite (nth_error_nth' _ v) by lia. simpl. f_equal. rewrite <- N, R, Z.sub_0_r, Nat2Z.id. apply nth_error_nth. exact E.
Qed.

Lemma vector_bad docs s i : Inv docs s -> (i < 0 \/ Z.of_nat (length docs) <= i)%Z ->
  exists s', vector_by_id nnz issparse num_features s i = (Err ValueError, s') /\ Inv docs s' /\ x_norm s' = x_norm s.
Proof.
  intros I B. destruct (Inv_close _ _ I) as (s' & C & I' & Fe & Nm). exists s'. split; [|auto].
  unfold vector_by_id, closing. rewrite C. f_equal.
  pose proof (v_rows _ _ I') as R. rewrite Fe, app_nil_r in R. unfold rows_of in R.
  pose proof (find_shard_out i (x_shards s') 0%Z None (v_ok _ _ I')) as F. rewrite R in F. specialize (F ltac:(lia)). simpl in F.
  destruct (find_shard i 0 None (x_shards s')) as [pos [sh|]]; [|reflexivity]. simpl in F.
  replace ((i <? 0) || (pos <=? i))%Z with true by lia. reflexivity.
Qed.

Lemma load_ok docs s : Inv docs s -> load s (x_disk s) = s.
Proof.
  intros I. unfold load. destruct s as [shs fr nz nm dk]. cbn [x_shards x_fresh x_fresh_nnz x_norm x_disk]. f_equal.
  pose proof (v_disk _ _ I) as K. cbn [x_shards x_disk] in K. clear I.
  assert (G : forall k, (forall i sh, nth_error shs i = Some sh -> dget dk (k + i) = Some (sh_rows sh)) ->
    map (fun ish => {| sh_len := sh_len (snd ish); sh_nnz := sh_nnz (snd ish); sh_rows := dget_or dk (fst ish) [] |})
      (combine (seq k (length shs)) shs) = shs).
  { clear K. induction shs as [|sh shs IH]; intros k K; simpl; [reflexivity|]. rewrite IH.
    - f_equal. unfold dget_or. specialize (K 0 sh eq_refl). rewrite Nat.add_0_r in K.  rewrite K. destruct sh; reflexivity.
    - intros i sh' Hi. specialize (K (S i) sh' Hi). rewrite Nat.add_succ_r in K. exact K. }
  apply G. exact K.
Qed.

Lemma Inv_norm docs s b : Inv docs s -> Inv docs (set_norm s b).
Proof. intros []. constructor; auto. Qed.
End P.
