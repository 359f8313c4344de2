(** Proofs about dense/sparse vectors and top-n selection. *)

From Verif Require Import Base Matutils_Model Matutils_Proofs.
From Coq Require Import QArith Qabs Qminmax.
Local Open Scope nat_scope.

(** ** Writing into an array *)

Lemma length_list_set : forall {A} (l : list A) i x, length (list_set l i x) = length l.
Proof. induction l; intros [|i] x; cbn; auto. Qed.

Lemma nth_list_set : forall {A} (l : list A) i x j d, i < length l ->
  nth j (list_set l i x) d = if i =? j then x else nth j l d.
Proof.
  induction l as [|y l IH]; intros i x j d Hi; [cbn in Hi; lia|].
  destruct i, j; cbn; auto. apply IH. cbn in Hi; lia.
Qed.

Definition writes (l : list (nat * Q)) (r : list Q) : list Q :=
  fold_left (fun r iv => list_set r (fst iv) (snd iv)) l r.

Lemma length_writes : forall l r, length (writes l r) = length r.
Proof. unfold writes. induction l as [|[i w] l IH]; intros; cbn; auto. rewrite IH. apply length_list_set. Qed.

Lemma nth_writes : forall l r j, NoDup (map fst l) -> (forall i, In i (map fst l) -> i < length r) ->
  nth j (writes l r) 0%Q = match dget l j with Some w => w | None => nth j r 0%Q end.
Proof.
  unfold writes. induction l as [|[i w] l IH]; intros r j ND HI; [reflexivity|].
  cbn [fold_left fst snd map] in *. inversion ND as [|? ? NI ND']; subst.
  rewrite IH; [|assumption|intros k Hk; rewrite length_list_set; apply HI; right; exact Hk].
  cbn [dget]. rewrite nth_list_set by (apply HI; left; reflexivity). destruct (eq_dec i j) as [<-|NE].
  - rewrite Nat.eqb_refl. destruct (dget l i) eqn:E; auto. apply dget_In in E.
    exfalso; apply NI. apply in_map_iff. exists (i, q); auto.
  - apply Nat.eqb_neq in NE. rewrite NE. reflexivity.
Qed.

Lemma list_eq_nth : forall {A} (d : A) l l', length l = length l' -> (forall i, i < length l -> nth i l d = nth i l' d) -> l = l'.
Proof. intros A d l l' L H. apply (nth_ext l l' d d); auto. Qed.

Lemma np_index_ok : forall n z, (0 <= z < Z.of_nat n)%Z -> np_index n z = Ok (Z.to_nat z).
Proof. intros n z Hz. unfold np_index. destruct (z <? 0)%Z eqn:?; [lia|]. destruct (Z.of_nat n <=? z)%Z eqn:?; [lia|]. reflexivity. Qed.

Lemma rmapM_np_index : forall n l, (forall z, In z l -> (0 <= z < Z.of_nat n)%Z) ->
  rmapM (np_index n) l = Ok (map Z.to_nat l).
Proof.
  induction l as [|z l IH]; intros H; [reflexivity|]. cbn [rmapM map].
  rewrite np_index_ok by (apply H; simpl; auto). cbn [rbind]. rewrite IH by (intros; apply H; simpl; auto). reflexivity.
Qed.

Definition zn (iw : Z * Q) : nat * Q := (Z.to_nat (fst iw), snd iw).

Lemma combine_zn : forall d : list (Z * Q), combine (map Z.to_nat (dkeys d)) (dvals d) = map zn d.
Proof. induction d as [|[i w] d IH]; [reflexivity|]. unfold dkeys, dvals in *. cbn. rewrite IH. reflexivity. Qed.

Lemma sparse2full_eq : forall doc n, (forall i, In i (map fst doc) -> (0 <= i < Z.of_nat n)%Z) ->
  sparse2full doc n = Ok (writes (map zn (dict_of doc)) (repeat 0%Q n)).
Proof.
  intros doc n H. unfold sparse2full. rewrite rmapM_np_index.
  - cbn [rbind]. rewrite combine_zn. reflexivity.
  - intros z Hz. apply H. apply In_dkeys_dict_of; exact Hz.
Qed.

Lemma dget_zn : forall (d : list (Z * Q)) i, (forall z, In z (map fst d) -> (0 <= z)%Z) ->
  dget (map zn d) i = dget d (Z.of_nat i).
Proof.
  induction d as [|[z w] d IH]; intros i H; [reflexivity|]. cbn [map zn dget fst snd].
  destruct (eq_dec (Z.to_nat z) i) as [E|E], (eq_dec z (Z.of_nat i)) as [E'|E'];
    try reflexivity; try (apply IH; intros; apply H; simpl; auto);
    specialize (H z (or_introl eq_refl)); exfalso; lia.
Qed.

Lemma NoDup_zn : forall (d : list (Z * Q)), (forall z, In z (map fst d) -> (0 <= z)%Z) -> NoDup (map fst d) ->
  NoDup (map fst (map zn d)).
Proof.
  induction d as [|[z w] d IH]; intros H ND; [constructor|]. cbn [map zn fst]. inversion ND; subst.
  constructor; [|apply IH; auto; intros; apply H; simpl; auto].
  rewrite map_map. intros HI. apply in_map_iff in HI. destruct HI as ([z' w'] & E & HI). cbn in E.
  assert (HI' : In z' (map fst d)) by (apply in_map_iff; exists (z', w'); auto).
  pose proof (H z (or_introl eq_refl)). pose proof (H z' (or_intror HI')). assert (z = z') by lia. subst; auto.
Qed.

Lemma nth_repeat0 : forall n i, nth i (repeat 0%Q n) 0%Q = 0%Q.
Proof. induction n; intros [|i]; cbn; auto. Qed.

Lemma sparse2full_get : forall doc n, (forall i, In i (map fst doc) -> (0 <= i < Z.of_nat n)%Z) ->
  exists v, sparse2full doc n = Ok v /\ length v = n /\
    forall i, nth i v 0%Q = dget_or (dict_of doc) (Z.of_nat i) 0%Q.
Proof.
  intros doc n H. eexists. split; [apply sparse2full_eq; exact H|]. split.
  - rewrite length_writes. apply repeat_length.
  - intros i. assert (K : forall z, In z (map fst (dict_of doc)) -> (0 <= z < Z.of_nat n)%Z)
      by (intros z Hz; apply H; apply In_dkeys_dict_of; exact Hz).
    rewrite nth_writes.
    + rewrite dget_zn by (intros z Hz; specialize (K z Hz); lia). unfold dget_or.
      rewrite nth_repeat0. destruct (dget _ _); reflexivity.
    + apply NoDup_zn; [intros z Hz; specialize (K z Hz); lia | apply NoDup_dict_of].
    + intros k Hk. rewrite map_map in Hk. apply in_map_iff in Hk. destruct Hk as ([z w] & E & HI). cbn in E.
      rewrite repeat_length. specialize (K z). assert (In z (map fst (dict_of doc))) by (apply in_map_iff; exists (z, w); auto).
      specialize (K H0). lia.
Qed.

Lemma dget_dict_of : forall {K V} `{EqDec K} (l : list (K * V)) k, dget (dict_of l) k = dget (rev l) k.
Proof.
  intros K V E l k. unfold dict_of.
  induction l as [|[k' v'] l IH] using rev_ind; [reflexivity|].
  rewrite fold_left_app, rev_app_distr. cbn [fold_left rev app fst snd dget].
  destruct (eq_dec k' k) as [<-|NE]; [apply dget_dset_same | rewrite dget_dset_other by auto; exact IH].
Qed.

Lemma sparse2full_index_error : forall doc n i w, In (i, w) doc -> (i < - Z.of_nat n \/ Z.of_nat n <= i)%Z ->
  sparse2full doc n = Err IndexError.
Proof.
  intros doc n i w HI B. unfold sparse2full.
  assert (In i (dkeys (dict_of doc))) by (apply In_dkeys_dict_of; apply in_map_iff; exists (i, w); auto).
  assert (E : rmapM (np_index n) (dkeys (dict_of doc)) = Err IndexError).
  { revert H. generalize (dkeys (dict_of doc)) as l. induction l as [|z l IH]; intros HI'; [destruct HI'|].
    cbn [rmapM]. destruct (np_index n z) as [k|e] eqn:E; cbn [rbind].
    - destruct HI' as [->|HI']; [|rewrite IH by auto; reflexivity].
      unfold np_index in E. destruct (i <? 0)%Z eqn:?, (i + Z.of_nat n <? 0)%Z eqn:?, (Z.of_nat n <=? i)%Z eqn:?; try discriminate; lia.
    - unfold np_index in E. destruct (z <? 0)%Z, (z + Z.of_nat n <? 0)%Z, (Z.of_nat n <=? z)%Z; congruence. }
  rewrite E. reflexivity.
Qed.

(** ** full2sparse *)

Definition indexed {A} (l : list A) : list (nat * A) := combine (seq 0 (length l)) l.

Lemma In_combine_seq : forall {A} (l : list A) s i w, In (i, w) (combine (seq s (length l)) l) <-> s <= i /\ nth_error l (i - s) = Some w.
Proof.
  induction l as [|x l IH]; intros s i w.
  - cbn. split; [tauto|]. intros [_ E]. destruct (i - s); discriminate.
  - cbn [length seq combine]. cbn [In]. rewrite IH. split.
    + intros [E|[H1 H2]].
      * inversion E; subst. rewrite Nat.sub_diag. split; [lia|reflexivity].
      * split; [lia|]. replace (i - s) with (S (i - S s)) by lia. exact H2.
    + intros [H1 H2]. destruct (Nat.eq_dec s i) as [->|NE].
      * rewrite Nat.sub_diag in H2. cbn in H2. injection H2 as ->. left; reflexivity.
      * right. split; [lia|]. replace (i - s) with (S (i - S s)) in H2 by lia. exact H2.
Qed.

Lemma In_indexed : forall {A} (l : list A) i w, In (i, w) (indexed l) <-> nth_error l i = Some w.
Proof. intros. unfold indexed. rewrite In_combine_seq, Nat.sub_0_r. split; [tauto|]. intros; split; [lia|auto]. Qed.

Lemma combine_take : forall (vec : list Q) (F : list (nat * Q)), (forall i w, In (i, w) F -> nth i vec 0%Q = w) ->
  combine (map fst F) (take 0%Q vec (map fst F)) = F.
Proof.
  intros vec. induction F as [|[i w] F IH]; intros H; [reflexivity|]. unfold take in *. cbn [map combine fst].
  rewrite (H i w (or_introl eq_refl)), IH; [reflexivity|]. intros; apply H; simpl; auto.
Qed.

Lemma full2sparse_eq : forall vec eps,
  full2sparse vec eps = filter (fun iv => Qltb eps (Qabs (snd iv))) (indexed vec).
Proof.
  intros. unfold full2sparse, nonzero_above. apply combine_take. intros i w HI.
  apply filter_In in HI. destruct HI as [HI _]. apply In_indexed in HI. apply nth_error_nth. exact HI.
Qed.

Lemma Qltb_lt : forall a b, Qltb a b = true <-> (a < b)%Q.
Proof.
  intros a b. unfold Qltb. rewrite negb_true_iff. split; intros H.
  - apply Qnot_le_lt. intros L. apply Qle_bool_iff in L. congruence.
  - destruct (Qle_bool b a) eqn:E; [|reflexivity]. apply Qle_bool_iff in E. exfalso. apply (Qlt_not_le _ _ H E).
Qed.

Lemma In_full2sparse : forall vec eps i w, In (i, w) (full2sparse vec eps) <-> nth_error vec i = Some w /\ (eps < Qabs w)%Q.
Proof. intros. rewrite full2sparse_eq, filter_In, In_indexed. cbn [snd]. rewrite Qltb_lt. reflexivity. Qed.

Lemma StronglySorted_filter_fst : forall {A} (R : nat -> nat -> Prop) (f : nat * A -> bool) l,
  StronglySorted R (map fst l) -> StronglySorted R (map fst (filter f l)).
Proof.
  induction l as [|[i w] l IH]; intros S; cbn [filter]; [constructor|]. cbn [map fst] in S. inversion S; subst.
  destruct (f (i, w)); [|auto]. cbn [map fst]. constructor; [auto|].
  apply Forall_forall. intros k Hk. apply in_map_iff in Hk. destruct Hk as (x & <- & Hx). apply filter_In in Hx.
  rewrite Forall_forall in H2. apply H2. apply in_map; tauto.
Qed.

Lemma map_fst_indexed : forall {A} (l : list A), map fst (indexed l) = seq 0 (length l).
Proof.
  intros A l. unfold indexed. generalize 0. induction l as [|x l IH]; intros s; [reflexivity|]. cbn. rewrite IH. reflexivity.
Qed.

Lemma StronglySorted_seq : forall n s, StronglySorted lt (seq s n).
Proof.
  induction n; intros s; cbn; constructor; auto. apply Forall_forall. intros k Hk. apply in_seq in Hk. lia.
Qed.

Lemma full2sparse_sorted : forall vec eps, StronglySorted lt (map fst (full2sparse vec eps)).
Proof. intros. rewrite full2sparse_eq. apply StronglySorted_filter_fst. rewrite map_fst_indexed. apply StronglySorted_seq. Qed.

Lemma StronglySorted_lt_NoDup : forall l, StronglySorted lt l -> NoDup l.
Proof.
  induction 1; constructor; auto. intros HI. rewrite Forall_forall in H0. specialize (H0 _ HI). lia.
Qed.

Lemma full2sparse_NoDup : forall vec eps, NoDup (map fst (full2sparse vec eps)).
Proof. intros. apply StronglySorted_lt_NoDup, full2sparse_sorted. Qed.

Lemma dense_sparse_dense : forall v eps,
  sparse2full (map (fun iw => (Z.of_nat (fst iw), snd iw)) (full2sparse v eps)) (length v)
  = Ok (map (fun w => if Qltb eps (Qabs w) then w else 0%Q) v).
Proof.
  intros v eps. set (doc := map _ _).
  assert (R : forall i, In i (map fst doc) -> (0 <= i < Z.of_nat (length v))%Z).
  { intros i Hi. unfold doc in Hi. rewrite map_map in Hi. apply in_map_iff in Hi. destruct Hi as ([k w] & E & HI).
    cbn in E. apply In_full2sparse in HI. destruct HI as [HI _].
    assert (k < length v) by (apply nth_error_Some; congruence). lia. }
  assert (ND : NoDup (map fst doc)).
  { unfold doc. rewrite map_map. cbn [fst]. rewrite <- (map_map fst Z.of_nat).
    apply FinFun.Injective_map_NoDup; [intros a b; lia | apply full2sparse_NoDup]. }
  destruct (sparse2full_get doc (length v) R) as (v' & E & L & G). rewrite E. f_equal.
  apply (list_eq_nth 0%Q); [rewrite map_length; auto|]. intros i Hi. rewrite L in Hi. rewrite G.
  rewrite dict_of_NoDup by exact ND. unfold dget_or.
  destruct (nth_error v i) as [w|] eqn:N; [|apply nth_error_None in N; lia].
  rewrite (nth_indep _ 0%Q ((fun w => if Qltb eps (Qabs w) then w else 0%Q) 0%Q)) by (rewrite map_length; lia).
  rewrite (map_nth (fun w => if Qltb eps (Qabs w) then w else 0%Q)), (nth_error_nth _ _ 0%Q N).
  destruct (Qltb eps (Qabs w)) eqn:B.
  - rewrite (In_dget doc (Z.of_nat i) w ND); [reflexivity|]. unfold doc. apply in_map_iff. exists (i, w).
    split; [reflexivity|]. apply In_full2sparse. split; [auto|apply Qltb_lt; auto].
  - destruct (dget doc (Z.of_nat i)) as [w'|] eqn:D; [|reflexivity]. apply dget_In in D. unfold doc in D.
    apply in_map_iff in D. destruct D as ([k u] & Eq & HI). cbn in Eq. inversion Eq; subst.
    apply Nat2Z.inj in H0. subst k. apply In_full2sparse in HI. destruct HI as [HI1 HI2].
    rewrite N in HI1. injection HI1 as ->. apply Qltb_lt in HI2. congruence.
Qed.

Lemma sparse_dense_sparse : forall doc n eps v, (0 <= eps)%Q -> NoDup (map fst doc) ->
  (forall i, In i (map fst doc) -> (0 <= i < Z.of_nat n)%Z) -> sparse2full doc n = Ok v ->
  forall i w, In (i, w) (full2sparse v eps) <-> In (Z.of_nat i, w) doc /\ (eps < Qabs w)%Q.
Proof.
  intros doc n eps v He ND R E i w. destruct (sparse2full_get doc n R) as (v' & E' & L & G).
  rewrite E in E'. injection E' as <-. rewrite dict_of_NoDup in G by exact ND.
  rewrite In_full2sparse. split; intros [H1 H2]; split; auto.
  - apply nth_error_nth with (d := 0%Q) in H1. rewrite G in H1. unfold dget_or in H1.
    destruct (dget doc (Z.of_nat i)) as [u|] eqn:D; [subst; apply dget_In; auto|]. subst w.
    exfalso. apply (Qlt_not_le _ _ H2). exact He.
  - assert (HI : In (Z.of_nat i) (map fst doc)) by (apply in_map_iff; exists (Z.of_nat i, w); auto).
    apply R in HI. specialize (G i). unfold dget_or in G. rewrite (In_dget doc _ w ND H1) in G.
    rewrite (nth_error_nth' v 0%Q) by lia. rewrite G; reflexivity.
Qed.

(** Two lists with strictly increasing first components and the same elements are equal. *)
Lemma sorted_fst_unique : forall {A} (l l' : list (nat * A)), StronglySorted lt (map fst l) -> StronglySorted lt (map fst l') ->
  (forall x, In x l <-> In x l') -> l = l'.
Proof.
  induction l as [|[i w] l IH]; intros [|[j u] l'] S S' H; auto.
  - exfalso. apply (proj2 (H (j, u))). simpl; auto.
  - exfalso. apply (proj1 (H (i, w))). simpl; auto.
  - cbn [map fst] in S, S'. inversion S as [|? ? S1 F1]; inversion S' as [|? ? S2 F2]; subst.
    rewrite Forall_forall in F1, F2.
    assert (E : (i, w) = (j, u)).
    { destruct (proj1 (H (i, w)) (or_introl eq_refl)) as [E|E]; [auto|].
      destruct (proj2 (H (j, u)) (or_introl eq_refl)) as [E'|E']; [auto|].
      apply (in_map fst) in E, E'. cbn in E, E'. apply F2 in E. apply F1 in E'. lia. }
    inversion E; subst. f_equal. apply IH; auto. intros x. specialize (H x). cbn [In] in H.
    split; intros HI; destruct H as [Ha Hb].
    + destruct (Ha (or_intror HI)) as [<-|]; auto. apply (in_map fst) in HI. apply F1 in HI. cbn in HI. lia.
    + destruct (Hb (or_intror HI)) as [<-|]; auto. apply (in_map fst) in HI. apply F2 in HI. cbn in HI. lia.
Qed.

(** ** corpus2dense *)
Lemma corpus2dense_some : forall corpus n nd cols, corpus2dense corpus n (Some nd) = Ok cols <->
  nd = length corpus /\ rmapM (fun doc => sparse2full doc n) corpus = Ok cols.
Proof.
  intros corpus n nd cols. unfold corpus2dense.
  set (step := fun (s : nat * list (list Q)) doc => _).
  assert (G : forall c k acc cs, rmapM (fun doc => sparse2full doc n) c = Ok cs -> rfold step c (k, acc) =
    if k + length c <=? nd then Ok (k + length c, acc ++ cs) else match c with [] => Ok (k, acc) | _ => Err IndexError end).
  { induction c as [|d c IH]; intros k acc cs Ecs.
    - injection Ecs as <-. cbn. rewrite Nat.add_0_r, app_nil_r. destruct (k <=? nd); reflexivity.
    - cbn [rfold rmapM] in *. unfold step at 1. destruct (sparse2full d n) as [col|e]; cbn [rbind] in *; [|discriminate].
      destruct (rmapM (fun doc => sparse2full doc n) c) as [cs'|e]; cbn [rbind] in *; [|discriminate].
      injection Ecs as <-. destruct (k <? nd) eqn:Hk.
      + cbn [rbind]. rewrite (IH _ _ cs') by reflexivity. cbn [length]. replace (S k + length c) with (k + S (length c)) by lia.
        rewrite <- app_assoc. cbn [app]. destruct (k + S (length c) <=? nd) eqn:?; [reflexivity|].
        destruct c; [cbn [length] in *; lia | reflexivity].
      + cbn [rbind length]. destruct (k + S (length c) <=? nd) eqn:?; [lia|reflexivity]. }
  assert (G' : forall c k acc s, rfold step c (k, acc) = Ok s -> exists cs, rmapM (fun doc => sparse2full doc n) c = Ok cs).
  { clear. induction c as [|d c IH]; intros k acc s E; [eexists; reflexivity|]. cbn [rfold rmapM] in *. unfold step at 1 in E.
    destruct (sparse2full d n) as [col|e]; cbn [rbind] in *; [|discriminate].
    destruct (k <? nd); cbn [rbind] in E; [|discriminate]. apply IH in E. destruct E as [cs ->]. cbn. eauto. }
  split.
  - destruct (rfold step corpus (0, [])) as [s|e] eqn:E; cbn [rbind]; [|discriminate].
    destruct (G' _ _ _ _ E) as [cs Ecs]. rewrite (G _ _ _ _ Ecs) in E. cbn [Nat.add app] in E.
    destruct (length corpus <=? nd) eqn:Hl.
    + injection E as <-. cbn [fst snd]. destruct (length corpus =? nd) eqn:Hn; [|discriminate].
      intros H; injection H as <-. split; [lia|auto].
    + destruct corpus; [cbn [length] in Hl; lia|discriminate].
  - intros [-> Ecs]. rewrite (G _ _ _ _ Ecs). cbn [Nat.add app]. rewrite Nat.leb_refl. cbn [rbind fst snd]. rewrite Nat.eqb_refl. reflexivity.
Qed.

(** ** argsort *)

Definition argsort_contract (f : list Q -> list nat) : Prop :=
  forall x, Permutation (seq 0 (length x)) (f x) /\ StronglySorted (fun i j => (nth i x 0 <= nth j x 0)%Q) (f x).
Definition argpartition_contract (g : list Q -> nat -> list nat) : Prop :=
  forall x k, k < length x -> Permutation (seq 0 (length x)) (g x k) /\
    forall i j, In i (firstn k (g x k)) -> In j (skipn k (g x k)) -> (nth i x 0 <= nth j x 0)%Q.

(** [r] is a sequence of the [k] first elements of [0..n-1] with respect to [le], in order. *)
Definition is_topn (le : nat -> nat -> Prop) (n k : nat) (r : list nat) : Prop :=
  length r = Nat.min k n /\ NoDup r /\ (forall i, In i r -> i < n) /\ StronglySorted le r /\
  (forall i j, In i r -> j < n -> ~ In j r -> le i j).

Lemma StronglySorted_map : forall {A B} (f : A -> B) (R : B -> B -> Prop) l,
  StronglySorted (fun a b => R (f a) (f b)) l -> StronglySorted R (map f l).
Proof.
  intros A B f R. induction 1; cbn; constructor; auto. apply Forall_forall. intros y Hy. apply in_map_iff in Hy.
  destruct Hy as (x & <- & Hx). rewrite Forall_forall in H0. auto.
Qed.

Lemma StronglySorted_impl_in : forall {A} (R R' : A -> A -> Prop) l,
  (forall a b, In a l -> In b l -> R a b -> R' a b) -> StronglySorted R l -> StronglySorted R' l.
Proof.
  intros A R R' l H S. induction S; constructor.
  - apply IHS. intros; apply H; simpl; auto.
  - apply Forall_forall. intros b Hb. rewrite Forall_forall in H0. apply H; simpl; auto.
Qed.

Section ArgsortProofs.
  Variable np_argsort : list Q -> list nat.
  Variable np_argpartition : list Q -> nat -> list nat.
  Hypothesis Hsort : argsort_contract np_argsort.
  Hypothesis Hpart : argpartition_contract np_argpartition.

  Lemma In_np_argsort : forall x i, In i (np_argsort x) <-> i < length x.
  Proof.
    intros x i. destruct (Hsort x) as [P _]. split; intros H.
    - apply (Permutation_in _ (Permutation_sym P)) in H. apply in_seq in H. lia.
    - apply (Permutation_in _ P). apply in_seq. lia.
  Qed.

  Lemma nth_take : forall {A} (d d' : A) l idx k, k < length idx -> nth k (take d l idx) d' = nth (nth k idx 0) l d.
  Proof.
    intros A d d' l idx k Hk. unfold take.
    rewrite (nth_indep _ d' (nth 0 l d)) by (rewrite map_length; exact Hk). apply (map_nth (fun i => nth i l d)).
  Qed.

  Lemma argsort_key : forall x topn r, (0 < topn)%Z ->
    r = (if (Z.of_nat (length x) <=? topn)%Z then firstn (Z.to_nat topn) (np_argsort x)
      else let m := firstn (Z.to_nat topn) (np_argpartition x (Z.to_nat topn)) in
           take 0 m (np_argsort (take 0%Q x m))) ->
    is_topn (fun i j => (nth i x 0 <= nth j x 0)%Q) (length x) (Z.to_nat topn) r.
  Proof.
    intros x topn r Ht ->. set (k := Z.to_nat topn).
    destruct (Z.of_nat (length x) <=? topn)%Z eqn:E.
    - assert (Hk : length x <= k) by lia. pose proof (Hsort x) as [P S].
      assert (L : length (np_argsort x) = length x) by (rewrite <- (Permutation_length P), seq_length; auto).
      rewrite firstn_all2 by lia. split; [lia|]. split; [apply (Permutation_NoDup P), seq_NoDup|].
      split; [intros i Hi; apply In_np_argsort; auto|]. split; [exact S|].
      intros i j _ Hj NI. exfalso. apply NI. apply In_np_argsort; auto.
    - assert (Hk : k < length x) by lia. destruct (Hpart x k Hk) as [P D].
      cbv zeta. set (m := firstn k (np_argpartition x k)) in *. set (y := take 0%Q x m).
      assert (Lp : length (np_argpartition x k) = length x) by (rewrite <- (Permutation_length P), seq_length; auto).
      assert (Lm : length m = k) by (unfold m; rewrite firstn_length; lia).
      assert (Ly : length y = k) by (unfold y, take; rewrite map_length; exact Lm).
      pose proof (Hsort y) as [Py Sy]. rewrite Ly in Py.
      assert (NDm : NoDup m) by (apply NoDup_firstn; apply (Permutation_NoDup P), seq_NoDup).
      assert (Pr : Permutation m (take 0 m (np_argsort y))).
      { replace m with (map (fun i => nth i m 0) (seq 0 k)) at 1.
        - unfold take. apply Permutation_map. exact Py.
        - rewrite <- Lm. apply (list_eq_nth 0); [rewrite map_length, seq_length; auto|].
          intros i Hi. rewrite map_length, seq_length in Hi.
          rewrite (nth_indep _ 0 (nth 0 m 0)) by (rewrite map_length, seq_length; exact Hi).
          rewrite (map_nth (fun i => nth i m 0)), seq_nth by exact Hi. reflexivity. }
      split; [rewrite <- (Permutation_length Pr); lia|].
      split; [apply (Permutation_NoDup Pr NDm)|].
      split.
      { intros i Hi. apply (Permutation_in _ (Permutation_sym Pr)) in Hi. apply In_firstn in Hi.
        apply (Permutation_in _ (Permutation_sym P)) in Hi. apply in_seq in Hi. lia. }
      split.
      { unfold take at 1. apply StronglySorted_map. eapply StronglySorted_impl_in; [|exact Sy].
        intros a b Ha Hb. apply In_np_argsort in Ha, Hb. rewrite Ly in Ha, Hb.
        unfold y. rewrite !(nth_take 0%Q 0%Q) by lia. auto. }
      intros i j Hi Hj NI. apply D.
      + apply (Permutation_in _ (Permutation_sym Pr)). exact Hi.
      + assert (Hj' : In j (np_argpartition x k)) by (apply (Permutation_in _ P), in_seq; lia).
        rewrite <- (firstn_skipn k) in Hj'. apply in_app_iff in Hj'. destruct Hj' as [Hj'|]; [|auto].
        exfalso. apply NI. apply (Permutation_in _ Pr). exact Hj'.
  Qed.

  Definition ord (x : list Q) (reverse : bool) (i j : nat) : Prop :=
    if reverse then (nth j x 0 <= nth i x 0)%Q else (nth i x 0 <= nth j x 0)%Q.

  Lemma argsort_topn : forall x topn reverse,
    is_topn (ord x reverse) (length x) (match topn with None => length x | Some t => Z.to_nat t end)
      (argsort np_argsort np_argpartition x topn reverse).
  Proof.
    intros x topn reverse. unfold argsort.
    set (t := match topn with None => Z.of_nat (length x) | Some t => t end).
    replace (match topn with None => length x | Some t => Z.to_nat t end) with (Z.to_nat t)
      by (unfold t; destruct topn; [reflexivity|apply Nat2Z.id]).
    destruct (t <=? 0)%Z eqn:Et.
    - replace (Z.to_nat t) with 0 by lia. repeat split; try constructor; cbn; tauto.
    - set (x' := if reverse then map Qopp x else x).
      assert (L : length x' = length x) by (unfold x'; destruct reverse; rewrite ?map_length; auto).
      pose proof (argsort_key x' t _ ltac:(lia) eq_refl) as T. cbv zeta in T.
      revert T. generalize (if (Z.of_nat (length x') <=? t)%Z then firstn (Z.to_nat t) (np_argsort x')
        else take 0 (firstn (Z.to_nat t) (np_argpartition x' (Z.to_nat t)))
               (np_argsort (take 0%Q x' (firstn (Z.to_nat t) (np_argpartition x' (Z.to_nat t)))))) as r.
      intros r (T1 & T2 & T3 & T4 & T5). rewrite L in *.
      assert (O : forall i j, (nth i x' 0 <= nth j x' 0)%Q -> ord x reverse i j).
      { intros i j. unfold ord, x'. destruct reverse; [|auto].
        change 0%Q with (Qopp 0%Q) at 1 2. rewrite !(map_nth Qopp). intros H.
        apply Qopp_le_compat in H. rewrite !Qopp_involutive in H. exact H. }
      split; [exact T1|]. split; [exact T2|]. split; [exact T3|]. split; [|intros; apply O; auto].
      eapply StronglySorted_impl_in; [|exact T4]. intros; auto.
  Qed.

  Lemma clipped_topn : forall vec topn eps,
    let r := full2sparse_clipped np_argsort np_argpartition vec topn eps in
    length r = Nat.min (Z.to_nat topn) (length (full2sparse vec eps)) /\
    NoDup (map fst r) /\
    (forall i w, In (i, w) r -> nth_error vec i = Some w /\ (eps < Qabs w)%Q) /\
    StronglySorted (fun a b => (Qabs (snd b) <= Qabs (snd a))%Q) r /\
    (forall i w j u, In (i, w) r -> nth_error vec j = Some u -> (eps < Qabs u)%Q -> ~ In j (map fst r) ->
       (Qabs u <= Qabs w)%Q).
  Proof.
    intros vec topn eps. unfold full2sparse_clipped.
    destruct (topn <=? 0)%Z eqn:Et.
    - cbv zeta. replace (Z.to_nat topn) with 0 by lia. repeat split; try constructor; cbn in *; try tauto.
    - set (nnz := nonzero_above eps vec). set (ab := take 0%Q (map Qabs vec) nnz).
      pose proof (argsort_topn ab (Some topn) true) as T. cbv beta iota in T.
      set (s := argsort np_argsort np_argpartition ab (Some topn) true) in *.
      assert (Lab : length ab = length nnz) by (unfold ab, take; apply map_length). rewrite Lab in T.
      destruct T as (T1 & T2 & T3 & T4 & T5).
      assert (Fe : full2sparse vec eps = combine nnz (take 0%Q vec nnz)) by reflexivity.
      assert (Lf : length (full2sparse vec eps) = length nnz).
      { rewrite Fe, combine_length. unfold take. rewrite map_length. lia. }
      assert (Kf : map fst (full2sparse vec eps) = nnz).
      { rewrite full2sparse_eq. reflexivity. }
      assert (NN : forall p, p < length nnz -> exists w, nth_error vec (nth p nnz 0) = Some w /\ (eps < Qabs w)%Q).
      { intros p Hp. assert (HI : In (nth p nnz 0) (map fst (full2sparse vec eps))) by (rewrite Kf; apply nth_In; auto).
        apply in_map_iff in HI. destruct HI as ([i w] & E & HI). cbn in E. subst i. apply In_full2sparse in HI. eauto. }
      assert (AB : forall p, p < length nnz -> nth p ab 0%Q = Qabs (nth (nth p nnz 0) vec 0%Q)).
      { intros p Hp. unfold ab. rewrite nth_take by exact Hp. change 0%Q with (Qabs 0%Q) at 1. apply map_nth. }
      assert (NDn : NoDup nnz) by (rewrite <- Kf; apply full2sparse_NoDup).
      cbv zeta. set (b := take 0 nnz s).
      assert (Kb : map fst (combine b (take 0%Q vec b)) = b).
      { clear. unfold take. induction b; cbn; [|rewrite IHb]; reflexivity. }
      assert (Eb : combine b (take 0%Q vec b) = map (fun p => (nth p nnz 0, nth (nth p nnz 0) vec 0%Q)) s).
      { unfold b, take. clear. induction s; cbn; [|rewrite IHs]; reflexivity. }
      rewrite Kb. rewrite Eb. split; [rewrite map_length; rewrite Lf; exact T1|].
      split.
      { unfold b, take. clear - T2 T3 NDn. induction s as [|p s IH]; cbn; [constructor|]. inversion T2; subst.
        constructor; [|apply IH; auto; intros; apply T3; simpl; auto].
        intros HI. apply in_map_iff in HI. destruct HI as (q & E & Hq). apply H1.
        assert (q = p); [|subst; auto]. apply (proj1 (NoDup_nth nnz 0) NDn); auto; apply T3; simpl; auto. }
      split.
      { intros i w HI. apply in_map_iff in HI. destruct HI as (p & E & Hp). inversion E; subst.
        destruct (NN p (T3 p Hp)) as (w & N & B). rewrite (nth_error_nth _ _ 0%Q N). auto. }
      split.
      { apply StronglySorted_map. cbn [snd]. eapply StronglySorted_impl_in; [|exact T4].
        intros p q Hp Hq. unfold ord. rewrite !AB by (apply T3; auto). auto. }
      intros i w j u HI Nj Bu NI. apply in_map_iff in HI. destruct HI as (p & E & Hp). inversion E; subst.
      assert (Hj : In j nnz).
      { rewrite <- Kf. apply in_map_iff. exists (j, u). split; auto. apply In_full2sparse; auto. }
      apply (In_nth _ _ 0) in Hj. destruct Hj as (q & Hq & <-).
      assert (NIq : ~ In q s).
      { intros HI. apply NI. unfold b, take. apply in_map_iff. exists q; auto. }
      specialize (T5 p q Hp Hq NIq). unfold ord in T5. rewrite !AB in T5 by (auto).
      rewrite (nth_error_nth _ _ 0%Q Nj) in T5. exact T5.
  Qed.
End ArgsortProofs.

(** The contracts can be met. *)
Definition ref_argsort (x : list Q) : list nat := isort (fun i j => Qle_bool (nth i x 0%Q) (nth j x 0%Q)) (seq 0 (length x)).
Definition ref_argpartition (x : list Q) (k : nat) : list nat := ref_argsort x.

Lemma ref_argsort_contract : argsort_contract ref_argsort.
Proof.
  intros x. split; [apply Permutation_isort|].
  eapply StronglySorted_impl_in with (R := fun i j => Qle_bool (nth i x 0%Q) (nth j x 0%Q) = true).
  { intros a b _ _ H. apply Qle_bool_iff in H. exact H. }
  apply isort_StronglySorted.
  - intros a b. rewrite !Qle_bool_iff. destruct (Qlt_le_dec (nth a x 0%Q) (nth b x 0%Q)) as [H|H]; [left; apply Qlt_le_weak|right]; exact H.
  - intros a b c. rewrite !Qle_bool_iff. intros; eapply Qle_trans; eauto.
Qed.
