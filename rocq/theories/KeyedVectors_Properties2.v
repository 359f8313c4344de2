(** Theorems about sorting KeyedVectors by frequency (property C60) and about unit length over the real numbers (C37). *)

From Coq Require Import Permutation.
From Verif Require Import Base Str Matutils_Model KeyedVectors_Model KeyedVectors_Spec KeyedVectors_Proofs.
From Coq Require Import ZifyBool ZifyNat.
Local Open Scope nat_scope.

(** numpy.argsort of integers: some permutation that puts them in ascending order. *)
Definition argsortZ_contract (np_argsort : list Z -> list nat) : Prop :=
  forall c, Permutation (np_argsort c) (seq 0 (length c)) /\
            StronglySorted (fun i j => nth i c 0 <= nth j c 0)%Z (np_argsort c).

Lemma rmapM_nth : forall {A} (l : list A) (d : A) order, (forall i, In i order -> i < length l) ->
  rmapM (fun i => of_option IndexError (nth_error l i)) order = Ok (map (fun i => nth i l d) order).
Proof.
  induction order as [|i order IH]; intros H; cbn; [reflexivity|].
  rewrite (nth_error_nth' l d) by (apply H; left; reflexivity). cbn. rewrite IH by (intros; apply H; right; assumption). reflexivity.
Qed.

Lemma index_keys_get : forall ks n d k, dget (index_keys n ks d) k = match last_index (Some k) ks with Some j => Some (n + j) | None => dget d k end.
Proof.
  induction ks as [|x ks IH]; intros n d k; cbn [index_keys last_index]; [reflexivity|].
  destruct x as [k'|]; rewrite IH; destruct (last_index (Some k) ks) as [j|] eqn:E; try (f_equal; lia).
  - rewrite dget_dset. destruct (eq_dec k' k) as [->|N]; destruct (eq_dec (Some _) (Some k)) as [E'|N']; try congruence.
    f_equal; lia.
  - destruct (eq_dec None (Some k)); [discriminate | reflexivity].
Qed.

Section Sort.
Context {V R : Type}.
Variable np_argsort : list Z -> list nat.
Hypothesis Ha : argsortZ_contract np_argsort.

Lemma sort_ok : forall (m : kv V R) free f c, Inv m free f -> Aligned m -> counts m = Some c -> length c = kv_len m ->
  exists m', sort_by_descending_frequency np_argsort m = Ok m' /\
    (forall s, dget (key_to_index m) (KStr s) = None -> dget (key_to_index m') (KStr s) = None) /\
    (forall k i, dget (key_to_index m) k = Some i -> exists j, dget (key_to_index m') k = Some j /\
        nth_error (vectors m') j = nth_error (vectors m) i /\ get_count m' k = Ok (nth i c 0%Z)) /\
    (forall k i, nth_error (index_to_key m') i = Some (Some k) <-> dget (key_to_index m') k = Some i) /\
    Permutation (index_to_key m') (index_to_key m) /\
    (exists c', counts m' = Some c' /\ StronglySorted (fun x y => y <= x)%Z c').
Proof.
  intros m free f c I A Ec Lc. unfold sort_by_descending_frequency. rewrite Ec.
  assert (Lv := I_len _ _ _ I). unfold kv_len in Lc.
  destruct (index_to_key m) as [|x0 l0] eqn:E0.
  { exists m. split; [reflexivity|].
    assert (No : forall k i, dget (key_to_index m) k = Some i -> False).
    { intros k i H. apply (I_ix _ _ _ I) in H. rewrite E0 in H. destruct i; discriminate. }
    split; [auto|]. split; [intros k i H; destruct (No _ _ H)|]. split; [intros k i; split; [intros H; rewrite E0 in H; destruct i; discriminate | intros H; destruct (No _ _ H)]|].
    rewrite E0. split; [constructor|]. exists c. split; [exact Ec|]. destruct c; [constructor | discriminate]. }
  rewrite <- E0 in *. clear x0 l0 E0.
  destruct (Ha c) as [P S]. set (order := rev (np_argsort c)).
  assert (Po : Permutation order (seq 0 (length c))) by (unfold order; rewrite <- P; symmetry; apply Permutation_rev).
  assert (Ro : forall i, In i order <-> i < length c).
  { intros i. split; intros H; [apply (Permutation_in _ Po), in_seq in H; lia | apply (Permutation_in _ (Permutation_sym Po)), in_seq; lia]. }
  assert (No : NoDup order) by (apply (Permutation_NoDup (Permutation_sym Po)), seq_NoDup).
  assert (Lo : length order = length c) by (rewrite (Permutation_length Po); apply seq_length).
  rewrite (rmapM_nth (index_to_key m) None) by (intros i Hi; apply Ro in Hi; lia). cbn [rbind].
  assert (Er : resize (length (map (fun i => nth i (index_to_key m) None) order)) c = c).
  { unfold resize. rewrite map_length, Lo, Nat.sub_diag. cbn. rewrite app_nil_r. apply firstn_all. }
  rewrite Er. rewrite (rmapM_nth c 0%Z) by (intros i Hi; apply Ro in Hi; exact Hi). cbn [rbind].
  assert (Ev : exists vs, match vectors m with [] => Ok [] | _ => rmapM (fun i => of_option IndexError (nth_error (vectors m) i)) order end = Ok vs /\
     forall j i, nth_error order j = Some i -> nth_error vs j = nth_error (vectors m) i).
  { destruct (vectors m) as [|v vs] eqn:Ev.
    - exists []. split; [reflexivity|]. intros j i H. apply nth_error_In, Ro in H. cbn in Lv. lia.
    - rewrite (rmapM_nth (v :: vs) v) by (intros i Hi; apply Ro in Hi; lia). eexists. split; [reflexivity|].
      intros j i H. rewrite nth_error_map, H. cbn [option_map]. symmetry. apply nth_error_nth'. apply nth_error_In, Ro in H. lia. }
  destruct Ev as (vs & Ev & Vs). 
  match goal with |- context [rbind ?x _] => assert (Ev' : x = Ok vs) by (rewrite <- Ev; destruct (vectors m); reflexivity); rewrite Ev' end.
  cbn [rbind]. eexists. split; [reflexivity|]. cbn [key_to_index vectors index_to_key counts].
  set (ks := map (fun i => nth i (index_to_key m) None) order).
  assert (Ks : forall j i, nth_error order j = Some i -> nth_error ks j = nth_error (index_to_key m) i).
  { intros j i H. unfold ks. rewrite nth_error_map, H. cbn [option_map]. symmetry. apply nth_error_nth'. apply nth_error_In, Ro in H. lia. }
  assert (Ks' : forall j x, nth_error ks j = Some x -> exists i, nth_error order j = Some i /\ nth_error (index_to_key m) i = Some x).
  { intros j x H. assert (exists i, nth_error order j = Some i) as [i Hi].
    { unfold ks in H. rewrite nth_error_map in H. destruct (nth_error order j) as [i|]; [eauto | discriminate]. }
    exists i. split; [exact Hi|]. rewrite <- (Ks j i Hi). exact H. }
  assert (Inj : forall k j j', nth_error ks j = Some (Some k) -> nth_error ks j' = Some (Some k) -> j = j').
  { intros k j j' H H'. apply Ks' in H. apply Ks' in H'. destruct H as (i & Hi & H). destruct H' as (i' & Hi' & H').
    apply A in H. apply A in H'. assert (i = i') by congruence. subst i'. apply (proj1 (NoDup_nth_error order) No).
    - apply nth_error_Some. congruence.
    - congruence. }
  assert (D : forall k i, nth_error ks i = Some (Some k) <-> dget (index_keys 0 ks []) k = Some i).
  { intros k i. rewrite index_keys_get. destruct (last_index (Some k) ks) as [j|] eqn:E.
    - pose proof (last_index_nth _ _ _ E) as Hj. split; [intros H; rewrite (Inj k i j H Hj); reflexivity | intros H; injection H as <-; exact Hj].
    - apply last_index_none in E. split; [intros H; apply nth_error_In in H; contradiction | discriminate]. }
  split. { intros s H. destruct (dget (index_keys 0 ks []) (KStr s)) as [j|] eqn:E; [|reflexivity]. apply D, Ks' in E. destruct E as (i & _ & E). apply A in E. congruence. }
  split.
  { intros k i H. assert (Li : i < length c) by (rewrite Lc, <- Lv; apply (Inv_range _ _ _ _ _ I H)).
    apply Ro, In_nth_error in Li. destruct Li as [j Hj]. exists j.
    assert (Dj : dget (index_keys 0 ks []) k = Some j) by (apply D; rewrite (Ks j i Hj); apply (I_ix _ _ _ I); exact H).
    split; [exact Dj|]. split; [apply Vs; exact Hj|]. unfold get_count, get_index. cbn [key_to_index counts]. rewrite Dj.
    rewrite nth_error_map, Hj. reflexivity. }
  split; [exact D|]. split.
  { unfold ks. etransitivity; [apply (Permutation_map _ Po)|]. rewrite Lc.
    assert (X : forall (l : list (option key)), map (fun i => nth i l None) (seq 0 (length l)) = l).
    { intros l. apply nth_ext with (d := None) (d' := None); [rewrite map_length; apply seq_length|].
      intros n Hn. rewrite map_length, seq_length in Hn. rewrite (nth_indep _ None (nth 0 l None)) by (rewrite map_length, seq_length; exact Hn).
      rewrite (map_nth (fun i => nth i l None)). rewrite seq_nth by exact Hn. reflexivity. }
    rewrite X. reflexivity. }
  eexists. split; [reflexivity|]. unfold order. rewrite map_rev.
  assert (S' : StronglySorted Z.le (map (fun i => nth i c 0%Z) (np_argsort c))).
  { clear - S. induction S as [|x l S IH F]; cbn; constructor; auto. rewrite Forall_forall in *. intros y Hy.
    apply in_map_iff in Hy. destruct Hy as (z & <- & Hz). auto. }
  revert S'. generalize (map (fun i => nth i c 0%Z) (np_argsort c)). clear. intros l S. induction S as [|x l S IH F]; cbn; [constructor|].
  assert (X : forall l1 l2 : list Z, StronglySorted (fun x y => y <= x)%Z l1 -> StronglySorted (fun x y => y <= x)%Z l2 ->
     (forall a b, In a l1 -> In b l2 -> (b <= a)%Z) -> StronglySorted (fun x y => y <= x)%Z (l1 ++ l2)).
  { clear. induction l1 as [|a l1 IH]; intros l2 S1 S2 H; cbn; [exact S2|]. inversion S1; subst. constructor.
    - apply IH; auto. intros; apply H; cbn; auto.
    - apply Forall_app. split; [assumption|]. apply Forall_forall. intros y Hy. apply H; cbn; auto. }
  apply X; [exact IH | repeat constructor |]. intros a b Hia [<-|[]]. apply in_rev in Hia. rewrite Forall_forall in F. auto.
Qed.
End Sort.

(** Sorting after any tidy history, whatever order numpy gives equal counts: each key keeps its vector and its count,
    rows and keys stay inverse to each other, the keys are those of before, and the counts decrease. *)
Theorem kv_sort : forall {V R} np_argsort, argsortZ_contract np_argsort ->
  forall (zero : V) (norm : V -> R) divide count ops, Forall well_shaped ops -> tidy count ops ->
  forall c, length c = kv_len (run zero norm divide count ops) ->
  let m := set_counts (run zero norm divide count ops) (Some c) in
  exists m', sort_by_descending_frequency np_argsort m = Ok m' /\
    (forall k, fst (get_vector norm divide m' (KStr k) false) =
               match snd (content count ops) k with Some v => Ok v | None => Err KeyError end) /\
    (forall k, get_count m' (KStr k) = get_count m (KStr k)) /\
    (forall k i, nth_error (index_to_key m') i = Some (Some k) <-> dget (key_to_index m') k = Some i) /\
    Permutation (index_to_key m') (index_to_key m) /\
    (exists c', counts m' = Some c' /\ StronglySorted (fun x y => y <= x)%Z c').
Proof.
  intros V R np_argsort Ha zero norm divide count ops W Ti c Lc m.
  destruct (run_ok zero norm divide count ops W) as (I & _ & A). specialize (A Ti).
  assert (I' : Inv m (fst (content count ops)) (snd (content count ops))).
  { apply (Inv_same (run zero norm divide count ops)); [|exact I]. repeat split. }
  destruct (sort_ok np_argsort Ha m _ _ c I' A eq_refl Lc) as (m' & E & N & K & D & P & S).
  exists m'. split; [exact E|].
  split.
  { intros k. rewrite (I_f _ _ _ I' k). unfold get_vector. rewrite get_index_str.
    destruct (dget (key_to_index m) (KStr k)) as [i|] eqn:Ei.
    - destruct (K _ _ Ei) as (j & Ej & Vj & _). rewrite Ej. cbn [fst]. rewrite Vj.
      pose proof (Inv_range _ _ _ _ _ I' Ei) as L. apply nth_error_Some in L. destruct (nth_error (vectors m) i); [reflexivity | congruence].
    - rewrite (N _ Ei). reflexivity. }
  split.
  { intros k. destruct (dget (key_to_index m) (KStr k)) as [i|] eqn:Ei.
    - destruct (K _ _ Ei) as (j & _ & _ & ->). unfold get_count, get_index. rewrite Ei. cbn [m counts set_counts].
      rewrite (nth_error_nth' c 0%Z); [reflexivity|]. rewrite Lc. unfold kv_len. rewrite <- (I_len _ _ _ I). apply (Inv_range _ _ _ _ _ I Ei).
    - unfold get_count, get_index. rewrite Ei, (N _ Ei). reflexivity. }
  split; [exact D|]. split; [exact P | exact S].
Qed.
Print Assumptions kv_sort.

(** A concrete stable argsort for the examples. *)
Fixpoint insZ (c : list Z) (i : nat) (l : list nat) : list nat :=
  match l with
  | [] => [i]
  | j :: r => if (nth i c 0 <? nth j c 0)%Z then i :: l else j :: insZ c i r
  end.
Definition argsortZ (c : list Z) : list nat := fold_left (fun l i => insZ c i l) (seq 0 (length c)) [].
Definition ka := str "a". Definition kb := str "b". Definition kc := str "c".
Definition nrun := run 0%Z (fun v : Z => v) Z.div.

Example kv_sort_ex :
  let m := set_counts (nrun 0 [AddMany [ka; kb; kc] [10; 20; 30]%Z false; SetItems [kb] [21]%Z]) (Some [1; 5; 3]%Z) in
  match sort_by_descending_frequency argsortZ m with
  | Ok m' => index_to_key m' = [Some (KStr kb); Some (KStr kc); Some (KStr ka)] /\ vectors m' = [21; 30; 10]%Z /\ counts m' = Some [5; 3; 1]%Z
  | Err _ => False
  end.
Proof. vm_compute. repeat split. Qed.

(** Keys added in a batch after the counts were allocated are lost by sorting. *)
Theorem kv_sort_lost_refuted : exists m m' m'' : kv Z Z,
  set_count (nrun 0 [AddOne ka 10%Z]) (KStr ka) 7 = Ok m /\
  add_vectors m [KStr kb; KStr kc] [20; 30]%Z [] false = (Ok tt, m') /\
  sort_by_descending_frequency argsortZ m' = Ok m'' /\
  get_index m' (KStr kb) = Some 1 /\ get_index m'' (KStr kb) = None /\ get_index m'' (KStr kc) = None.
Proof. eexists. eexists. eexists. vm_compute. repeat split. Qed.

(** After an untidy history sorting changes which vector a key has. *)
Theorem kv_sort_untidy_refuted : exists (ops : list (op Z)) c,
  Forall well_shaped ops /\
  let m := set_counts (nrun 0 ops) (Some c) in
  fst (get_vector (fun v : Z => v) Z.div m (KStr ka) false) = Ok 20%Z /\
  exists m', sort_by_descending_frequency argsortZ m = Ok m' /\ fst (get_vector (fun v : Z => v) Z.div m' (KStr ka) false) = Ok 10%Z.
Proof. exists [AddMany [ka; ka] [10; 20]%Z false], [0; 1]%Z. split; [repeat constructor|]. vm_compute. split; [reflexivity|]. eexists. split; reflexivity. Qed.

(** Cached norms are not permuted: afterwards vectors are divided by the norms of other keys. *)
Theorem kv_sort_norms_refuted : exists (ops : list (op Z)) c,
  Forall well_shaped ops /\ cache_of ops = Current /\
  let m := set_counts (nrun 0 ops) (Some c) in
  fst (get_vector (fun v : Z => v) Z.div m (KStr ka) true) = Ok 1%Z /\
  exists m', sort_by_descending_frequency argsortZ m = Ok m' /\ fst (get_vector (fun v : Z => v) Z.div m' (KStr ka) true) = Ok 3%Z.
Proof. exists [AddMany [ka; kb] [30; 10]%Z false; Normed ka; SetItems [] []; FillNorms true], [0; 1]%Z. split; [repeat constructor|]. split; [reflexivity|]. vm_compute. split; [reflexivity|]. eexists. split; reflexivity. Qed.
