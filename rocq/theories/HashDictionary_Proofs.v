(** Proofs about [HashDictionary]. *)

From Verif Require Import Base Str Dictionary_Model Dictionary_Spec Dictionary_Proofs Dictionary_Proofs2 SortFacts HashDictionary_Model.
From Coq Require Import QArith ZifyBool ZifyNat ZifyN.
Local Open Scope nat_scope.

Lemma count_occ_cons_eq_dec : forall (x w : pystr) l,
  count_occ eq_dec (x :: l) w = if eq_dec x w then S (count_occ eq_dec l w) else count_occ eq_dec l w.
Proof. reflexivity. Qed.

(** ** groupby of a sorted list *)

Definition str_le (a b : pystr) : Prop := str_leb a b = true.

Lemma groupby_sorted : forall l, StronglySorted str_le l ->
  NoDup (map fst (groupby l)) /\
  (forall w n, In (w, n) (groupby l) <-> n = count_occ eq_dec l w /\ 0 < n) /\
  (forall x l', l = x :: l' -> exists n gs, groupby l = (x, n) :: gs).
Proof.
  induction l as [|x l IH]; intros S.
  - split; [constructor|]. split; [|intros; discriminate]. intros w n. simpl. split; [tauto | lia].
  - inversion S as [|? ? S' F]; subst. destruct (IH S') as (ND & EL & HD).
    rewrite Forall_forall in F.
    destruct l as [|y l].
    + cbn [groupby]. split; [repeat constructor; simpl; tauto|]. split; [|intros x' l' E; inversion E; eauto].
      intros w n. simpl. destruct (eq_dec x w).
      * subst. split; [intros [E|[]]; inversion E; auto | intros [-> _]; auto].
      * split; [intros [E|[]]; inversion E; congruence | lia].
    + destruct (HD y l eq_refl) as (n0 & gs & EG). 
      change (groupby (x :: y :: l)) with (match groupby (y :: l) with
        | (w', n) :: gs => if eq_dec x w' then (w', Datatypes.S n) :: gs else (x, 1) :: (w', n) :: gs
        | [] => [(x, 1)] end).
      rewrite EG in *. destruct (eq_dec x y) as [<-|NE].
      * split; [exact ND|]. split; [|intros x' l' E; inversion E; eauto].
        intros w n. rewrite (count_occ_cons_eq_dec x w).
        inversion ND; subst.
        destruct (eq_dec x w) as [<-|NE].
        -- destruct (EL x n0) as [H _]. destruct H as [Hn Ln]; [simpl; auto|].
           split.
           ++ intros [E|HI]; [inversion E; subst; lia|]. exfalso. apply H1. apply in_map_iff. exists (x, n); auto.
           ++ intros [-> _]. left. f_equal. lia.
        -- rewrite <- EL. simpl. split; (intros [E|HI]; [inversion E; congruence | auto]).
      * assert (NI : ~ In x (y :: l)).
        { intros HI. inversion S' as [|? ? S'' F']; subst. rewrite Forall_forall in F'.
          assert (str_le y x) by (destruct HI as [->|HI]; [unfold str_le; apply str_leb_refl | apply F'; auto]).
          assert (str_le x y) by (apply F; simpl; auto). apply NE. apply str_leb_antisym; auto. }
        split; [|split; [|intros x' l' E; inversion E; eauto]].
        -- apply NoDup_cons; [|exact ND]. intros HI. apply (in_map_iff fst ((y, n0) :: gs)) in HI. destruct HI as [[w n] [E HI]]. simpl in E; subst w.
           apply EL in HI. destruct HI as [-> L]. apply NI. apply (count_occ_In eq_dec). exact L.
        -- intros w n. rewrite (count_occ_cons_eq_dec x w). destruct (eq_dec x w) as [<-|NE'].
           ++ rewrite (proj1 (count_occ_not_In eq_dec _ _) NI). split.
              ** intros [E|HI]; [inversion E; subst; lia|]. apply EL in HI.
                 rewrite (proj1 (count_occ_not_In eq_dec _ _) NI) in HI. lia.
              ** intros [-> _]. simpl; auto.
           ++ rewrite <- EL. split; [intros [E|HI]; [inversion E; congruence | auto] | intros HI; simpl; auto].
Qed.

Lemma groupby_pos : forall l w n, In (w, n) (groupby l) -> 0 < n.
Proof.
  induction l as [|x l IH]; simpl; intros w n HI; [destruct HI|].
  destruct (groupby l) as [|[w' n'] gs] eqn:E.
  - destruct HI as [HI|[]]; inversion HI; lia.
  - destruct (eq_dec x w').
    + destruct HI as [HI|HI]; [inversion HI; lia | apply (IH w n); simpl; auto].
    + destruct HI as [HI|HI]; [inversion HI; lia | apply (IH w n HI)].
Qed.

Lemma In_groupby : forall l w, In w (map fst (groupby l)) <-> In w l.
Proof.
  induction l as [|x l IH]; intros w; [simpl; tauto|]. cbn [groupby In]. rewrite <- IH.
  destruct (groupby l) as [|[w' n'] gs]; simpl; [tauto|].
  destruct (eq_dec x w'); simpl; [subst; tauto | tauto].
Qed.

Lemma sum_groupby : forall (f : pystr -> bool) l,
  list_sum_nat (map snd (filter (fun g => f (fst g)) (groupby l))) = length (filter f l).
Proof.
  induction l as [|x l IH]; [reflexivity|]. cbn [groupby]. 
  destruct (groupby l) as [|[w' n'] gs] eqn:E.
  - destruct l as [|y l]; [|exfalso; cbn [groupby] in E; destruct (groupby l) as [|[a b] c]; [|destruct (eq_dec y a)]; discriminate].
    simpl. destruct (f x); reflexivity.
  - destruct (eq_dec x w') as [->|NE].
    + cbn [filter fst] in *. destruct (f w'); cbn [map snd length list_sum_nat fold_right] in *; unfold list_sum_nat in *; lia.
    + cbn [filter fst] in *. destruct (f x); destruct (f w'); cbn [map snd length list_sum_nat fold_right] in *; unfold list_sum_nat in *; lia.
Qed.

Lemma sum_dset_gen : forall {K} `{EqDec K} (c : dict K nat) k f, NoDup (dkeys c) ->
  list_sum_nat (dvals (dset c k (dget_or c k 0 + f))) = list_sum_nat (dvals c) + f.
Proof.
  induction c as [|[k' v] c IH]; intros k f ND; [simpl; lia|]. inversion ND; subst.
  unfold dget_or in *. cbn [dget dset]. destruct (eq_dec k' k); cbn [dvals map snd list_sum_nat fold_right]; unfold list_sum_nat, dvals in *.
  - lia.
  - rewrite IH by auto. lia.
Qed.

Section Proofs.
  Variable myhash : pystr -> Z.
  Variable id_range : nat.
  Variable debug : bool.
  Hypothesis range_pos : 0 < id_range.

  Notation hh := (h_hash myhash id_range).
  Definition hcount (doc : list pystr) (i : nat) : nat := length (filter (fun w => hh w =? i) doc).

  Lemma hash_lt : forall w, hh w < id_range.
  Proof. intros w. unfold h_hash. pose proof (Z.mod_pos_bound (myhash w) (Z.of_nat id_range)). lia. Qed.

  Definition res_step (r : dict nat nat) (g : pystr * nat) : dict nat nat :=
    dset r (hh (fst g)) (dget_or r (hh (fst g)) 0 + snd g).

  Lemma group_result : forall dbg gs h r,
    snd (fold_left (h_group_step myhash id_range dbg) gs (h, r)) = fold_left res_step gs r.
  Proof.
    induction gs as [|[w n] gs IH]; intros h r; [reflexivity|]. cbn [fold_left]. unfold h_group_step at 2.
    unfold h_restricted_hash. cbn [fst snd]. rewrite IH. reflexivity.
  Qed.

  Lemma res_NoDup : forall gs r, NoDup (dkeys r) -> NoDup (dkeys (fold_left res_step gs r)).
  Proof. induction gs; intros r ND; [auto|]. cbn [fold_left]. apply IHgs, NoDup_dset; auto. Qed.

  Lemma res_sum : forall gs r, NoDup (dkeys r) ->
    list_sum_nat (dvals (fold_left res_step gs r)) = list_sum_nat (dvals r) + list_sum_nat (map snd gs).
  Proof.
    induction gs as [|g gs IH]; intros r ND; [simpl; lia|]. cbn [fold_left].
    rewrite IH by (apply NoDup_dset; auto). unfold res_step. rewrite sum_dset_gen by auto. simpl. lia.
  Qed.

  Lemma res_get : forall gs r i,
    dget_or (fold_left res_step gs r) i 0 = dget_or r i 0 + list_sum_nat (map snd (filter (fun g => hh (fst g) =? i) gs)).
  Proof.
    induction gs as [|[w n] gs IH]; intros r i; [simpl; lia|]. cbn [fold_left]. rewrite IH.
    unfold res_step. cbn [fst snd filter]. unfold dget_or at 1. rewrite dget_dset.
    destruct (eq_dec (hh w) i) as [->|NE].
    - rewrite Nat.eqb_refl. simpl. unfold dget_or. lia.
    - apply Nat.eqb_neq in NE. rewrite NE. unfold dget_or. lia.
  Qed.

  Lemma res_keys : forall gs r i, In i (dkeys (fold_left res_step gs r)) <-> In i (dkeys r) \/ exists g, In g gs /\ hh (fst g) = i.
  Proof.
    induction gs as [|g gs IH]; intros r i; [simpl; split; [auto | intros [|[? [[] _]]]; auto]|].
    cbn [fold_left]. rewrite IH. unfold res_step. rewrite In_dkeys_dset. simpl.
    split.
    - intros [[<-|]|[g' [HI E]]]; eauto.
    - intros [|[g' [[->|HI] E]]]; eauto.
  Qed.

  Lemma length_filter_perm : forall (f : pystr -> bool) l l', Permutation l l' -> length (filter f l) = length (filter f l').
  Proof. intros. apply Permutation_length, Permutation_filter; auto. Qed.

  Definition doc_result (doc : list pystr) : dict nat nat := fold_left res_step (groupby (isort str_leb doc)) [].

  Lemma doc_result_spec : forall doc i n, In (i, n) (doc_result doc) <-> n = hcount doc i /\ 0 < n.
  Proof.
    intros doc i n. assert (ND : NoDup (dkeys (doc_result doc))) by (apply res_NoDup; constructor).
    assert (G : dget_or (doc_result doc) i 0 = hcount doc i).
    { unfold doc_result. rewrite res_get. unfold dget_or at 1. cbn [dget]. rewrite Nat.add_0_l.
      rewrite (sum_groupby (fun w => hh w =? i)). apply length_filter_perm, Permutation_sym, Permutation_isort. }
    assert (KK : In i (dkeys (doc_result doc)) <-> 0 < hcount doc i).
    { unfold doc_result. rewrite res_keys. split.
      - intros [[]|[[w m] [HI E]]]. cbn [fst] in E. unfold hcount.
        assert (HW : In w doc).
        { apply (In_isort str_leb). apply In_groupby. apply in_map_iff. exists (w, m); auto. }
        destruct (filter _ doc) eqn:EF; [|simpl; lia].
        assert (In w []) by (rewrite <- EF; apply filter_In; split; auto; apply Nat.eqb_eq; auto). destruct H.
      - intros L. right. unfold hcount in L. destruct (filter _ doc) as [|w ws] eqn:EF; [simpl in L; lia|].
        assert (HI : In w (filter (fun w => hh w =? i) doc)) by (rewrite EF; simpl; auto).
        apply filter_In in HI. destruct HI as [HI E]. apply Nat.eqb_eq in E.
        apply (In_isort str_leb) in HI. apply In_groupby, in_map_iff in HI. destruct HI as [g [Eg HI]].
        exists g. rewrite Eg. auto. }
    rewrite <- dget_iff by auto. unfold dget_or in G. destruct (dget (doc_result doc) i) as [v|] eqn:E.
    - subst v. assert (In i (dkeys (doc_result doc))) by (apply dget_Some_key; eauto).
      apply KK in H. split; [intros X; inversion X; subst; auto | intros [-> _]; auto].
    - apply dget_None in E. rewrite KK in E. split; [discriminate | intros [-> L]; tauto].
  Qed.

  Lemma h_doc2bow_bow : forall h doc u, snd (h_doc2bow myhash id_range debug h doc u) = isort h_pair_leb (doc_result doc).
  Proof.
    intros. unfold h_doc2bow.
    destruct (fold_left (h_group_step myhash id_range debug) (groupby (isort str_leb doc)) (h, [])) as [h' r] eqn:E.
    assert (r = doc_result doc) by (change r with (snd (h', r)); rewrite <- E; apply group_result).
    subst r. reflexivity.
  Qed.

  Lemma doc_bow_spec : forall h doc u,
    let bow := snd (h_doc2bow myhash id_range debug h doc u) in
    StronglySorted (fun a b => fst a < fst b) bow /\
    (forall i n, In (i, n) bow <-> n = hcount doc i /\ 0 < n) /\
    (forall i n, In (i, n) bow -> i < id_range) /\
    list_sum_nat (map snd bow) = length doc.
  Proof.
    intros h doc u bow. unfold bow. rewrite h_doc2bow_bow.
    assert (ND : NoDup (dkeys (doc_result doc))) by (apply res_NoDup; constructor).
    assert (EL : forall i n, In (i, n) (isort h_pair_leb (doc_result doc)) <-> n = hcount doc i /\ 0 < n).
    { intros. rewrite In_isort. apply doc_result_spec. }
    split; [apply (isort_pair_strict (doc_result doc)); auto|]. split; [exact EL|]. split.
    - intros i n HI. apply EL in HI. destruct HI as [E L]. subst n. unfold hcount in L.
      destruct (filter _ doc) as [|w ws] eqn:EF; [simpl in L; lia|].
      assert (HI : In w (filter (fun w => hh w =? i) doc)) by (rewrite EF; simpl; auto).
      apply filter_In in HI. destruct HI as [_ E]. apply Nat.eqb_eq in E. subst i. apply hash_lt.
    - rewrite (list_sum_nat_perm _ (dvals (doc_result doc))) by (apply Permutation_map, Permutation_sym, Permutation_isort).
      unfold doc_result. rewrite res_sum by constructor. cbn [dvals map list_sum_nat fold_right]. rewrite Nat.add_0_l.
      pose proof (sum_groupby (fun _ => true) (isort str_leb doc)) as SG.
      rewrite !filter_true in SG. rewrite length_isort in SG. exact SG.
  Qed.

  (** ** State *)

  (** What one document adds to the debug maps. *)
  Lemma group_state_nodebug : forall gs h (r : dict nat nat),
    fst (fold_left (h_group_step myhash id_range false) gs (h, r)) = h.
  Proof. induction gs as [|[w n] gs IH]; intros h r; [reflexivity|]. cbn [fold_left]. unfold h_group_step at 2. cbn. apply IH. Qed.

  Lemma group_state : forall gs h (r : dict nat nat), NoDup (map fst gs) ->
    let h' := fst (fold_left (h_group_step myhash id_range true) gs (h, r)) in
    h_num_docs h' = h_num_docs h /\ h_num_pos h' = h_num_pos h /\ h_num_nnz h' = h_num_nnz h /\ h_dfs h' = h_dfs h /\
    (forall t, dget (h_token2id h') t = if in_dec eq_dec t (map fst gs) then Some (hh t) else dget (h_token2id h) t) /\
    (forall t i, In t (h_getitem h' i) <-> In t (h_getitem h i) \/ (In t (map fst gs) /\ hh t = i)) /\
    (forall t, dget (h_dfs_debug h') t =
         if in_dec eq_dec t (map fst gs) then Some (dget_or (h_dfs_debug h) t 0 + 1) else dget (h_dfs_debug h) t).
  Proof.
    induction gs as [|[w n] gs IH]; intros h r ND; cbv zeta.
    - cbn [fold_left fst]. repeat (split; [reflexivity|]). cbn [map].
      split; [intros t i; simpl; tauto | auto].
    - cbn [map fst] in ND. inversion ND; subst.
      set (h1 := mkHashdict (dset (h_token2id h) w (hh w))
                 (dset (h_id2token h) (hh w) (set_add (dget_or (h_id2token h) (hh w) []) w)) (h_dfs h)
                 (dset (h_dfs_debug h) w (dget_or (h_dfs_debug h) w 0 + 1)) (h_num_docs h) (h_num_pos h) (h_num_nnz h)).
      change (fold_left (h_group_step myhash id_range true) ((w, n) :: gs) (h, r))
        with (fold_left (h_group_step myhash id_range true) gs (h1, dset r (hh w) (dget_or r (hh w) 0 + n))).
      destruct (IH h1 (dset r (hh w) (dget_or r (hh w) 0 + n)) H2) as (A & B & C & E & G1 & G2 & G3).
      split; [exact A|]. split; [exact B|]. split; [exact C|]. split; [exact E|]. split; [|split].
      * intros t. rewrite G1. unfold h1. cbn [h_token2id map fst]. rewrite dget_dset.
        destruct (in_dec eq_dec t (map fst gs)), (in_dec eq_dec t (w :: map fst gs)), (eq_dec w t); subst; simpl in *; try tauto; congruence.
      * intros t i. rewrite G2. unfold h1, h_getitem. cbn [h_id2token map fst In]. unfold dget_or at 1. rewrite dget_dset.
        destruct (eq_dec (hh w) i) as [<-|NE].
        -- unfold set_add. destruct (memb w _) eqn:M.
           ++ apply memb_true in M. split; [tauto|]. intros [|[[<-|] ?]]; auto.
           ++ rewrite in_app_iff. simpl. split; [intros [[|[<-|[]]]|]; tauto | intros [|[[<-|] ?]]; auto].
        -- fold (dget_or (h_id2token h) i []). split; [intros [|[? ?]]; auto | intros [|[[<-|] ?]]; auto; congruence].
      * intros t. rewrite G3. unfold h1. cbn [h_dfs_debug map fst]. unfold dget_or. rewrite dget_dset.
        destruct (in_dec eq_dec t (map fst gs)), (in_dec eq_dec t (w :: map fst gs)), (eq_dec w t); subst; simpl in *; try tauto; congruence.
  Qed.

  Lemma incr_dfs_get : forall (ids : list nat) (m : dict nat nat) i, NoDup ids ->
    dget (fold_left (fun m i => dset m i (dget_or m i 0 + 1)) ids m) i =
    if in_dec eq_dec i ids then Some (dget_or m i 0 + 1) else dget m i.
  Proof.
    induction ids as [|k ids IH]; intros m i ND; [reflexivity|]. inversion ND; subst. cbn [fold_left]. rewrite IH by auto.
    unfold dget_or. rewrite dget_dset.
    destruct (in_dec eq_dec i ids), (in_dec eq_dec i (k :: ids)), (eq_dec k i); subst; simpl in *; try tauto; congruence.
  Qed.

  Lemma groupby_NoDup : forall doc, NoDup (map fst (groupby (isort str_leb doc))).
  Proof.
    intros doc. apply groupby_sorted. apply (isort_StronglySorted str_leb).
    - apply str_leb_total.
    - apply str_leb_trans.
  Qed.

  Lemma In_groups : forall doc t, In t (map fst (groupby (isort str_leb doc))) <-> In t doc.
  Proof. intros. rewrite In_groupby, In_isort. reflexivity. Qed.

  (** One call of doc2bow, with the reverse maps switched on. *)
  Lemma doc2bow_state : forall h doc u,
    let h' := fst (h_doc2bow myhash id_range true h doc u) in
    h_num_docs h' = h_num_docs h + 1 /\ h_num_pos h' = h_num_pos h + length doc /\
    h_num_nnz h' = h_num_nnz h + length (doc_result doc) /\
    (forall i, dget (h_dfs h') i = if in_dec eq_dec i (map hh doc) then Some (dget_or (h_dfs h) i 0 + 1) else dget (h_dfs h) i) /\
    (forall t, dget (h_token2id h') t = if in_dec eq_dec t doc then Some (hh t) else dget (h_token2id h) t) /\
    (forall t i, In t (h_getitem h' i) <-> In t (h_getitem h i) \/ (In t doc /\ hh t = i)) /\
    (forall t, dget (h_dfs_debug h') t = if in_dec eq_dec t doc then Some (dget_or (h_dfs_debug h) t 0 + 1) else dget (h_dfs_debug h) t).
  Proof.
    intros h doc u. cbv zeta. unfold h_doc2bow.
    destruct (fold_left (h_group_step myhash id_range true) (groupby (isort str_leb doc)) (h, [])) as [h1 r] eqn:E.
    assert (R : r = doc_result doc) by (change r with (snd (h1, r)); rewrite <- E; apply group_result).
    pose proof (group_state (groupby (isort str_leb doc)) h [] (groupby_NoDup doc)) as G. cbv zeta in G.
    set (F := fold_left _ _ _) in G. assert (EF : F = (h1, r)) by exact E. rewrite EF in G. clear F EF E. cbn [fst] in G.
    destruct G as (A & B & C & D & G1 & G2 & G3).
    unfold h_self_allow_update. rewrite orb_true_r.
    cbn [fst h_num_docs h_num_pos h_num_nnz h_dfs h_token2id h_id2token h_dfs_debug].
    rewrite length_isort. split; [lia|]. split; [lia|]. split; [subst r; lia|]. split; [|split; [|split]].
    - intros i. rewrite incr_dfs_get by (subst r; apply res_NoDup; constructor). rewrite D.
      assert (X : In i (dkeys r) <-> In i (map hh doc)).
      { subst r. unfold doc_result. rewrite res_keys, in_map_iff. split.
        - intros [[]|[g [HI Eg]]]. exists (fst g). split; auto. apply In_groups. apply in_map; auto.
        - intros [t [Et HI]]. right. apply In_groups, in_map_iff in HI. destruct HI as [g [Eg HI]]. exists g. rewrite Eg; auto. }
      destruct (in_dec eq_dec i (dkeys r)), (in_dec eq_dec i (map hh doc)); tauto.
    - intros t. rewrite G1. pose proof (In_groups doc t).
      destruct (in_dec eq_dec t (map fst _)), (in_dec eq_dec t doc); tauto.
    - intros t i. unfold h_getitem at 1. cbn [h_id2token]. change (dget_or (h_id2token h1) i []) with (h_getitem h1 i).
      rewrite G2, In_groups. reflexivity.
    - intros t. rewrite G3. pose proof (In_groups doc t).
      destruct (in_dec eq_dec t (map fst _)), (in_dec eq_dec t doc); tauto.
  Qed.

  Lemma length_NoDup_same : forall (l l' : list nat), NoDup l -> NoDup l' -> (forall x, In x l <-> In x l') -> length l = length l'.
  Proof. intros. apply Permutation_length, NoDup_Permutation; auto. Qed.

  Lemma length_doc_result : forall doc, length (doc_result doc) = length (nodup eq_dec (map hh doc)).
  Proof.
    intros doc. rewrite <- (map_length fst). apply length_NoDup_same; [apply res_NoDup; constructor | apply NoDup_nodup |].
    intros i. rewrite nodup_In. unfold doc_result. change (map fst) with (@dkeys nat nat). rewrite res_keys, in_map_iff. split.
    - intros [[]|[g [HI Eg]]]. exists (fst g). split; auto. apply In_groups. apply in_map; auto.
    - intros [t [Et HI]]. right. apply In_groups, in_map_iff in HI. destruct HI as [g [Eg HI]]. exists g. rewrite Eg; auto.
  Qed.

  Lemma doc2bow_nums : forall h doc u,
    let h' := fst (h_doc2bow myhash id_range debug h doc u) in
    h_num_docs h' = h_num_docs h + 1 /\ h_num_pos h' = h_num_pos h + length doc /\
    h_num_nnz h' = h_num_nnz h + length (nodup eq_dec (map hh doc)).
  Proof.
    intros h doc u. cbv zeta. rewrite <- length_doc_result. destruct debug.
    - pose proof (doc2bow_state h doc u) as S. cbv zeta in S. tauto.
    - unfold h_doc2bow.
      destruct (fold_left (h_group_step myhash id_range false) (groupby (isort str_leb doc)) (h, [])) as [h1 r] eqn:E.
      assert (R : r = fold_left res_step (groupby (isort str_leb doc)) []).
      { change r with (snd (h1, r)). rewrite <- E. apply group_result. }
      assert (H1 : h1 = h) by (change h1 with (fst (h1, r)); rewrite <- E; apply group_state_nodebug).
      subst. unfold h_self_allow_update. rewrite orb_true_r. cbn [fst h_num_docs h_num_pos h_num_nnz]. rewrite length_isort. auto.
  Qed.

  (** ** Histories of doc2bow calls: exact debug information *)

  Definition id_freq (docs : list (list pystr)) (i : nat) : nat :=
    length (filter (fun doc => if in_dec eq_dec i (map hh doc) then true else false) docs).

  (** [None] for zero. *)
  Definition pos_opt (n : nat) : option nat := match n with 0 => None | S _ => Some n end.

  Record h_exact (docs : list (list pystr)) (h : hashdict) : Prop := {
    he_docs : h_num_docs h = length docs;
    he_pos : h_num_pos h = total_positions docs;
    he_nnz : h_num_nnz h = fold_right (fun doc acc => length (nodup eq_dec (map hh doc)) + acc) 0 docs;
    he_t2i : forall t i, dget (h_token2id h) t = Some i <-> (exists doc, In doc docs /\ In t doc) /\ i = hh t;
    he_i2t : forall t i, In t (h_getitem h i) <-> (exists doc, In doc docs /\ In t doc) /\ i = hh t;
    he_dfs : forall i, dget (h_dfs h) i = pos_opt (id_freq docs i);
    he_dbg : forall t, dget (h_dfs_debug h) t = pos_opt (doc_freq docs t)
  }.

  Lemma count_step : forall {K} `{EqDec K} (m : dict K nat) (k : K) (n : nat) (b : bool),
    dget m k = pos_opt n ->
    (if b then Some (dget_or m k 0 + 1) else dget m k) = pos_opt (n + (if b then 1 else 0)).
  Proof.
    intros K H m k n b E. unfold dget_or, pos_opt in *. rewrite E. destruct b, n; simpl; auto; repeat f_equal; lia.
  Qed.

  Lemma h_exact_step : forall docs h doc u, h_exact docs h ->
    h_exact (docs ++ [doc]) (fst (h_doc2bow myhash id_range true h doc u)).
  Proof.
    intros docs h doc u [A B C D E F G]. pose proof (doc2bow_state h doc u) as S. cbv zeta in S.
    destruct S as (S1 & S2 & S3 & S4 & S5 & S6 & S7).
    assert (SEEN : forall t, (exists doc0, In doc0 (docs ++ [doc]) /\ In t doc0) <-> (exists doc0, In doc0 docs /\ In t doc0) \/ In t doc).
    { intros t. split.
      - intros [d0 [HI HT]]. apply in_app_iff in HI. destruct HI as [|[<-|[]]]; eauto.
      - intros [[d0 [HI HT]]|HT]; [exists d0 | exists doc]; rewrite in_app_iff; simpl; auto. }
    constructor.
    - rewrite S1, A, app_length. reflexivity.
    - rewrite S2, B. unfold total_positions. rewrite fold_right_app. cbn [fold_right].
      clear. induction docs; simpl; lia.
    - rewrite S3, C, length_doc_result, fold_right_app. cbn [fold_right].
      clear. induction docs; simpl; lia.
    - intros t i. rewrite S5, SEEN. destruct (in_dec eq_dec t doc) as [HI|NI].
      + split; [intros X; inversion X; auto | intros [_ ->]; auto].
      + rewrite D. split; [intros [? ->]; auto | intros [[|] ->]; tauto].
    - intros t i. rewrite S6, SEEN, E. split; [intros [[? ->]|[? <-]]; auto | intros [[|] ->]; auto].
    - intros i. rewrite S4. unfold id_freq. rewrite filter_app, app_length. cbn [filter].
      pose proof (count_step (h_dfs h) i (id_freq docs i) (if in_dec eq_dec i (map hh doc) then true else false) (F i)) as X.
      unfold id_freq in X. destruct (in_dec eq_dec i (map hh doc)); cbn [length]; exact X.
    - intros t. rewrite S7. unfold doc_freq. rewrite filter_app, app_length. cbn [filter].
      pose proof (count_step (h_dfs_debug h) t (doc_freq docs t) (if in_dec eq_dec t doc then true else false) (G t)) as X.
      unfold doc_freq in X. destruct (in_dec eq_dec t doc); cbn [length]; exact X.
  Qed.

  Lemma h_exact_empty : h_exact [] h_empty.
  Proof.
    constructor; try reflexivity.
    - intros t i. split; [discriminate | intros [[doc [[] _]] _]].
    - intros t i. split; [intros [] | intros [[doc [[] _]] _]].
  Qed.

  Lemma h_exact_run : forall calls docs h, h_exact docs h ->
    h_exact (docs ++ map fst calls)
      (fold_left (fun h c => fst (h_doc2bow myhash id_range true h (fst c) (snd c))) calls h).
  Proof.
    induction calls as [|[doc u] calls IH]; intros docs h X; cbn [fold_left map fst snd].
    - rewrite app_nil_r; auto.
    - replace (docs ++ doc :: map fst calls) with ((docs ++ [doc]) ++ map fst calls) by (rewrite <- app_assoc; reflexivity).
      apply IH, h_exact_step; auto.
  Qed.
End Proofs.

(** ** filter_extremes *)

Section Filter.
  Variable myhash : pystr -> Z.
  Variable id_range : nat.
  Hypothesis Hrange : 0 < id_range.
  Notation hh := (h_hash myhash id_range).

  Record h_inv (h : hashdict) : Prop := {
    hi_t2i_nd : NoDup (dkeys (h_token2id h));
    hi_dbg_nd : NoDup (dkeys (h_dfs_debug h));
    hi_hash : forall t i, dget (h_token2id h) t = Some i -> i = hh t;
    hi_i2t : forall t i, In t (h_getitem h i) <-> dget (h_token2id h) t = Some i;
    hi_dbg : forall t, In t (dkeys (h_dfs_debug h)) <-> In t (dkeys (h_token2id h));
    hi_dfs : forall i, In i (dkeys (h_dfs h)) <-> h_getitem h i <> []
  }.

  Lemma h_inv_empty : h_inv h_empty.
  Proof.
    constructor; simpl; try constructor; try tauto; try discriminate.
  Qed.

  Lemma nonempty_In : forall {A} (l : list A), l <> [] <-> exists x, In x l.
  Proof. destruct l; simpl; split; [congruence | intros [x []] | eauto | discriminate]. Qed.

  Lemma group_NoDup : forall gs h (r : dict nat nat), NoDup (dkeys (h_token2id h)) -> NoDup (dkeys (h_dfs_debug h)) ->
    let h' := fst (fold_left (h_group_step myhash id_range true) gs (h, r)) in
    NoDup (dkeys (h_token2id h')) /\ NoDup (dkeys (h_dfs_debug h')).
  Proof.
    induction gs as [|[w n] gs IH]; intros h r A B; [simpl; auto|]. cbv zeta. cbn [fold_left]. unfold h_group_step at 2 4.
    cbn [h_restricted_hash h_token2id h_dfs_debug]. apply IH; cbn [h_token2id h_dfs_debug]; apply NoDup_dset; auto.
  Qed.

  Lemma doc2bow_NoDup : forall h doc u, NoDup (dkeys (h_token2id h)) -> NoDup (dkeys (h_dfs_debug h)) ->
    let h' := fst (h_doc2bow myhash id_range true h doc u) in
    NoDup (dkeys (h_token2id h')) /\ NoDup (dkeys (h_dfs_debug h')).
  Proof.
    intros h doc u A B. cbv zeta. unfold h_doc2bow.
    destruct (fold_left (h_group_step myhash id_range true) (groupby (isort str_leb doc)) (h, [])) as [h1 r] eqn:E.
    pose proof (group_NoDup (groupby (isort str_leb doc)) h [] A B) as G. cbv zeta in G.
    set (F := fold_left _ _ _) in G. assert (EF : F = (h1, r)) by exact E. rewrite EF in G. cbn [fst] in G.
    destruct (u || h_self_allow_update); cbn [fst h_token2id h_dfs_debug]; exact G.
  Qed.

  Lemma doc2bow_h_inv : forall h doc u, h_inv h -> h_inv (fst (h_doc2bow myhash id_range true h doc u)).
  Proof.
    intros h doc u [A B C D E F].
    pose proof (doc2bow_NoDup h doc u A B) as [A' B'].
    pose proof (doc2bow_state myhash id_range Hrange h doc u) as S. cbv zeta in S.
    destruct S as (_ & _ & _ & S4 & S5 & S6 & S7).
    constructor; auto.
    - intros t i. rewrite S5. destruct (in_dec eq_dec t doc); [intros X; inversion X; auto | apply C].
    - intros t i. rewrite S6, S5, D. destruct (in_dec eq_dec t doc) as [HI|NI].
      + split; [intros [X|[_ <-]]; auto; apply C in X; subst; auto | intros X; inversion X; auto].
      + split; [intros [X|[X _]]; tauto | auto].
    - intros t. rewrite <- !dget_Some_key, S5, S7. destruct (in_dec eq_dec t doc); [split; eauto|].
      rewrite !dget_Some_key. apply E.
    - intros i. rewrite <- dget_Some_key, S4, nonempty_In. destruct (in_dec eq_dec i (map hh doc)) as [HI|NI].
      + split; [intros _ | eauto]. apply in_map_iff in HI. destruct HI as [t [Et HI]]. exists t. apply S6. auto.
      + rewrite dget_Some_key, F, nonempty_In. split; intros [t Ht]; exists t.
        * apply S6; auto.
        * apply S6 in Ht. destruct Ht as [|[HI <-]]; auto. exfalso; apply NI. apply in_map; auto.
  Qed.

  Lemma getitem_map : forall (f : pystr -> bool) (m : dict nat (list pystr)) i,
    dget_or (map (fun it => (fst it, filter f (snd it))) m) i [] = filter f (dget_or m i []).
  Proof.
    intros f m i. unfold dget_or. induction m as [|[k v] m IH]; [reflexivity|]. cbn [map dget fst snd].
    destruct (eq_dec k i); auto.
  Qed.

  Lemma dget_filter_fst : forall {K V} `{EqDec K} (f : K -> bool) (m : dict K V) k,
    dget (filter (fun it => f (fst it)) m) k = if f k then dget m k else None.
  Proof. intros. apply dget_filter_key. Qed.

  (** Exact effect of filter_extremes. *)
  Lemma h_filter_spec : forall h nb na kn, h_inv h ->
    let h' := h_filter_extremes h nb na kn in
    let hi := Z.quot (Qnum na * Z.of_nat (h_num_docs h)) (Zpos (Qden na)) in
    let freq t := dget_or (h_dfs_debug h) t 0 in
    let known x t := exists i, dget (h_token2id x) t = Some i in
    let cand t := known h t /\ (nb <= Z.of_nat (freq t) <= hi)%Z in
    h_inv h' /\
    (forall t, known h' t -> cand t) /\
    (kn = None -> forall t, cand t -> known h' t) /\
    (forall s c, known h' s -> cand c -> ~ known h' c ->
       freq c < freq s \/ freq c = freq s /\ precedes (dkeys (h_dfs_debug h)) s c) /\
    (forall t i, dget (h_token2id h') t = Some i -> dget (h_token2id h) t = Some i /\ dget (h_dfs_debug h') t = dget (h_dfs_debug h) t) /\
    (forall i t, In t (h_getitem h' i) <-> In t (h_getitem h i) /\ known h' t) /\
    (forall i, dget (h_dfs h') i = match h_getitem h' i with [] => None | _ => dget (h_dfs h) i end) /\
    h_num_docs h' = h_num_docs h /\ h_num_pos h' = h_num_pos h /\ h_num_nnz h' = h_num_nnz h.
  Proof.
    intros h nb na kn I. cbv zeta. destruct I as [A B C D E F].
    set (hi := Z.quot (Qnum na * Z.of_nat (h_num_docs h)) (Zpos (Qden na))).
    set (ok := filter (fun it : pystr * nat => (nb <=? Z.of_nat (snd it))%Z && (Z.of_nat (snd it) <=? hi)%Z) (h_dfs_debug h)).
    set (so := isort (fun a b : pystr * nat => snd b <=? snd a) ok).
    set (kept := match kn with Some k => py_prefix k so | None => so end).
    set (okw := map fst kept).
    set (dbg := filter (fun it : pystr * nat => memb (fst it) okw) (h_dfs_debug h)).
    set (h' := h_filter_extremes h nb na kn).
    assert (FN : exists n, kept = firstn n so).
    { unfold kept. destruct kn; [apply py_prefix_firstn | exists (length so); symmetry; apply firstn_all]. }
    destruct FN as [n FN].
    assert (Ht2i : h_token2id h' = filter (fun it => dmem dbg (fst it)) (h_token2id h)) by reflexivity.
    assert (Hdbg : h_dfs_debug h' = dbg) by reflexivity.
    assert (Gdbg : forall t, dget dbg t = if memb t okw then dget (h_dfs_debug h) t else None).
    { intros t. unfold dbg. apply (dget_filter_fst (fun t => memb t okw)). }
    assert (INok : forall t, memb t okw = true -> exists f, dget (h_dfs_debug h) t = Some f /\ In (t, f) kept).
    { intros t M. apply memb_true in M. unfold okw in M. apply in_map_iff in M. destruct M as [[t' f] [Et M]]. simpl in Et; subst t'.
      exists f. split; [|auto]. apply In_dget; auto. rewrite FN in M. apply In_firstn in M. apply In_isort in M.
      unfold ok in M. apply filter_In in M. tauto. }
    assert (Mdbg : forall t, dmem dbg t = memb t okw).
    { intros t. unfold dmem. rewrite Gdbg. destruct (memb t okw) eqn:M; auto. destruct (INok t M) as (f & -> & _); auto. }
    assert (Gt2i : forall t, dget (h_token2id h') t = if memb t okw then dget (h_token2id h) t else None).
    { intros t. rewrite Ht2i. rewrite (dget_filter_fst (fun t => dmem dbg t)), Mdbg. reflexivity. }
    assert (KN : forall t, (exists i, dget (h_token2id h') t = Some i) <-> memb t okw = true).
    { intros t. rewrite Gt2i. destruct (memb t okw) eqn:M.
      - split; auto. intros _. apply dget_Some_key. apply E. destruct (INok t M) as (f & Ef & _). apply dget_Some_key; eauto.
      - split; [intros [i X]; discriminate | discriminate]. }
    assert (Gi2t : forall i t, In t (h_getitem h' i) <-> In t (h_getitem h i) /\ memb t okw = true).
    { intros i t. unfold h_getitem at 1, h', h_filter_extremes. cbn [h_id2token].
      rewrite (getitem_map (fun t => dmem dbg t)). rewrite filter_In, Mdbg. reflexivity. }
    assert (Gdfs : forall i, dget (h_dfs h') i = match h_getitem h' i with [] => None | _ => dget (h_dfs h) i end).
    { intros i. unfold h', h_filter_extremes. cbn [h_dfs].
      rewrite (dget_filter_fst (fun i => match dget_or _ i [] with [] => false | _ => true end)).
      unfold h_getitem. cbn [h_id2token]. destruct (dget_or _ i []); reflexivity. }
    assert (CAND : forall t, (exists i, dget (h_token2id h) t = Some i) /\
                  (nb <= Z.of_nat (dget_or (h_dfs_debug h) t 0%nat) <= hi)%Z <-> exists f, dget (h_dfs_debug h) t = Some f /\ In (t, f) ok).
    { intros t. rewrite dget_Some_key, <- E, <- dget_Some_key. unfold dget_or. split.
      - intros [[f Ef] R]. rewrite Ef in R. exists f. split; auto. unfold ok. apply filter_In. split; [apply dget_In; auto|].
        cbn [snd]. rewrite andb_true_iff, !Z.leb_le. lia.
      - intros [f [Ef HI]]. unfold ok in HI. apply filter_In in HI. cbn [snd] in HI. rewrite andb_true_iff, !Z.leb_le in HI.
        rewrite Ef. split; [eauto | lia]. }
    split; [|split; [|split; [|split; [|split; [|split; [|split; [|auto]]]]]]].
    - constructor.
      + rewrite Ht2i. apply NoDup_dkeys_filter; auto.
      + rewrite Hdbg. apply NoDup_dkeys_filter; auto.
      + intros t i. rewrite Gt2i. destruct (memb t okw); [apply C | discriminate].
      + intros t i. rewrite Gi2t, Gt2i, D. destruct (memb t okw); [tauto | split; [intros [_ X]; discriminate | discriminate]].
      + intros t. rewrite <- !dget_Some_key, KN, Hdbg, Gdbg. destruct (memb t okw) eqn:M.
        * split; auto. intros _. destruct (INok t M) as (f & Ef & _); eauto.
        * split; [intros [i X]; discriminate | discriminate].
      + intros i. rewrite <- dget_Some_key, Gdfs. destruct (h_getitem h' i) as [|t l] eqn:EG.
        * split; [intros [v X]; discriminate | congruence].
        * split; [discriminate|]. intros _. apply dget_Some_key, F, nonempty_In. exists t. apply (Gi2t i t). rewrite EG; simpl; auto.
    - intros t K. apply KN in K. apply CAND. destruct (INok t K) as (f & Ef & HI). exists f. split; auto.
      rewrite FN in HI. apply In_firstn, In_isort in HI. exact HI.
    - intros -> t HC. apply KN, memb_true. apply CAND in HC. destruct HC as (f & Ef & HI).
      unfold okw, kept, so. apply in_map_iff. exists (t, f). split; auto. apply In_isort; auto.
    - intros s c Ks Cc Nc. apply KN in Ks. apply CAND in Cc. destruct Cc as (f & Ef & HI).
      destruct (INok s Ks) as (g & Eg & HS). rewrite FN in HS.
      assert (NI : ~ In (c, f) (firstn n so)).
      { intros X. apply Nc, KN, memb_true. unfold okw. apply in_map_iff. exists (c, f). rewrite FN; auto. }
      assert (SL : stable_lt (fun a b : pystr * nat => snd b <=? snd a) ok (s, g) (c, f)).
      { eapply firstn_isort_dominates; eauto.
        - intros x y. rewrite !Nat.leb_le. lia.
        - intros x y z. rewrite !Nat.leb_le. lia. }
      unfold dget_or. rewrite Ef, Eg. destruct SL as [L X]. cbn [snd] in L, X. apply Nat.leb_le in L.
      destruct X as [X|P]; [left; apply Nat.leb_gt in X; lia|].
      destruct (Nat.eq_dec f g) as [->|NE]; [right | left; lia]. split; auto.
      unfold ok in P. apply precedes_filter in P. destruct P as (l1 & l2 & l3 & EQ).
      unfold dkeys. rewrite EQ. rewrite !map_app. cbn [map fst]. rewrite map_app. cbn [map fst].
      exists (map fst l1), (map fst l2), (map fst l3). reflexivity.
    - intros t i. rewrite Gt2i, Hdbg, Gdbg. destruct (memb t okw); [auto | discriminate].
    - intros i t. rewrite Gi2t, KN. reflexivity.
    - exact Gdfs.
  Qed.

  Lemma h_filter_length : forall h nb na k, h_inv h -> (0 <= k)%Z ->
    let hi := Z.quot (Qnum na * Z.of_nat (h_num_docs h)) (Zpos (Qden na)) in
    length (h_token2id (h_filter_extremes h nb na (Some k))) =
    Nat.min (Z.to_nat k)
      (length (filter (fun t => (nb <=? Z.of_nat (dget_or (h_dfs_debug h) t 0%nat))%Z &&
                                (Z.of_nat (dget_or (h_dfs_debug h) t 0%nat) <=? hi)%Z) (dkeys (h_token2id h)))).
  Proof.
    intros h nb na k I Hk. cbv zeta. pose proof I as [A B C D E F].
    set (hi := Z.quot (Qnum na * Z.of_nat (h_num_docs h)) (Zpos (Qden na))).
    set (ok := filter (fun it : pystr * nat => (nb <=? Z.of_nat (snd it))%Z && (Z.of_nat (snd it) <=? hi)%Z) (h_dfs_debug h)).
    set (okw := map fst (py_prefix k (isort (fun a b : pystr * nat => snd b <=? snd a) ok))).
    set (P := fun t => (nb <=? Z.of_nat (dget_or (h_dfs_debug h) t 0%nat))%Z && (Z.of_nat (dget_or (h_dfs_debug h) t 0%nat) <=? hi)%Z).
    assert (NDok : NoDup (map fst ok)) by (apply NoDup_dkeys_filter; auto).
    assert (INok : incl okw (map fst ok)).
    { intros t HI. unfold okw in HI. apply in_map_iff in HI. destruct HI as (x & <- & HI). apply in_map.
      apply In_py_prefix in HI. apply In_isort in HI. exact HI. }
    assert (NDw : NoDup okw).
    { unfold okw. destruct (py_prefix_firstn k (isort (fun a b : pystr * nat => snd b <=? snd a) ok)) as [n ->].
      rewrite <- firstn_map. apply NoDup_firstn. eapply Permutation_NoDup; [|exact NDok].
      apply Permutation_map, Permutation_isort. }
    assert (IOK : forall t, In t (map fst ok) <-> In t (dkeys (h_token2id h)) /\ P t = true).
    { intros t. rewrite <- E, in_map_iff. unfold ok, P. split.
      - intros ([t' f] & <- & HI). apply filter_In in HI. cbn [fst snd] in *. destruct HI as [HI X].
        split; [apply (in_map fst) in HI; exact HI|]. unfold dget_or. rewrite (In_dget _ _ _ B HI). exact X.
      - intros [HI X]. apply dget_Some_key in HI. destruct HI as [f Ef]. exists (t, f). split; auto.
        apply filter_In. split; [apply dget_In; auto|]. unfold dget_or in X. rewrite Ef in X. exact X. }
    assert (L1 : length (h_token2id (h_filter_extremes h nb na (Some k))) = length okw).
    { rewrite <- length_dkeys. apply Permutation_length, NoDup_Permutation; auto.
      - unfold h_filter_extremes; cbn [h_token2id]. apply NoDup_dkeys_filter; auto.
      - intros t. unfold h_filter_extremes; cbn [h_token2id]. fold hi. fold ok. fold okw.
        rewrite (In_dkeys_filter_key (fun t => dmem _ t)).
        rewrite dmem_true, (In_dkeys_filter_key (fun t => memb t okw)), memb_true, E. split; [tauto|].
        intros HI. pose proof (INok _ HI) as X. apply IOK in X. tauto. }
    assert (L2 : length (map fst ok) = length (filter P (dkeys (h_token2id h)))).
    { apply Permutation_length, NoDup_Permutation; auto; [apply NoDup_filter; auto|].
      intros t. rewrite IOK, filter_In. reflexivity. }
    rewrite L1, <- L2. unfold okw, py_prefix. rewrite map_length, map_length.
    destruct (Z.ltb_spec k 0); [lia|]. rewrite firstn_length. f_equal. apply Permutation_length, Permutation_sym, Permutation_isort.
  Qed.

  Lemma h_step_inv : forall h o, h_inv h -> h_inv (h_step myhash id_range true h o).
  Proof.
    intros h [doc u|nb na kn] I; cbn [h_step]; [apply doc2bow_h_inv; auto|].
    pose proof (h_filter_spec h nb na kn I) as S. cbv zeta in S. tauto.
  Qed.

  Lemma h_run_inv : forall ops h, h_inv h -> h_inv (h_run myhash id_range true ops h).
  Proof. induction ops as [|o ops IH]; intros h I; [exact I|]. apply IH, h_step_inv; auto. Qed.

  Lemma h_run_num_docs : forall dbg ops h,
    h_num_docs (h_run myhash id_range dbg ops h) = h_num_docs h + length (h_docs ops) /\
    h_num_pos (h_run myhash id_range dbg ops h) = h_num_pos h + total_positions (h_docs ops).
  Proof.
    induction ops as [|o ops IH]; intros h; [simpl; lia|].
    change (h_run myhash id_range dbg (o :: ops) h) with (h_run myhash id_range dbg ops (h_step myhash id_range dbg h o)).
    destruct (IH (h_step myhash id_range dbg h o)) as [-> ->].
    destruct o as [doc u|nb na kn]; cbn [h_step].
    - pose proof (doc2bow_nums myhash id_range dbg Hrange h doc u) as S. cbv zeta in S. destruct S as (-> & -> & _).
      change (h_docs (HDoc2bow doc u :: ops)) with (doc :: h_docs ops). cbn [length]. 
      change (total_positions (doc :: h_docs ops)) with (length doc + total_positions (h_docs ops)). lia.
    - change (h_docs (HFilterExtremes nb na kn :: ops)) with (h_docs ops). split; reflexivity.
  Qed.
End Filter.
