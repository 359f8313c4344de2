(** Proofs about saving: the keys of a history and the order in which they are stored. *)

From Coq Require Import Permutation.
From Verif Require Import Base Str Matutils_Model Formats_Base LineCorpora_Proofs KeyedVectors_Model KeyedVectors_Spec KeyedVectors_Proofs
  W2vFormat_Model W2vFormat_Spec W2vFormat_Proofs.
From Coq Require Import ZifyBool ZifyNat ZifyN.
Local Open Scope nat_scope.

Definition is_str (k : key) : Prop := exists s, k = KStr s.
Record str_keys {V R} (m : kv V R) : Prop := {
  K_nodup : NoDup (dkeys (key_to_index m));
  K_dict : Forall is_str (dkeys (key_to_index m));
  K_rows : forall k, In (Some k) (index_to_key m) -> is_str k }.

Lemma str_keys_add : forall {V R} ks (m : kv V R), Forall is_str ks -> str_keys m -> str_keys (fold_left add_key ks m).
Proof.
  induction ks as [|k ks IH]; intros m F K; cbn [fold_left]; [exact K|]. inversion F; subst. apply IH; [assumption|].
  destruct K. constructor; cbn [add_key key_to_index index_to_key].
  - apply NoDup_dset. assumption.
  - rewrite Forall_forall in *. intros x Hx. apply In_dkeys_dset in Hx. destruct Hx as [<-|Hx]; auto.
  - intros x Hx. apply in_app_or in Hx. destruct Hx as [Hx|[Hx|[]]]; [auto|]. injection Hx as <-. assumption.
Qed.
Lemma str_keys_same : forall {V R} (m m' : kv V R), key_to_index m' = key_to_index m -> index_to_key m' = index_to_key m -> str_keys m -> str_keys m'.
Proof. intros V R m m' E1 E2 [K1 K2 K3]. constructor; rewrite ?E1, ?E2; assumption. Qed.

Lemma str_keys_batch : forall {V R} (m : kv V R) ks vs replace, str_keys m -> str_keys (snd (add_vectors m (map KStr ks) vs [] replace)).
Proof.
  intros V R m ks vs replace K.
  assert (K1 : str_keys (fold_left add_key (pick (map negb (map (has_index_for m) (map KStr ks))) (map KStr ks)) m)).
  { apply str_keys_add; [|exact K]. rewrite pick_map. apply Forall_forall. intros x Hx. apply in_map_iff in Hx. destruct Hx as (s & <- & _). exists s; reflexivity. }
  unfold add_vectors. destruct (negb _); [exact K1|]. destruct replace; [destruct (forallb _ _)|]; eapply str_keys_same; try exact K1; reflexivity.
Qed.

Lemma in_set_nth : forall {A} (l : list A) i x y, In y (set_nth l i x) -> y = x \/ In y l.
Proof.
  induction l as [|a l IH]; intros i x y; cbn; [tauto|]. destruct i; cbn; intros [<-|H]; auto. destruct (IH _ _ _ H); auto.
Qed.

Lemma str_keys_run : forall {V R} (zero : V) (norm : V -> R) divide count ops, str_keys (run zero norm divide count ops).
Proof.
  intros V R zero norm divide count ops. unfold run.
  assert (K0 : str_keys (kv_new zero count : kv V R)).
  { constructor; cbn; [constructor | constructor |]. intros k H. apply repeat_spec in H. discriminate. }
  revert K0. generalize (kv_new zero count : kv V R). induction ops as [|o ops IH]; intros m K; cbn [fold_left]; [exact K|]. apply IH.
  destruct o; cbn [run_op].
  - unfold add_vector. destruct (nth_error (index_to_key m) (next_index m)) as [[k0|]|].
    1,3: pose proof (str_keys_batch m [k] [v] false K) as K1; cbn [map] in K1; destruct (add_vectors m [KStr k] [v] [] false) as [[u|e] m1]; cbn [snd] in *; [|exact K1];
      eapply str_keys_same; try exact K1; reflexivity.
    destruct K. destruct (next_index m <? length (vectors m)); cbn [snd]; constructor; cbn [key_to_index index_to_key set_next set_vectors];
      try (apply NoDup_dset; assumption);
      try (rewrite Forall_forall in *; intros x Hx; apply In_dkeys_dset in Hx; destruct Hx as [<-|Hx]; [exists k; reflexivity | auto]);
      intros x Hx; apply in_set_nth in Hx; destruct Hx as [Hx|Hx]; try (injection Hx as ->; exists k; reflexivity); auto.
  - apply str_keys_batch. exact K.
  - apply str_keys_batch. exact K.
  - destruct (normed_same norm divide m (KStr k)) as (E1 & _ & E3 & _). eapply str_keys_same; eauto.
  - destruct (fill_norms_same norm m force) as (E1 & _ & E3 & _). eapply str_keys_same; eauto.
Qed.

Lemma all_str : forall ks, Forall is_str ks -> exists ss, ks = map KStr ss.
Proof. intros ks F. induction F as [|k ks [s ->] F (ss & ->)]; [exists []; reflexivity | exists (s :: ss); reflexivity]. Qed.

Section Save.
Context {A R : Type}.
Variable F : sfmt A.
Notation vec := (list A).
Notation kvs := (kv (list A) R).

Lemma keys_ok : forall (m : kvs) f, Inv m 0 f -> Aligned m -> str_keys m ->
  match counts m with None => True | Some c => length c = kv_len m end ->
  exists order, keys_to_write m = Ok (map (fun s => Some (KStr s)) order) /\ store_order m = Ok (map (fun s => Some (KStr s)) order) /\
    stored_order m order /\ NoDup order /\
    length order = length (index_to_key m) /\ forall s, In s order <-> f s <> None.
Proof.
  intros m f I Al K C.
  assert (LI : leading_ints 0 (index_to_key m) = 0).
  { destruct (index_to_key m) as [|[k|] l] eqn:E; try reflexivity. destruct (K_rows _ K k) as [s ->]; [rewrite E; left; reflexivity | reflexivity]. }
  assert (Full : forall o, In o (index_to_key m) -> exists s, o = Some (KStr s)).
  { intros [k|] H; [destruct (K_rows _ K k H) as [s ->]; eauto|]. apply In_nth_error in H. destruct H as [i H].
    apply (proj1 (I_free _ _ _ I i)) in H. lia. }
  assert (Has : forall s, f s <> None <-> In (KStr s) (dkeys (key_to_index m))).
  { intros s. rewrite (I_f _ _ _ I s). destruct (dget (key_to_index m) (KStr s)) as [i|] eqn:E.
    - assert (X : In (KStr s) (dkeys (key_to_index m))) by (apply dget_Some_key; eauto).
      pose proof (Inv_range _ _ _ _ _ I E) as L. apply nth_error_Some in L. tauto.
    - apply dget_None in E. tauto. }
  assert (Rows : forall k, In (Some k) (index_to_key m) <-> In k (dkeys (key_to_index m))).
  { intros k. rewrite <- dget_Some_key. split.
    - intros H. apply In_nth_error in H. destruct H as [i H]. exists i. apply Al. exact H.
    - intros [i H]. apply (I_ix _ _ _ I), nth_error_In in H. exact H. }
  assert (Nr : NoDup (index_to_key m)).
  { apply NoDup_nth_error. intros i j Hi E. destruct (nth_error (index_to_key m) i) as [o|] eqn:Ei; [|apply nth_error_None in Ei; lia].
    destruct (Full o (nth_error_In _ _ Ei)) as [s ->]. apply Al in Ei. symmetry in E. apply Al in E. congruence. }
  unfold keys_to_write. rewrite LI. rewrite (I_len _ _ _ I), Nat.eqb_refl. cbn [negb seq map app].
  unfold stored_order, store_order. destruct (counts m) as [c|] eqn:Ec.
  - assert (Gc : forall k, In k (dkeys (key_to_index m)) -> exists z, get_count m k = Ok z).
    { intros k H. apply dget_Some_key in H. destruct H as [i H]. unfold get_count, get_index. rewrite H, Ec.
      assert (X : i < length c) by (rewrite C; unfold kv_len; rewrite <- (I_len _ _ _ I); apply (Inv_range _ _ _ _ _ I H)).
      rewrite (nth_error_nth' c 0%Z X). cbn. eauto. }
    assert (Ekc : exists kc, rmapM (fun k => let* c := get_count m k in Ok (k, c)) (dkeys (key_to_index m)) = Ok kc /\
              map fst kc = dkeys (key_to_index m) /\ forall p, In p kc -> get_count m (fst p) = Ok (snd p)).
    { revert Gc. clear. induction (dkeys (key_to_index m)) as [|k ks IH]; intros Gc.
      - exists []. repeat split. intros p [].
      - destruct IH as (kc & E & E1 & E2); [intros; apply Gc; right; assumption|]. destruct (Gc k (or_introl eq_refl)) as [z Ez].
        exists ((k, z) :: kc). cbn [rmapM]. rewrite Ez. cbn [rbind]. rewrite E. cbn [rbind map fst]. rewrite E1. repeat split.
        intros p [<-|H]; [exact Ez | auto]. }
    destruct Ekc as (kc & -> & E1 & E2). cbn [rbind].
    set (sorted := isort (fun p q => (snd q <=? snd p)%Z) kc).
    assert (P : Permutation sorted kc) by (symmetry; apply Permutation_isort).
    assert (So : StronglySorted (fun p q => (snd q <=? snd p)%Z = true) sorted) by (apply isort_StronglySorted; intros; lia).
    assert (Pk : Permutation (map fst sorted) (dkeys (key_to_index m))) by (rewrite <- E1; apply Permutation_map; exact P).
    destruct (all_str (map fst sorted)) as (order & Eo).
    { eapply Permutation_Forall; [symmetry; exact Pk | apply (K_dict _ K)]. }
    exists order.
    assert (Em : map (fun p => Some (fst p)) sorted = map (fun s => Some (KStr s)) order).
    { rewrite <- (map_map fst Some), Eo, map_map. reflexivity. }
    rewrite Em. split; [reflexivity|]. split; [reflexivity|].
    assert (No : NoDup order).
    { apply (NoDup_map_inv KStr). rewrite <- Eo. apply (Permutation_NoDup (Permutation_sym Pk)), (K_nodup _ K). }
    assert (Io : forall s, In s order <-> In (KStr s) (dkeys (key_to_index m))).
    { intros s. split.
      - intros H. apply (Permutation_in _ Pk). rewrite Eo. apply in_map. exact H.
      - intros H. apply (Permutation_in _ (Permutation_sym Pk)) in H. rewrite Eo in H. apply in_map_iff in H. destruct H as (s' & E & H). injection E as ->. exact H. }
    assert (Pr : Permutation (map (fun s => Some (KStr s)) order) (index_to_key m)).
    { apply NoDup_Permutation; [|exact Nr|].
      - apply FinFun.Injective_map_NoDup; [intros a b E; congruence | exact No].
      - intros o. split.
        + intros H. apply in_map_iff in H. destruct H as (s & <- & H). apply Rows, Io, H.
        + intros H. destruct (Full o H) as [s ->]. apply in_map_iff. exists s. split; [reflexivity|]. apply Io, Rows, H. }
    split; [split; [exact Pr|]|].
    + assert (E2' : forall p, In p sorted -> get_count m (fst p) = Ok (snd p)) by (intros p Hp; apply E2, (Permutation_in _ P), Hp).
      clear - So Eo E2'. revert order Eo. induction So as [|p l So IH Fa]; intros [|s order] Eo; try discriminate; [constructor|].
      cbn [map] in Eo. injection Eo as Es Eo. constructor; [apply IH; [intros; apply E2'; right; assumption | exact Eo]|].
      apply Forall_forall. intros t Ht. assert (Hin : In (KStr t) (map fst l)) by (rewrite Eo; apply in_map; exact Ht).
      apply in_map_iff in Hin. destruct Hin as (q & Eq & Hq). exists (snd p), (snd q). rewrite <- Es, <- Eq.
      split; [apply E2'; left; reflexivity|]. split; [apply E2'; right; exact Hq|]. rewrite Forall_forall in Fa. specialize (Fa q Hq). lia.
    + split; [exact No|]. split; [rewrite <- (Permutation_length Pr), map_length; reflexivity|]. intros s. rewrite Has. apply Io.
  - assert (X : exists order, index_to_key m = map (fun s => Some (KStr s)) order).
    { clear - Full. induction (index_to_key m) as [|o l IH]; [exists []; reflexivity|].
      destruct (Full o (or_introl eq_refl)) as [s ->]. destruct IH as [l' ->]; [intros; apply Full; right; assumption|]. exists (s :: l'). reflexivity. }
    destruct X as [order Eo]. exists order. cbn [rbind]. rewrite Eo in *.
    split; [reflexivity|]. split; [reflexivity|]. split; [reflexivity|].
    split. { apply (NoDup_map_inv (fun s => Some (KStr s))). exact Nr. }
    split; [rewrite map_length; reflexivity|]. intros s. rewrite Has. rewrite <- Rows. split.
    + intros H. apply in_map_iff. eauto.
    + intros H. apply in_map_iff in H. destruct H as (s' & E & H). injection E as ->. exact H.
Qed.

Lemma getitem_ok : forall (m : kvs) free f s v, Inv m free f -> f s = Some v -> getitem m (Some (KStr s)) = Ok v.
Proof.
  intros m free f s v I E. unfold getitem. rewrite get_index_str. rewrite (I_f _ _ _ I s) in E.
  destruct (dget (key_to_index m) (KStr s)) as [i|]; [|discriminate]. rewrite E. reflexivity.
Qed.

(** ** Headers *)

Lemma readline_app : forall l r, ~ In chr_nl l -> readline (l ++ chr_nl :: r) = (l ++ [chr_nl], r).
Proof.
  induction l as [|c l IH]; intros r N; cbn [app readline]; [reflexivity|].
  replace (c =? chr_nl)%N with false by (symmetry; apply N.eqb_neq; intros ->; apply N; left; reflexivity).
  rewrite IH by (intros X; apply N; right; exact X). reflexivity.
Qed.

Lemma parse_show_nat_Z : forall n, parse_Z (show_nat n) = Some (Z.of_nat n).
Proof.
  intros n. pose proof (parse_show_Z (Z.of_nat n)) as X. rewrite show_Z_nonneg in X by lia. unfold show_nat.
  replace (Z.to_N (Z.of_nat n)) with (N.of_nat n) in X by lia. exact X.
Qed.

Lemma show_nat_token : forall n, token (show_nat n).
Proof.
  intros n. split; [apply show_nat_nonempty|]. eapply Forall_impl; [|apply show_nat_digits]. intros c. apply digit_not_space.
Qed.

Lemma header_ok : forall n d body,
  readline (file_header n d ++ body) = (file_header n d, body) /\ parse_header (file_header n d) = Ok (n, d) /\
  utf8_decode (file_header n d) = Some (file_header n d).
Proof.
  intros n d body. split; [|split].
  - unfold file_header. rewrite !app_assoc. rewrite <- (app_assoc _ [chr_nl] body). cbn [app]. rewrite readline_app; [rewrite <- !app_assoc; reflexivity|].
    rewrite <- app_assoc. intros H. apply in_app_or in H. destruct H as [H|H]; [revert H; apply show_nat_notin; reflexivity|].
    apply in_app_or in H. destruct H as [[H|[]]|H]; [discriminate | revert H; apply show_nat_notin; reflexivity].
  - unfold parse_header, file_header.
    pose proof (words_cons_tokens (show_nat n) [show_nat d] [chr_nl]) as X. cbn [join] in X. cbn [app]. cbn [app] in X. rewrite X.
    + cbn [rmapM]. rewrite !parse_show_nat_Z. cbn [of_option rbind].
      replace ((Z.of_nat n <? 0) || (Z.of_nat d <? 0))%Z with false by lia. rewrite !Nat2Z.id. reflexivity.
    + apply show_nat_token.
    + repeat constructor; apply show_nat_token.
    + repeat constructor.
  - assert (L : Forall (fun c => c < 128)%N (file_header n d)).
    { unfold file_header. apply Forall_app. split; [|apply Forall_app; split; [repeat constructor|apply Forall_app; split; [|repeat constructor]]];
        (eapply Forall_impl; [|apply show_nat_digits]); intros c; unfold is_digit; lia. }
    rewrite <- (utf8_ascii _ L) at 1. apply utf8_decode_ok. eapply Forall_impl; [|exact L]. intros c Hc. cbv beta in Hc. unfold valid_char. lia.
Qed.
End Save.
