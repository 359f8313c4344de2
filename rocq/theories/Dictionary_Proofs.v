(** Proofs about the Dictionary model. *)

From Verif Require Import Base Str Dictionary_Model Dictionary_Spec.
From Coq Require Import QArith ZifyBool ZifyNat ZifyN.
Local Open Scope nat_scope.

(** ** Generic folds over dicts *)

Lemma dget_fold_update : forall {K V A} `{EqDec K} (g : option V -> A -> V) (res : list (K * A)) (m : dict K V) k,
  NoDup (map fst res) ->
  dget (fold_left (fun m kf => dset m (fst kf) (g (dget m (fst kf)) (snd kf))) res m) k =
  match dget res k with Some f => Some (g (dget m k) f) | None => dget m k end.
Proof.
  induction res as [|[k0 f0] res IH]; simpl; intros m k ND; [reflexivity|].
  inversion ND; subst. rewrite IH by auto.
  destruct (eq_dec k0 k) as [->|NE].
  - assert (E : dget res k = None) by (apply dget_None; auto).
    rewrite E, dget_dset_same. reflexivity.
  - rewrite dget_dset_other by auto. reflexivity.
Qed.

Lemma NoDup_fold_update : forall {K V A} `{EqDec K} (g : option V -> A -> V) (res : list (K * A)) (m : dict K V),
  NoDup (dkeys m) ->
  NoDup (dkeys (fold_left (fun m kf => dset m (fst kf) (g (dget m (fst kf)) (snd kf))) res m)).
Proof. induction res; simpl; intros; auto. apply IHres, NoDup_dset; auto. Qed.

Lemma In_dkeys_fold_update : forall {K V A} `{EqDec K} (g : option V -> A -> V) (res : list (K * A)) (m : dict K V) k,
  In k (dkeys (fold_left (fun m kf => dset m (fst kf) (g (dget m (fst kf)) (snd kf))) res m)) <->
  In k (dkeys m) \/ In k (map fst res).
Proof.
  induction res as [|[k0 f0] res IH]; simpl; intros; [tauto|].
  rewrite IH, In_dkeys_dset. tauto.
Qed.

Lemma dget_In_vals : forall {K V} `{EqDec K} (m : dict K V) k v, dget m k = Some v -> In v (dvals m).
Proof. intros. apply dget_In in H0. unfold dvals. apply in_map_iff. exists (k, v); auto. Qed.

Lemma dget_filter_val : forall {K V} `{EqDec K} (f : V -> bool) (m : dict K V) k, NoDup (dkeys m) ->
  dget (filter (fun kv => f (snd kv)) m) k =
  match dget m k with Some v => if f v then Some v else None | None => None end.
Proof.
  induction m as [|[k0 v0] m IH]; simpl; intros k ND; [reflexivity|]. inversion ND; subst.
  destruct (f v0) eqn:F; simpl.
  - destruct (eq_dec k0 k); simpl; [rewrite F; reflexivity | auto].
  - destruct (eq_dec k0 k); [subst; rewrite F | auto].
    apply dget_None. intros HI. apply H2. apply in_map_iff in HI. destruct HI as [[a b] [Ea HI]].
    simpl in Ea; subst. apply filter_In in HI. apply in_map_iff; exists (k, b); tauto.
Qed.

(** ** The word counter *)

Lemma count_words_gen : forall (doc : list pystr) (c : dict pystr nat) w,
  dget (fold_left (fun c w => dset c w (dget_or c w 0 + 1)) doc c) w =
  match count_occ eq_dec doc w with
  | 0 => dget c w
  | n => Some (dget_or c w 0 + n)
  end.
Proof.
  induction doc as [|x doc IH]; intros c w; [reflexivity|].
  cbn [fold_left count_occ]. rewrite IH. unfold dget_or.
  destruct (eq_dec x w) as [->|NE].
  - rewrite dget_dset_same. destruct (count_occ eq_dec doc w); destruct (dget c w); f_equal; lia.
  - rewrite dget_dset_other by auto. reflexivity.
Qed.

Lemma dget_count_words : forall doc w,
  dget (count_words doc) w =
  match count_occ eq_dec doc w with 0 => None | n => Some n end.
Proof. intros. unfold count_words. rewrite count_words_gen. destruct (count_occ eq_dec doc w); reflexivity. Qed.

Lemma NoDup_count_words : forall doc, NoDup (dkeys (count_words doc)).
Proof.
  intros doc. unfold count_words.
  assert (G : forall doc c, NoDup (dkeys c) ->
    NoDup (dkeys (fold_left (fun (c : dict pystr nat) w => dset c w (dget_or c w 0 + 1)) doc c))).
  { induction doc0; simpl; intros; auto. apply IHdoc0, NoDup_dset; auto. }
  apply G; constructor.
Qed.

Lemma In_count_words : forall doc w, In w (dkeys (count_words doc)) <-> In w doc.
Proof.
  intros. rewrite <- dget_Some_key. rewrite dget_count_words. rewrite (count_occ_In eq_dec).
  destruct (count_occ eq_dec doc w); split; intros; try lia; eauto.
  destruct H; discriminate.
Qed.

Lemma sum_dset : forall (c : dict pystr nat) w,
  list_sum_nat (dvals (dset c w (dget_or c w 0 + 1))) = S (list_sum_nat (dvals c)).
Proof.
  induction c as [|[k v] c IH]; intros w; [reflexivity|].
  specialize (IH w). unfold dget_or, list_sum_nat, dvals in *. simpl.
  destruct (eq_dec k w); simpl; lia.
Qed.

Lemma sum_count_words : forall doc, list_sum_nat (dvals (count_words doc)) = length doc.
Proof.
  intros doc. unfold count_words.
  assert (G : forall doc c,
    list_sum_nat (dvals (fold_left (fun (c : dict pystr nat) w => dset c w (dget_or c w 0 + 1)) doc c)) =
    list_sum_nat (dvals c) + length doc).
  { induction doc0; simpl; intros; [lia|]. rewrite IHdoc0, sum_dset. lia. }
  rewrite G. reflexivity.
Qed.

Lemma length_count_words : forall doc, length (count_words doc) = length (nodup eq_dec doc).
Proof.
  intros. rewrite <- length_dkeys. apply Permutation_length, NoDup_Permutation.
  - apply NoDup_count_words.
  - apply NoDup_nodup.
  - intros. rewrite In_count_words, nodup_In. tauto.
Qed.

(** ** Assigning ids to new words *)

Lemma d_assign_eq : forall miss t2i,
  NoDup (map fst miss) -> (forall w, In w (map fst miss) -> ~ In w (dkeys t2i)) ->
  d_assign t2i miss = t2i ++ combine (map fst miss) (seq (length t2i) (length miss)).
Proof.
  unfold d_assign. induction miss as [|[w f] miss IH]; simpl; intros t2i ND DJ; [rewrite app_nil_r; reflexivity|].
  inversion ND; subst. rewrite dset_notin by (apply DJ; auto).
  rewrite IH; auto.
  - rewrite app_length. simpl. rewrite <- app_assoc. simpl.
    replace (length t2i + 1) with (S (length t2i)) by lia. reflexivity.
  - intros w' HI. unfold dkeys. rewrite map_app, in_app_iff. simpl.
    intros [HI'|[->|[]]]; [eapply DJ; [right; exact HI | exact HI'] | auto].
Qed.

Lemma map_fst_combine : forall {A B} (l : list A) (l' : list B), length l = length l' -> map fst (combine l l') = l.
Proof. induction l; destruct l'; simpl; intros; try discriminate; auto. f_equal; auto. Qed.
Lemma map_snd_combine : forall {A B} (l : list A) (l' : list B), length l = length l' -> map snd (combine l l') = l'.
Proof. induction l; destruct l'; simpl; intros; try discriminate; auto. f_equal; auto. Qed.

Lemma d_missing_perm : forall t2i c,
  Permutation (filter (fun x : pystr * nat => negb (dmem t2i (fst x))) c) (d_missing t2i c).
Proof. intros; apply Permutation_isort. Qed.

Lemma In_d_missing : forall t2i c x, In x (d_missing t2i c) <-> In x c /\ ~ In (fst x) (dkeys t2i).
Proof.
  intros. unfold d_missing. rewrite In_isort, filter_In, negb_true_iff, dmem_false. tauto.
Qed.

Lemma NoDup_d_missing : forall t2i c, NoDup (dkeys c) -> NoDup (map fst (d_missing t2i c)).
Proof.
  intros. eapply Permutation_NoDup; [apply Permutation_map, d_missing_perm|].
  apply NoDup_dkeys_filter; auto.
Qed.

Lemma d_assign_missing_eq : forall t2i c, NoDup (dkeys c) ->
  d_assign t2i (d_missing t2i c) =
  t2i ++ combine (map fst (d_missing t2i c)) (seq (length t2i) (length (d_missing t2i c))).
Proof.
  intros. apply d_assign_eq; [apply NoDup_d_missing; auto|].
  intros w HI. apply in_map_iff in HI. destruct HI as [x [<- HI]]. apply In_d_missing in HI; tauto.
Qed.

(** ** The bag of words *)

Definition bow_list (t2i : dict pystr nat) (c : dict pystr nat) : list (nat * nat) :=
  flat_map (fun wf => match dget t2i (fst wf) with Some i => [(i, snd wf)] | None => [] end) c.

Definition inj_ids (t2i : dict pystr nat) : Prop :=
  forall w w' i, dget t2i w = Some i -> dget t2i w' = Some i -> w = w'.

Lemma In_bow_list : forall t2i c i f, In (i, f) (bow_list t2i c) <-> exists w, dget t2i w = Some i /\ In (w, f) c.
Proof.
  intros. unfold bow_list. rewrite in_flat_map. split.
  - intros [[w f'] [HI HI']]. simpl in HI'. destruct (dget t2i w) eqn:E; simpl in HI'; [|tauto].
    destruct HI' as [E'|[]]. inversion E'; subst. eauto.
  - intros [w [E HI]]. exists (w, f). simpl. rewrite E. simpl; auto.
Qed.

Lemma NoDup_bow_list : forall t2i c, inj_ids t2i -> NoDup (dkeys c) -> NoDup (map fst (bow_list t2i c)).
Proof.
  intros t2i c INJ. induction c as [|[w f] c IH]; simpl; intros ND; [constructor|].
  inversion ND; subst. destruct (dget t2i w) eqn:E; simpl; [|auto].
  constructor; [|auto]. intros HI. apply in_map_iff in HI. destruct HI as [[i f'] [E' HI]].
  simpl in E'; subst i. apply (In_bow_list t2i c) in HI. destruct HI as [w' [E' HI]].
  assert (w = w') by (eapply INJ; eauto). subst w'. apply H1. apply in_map_iff. exists (w, f'); auto.
Qed.

Lemma d_bow_eq : forall t2i c, inj_ids t2i -> NoDup (dkeys c) -> d_bow t2i c = bow_list t2i c.
Proof. intros. unfold d_bow. apply dict_of_NoDup. apply NoDup_bow_list; auto. Qed.

Lemma dget_d_bow : forall t2i c i f, inj_ids t2i -> NoDup (dkeys c) ->
  (dget (d_bow t2i c) i = Some f <-> exists w, dget t2i w = Some i /\ dget c w = Some f).
Proof.
  intros. rewrite d_bow_eq by auto. rewrite dget_iff by (apply NoDup_bow_list; auto).
  rewrite In_bow_list. split; intros [w [E1 E2]]; exists w; split; auto.
  - apply In_dget; auto.
  - apply dget_In; auto.
Qed.

Lemma length_bow_list_all : forall t2i c, (forall w, In w (dkeys c) -> In w (dkeys t2i)) ->
  length (bow_list t2i c) = length c.
Proof.
  induction c as [|[w f] c IH]; simpl; intros A; [reflexivity|].
  destruct (dget t2i w) eqn:E; simpl.
  - f_equal. apply IH. intros; apply A; auto.
  - apply dget_None in E. exfalso; apply E, A; auto.
Qed.

Lemma inj_ids_NoDup : forall t2i, NoDup (dvals t2i) -> inj_ids t2i.
Proof.
  induction t2i as [|[w i] t IH]; intros ND w1 w2 j; simpl; [discriminate|].
  inversion ND; subst.
  assert (V : forall w, dget t w = Some i -> False).
  { intros w' E. apply dget_In in E. apply H1. apply in_map_iff; exists (w', i); auto. }
  destruct (eq_dec w w1), (eq_dec w w2); intros E1 E2; subst; auto.
  - inversion E1; subst. exfalso; eauto.
  - inversion E2; subst. exfalso; eauto.
  - eapply IH; eauto.
Qed.

(** ** Sorting by id *)

Lemma pair_leb_total : forall a b, pair_leb a b = true \/ pair_leb b a = true.
Proof. intros [a b] [c d]; unfold pair_leb; simpl. destruct (a <? c) eqn:E1, (c <? a) eqn:E2; auto. lia. Qed.
Lemma pair_leb_trans : forall a b c, pair_leb a b = true -> pair_leb b c = true -> pair_leb a c = true.
Proof.
  intros [a b] [c d] [e f]; unfold pair_leb; simpl.
  destruct (a <? c) eqn:E1, (c <? a) eqn:E2, (c <? e) eqn:E3, (e <? c) eqn:E4, (a <? e) eqn:E5, (e <? a) eqn:E6; auto; try lia.
Qed.
Lemma pair_leb_antisym : forall a b, pair_leb a b = true -> pair_leb b a = true -> a = b.
Proof.
  intros [a b] [c d]; unfold pair_leb; simpl.
  destruct (a <? c) eqn:E1, (c <? a) eqn:E2; intros; try discriminate; try lia. f_equal; lia.
Qed.

Lemma isort_pair_strict : forall l, NoDup (map fst l) ->
  StronglySorted (fun a b : nat * nat => fst a < fst b) (isort pair_leb l).
Proof.
  intros l ND.
  assert (S : StronglySorted (fun a b => pair_leb a b = true) (isort pair_leb l))
    by (apply isort_StronglySorted; [apply pair_leb_total | apply pair_leb_trans]).
  assert (ND' : NoDup (map fst (isort pair_leb l)))
    by (eapply Permutation_NoDup; [apply Permutation_map, Permutation_isort | exact ND]).
  clear ND. induction S; [constructor|]. simpl in ND'. inversion ND'; subst. constructor; [auto|].
  rewrite Forall_forall in *. intros x HI. specialize (H x HI).
  assert (fst a <> fst x) by (intros E; apply H2; rewrite E; apply in_map; auto).
  unfold pair_leb in H. destruct (fst a <? fst x) eqn:E1, (fst x <? fst a) eqn:E2; try discriminate; lia.
Qed.

(** ** The consistency invariant *)

Record d_inv (d : dictionary) : Prop := {
  i_keys : NoDup (dkeys (d_token2id d));
  i_perm : Permutation (dvals (d_token2id d)) (seq 0 (length (d_token2id d)));
  i_dfs_nd : NoDup (dkeys (d_dfs d));
  i_dfs : forall i, In i (dkeys (d_dfs d)) <-> i < length (d_token2id d);
  i_cfs_nd : NoDup (dkeys (d_cfs d));
  i_cfs : forall i, In i (dkeys (d_cfs d)) -> i < length (d_token2id d);
  i_cache_nd : NoDup (dkeys (d_id2token d));
  i_cache : forall i t, dget (d_id2token d) i = Some t -> dget (d_token2id d) t = Some i
}.

Lemma d_inv_empty : d_inv d_empty.
Proof. constructor; simpl; try constructor; try tauto; try discriminate; lia. Qed.

Lemma inv_vals_nd : forall d, d_inv d -> NoDup (dvals (d_token2id d)).
Proof. intros d I. eapply Permutation_NoDup; [apply Permutation_sym, i_perm; auto | apply seq_NoDup]. Qed.

Lemma inv_inj : forall d, d_inv d -> inj_ids (d_token2id d).
Proof. intros; apply inj_ids_NoDup, inv_vals_nd; auto. Qed.

Lemma inv_In_vals : forall d i, d_inv d -> (In i (dvals (d_token2id d)) <-> i < length (d_token2id d)).
Proof.
  intros d i I. split; intros HI.
  - eapply Permutation_in in HI; [|apply i_perm; auto]. apply in_seq in HI; lia.
  - eapply Permutation_in; [apply Permutation_sym, i_perm; auto|]. apply in_seq; lia.
Qed.

Lemma In_vals_dget : forall {K V} `{EqDec K} (m : dict K V) v, NoDup (dkeys m) ->
  (In v (dvals m) <-> exists k, dget m k = Some v).
Proof.
  intros. unfold dvals. rewrite in_map_iff. split.
  - intros [[k v'] [E HI]]. simpl in E; subst. exists k. apply In_dget; auto.
  - intros [k E]. exists (k, v); split; [reflexivity | apply dget_In; auto].
Qed.

Lemma inv_id_lt : forall d t i, d_inv d -> dget (d_token2id d) t = Some i -> i < length (d_token2id d).
Proof. intros d t i I E. apply inv_In_vals; auto. apply In_vals_dget; [apply i_keys; auto | eauto]. Qed.

Lemma inv_id_ex : forall d i, d_inv d -> i < length (d_token2id d) -> exists t, dget (d_token2id d) t = Some i.
Proof. intros d i I L. apply inv_In_vals in L; auto. apply In_vals_dget in L; [auto | apply i_keys; auto]. Qed.

Lemma inv_dense : forall d, d_inv d -> dense_ids (dget (d_token2id d)) (d_len d).
Proof.
  intros d I. split; [|split].
  - intros; eapply inv_id_lt; eauto.
  - intros; eapply inv_id_ex; eauto.
  - intros t t' i; apply inv_inj; auto.
Qed.

(** ** doc2bow keeps the invariant *)

Section Assign.
  Variables (t2i : dict pystr nat) (doc : list pystr).
  Let c := count_words doc.
  Let t' := d_assign t2i (d_missing t2i c).

  Lemma assign_len : length t' = length t2i + length (d_missing t2i c).
  Proof.
    unfold t'. rewrite d_assign_missing_eq by apply NoDup_count_words.
    rewrite app_length, combine_length, map_length, seq_length. lia.
  Qed.

  Lemma assign_keys : dkeys t' = dkeys t2i ++ map fst (d_missing t2i c).
  Proof.
    unfold t'. rewrite d_assign_missing_eq by apply NoDup_count_words.
    unfold dkeys. rewrite map_app, map_fst_combine; [reflexivity|].
    rewrite map_length, seq_length; reflexivity.
  Qed.

  Lemma assign_vals : dvals t' = dvals t2i ++ seq (length t2i) (length (d_missing t2i c)).
  Proof.
    unfold t'. rewrite d_assign_missing_eq by apply NoDup_count_words.
    unfold dvals. rewrite map_app, map_snd_combine; [reflexivity|].
    rewrite map_length, seq_length; reflexivity.
  Qed.

  Lemma assign_old : forall w i, dget t2i w = Some i -> dget t' w = Some i.
  Proof.
    intros w i E. unfold t'. rewrite d_assign_missing_eq by apply NoDup_count_words.
    rewrite dget_app, E. reflexivity.
  Qed.

  Lemma In_missing_words : forall w, In w (map fst (d_missing t2i c)) <-> In w doc /\ ~ In w (dkeys t2i).
  Proof.
    intros w. rewrite <- (In_count_words doc w). fold c. rewrite in_map_iff. split.
    - intros [[w' f] [<- HI]]. apply In_d_missing in HI. destruct HI as [HI NI]. split; auto.
      apply in_map with (f := fst) in HI; auto.
    - intros [HI NI]. apply in_map_iff in HI. destruct HI as [[w' f] [<- HI]].
      exists (w', f); split; auto. apply In_d_missing; auto.
  Qed.

  Lemma assign_In : forall w, In w (dkeys t') <-> In w (dkeys t2i) \/ In w doc.
  Proof.
    intros w. rewrite assign_keys, in_app_iff, In_missing_words.
    destruct (in_dec eq_dec w (dkeys t2i)); tauto.
  Qed.

  Lemma assign_keys_nd : NoDup (dkeys t2i) -> NoDup (dkeys t').
  Proof.
    intros ND. rewrite assign_keys.
    assert (ND2 : NoDup (map fst (d_missing t2i c))) by (apply NoDup_d_missing, NoDup_count_words).
    assert (DJ : forall w, In w (map fst (d_missing t2i c)) -> ~ In w (dkeys t2i)) by (intros w HI; apply In_missing_words in HI; tauto).
    clear - ND ND2 DJ. induction (dkeys t2i) as [|k l IH]; simpl; auto.
    inversion ND; subst. constructor.
    - rewrite in_app_iff. intros [|HI]; [auto | apply (DJ _ HI); simpl; auto].
    - apply IH; auto. intros w HI HI2; apply (DJ _ HI); simpl; auto.
  Qed.

  Lemma assign_perm : Permutation (dvals t2i) (seq 0 (length t2i)) -> Permutation (dvals t') (seq 0 (length t')).
  Proof.
    intros P. rewrite assign_vals, assign_len, seq_app. apply Permutation_app; auto.
  Qed.
End Assign.

Definition upd (d : dictionary) (doc : list pystr) : dictionary := fst (d_doc2bow d doc true false).

Lemma doc2bow_fst : forall d doc u m, fst (d_doc2bow d doc u m) = if u then upd d doc else d.
Proof. intros. unfold upd, d_doc2bow. destruct u, m; reflexivity. Qed.

Lemma upd_t2i : forall d doc, d_token2id (upd d doc) = d_assign (d_token2id d) (d_missing (d_token2id d) (count_words doc)).
Proof. reflexivity. Qed.

Lemma assign_inj : forall d doc, d_inv d -> inj_ids (d_token2id (upd d doc)).
Proof.
  intros d doc I. apply inj_ids_NoDup. rewrite upd_t2i.
  eapply Permutation_NoDup; [apply Permutation_sym, assign_perm, i_perm; auto | apply seq_NoDup].
Qed.

Lemma dget_upd_dfs : forall d doc i, d_inv d ->
  dget (d_dfs (upd d doc)) i =
  match dget (d_bow (d_token2id (upd d doc)) (count_words doc)) i with
  | Some _ => Some (dget_or (d_dfs d) i 0 + 1)
  | None => dget (d_dfs d) i
  end.
Proof.
  intros d doc i I. pose proof (assign_inj d doc I) as INJ. rewrite upd_t2i in *. simpl.
  unfold dget_or.
  apply (dget_fold_update (fun o (_ : nat) => match o with Some x => x | None => 0 end + 1)).
  rewrite d_bow_eq by (auto; apply NoDup_count_words). apply NoDup_bow_list; auto. apply NoDup_count_words.
Qed.

Lemma dget_upd_cfs : forall d doc i, d_inv d ->
  dget (d_cfs (upd d doc)) i =
  match dget (d_bow (d_token2id (upd d doc)) (count_words doc)) i with
  | Some f => Some (dget_or (d_cfs d) i 0 + f)
  | None => dget (d_cfs d) i
  end.
Proof.
  intros d doc i I. pose proof (assign_inj d doc I) as INJ. rewrite upd_t2i in *. simpl.
  unfold dget_or.
  apply (dget_fold_update (fun o (f : nat) => match o with Some x => x | None => 0 end + f)).
  rewrite d_bow_eq by (auto; apply NoDup_count_words). apply NoDup_bow_list; auto. apply NoDup_count_words.
Qed.

Lemma bow_key_lt : forall d doc i, d_inv d ->
  In i (dkeys (d_bow (d_token2id (upd d doc)) (count_words doc))) -> i < length (d_token2id (upd d doc)).
Proof.
  intros d doc i I HI. apply dget_Some_key in HI. destruct HI as [f E].
  apply dget_d_bow in E; [|apply assign_inj; auto | apply NoDup_count_words].
  destruct E as [w [E _]].
  assert (HI : In i (dvals (d_token2id (upd d doc)))) by (eapply dget_In_vals; eauto).
  rewrite upd_t2i in HI |- *. eapply Permutation_in in HI; [|apply assign_perm, i_perm; auto].
  apply in_seq in HI; lia.
Qed.

Lemma upd_inv : forall d doc, d_inv d -> d_inv (upd d doc).
Proof.
  intros d doc I. constructor.
  - rewrite upd_t2i. apply assign_keys_nd, i_keys; auto.
  - rewrite upd_t2i. apply assign_perm, i_perm; auto.
  - simpl. apply (NoDup_fold_update (fun o (_ : nat) => match o with Some x => x | None => 0 end + 1)). apply i_dfs_nd; auto.
  - intros i. rewrite <- dget_Some_key, dget_upd_dfs by auto. split.
    + intros [v E]. destruct (dget (d_bow _ _) i) as [f|] eqn:B.
      * apply bow_key_lt; auto. apply dget_Some_key; eauto.
      * assert (L : In i (dkeys (d_dfs d))) by (apply dget_Some_key; eauto).
        apply i_dfs in L; auto. rewrite upd_t2i, assign_len. lia.
    + intros L. destruct (dget (d_bow _ _) i) as [f|] eqn:B; [eauto|].
      apply dget_Some_key. apply i_dfs; auto.
      assert (HI : In i (dvals (d_token2id (upd d doc)))).
      { rewrite upd_t2i in *. eapply Permutation_in; [apply Permutation_sym, assign_perm, i_perm; auto|].
        apply in_seq. lia. }
      assert (ND : NoDup (dkeys (d_token2id (upd d doc)))) by (rewrite upd_t2i; apply assign_keys_nd, i_keys; auto).
      apply In_vals_dget in HI; auto. destruct HI as [w E].
      destruct (in_dec eq_dec w (dkeys (d_token2id d))) as [HI|NI].
      * apply dget_Some_key in HI. destruct HI as [j Ej].
        assert (E2 : dget (d_token2id (upd d doc)) w = Some j) by (rewrite upd_t2i; apply assign_old; auto).
        assert (i = j) by congruence. subst j. eapply inv_id_lt; eauto.
      * exfalso. assert (W : In w doc).
        { assert (HI : In w (dkeys (d_token2id (upd d doc)))) by (apply dget_Some_key; eauto).
          rewrite upd_t2i in HI. apply assign_In in HI. tauto. }
        apply In_count_words in W. apply dget_Some_key in W. destruct W as [f Ef].
        assert (dget (d_bow (d_token2id (upd d doc)) (count_words doc)) i = Some f).
        { apply dget_d_bow; [apply assign_inj; auto | apply NoDup_count_words | eauto]. }
        congruence.
  - simpl. apply (NoDup_fold_update (fun o (f : nat) => match o with Some x => x | None => 0 end + f)). apply i_cfs_nd; auto.
  - intros i. rewrite <- dget_Some_key, dget_upd_cfs by auto.
    intros [v E]. destruct (dget (d_bow _ _) i) as [f|] eqn:B.
    + apply bow_key_lt; auto. apply dget_Some_key; eauto.
    + assert (L : In i (dkeys (d_cfs d))) by (apply dget_Some_key; eauto).
      apply i_cfs in L; auto. rewrite upd_t2i, assign_len. lia.
  - exact (i_cache_nd _ I).
  - intros i t E. rewrite upd_t2i. apply assign_old. exact (i_cache _ I _ _ E).
Qed.

(** ** Reverse lookup *)

Lemma revdict_get : forall (m : dict pystr nat) i t, NoDup (dkeys m) -> NoDup (dvals m) ->
  (dget (revdict m) i = Some t <-> dget m t = Some i).
Proof.
  intros m i t ND NV. unfold revdict.
  assert (NF : NoDup (map fst (map (fun kv : pystr * nat => (snd kv, fst kv)) m))) by (rewrite map_map; exact NV).
  rewrite dict_of_NoDup by auto. rewrite dget_iff by auto. rewrite dget_iff by auto.
  rewrite in_map_iff. split.
  - intros [[a b] [E HI]]. simpl in E. inversion E; subst; auto.
  - intros HI. exists (t, i); auto.
Qed.

Lemma length_revdict : forall (m : dict pystr nat), NoDup (dvals m) -> length (revdict m) = length m.
Proof.
  intros. unfold revdict. rewrite dict_of_NoDup; [apply map_length|]. rewrite map_map; auto.
Qed.

Lemma NoDup_revdict : forall (m : dict pystr nat), NoDup (dkeys (revdict m)).
Proof. intros; apply NoDup_dict_of. Qed.

Lemma d_refresh_fields : forall d, d_token2id (d_refresh d) = d_token2id d /\ d_dfs (d_refresh d) = d_dfs d /\
  d_cfs (d_refresh d) = d_cfs d /\ d_num_docs (d_refresh d) = d_num_docs d /\
  d_num_pos (d_refresh d) = d_num_pos d /\ d_num_nnz (d_refresh d) = d_num_nnz d.
Proof. intros; unfold d_refresh; destruct (_ =? _); simpl; auto 10. Qed.

Lemma d_refresh_inv : forall d, d_inv d -> d_inv (d_refresh d).
Proof.
  intros d I. unfold d_refresh. destruct (_ =? _); auto.
  destruct I. constructor; simpl; auto.
  - apply NoDup_revdict.
  - intros i t E. apply revdict_get; auto. apply inv_vals_nd. constructor; auto.
Qed.

Lemma d_refresh_get : forall d i t, d_inv d ->
  (dget (d_id2token (d_refresh d)) i = Some t <-> dget (d_token2id d) t = Some i).
Proof.
  intros d i t I. unfold d_refresh. destruct (_ =? _) eqn:E.
  - apply Nat.eqb_eq in E. split; [apply i_cache; auto|]. intros G.
    destruct (dget (d_id2token d) i) as [t'|] eqn:G'.
    + apply i_cache in G'; auto. f_equal. eapply inv_inj; eauto.
    + exfalso. apply dget_None in G'. apply G'.
      (* the ids in the cache are distinct numbers below the size, hence all of them *)
      assert (P : incl (seq 0 (length (d_token2id d))) (dkeys (d_id2token d))).
      { apply NoDup_length_incl; [apply i_cache_nd; auto| |].
        - rewrite seq_length, length_dkeys. lia.
        - intros j HI. apply dget_Some_key in HI. destruct HI as [t' Et'].
          apply i_cache in Et'; auto. apply inv_id_lt in Et'; auto. apply in_seq. lia. }
      apply P. apply in_seq. apply inv_id_lt in G; auto. lia.
  - simpl. apply revdict_get; [apply i_keys; auto | apply inv_vals_nd; auto].
Qed.

Lemma d_getitem_spec : forall d i t, d_inv d ->
  (snd (d_getitem d i) = Ok t <-> dget (d_token2id d) t = Some i).
Proof.
  intros d i t I. rewrite <- d_refresh_get by auto. simpl.
  destruct (dget (d_id2token (d_refresh d)) i); simpl; split; congruence.
Qed.

Lemma d_getitem_err : forall d i, d_inv d -> d_len d <= i -> snd (d_getitem d i) = Err KeyError.
Proof.
  intros d i I L. simpl. destruct (dget (d_id2token (d_refresh d)) i) eqn:E; [|reflexivity].
  apply d_refresh_get in E; auto. apply inv_id_lt in E; auto. unfold d_len in L. lia.
Qed.

Lemma d_getitem_inv : forall d i, d_inv d -> d_inv (fst (d_getitem d i)).
Proof. intros; apply d_refresh_inv; auto. Qed.

(** ** compactify *)

(** Number of ids in the list smaller than [i]. *)
Definition rank (ids : list nat) (i : nat) : nat := length (filter (fun j => j <? i) ids).

Lemma rank_perm : forall l l' i, Permutation l l' -> rank l i = rank l' i.
Proof. intros. unfold rank. apply Permutation_length, Permutation_filter; auto. Qed.

Lemma rank_sorted : forall l k i, StronglySorted lt l -> In i l ->
  dget (combine l (seq k (length l))) i = Some (k + rank l i).
Proof.
  induction l as [|x l IH]; intros k i S HI; [destruct HI|].
  inversion S; subst. rewrite Forall_forall in H2. cbn [length seq combine dget].
  destruct (eq_dec x i) as [->|NE].
  - f_equal. unfold rank. replace (filter (fun j => j <? i) (i :: l)) with (@nil nat); [simpl; lia|].
    symmetry. apply incl_l_nil. intros y HI'. apply filter_In in HI'. destruct HI' as [[<-|HI'] L]; [lia|].
    apply H2 in HI'; lia.
  - destruct HI as [->|HI]; [congruence|]. rewrite IH by auto. f_equal.
    unfold rank. simpl. assert (x < i) by auto. destruct (x <? i) eqn:E; [simpl; lia | lia].
Qed.

Lemma isort_nat_strict : forall l, NoDup l -> StronglySorted lt (isort Nat.leb l).
Proof.
  intros l ND.
  assert (S : StronglySorted (fun a b => Nat.leb a b = true) (isort Nat.leb l)) by (apply isort_StronglySorted; intros; lia).
  assert (ND' : NoDup (isort Nat.leb l)) by (eapply Permutation_NoDup; [apply Permutation_isort | auto]).
  induction S; constructor; inversion ND'; subst; auto.
  rewrite Forall_forall in *. intros x HI. specialize (H x HI).
  assert (a <> x) by (intros ->; auto). lia.
Qed.

Lemma idmap_get : forall ids i, NoDup ids ->
  dget (dict_of (combine (isort Nat.leb ids) (seq 0 (length ids)))) i =
  if in_dec eq_dec i ids then Some (rank ids i) else None.
Proof.
  intros ids i ND.
  assert (L : length (isort Nat.leb ids) = length (seq 0 (length ids))) by (rewrite length_isort, seq_length; reflexivity).
  rewrite dict_of_NoDup.
  2:{ rewrite map_fst_combine by auto. eapply Permutation_NoDup; [apply Permutation_isort | auto]. }
  destruct (in_dec eq_dec i ids) as [HI|NI].
  - rewrite (rank_perm _ _ _ (Permutation_isort Nat.leb ids)).
    rewrite <- (length_isort Nat.leb ids).
    rewrite rank_sorted; [reflexivity | apply isort_nat_strict; auto | apply In_isort; auto].
  - apply dget_None. unfold dkeys. rewrite map_fst_combine by auto. rewrite In_isort. auto.
Qed.

Lemma rank_lt : forall ids i j, In i ids -> i < j -> rank ids i < rank ids j.
Proof.
  induction ids as [|x ids IH]; intros i j HI L; [destruct HI|]. unfold rank in *. simpl.
  assert (M : forall l, length (filter (fun k => k <? i) l) <= length (filter (fun k => k <? j) l)).
  { induction l as [|y l IHl]; simpl; [lia|]. destruct (y <? i) eqn:E1, (y <? j) eqn:E2; simpl; lia. }
  destruct HI as [->|HI].
  - destruct (i <? i) eqn:E1; [lia|]. destruct (i <? j) eqn:E2; [|lia]. simpl. specialize (M ids). lia.
  - specialize (IH i j HI L). destruct (x <? i) eqn:E1, (x <? j) eqn:E2; simpl; lia.
Qed.

Lemma rank_inj : forall ids i j, In i ids -> In j ids -> rank ids i = rank ids j -> i = j.
Proof.
  intros ids i j Hi Hj E. destruct (Nat.lt_trichotomy i j) as [L|[L|L]]; auto.
  - pose proof (rank_lt ids i j Hi L). lia.
  - pose proof (rank_lt ids j i Hj L). lia.
Qed.

Lemma rank_le_length : forall ids i, In i ids -> rank ids i < length ids.
Proof.
  intros ids i HI. unfold rank.
  assert (G : forall l, length (filter (fun k => k <? i) l) <= length l).
  { induction l as [|y l IHl]; simpl; [lia|]. destruct (y <? i); simpl; lia. }
  induction ids as [|x ids IH]; [destruct HI|]. simpl. destruct HI as [->|HI].
  - destruct (i <? i) eqn:E; [lia|]. specialize (G ids). lia.
  - specialize (IH HI). destruct (x <? i); simpl; lia.
Qed.

Lemma rank_seq : forall n i, i <= n -> rank (seq 0 n) i = i.
Proof.
  intros n i L. unfold rank.
  assert (G : forall m k, length (filter (fun j => j <? i) (seq k m)) = Nat.min m (i - k)).
  { induction m; intros k; cbn [seq filter length]; [lia|].
    destruct (k <? i) eqn:E; cbn [length]; rewrite IHm; lia. }
  rewrite G. lia.
Qed.

Lemma map_rank_perm : forall ids, NoDup ids -> Permutation (map (rank ids) ids) (seq 0 (length ids)).
Proof.
  intros ids ND. apply NoDup_Permutation_bis.
  - assert (G : forall l, NoDup l -> incl l ids -> NoDup (map (rank ids) l)).
    { induction l as [|x l IH]; simpl; intros ND' INC; [constructor|]. inversion ND'; subst. constructor.
      - intros HI. apply in_map_iff in HI. destruct HI as [y [E HI]].
        assert (y = x); [|subst; auto]. eapply rank_inj; [| |exact E]; apply INC; simpl; auto.
      - apply IH; auto. intros y HI; apply INC; simpl; auto. }
    apply G; auto. apply incl_refl.
  - rewrite map_length, seq_length; lia.
  - intros j HI. apply in_map_iff in HI. destruct HI as [i [<- HI]]. apply in_seq.
    pose proof (rank_le_length ids i HI). lia.
Qed.

(** What compactify needs and produces. *)
Record d_weak (d : dictionary) : Prop := {
  w_keys : NoDup (dkeys (d_token2id d));
  w_vals : NoDup (dvals (d_token2id d));
  w_dfs_nd : NoDup (dkeys (d_dfs d));
  w_dfs : forall i, In i (dkeys (d_dfs d)) <-> In i (dvals (d_token2id d));
  w_cfs_nd : NoDup (dkeys (d_cfs d));
  w_cfs : forall i, In i (dkeys (d_cfs d)) -> In i (dvals (d_token2id d))
}.

Lemma inv_weak : forall d, d_inv d -> d_weak d.
Proof.
  intros d I. constructor.
  - apply i_keys; auto.
  - apply inv_vals_nd; auto.
  - apply i_dfs_nd; auto.
  - intros i. rewrite inv_In_vals by auto. apply i_dfs; auto.
  - apply i_cfs_nd; auto.
  - intros i HI. rewrite inv_In_vals by auto. apply i_cfs; auto.
Qed.

Lemma remap_ids_eq : forall ids (m : dict nat nat), NoDup ids -> NoDup (dkeys m) -> incl (dkeys m) ids ->
  remap_ids (dict_of (combine (isort Nat.leb ids) (seq 0 (length ids)))) m =
  Ok (map (fun kf => (rank ids (fst kf), snd kf)) m).
Proof.
  intros ids m ND NDm INC. unfold remap_ids.
  assert (E : rmapM (fun kf : nat * nat =>
      let* i := of_option KeyError (dget (dict_of (combine (isort Nat.leb ids) (seq 0 (length ids)))) (fst kf)) in
      Ok (i, snd kf)) m = Ok (map (fun kf => (rank ids (fst kf), snd kf)) m)).
  { clear NDm. induction m as [|[k f] m IH]; [reflexivity|]. cbn [rmapM map fst snd].
    rewrite idmap_get by auto. destruct (in_dec eq_dec k ids) as [HI|NI].
    - simpl. rewrite IH; [reflexivity|]. intros x Hx; apply INC; simpl; auto.
    - exfalso; apply NI, INC; simpl; auto. }
  rewrite E. simpl. f_equal. apply dict_of_NoDup. rewrite map_map. simpl.
  induction m as [|[k f] m IH]; simpl; [constructor|]. inversion NDm; subst.
  constructor.
  - intros HI. apply in_map_iff in HI. destruct HI as [[k' f'] [Er HI]]. simpl in Er.
    apply rank_inj in Er.
    + subst k'. apply H1. apply in_map_iff. exists (k, f'); auto.
    + apply INC. simpl. right. apply in_map_iff. exists (k', f'); auto.
    + apply INC. simpl; auto.
  - apply IH; auto.
    + intros x Hx; apply INC; simpl; auto.
    + clear -E. cbn [rmapM map fst snd] in E.
      destruct (of_option KeyError _); simpl in E; [|discriminate].
      destruct (rmapM _ m); simpl in E; [|discriminate]. inversion E; reflexivity.
Qed.

Lemma compactify_eq : forall d, d_weak d ->
  d_compactify d = Ok (mkDictionary
    (map (fun ti => (fst ti, rank (dvals (d_token2id d)) (snd ti))) (d_token2id d)) []
    (map (fun kf => (rank (dvals (d_token2id d)) (fst kf), snd kf)) (d_cfs d))
    (map (fun kf => (rank (dvals (d_token2id d)) (fst kf), snd kf)) (d_dfs d))
    (d_num_docs d) (d_num_pos d) (d_num_nnz d)).
Proof.
  intros d W. unfold d_compactify.
  rewrite <- (length_dvals (d_token2id d)).
  assert (E : forall m, incl (dvals m) (dvals (d_token2id d)) ->
    rmapM (fun ti : pystr * nat =>
      let* i := of_option KeyError (dget (dict_of (combine (isort Nat.leb (dvals (d_token2id d)))
                                       (seq 0 (length (dvals (d_token2id d)))))) (snd ti)) in
      Ok (fst ti, i)) m = Ok (map (fun ti => (fst ti, rank (dvals (d_token2id d)) (snd ti))) m)).
  { induction m as [|[t i] m IH]; intros INC; [reflexivity|]. cbn [rmapM map fst snd].
    rewrite idmap_get by (apply w_vals; auto).
    destruct (in_dec eq_dec i (dvals (d_token2id d))) as [HI|NI].
    - simpl. rewrite IH; [reflexivity|]. intros x Hx; apply INC; simpl; auto.
    - exfalso; apply NI, INC; simpl; auto. }
  rewrite E by apply incl_refl. cbn [rbind].
  rewrite remap_ids_eq; [|apply w_vals; auto | apply w_dfs_nd; auto | intros i HI; apply w_dfs; auto].
  cbn [rbind].
  rewrite remap_ids_eq; [|apply w_vals; auto | apply w_cfs_nd; auto | intros i HI; apply w_cfs; auto].
  cbn [rbind]. rewrite dict_of_NoDup; [reflexivity|].
  rewrite map_map. apply (w_keys _ W).
Qed.

Lemma dget_map_key : forall (ids : list nat) (m : dict nat nat) i, incl (dkeys m) ids -> In i ids ->
  dget (map (fun kf => (rank ids (fst kf), snd kf)) m) (rank ids i) = dget m i.
Proof.
  induction m as [|[k f] m IH]; intros i INC HI; [reflexivity|]. simpl.
  destruct (eq_dec (rank ids k) (rank ids i)) as [E|NE], (eq_dec k i) as [E'|NE']; auto.
  - apply rank_inj in E; auto; [congruence | apply INC; simpl; auto].
  - congruence.
  - apply IH; auto. intros x Hx; apply INC; simpl; auto.
Qed.

Lemma compactify_inv : forall d d', d_weak d -> d_compactify d = Ok d' -> d_inv d'.
Proof.
  intros d d' W E. rewrite compactify_eq in E by auto. inversion E; subst; clear E.
  pose proof (w_vals _ W) as NV.
  assert (NK : forall m : dict nat nat, NoDup (dkeys m) -> incl (dkeys m) (dvals (d_token2id d)) ->
    NoDup (dkeys (map (fun kf => (rank (dvals (d_token2id d)) (fst kf), snd kf)) m))).
  { induction m as [|[k f] m IH]; simpl; intros ND INC; [constructor|]. inversion ND; subst. constructor.
    - intros HI. apply in_map_iff in HI. destruct HI as [[a b] [Ea HI]]. simpl in Ea. subst a.
      apply in_map_iff in HI. destruct HI as [[k' f'] [Eb HI]]. inversion Eb; subst.
      assert (k' = k).
      { eapply rank_inj; [| |eassumption]; apply INC; simpl; auto. right. apply in_map_iff. exists (k', b); auto. }
      subst k'. apply H1. apply in_map_iff. exists (k, b); auto.
    - apply IH; auto. intros x Hx; apply INC; simpl; auto. }
  constructor; cbn [d_token2id d_id2token d_dfs d_cfs].
  - unfold dkeys. rewrite map_map. apply (w_keys _ W).
  - unfold dvals. rewrite map_map. cbn [snd]. rewrite map_length.
    rewrite <- (length_dvals (d_token2id d)).
    rewrite <- (map_map snd (rank (map snd (d_token2id d)))). apply map_rank_perm. exact NV.
  - apply NK; [apply w_dfs_nd; auto | intros i HI; apply w_dfs; auto].
  - intros i. rewrite map_length. unfold dkeys. rewrite map_map. cbn [fst].
    rewrite <- (map_map fst (rank (dvals (d_token2id d)))).
    rewrite in_map_iff. split.
    + intros [j [<- HI]]. rewrite <- (length_dvals (d_token2id d)).
      apply rank_le_length. apply w_dfs; auto.
    + intros L. rewrite <- (length_dvals (d_token2id d)) in L.
      assert (HI : In i (seq 0 (length (dvals (d_token2id d))))) by (apply in_seq; lia).
      eapply Permutation_in in HI; [|apply Permutation_sym, map_rank_perm; auto].
      apply in_map_iff in HI. destruct HI as [j [Ej HI]]. exists j. split; auto. apply (w_dfs _ W); auto.
  - apply NK; [apply w_cfs_nd; auto | intros i HI; apply w_cfs; auto].
  - intros i HI. rewrite map_length. unfold dkeys in HI. rewrite map_map in HI. cbn [fst] in HI.
    apply in_map_iff in HI. destruct HI as [[j f] [<- HI]]. rewrite <- (length_dvals (d_token2id d)).
    apply rank_le_length. apply (w_cfs _ W). apply in_map_iff. exists (j, f); auto.
  - constructor.
  - discriminate.
Qed.

(** ** filter_tokens *)

Lemma restrict_ids_eq : forall f d, d_weak d ->
  restrict_ids f d = mkDictionary (filter (fun ti => f (snd ti)) (d_token2id d)) (d_id2token d)
    (filter (fun kf => f (fst kf)) (d_cfs d)) (filter (fun kf => f (fst kf)) (d_dfs d))
    (d_num_docs d) (d_num_pos d) (d_num_nnz d).
Proof.
  intros f d W. unfold restrict_ids. rewrite !dict_of_NoDup; auto; apply NoDup_dkeys_filter.
  - apply w_dfs_nd; auto.
  - apply w_cfs_nd; auto.
  - apply w_keys; auto.
Qed.

Lemma In_dkeys_filter_key : forall {K V} (f : K -> bool) (m : dict K V) k,
  In k (dkeys (filter (fun kv => f (fst kv)) m)) <-> In k (dkeys m) /\ f k = true.
Proof.
  intros. unfold dkeys. rewrite !in_map_iff. split.
  - intros [[a b] [E HI]]. simpl in E; subst. apply filter_In in HI. destruct HI as [HI T].
    split; [exists (k, b); auto | auto].
  - intros [[[a b] [E HI]] T]. simpl in E; subst. exists (k, b); split; auto. apply filter_In; auto.
Qed.

Lemma In_dvals_filter_val : forall {K V} (f : V -> bool) (m : dict K V) v,
  In v (dvals (filter (fun kv => f (snd kv)) m)) <-> In v (dvals m) /\ f v = true.
Proof.
  intros. unfold dvals. rewrite !in_map_iff. split.
  - intros [[a b] [E HI]]. simpl in E; subst. apply filter_In in HI. destruct HI as [HI T].
    split; [exists (a, v); auto | auto].
  - intros [[[a b] [E HI]] T]. simpl in E; subst. exists (a, v); split; auto. apply filter_In; auto.
Qed.

Lemma restrict_weak : forall f d, d_weak d -> d_weak (restrict_ids f d).
Proof.
  intros f d W. rewrite restrict_ids_eq by auto. constructor; cbn [d_token2id d_dfs d_cfs].
  - apply NoDup_dkeys_filter, w_keys; auto.
  - apply NoDup_dvals_filter, w_vals; auto.
  - apply NoDup_dkeys_filter, w_dfs_nd; auto.
  - intros i. rewrite In_dkeys_filter_key, In_dvals_filter_val. rewrite (w_dfs _ W). tauto.
  - apply NoDup_dkeys_filter, w_cfs_nd; auto.
  - intros i. rewrite In_dkeys_filter_key, In_dvals_filter_val. intros [HI T]. split; auto. apply (w_cfs _ W); auto.
Qed.

Definition kept (bad_ids good_ids : option (list nat)) (i : nat) : bool :=
  match bad_ids with Some l => negb (memb i l) | None => true end &&
  match good_ids with Some l => memb i l | None => true end.

Lemma filter_true : forall {A} (l : list A), filter (fun _ => true) l = l.
Proof. induction l; simpl; congruence. Qed.

Lemma filter_filter : forall {A} (f g : A -> bool) l, filter g (filter f l) = filter (fun x => f x && g x) l.
Proof.
  induction l; simpl; [reflexivity|]. destruct (f a) eqn:E; simpl; rewrite IHl; reflexivity.
Qed.

Definition restricted (f : nat -> bool) (d : dictionary) : dictionary :=
  mkDictionary (filter (fun ti => f (snd ti)) (d_token2id d)) (d_id2token d)
    (filter (fun kf => f (fst kf)) (d_cfs d)) (filter (fun kf => f (fst kf)) (d_dfs d))
    (d_num_docs d) (d_num_pos d) (d_num_nnz d).

Lemma restricted_weak : forall f d, d_weak d -> d_weak (restricted f d).
Proof. intros. unfold restricted. rewrite <- restrict_ids_eq by auto. apply restrict_weak; auto. Qed.

Lemma filter_tokens_eq : forall d bad good, d_weak d ->
  d_filter_tokens d bad good = d_compactify (restricted (kept bad good) d).
Proof.
  intros d bad good W. unfold d_filter_tokens, kept, restricted.
  destruct bad as [b|], good as [g|].
  - rewrite restrict_ids_eq by (apply restrict_weak; auto). rewrite restrict_ids_eq by auto.
    cbn [d_token2id d_id2token d_cfs d_dfs d_num_docs d_num_pos d_num_nnz]. rewrite !filter_filter. reflexivity.
  - rewrite restrict_ids_eq by auto. f_equal. f_equal; apply filter_ext; intros; rewrite andb_true_r; reflexivity.
  - rewrite restrict_ids_eq by auto. reflexivity.
  - simpl. rewrite !filter_true. destruct d; reflexivity.
Qed.

(** Everything about filter_tokens in one statement. *)
Lemma filter_tokens_spec : forall d bad good, d_weak d ->
  let ids := filter (kept bad good) (dvals (d_token2id d)) in
  exists d', d_filter_tokens d bad good = Ok d' /\ d_inv d' /\
    (forall t, dget (d_token2id d') t =
       match dget (d_token2id d) t with
       | Some i => if kept bad good i then Some (rank ids i) else None
       | None => None end) /\
    (forall t i, dget (d_token2id d) t = Some i -> kept bad good i = true ->
       dget (d_dfs d') (rank ids i) = dget (d_dfs d) i /\ dget (d_cfs d') (rank ids i) = dget (d_cfs d) i) /\
    d_num_docs d' = d_num_docs d /\ d_num_pos d' = d_num_pos d /\ d_num_nnz d' = d_num_nnz d /\
    d_len d' = length ids.
Proof.
  intros d bad good W ids. rewrite filter_tokens_eq by auto.
  assert (W' : d_weak (restricted (kept bad good) d)) by (apply restricted_weak; auto).
  assert (VE : dvals (d_token2id (restricted (kept bad good) d)) = ids).
  { unfold ids, restricted. simpl. clear. induction (d_token2id d) as [|[t i] m IH]; simpl; [reflexivity|].
    destruct (kept bad good i); simpl; unfold dvals in *; congruence. }
  pose proof (compactify_eq _ W') as E. rewrite VE in E.
  eexists. split; [exact E|]. split; [eapply compactify_inv; eauto|].
  cbn [d_token2id d_id2token d_cfs d_dfs d_num_docs d_num_pos d_num_nnz].
  split; [|split; [|split; [reflexivity | split; [reflexivity | split; [reflexivity|]]]]].
  - intros t. rewrite dget_map_val. unfold restricted; cbn [d_token2id].
    rewrite dget_filter_val by (apply w_keys; auto).
    destruct (dget (d_token2id d) t) as [i|]; [|reflexivity]. destruct (kept bad good i); reflexivity.
  - intros t i Et K.
    assert (HI : In i ids) by (unfold ids; apply filter_In; split; auto; eapply dget_In_vals; eauto).
    rewrite !dget_map_key; auto.
    + unfold restricted; simpl. rewrite !dget_filter_key, K. auto.
    + intros x Hx. rewrite <- VE. apply (w_cfs _ W'); auto.
    + intros x Hx. rewrite <- VE. apply (w_dfs _ W'); auto.
  - unfold d_len. cbn [d_token2id]. rewrite map_length. rewrite <- length_dvals, VE. reflexivity.
Qed.

(** ** Lookups of existing ids never fail *)

Lemma d_lookup_all_inv : forall ids d, d_inv d -> (forall i, In i ids -> i < d_len d) ->
  exists d', d_lookup_all d ids = Ok d' /\ d_inv d' /\ d_token2id d' = d_token2id d /\ d_dfs d' = d_dfs d /\
    d_cfs d' = d_cfs d /\ d_num_docs d' = d_num_docs d /\ d_num_pos d' = d_num_pos d /\ d_num_nnz d' = d_num_nnz d.
Proof.
  induction ids as [|i ids IH]; intros d I A; [exists d; simpl; auto 10|].
  unfold d_lookup_all in *. cbn [rfold].
  destruct (inv_id_ex d i I) as [t Et]; [apply A; simpl; auto|].
  pose proof (proj2 (d_getitem_spec d i t I) Et) as G.
  unfold d_getitem in *. cbn [snd] in G. rewrite G. cbn [rbind].
  pose proof (d_refresh_fields d) as (F1 & F2 & F3 & F4 & F5 & F6).
  destruct (IH (d_refresh d)) as (d' & E & I' & G1 & G2 & G3 & G4 & G5 & G6).
  - apply d_refresh_inv; auto.
  - intros j HI. unfold d_len. rewrite F1. apply A; simpl; auto.
  - exists d'. rewrite E. split; [reflexivity|]; split; [exact I'|]; repeat split; congruence.
Qed.

Lemma In_sort_desc : forall key ids i, In i (sort_desc key ids) <-> In i ids.
Proof. intros; apply In_isort. Qed.

Lemma In_py_prefix : forall {A} k (l : list A) x, In x (py_prefix k l) -> In x l.
Proof. intros. destruct (py_prefix_firstn k l) as [n E]. rewrite E in H. eapply In_firstn; eauto. Qed.

Lemma sort_by_dfs_ok : forall d ids, d_inv d -> (forall i, In i ids -> i < d_len d) ->
  sort_by_dfs (d_dfs d) ids = Ok (sort_desc (fun i => dget_or (d_dfs d) i 0) ids).
Proof.
  intros d ids I A. unfold sort_by_dfs.
  replace (forallb (fun i => dmem (d_dfs d) i) ids) with true; [rewrite orb_true_r; reflexivity|].
  symmetry. apply forallb_forall. intros i HI. apply dmem_true. apply i_dfs; auto.
Qed.

Lemma d_keys_lt : forall d i, d_inv d -> In i (d_keys d) -> i < d_len d.
Proof. intros. apply inv_In_vals; auto. Qed.

(** The list of ids retained by filter_extremes. *)
Definition fe_in_range (d : dictionary) (no_below : Z) (no_above : Q) (i : nat) : bool :=
  (no_below <=? Z.of_nat (dget_or (d_dfs d) i 0%nat))%Z &&
  (Z.of_nat (dget_or (d_dfs d) i 0%nat) <=? no_above_abs no_above (d_num_docs d))%Z.

Definition fe_keep_ids (d : dictionary) (keep_tokens : list pystr) : list nat :=
  flat_map (fun v => match dget (d_token2id d) v with Some i => [i] | None => [] end) keep_tokens.

Definition fe_cand (d : dictionary) nb na kt : list nat :=
  filter (fun v => fe_in_range d nb na v || memb v (fe_keep_ids d kt)) (d_keys d).

Definition fe_key (d : dictionary) kt (i : nat) : nat :=
  if memb i (fe_keep_ids d kt) then d_num_docs d else dget_or (d_dfs d) i 0.

Definition fe_good (d : dictionary) nb na kn kt : list nat :=
  let l := sort_desc (fe_key d kt) (fe_cand d nb na kt) in
  match kn with Some k => py_prefix k l | None => l end.

Lemma In_fe_good : forall d nb na kn kt i, In i (fe_good d nb na kn kt) -> In i (fe_cand d nb na kt).
Proof.
  intros d nb na kn kt i. unfold fe_good. destruct kn; intros HI; [apply In_py_prefix in HI|]; apply In_sort_desc in HI; auto.
Qed.

Lemma filter_extremes_eq : forall d nb na kn kt, d_inv d ->
  exists d1, d_inv d1 /\ d_token2id d1 = d_token2id d /\ d_dfs d1 = d_dfs d /\ d_cfs d1 = d_cfs d /\
    d_num_docs d1 = d_num_docs d /\ d_num_pos d1 = d_num_pos d /\ d_num_nnz d1 = d_num_nnz d /\
    d_filter_extremes d nb na kn kt = d_filter_tokens d1 None (Some (fe_good d nb na kn kt)).
Proof.
  intros d nb na kn kt I. unfold d_filter_extremes.
  assert (E : (match kt with
    | _ :: _ =>
      Ok (sort_desc (fun x => if memb x (fe_keep_ids d kt) then d_num_docs d else dget_or (d_dfs d) x 0)
           (filter (fun v => ((nb <=? Z.of_nat (dget_or (d_dfs d) v 0%nat))%Z &&
              (Z.of_nat (dget_or (d_dfs d) v 0%nat) <=? no_above_abs na (d_num_docs d))%Z) || memb v (fe_keep_ids d kt)) (d_keys d)))
    | [] => sort_by_dfs (d_dfs d) (filter (fun i => (nb <=? Z.of_nat (dget_or (d_dfs d) i 0%nat))%Z &&
              (Z.of_nat (dget_or (d_dfs d) i 0%nat) <=? no_above_abs na (d_num_docs d))%Z) (d_keys d))
    end) = Ok (sort_desc (fe_key d kt) (fe_cand d nb na kt))).
  { destruct kt as [|v kt]; [|reflexivity].
    rewrite sort_by_dfs_ok; auto.
    - f_equal. unfold fe_cand. f_equal. apply filter_ext. intros i. simpl. rewrite orb_false_r. reflexivity.
    - intros i HI. apply filter_In in HI. destruct HI as [HI _]. apply d_keys_lt; auto. }
  unfold fe_keep_ids in E. cbv zeta. rewrite E. cbn [rbind].
  fold (fe_good d nb na kn kt).
  match goal with |- context [d_lookup_all d ?l] => destruct (d_lookup_all_inv l d I) as (d1 & E1 & I1 & F1 & F2 & F3 & F4 & F5 & F6) end.
  - intros i HI. apply filter_In in HI. destruct HI as [HI _]. apply d_keys_lt; auto.
  - exists d1. rewrite E1. cbn [rbind]. auto 10.
Qed.

Lemma filter_extremes_inv : forall d nb na kn kt, d_inv d ->
  exists d', d_filter_extremes d nb na kn kt = Ok d' /\ d_inv d'.
Proof.
  intros d nb na kn kt I. destruct (filter_extremes_eq d nb na kn kt I) as (d1 & I1 & _ & _ & _ & _ & _ & _ & E).
  rewrite E. destruct (filter_tokens_spec d1 None (Some (fe_good d nb na kn kt)) (inv_weak _ I1)) as (d' & E' & I' & _).
  eauto.
Qed.

Lemma filter_n_eq : forall d n, d_inv d ->
  exists d1, d_inv d1 /\ d_token2id d1 = d_token2id d /\ d_dfs d1 = d_dfs d /\ d_cfs d1 = d_cfs d /\
    d_num_docs d1 = d_num_docs d /\ d_num_pos d1 = d_num_pos d /\ d_num_nnz d1 = d_num_nnz d /\
    d_filter_n_most_frequent d n =
    d_filter_tokens d1 (Some (py_prefix n (sort_desc (fun i => dget_or (d_dfs d) i 0%nat) (d_keys d)))) None.
Proof.
  intros d n I. unfold d_filter_n_most_frequent.
  rewrite sort_by_dfs_ok; [|auto | intros; apply d_keys_lt; auto]. cbn [rbind].
  match goal with |- context [d_lookup_all d ?l] => destruct (d_lookup_all_inv l d I) as (d1 & E1 & I1 & F1 & F2 & F3 & F4 & F5 & F6) end.
  - intros i HI. apply In_py_prefix, In_sort_desc in HI. apply d_keys_lt; auto.
  - exists d1. rewrite E1. cbn [rbind]. auto 10.
Qed.

Lemma add_documents_inv : forall docs n d p, d_inv d -> exists d', d_add_documents_from n d docs p = Ok d' /\ d_inv d'.
Proof.
  induction docs as [|doc docs IH]; intros n d p I; cbn [d_add_documents_from]; [eauto|].
  assert (E : exists d1, (if (n mod 10000 =? 0)%N then
        match p with
        | Some p => if (p <? Z.of_nat (d_len d))%Z then d_filter_extremes d 0 1 (Some p) [] else Ok d
        | None => Ok d
        end else Ok d) = Ok d1 /\ d_inv d1).
  { destruct (n mod 10000 =? 0)%N; [|eauto]. destruct p as [p|]; [|eauto].
    destruct (p <? Z.of_nat (d_len d))%Z; [apply filter_extremes_inv; auto | eauto]. }
  destruct E as (d1 & E & I1). rewrite E. cbn [rbind]. apply IH. apply upd_inv; auto.
Qed.

(** ** merge_with *)

Definition add_token (d : dictionary) (t : pystr) : dictionary :=
  mkDictionary (dset (d_token2id d) t (length (d_token2id d))) (d_id2token d) (d_cfs d)
    (dset (d_dfs d) (length (d_token2id d)) 0) (d_num_docs d) (d_num_pos d) (d_num_nnz d).

Definition set_df (d : dictionary) (i v : nat) : dictionary :=
  mkDictionary (d_token2id d) (d_id2token d) (d_cfs d) (dset (d_dfs d) i v) (d_num_docs d) (d_num_pos d) (d_num_nnz d).

Lemma add_token_inv : forall d t, d_inv d -> dget (d_token2id d) t = None -> d_inv (add_token d t).
Proof.
  intros d t I N. apply dget_None in N. destruct I.
  constructor; cbn [add_token d_token2id d_id2token d_dfs d_cfs]; auto.
  - apply NoDup_dset; auto.
  - rewrite dset_notin by auto. unfold dvals. rewrite map_app, app_length. cbn [length map snd].
    replace (length (d_token2id d) + 1) with (S (length (d_token2id d))) by lia. rewrite seq_S.
    apply Permutation_app; auto.
  - apply NoDup_dset; auto.
  - intros i. rewrite In_dkeys_dset, length_dset_notin by auto. rewrite i_dfs0. lia.
  - intros i HI. rewrite length_dset_notin by auto. apply i_cfs0 in HI. lia.
  - intros i t' E. rewrite dget_dset_other; [auto|]. intros ->. apply N.
    apply dget_Some_key. exists i. auto.
Qed.

Lemma set_df_inv : forall d i v, d_inv d -> i < d_len d -> d_inv (set_df d i v).
Proof.
  intros d i v I L. destruct I.
  constructor; cbn [set_df d_token2id d_id2token d_dfs d_cfs]; auto.
  - apply NoDup_dset; auto.
  - intros j. rewrite In_dkeys_dset. rewrite i_dfs0. unfold d_len in L. split; [intros [->|]; auto | auto].
Qed.

Lemma merge_step_cases : forall odfs d o2n oid t,
  let d1 := match dget (d_token2id d) t with Some _ => d | None => add_token d t end in
  let i := match dget (d_token2id d) t with Some i => i | None => d_len d end in
  merge_step odfs (d, o2n) (oid, t) =
  (match odfs with
   | Some m => match dget (d_dfs d1) i, dget m oid with Some a, Some b => set_df d1 i (a + b) | _, _ => d1 end
   | None => d1 end, dset o2n oid i).
Proof.
  intros. unfold merge_step, d1, i, d_len, set_df, add_token.
  destruct (dget (d_token2id d) t) as [j|] eqn:E; cbn [d_dfs];
    destruct odfs as [m|]; try reflexivity;
    match goal with |- context [match dget ?a ?b with _ => _ end] => destruct (dget a b) end; try reflexivity;
    destruct (dget m oid); reflexivity.
Qed.

Lemma merge_step_inv : forall odfs d o2n it, d_inv d -> d_inv (fst (merge_step odfs (d, o2n) it)).
Proof.
  intros odfs d o2n [oid t] I. rewrite merge_step_cases. cbn [fst].
  destruct (dget (d_token2id d) t) as [i|] eqn:E.
  - destruct odfs as [m|]; auto. destruct (dget (d_dfs d) i) eqn:E1; auto. destruct (dget m oid); auto.
    apply set_df_inv; auto. eapply inv_id_lt; eauto.
  - assert (I' : d_inv (add_token d t)) by (apply add_token_inv; auto).
    destruct odfs as [m|]; auto. destruct (dget (d_dfs (add_token d t)) (d_len d)) eqn:E1; auto. destruct (dget m oid); auto.
    apply set_df_inv; auto. unfold d_len, add_token; cbn [d_token2id].
    rewrite length_dset_notin by (apply dget_None; auto). lia.
Qed.

Lemma merge_fold_inv : forall odfs items s, d_inv (fst s) -> d_inv (fst (fold_left (merge_step odfs) items s)).
Proof.
  induction items as [|it items IH]; intros [d o2n] I; simpl; auto. apply IH. apply merge_step_inv; auto.
Qed.

Lemma inv_nums : forall d a b c, d_inv d ->
  d_inv (mkDictionary (d_token2id d) (d_id2token d) (d_cfs d) (d_dfs d) a b c).
Proof. intros d a b c I. destruct I. constructor; auto. Qed.

Lemma merge_with_inv : forall d o, d_inv d -> d_inv (fst (d_merge_with d o)).
Proof.
  intros d o I. unfold d_merge_with.
  pose proof (merge_fold_inv (o_dfs o) (o_items o) (d, []) I) as I'.
  destruct (fold_left _ _ _) as [d1 o2n]. simpl in I'.
  destruct (o_nums o) as [[[nd nz] np]|]; simpl; auto. apply inv_nums; auto.
Qed.

(** ** Every public call keeps the invariant and never raises *)

Lemma step_inv : forall d o, d_inv d -> exists d', d_step d o = Ok d' /\ d_inv d'.
Proof.
  intros d o I. destruct o; cbn [d_step].
  - eexists; split; [reflexivity|]. rewrite doc2bow_fst. destruct allow_update; auto. apply upd_inv; auto.
  - apply add_documents_inv; auto.
  - apply filter_extremes_inv; auto.
  - destruct (filter_n_eq d remove_n I) as (d1 & I1 & _ & _ & _ & _ & _ & _ & E). rewrite E.
    match goal with |- context [d_filter_tokens d1 ?b ?g] =>
      destruct (filter_tokens_spec d1 b g (inv_weak _ I1)) as (d' & E' & I' & _) end. eauto.
  - destruct (filter_tokens_spec d bad_ids good_ids (inv_weak _ I)) as (d' & E' & I' & _). eauto.
  - destruct (filter_tokens_spec d None None (inv_weak _ I)) as (d' & E' & I' & _). eauto.
  - eexists; split; [reflexivity|]. apply merge_with_inv; auto.
  - eexists; split; [reflexivity|]. apply d_getitem_inv; auto.
Qed.

Lemma run_inv : forall ops d, d_inv d -> exists d', d_run ops d = Ok d' /\ d_inv d'.
Proof.
  unfold d_run. induction ops as [|o ops IH]; intros d I; cbn [rfold]; [eauto|].
  destruct (step_inv d o I) as (d1 & E & I1). rewrite E. cbn [rbind]. auto.
Qed.
