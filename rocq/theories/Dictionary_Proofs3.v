(** Proofs of the Dictionary properties (third part): filtering, text format,
    special tokens, merging. *)

From Verif Require Import Base Str Dictionary_Model Dictionary_Spec Dictionary_Proofs Dictionary_Proofs2.
From Coq Require Import QArith ZifyBool ZifyNat ZifyN.
Local Open Scope nat_scope.

Lemma consistent_weak : forall d, consistent (d_token2id d) (d_dfs d) (d_cfs d) <-> d_weak d.
Proof.
  intros d. split.
  - intros (A & B & C & D & E & F). constructor; auto.
  - intros [A B C D E F]. repeat split; auto; apply D.
Qed.

Lemma inv_coherent : forall d, d_inv d -> coherent_cache (d_token2id d) (d_id2token d).
Proof.
  intros d I. split; [apply (i_cache_nd _ I)|]. intros i t HI. apply dget_In, (i_cache _ I).
  apply In_dget; auto. apply (i_cache_nd _ I).
Qed.

(** ** C06 *)

Lemma filter_tokens_full : forall d bad good,
  consistent (d_token2id d) (d_dfs d) (d_cfs d) ->
  exists d', d_filter_tokens d bad good = Ok d' /\ d_inv d' /\
    (forall t, (exists i', dget (d_token2id d') t = Some i') <->
       exists i, dget (d_token2id d) t = Some i /\
         (forall l, bad = Some l -> ~ In i l) /\ (forall l, good = Some l -> In i l)) /\
    (forall t t' i1 i2 j1 j2, dget (d_token2id d) t = Some i1 -> dget (d_token2id d) t' = Some i2 ->
       dget (d_token2id d') t = Some j1 -> dget (d_token2id d') t' = Some j2 -> (i1 < i2 <-> j1 < j2)) /\
    (forall t i i', dget (d_token2id d) t = Some i -> dget (d_token2id d') t = Some i' ->
       dget (d_dfs d') i' = dget (d_dfs d) i /\ dget (d_cfs d') i' = dget (d_cfs d) i) /\
    d_num_docs d' = d_num_docs d /\ d_num_pos d' = d_num_pos d /\ d_num_nnz d' = d_num_nnz d.
Proof.
  intros d bad good C. apply consistent_weak in C.
  destruct (filter_tokens_spec d bad good C) as (d' & E & I & T & ST & N1 & N2 & N3 & LEN).
  exists d'. split; [exact E|]. split; [exact I|].
  assert (KE : forall i, kept bad good i = true <-> (forall l, bad = Some l -> ~ In i l) /\ (forall l, good = Some l -> In i l)).
  { intros i. unfold kept. rewrite andb_true_iff. destruct bad as [b|], good as [g|];
      rewrite ?negb_true_iff, ?memb_false, ?memb_true.
    - split; [intros [A B]; split; intros l El; inversion El; subst; auto | intros [A B]; split; [apply A | apply B]; reflexivity].
    - split; [intros [A B]; split; intros l El; inversion El; subst; auto | intros [A B]; split; [apply A|]; reflexivity].
    - split; [intros [A B]; split; intros l El; inversion El; subst; auto | intros [A B]; split; [|apply B]; reflexivity].
    - split; [intros _; split; intros l El; discriminate | auto]. }
  split; [|split; [|split; [|auto]]].
  - intros t. rewrite T. destruct (dget (d_token2id d) t) as [i|] eqn:Et.
    + destruct (kept bad good i) eqn:K.
      * split; [intros _; exists i; split; auto; apply KE; auto | eauto].
      * split; [intros [j Ej]; discriminate|]. intros [j [Ej Hj]]. inversion Ej; subst. apply KE in Hj. congruence.
    + split; [intros [j Ej]; discriminate | intros [j [Ej _]]; discriminate].
  - intros t t' i1 i2 j1 j2 E1 E2 E3 E4. rewrite T, E1 in E3. rewrite T, E2 in E4.
    destruct (kept _ _ i1) eqn:K1; [|discriminate]. destruct (kept _ _ i2) eqn:K2; [|discriminate].
    inversion E3; inversion E4; subst.
    assert (M1 : In i1 (filter (kept bad good) (dvals (d_token2id d)))) by (apply filter_In; split; auto; eapply dget_In_vals; eauto).
    assert (M2 : In i2 (filter (kept bad good) (dvals (d_token2id d)))) by (apply filter_In; split; auto; eapply dget_In_vals; eauto).
    split; intros L; [apply rank_lt; auto|].
    destruct (Nat.lt_trichotomy i1 i2) as [|[->|L']]; auto; [lia|].
    pose proof (rank_lt _ i2 i1 M2 L'). lia.
  - intros t i i' Et Et'. rewrite T, Et in Et'. destruct (kept bad good i) eqn:K; [|discriminate].
    inversion Et'; subst. eapply ST; eauto.
Qed.

Lemma filter_n_spec : forall d n, d_inv d ->
  exists d', d_filter_n_most_frequent d n = Ok d' /\ d_inv d' /\
    let known x t := exists i, dget (d_token2id x) t = Some i in
    (forall t, known d' t -> known d t) /\
    (Z.of_nat (d_len d) - Z.of_nat (d_len d') =
       if (n <? 0)%Z then Z.max 0 (Z.of_nat (d_len d) + n) else Z.min n (Z.of_nat (d_len d)))%Z /\
    (forall r k, known d r -> ~ known d' r -> known d' k ->
       df_of d k < df_of d r \/ df_of d k = df_of d r /\ precedes (dkeys (d_token2id d)) r k) /\
    (forall t i i', dget (d_token2id d) t = Some i -> dget (d_token2id d') t = Some i' ->
       dget (d_dfs d') i' = dget (d_dfs d) i /\ dget (d_cfs d') i' = dget (d_cfs d) i) /\
    d_num_docs d' = d_num_docs d /\ d_num_pos d' = d_num_pos d /\ d_num_nnz d' = d_num_nnz d.
Proof.
  intros d n I. destruct (filter_n_eq d n I) as (d1 & I1 & F1 & F2 & F3 & F4 & F5 & F6 & E).
  set (bad := py_prefix n (sort_desc (fun i => dget_or (d_dfs d) i 0) (d_keys d))) in *.
  assert (INC : incl bad (d_keys d)) by (intros i HI; apply In_py_prefix, In_sort_desc in HI; auto).
  destruct (filter_tokens_spec d1 (Some bad) None (inv_weak _ I1)) as (d' & E' & I' & T & ST & N1 & N2 & N3 & LEN).
  rewrite F1, F2, F3, F4, F5, F6 in *.
  exists d'. split; [congruence|]. split; [exact I'|]. cbv zeta.
  assert (KE : forall i, kept (Some bad) None i = negb (memb i bad)) by (intros; unfold kept; rewrite andb_true_r; reflexivity).
  assert (KNOWN : forall t, (exists i', dget (d_token2id d') t = Some i') <->
     exists i, dget (d_token2id d) t = Some i /\ ~ In i bad).
  { intros t. rewrite T. destruct (dget (d_token2id d) t) as [i|] eqn:Et.
    - rewrite KE. destruct (memb i bad) eqn:M; simpl.
      + apply memb_true in M. split; [intros [j Ej]; discriminate|].
        intros [j [Ej Hj]]; inversion Ej; subst; tauto.
      + apply memb_false in M. split; eauto.
    - split; [intros [j Ej]; discriminate | intros [j [Ej Hj]]; discriminate]. }
  split; [|split; [|split; [|split; [|auto]]]].
  - intros t HK. apply KNOWN in HK. destruct HK as [i [Et _]]. eauto.
  - rewrite LEN.
    assert (ND : NoDup bad).
    { unfold bad. destruct (py_prefix_firstn n (sort_desc (fun i => dget_or (d_dfs d) i 0) (d_keys d))) as [m ->].
      apply NoDup_firstn. eapply Permutation_NoDup; [apply Permutation_isort | apply inv_vals_nd; auto]. }
    assert (L : length (filter (kept (Some bad) None) (dvals (d_token2id d))) + length bad = d_len d).
    { rewrite <- (filter_memb_perm (dvals (d_token2id d)) bad); auto; [|apply inv_vals_nd; auto].
      unfold d_len. rewrite <- (length_dvals (d_token2id d)).
      rewrite (filter_ext _ (fun i => negb (memb i bad)) KE).
      generalize (dvals (d_token2id d)) as l. clear. induction l as [|x l IH]; simpl; [reflexivity|].
      destruct (memb x bad); simpl; lia. }
    assert (LB : Z.of_nat (length bad) = if (n <? 0)%Z then Z.max 0 (Z.of_nat (d_len d) + n) else Z.min n (Z.of_nat (d_len d))).
    { unfold bad. rewrite py_prefix_length. unfold sort_desc. rewrite length_isort. unfold d_keys.
      rewrite length_dvals. reflexivity. }
    lia.
  - intros r k [i Er] Nr Kk. apply KNOWN in Kk. destruct Kk as [j [Ek Hj]].
    assert (Hi : In i bad).
    { destruct (in_dec eq_dec i bad); auto. exfalso; apply Nr, KNOWN; eauto. }
    unfold df_of. rewrite Er, Ek.
    assert (D : desc_lt (fun i => dget_or (d_dfs d) i 0) (d_keys d) i j).
    { unfold bad in Hi, Hj. destruct (py_prefix_firstn n (sort_desc (fun i => dget_or (d_dfs d) i 0) (d_keys d))) as [m Em].
      rewrite Em in Hi, Hj. eapply firstn_dominates; eauto. eapply dget_In_vals; eauto. }
    destruct D as [L|[El P]]; [left; auto | right; split; auto].
    eapply precedes_vals_keys; eauto; [apply i_keys; auto | apply inv_vals_nd; auto].
  - intros t i i' Et Et'. rewrite T, Et in Et'. destruct (kept (Some bad) None i) eqn:K; [|discriminate].
    inversion Et'; subst. eapply ST; eauto.
Qed.

(** ** C07: text format *)

Lemma In_refresh_get : forall d i t, NoDup (dkeys (d_token2id d)) -> NoDup (dvals (d_token2id d)) ->
  coherent_cache (d_token2id d) (d_id2token d) ->
  (dget (d_id2token (d_refresh d)) i = Some t <-> dget (d_token2id d) t = Some i).
Proof.
  intros d i t NK NV [CN CC]. unfold d_refresh. destruct (_ =? _) eqn:E.
  - apply Nat.eqb_eq in E. split.
    + intros G. apply dget_iff; auto. apply CC. apply dget_In; auto.
    + intros G. destruct (dget (d_id2token d) i) as [t'|] eqn:G'.
      * apply dget_In, CC in G'. apply In_dget in G'; auto. f_equal. eapply inj_ids_NoDup; eauto.
      * exfalso. apply dget_None in G'. apply G'.
        assert (P : incl (dvals (d_token2id d)) (dkeys (d_id2token d))).
        { apply NoDup_length_incl; auto.
          - rewrite length_dvals, length_dkeys. lia.
          - intros j HI. apply dget_Some_key in HI. destruct HI as [t' Et']. apply dget_In, CC, In_dget in Et'; auto.
            eapply dget_In_vals; eauto. }
        apply P. eapply dget_In_vals; eauto.
  - simpl. apply revdict_get; auto.
Qed.

Lemma parse_show_field : forall n, parse_nat_field (show_nat n) = Some n.
Proof.
  intros n. unfold parse_nat_field.
  rewrite strip_nosp by (eapply Forall_impl; [|apply show_nat_digits]; intros; apply digit_not_space; auto).
  rewrite parse_Z_digits by apply show_nat_digits. unfold show_nat. rewrite parse_show_N. simpl.
  destruct (Z.of_N (N.of_nat n) <? 0)%Z eqn:E; [lia|]. f_equal. lia.
Qed.

Lemma removelast_nl : forall (s : pystr), removelast (s ++ [chr_nl]) = s.
Proof. intros. rewrite removelast_app by discriminate. simpl. apply app_nil_r. Qed.

Lemma dict_line_eq : forall i t f,
  dict_line i t f = (show_nat i ++ chr_tab :: t ++ chr_tab :: show_nat f) ++ [chr_nl].
Proof. intros. unfold dict_line. rewrite <- app_assoc. simpl. rewrite <- app_assoc. reflexivity. Qed.

Lemma load_line_ok : forall d i t f, ~ In chr_tab t -> dget (d_token2id d) t = None ->
  load_line d (dict_line i t f) =
  Ok (mkDictionary (dset (d_token2id d) t i) (d_id2token d) (d_cfs d) (dset (d_dfs d) i f)
        (d_num_docs d) (d_num_pos d) (d_num_nnz d)).
Proof.
  intros d i t f NT N. unfold load_line. rewrite dict_line_eq, removelast_nl.
  rewrite split_on_app by (apply show_nat_notin; reflexivity).
  rewrite split_on_app by auto.
  rewrite split_on_word by (apply show_nat_notin; reflexivity).
  rewrite !parse_show_field. cbn [of_option rbind]. unfold dmem. rewrite N. reflexivity.
Qed.

Local Notation triple := (nat * pystr * nat)%type.
Definition tr_line (x : triple) : pystr := dict_line (fst (fst x)) (snd (fst x)) (snd x).

Lemma load_lines_ok : forall (l : list triple) d,
  NoDup (map (fun x => snd (fst x)) l) ->
  (forall x, In x l -> ~ In chr_tab (snd (fst x)) /\ ~ In (snd (fst x)) (dkeys (d_token2id d))) ->
  rfold load_line (map tr_line l) d =
  Ok (mkDictionary (d_token2id d ++ map (fun x => (snd (fst x), fst (fst x))) l) (d_id2token d) (d_cfs d)
        (fold_left (fun m kv => dset m (fst kv) (snd kv)) (map (fun x => (fst (fst x), snd x)) l) (d_dfs d))
        (d_num_docs d) (d_num_pos d) (d_num_nnz d)).
Proof.
  induction l as [|[[i t] f] l IH]; intros d ND A; cbn [map rfold].
  - rewrite app_nil_r. destruct d; reflexivity.
  - unfold tr_line at 1. cbn [fst snd].
    destruct (A (i, t, f)) as [NT NI]; [simpl; auto|]. cbn [fst snd] in NT, NI.
    rewrite load_line_ok; [|auto | apply dget_None; auto]. cbn [rbind].
    cbn [map fst snd] in ND. inversion ND; subst.
    rewrite IH; auto; cbn [d_token2id d_id2token d_cfs d_dfs d_num_docs d_num_pos d_num_nnz].
    + rewrite dset_notin by auto. rewrite <- app_assoc. reflexivity.
    + intros x HI. split; [apply A; simpl; auto|]. rewrite In_dkeys_dset. intros [E|HI'].
      * apply H1. rewrite E. apply in_map_iff. exists x; auto.
      * apply (A x); simpl; auto.
Qed.

Lemma perm_dict_eq : forall {K V} `{EqDec K} (m m' : dict K V), NoDup (dkeys m) -> Permutation m m' -> dict_eq m m'.
Proof.
  intros K V HK m m' ND P k.
  assert (ND' : NoDup (dkeys m')) by (eapply Permutation_NoDup; [apply Permutation_map; exact P | auto]).
  destruct (dget m k) as [v|] eqn:E.
  - symmetry. apply In_dget; auto. eapply Permutation_in; [exact P|]. apply dget_In; auto.
  - symmetry. apply dget_None. apply dget_None in E. intros HI; apply E.
    eapply Permutation_in; [apply Permutation_map, Permutation_sym; exact P | exact HI].
Qed.

Lemma header_lines : forall n (l : list triple), (forall x, In x l -> ~ In chr_nl (snd (fst x))) ->
  file_lines ((show_nat n ++ [chr_nl]) ++ concat (map tr_line l)) = (show_nat n ++ [chr_nl]) :: map tr_line l.
Proof.
  intros n l A. rewrite <- app_assoc. cbn [app]. rewrite file_lines_cons by (apply show_nat_notin; reflexivity).
  f_equal.
  assert (E : map tr_line l = map (fun w => w ++ [chr_nl]) (map (fun x : triple => show_nat (fst (fst x)) ++ chr_tab :: snd (fst x) ++ chr_tab :: show_nat (snd x)) l)).
  { rewrite map_map. apply map_ext. intros x. apply dict_line_eq. }
  rewrite E. apply file_lines_concat. apply Forall_forall. intros w HI. apply in_map_iff in HI.
  destruct HI as [x [<- HI]]. rewrite in_app_iff. simpl. rewrite in_app_iff. simpl.
  intros [H|[H|[H|[H|H]]]]; try discriminate; try (apply show_nat_notin in H; [auto | reflexivity]).
  apply (A x HI); auto.
Qed.

Lemma all_digits_show : forall n, all_digits (show_nat n) = true.
Proof.
  intros n. unfold all_digits. destruct (show_nat n) eqn:E; [apply show_nat_nonempty in E; auto|].
  rewrite <- E. apply forallb_forall. pose proof (show_nat_digits n) as F. rewrite Forall_forall in F. auto.
Qed.

Lemma load_saved : forall n (l : list triple),
  NoDup (map (fun x => snd (fst x)) l) ->
  (forall x, In x l -> text_safe (snd (fst x))) ->
  d_load_from_text ((show_nat n ++ [chr_nl]) ++ concat (map tr_line l)) =
  Ok (mkDictionary (map (fun x => (snd (fst x), fst (fst x))) l) [] []
        (dict_of (map (fun x => (fst (fst x), snd x)) l)) n 0 0).
Proof.
  intros n l ND A. unfold d_load_from_text. rewrite header_lines by (intros x HI; apply (A x HI)).
  rewrite strip_nosp_tail.
  - rewrite all_digits_show, parse_show_nat. cbn [of_option rbind].
    rewrite load_lines_ok; auto. intros x HI. split; [apply (A x HI) | auto].
  - eapply Forall_impl; [|apply show_nat_digits]. intros; apply digit_not_space; auto.
  - apply show_nat_nonempty.
  - constructor; [reflexivity | constructor].
Qed.

Lemma rmapM_ok : forall {A B} (f : A -> result B) (g : A -> B) l, (forall x, In x l -> f x = Ok (g x)) ->
  rmapM f l = Ok (map g l).
Proof.
  induction l as [|x l IH]; intros A0; [reflexivity|]. cbn [rmapM map].
  rewrite A0 by (simpl; auto). cbn [rbind]. rewrite IH by (intros; apply A0; simpl; auto). reflexivity.
Qed.

Lemma text_roundtrip : forall d sort_by_word,
  consistent (d_token2id d) (d_dfs d) (d_cfs d) ->
  coherent_cache (d_token2id d) (d_id2token d) ->
  (forall t i, dget (d_token2id d) t = Some i -> text_safe t) ->
  exists content d', d_save_as_text d sort_by_word = Ok content /\ d_load_from_text content = Ok d' /\
    dict_eq (d_token2id d') (d_token2id d) /\ dict_eq (d_dfs d') (d_dfs d) /\
    d_num_docs d' = d_num_docs d /\ d_cfs d' = [] /\ d_num_pos d' = 0 /\ d_num_nnz d' = 0.
Proof.
  intros d sbw C CC TS. destruct (proj1 (consistent_weak d) C) as [NK NV ND DI NC CI].
  unfold d_save_as_text. destruct sbw.
  - set (l := map (fun ti : pystr * nat => (snd ti, fst ti, dget_or (d_dfs d) (snd ti) 0)) (sorted_items (d_token2id d))).
    assert (P : Permutation (d_token2id d) (sorted_items (d_token2id d))) by apply Permutation_isort.
    assert (L1 : map (fun x : triple => snd (fst x)) l = dkeys (sorted_items (d_token2id d))).
    { unfold l. rewrite map_map. reflexivity. }
    assert (NDl : NoDup (map (fun x : triple => snd (fst x)) l)).
    { rewrite L1. eapply Permutation_NoDup; [apply Permutation_map; exact P | exact NK]. }
    eexists. eexists. split; [reflexivity|].
    replace (map (fun ti : pystr * nat => dict_line (snd ti) (fst ti) (dget_or (d_dfs d) (snd ti) 0)) (sorted_items (d_token2id d)))
      with (map tr_line l) by (unfold l; rewrite map_map; reflexivity).
    split; [apply load_saved; auto|].
    + intros x HI. assert (HI' : In (snd (fst x)) (dkeys (sorted_items (d_token2id d)))) by (rewrite <- L1; apply (in_map (fun x : triple => snd (fst x))); auto).
      eapply Permutation_in in HI'; [|apply Permutation_map, Permutation_sym; exact P].
      apply dget_Some_key in HI'. destruct HI' as [i Ei]. eapply TS; eauto.
    + cbn [d_token2id d_dfs d_num_docs d_cfs d_num_pos d_num_nnz].
      assert (M : map (fun x : triple => (snd (fst x), fst (fst x))) l = sorted_items (d_token2id d)).
      { unfold l. rewrite map_map. cbn [fst snd]. rewrite (map_ext _ (fun x => x)) by (intros [? ?]; reflexivity). apply map_id. }
      assert (M2 : map (fun x : triple => (fst (fst x), snd x)) l = map (fun ti : pystr * nat => (snd ti, dget_or (d_dfs d) (snd ti) 0)) (sorted_items (d_token2id d))).
      { unfold l. rewrite map_map. reflexivity. }
      rewrite M, M2. split; [|split; [|auto]].
      * intros k. symmetry. apply perm_dict_eq; auto.
      * assert (NV' : NoDup (dvals (sorted_items (d_token2id d)))) by (eapply Permutation_NoDup; [apply Permutation_map; exact P | exact NV]).
        rewrite dict_of_NoDup by (rewrite map_map; exact NV').
        intros i. destruct (dget (d_dfs d) i) as [v|] eqn:Ev.
        { apply In_dget; [unfold dkeys; rewrite map_map; exact NV'|]. apply in_map_iff.
          assert (HI : In i (dvals (d_token2id d))) by (apply DI; apply dget_Some_key; eauto).
          apply In_vals_dget in HI; auto. destruct HI as [t Et]. exists (t, i). cbn [fst snd].
          unfold dget_or. rewrite Ev. split; [reflexivity|]. eapply Permutation_in; [exact P|]. apply dget_In; auto. }
        { apply dget_None. apply dget_None in Ev. intros HI. apply Ev, DI. unfold dkeys in HI. rewrite map_map in HI.
          eapply Permutation_in; [apply Permutation_map, Permutation_sym; exact P | exact HI]. }
  - set (name i := match dget (d_id2token (d_refresh d)) i with Some t => t | None => [] end).
    set (s := isort (fun a b : nat * nat => snd b <=? snd a) (d_dfs d)).
    assert (P : Permutation (d_dfs d) s) by apply Permutation_isort.
    assert (NM : forall kf, In kf s -> dget (d_id2token (d_refresh d)) (fst kf) = Some (name (fst kf)) /\
                   dget (d_token2id d) (name (fst kf)) = Some (fst kf)).
    { intros kf HI. assert (HI' : In (fst kf) (dvals (d_token2id d))).
      { apply DI. eapply Permutation_in; [apply Permutation_map, Permutation_sym; exact P | apply in_map; auto]. }
      apply In_vals_dget in HI'; auto. destruct HI' as [t Et].
      assert (G : dget (d_id2token (d_refresh d)) (fst kf) = Some t) by (apply In_refresh_get; auto).
      unfold name. rewrite G. auto. }
    set (l := map (fun kf : nat * nat => (fst kf, name (fst kf), snd kf)) s).
    assert (NS : NoDup (dkeys s)) by (eapply Permutation_NoDup; [apply Permutation_map; exact P | exact ND]).
    assert (NDl : NoDup (map (fun x : triple => snd (fst x)) l)).
    { unfold l. rewrite map_map. cbn [fst snd]. clear - NM NS. induction s as [|kf s IH]; simpl; [constructor|].
      inversion NS; subst. constructor.
      - intros HI. apply in_map_iff in HI. destruct HI as [kf' [E HI]]. apply H1.
        destruct (NM kf) as [_ E1]; [simpl; auto|]. destruct (NM kf') as [_ E2]; [simpl; auto|].
        rewrite E in E2. assert (fst kf' = fst kf) by congruence. rewrite <- H. apply in_map; auto.
      - apply IH; auto. intros; apply NM; simpl; auto. }
    rewrite (rmapM_ok _ (fun kf => tr_line (fst kf, name (fst kf), snd kf))).
    2:{ intros kf HI. cbn [d_getitem snd]. destruct (NM kf HI) as [-> _]. reflexivity. }
    cbn [rbind]. eexists. eexists. split; [reflexivity|].
    replace (map (fun kf : nat * nat => tr_line (fst kf, name (fst kf), snd kf)) s) with (map tr_line l)
      by (unfold l; rewrite map_map; reflexivity).
    split; [apply load_saved; auto|].
    + intros x HI. unfold l in HI. apply in_map_iff in HI. destruct HI as [kf [<- HI]]. cbn [fst snd].
      destruct (NM kf HI) as [_ E]. eapply TS; eauto.
    + cbn [d_token2id d_dfs d_num_docs d_cfs d_num_pos d_num_nnz].
      split; [|split; [|auto]].
      * intros t.
        assert (NDl' : NoDup (dkeys (map (fun x : triple => (snd (fst x), fst (fst x))) l))) by (unfold dkeys; rewrite map_map; exact NDl).
        destruct (dget (d_token2id d) t) as [i|] eqn:Et.
        { apply In_dget; auto. apply in_map_iff.
          assert (HI : In i (dkeys (d_dfs d))) by (apply DI; eapply dget_In_vals; eauto).
          eapply Permutation_in in HI; [|apply Permutation_map; exact P]. apply in_map_iff in HI.
          destruct HI as [kf [<- HI]]. destruct (NM kf HI) as [_ E].
          exists (fst kf, name (fst kf), snd kf). cbn [fst snd]. split.
          - f_equal. eapply inj_ids_NoDup; eauto.
          - unfold l. apply in_map_iff. exists kf; auto. }
        { apply dget_None. apply dget_None in Et. intros HI; apply Et. unfold dkeys in HI. rewrite map_map in HI.
          apply in_map_iff in HI. destruct HI as [x [<- HI]]. unfold l in HI. apply in_map_iff in HI.
          destruct HI as [kf [<- HI]]. cbn [fst snd]. destruct (NM kf HI) as [_ E]. apply dget_Some_key; eauto. }
      * replace (map (fun x : triple => (fst (fst x), snd x)) l) with s.
        2:{ unfold l. rewrite map_map. cbn [fst snd]. rewrite (map_ext _ (fun x => x)) by (intros [? ?]; reflexivity). symmetry; apply map_id. }
        rewrite dict_of_NoDup by exact NS. intros k. symmetry. apply perm_dict_eq; auto.
Qed.

(** ** C09: merge_with *)

Definition odf (odfs : option (dict nat nat)) (j : nat) : nat :=
  match odfs with Some m => dget_or m j 0 | None => 0 end.

Lemma df_of_add_token : forall d t t', d_inv d -> dget (d_token2id d) t = None -> df_of (add_token d t) t' = df_of d t'.
Proof.
  intros d t t' I N. unfold df_of, add_token. cbn [d_token2id d_dfs]. rewrite dget_dset.
  destruct (eq_dec t t') as [->|NE].
  - rewrite N. unfold dget_or. rewrite dget_dset_same. reflexivity.
  - destruct (dget (d_token2id d) t') as [i|] eqn:E; [|reflexivity].
    unfold dget_or. rewrite dget_dset_other; [reflexivity|]. apply inv_id_lt in E; auto. lia.
Qed.

Lemma merge_step_spec : forall odfs d o2n j t, d_inv d ->
  let d' := fst (merge_step odfs (d, o2n) (j, t)) in
  let o2n' := snd (merge_step odfs (d, o2n) (j, t)) in
  d_inv d' /\
  (forall t' i, dget (d_token2id d) t' = Some i -> dget (d_token2id d') t' = Some i) /\
  (forall t', In t' (dkeys (d_token2id d')) <-> In t' (dkeys (d_token2id d)) \/ t' = t) /\
  (exists i, dget (d_token2id d') t = Some i /\ o2n' = dset o2n j i) /\
  (forall t', df_of d' t' = df_of d t' + if eq_dec t t' then odf odfs j else 0) /\
  d_num_docs d' = d_num_docs d /\ d_num_pos d' = d_num_pos d /\ d_num_nnz d' = d_num_nnz d /\
  d_cfs d' = d_cfs d.
Proof.
  intros odfs d o2n j t I. cbv zeta.
  split; [apply merge_step_inv; auto|]. rewrite merge_step_cases. cbn [fst snd].
  destruct (dget (d_token2id d) t) as [i|] eqn:Et.
  - assert (Li : i < d_len d) by (eapply inv_id_lt; eauto).
    assert (Di : exists a, dget (d_dfs d) i = Some a) by (apply dget_Some_key, (i_dfs _ I); auto).
    destruct Di as [a Da]. rewrite Da.
    assert (KI : In t (dkeys (d_token2id d))) by (apply dget_Some_key; eauto).
    assert (Z : odfs = None \/ (exists m, odfs = Some m /\ dget m j = None) \/ exists m b, odfs = Some m /\ dget m j = Some b).
    { destruct odfs as [m|]; [|auto]. destruct (dget m j) eqn:G; right; [right|left]; eauto. }
    destruct Z as [-> | [(m & -> & G) | (m & b & -> & G)]].
    1,2: (try rewrite G); (split; [auto|]); (split; [intros; split; [auto | intros [H0| ->]; auto]|]);
      (split; [eauto|]); (split; [|auto]); intros t'; cbn [odf]; unfold dget_or; (try rewrite G); destruct (eq_dec t t'); lia.
    rewrite G. split; [auto|]. split; [intros; split; [auto | intros [H0| ->]; auto]|]. split; [eauto|]. split; [|auto].
    intros t'. cbn [odf]. unfold dget_or at 1. rewrite G. unfold df_of, set_df. cbn [d_token2id d_dfs].
    destruct (eq_dec t t') as [<-|NE].
    + rewrite Et. unfold dget_or. rewrite dget_dset_same, Da. reflexivity.
    + destruct (dget (d_token2id d) t') as [i'|] eqn:Et'; [|reflexivity].
      unfold dget_or. rewrite dget_dset_other; [lia|]. intros ->. apply NE. eapply inv_inj; eauto.
  - assert (I' : d_inv (add_token d t)) by (apply add_token_inv; auto).
    assert (Da : dget (d_dfs (add_token d t)) (d_len d) = Some 0) by (unfold add_token; cbn [d_dfs]; apply dget_dset_same).
    assert (Et' : dget (d_token2id (add_token d t)) t = Some (d_len d)) by (unfold add_token; cbn [d_token2id]; apply dget_dset_same).
    rewrite Da.
    assert (EXT : forall t' i, dget (d_token2id d) t' = Some i -> dget (d_token2id (add_token d t)) t' = Some i).
    { intros t' i E. unfold add_token; cbn [d_token2id]. rewrite dget_dset_other; auto. congruence. }
    assert (KEYS : forall t', In t' (dkeys (d_token2id (add_token d t))) <-> In t' (dkeys (d_token2id d)) \/ t' = t).
    { intros t'. unfold add_token; cbn [d_token2id]. rewrite In_dkeys_dset. split; intros [|]; auto. }
    assert (Z : odfs = None \/ (exists m, odfs = Some m /\ dget m j = None) \/ exists m b, odfs = Some m /\ dget m j = Some b).
    { destruct odfs as [m|]; [|auto]. destruct (dget m j) eqn:G; right; [right|left]; eauto. }
    destruct Z as [-> | [(m & -> & G) | (m & b & -> & G)]].
    1,2: (try rewrite G); (split; [auto|]); (split; [auto|]); (split; [eauto|]); (split; [|auto]);
      intros t'; cbn [odf]; unfold dget_or; (try rewrite G); rewrite df_of_add_token by auto; destruct (eq_dec t t'); lia.
    rewrite G. split; [auto|]. split; [auto|]. split; [eauto|]. split; [|auto].
    intros t'. cbn [odf]. unfold dget_or at 1. rewrite G. unfold df_of at 1, set_df. cbn [d_token2id d_dfs].
    destruct (eq_dec t t') as [<-|NE].
    + rewrite Et'. unfold dget_or. rewrite dget_dset_same. unfold df_of. rewrite Et. reflexivity.
    + rewrite <- (df_of_add_token d t t') by auto. unfold df_of.
      destruct (dget (d_token2id (add_token d t)) t') as [i'|] eqn:E'; [|reflexivity].
      unfold dget_or. rewrite dget_dset_other; [lia|]. intros EQ. apply NE. eapply (inv_inj _ I'); [exact Et' | rewrite E'; congruence].
Qed.

Lemma merge_fold_spec : forall odfs items d o2n, d_inv d -> NoDup (map fst items) -> NoDup (map snd items) ->
  let d' := fst (fold_left (merge_step odfs) items (d, o2n)) in
  let o2n' := snd (fold_left (merge_step odfs) items (d, o2n)) in
  d_inv d' /\
  (forall t i, dget (d_token2id d) t = Some i -> dget (d_token2id d') t = Some i) /\
  (forall t, In t (dkeys (d_token2id d')) <-> In t (dkeys (d_token2id d)) \/ In t (map snd items)) /\
  (forall j t, In (j, t) items -> dget o2n' j = dget (d_token2id d') t) /\
  (forall j, ~ In j (map fst items) -> dget o2n' j = dget o2n j) /\
  (forall j t, In (j, t) items -> df_of d' t = df_of d t + odf odfs j) /\
  (forall t, ~ In t (map snd items) -> df_of d' t = df_of d t) /\
  d_num_docs d' = d_num_docs d /\ d_num_pos d' = d_num_pos d /\ d_num_nnz d' = d_num_nnz d /\
  d_cfs d' = d_cfs d.
Proof.
  induction items as [|[j t] items IH]; intros d o2n I N1 N2; cbv zeta.
  - cbn [fold_left fst snd map]. split; [exact I|]. split; [auto|]. split; [intros t; simpl; tauto|].
    split; [intros j t []|]. split; [auto|]. split; [intros j t []|]. split; [auto|]. auto.
  - cbn [fold_left]. cbn [map fst snd] in N1, N2. inversion N1; inversion N2; subst.
    pose proof (merge_step_spec odfs d o2n j t I) as S. cbv zeta in S.
    destruct (merge_step odfs (d, o2n) (j, t)) as [d1 o1]. cbn [fst snd] in S.
    destruct S as (I1 & EX & KE & (i & Ei & Eo) & DF & A1 & A2 & A3 & A4).
    destruct (IH d1 o1 I1 H2 H6) as (I' & EX' & KE' & O1 & O2 & D1 & D2 & B1 & B2 & B3 & B4).
    split; [exact I'|]. split; [auto|]. split; [|split; [|split; [|split; [|split]]]].
    + intros t'. rewrite KE', KE. cbn [map In snd]. intuition auto.
    + intros j' t' [E|HI]; [inversion E; subst | auto].
      rewrite O2 by auto. rewrite dget_dset_same. symmetry. auto.
    + intros j' NI. cbn [map In fst] in NI. rewrite O2 by tauto. subst o1. apply dget_dset_other. intros ->; tauto.
    + intros j' t' [E|HI].
      * inversion E; subst. rewrite D2 by auto. rewrite DF. destruct (eq_dec t' t'); congruence.
      * rewrite (D1 _ _ HI). rewrite DF. destruct (eq_dec t t') as [->|]; [|lia].
        exfalso. apply H5. apply in_map_iff. exists (j', t'); auto.
    + intros t' NI. cbn [map In snd] in NI. rewrite D2 by tauto. rewrite DF. destruct (eq_dec t t'); [subst; tauto | lia].
    + repeat split; congruence.
Qed.

Lemma other_items : forall o, d_inv o ->
  exists items, other_of_dictionary o = Ok (mkOther items (Some (d_dfs o)) (Some (d_num_docs o, d_num_nnz o, d_num_pos o))) /\
    (forall j t, In (j, t) items <-> dget (d_token2id o) t = Some j) /\ NoDup (map fst items) /\ NoDup (map snd items).
Proof.
  intros o I. unfold other_of_dictionary.
  set (name i := match dget (d_id2token (d_refresh o)) i with Some t => t | None => [] end).
  assert (NM : forall i, In i (d_keys o) -> dget (d_id2token (d_refresh o)) i = Some (name i) /\ dget (d_token2id o) (name i) = Some i).
  { intros i HI. apply In_vals_dget in HI; [|apply i_keys; auto]. destruct HI as [t Et].
    assert (G : dget (d_id2token (d_refresh o)) i = Some t) by (apply d_refresh_get; auto).
    unfold name. rewrite G. auto. }
  rewrite (rmapM_ok _ (fun i => (i, name i))).
  2:{ intros i HI. cbn [d_getitem snd]. destruct (NM i HI) as [-> _]. reflexivity. }
  cbn [rbind]. eexists. split; [reflexivity|]. split; [|split].
  - intros j t. rewrite in_map_iff. split.
    + intros [i [E HI]]. inversion E; subst. apply NM; auto.
    + intros E. assert (HI : In j (d_keys o)) by (eapply dget_In_vals; eauto).
      exists j. split; auto. f_equal. eapply inv_inj; eauto. apply NM; auto.
  - rewrite map_map. simpl. rewrite map_id. apply inv_vals_nd; auto.
  - rewrite map_map. simpl.
    assert (NV : NoDup (d_keys o)) by (apply inv_vals_nd; auto).
    revert NM NV. generalize (d_keys o) as l. induction l as [|i l IH]; intros NM NV; simpl; [constructor|].
    inversion NV; subst. constructor.
    + intros HI. apply in_map_iff in HI. destruct HI as [k [E HI]].
      destruct (NM i) as [_ E1]; [simpl; auto|]. destruct (NM k) as [_ E2]; [simpl; auto|].
      rewrite E in E2. assert (i = k) by congruence. subst; auto.
    + apply IH; auto. intros; apply NM; simpl; auto.
Qed.

Lemma sorted_same_elements : forall (l l' : list (nat * nat)),
  StronglySorted (fun a b => fst a < fst b) l -> StronglySorted (fun a b => fst a < fst b) l' ->
  (forall x, In x l <-> In x l') -> l = l'.
Proof.
  induction l as [|x l IH]; intros l' S S' E.
  - destruct l' as [|y l']; [reflexivity|]. destruct (E y) as [_ H]. destruct H; simpl; auto.
  - destruct l' as [|y l']; [destruct (E x) as [H _]; destruct H; simpl; auto|].
    inversion S; inversion S'; subst. rewrite Forall_forall in *.
    assert (x = y).
    { destruct (E x) as [Hx _]. destruct (E y) as [_ Hy].
      destruct Hx as [|Hx]; [simpl; auto|congruence|]. destruct Hy as [|Hy]; [simpl; auto|congruence|].
      apply H6 in Hx. apply H2 in Hy. lia. }
    subst y. f_equal. apply IH; auto. intros z. specialize (E z). simpl in E. split; intros HI.
    + destruct E as [[E|E] _]; auto. subst z. apply H2 in HI. lia.
    + destruct E as [_ [E|E]]; auto. subst z. apply H6 in HI. lia.
Qed.

Lemma merge_spec : forall d o, d_inv d -> d_inv o ->
  exists om d' o2n, other_of_dictionary o = Ok om /\ d_merge_with d om = (d', o2n) /\ d_inv d' /\
    (forall t i, dget (d_token2id d) t = Some i -> dget (d_token2id d') t = Some i) /\
    (forall t, (exists i, dget (d_token2id d') t = Some i) <->
       (exists i, dget (d_token2id d) t = Some i) \/ (exists i, dget (d_token2id o) t = Some i)) /\
    (forall t, df_of d' t = df_of d t + df_of o t) /\
    d_num_docs d' = d_num_docs d + d_num_docs o /\
    d_num_pos d' = d_num_pos d + d_num_pos o /\
    d_num_nnz d' = d_num_nnz d + d_num_nnz o /\
    d_cfs d' = d_cfs d /\
    (forall doc, (forall t, In t doc -> exists i, dget (d_token2id o) t = Some i) ->
       vocab_transform o2n (fst (snd (d_doc2bow o doc false false))) = fst (snd (d_doc2bow d' doc false false))).
Proof.
  intros d o I Io. destruct (other_items o Io) as (items & EO & HI & N1 & N2).
  pose proof (merge_fold_spec (Some (d_dfs o)) items d [] I N1 N2) as S. cbv zeta in S.
  exists (mkOther items (Some (d_dfs o)) (Some (d_num_docs o, d_num_nnz o, d_num_pos o))).
  unfold d_merge_with. cbn [o_dfs o_items o_nums].
  destruct (fold_left (merge_step (Some (d_dfs o))) items (d, [])) as [d1 o2n] eqn:EF.
  set (F := fold_left _ _ _) in S. assert (EF' : F = (d1, o2n)) by exact EF. rewrite EF' in S.
  clear F EF' EF. cbn [fst snd] in S.
  destruct S as (I1 & EX & KE & O1 & O2 & D1 & D2 & B1 & B2 & B3 & B4).
  eexists. exists o2n. split; [exact EO|]. split; [reflexivity|].
  cbn [d_token2id d_dfs d_num_docs d_num_pos d_num_nnz d_cfs].
  split; [apply inv_nums; auto|]. split; [exact EX|]. split; [|split; [|split; [lia|split; [lia|split; [lia|split; [auto|]]]]]].
  - intros t. rewrite !dget_Some_key, KE. split; (intros [|K]; [auto|right]).
    + apply in_map_iff in K. destruct K as [[j t'] [<- K]]. apply HI in K. apply dget_Some_key; eauto.
    + apply dget_Some_key in K. destruct K as [j Ej]. apply HI in Ej. apply in_map_iff. exists (j, t); auto.
  - intros t. change (df_of d1 t = df_of d t + df_of o t).
    unfold df_of at 3. destruct (dget (d_token2id o) t) as [j|] eqn:Ej.
    + rewrite (D1 j t) by (apply HI; auto). reflexivity.
    + rewrite D2; [lia|]. intros K. apply in_map_iff in K. destruct K as [[j t'] [<- K]]. apply HI in K. simpl in Ej. congruence.
  - intros doc A. unfold d_doc2bow, vocab_transform. cbn [orb fst snd d_token2id].
    pose proof (inv_inj _ Io) as INJo. pose proof (inv_inj _ I1) as INJ1.
    destruct (doc2bow_result_exact (d_token2id o) doc INJo) as [So Eo].
    destruct (doc2bow_result_exact (d_token2id d1) doc INJ1) as [S1 E1].
    assert (ELEM : forall i n, In (i, n) (flat_map (fun iw : nat * nat => match dget o2n (fst iw) with Some i => [(i, snd iw)] | None => [] end)
                     (isort pair_leb (d_bow (d_token2id o) (count_words doc)))) <->
                   exists t, dget (d_token2id d1) t = Some i /\ n = count_occ eq_dec doc t /\ 0 < n).
    { intros i n. rewrite in_flat_map. split.
      - intros [[j m] [K1 K2]]. cbn [fst snd] in K2. apply Eo in K1. destruct K1 as (t & Et & En & L).
        rewrite (O1 j t) in K2 by (apply HI; auto).
        destruct (dget (d_token2id d1) t) as [i'|] eqn:E'; [|destruct K2].
        destruct K2 as [K2|[]]. inversion K2; subst. eauto.
      - intros (t & Et & En & L). assert (K : In t doc) by (apply (count_occ_In eq_dec); unfold gt; rewrite <- En; auto).
        destruct (A t K) as [j Ej]. exists (j, n). split; [apply Eo; eauto|]. cbn [fst snd].
        rewrite (O1 j t) by (apply HI; auto). rewrite Et. simpl; auto. }
    apply sorted_same_elements; [|exact S1|].
    + apply isort_pair_strict.
      (* new ids of distinct old ids are distinct *)
      assert (NDo : NoDup (map fst (isort pair_leb (d_bow (d_token2id o) (count_words doc))))).
      { clear - So. induction So; simpl; constructor; auto. intros K. apply in_map_iff in K. destruct K as [y [E K]].
        rewrite Forall_forall in H. apply H in K. lia. }
      assert (EL : forall j m, In (j, m) (isort pair_leb (d_bow (d_token2id o) (count_words doc))) -> exists t, dget (d_token2id o) t = Some j).
      { intros j m K. apply Eo in K. destruct K as (t & Et & _). eauto. }
      revert NDo EL. generalize (isort pair_leb (d_bow (d_token2id o) (count_words doc))) as l.
      induction l as [|[j m] l IH]; intros NDo EL; simpl; [constructor|]. inversion NDo; subst.
      destruct (EL j m) as [t Et]; [simpl; auto|]. rewrite (O1 j t) by (apply HI; auto).
      destruct (dget (d_token2id d1) t) as [i|] eqn:Ei; cbn [app map fst]; [|apply IH; auto; intros; eapply EL; simpl; eauto].
      constructor; [|apply IH; auto; intros; eapply EL; simpl; eauto].
      intros K. apply in_map_iff in K. destruct K as [[i' n'] [E K]]. cbn [fst] in E; subst i'.
      apply in_flat_map in K. destruct K as [[j' m'] [K1 K2]]. cbn [fst snd] in K2.
      destruct (EL j' m') as [t' Et']; [simpl; auto|]. rewrite (O1 j' t') in K2 by (apply HI; auto).
      destruct (dget (d_token2id d1) t') as [i''|] eqn:E''; [|destruct K2]. destruct K2 as [K2|[]]. inversion K2; subst.
      assert (t' = t) by (eapply INJ1; eauto). subst t'. assert (j' = j) by congruence. subst j'.
      apply H1. apply in_map_iff. exists (j, n'); auto.
    + intros [i n]. rewrite In_isort, ELEM, E1. tauto.
Qed.

(** ** Special tokens *)

Lemma NoDup_vals_inj : forall (m : dict pystr nat), NoDup (dkeys m) -> inj_ids m -> NoDup (dvals m).
Proof.
  induction m as [|[a k] m IH]; simpl; intros NK INJ; [constructor|]. inversion NK; subst. constructor.
  - intros HI. apply In_vals_dget in HI; auto. destruct HI as [b Eb].
    assert (NE : a <> b) by (intros ->; apply H1; apply dget_Some_key; eauto).
    apply NE. apply (INJ a b k); simpl.
    + destruct (eq_dec a a); congruence.
    + destruct (eq_dec a b); congruence.
  - apply IH; auto. intros a' b' k' Ea Eb. apply (INJ a' b' k'); simpl.
    + destruct (eq_dec a a'); auto. subst. exfalso; apply H1. apply dget_Some_key; eauto.
    + destruct (eq_dec a b'); auto. subst. exfalso; apply H1. apply dget_Some_key; eauto.
Qed.

Lemma length_ddel : forall (m : dict pystr nat) t, NoDup (dkeys m) -> In t (dkeys m) -> S (length (ddel m t)) = length m.
Proof.
  induction m as [|[k v] m IH]; simpl; intros t ND HI; [destruct HI|]. inversion ND; subst.
  destruct (eq_dec k t) as [->|NE]; [reflexivity|].
  destruct HI as [|HI]; [congruence|]. simpl. f_equal. auto.
Qed.

Lemma inj_patch : forall (f : pystr -> option nat) t old idx i,
  (forall a b k, f a = Some k -> f b = Some k -> a = b) ->
  f old = Some idx -> old <> t -> i <> idx -> (forall a, f a = Some i -> a = t) ->
  let g a := if eq_dec old a then Some i else if eq_dec t a then Some idx else f a in
  forall a b k, g a = Some k -> g b = Some k -> a = b.
Proof.
  intros f t old idx i INJ Eo NE NI U g a b k. unfold g.
  destruct (eq_dec old a) as [<-|N1]; [|destruct (eq_dec t a) as [<-|N2]];
    (destruct (eq_dec old b) as [<-|N3]; [|destruct (eq_dec t b) as [<-|N4]]); intros Ea Eb; try congruence; eauto.
  - assert (b = t) by (apply U; congruence). congruence.
  - assert (b = old) by (eapply INJ; eauto; congruence). congruence.
  - assert (a = t) by (apply U; congruence). congruence.
  - assert (a = old) by (eapply INJ; eauto; congruence). congruence.
Qed.

(** With one special token, and a reverse map that is empty or complete, the
    patched map is again one-to-one on a dense range and the token sits at the
    wanted id; only the token that was there before moves. *)
Lemma patch_single : forall d t idx, d_inv d -> idx < d_len d ->
  d_id2token d = [] \/ length (d_id2token d) = d_len d ->
  exists d', d_patch_with_special_tokens d [(t, idx)] = Ok d' /\
    dget (d_token2id d') t = Some idx /\
    dense_ids (dget (d_token2id d')) (d_len d') /\
    (forall t', (exists i, dget (d_token2id d') t' = Some i) <-> t' = t \/ exists i, dget (d_token2id d) t' = Some i) /\
    (forall t' i, t' <> t -> dget (d_token2id d) t' = Some i -> i <> idx -> dget (d_token2id d') t' = Some i).
Proof.
  intros d t idx I L CA. unfold d_patch_with_special_tokens. cbn [rfold].
  unfold patch_step.
  destruct (eq_dec (dget (d_token2id d) t) (Some idx)) as [E|NE].
  - cbn [rbind fst]. eexists. split; [reflexivity|]. cbn [with_id2token d_token2id].
    split; [auto|]. split; [exact (inv_dense d I)|]. split; [|auto].
    intros t'. split; [auto | intros [->|]; eauto].
  - destruct (inv_id_ex d idx I L) as [old Eold].
    destruct (inv_dense d I) as (D1 & D2 & D3).
    destruct (dget (d_token2id d) t) as [i|] eqn:Et.
    + (* present with another id: swap *)
      set (m := ddel (d_token2id d) t).
      set (dd := mkDictionary m (d_id2token d) (d_cfs d) (d_dfs d) (d_num_docs d) (d_num_pos d) (d_num_nnz d)).
      assert (NEid : i <> idx) by congruence.
      assert (NEold : old <> t) by congruence.
      assert (NKm : NoDup (dkeys m)) by (apply NoDup_ddel, i_keys; auto).
      assert (Gm : forall t', t' <> t -> dget m t' = dget (d_token2id d) t') by (intros; apply dget_ddel_other; auto).
      assert (Gmt : dget m t = None) by (apply dget_ddel_same, i_keys; auto).
      assert (INJm : inj_ids m).
      { intros a b k Ea Eb. assert (a <> t) by congruence. assert (b <> t) by congruence.
        rewrite Gm in Ea, Eb by auto. eapply inv_inj; eauto. }
      assert (NVm : NoDup (dvals m)) by (apply NoDup_vals_inj; auto).
      assert (LM : S (length m) = d_len d).
      { apply length_ddel; [apply i_keys; auto | apply dget_Some_key; eauto]. }
      assert (LK : dget (d_id2token (d_refresh dd)) idx = Some old).
      { unfold d_refresh. cbn [dd d_id2token d_token2id].
        destruct (length (d_id2token d) =? length m) eqn:EL; [apply Nat.eqb_eq in EL | ].
        - exfalso. destruct CA as [C|C]; [rewrite C in EL; cbn in EL | lia].
          assert (i < d_len d) by (eapply D1; eauto). lia.
        - cbn [with_id2token d_id2token]. apply revdict_get; auto. rewrite Gm; auto. }
      cbn [d_getitem]. rewrite LK. cbn [rbind fst]. eexists. split; [reflexivity|].
      cbn [with_id2token d_token2id].
      destruct (d_refresh_fields dd) as (-> & _). cbn [dd d_token2id].
      assert (G : forall t', dget (dset (dset m t idx) old i) t' =
                 if eq_dec old t' then Some i else if eq_dec t t' then Some idx else dget (d_token2id d) t').
      { intros t'. rewrite dget_dset. destruct (eq_dec old t'); auto. rewrite dget_dset. destruct (eq_dec t t'); auto. }
      assert (LEN : length (dset (dset m t idx) old i) = d_len d).
      { rewrite length_dset_in; [|apply In_dkeys_dset; right; apply dget_Some_key; exists idx; rewrite Gm; auto].
        rewrite length_dset_notin; [lia | apply dget_None; auto]. }
      split; [|split; [|split]].
      * rewrite G. destruct (eq_dec old t); [congruence|]. destruct (eq_dec t t); congruence.
      * unfold d_len. cbn [with_id2token d_token2id fst]. rewrite LEN. split; [|split].
        { intros t' k. rewrite G. destruct (eq_dec old t'), (eq_dec t t'); intros Ek; try inversion Ek; subst; eauto. }
        { intros k Lk. destruct (D2 k Lk) as [t' Et'].
          destruct (Nat.eq_dec k i) as [->|N1]; [exists old; rewrite G; destruct (eq_dec old old); congruence|].
          destruct (Nat.eq_dec k idx) as [->|N2].
          - exists t. rewrite G. destruct (eq_dec old t); [congruence|]. destruct (eq_dec t t); congruence.
          - exists t'. rewrite G. destruct (eq_dec old t'); [subst; congruence|]. destruct (eq_dec t t'); [subst; congruence|auto]. }
        { intros a b k. rewrite !G. apply inj_patch; auto. intros a' Ea. eapply D3; eauto. }
      * intros t'. rewrite G. destruct (eq_dec old t') as [<-|]; [split; eauto|].
        destruct (eq_dec t t') as [<-|]; [split; eauto|]. split; [auto | intros [->|]; [congruence|auto]].
      * intros t' k N1 Ek Nk. rewrite G. destruct (eq_dec old t') as [<-|]; [congruence|].
        destruct (eq_dec t t'); [congruence | auto].
    + (* a new token *)
      cbn [d_getitem]. assert (LK : dget (d_id2token (d_refresh d)) idx = Some old) by (apply d_refresh_get; auto).
      rewrite LK. cbn [rbind fst]. eexists. split; [reflexivity|].
      cbn [with_id2token d_token2id]. destruct (d_refresh_fields d) as (-> & _).
      assert (NEold : old <> t) by congruence.
      assert (LT1 : length (dset (d_token2id d) t idx) - 1 = d_len d).
      { rewrite length_dset_notin; [unfold d_len; lia | apply dget_None; auto]. }
      rewrite LT1.
      assert (G : forall t', dget (dset (dset (d_token2id d) t idx) old (d_len d)) t' =
                 if eq_dec old t' then Some (d_len d) else if eq_dec t t' then Some idx else dget (d_token2id d) t').
      { intros t'. rewrite dget_dset. destruct (eq_dec old t'); auto. rewrite dget_dset. destruct (eq_dec t t'); auto. }
      assert (LEN : length (dset (dset (d_token2id d) t idx) old (d_len d)) = S (d_len d)).
      { rewrite length_dset_in; [|apply In_dkeys_dset; right; apply dget_Some_key; eauto].
        rewrite length_dset_notin; [reflexivity | apply dget_None; auto]. }
      split; [|split; [|split]].
      * rewrite G. destruct (eq_dec old t); [congruence|]. destruct (eq_dec t t); congruence.
      * unfold d_len at 2. cbn [with_id2token d_token2id fst]. rewrite LEN. split; [|split].
        { intros t' k. rewrite G. destruct (eq_dec old t'), (eq_dec t t'); intros Ek; try inversion Ek; subst; try lia.
          apply D1 in Ek. lia. }
        { intros k Lk. destruct (Nat.eq_dec k (d_len d)) as [->|N1]; [exists old; rewrite G; destruct (eq_dec old old); congruence|].
          assert (Lk' : k < d_len d) by lia. destruct (D2 k Lk') as [t' Et'].
          destruct (Nat.eq_dec k idx) as [->|N2].
          - exists t. rewrite G. destruct (eq_dec old t); [congruence|]. destruct (eq_dec t t); congruence.
          - exists t'. rewrite G. destruct (eq_dec old t'); [subst; congruence|]. destruct (eq_dec t t'); [subst; congruence|auto]. }
        { intros a b k. rewrite !G. apply inj_patch; auto; [lia|]. intros a' Ea. apply D1 in Ea. lia. }
      * intros t'. rewrite G. destruct (eq_dec old t') as [<-|]; [split; eauto|].
        destruct (eq_dec t t') as [<-|]; [split; eauto|]. split; [auto | intros [->|]; [congruence|auto]].
      * intros t' k N1 Ek Nk. rewrite G. destruct (eq_dec old t') as [<-|]; [congruence|].
        destruct (eq_dec t t'); [congruence | auto].
Qed.
