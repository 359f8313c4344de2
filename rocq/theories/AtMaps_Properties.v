(** Authors and documents of the author-topic model (C95). *)
From Verif Require Import Base Str Utils_Model Utils_Properties AtMaps_Model AtMaps_Spec AtMaps_Proofs.

Section P.
Context {D G : Type}.
Variable order : list pystr -> list pystr.
Hypothesis ORDER : forall l, Permutation (order l) l.
Variable draw : nat -> G.
Notation model := (@at_model D G).

Record consistent (st : model) : Prop := {
  c_len : length (m_corpus st) = m_total st;
  c_maps : maps_agree (m_author2doc st) (m_doc2author st) 0 (m_total st);
  c_ids : numbering (m_author2id st) (m_id2author st) (m_authors st);
  c_known : forall a, In a (map fst (m_author2doc st)) <-> In a (map fst (m_author2id st));
  c_gamma : length (m_gamma st) = m_authors st }.

(** ** Making one map from the other *)
Theorem doc2author_made : forall (corpus : list D) a2d,
  let d2a := construct_doc2author corpus a2d in
  NoDup (map fst d2a) /\ (forall d, In d (map fst d2a) <-> d < length corpus) /\
  (forall d a, written_by d2a d a <-> d < length corpus /\ wrote a2d a d).
Proof.
  clear ORDER draw.
  intros corpus a2d d2a. assert (ND : NoDup (dkeys d2a)) by (apply (fold_dset_nd (fun d : nat => d) (fun _ d => map fst (filter (fun e => memb d (snd e)) a2d))); constructor).
  assert (GET : forall d, dget d2a d = if in_dec eq_dec d (seq 0 (length corpus)) then Some (map fst (filter (fun e => memb d (snd e)) a2d)) else None).
  { intros d. unfold d2a, construct_doc2author. rewrite fold_key_get. reflexivity. }
  split; [exact ND|]. split.
  - intros d. rewrite <- (dget_Some_key d2a d), GET. destruct (in_dec eq_dec d (seq 0 (length corpus))) as [I|I]; rewrite in_seq in I; (split; [|eauto]); [lia | intros (v & E); discriminate | intros; lia].
  - intros d a. unfold written_by, wrote. split.
    + intros (l & I & Ia). apply (In_dget d2a) in I; [|exact ND]. rewrite GET in I. destruct (in_dec eq_dec d (seq 0 (length corpus))) as [J|]; [|discriminate]. rewrite in_seq in J. split; [lia|].
      injection I as <-. apply in_map_iff in Ia. destruct Ia as ((a', ds) & <- & F). apply filter_In in F. destruct F as (F & M). cbn [snd] in M. rewrite memb_true in M. exists ds. auto.
    + intros (L & ds & I & Id). exists (map fst (filter (fun e => memb d (snd e)) a2d)). split.
      * apply dget_In. rewrite GET. destruct (in_dec eq_dec d (seq 0 (length corpus))) as [|N]; [reflexivity|]. rewrite in_seq in N. lia.
      * apply in_map_iff. exists (a, ds). split; [reflexivity|]. apply filter_In. split; [exact I|]. cbn [snd]. rewrite memb_true. exact Id.
Qed.
Theorem author2doc_made : forall d2a, NoDup (map fst d2a) ->
  let a2d := construct_author2doc order d2a in
  NoDup (map fst a2d) /\ (forall a d, wrote a2d a d <-> written_by d2a d a) /\ (forall a ds, In (a, ds) a2d -> ds <> [] /\ NoDup ds).
Proof.
  clear draw.
  intros d2a NDD a2d. set (f := fun a : pystr => map fst (filter (fun e : nat * list pystr => memb a (snd e)) d2a)).
  assert (ND : NoDup (dkeys a2d)) by (apply (fold_dset_nd (fun a : pystr => a) (fun _ a => f a)); constructor).
  set (names := order (nodup eq_dec (flat_map snd d2a))).
  assert (NI : forall a, In a names <-> exists d, written_by d2a d a).
  { intros a. unfold names. split.
    - intros I. apply (Permutation_in _ (ORDER _)) in I. apply nodup_In in I. apply in_flat_map in I. destruct I as ((d, l) & I & Ia). exists d, l. auto.
    - intros (d & l & I & Ia). apply (Permutation_in _ (Permutation_sym (ORDER _))). apply nodup_In. apply in_flat_map. exists (d, l). auto. }
  assert (GET : forall a, dget a2d a = if in_dec eq_dec a names then Some (f a) else None) by (intros a; unfold a2d, construct_author2doc; rewrite (fold_key_get f); reflexivity).
  assert (FI : forall a d, In d (f a) <-> written_by d2a d a).
  { intros a d. unfold f, written_by. rewrite in_map_iff. split.
    - intros ((d', l) & <- & F). apply filter_In in F. destruct F as (F & M). cbn [snd] in M. rewrite memb_true in M. exists l. auto.
    - intros (l & I & Ia). exists (d, l). split; [reflexivity|]. apply filter_In. split; [exact I|]. cbn [snd]. rewrite memb_true. exact Ia. }
  split; [exact ND|]. split.
  - intros a d. split.
    + intros (ds & I & Id). apply (In_dget a2d) in I; [|exact ND]. rewrite GET in I. destruct (in_dec eq_dec a names); [|discriminate]. injection I as <-. apply FI. exact Id.
    + intros W. exists (f a). split; [|apply FI; exact W]. apply dget_In. rewrite GET. destruct (in_dec eq_dec a names) as [|N]; [reflexivity|]. exfalso. apply N, NI. exists d. exact W.
  - intros a ds I. apply (In_dget a2d) in I; [|exact ND]. rewrite GET in I. destruct (in_dec eq_dec a names) as [J|]; [|discriminate]. injection I as <-. split.
    + apply NI in J. destruct J as (d & W). apply FI in W. intros E. rewrite E in W. contradiction.
    + unfold f. clear -NDD. induction d2a as [|(d, l) d2a IH]; [constructor|]. cbn [map fst] in NDD. apply NoDup_cons_iff in NDD. destruct NDD as (NI & ND). cbn [filter snd]. destruct (memb a l); [|apply IH; exact ND].
      cbn [map fst]. constructor; [|apply IH; exact ND]. intros X. apply NI. apply in_map_iff in X. destruct X as (e & E & F). apply filter_In in F. apply in_map_iff. exists e. tauto.
Qed.

(** ** Adding documents *)
Lemma empty_consistent : consistent (@at_empty D G).
Proof.
  clear ORDER draw.
  constructor; try reflexivity.
  - constructor; cbn; try apply NoDup_nil; try tauto. intros a d. split; intros (? & [] & _).
  - constructor; cbn; try apply NoDup_nil; try tauto. lia.
Qed.
Theorem update_consistent : forall st docs a2d d2a, consistent st -> docs <> [] -> maps_agree a2d d2a (m_total st) (m_total st + length docs) ->
  exists st' idx, update_maps order draw st (Some docs) (Some a2d) (Some d2a) = Ok (st', Some idx) /\ consistent st' /\ m_corpus st' = m_corpus st ++ docs /\
    (forall a d, wrote (m_author2doc st') a d <-> wrote (m_author2doc st) a d \/ wrote a2d a d) /\
    (forall a i, In (a, i) (m_author2id st) -> In (a, i) (m_author2id st')) /\
    (forall a b i j, In (a, i) (m_author2id st') -> In (b, j) (m_author2id st') -> ~ In a (map fst (m_author2id st)) -> ~ In b (map fst (m_author2id st)) -> (str_leb a b = true <-> i <= j)) /\
    (exists rows, m_gamma st' = m_gamma st ++ rows) /\
    StronglySorted lt idx /\ (forall d, In d idx <-> exists a, wrote (m_author2doc st') a d).
Proof.
  clear ORDER.
  intros st docs a2d d2a C NE MA. destruct C as [CL CM CI CK CG]. destruct CM as [MK MD MS MR MO]. destruct CI as [NK NI NV NN]. destruct MA as [AK AD AS AR AO].
  unfold update_maps. cbn [rbind fst snd].
  set (new := filter (fun a => negb (has_docs (m_author2doc st) a)) (isort str_leb (dkeys a2d))). set (numbered := combine new (seq (m_authors st) (length new))).
  set (a2d' := fold_left (fun m e => if has_docs m (fst e) then dset m (fst e) (dget_or m (fst e) [] ++ snd e) else dset m (fst e) (snd e)) a2d (m_author2doc st)).
  destruct docs as [|doc docs]; [congruence|]. clear NE. set (docs' := doc :: docs) in *.
  assert (HD : forall a, has_docs (m_author2doc st) a = true <-> In a (map fst (m_author2doc st))).
  { intros a. rewrite has_docs_iff by exact MK. split; [intros (ds & I & _); apply in_map_iff; exists (a, ds); auto|]. intros I. apply in_map_iff in I. destruct I as ((a', ds) & <- & I). exists ds. split; [exact I | exact (MO a' ds I)]. }
  assert (NEWI : forall a, In a new <-> In a (map fst a2d) /\ ~ In a (map fst (m_author2doc st))).
  { intros a. unfold new. rewrite filter_In, In_isort, negb_true_iff. rewrite <- HD. destruct (has_docs (m_author2doc st) a); intuition congruence. }
  assert (SNEW : StronglySorted (fun a b => str_leb a b = true) new).
  { apply SS_filter. apply isort_StronglySorted; [exact str_leb_total | exact str_leb_trans]. }
  assert (NDN : NoDup new) by (apply NoDup_filter; apply (Permutation_NoDup (Permutation_isort str_leb (dkeys a2d))); exact AK).
  assert (LN : length new = length (seq (m_authors st) (length new))) by (rewrite seq_length; reflexivity).
  assert (NB1 : map fst numbered = new) by (apply combine_fst; exact LN). assert (NB2 : map snd numbered = seq (m_authors st) (length new)) by (apply combine_snd; exact LN).
  assert (NBI := numbered_in new (m_authors st)). fold numbered in NBI.
  assert (GA : forall a ds, In (a, ds) a2d' <-> (In (a, ds) (m_author2doc st) /\ ~ In a (map fst a2d)) \/ (exists d1 d2, In (a, d2) a2d /\ d1 = dget_or (m_author2doc st) a [] /\ ds = d1 ++ d2)).
  { intros a ds. assert (ND' : NoDup (dkeys a2d')) by (apply merge_nd; exact MK). rewrite <- (dget_iff a2d' a ds ND'). unfold a2d'. rewrite merge_get by exact AK.
    destruct (dget a2d a) as [d2|] eqn:E.
    - split.
      + intros X. injection X as <-. right. exists (dget_or (m_author2doc st) a []), d2. split; [apply dget_In; exact E | auto].
      + intros [(_ & N)|(d1 & d2' & I & -> & ->)]; [exfalso; apply N; apply in_map_iff; exists (a, d2); split; [reflexivity | apply dget_In; exact E]|]. apply (In_dget a2d) in I; [|exact AK]. congruence.
    - apply dget_None in E. rewrite (dget_iff _ a ds MK). split; [auto|]. intros [(I & _)|(d1 & d2 & I & _)]; [exact I|]. exfalso. apply E. apply in_map_iff. exists (a, d2). auto. }
  assert (WR : forall a d, wrote a2d' a d <-> wrote (m_author2doc st) a d \/ wrote a2d a d).
  { intros a d. split.
    - intros (ds & I & Id). apply GA in I. destruct I as [(I & _)|(d1 & d2 & I & -> & ->)]; [left; exists ds; auto|]. apply in_app_or in Id. destruct Id as [Id|Id]; [left | right; exists d2; auto].
      unfold dget_or in Id. destruct (dget (m_author2doc st) a) as [ds|] eqn:E; [|contradiction]. exists ds. split; [apply dget_In; exact E | exact Id].
    - intros [(ds & I & Id)|(d2 & I & Id)].
      + destruct (in_dec eq_dec a (map fst a2d)) as [J|J].
        * apply in_map_iff in J. destruct J as ((a', d2) & <- & J). exists (dget_or (m_author2doc st) a' [] ++ d2). split; [apply GA; right; exists (dget_or (m_author2doc st) a' []), d2; auto|].
          apply in_or_app. left. unfold dget_or. rewrite (In_dget _ a' ds MK I). exact Id.
        * exists ds. split; [apply GA; left; auto | exact Id].
      + exists (dget_or (m_author2doc st) a [] ++ d2). split; [apply GA; right; exists (dget_or (m_author2doc st) a []), d2; auto | apply in_or_app; right; exact Id]. }
  assert (AKEY : forall a, In a (map fst a2d') <-> In a (map fst (m_author2doc st)) \/ In a (map fst a2d)).
  { intros a. split.
    - intros I. apply in_map_iff in I. destruct I as ((a', ds) & <- & I). apply GA in I. destruct I as [(I & _)|(d1 & d2 & I & _)]; [left | right]; apply in_map_iff; eexists; (split; [|exact I]; reflexivity).
    - intros [I|I].
      + destruct (in_dec eq_dec a (map fst a2d)) as [J|J].
        * apply in_map_iff in J. destruct J as ((a', d2) & <- & J). apply in_map_iff. exists (a', dget_or (m_author2doc st) a' [] ++ d2). split; [reflexivity|]. apply GA. right. exists (dget_or (m_author2doc st) a' []), d2; auto.
        * apply in_map_iff in I. destruct I as ((a', ds) & <- & I). apply in_map_iff. exists (a', ds). split; [reflexivity|]. apply GA. left. auto.
      + apply in_map_iff in I. destruct I as ((a', d2) & <- & J). apply in_map_iff. exists (a', dget_or (m_author2doc st) a' [] ++ d2). split; [reflexivity|]. apply GA. right. exists (dget_or (m_author2doc st) a' []), d2; auto. }
  set (d2a' := fold_left (fun m e => dset m (fst e) (snd e)) d2a (m_doc2author st)).
  assert (NDD : NoDup (dkeys d2a')) by (apply (fold_dset_nd fst (fun _ e => snd e)); exact MD).
  assert (DISJ : forall d, In d (map fst d2a) -> ~ In d (map fst (m_doc2author st))) by (intros d I J; apply AR in I; apply MR in J; lia).
  assert (GD : forall d l, In (d, l) d2a' <-> In (d, l) (m_doc2author st) \/ In (d, l) d2a).
  { intros d l. rewrite <- (dget_iff d2a' d l NDD). unfold d2a'. rewrite fold_dset_get by exact AD. destruct (dget d2a d) as [l'|] eqn:E.
    - apply dget_In in E. split; [intros X; injection X as <-; auto|]. intros [I|I].
      + exfalso. apply (DISJ d); apply in_map_iff; [exists (d, l') | exists (d, l)]; auto.
      + apply (In_dget d2a) in E; [|exact AD]. apply (In_dget d2a) in I; [|exact AD]. congruence.
    - apply dget_None in E. rewrite (dget_iff _ d l MD). split; [auto|]. intros [I|I]; [exact I|]. exfalso. apply E. apply in_map_iff. exists (d, l). auto. }
  assert (NEWID : forall a, In a new -> ~ In a (map fst (m_author2id st))) by (intros a I J; apply NEWI in I; apply CK in J; tauto).
  set (a2id' := fold_left (fun m e => dset m (fst e) (snd e)) numbered (m_author2id st)).
  assert (NDA : NoDup (dkeys a2id')) by (apply (fold_dset_nd fst (fun _ e => snd e)); exact NK).
  assert (NB1' : NoDup (map fst numbered)) by (rewrite NB1; exact NDN).
  assert (GI : forall a i, In (a, i) a2id' <-> In (a, i) (m_author2id st) \/ In (a, i) numbered).
  { intros a i. rewrite <- (dget_iff a2id' a i NDA). unfold a2id'. rewrite fold_dset_get by exact NB1'. destruct (dget numbered a) as [i'|] eqn:E.
    - apply dget_In in E. split; [intros X; injection X as <-; auto|]. intros [I|I].
      + exfalso. apply (NEWID a); [rewrite <- NB1; apply in_map_iff; exists (a, i'); auto | apply in_map_iff; exists (a, i); auto].
      + apply (In_dget numbered) in E; [|exact NB1']. apply (In_dget numbered) in I; [|exact NB1']. congruence.
    - apply dget_None in E. rewrite (dget_iff _ a i NK). split; [auto|]. intros [I|I]; [exact I|]. exfalso. apply E. apply in_map_iff. exists (a, i). auto. }
  set (id2a' := fold_left (fun m e => dset m (snd e) (fst e)) numbered (m_id2author st)).
  assert (ID2 : id2a' = fold_left (fun m e => dset m (fst e) (snd e)) (map (fun e => (snd e, fst e)) numbered) (m_id2author st)) by (rewrite fold_left_map; reflexivity).
  assert (NDI : NoDup (dkeys id2a')) by (apply (fold_dset_nd snd (fun _ e => fst e)); exact NI).
  assert (NB2' : NoDup (map fst (map (fun e : pystr * nat => (snd e, fst e)) numbered))).
  { rewrite map_map. cbn [fst]. change (map (fun x : pystr * nat => snd x) numbered) with (map snd numbered). rewrite NB2. apply seq_NoDup. }
  assert (SW : forall a i, In (i, a) (map (fun e : pystr * nat => (snd e, fst e)) numbered) <-> In (a, i) numbered).
  { intros a i. rewrite in_map_iff. split; [intros ((a', i') & E & I); cbn in E; injection E as <- <-; exact I | intros I; exists (a, i); auto]. }
  assert (GJ : forall i a, In (i, a) id2a' <-> In (i, a) (m_id2author st) \/ In (a, i) numbered).
  { intros i a. rewrite <- (dget_iff id2a' i a NDI). rewrite ID2. rewrite fold_dset_get by exact NB2'. destruct (dget (map (fun e : pystr * nat => (snd e, fst e)) numbered) i) as [a'|] eqn:E.
    - apply dget_In in E. split; [intros X; injection X as <-; right; apply SW; exact E|]. intros [I|I].
      + exfalso. assert (L : i < m_authors st) by (apply NN; apply in_map_iff; exists (i, a); auto). apply SW in E. apply NBI in E. lia.
      + apply SW in I. apply (In_dget _ _ _ NB2') in E. apply (In_dget _ _ _ NB2') in I. congruence.
    - apply dget_None in E. rewrite (dget_iff _ i a NI). split; [auto|]. intros [I|I]; [exact I|]. exfalso. apply E. apply in_map_iff. exists (i, a). split; [reflexivity | apply SW; exact I]. }
  assert (INN : forall i, In i (map snd numbered) <-> m_authors st <= i < m_authors st + length new) by (intros i; rewrite NB2, in_seq; reflexivity).
  eexists. eexists. split; [reflexivity|]. split; [|split; [reflexivity|]; split; [exact WR|]; split; [intros a i I; apply GI; auto|]; split; [|split; [eexists; reflexivity|split]]].
  - constructor; cbn [m_corpus m_total m_author2doc m_doc2author m_author2id m_id2author m_authors m_gamma].
    + rewrite app_length, CL. reflexivity.
    + constructor.
      * apply merge_nd. exact MK.
      * exact NDD.
      * intros a d. fold a2d'. rewrite WR, MS, AS. unfold written_by. fold d2a'. split.
        { intros [(l & I & Ia)|(l & I & Ia)]; exists l; (split; [apply GD; auto | exact Ia]). }
        { intros (l & I & Ia). apply GD in I. destruct I as [I|I]; [left | right]; exists l; auto. }
      * intros d I. apply in_map_iff in I. destruct I as ((d', l) & <- & I). apply GD in I. cbn [fst]. destruct I as [I|I].
        { assert (X := MR d' ltac:(apply in_map_iff; exists (d', l); auto)). lia. } { assert (X := AR d' ltac:(apply in_map_iff; exists (d', l); auto)). lia. }
      * intros a ds I. apply GA in I. destruct I as [(I & _)|(d1 & d2 & I & _ & ->)]; [exact (MO a ds I)|]. apply AO in I. destruct d1; [exact I | discriminate].
    + constructor.
      * exact NDA.
      * exact NDI.
      * intros a i. rewrite GI, GJ, NV. reflexivity.
      * intros i. fold id2a'. split.
        { intros L. destruct (Nat.lt_ge_cases i (m_authors st)) as [L1|L1].
          - apply NN in L1. apply in_map_iff in L1. destruct L1 as ((i', a) & <- & I). apply in_map_iff. exists (i', a). split; [reflexivity | apply GJ; auto].
          - assert (J : In i (map snd numbered)) by (apply INN; lia). apply in_map_iff in J. destruct J as ((a, i') & <- & J). apply in_map_iff. exists (i', a). split; [reflexivity | apply GJ; auto]. }
        { intros I. apply in_map_iff in I. destruct I as ((i', a) & <- & I). cbn [fst]. apply GJ in I. destruct I as [I|I].
          - assert (X : i' < m_authors st) by (apply NN; apply in_map_iff; exists (i', a); auto). lia.
          - assert (J : In i' (map snd numbered)) by (apply in_map_iff; exists (a, i'); auto). apply INN in J. lia. }
    + intros a. fold a2d' a2id'. rewrite AKEY, CK. split.
      * intros I. destruct (in_dec eq_dec a (map fst (m_author2id st))) as [J|J].
        { apply in_map_iff in J. destruct J as ((a', i) & <- & J). apply in_map_iff. exists (a', i). split; [reflexivity | apply GI; auto]. }
        { assert (Ia : In a new) by (apply NEWI; rewrite CK; tauto). rewrite <- NB1 in Ia. apply in_map_iff in Ia. destruct Ia as ((a', i) & <- & Ia). apply in_map_iff. exists (a', i). split; [reflexivity | apply GI; auto]. }
      * intros I. apply in_map_iff in I. destruct I as ((a', i) & <- & I). cbn [fst]. apply GI in I. destruct I as [I|I]; [left; apply in_map_iff; exists (a', i); auto|].
        right. assert (J : In a' new) by (rewrite <- NB1; apply in_map_iff; exists (a', i); auto). apply NEWI in J. tauto.
    + rewrite app_length, map_length, seq_length, CG. reflexivity.
  - intros a b i j Ia Ib Na Nb. cbn [m_author2id] in Ia, Ib. apply GI in Ia. apply GI in Ib.
    destruct Ia as [Ia|Ia]; [exfalso; apply Na; apply in_map_iff; exists (a, i); auto|]. destruct Ib as [Ib|Ib]; [exfalso; apply Nb; apply in_map_iff; exists (b, j); auto|].
    apply NBI in Ia. apply NBI in Ib. destruct Ia as (La & Ea), Ib as (Lb & Eb).
    assert (ORD : forall x y u v, x <= y -> nth_error new x = Some u -> nth_error new y = Some v -> str_leb u v = true).
    { clear -SNEW. induction SNEW as [|w l SS IH FA]; intros x y u v L EU EV; [destruct x; discriminate|]. destruct x as [|x], y as [|y]; cbn in EU, EV.
      - injection EU as ->. injection EV as ->. apply str_leb_refl.
      - injection EU as ->. rewrite Forall_forall in FA. apply FA. apply nth_error_In in EV. exact EV.
      - lia.
      - apply (IH x y); [lia | exact EU | exact EV]. }
    split.
    + intros L. destruct (Nat.le_gt_cases i j) as [|GT]; [assumption|]. assert (L' : str_leb b a = true) by (apply (ORD (j - m_authors st) (i - m_authors st)); [lia | exact Eb | exact Ea]).
      assert (a = b) by (apply str_leb_antisym; assumption). subst b. assert (i - m_authors st = j - m_authors st); [|lia].
      apply (proj1 (NoDup_nth_error new) NDN); [apply nth_error_Some; rewrite Ea; discriminate | congruence].
    + intros L. apply (ORD (i - m_authors st) (j - m_authors st)); [lia | exact Ea | exact Eb].
  - apply SS_le_lt; [|apply (Permutation_NoDup (Permutation_isort Nat.leb _)); apply NoDup_nodup]. apply isort_StronglySorted.
    + intros x y. destruct (Nat.leb_spec x y); [left; reflexivity | right; apply Nat.leb_le; lia].
    + intros x y z H1 H2. apply Nat.leb_le in H1. apply Nat.leb_le in H2. apply Nat.leb_le. lia.
  - intros d. fold a2d'. rewrite In_isort, nodup_In, in_flat_map. unfold wrote. cbn [m_author2doc]. fold a2d'. split.
    + intros ((a, ds) & I & Id). exists a, ds. auto.
    + intros (a & ds & I & Id). exists (a, ds). auto.
Qed.

(** The missing map can be left to the program at the first update. *)
Theorem agree_from_author2doc : forall (docs : list D) a2d, NoDup (map fst a2d) -> (forall a ds, In (a, ds) a2d -> ds <> [] /\ forall d, In d ds -> d < length docs) ->
  maps_agree a2d (construct_doc2author docs a2d) 0 (length docs) /\
  forall st : model, update_maps order draw st (Some docs) (Some a2d) None = update_maps order draw st (Some docs) (Some a2d) (Some (construct_doc2author docs a2d)).
Proof.
  clear ORDER.
  intros docs a2d ND H. split; [|reflexivity]. destruct (doc2author_made docs a2d) as (NK & KI & WB). constructor.
  - exact ND.
  - exact NK.
  - intros a d. rewrite WB. split; [|tauto]. intros W. split; [|exact W]. destruct W as (ds & I & Id). apply (proj2 (H a ds I) d Id).
  - intros d I. apply KI in I. lia.
  - intros a ds I. apply (H a ds I).
Qed.
Theorem agree_from_doc2author : forall d2a n, NoDup (map fst d2a) -> (forall d, In d (map fst d2a) -> d < n) ->
  maps_agree (construct_author2doc order d2a) d2a 0 n /\
  forall (st : model) docs, update_maps order draw st (Some docs) None (Some d2a) = update_maps order draw st (Some docs) (Some (construct_author2doc order d2a)) (Some d2a).
Proof.
  intros d2a n ND H. split; [|reflexivity]. destruct (author2doc_made d2a ND) as (NK & W & NE). constructor.
  - exact NK.
  - exact ND.
  - exact W.
  - intros d I. specialize (H d I). lia.
  - intros a ds I. apply (NE a ds I).
Qed.

(** ** What a pass looks at *)
Theorem one_pass_exact : forall st chunksize idx, consistent st -> 1 <= chunksize -> idx <> [] -> (forall d, In d idx -> exists a, wrote (m_author2doc st) a d) ->
  exists rows, one_pass st chunksize idx = Ok rows /\
    Forall2 (fun d row => fst (fst row) = d /\ nth_error (m_corpus st) d = Some (snd (fst row)) /\
      exists names, In (d, names) (m_doc2author st) /\ Forall2 (fun a i => In (a, i) (m_author2id st)) names (snd row)) idx rows.
Proof.
  clear ORDER draw.
  intros st n idx C Ln NE W. destruct C as [CL CM CI CK CG]. destruct CM as [MK MD MS MR MO]. destruct CI as [NK NI NV NN].
  set (P := fun (d : nat) (row : nat * D * list nat) => fst (fst row) = d /\ nth_error (m_corpus st) d = Some (snd (fst row)) /\
      exists names, In (d, names) (m_doc2author st) /\ Forall2 (fun a i => In (a, i) (m_author2id st)) names (snd row)).
  assert (AU : forall d, In d idx -> d < m_total st /\ exists names l, authors_of st d = Ok l /\ In (d, names) (m_doc2author st) /\ Forall2 (fun a i => In (a, i) (m_author2id st)) names l).
  { intros d I. destruct (W d I) as (a & Wa). apply MS in Wa. destruct Wa as (names & J & Ja). split; [apply MR; apply in_map_iff; exists (d, names); auto|].
    unfold authors_of. rewrite (In_dget _ d names MD J). cbn [of_option rbind].
    destruct (rmapM_ex (fun a => of_option KeyError (dget (m_author2id st) a)) (fun a i => In (a, i) (m_author2id st)) names) as (l & E & F).
    - intros b Ib. assert (K : In b (map fst (m_author2id st))).
      { apply CK. assert (Wb : wrote (m_author2doc st) b d) by (apply MS; exists names; auto). destruct Wb as (ds & Wb & _). apply in_map_iff. exists (b, ds). auto. }
      apply in_map_iff in K. destruct K as ((b', i) & <- & K). exists i. cbn [fst]. rewrite (In_dget _ b' i NK K). split; [reflexivity | exact K].
    - exists names, l. auto. }
  unfold one_pass. destruct idx as [|d0 idx]; [congruence|]. set (idx' := d0 :: idx) in *.
  assert (LM : 1 <= Nat.min (length idx') n) by (unfold idx'; cbn [length]; lia). destruct (chunkize_serial_exact idx' (Nat.min (length idx') n) LM) as (CC & _ & _).
  set (cs := chunkize_serial idx' (Nat.min (length idx') n)) in *. clearbody cs.
  destruct (rmapM_ex (read_chunk st) (Forall2 P) cs) as (chunks & E & F).
  - intros c Ic. assert (IN : forall d, In d c -> In d idx') by (intros d Id; rewrite <- CC; apply in_concat; exists c; auto).
    unfold read_chunk. destruct (rmapM_ex (fun d => of_option IndexError (nth_error (m_corpus st) d)) (fun d doc => nth_error (m_corpus st) d = Some doc) c) as (ds & E1 & F1).
    { intros d Id. destruct (AU d (IN d Id)) as (L & _). destruct (nth_error (m_corpus st) d) as [doc|] eqn:X; [exists doc; auto|]. apply nth_error_None in X. lia. }
    rewrite E1. cbn [rbind].
    assert (LD : length c = length ds) by (clear -F1; induction F1; cbn; congruence).
    destruct (rmapM_ex (fun dd => let* authors := authors_of st (fst dd) in Ok (dd, authors)) (fun dd row => fst row = dd /\ exists names, In (fst dd, names) (m_doc2author st) /\ Forall2 (fun a i => In (a, i) (m_author2id st)) names (snd row)) (combine c ds)) as (rows & E2 & F2).
    { intros (d, doc) I. apply in_combine_l in I. destruct (AU d (IN d I)) as (_ & names & l & EA & J & FA). cbn [fst]. rewrite EA. cbn [rbind]. exists ((d, doc), l). split; [reflexivity|]. split; [reflexivity|]. exists names. auto. }
    exists rows. split; [exact E2|]. clear -F1 F2. revert rows F2. induction F1 as [|d doc c ds X F1 IH]; intros rows F2; cbn [combine] in F2; inversion F2 as [|x y xs ys Y F2']; subst; constructor.
    + destruct Y as (E & names & J & FA). destruct y as ((d', doc'), l). cbn in E. injection E as -> ->. split; [reflexivity|]. split; [exact X|]. exists names. auto.
    + apply IH. exact F2'.
  - rewrite E. cbn [rbind]. eexists. split; [reflexivity|]. rewrite <- CC. apply Forall2_concat. exact F.
Qed.

(** Ids numbered from 0 in a later update never reach the new documents. *)
Theorem local_ids_miss : forall (st : model) (docs : list D) a2d d2a st' idx, (forall a d, wrote (m_author2doc st) a d -> d < m_total st) -> (forall a d, wrote a2d a d -> d < length docs) -> NoDup (map fst (m_author2doc st)) -> NoDup (map fst a2d) ->
  update_maps order draw st (Some docs) (Some a2d) d2a = Ok (st', Some idx) -> m_total st' = m_total st + length docs /\ forall d, In d idx -> d < Nat.max (m_total st) (length docs).
Proof.
  clear ORDER.
  intros st docs a2d d2a st' idx H1 H2 ND1 ND2 U.
  assert (EX : exists d, update_maps order draw st (Some docs) (Some a2d) (Some d) = Ok (st', Some idx)) by (destruct d2a as [d|]; [exists d | exists (construct_doc2author docs a2d)]; exact U).
  clear U. destruct EX as (d2a1 & U). unfold update_maps in U. cbn [rbind fst snd] in U. destruct docs as [|x docs]; [discriminate|]. injection U as <- <-. split; [reflexivity|]. intros d I. rewrite In_isort, nodup_In, in_flat_map in I. destruct I as ((a, ds) & I & Id). cbn [snd] in Id.
  apply In_dget in I; [|apply merge_nd; exact ND1]. rewrite merge_get in I by exact ND2. destruct (dget a2d a) as [d2|] eqn:E.
  - injection I as <-. apply in_app_or in Id. destruct Id as [Id|Id].
    + unfold dget_or in Id. destruct (dget (m_author2doc st) a) as [d1|] eqn:E1; [|contradiction]. assert (L := H1 a d). specialize (L ltac:(exists d1; split; [apply dget_In; exact E1 | exact Id])). lia.
    + assert (L := H2 a d ltac:(exists d2; split; [apply dget_In; exact E | exact Id])). lia.
  - assert (L := H1 a d ltac:(exists ds; split; [apply dget_In; exact I | exact Id])). lia.
Qed.

(** ** A new author *)
Theorem new_author_restores : forall {X} (infer : model -> list D -> list nat -> list G * result X) st docs,
  (forall d, In d (map fst (m_doc2author st)) -> d < m_total st) -> (forall i, In i (map fst (m_id2author st)) -> i < m_authors st) ->
  ~ In placeholder (map fst (m_author2doc st)) -> ~ In placeholder (map fst (m_author2id st)) ->
  (forall st1 ids, exists row, fst (infer st1 docs ids) = removelast (m_gamma st1) ++ [row]) ->
  fst (get_new_author draw infer st docs) = st /\
  (docs = [] -> snd (get_new_author draw infer st docs) = Err ValueError) /\
  (docs <> [] -> snd (get_new_author draw infer st docs) =
     snd (infer (mkAt (m_corpus st) (m_total st) (m_author2doc st ++ [(placeholder, seq (m_total st) (length docs))])
                   (m_doc2author st ++ map (fun d => (d, [placeholder])) (seq (m_total st) (length docs)))
                   (m_author2id st ++ [(placeholder, m_authors st)]) (m_id2author st ++ [(m_authors st, placeholder)])
                   (m_authors st) (m_gamma st ++ [draw 0])) docs (seq (m_total st) (length docs)))).
Proof.
  intros X infer st docs HD HI NA NP INF. unfold get_new_author. destruct docs as [|doc docs]; [split; [reflexivity|]; split; [reflexivity | congruence]|].
  assert (DM : dmem (m_author2id st) placeholder = false) by (unfold dmem; rewrite (proj2 (dget_None (m_author2id st) placeholder) NP); reflexivity). rewrite DM.
  set (docs' := doc :: docs) in *. set (ids := seq (m_total st) (length docs')). assert (NDI : NoDup ids) by apply seq_NoDup.
  assert (FR : forall k, In k ids -> ~ In k (dkeys (m_doc2author st))) by (intros k Ik J; apply HD in J; apply in_seq in Ik; lia).
  assert (NI : ~ In (m_authors st) (dkeys (m_id2author st))) by (intros J; apply HI in J; lia).
  unfold add_placeholder. rewrite (dset_notin (m_author2doc st) placeholder ids NA), (fold_dset_fresh [placeholder] ids (m_doc2author st) NDI FR), (dset_notin (m_author2id st) placeholder (m_authors st) NP), (dset_notin (m_id2author st) (m_authors st) placeholder NI).
  match goal with |- context [infer ?s docs' ids] => set (st1 := s) end. destruct (INF st1 ids) as (row & EG). destruct (infer st1 docs' ids) as (g, res) eqn:EI. cbn [fst] in EG.
  assert (RB : rollback (set_gamma st1 g) ids = Ok st).
  { unfold rollback, set_gamma. cbn [m_corpus m_total m_author2doc m_doc2author m_author2id m_id2author m_authors m_gamma st1].
    rewrite <- (dset_notin (m_author2id st) placeholder (m_authors st) NP), dget_dset_same. rewrite (dset_notin (m_author2id st) placeholder (m_authors st) NP).
    cbn [of_option rbind]. rewrite (ddel_mid (m_author2doc st) [] placeholder ids NA), (ddel_mid (m_author2id st) [] placeholder (m_authors st) NP), (ddel_mid (m_id2author st) [] (m_authors st) placeholder NI), (fold_ddel_back [placeholder] ids (m_doc2author st) FR).
    rewrite EG. cbn [m_gamma st1]. rewrite !removelast_last, !app_nil_r. destruct st; reflexivity. }
  rewrite RB. cbn [fst snd]. split; [reflexivity|]. split; [discriminate|]. intros _. reflexivity.
Qed.

(** [bound] does not look at the authors given for held-out documents. *)
Theorem bound_ignores : forall (st : model) (chunk : list D) a2d d2a d2a', bound_authors st chunk [] (Some a2d) (Some d2a) = bound_authors st chunk [] (Some a2d) (Some d2a').
Proof. reflexivity. Qed.
Theorem bound_training : forall (st : model) (chunk : list D) idx, idx <> [] -> length chunk = length idx -> bound_authors st chunk idx None None = rmapM (authors_of st) idx.
Proof.
  clear ORDER draw.
  intros st chunk idx NE L. unfold bound_authors. destruct idx as [|i idx]; [congruence|]. cbn [rbind]. rewrite L. set (l := i :: idx). clearbody l.
  assert (GEN : forall pre l', l = pre ++ l' -> rmapM (fun d => let* doc_no := of_option IndexError (nth_error l d) in authors_of st doc_no) (seq (length pre) (length l')) = rmapM (authors_of st) l').
  { intros pre l'. revert pre. induction l' as [|x l' IH]; intros pre E; [reflexivity|]. cbn [length seq rmapM]. rewrite E at 1. rewrite nth_error_app2 by lia. rewrite Nat.sub_diag. cbn [nth_error of_option rbind].
    destruct (authors_of st x) as [v|e]; [|reflexivity]. cbn [rbind]. specialize (IH (pre ++ [x])). rewrite app_length in IH. cbn [length] in IH. replace (length pre + 1) with (S (length pre)) in IH by lia. rewrite IH by (rewrite E, <- app_assoc; reflexivity). reflexivity. }
  apply (GEN [] l eq_refl).
Qed.
(** The other cases of [update] and [bound]. *)
Theorem update_other_cases : forall (st : model) a2d d2a docs,
  (update_maps order draw st None a2d d2a = if m_total st =? 0 then Err AssertionErr else Ok (st, Some (seq 0 (m_total st)))) /\
  update_maps order draw st (Some docs) None None = Err ValueError /\
  (a2d <> None \/ d2a <> None -> update_maps order draw st (Some []) a2d d2a = Ok (st, None)).
Proof. intros st a2d d2a docs. split; [reflexivity|]. split; [reflexivity|]. intros H. destruct a2d, d2a; try reflexivity. destruct H; congruence. Qed.
Theorem bound_rejects : forall (st : model) (chunk : list D) idx a2d d2a, NoDup (map fst (m_author2doc st)) ->
  (a2d = None <-> d2a = None) /\ (a2d = None <-> idx <> []) /\ (forall m a, a2d = Some m -> In a (map fst m) -> exists ds, In (a, ds) (m_author2doc st) /\ ds <> []) \/
  bound_authors st chunk idx a2d d2a = Err ValueError.
Proof.
  clear ORDER draw. intros st chunk idx a2d d2a ND. unfold bound_authors. destruct a2d as [a|], d2a as [b|].
  - destruct (forallb (has_docs (m_author2doc st)) (dkeys a)) eqn:F; [|right; reflexivity]. destruct idx; [|right; reflexivity]. left. split; [split; discriminate|]. split; [split; [discriminate | congruence]|].
    intros m x E I. injection E as <-. rewrite forallb_forall in F. apply has_docs_iff; [exact ND|]. apply F. exact I.
  - right. reflexivity.
  - right. reflexivity.
  - destruct idx as [|i idx]; [right; reflexivity|]. left. split; [tauto|]. split; [split; [discriminate | reflexivity]|]. discriminate.
Qed.
End P.
Print Assumptions update_other_cases.
Print Assumptions bound_rejects.
Print Assumptions doc2author_made.
Print Assumptions author2doc_made.
Print Assumptions update_consistent.
Print Assumptions agree_from_author2doc.
Print Assumptions agree_from_doc2author.
Print Assumptions one_pass_exact.
Print Assumptions local_ids_miss.
Print Assumptions new_author_restores.
Print Assumptions bound_ignores.
Print Assumptions bound_training.

Definition ann := str "ann".
Definition bob := str "bob".
Definition cid := str "cid".
Notation upd := (update_maps (D := nat) (G := nat) (fun l => l) (fun i => i)).
Definition first : @at_model nat nat := mkAt [10; 11] 2 [(bob, [1]); (ann, [0; 1])] [(0, [ann]); (1, [bob; ann])] [(ann, 0); (bob, 1)] [(0, ann); (1, bob)] 2 [0; 1].
Example made_ex : construct_doc2author [10; 11] [(bob, [1]); (ann, [0; 1])] = [(0, [ann]); (1, [bob; ann])] /\
  construct_author2doc (fun l => l) [(0, [ann]); (1, [bob; ann])] = [(bob, [1]); (ann, [0; 1])].
Proof. vm_compute. split; reflexivity. Qed.
Example first_ex : upd at_empty (Some [10; 11]) (Some [(bob, [1]); (ann, [0; 1])]) None = Ok (first, Some [0; 1]).
Proof. vm_compute. reflexivity. Qed.
Example first_consistent : consistent first.
Proof.
  destruct (agree_from_author2doc (fun l => l) (fun i : nat => i) [10; 11] [(bob, [1]); (ann, [0; 1])]) as (MA & _).
  - repeat constructor; cbn; intuition discriminate.
  - intros a ds [E|[E|[]]]; injection E as <- <-; (split; [discriminate|]); cbn; intros; lia.
  - destruct (update_consistent (fun l => l) (fun i : nat => i) at_empty [10; 11] _ _ empty_consistent ltac:(discriminate) MA) as (st' & idx & E & C & _).
    assert (E1 := eq_trans (eq_sym E) first_ex). injection E1 as -> ->. exact C.
Qed.
(** A second update, its documents numbered from 2. *)
Definition second : @at_model nat nat := mkAt [10; 11; 12] 3 [(bob, [1]); (ann, [0; 1; 2]); (cid, [2])] [(0, [ann]); (1, [bob; ann]); (2, [cid; ann])] [(ann, 0); (bob, 1); (cid, 2)] [(0, ann); (1, bob); (2, cid)] 3 [0; 1; 0].
Example second_ex : upd first (Some [12]) (Some [(cid, [2]); (ann, [2])]) (Some [(2, [cid; ann])]) = Ok (second, Some [0; 1; 2]).
Proof. vm_compute. reflexivity. Qed.
Example one_pass_ex : one_pass second 2 [0; 1; 2] = Ok [(0, 10, [0]); (1, 11, [1; 0]); (2, 12, [2; 0])].
Proof. vm_compute. reflexivity. Qed.
Example new_author_ex : get_new_author (fun i : nat => i) (fun st docs ids => (removelast (m_gamma st) ++ [77], match nth_error (m_gamma st) 3 with Some g => Ok (g, docs, ids) | None => Err KeyError end)) second [90; 91] = (second, Ok (0, [90; 91], [3; 4])).
Proof. vm_compute. reflexivity. Qed.
Example bound_ex : bound_authors second [11; 12] [1; 2] None None = Ok [[1; 0]; [2; 0]] /\ bound_authors second [11; 12] [] None None = Err ValueError /\
  bound_authors second [99] [] (Some [(str "dan", [0])]) (Some [(0, [str "dan"])]) = Err ValueError.
Proof. vm_compute. repeat split. Qed.

(** The documents of a second update, numbered from 0, are not trained on, and the authors of the old documents are overwritten. *)
Theorem second_update_refuted : exists (st : @at_model nat nat) docs a2d st' idx, consistent st /\ maps_agree a2d (construct_doc2author docs a2d) 0 (length docs) /\
  upd st (Some docs) (Some a2d) None = Ok (st', Some idx) /\ nth_error (m_corpus st') 2 = Some 12 /\ ~ In 2 idx /\ wrote (m_author2doc st') ann 0 /\ ~ written_by (m_doc2author st') 0 ann.
Proof.
  exists first, [12], [(bob, [0])]. eexists. eexists. split; [apply first_consistent|]. split; [|split; [vm_compute; reflexivity|]; split; [reflexivity|]; split; [|split]].
  - apply (agree_from_author2doc (fun l => l) (fun i : nat => i)); [repeat constructor; cbn; tauto|]. intros a ds [E|[]]. injection E as <- <-. split; [discriminate|]. cbn. intros; lia.
  - cbn. lia.
  - exists [0; 1]. split; [cbn; tauto | cbn; tauto].
  - intros (l & [E|[E|[]]] & I); [|discriminate]. injection E as <-. cbn in I. destruct I as [I|I]; [discriminate | contradiction].
Qed.
(** An author without documents gets a new number at every update. *)
Theorem empty_author_refuted : exists a2d st1 i1 st2 i2, upd at_empty (Some [10]) (Some a2d) None = Ok (st1, i1) /\ upd st1 (Some [11]) (Some [(bob, [1])]) (Some [(1, [bob])]) = Ok (st2, i2) /\
  m_author2id st1 = [(ann, 0); (bob, 1)] /\ m_author2id st2 = [(ann, 0); (bob, 2)] /\ m_id2author st2 = [(0, ann); (1, bob); (2, bob)].
Proof. exists [(ann, [0]); (bob, [])]. eexists. eexists. eexists. eexists. split; [vm_compute; reflexivity|]. split; [vm_compute; reflexivity|]. vm_compute. repeat split. Qed.
(** Training goes on without new documents only if every document is in [doc2author]. *)
Theorem resume_refuted : exists a2d d2a (st : @at_model nat nat) idx idx', upd at_empty (Some [10; 11; 12]) (Some a2d) (Some d2a) = Ok (st, Some idx) /\ consistent st /\
  (exists rows, one_pass st 2 idx = Ok rows) /\ upd st None None None = Ok (st, Some idx') /\ one_pass st 2 idx' = Err KeyError.
Proof.
  exists [(ann, [0; 2])], [(0, [ann]); (2, [ann])].
  assert (MA : maps_agree [(ann, [0; 2])] [(0, [ann]); (2, [ann])] 0 3).
  { constructor.
    - repeat constructor; cbn; tauto.
    - repeat constructor; cbn; intuition discriminate.
    - intros a d. split.
      + intros (ds & [E|[]] & I). injection E as <- <-. cbn in I. destruct I as [<-|[<-|[]]]; exists [ann]; cbn; tauto.
      + intros (l & [E|[E|[]]] & I); injection E as <- <-; destruct I as [<-|[]]; exists [0; 2]; cbn; tauto.
    - cbn. intros; lia.
    - intros a ds [E|[]]. injection E as <- <-. discriminate. }
  destruct (update_consistent (fun l => l) (fun i : nat => i) at_empty [10; 11; 12] _ _ empty_consistent ltac:(discriminate) MA) as (st & idx & E & C & _).
  assert (E' := E). vm_compute in E'. injection E' as ES EI. exists st, idx, [0; 1; 2]. split; [exact E|]. split; [exact C|]. subst st idx. vm_compute. eauto.
Qed.
(** A held-out document by [bob] is scored as the training document with the same number, by [ann]. *)
Theorem bound_refuted : exists (st : @at_model nat nat), consistent st /\ m_author2id st = [(ann, 0); (bob, 1)] /\ bound_authors st [99] [] (Some [(bob, [0])]) (Some [(0, [bob])]) = Ok [[0]].
Proof. exists first. split; [apply first_consistent|]. vm_compute. split; reflexivity. Qed.
Example no_authors_ex : exists st : @at_model nat nat, upd at_empty (Some [10]) (Some [(ann, [])]) None = Ok (st, Some []) /\ one_pass st 5 [] = Err ZeroDivErr.
Proof. eexists. split; vm_compute; reflexivity. Qed.
