(** C130 Models of older versions. *)
From Verif Require Import Base Str Upgrade_Model.

Section W2v.
Context {V : Type}.
Variables (vnone v075 v0 : V) (truthy : V -> bool) (rng cum : V -> V).
Notation UP := (upgrade_w2v vnone v075 v0 truthy rng cum).
Notation attrs := (dict pystr V).

Lemma defaulted_get : forall a v (d : attrs) b, dget (defaulted a v d) b = match dget d b with Some x => Some x | None => if eq_dec a b then Some v else None end.
Proof.
  intros a v d b. unfold defaulted. destruct (dget d a) as [x|] eqn:E.
  - destruct (dget d b) eqn:E2; [reflexivity|]. destruct (eq_dec a b) as [->|]; congruence.
  - rewrite dget_dset. destruct (eq_dec a b) as [->|N]; [rewrite E; reflexivity|]. destruct (dget d b); reflexivity.
Qed.
Lemma nodup_set : forall (d : attrs) a v, NoDup (dkeys d) -> NoDup (dkeys (dset d a v)).
Proof. intros d a v H. apply NoDup_dset. exact H. Qed.
Lemma nodup_defaulted : forall a v (d : attrs), NoDup (dkeys d) -> NoDup (dkeys (defaulted a v d)).
Proof. intros a v d H. unfold defaulted. destruct (dget d a); [exact H | apply nodup_set; exact H]. Qed.
Lemma attr_ok : forall (d : attrs) a v, attr d a = Ok v <-> dget d a = Some v.
Proof. intros d a v. unfold attr. destruct (dget d a); cbn; split; intros H; congruence. Qed.

(** everything before the two old objects are merged *)
Definition before (has_words : bool) (d : attrs) : result attrs :=
  let attrs := defaulted (str "ns_exponent") v075 d in
  let* negative := attr attrs (str "negative") in
  let* ns := attr attrs (str "ns_exponent") in
  let attrs := if truthy negative && has_words then dset attrs (str "cum_table") (cum ns) else attrs in
  let attrs := defaulted (str "corpus_total_words") vnone (defaulted (str "corpus_count") vnone attrs) in
  let* attrs := match dget attrs (str "random") with Some _ => Ok attrs | None => let* seed := attr attrs (str "seed") in Ok (dset attrs (str "random") (rng seed)) end in
  let attrs := match dget attrs (str "train_count") with Some _ => attrs | None => dset (dset attrs (str "train_count") v0) (str "total_train_time") v0 end in
  let* attrs := match dget attrs (str "epochs") with Some _ => Ok attrs | None => let* it := attr attrs (str "iter") in Ok (ddel (dset attrs (str "epochs") it) (str "iter")) end in
  Ok (defaulted (str "max_final_vocab") vnone attrs).
Lemma upgrade_split : forall hw voc tr d, UP hw voc tr d = let* d1 := before hw d in let* d2 := match voc with Some v => take_vocabulary v d1 | None => Ok d1 end in Ok (match tr with Some t => take_trainables t d2 | None => d2 end).
Proof.
  intros hw voc tr d. unfold upgrade_w2v, before. destruct (attr _ (str "negative")); [|reflexivity]. cbn [rbind]. destruct (attr _ (str "ns_exponent")); [|reflexivity]. cbn [rbind].
  match goal with |- context [match dget ?x (str "random") with _ => _ end] => set (y := x) end. destruct (match dget y (str "random") with Some _ => _ | None => _ end); [|reflexivity]. cbn [rbind].
  match goal with |- context [match dget ?x (str "epochs") with _ => _ end] => set (z := x) end. destruct (match dget z (str "epochs") with Some _ => _ | None => _ end); reflexivity.
Qed.
Lemma dset_get : forall (d : attrs) a v b, dget (dset d a v) b = if eq_dec a b then Some v else dget d b.
Proof. intros. apply dget_dset. Qed.

Ltac neq := vm_compute; discriminate.
Lemma before_spec : forall hw d d1, NoDup (dkeys d) -> before hw d = Ok d1 -> NoDup (dkeys d1) /\
  (forall a x, dget d a = Some x -> a <> str "cum_table" -> a <> str "iter" -> (a = str "total_train_time" -> dget d (str "train_count") <> None) -> dget d1 a = Some x) /\
  (forall x, dget d (str "epochs") = None -> dget d (str "iter") = Some x -> dget d1 (str "epochs") = Some x) /\
  (dget d (str "ns_exponent") = None -> dget d1 (str "ns_exponent") = Some v075) /\
  (forall n s, dget d (str "negative") = Some n -> truthy n = true -> hw = true -> dget d1 (str "ns_exponent") = Some s -> dget d1 (str "cum_table") = Some (cum s)).
Proof.
  intros hw d d1 N H. unfold before in H. set (e1 := defaulted (str "ns_exponent") v075 d) in H. destruct (attr e1 (str "negative")) as [neg|] eqn:A1; [|discriminate]. cbn [rbind] in H.
  destruct (attr e1 (str "ns_exponent")) as [ns|] eqn:A2; [|discriminate]. cbn [rbind] in H. apply attr_ok in A1, A2.
  assert (N1 : NoDup (dkeys e1)) by (apply nodup_defaulted; exact N).
  set (e2 := if truthy neg && hw then _ else _) in H.
  assert (N2 : NoDup (dkeys e2)) by (unfold e2; destruct (truthy neg && hw); [apply nodup_set|]; exact N1).
  assert (G2 : forall a x, dget e1 a = Some x -> a <> str "cum_table" -> dget e2 a = Some x).
  { intros a x E NE. unfold e2. destruct (truthy neg && hw); [rewrite dget_dset_other by congruence|]; exact E. }
  set (e3 := defaulted (str "corpus_total_words") vnone (defaulted (str "corpus_count") vnone e2)) in H.
  assert (N3 : NoDup (dkeys e3)) by (do 2 apply nodup_defaulted; exact N2).
  assert (G3 : forall a x, dget e2 a = Some x -> dget e3 a = Some x) by (intros a x E; unfold e3; rewrite !defaulted_get, E; reflexivity).
  destruct (match dget e3 (str "random") with Some _ => Ok e3 | None => _ end) as [e4|] eqn:A4; [|discriminate]. cbn [rbind] in H.
  assert (X4 : NoDup (dkeys e4) /\ forall a x, dget e3 a = Some x -> dget e4 a = Some x).
  { destruct (dget e3 (str "random")) eqn:E; [injection A4 as <-; auto|]. destruct (attr e3 (str "seed")) as [sd|]; [|discriminate]. injection A4 as <-. split; [apply nodup_set; exact N3|]. intros a x Ha. rewrite dget_dset_other by congruence. exact Ha. }
  destruct X4 as [N4 G4]. set (e5 := match dget e4 (str "train_count") with Some _ => e4 | None => _ end) in H.
  assert (X5 : NoDup (dkeys e5) /\ forall a x, dget e4 a = Some x -> (a = str "total_train_time" -> dget e4 (str "train_count") <> None) -> dget e5 a = Some x).
  { unfold e5. destruct (dget e4 (str "train_count")) eqn:E; [auto|]. split; [do 2 apply nodup_set; exact N4|]. intros a x Ha Hn. rewrite !dget_dset_other; [exact Ha | congruence|]. intros <-. exact (Hn eq_refl eq_refl). }
  destruct X5 as [N5 G5]. destruct (match dget e5 (str "epochs") with Some _ => Ok e5 | None => _ end) as [e6|] eqn:A6; [|discriminate]. cbn [rbind] in H. injection H as <-.
  assert (X6 : NoDup (dkeys e6) /\ (forall a x, dget e5 a = Some x -> a <> str "iter" -> dget e6 a = Some x) /\ (forall x, dget e5 (str "epochs") = None -> dget e5 (str "iter") = Some x -> dget e6 (str "epochs") = Some x)).
  { destruct (dget e5 (str "epochs")) eqn:E; [injection A6 as <-; split; [exact N5|]; split; [auto | discriminate]|]. destruct (attr e5 (str "iter")) as [it|] eqn:I; [|discriminate]. apply attr_ok in I. injection A6 as <-. split; [apply NoDup_ddel, nodup_set; exact N5|]. split.
    - intros a x Ha Hn. rewrite dget_ddel_other by congruence. rewrite dget_dset_other by congruence. exact Ha.
    - intros x _ Hx. rewrite dget_ddel_other by neq. rewrite dget_dset_same. congruence. }
  destruct X6 as (N6 & G6 & I6).
  assert (G1 : forall a x, dget d a = Some x -> dget e1 a = Some x) by (intros a x E; unfold e1; rewrite defaulted_get, E; reflexivity).
  assert (G7 : forall a x, dget e6 a = Some x -> dget (defaulted (str "max_final_vocab") vnone e6) a = Some x) by (intros a x E; rewrite defaulted_get, E; reflexivity).
  split; [apply nodup_defaulted; exact N6|]. split; [|split; [|split]].
  - intros a x E H1 H2 H3. apply G7, G6; [|exact H2]. apply G5; [apply G4, G3, G2; [apply G1; exact E | exact H1]|]. intros Ea. specialize (H3 Ea). destruct (dget d (str "train_count")) as [tc|] eqn:T; [|congruence].
    rewrite (G4 _ tc); [discriminate|]. apply G3, G2; [apply G1; exact T | neq].
  - intros x E1 E2. apply G7, I6.
    + assert (Q : forall b, b = str "epochs" -> dget d b = None -> dget e5 b = None).
      { intros b Hb Eb. unfold e5. assert (Q4 : dget e4 b = None).
        { assert (Q3 : dget e3 b = None). { unfold e3. rewrite !defaulted_get. assert (Q2 : dget e2 b = None) by (unfold e2; destruct (truthy neg && hw); [rewrite dget_dset_other by (subst b; neq)|]; unfold e1; rewrite defaulted_get, Eb; subst b; reflexivity). rewrite Q2. subst b. reflexivity. }
          destruct (dget e3 (str "random")); [injection A4 as <-; exact Q3|]. destruct (attr e3 (str "seed")) as [sd|]; [|discriminate]. injection A4 as <-. rewrite dget_dset_other by (subst b; neq). exact Q3. }
        destruct (dget e4 (str "train_count")); [exact Q4|]. rewrite !dget_dset_other by (subst b; neq). exact Q4. }
      apply Q; [reflexivity | exact E1].
    + apply G5; [|intros C; discriminate C]. apply G4, G3, G2; [apply G1; exact E2 | neq].
  - intros E. apply G7, G6; [|neq]. apply G5; [|intros C; discriminate C]. apply G4, G3, G2; [|neq]. unfold e1. rewrite defaulted_get, E. reflexivity.
  - intros n s E T W S1. assert (neg = n) by (apply G1 in E; congruence). subst n. 
    assert (ns = s). { assert (Y : dget (defaulted (str "max_final_vocab") vnone e6) (str "ns_exponent") = Some ns); [|congruence]. apply G7, G6; [|neq]. apply G5; [|intros C; discriminate C]. apply G4, G3, G2; [exact A2 | neq]. }
    subst s. apply G7, G6; [|neq]. apply G5; [|intros C; discriminate C]. apply G4, G3. unfold e2. rewrite T, W. apply dget_dset_same.
Qed.
Lemma take_vocabulary_spec : forall voc (d : attrs), (forall d2, take_vocabulary voc d = Ok d2 -> (NoDup (dkeys d) -> NoDup (dkeys d2)) /\
  (forall a, In a from_vocabulary -> dget voc a <> None /\ dget d2 a = dget voc a) /\ (forall a, ~ In a from_vocabulary -> dget d2 a = dget d a)) /\
  ((exists d2, take_vocabulary voc d = Ok d2) <-> forall a, In a from_vocabulary -> dget voc a <> None).
Proof.
  intros voc. unfold take_vocabulary. assert (ND : NoDup from_vocabulary) by (unfold from_vocabulary; repeat constructor; cbn [In]; intros X; repeat destruct X as [X|X]; try contradiction; vm_compute in X; discriminate).
  revert ND. generalize from_vocabulary as l. induction l as [|b l IH]; intros ND d.
  - cbn [rfold]. split; [intros d2 H; injection H as <-; split; [auto|]; split; [intros a []|]; auto|]. split; [intros _ a [] | intros _; eauto].
  - inversion ND as [|? ? Nb ND']; subst. cbn [rfold]. destruct (dget voc b) as [v|] eqn:E.
    + rewrite (proj2 (attr_ok voc b v) E). cbn [rbind]. destruct (IH ND' (dset d b v)) as [I1 I2]. split.
      * intros d2 H. destruct (I1 d2 H) as (P1 & P2 & P3). split; [intros Hd; apply P1, nodup_set; exact Hd|]. split.
        -- intros a [<-|Ha]; [|apply P2; exact Ha]. split; [congruence|]. rewrite P3 by exact Nb. rewrite dget_dset_same. congruence.
        -- intros a Ha. rewrite P3 by (intros Q; apply Ha; right; exact Q). apply dget_dset_other. intros ->. apply Ha. left. reflexivity.
      * rewrite I2. split; [intros Q a [<-|Ha]; [congruence | apply Q; exact Ha] | intros Q a Ha; apply Q; right; exact Ha].
    + unfold attr. rewrite E. cbn [rbind of_option]. split; [discriminate|]. split; [intros (d2 & Q); discriminate | intros Q; exfalso; apply (Q b); [left; reflexivity | exact E]].
Qed.
Lemma take_trainables_spec : forall tr (d : attrs), NoDup (dkeys d) -> let d2 := take_trainables tr d in
  (forall a x, In a from_trainables -> a <> str "syn1" -> dget tr a = Some x -> dget d2 a = Some x) /\
  (forall a, a <> str "syn1" -> (In a from_trainables -> dget tr a = None) -> dget d2 a = dget d a) /\ dget d2 (str "syn1") = None.
Proof.
  intros tr d N. cbn zeta. unfold take_trainables.
  assert (ND : NoDup from_trainables) by (unfold from_trainables; repeat constructor; cbn [In]; intros X; repeat destruct X as [X|X]; try contradiction; vm_compute in X; discriminate).
  assert (F : forall l (e : attrs), NoDup l -> NoDup (dkeys e) -> let e2 := fold_left (fun at_ a => match dget tr a with Some v => dset at_ a v | None => at_ end) l e in
    NoDup (dkeys e2) /\ (forall a x, In a l -> dget tr a = Some x -> dget e2 a = Some x) /\ (forall a, (In a l -> dget tr a = None) -> dget e2 a = dget e a)).
  { induction l as [|b l IH]; intros e Nl Ne; cbn [fold_left]; cbn zeta; [split; [exact Ne|]; split; [intros a x []|auto]|]. inversion Nl as [|? ? Nb Nl']; subst.
    destruct (dget tr b) as [v|] eqn:E.
    - destruct (IH (dset e b v) Nl' (nodup_set _ _ _ Ne)) as (P1 & P2 & P3). split; [exact P1|]. split.
      + intros a x [<-|Ha] Hx; [|apply P2; assumption]. rewrite P3 by (intros Q; contradiction). rewrite dget_dset_same. congruence.
      + intros a Ha. rewrite P3 by (intros Q; apply Ha; right; exact Q). apply dget_dset_other. intros ->. rewrite (Ha (or_introl eq_refl)) in E. discriminate.
    - destruct (IH e Nl' Ne) as (P1 & P2 & P3). split; [exact P1|]. split.
      + intros a x [<-|Ha] Hx; [congruence | apply P2; assumption].
      + intros a Ha. apply P3. intros Q. apply Ha. right. exact Q. }
  destruct (F from_trainables d ND N) as (P1 & P2 & P3). set (e := fold_left _ from_trainables d) in *. clearbody e. clear F.
  destruct (dget e (str "syn1")) as [v|] eqn:E.
  - split; [|split].
    + intros a x Ha Hn Hx. rewrite dget_ddel_other by congruence. rewrite dget_dset_other by congruence. apply P2; assumption.
    + intros a Hn Ha. rewrite dget_ddel_other by congruence. rewrite dget_dset_other by congruence. apply P3. exact Ha.
    + apply dget_ddel_same, nodup_set. exact P1.
  - split; [|split]; [intros a x Ha _ Hx; apply P2; assumption | intros a _ Ha; apply P3; exact Ha | exact E].
Qed.

(** what an old object [o] says about an attribute *)
Definition says (o : option attrs) (l : list pystr) (a : pystr) : option V := match o with Some t => if in_dec eq_dec a l then dget t a else None | None => None end.
Definition vocabulary_list : list pystr := [str "max_vocab_size"; str "min_count"; str "sample"; str "sorted_vocab"; str "null_word"; str "raw_vocab"].
Definition trainables_list : list pystr := [str "hashfxn"; str "layer1_size"; str "seed"; str "syn1neg"].

(** Attributes of the old objects become attributes of the model (the hierarchical softmax weights do not), `iter` becomes `epochs`, everything else stays. *)
Theorem upgrade_w2v_moves : forall hw voc tr d d', NoDup (dkeys d) -> UP hw voc tr d = Ok d' ->
  (forall a x, says tr trainables_list a = Some x -> dget d' a = Some x) /\
  (forall a x, says voc vocabulary_list a = Some x -> dget d' a = Some x) /\
  (forall a x, dget d a = Some x -> says tr trainables_list a = None -> says voc vocabulary_list a = None -> ~ In a [str "cum_table"; str "iter"; str "syn1"; str "total_train_time"] -> dget d' a = Some x) /\
  (forall x, dget d (str "epochs") = None -> dget d (str "iter") = Some x -> dget d' (str "epochs") = Some x) /\
  (forall x, tr = None -> dget d (str "syn1") = Some x -> dget d' (str "syn1") = Some x) /\
  (dget d (str "ns_exponent") = None -> dget d' (str "ns_exponent") = Some v075) /\
  (forall n s, dget d (str "negative") = Some n -> truthy n = true -> hw = true -> dget d' (str "ns_exponent") = Some s -> dget d' (str "cum_table") = Some (cum s)).
Proof.
  intros hw voc tr d d' N H. rewrite upgrade_split in H. destruct (before hw d) as [d1|] eqn:B; [|discriminate]. cbn [rbind] in H. destruct (before_spec hw d d1 N B) as (N1 & K & I & E0 & C).
  destruct (match voc with Some v => take_vocabulary v d1 | None => Ok d1 end) as [d2|] eqn:Vq; [|discriminate]. cbn [rbind] in H. injection H as <-.
  assert (LV : vocabulary_list = from_vocabulary) by reflexivity. assert (LT : forall a, In a trainables_list <-> In a from_trainables /\ a <> str "syn1").
  { intros a. unfold trainables_list, from_trainables. cbn [In]. split; [intros X; repeat destruct X as [<-|X]; try contradiction; (split; [tauto | neq]) | intros [X Y]; repeat destruct X as [<-|X]; try contradiction; tauto]. }
  assert (V2 : NoDup (dkeys d2) /\ (forall a x, says voc vocabulary_list a = Some x -> dget d2 a = Some x) /\ (forall a, says voc vocabulary_list a = None -> dget d2 a = dget d1 a)).
  { destruct voc as [v|]; [|injection Vq as <-; cbn [says]; split; [exact N1|]; split; [discriminate | auto]]. destruct (take_vocabulary_spec v d1) as [T _]. destruct (T d2 Vq) as (T1 & T2 & T3). split; [apply T1; exact N1|]. cbn [says]. rewrite LV. split.
    - intros a x. destruct (in_dec eq_dec a from_vocabulary) as [Ha|Ha]; [|discriminate]. intros E. rewrite (proj2 (T2 a Ha)). exact E.
    - intros a. destruct (in_dec eq_dec a from_vocabulary) as [Ha|Ha]; [intros E; exfalso; apply (proj1 (T2 a Ha)); exact E | intros _; apply T3; exact Ha]. }
  destruct V2 as (N2 & V2 & V3).
  set (d3 := match tr with Some t => take_trainables t d2 | None => d2 end).
  assert (T : (forall a x, says tr trainables_list a = Some x -> dget d3 a = Some x) /\ (forall a, says tr trainables_list a = None -> (tr <> None -> a <> str "syn1") -> dget d3 a = dget d2 a)).
  { unfold d3. destruct tr as [t|]; [|cbn [says]; split; [discriminate | auto]]. destruct (take_trainables_spec t d2 N2) as (T1 & T2 & _). cbn [says]. split.
    - intros a x. destruct (in_dec eq_dec a trainables_list) as [Ha|Ha]; [|discriminate]. apply LT in Ha. destruct Ha as [Ha Hn]. intros E. apply T1; assumption.
    - intros a E Hn. apply T2; [apply Hn; discriminate|]. intros Ha. destruct (in_dec eq_dec a trainables_list) as [Hb|Hb]; [exact E|]. exfalso. apply Hb, LT. split; [exact Ha | apply Hn; discriminate]. }
  destruct T as [T1 T2].
  assert (OUT : forall a, ~ In a trainables_list -> ~ In a vocabulary_list -> (tr <> None -> a <> str "syn1") -> dget d3 a = dget d1 a).
  { intros a Ha Hb Hc. rewrite T2; [apply V3 | | exact Hc]; unfold says; [destruct voc | destruct tr]; try reflexivity; destruct (in_dec eq_dec a _); try contradiction; reflexivity. }
  split; [exact T1|]. split; [|split; [|split; [|split; [|split]]]].
  - intros a x E. assert (Ha : In a vocabulary_list) by (unfold says in E; destruct voc; [|discriminate]; destruct (in_dec eq_dec a vocabulary_list); [assumption | discriminate]).
    assert (Nt : ~ In a trainables_list) by (intros Q; unfold trainables_list, vocabulary_list in *; cbn [In] in Ha, Q; repeat destruct Ha as [<-|Ha]; try contradiction; repeat destruct Q as [Q|Q]; try contradiction; vm_compute in Q; discriminate).
    rewrite T2; [apply V2; exact E | unfold says; destruct tr; [destruct (in_dec eq_dec a trainables_list); [contradiction | reflexivity] | reflexivity] |].
    intros _ ->. unfold vocabulary_list in Ha. cbn [In] in Ha. repeat destruct Ha as [Ha|Ha]; try contradiction; vm_compute in Ha; discriminate.
  - intros a x E S1 S2 Nn. cbn [In] in Nn. rewrite T2; [|exact S1|intros _ ->; tauto]. rewrite V3 by exact S2. apply K; [exact E | intros ->; tauto | intros ->; tauto | intros ->; tauto].
  - intros x E1 E2. rewrite OUT; [apply I; assumption | | | intros _; neq]; vm_compute; intros Q; repeat destruct Q as [Q|Q]; try discriminate; contradiction.
  - intros x Et E. rewrite OUT; [apply K; [exact E | neq | neq | intros Q; discriminate Q] | | | congruence]; vm_compute; intros Q; repeat destruct Q as [Q|Q]; try discriminate; contradiction.
  - intros E. rewrite OUT; [apply E0; exact E | | | intros _; neq]; vm_compute; intros Q; repeat destruct Q as [Q|Q]; try discriminate; contradiction.
  - intros n s E1 E2 E3 E4. rewrite OUT in *; try (intros _; neq); try (vm_compute; intros Q; repeat destruct Q as [Q|Q]; try discriminate; contradiction). eapply C; eassumption.
Qed.
(** a model of the present version is not changed, but for the table of negative sampling *)
Theorem upgrade_w2v_current : forall hw d n s, (forall a, In a [str "ns_exponent"; str "corpus_count"; str "corpus_total_words"; str "random"; str "train_count"; str "epochs"; str "max_final_vocab"] -> dget d a <> None) ->
  dget d (str "negative") = Some n -> dget d (str "ns_exponent") = Some s -> UP hw None None d = Ok (if truthy n && hw then dset d (str "cum_table") (cum s) else d).
Proof.
  intros hw d n s H En Es.
  assert (P : forall a v (e : attrs), dget e a <> None -> defaulted a v e = e) by (intros a v e Q; unfold defaulted; destruct (dget e a); [reflexivity | congruence]).
  set (e := if truthy n && hw then dset d (str "cum_table") (cum s) else d).
  assert (Q : forall a, In a [str "ns_exponent"; str "corpus_count"; str "corpus_total_words"; str "random"; str "train_count"; str "epochs"; str "max_final_vocab"] -> dget e a <> None).
  { intros a Ha. unfold e. destruct (truthy n && hw); [|apply H; exact Ha]. rewrite dget_dset. destruct (eq_dec (str "cum_table") a); [discriminate | apply H; exact Ha]. }
  unfold upgrade_w2v. rewrite (P _ _ d) by (apply H; cbn [In]; tauto). unfold attr at 1 2. rewrite En, Es. cbn [of_option rbind]. fold e.
  rewrite (P _ _ e) by (apply Q; cbn [In]; tauto). rewrite (P _ _ e) by (apply Q; cbn [In]; tauto).
  destruct (dget e (str "random")) eqn:E1; [|exfalso; exact (Q (str "random") ltac:(cbn [In]; tauto) E1)]. cbn [rbind].
  destruct (dget e (str "train_count")) eqn:E2; [|exfalso; exact (Q (str "train_count") ltac:(cbn [In]; tauto) E2)].
  destruct (dget e (str "epochs")) eqn:E3; [|exfalso; exact (Q (str "epochs") ltac:(cbn [In]; tauto) E3)]. cbn [rbind].
  rewrite (P _ _ e) by (apply Q; cbn [In]; tauto). reflexivity.
Qed.
(** The weights of hierarchical softmax of an old model are always lost. *)
Theorem upgrade_loses_syn1 : forall hw voc t d d', NoDup (dkeys d) -> UP hw voc (Some t) d = Ok d' -> dget d' (str "syn1") = None.
Proof.
  intros hw voc t d d' N H. rewrite upgrade_split in H. destruct (before hw d) as [d1|] eqn:B; [|discriminate]. cbn [rbind] in H. destruct (before_spec hw d d1 N B) as (N1 & _).
  destruct (match voc with Some v => take_vocabulary v d1 | None => Ok d1 end) as [d2|] eqn:Vq; [|discriminate]. cbn [rbind] in H. injection H as <-. apply take_trainables_spec.
  destruct voc as [v|]; [|injection Vq as <-; exact N1]. destruct (take_vocabulary_spec v d1) as [T _]. apply (T d2 Vq). exact N1.
Qed.
End W2v.
Print Assumptions upgrade_w2v_moves.
Print Assumptions upgrade_w2v_current.
Print Assumptions upgrade_loses_syn1.

(** an old model: 75 stands for 0.75 *)
Definition old_attrs : dict pystr nat := [(str "negative", 5); (str "hs", 1); (str "random", 1); (str "iter", 8); (str "alpha", 3)].
Definition old_vocabulary : dict pystr nat := [(str "max_vocab_size", 9); (str "min_count", 2); (str "sample", 4); (str "sorted_vocab", 1); (str "null_word", 0); (str "raw_vocab", 6); (str "ns_exponent", 50); (str "max_final_vocab", 1000)].
Definition old_trainables : dict pystr nat := [(str "seed", 11); (str "layer1_size", 100); (str "syn1", 13); (str "syn1neg", 14)].
Definition old_upgraded : result (dict pystr nat) := upgrade_w2v 0 75 0 (fun n => negb (n =? 0)) S (fun e => 1000 + e) true (Some old_vocabulary) (Some old_trainables) old_attrs.
Example upgrade_w2v_ex : match old_upgraded with Ok d => map (dget d) [str "min_count"; str "seed"; str "syn1neg"; str "epochs"; str "iter"; str "alpha"; str "cum_table"] = [Some 2; Some 11; Some 14; Some 8; None; Some 3; Some 1075] | Err _ => False end.
Proof. vm_compute. reflexivity. Qed.
Theorem hs_weights_lost_refuted : exists witness, witness = old_trainables /\ (dget witness (str "syn1") = Some 13 /\ dget old_attrs (str "hs") = Some 1 /\ match old_upgraded with Ok d => dget d (str "hs") = Some 1 /\ dget d (str "syn1") = None | Err _ => False end).
Proof. exists old_trainables. split; [reflexivity|]. vm_compute. auto. Qed.
(** So are the exponent of negative sampling and the bound of the vocabulary: the table is rebuilt with 0.75. *)
Theorem exponent_lost_refuted : exists witness, witness = old_vocabulary /\ (dget witness (str "ns_exponent") = Some 50 /\ dget witness (str "max_final_vocab") = Some 1000 /\
  match old_upgraded with Ok d => dget d (str "ns_exponent") = Some 75 /\ dget d (str "cum_table") = Some 1075 /\ dget d (str "max_final_vocab") = Some 0 | Err _ => False end).
Proof. exists old_vocabulary. split; [reflexivity|]. vm_compute. repeat split; reflexivity. Qed.
Print Assumptions hs_weights_lost_refuted.
Print Assumptions exponent_lost_refuted.

(** ** Keyed vectors *)
Section Kv.
Context {V M : Type}.
Variable vzero : V.
Definition is_word (k : key) : Prop := match k with KS _ => True | KI _ => False end.
(** an old table of words: each key once, with the position of its vector *)
Definition old_table (ks : list key) (voc : dict key (nat * dict pystr V)) : Prop :=
  NoDup ks /\ NoDup (map fst voc) /\ (forall k, In k ks -> is_word k) /\ (forall k i at_, In (k, (i, at_)) voc -> nth_error ks i = Some k /\ NoDup (dkeys at_)) /\ (forall k, In k ks -> In k (map fst voc)).

Definition wide (n : nat) (ex : dict pystr (list V)) : Prop := forall a col, dget ex a = Some col -> length col = n.
Definition cell (ex : dict pystr (list V)) (a : pystr) (i : nat) : V := match dget ex a with Some col => nth i col vzero | None => vzero end.
Lemma put_length : forall (col : list V) j v, j < length col -> length (firstn j col ++ v :: skipn (S j) col) = length col.
Proof. intros col j v H. rewrite app_length, firstn_length. cbn [length]. rewrite skipn_length. lia. Qed.
Lemma put_nth : forall (col : list V) j v i, j < length col -> nth i (firstn j col ++ v :: skipn (S j) col) vzero = if i =? j then v else nth i col vzero.
Proof.
  intros col. induction col as [|x col IH]; intros j v i H; [cbn in H; lia|]. destruct j as [|j]; cbn [firstn skipn app].
  - destruct i; reflexivity.
  - destruct i as [|i]; [reflexivity|]. cbn [nth]. rewrite IH by (cbn in H; lia). reflexivity.
Qed.
Lemma nth_repeat_z : forall n i, nth i (repeat vzero n) vzero = vzero.
Proof. induction n as [|n IH]; intros [|i]; cbn; auto. Qed.
Lemma set_vecattr_ok : forall ks kti i a v ex, (forall k j, In (k, j) kti -> is_word k) -> i < length ks -> wide (length ks) ex ->
  exists ex', set_vecattr vzero (Some ks) kti i a v ex = Ok ex' /\ wide (length ks) ex' /\ forall b j, cell ex' b j = if eq_dec a b then if j =? i then v else cell ex b j else cell ex b j.
Proof.
  intros ks kti i a v ex W L Wd. unfold set_vecattr, index_of_int. destruct (dget kti (KI i)) as [j|] eqn:E; [apply dget_In, W in E; destruct E|].
  rewrite (proj2 (Nat.ltb_lt _ _) L). cbn [rbind]. set (al := allocate vzero (length ks) a ex).
  assert (A : exists col, dget al a = Some col /\ length col = length ks /\ (forall j, nth j col vzero = cell ex a j) /\ forall b, b <> a -> dget al b = dget ex b).
  { unfold al, allocate, cell. destruct (dget ex a) as [prev|] eqn:P.
    - pose proof (Wd _ _ P) as LP. rewrite LP, Nat.eqb_refl. exists prev. rewrite P. auto.
    - exists (repeat vzero (length ks)). rewrite dget_dset_same, repeat_length. split; [reflexivity|]. split; [reflexivity|]. split; [intros j; apply nth_repeat_z|]. intros b Nb. apply dget_dset_other. congruence. }
  destruct A as (col & A1 & A2 & A3 & A4). rewrite A1, A2, (proj2 (Nat.ltb_lt _ _) L). eexists. split; [reflexivity|]. split.
  - intros b c Hc. rewrite dget_dset in Hc. destruct (eq_dec a b) as [<-|Nb]; [injection Hc as <-; rewrite put_length; lia|]. rewrite A4 in Hc by congruence. eapply Wd; exact Hc.
  - intros b j. unfold cell at 1. rewrite dget_dset. destruct (eq_dec a b) as [<-|Nb]; [rewrite put_nth by lia; rewrite A3; reflexivity|]. rewrite A4 by congruence. reflexivity.
Qed.
Lemma set_all_ok : forall ks kti i at_ ex, (forall k j, In (k, j) kti -> is_word k) -> i < length ks -> wide (length ks) ex -> NoDup (dkeys at_) ->
  exists ex', rfold (fun x av => set_vecattr vzero (Some ks) kti i (fst av) (snd av) x) at_ ex = Ok ex' /\ wide (length ks) ex' /\
    (forall a v, In (a, v) at_ -> cell ex' a i = v) /\ (forall a j, j <> i \/ ~ In a (dkeys at_) -> cell ex' a j = cell ex a j).
Proof.
  intros ks kti i at_. induction at_ as [|[a v] at_ IH]; intros ex W L Wd N; [exists ex; split; [reflexivity|]; split; [exact Wd|]; split; [intros a v []|auto]|].
  cbn [dkeys map fst] in N. inversion N as [|? ? Na N']; subst. cbn [rfold fst snd]. destruct (set_vecattr_ok ks kti i a v ex W L Wd) as (e1 & E1 & W1 & C1). rewrite E1. cbn [rbind].
  destruct (IH e1 W L W1 N') as (e2 & E2 & W2 & C2 & K2). exists e2. split; [exact E2|]. split; [exact W2|]. split.
  - intros b u [X|X]; [injection X as <- <-|apply C2; exact X]. rewrite K2 by (right; exact Na). rewrite C1. destruct (eq_dec a a); [|congruence]. rewrite Nat.eqb_refl. reflexivity.
  - intros b j Hj. rewrite K2 by (destruct Hj as [Hj|Hj]; [left; exact Hj | right; intros X; apply Hj; right; exact X]). rewrite C1. destruct (eq_dec a b) as [<-|]; [|reflexivity]. destruct (Nat.eqb_spec j i) as [->|]; [|reflexivity].
    exfalso. destruct Hj as [Hj|Hj]; [congruence | apply Hj; left; reflexivity].
Qed.

(** Words, vectors and per-word attributes of old vectors are all kept. *)
Theorem upgrade_kv_words : forall (o : okv (V := V) (M := M)) ks m voc, o_doctags o = false -> o_key_to_index o = None -> o_expandos o = None -> o_vocab o = Some voc -> old_table ks voc ->
  (o_index_to_key o = Some ks \/ (o_index_to_key o = None /\ (o_index2word o = Some ks \/ (o_index2word o = None /\ o_index2entity o = Some ks)))) ->
  (o_vectors o = Some m \/ (o_vectors o = None /\ o_syn0 o = Some m)) ->
  exists n, upgrade_kv vzero o = Ok n /\ n_keys n = Some ks /\ n_vectors n = m /\ (forall k i, dget (n_index n) k = Some i <-> nth_error ks i = Some k) /\
    (forall k i at_ a v, In (k, (i, at_)) voc -> In (a, v) at_ -> cell (n_expandos n) a i = v) /\
    (forall k i at_ a, In (k, (i, at_)) voc -> ~ In a (dkeys at_) -> cell (n_expandos n) a i = vzero) /\ wide (length ks) (n_expandos n).
Proof.
  intros o ks m voc D K E Vc (Nks & N & W & T & Al) Hk Hm. unfold upgrade_kv. rewrite D, K, E, Vc.
  assert (Q : (match o_vectors o with Some v => Ok v | None => of_option AttributeErr (o_syn0 o) end) = Ok m) by (destruct Hm as [->|[-> ->]]; reflexivity). rewrite Q. cbn [rbind]. clear Q.
  assert (Q : (match o_index_to_key o with Some k => Some k | None => match o_index2word o with Some k => Some k | None => o_index2entity o end end) = Some ks) by (destruct Hk as [->|[-> [->|[-> ->]]]]; reflexivity). rewrite Q. clear Q.
  assert (Q : forall l pre kti ex, voc = pre ++ l -> kti = map (fun e => (fst e, fst (snd e))) pre -> wide (length ks) ex ->
    (forall k i at_ a v, In (k, (i, at_)) pre -> In (a, v) at_ -> cell ex a i = v) -> (forall k i at_ a, In (k, (i, at_)) pre -> ~ In a (dkeys at_) -> cell ex a i = vzero) ->
    (forall a i, ~ In i (map (fun e => fst (snd e)) pre) -> cell ex a i = vzero) ->
    exists kti' ex', rfold (convert_one vzero (Some ks)) l (kti, ex) = Ok (kti', ex') /\ kti' = map (fun e => (fst e, fst (snd e))) voc /\ wide (length ks) ex' /\
      (forall k i at_ a v, In (k, (i, at_)) voc -> In (a, v) at_ -> cell ex' a i = v) /\ (forall k i at_ a, In (k, (i, at_)) voc -> ~ In a (dkeys at_) -> cell ex' a i = vzero)).
  { induction l as [|[k [i at_]] l IH]; intros pre kti ex Ep Ek We C1 C2 C3.
    - rewrite app_nil_r in Ep. subst pre. exists kti, ex. cbn [rfold]. repeat (split; [reflexivity || assumption|]). assumption.
    - cbn [rfold convert_one]. assert (Hin : In (k, (i, at_)) voc) by (rewrite Ep; apply in_or_app; right; left; reflexivity). destruct (T _ _ _ Hin) as [Ti Nat_].
      assert (Li : i < length ks) by (apply nth_error_Some; congruence).
      assert (Fresh : ~ In k (map fst pre)). { rewrite Ep, map_app in N. cbn [map fst] in N. apply NoDup_remove_2 in N. intros X. apply N. apply in_or_app. left. exact X. }
      assert (Ed : dset kti k i = map (fun e => (fst e, fst (snd e))) (pre ++ [(k, (i, at_))])).
      { rewrite map_app. cbn [map fst snd]. subst kti. clear - Fresh. induction pre as [|[k' [i' a']] pre IH]; [reflexivity|]. cbn [map fst snd dset app]. destruct (eq_dec k' k) as [->|Nk]; [exfalso; apply Fresh; left; reflexivity|]. f_equal. apply IH. intros X. apply Fresh. right. exact X. }
      assert (Wk : forall k' j, In (k', j) (dset kti k i) -> is_word k').
      { intros k' j X. rewrite Ed in X. apply in_map_iff in X. destruct X as ([k2 [i2 a2]] & X & Y). cbn in X. injection X as <- <-. apply W. apply (nth_error_In ks i2). apply (T k2 i2 a2). rewrite Ep. apply in_app_or in Y. apply in_or_app. destruct Y as [Y|[Y|[]]]; [left; exact Y | right; left; exact Y]. }
      destruct (set_all_ok ks (dset kti k i) i at_ ex Wk Li We Nat_) as (e1 & E1 & W1 & S1 & K1). rewrite E1. cbn [rbind].
      assert (Fi : forall k2 i2 a2, In (k2, (i2, a2)) pre -> i2 <> i).
      { intros k2 i2 a2 X Ei. subst i2. assert (nth_error ks i = Some k2) by (apply (T k2 i a2); rewrite Ep; apply in_or_app; left; exact X). assert (k2 = k) by congruence. subst k2. apply Fresh. apply in_map_iff. exists (k, (i, a2)). split; [reflexivity | exact X]. }
      apply (IH (pre ++ [(k, (i, at_))])).
      + rewrite <- app_assoc. exact Ep.
      + exact Ed.
      + exact W1.
      + intros k2 i2 a2 a v X Y. apply in_app_or in X. destruct X as [X|[X|[]]].
        * rewrite K1 by (left; eapply Fi; exact X). eapply C1; eassumption.
        * injection X as <- <- <-. apply S1. exact Y.
      + intros k2 i2 a2 a X Y. apply in_app_or in X. destruct X as [X|[X|[]]].
        * rewrite K1 by (left; eapply Fi; exact X). eapply C2; eassumption.
        * injection X as <- <- <-. rewrite K1 by (right; exact Y). apply C3. intros Z. apply in_map_iff in Z. destruct Z as ([k2 [i2 a2]] & Z1 & Z2). cbn in Z1. exact (Fi _ _ _ Z2 Z1).
      + intros a j X. rewrite map_app, in_app_iff in X. cbn [map fst snd In] in X. rewrite K1 by (left; intros ->; tauto). apply C3. tauto. }
  destruct (Q voc [] [] []) as (kti & ex & R & Ek & We & C1 & C2); [reflexivity | reflexivity | intros a col X; discriminate X | intros k i at_ a v [] | intros k i at_ a [] | reflexivity |]. rewrite R. cbn [rbind fst snd].
  eexists. split; [reflexivity|]. cbn [n_keys n_vectors n_index n_expandos]. split; [reflexivity|]. split; [reflexivity|]. split; [|split; [exact C1 | split; [exact C2 | exact We]]].
  assert (Nk : NoDup (dkeys kti)) by (rewrite Ek; unfold dkeys; rewrite map_map; exact N).
  intros k i. split.
  - intros X. apply dget_In in X. rewrite Ek in X. apply in_map_iff in X. destruct X as ([k2 [i2 a2]] & X & Y). cbn in X. injection X as -> ->. apply (T _ _ _ Y).
  - intros X. assert (Hk2 : In k (map fst voc)) by (apply Al; eapply nth_error_In; exact X). apply in_map_iff in Hk2. destruct Hk2 as ([k2 [i2 a2]] & Y & Z). cbn in Y. subst k2.
    assert (Ti : nth_error ks i2 = Some k) by apply (T _ _ _ Z). apply In_dget; [exact Nk|]. rewrite Ek. apply in_map_iff. exists (k, (i2, a2)). split; [|exact Z]. cbn. f_equal.
    apply (proj1 (NoDup_nth_error ks) Nks); [apply nth_error_Some; congruence | congruence].
Qed.
(** present vectors stay as they are *)
Theorem upgrade_kv_current : forall (o : okv (V := V) (M := M)) ks m ex kti, o_doctags o = false -> o_index_to_key o = Some ks -> o_vectors o = Some m -> o_expandos o = Some ex -> o_key_to_index o = Some kti ->
  upgrade_kv vzero o = Ok (mkNkv (Some ks) m ex kti).
Proof. intros o ks m ex kti D A B C E. unfold upgrade_kv. rewrite D, A, B, C, E. reflexivity. Qed.
(** vectors of documents of older versions cannot be loaded at all *)
Theorem upgrade_doctags_fails : forall (o : okv (V := V) (M := M)), o_doctags o = true -> upgrade_kv vzero o = Err AttributeErr.
Proof. intros o D. unfold upgrade_kv. rewrite D. reflexivity. Qed.
End Kv.
Print Assumptions upgrade_kv_words.
Print Assumptions upgrade_kv_current.
Print Assumptions upgrade_doctags_fails.

Definition old_words : okv (V := nat) (M := list nat) := mkOkv None (Some [KS (str "cat"); KS (str "dog")]) None None (Some [21; 22]) None None
  (Some [(KS (str "dog"), (1, [(str "count", 5); (str "index", 1)])); (KS (str "cat"), (0, [(str "count", 9); (str "index", 0); (str "code", 7)]))]) false.
Example upgrade_kv_ex : upgrade_kv 0 old_words = Ok (mkNkv (Some [KS (str "cat"); KS (str "dog")]) [21; 22] [(str "count", [9; 5]); (str "index", [0; 1]); (str "code", [7; 0])] [(KS (str "dog"), 1); (KS (str "cat"), 0)]).
Proof. vm_compute. reflexivity. Qed.
(** With integers as keys, attributes go to the wrong rows: 0 at row 1 loses its count to row 0. *)
Definition old_ints : okv (V := nat) (M := list nat) := mkOkv None None (Some [KI 1; KI 0]) (Some [21; 22]) None None None (Some [(KI 1, (0, [(str "count", 9)])); (KI 0, (1, [(str "count", 5)]))]) false.
Theorem int_keys_refuted : exists witness, witness = old_ints /\ (match upgrade_kv 0 witness with Ok n => dget (n_index n) (KI 0) = Some 1 /\ dget (n_expandos n) (str "count") = Some [5; 0] | Err _ => False end).
Proof. exists old_ints. split; [reflexivity|]. vm_compute. auto. Qed.
(** Vectors of documents *)
Theorem old_documents_refuted : exists o : okv (V := nat) (M := list nat), o_doctags o = true /\ o_index_to_key o = Some [] /\ o_vectors o = Some [] /\ upgrade_kv 0 o = Err AttributeErr.
Proof. exists (mkOkv (Some []) None None (Some []) None None None (Some []) true). vm_compute. auto. Qed.
Print Assumptions int_keys_refuted.
Print Assumptions old_documents_refuted.
