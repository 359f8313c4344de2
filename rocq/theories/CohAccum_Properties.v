(** * C72: the occurrence counts behind topic coherence *)
From Coq Require Import List Bool Arith Lia ZifyBool Permutation.
From Verif Require Import Base Str Utils_Model Utils_Properties CohAccum_Model CohAccum_Spec CohAccum_Proofs CohPar_Proofs.

(** The dictionary knows the relevant ids, and its two maps agree on them. *)
Definition dict_ok (token2id : dict pystr nat) (id2token : dict nat pystr) (rel : list nat) : Prop :=
  NoDup rel /\ forall i, In i rel -> exists u, dget id2token i = Some u /\ dget token2id u = Some i.

(** The texts with a relevant word. *)
Definition has_relevant (id2token : dict nat pystr) (rel : list nat) (text : list pystr) : bool :=
  existsb (fun i => match dget id2token i with Some u => memb u text | None => false end) rel.
Definition rel_texts (id2token : dict nat pystr) (rel : list nat) (texts : list (list pystr)) : list (list pystr) :=
  filter (has_relevant id2token rel) texts.

(** The number of windows of the texts that contain all of [words]. *)
Definition window_count (w : nat) (texts : list (list pystr)) (words : list pystr) : nat :=
  length (filter (fun win => forallb (fun u => memb u win) words) (flat_map (windows_of w true) texts)).

(** ** From words to contiguous ids *)

Lemma dget_combine_seq : forall (rel : list nat) a i n, NoDup rel ->
  dget (combine rel (seq a (length rel))) i = Some n <-> a <= n /\ nth_error rel (n - a) = Some i.
Proof.
  induction rel as [|x rel IH]; intros a i n HN; cbn [length seq combine dget].
  - split; [discriminate|]. intros [_ E]. destruct (n - a); discriminate.
  - inversion HN; subst. destruct (eq_dec x i) as [<-|NE].
    + split.
      * intros E. inversion E; subst. rewrite Nat.sub_diag. split; [lia|reflexivity].
      * intros [L E]. destruct (n - a) as [|m] eqn:Em; [f_equal; lia|]. cbn in E. exfalso. apply H1. eapply nth_error_In; eauto.
    + rewrite IH by auto. split; intros [L E].
      * split; [lia|]. replace (n - a) with (S (n - S a)) by lia. exact E.
      * destruct (n - a) as [|m] eqn:Em; [cbn in E; congruence|]. split; [lia|]. replace (n - S a) with m by lia. exact E.
Qed.

Lemma map_fst_combine_seq (l : list nat) : forall a, map fst (combine l (seq a (length l))) = l.
Proof. induction l as [|x l IH]; intros a; [reflexivity|]. cbn [length seq combine map fst]. now rewrite IH. Qed.

Lemma contig_get rel i n : NoDup rel -> dget (id2contiguous rel) i = Some n <-> nth_error rel n = Some i.
Proof.
  intros HN. unfold id2contiguous. rewrite dict_of_NoDup by now rewrite map_fst_combine_seq.
  pose proof (dget_combine_seq rel 0 i n HN) as Q. rewrite Nat.sub_0_r in Q. rewrite Q. intuition lia.
Qed.

Lemma rmapM_map {A B} (f : A -> result B) (g : A -> B) l : (forall x, In x l -> f x = Ok (g x)) -> rmapM f l = Ok (map g l).
Proof.
  induction l as [|x l IH]; intros H; [reflexivity|]. cbn. rewrite H by (now left). cbn. rewrite IH; [reflexivity|]. intros; apply H; now right.
Qed.

Section Words.
  Variables (token2id : dict pystr nat) (id2token : dict nat pystr) (rel : list nat).
  Hypothesis HD : dict_ok token2id id2token rel.

  Definition word (i : nat) : pystr := match dget id2token i with Some u => u | None => [] end.
  Definition rw : list pystr := map word rel.
  Definition cid (u : pystr) : nat :=
    if memb u rw then
      match dget token2id u with
      | Some i => match dget (id2contiguous rel) i with Some n => n | None => 0 end
      | None => 0 end
    else length rel.

  Lemma ids_ok : ids_to_words id2token rel = Ok rw.
  Proof.
    apply rmapM_map. intros i HI. destruct HD as [_ HD2]. destruct (HD2 i HI) as (u & E & _). unfold word. rewrite E. reflexivity.
  Qed.

  Lemma in_rw u : In u rw <-> exists i, In i rel /\ dget id2token i = Some u /\ dget token2id u = Some i.
  Proof.
    unfold rw. rewrite in_map_iff. split.
    - intros (i & E & HI). destruct (proj2 HD i HI) as (u' & E1 & E2). unfold word in E. rewrite E1 in E. subst u'. eauto.
    - intros (i & HI & E1 & E2). exists i. split; [|exact HI]. unfold word. now rewrite E1.
  Qed.

  Lemma cid_word i n u x : nth_error rel n = Some i -> dget id2token i = Some u -> (cid x = n <-> x = u).
  Proof.
    intros En Eu. assert (Ln : n < length rel) by (apply nth_error_Some; congruence).
    assert (HI : In i rel) by (eapply nth_error_In; eauto).
    destruct HD as [HN _]. destruct (proj2 HD i HI) as (u' & E1 & E2). rewrite Eu in E1. inversion E1; subst u'.
    unfold cid. split.
    - destruct (memb x rw) eqn:M; [|lia]. rewrite memb_true, in_rw in M. destruct M as (j & HJ & J1 & J2).
      rewrite J2. apply In_nth_error in HJ. destruct HJ as [m Em].
      assert (G : dget (id2contiguous rel) j = Some m) by now apply contig_get. rewrite G. intros ->.
      assert (j = i) by congruence. subst j. congruence.
    - intros ->. assert (M : memb u rw = true) by (apply memb_true, in_rw; eauto). rewrite M, E2.
      assert (G : dget (id2contiguous rel) i = Some n) by now apply contig_get. now rewrite G.
  Qed.

  Lemma cid_le x : cid x <= length rel.
  Proof.
    unfold cid. destruct (memb x rw) eqn:M; [|lia]. rewrite memb_true, in_rw in M. destruct M as (j & HJ & J1 & J2).
    rewrite J2. apply In_nth_error in HJ. destruct HJ as [m Em].
    assert (G : dget (id2contiguous rel) j = Some m) by (apply contig_get; [apply HD|exact Em]). rewrite G.
    assert (m < length rel) by (apply nth_error_Some; congruence). lia.
  Qed.

  Lemma contig_ok text : contig_text token2id rel rw text = Ok (map cid text).
  Proof.
    apply rmapM_map. intros u _. unfold cid. destruct (memb u rw) eqn:M; [|reflexivity].
    rewrite memb_true, in_rw in M. destruct M as (j & HJ & J1 & J2). rewrite J2. cbn [of_option rbind].
    apply In_nth_error in HJ. destruct HJ as [m Em].
    assert (G : dget (id2contiguous rel) j = Some m) by (apply contig_get; [apply HD|exact Em]). rewrite G. reflexivity.
  Qed.

  Lemma relevant_same text : text_is_relevant rw text = has_relevant id2token rel text.
  Proof.
    apply eq_true_iff_eq. unfold text_is_relevant, has_relevant. rewrite !existsb_exists. split.
    - intros (u & HI & M). rewrite memb_true, in_rw in M. destruct M as (i & HJ & J1 & J2). exists i. split; [exact HJ|].
      rewrite J1. now apply memb_true.
    - intros (i & HI & M). destruct (proj2 HD i HI) as (u & E1 & E2). rewrite E1, memb_true in M. exists u. split; [exact M|].
      apply memb_true, in_rw. eauto.
  Qed.

  Lemma iter_ok texts : iter_texts token2id rel rw texts = Ok (map (map cid) (rel_texts id2token rel texts)).
  Proof.
    unfold iter_texts, rel_texts. rewrite (filter_ext _ _ relevant_same). apply rmapM_map. intros t _. apply contig_ok.
  Qed.

  Lemma arrays_good texts : Forall (good_text (length rel)) (map (map cid) (rel_texts id2token rel texts)).
  Proof.
    apply Forall_forall. intros a HI. apply in_map_iff in HI. destruct HI as (t & <- & HI).
    unfold rel_texts in HI. apply filter_In in HI. destruct HI as [_ HR]. split.
    - destruct t; [|discriminate]. unfold has_relevant in HR. apply existsb_exists in HR. destruct HR as (i & _ & M).
      destruct (dget id2token i); [|discriminate]. rewrite memb_true in M. destruct M.
    - apply Forall_forall. intros x HX. apply in_map_iff in HX. destruct HX as (u & <- & _). apply cid_le.
  Qed.

  Lemma at_pos_cid t p i n u : nth_error rel n = Some i -> dget id2token i = Some u -> at_pos (map cid t) p n = at_pos t p u.
  Proof.
    intros En Eu. apply eq_true_iff_eq. rewrite !at_pos_true, nth_error_map. destruct (nth_error t p) as [x|]; cbn [option_map].
    - pose proof (cid_word i n u x En Eu). split; intros E; inversion E; subst; f_equal; tauto.
    - split; discriminate.
  Qed.

  Lemma seen_cid w t k i n u : nth_error rel n = Some i -> dget id2token i = Some u -> seen w (map cid t) k n = seen w t k u.
  Proof.
    intros En Eu. unfold seen.
    assert (Q : forall p, forallb (fun q => negb (at_pos (map cid t) q n) || (q + w <=? p)) (seq 0 k) =
                forallb (fun q => negb (at_pos t q u) || (q + w <=? p)) (seq 0 k)).
    { intros p. induction (seq 0 k) as [|q l IH]; [reflexivity|]. cbn [forallb]. now rewrite IH, (at_pos_cid t q i n u En Eu). }
    induction (seq k w) as [|p l IH]; [reflexivity|]. cbn [existsb]. now rewrite IH, Q, (at_pos_cid t p i n u En Eu).
  Qed.

  Lemma total_cid w f g ts : (forall t k, f (map cid t) k = g t k) -> total w f (map (map cid) ts) = total w g ts.
  Proof.
    intros H. unfold total. rewrite map_map. f_equal. apply map_ext. intros t. rewrite map_length.
    rewrite (filter_ext _ _ (H t)). reflexivity.
  Qed.
End Words.

Lemma total_windows {A} w (ts : list (list A)) : total w (fun _ _ => true) ts = length (flat_map (windows_of w true) ts).
Proof.
  induction ts as [|t ts IH]; [reflexivity|]. rewrite total_cons. cbn [flat_map]. rewrite app_length, IH, windows_slots, map_length.
  now rewrite filter_true.
Qed.

Lemma inside_window w t k (u : pystr) : memb u (firstn w (skipn k t)) = inside w t k u.
Proof.
  apply eq_true_iff_eq. rewrite memb_true. unfold inside. rewrite existsb_exists. split.
  - intros HI. apply In_nth_error in HI. destruct HI as [p E].
    assert (L : p < length (firstn w (skipn k t))) by (apply nth_error_Some; congruence). rewrite firstn_length in L.
    rewrite nth_error_window in E by lia. exists (k + p). split; [apply in_seq; lia|]. now apply at_pos_true.
  - intros (p & HI & E). apply in_seq in HI. rewrite at_pos_true in E. apply nth_error_In with (n := p - k).
    rewrite nth_error_window by lia. replace (k + (p - k)) with p by lia. exact E.
Qed.

Lemma window_count_total w ts us : window_count w ts us = total w (fun t k => forallb (inside w t k) us) ts.
Proof.
  unfold window_count. induction ts as [|t ts IH]; [reflexivity|]. rewrite total_cons. cbn [flat_map].
  rewrite filter_app, app_length, IH, windows_slots. f_equal.
  induction (slots w (length t)) as [|k l IH']; [reflexivity|]. cbn [map filter].
  assert (E : forallb (fun u => memb u (firstn w (skipn k t))) us = forallb (inside w t k) us).
  { induction us as [|u us IHu]; [reflexivity|]. cbn [forallb]. rewrite inside_window. f_equal.
    clear. induction us as [|x us IHu]; [reflexivity|]. cbn [forallb]. now rewrite inside_window, IHu. }
  rewrite E. destruct (forallb (inside w t k) us); cbn [length]; now rewrite IH'.
Qed.

Lemma total_le {A} w f g (ts : list (list A)) : (forall t k, In t ts -> f t k = true -> g t k = true) -> total w f ts <= total w g ts.
Proof.
  induction ts as [|t ts IH]; intros H; [cbn; lia|]. rewrite !total_cons. apply Nat.add_le_mono.
  - assert (G : forall k, f t k = true -> g t k = true) by (intros; apply H; [now left|assumption]).
    induction (slots w (length t)) as [|k l IH']; [cbn; lia|]. cbn [filter]. specialize (G k). destruct (f t k), (g t k); cbn [length]; try lia.
  - apply IH. intros; apply H; [now right|assumption].
Qed.

Lemma total_ext {A} w f g (ts : list (list A)) : (forall t k, In t ts -> f t k = g t k) -> total w f ts = total w g ts.
Proof. intros H. apply Nat.le_antisymm; apply total_le; intros t k HI E; specialize (H t k HI); congruence. Qed.

Lemma seen_inside w t k (u : pystr) : 1 <= w -> seen w t k u = true -> inside w t k u = true.
Proof.
  intros Hw. rewrite seen_iff by exact Hw. intros (p & HI & E & _). unfold inside. apply existsb_exists. exists p. split; [apply in_seq; lia|]. now apply at_pos_true.
Qed.

Lemma inside_seen w t k (u : pystr) r : 1 <= w -> spread w r t -> r u -> inside w t k u = true -> seen w t k u = true.
Proof.
  intros Hw HS Hr. unfold inside. rewrite existsb_exists. intros (p & HI & E). apply in_seq in HI. rewrite at_pos_true in E.
  apply seen_iff; [exact Hw|]. exists p. split; [lia|]. split; [exact E|]. intros q Hq Eq. eapply HS; eauto. lia.
Qed.

(** ** C72a: what is counted *)

(** For every list of texts and window size: each text with a relevant word
    gives one virtual document per window; the count of a word is the number of
    windows where it is at a place [p] with no other place of it before the
    window and less than [w] words before [p]; the count of two words is the
    number of windows where this holds for both. *)
Theorem accumulate_seen : forall token2id id2token rel texts w, dict_ok token2id id2token rel -> 1 <= w ->
  exists s, word_occurrence token2id id2token rel texts w = Ok s /\
    ndocs s = length (flat_map (windows_of w true) (rel_texts id2token rel texts)) /\
    (forall i u, In i rel -> dget id2token i = Some u ->
       get_occurrences rel s i = Ok (total w (fun t k => seen w t k u) (rel_texts id2token rel texts))) /\
    (forall i j u u', In i rel -> In j rel -> dget id2token i = Some u -> dget id2token j = Some u' ->
       get_co_occurrences rel s i j = Ok (total w (fun t k => seen w t k u && seen w t k u') (rel_texts id2token rel texts))).
Proof.
  intros t2i i2t rel texts w HD Hw. unfold word_occurrence. rewrite (ids_ok t2i i2t rel HD). cbn [rbind].
  rewrite (iter_ok t2i i2t rel HD). cbn [rbind]. unfold accumulate.
  pose proof (arrays_good t2i i2t rel HD texts) as HG. set (arrays := map (map (cid t2i i2t rel)) (rel_texts i2t rel texts)) in *.
  destruct (partial_ok (length rel) w Hw (occ_init (length rel)) arrays (wf_init (length rel)) HG) as (s & E & W & O & C & N).
  rewrite E. cbn [rbind]. eexists. split; [reflexivity|].
  assert (OC : forall i n u, nth_error rel n = Some i -> dget i2t i = Some u ->
     nth_error (occ s) n = Some (total w (fun t k => seen w t k u) (rel_texts i2t rel texts))).
  { intros i n u En Eu. assert (Ln : n < length rel) by (apply nth_error_Some; congruence).
    rewrite nth_error_nth' with (d := 0) by (destruct W; lia). f_equal. change (nth n (occ s) 0) with (occs s n). rewrite O by exact Ln.
    unfold occs at 1. cbn [occ_init occ]. rewrite nth_repeat. unfold adds_occ, arrays. cbn [Nat.add]. apply total_cid.
    intros t k. eapply seen_cid; eauto. }
  split; [|split].
  - cbn [symmetrize ndocs]. rewrite N. unfold adds_docs, arrays. cbn [occ_init ndocs Nat.add].
    rewrite (total_cid t2i i2t rel w _ (fun _ _ => true)) by reflexivity. apply total_windows.
  - intros i u HI Eu. apply In_nth_error in HI. destruct HI as [n En]. unfold get_occurrences.
    assert (G : dget (id2contiguous rel) i = Some n) by (apply contig_get; [apply HD|exact En]). rewrite G. cbn [of_option rbind].
    cbn [symmetrize occ]. erewrite OC; eauto. reflexivity.
  - intros i j u u' HI HJ Eu Eu'. apply In_nth_error in HI. destruct HI as [n En]. apply In_nth_error in HJ. destruct HJ as [m Em].
    unfold get_co_occurrences.
    assert (G : dget (id2contiguous rel) i = Some n) by (apply contig_get; [apply HD|exact En]). rewrite G. cbn [of_option rbind].
    assert (G' : dget (id2contiguous rel) j = Some m) by (apply contig_get; [apply HD|exact Em]). rewrite G'. cbn [of_option rbind].
    f_equal. cbn [symmetrize co].
    assert (Ln : n < length rel) by (apply nth_error_Some; congruence). assert (Lm : m < length rel) by (apply nth_error_Some; congruence).
    destruct (Nat.eqb_spec n m) as [<-|NE].
    + assert (i = j) by congruence. subst j. assert (u = u') by congruence. subst u'. rewrite Nat.eqb_refl.
      pose proof (OC i n u En Eu) as Q. apply nth_error_nth with (d := 0) in Q. rewrite Q.
      match goal with |- ?a + ?a - ?a = ?b => assert (X : a = b); [|lia] end. apply total_ext. intros t k _. now rewrite andb_diag.
    + assert (B : forall a b, a < length rel -> b < length rel -> a <> b -> co s a b = if a <? b then total w (both w a b) arrays else 0).
      { intros a b La Lb NE'. rewrite C. unfold adds_co. cbn [occ_init co Nat.add].
        destruct (Nat.ltb_spec a b), (Nat.ltb_spec b (length rel)); try lia; reflexivity. }
      destruct (Nat.eqb_spec m n); [congruence|]. rewrite !B by lia.
      assert (S1 : total w (both w n m) arrays = total w (fun t k => seen w t k u && seen w t k u') (rel_texts i2t rel texts)).
      { unfold arrays. apply total_cid. intros t k. unfold both. now rewrite (seen_cid t2i i2t rel HD w t k i n u En Eu), (seen_cid t2i i2t rel HD w t k j m u' Em Eu'). }
      assert (S2 : total w (both w m n) arrays = total w (both w n m) arrays).
      { apply total_ext. intros t k _. unfold both. apply andb_comm. }
      destruct (Nat.ltb_spec n m), (Nat.ltb_spec m n); try lia.
Qed.
Print Assumptions accumulate_seen.

(** Counts are never too large. *)
Theorem accumulate_below : forall token2id id2token rel texts w s i j u u', dict_ok token2id id2token rel -> 1 <= w ->
  word_occurrence token2id id2token rel texts w = Ok s ->
  In i rel -> In j rel -> dget id2token i = Some u -> dget id2token j = Some u' ->
  exists n m, get_occurrences rel s i = Ok n /\ n <= window_count w (rel_texts id2token rel texts) [u] /\
    get_co_occurrences rel s i j = Ok m /\ m <= window_count w (rel_texts id2token rel texts) [u; u'].
Proof.
  intros t2i i2t rel texts w s i j u u' HD Hw E HI HJ Eu Eu'.
  destruct (accumulate_seen t2i i2t rel texts w HD Hw) as (s' & E' & _ & O & C). rewrite E in E'. injection E' as <-.
  eexists. eexists. split; [eauto|]. split; [|split; [eauto|]].
  - rewrite window_count_total. apply total_le. intros t k _ H. cbn [forallb]. rewrite (seen_inside _ _ _ _ Hw H). reflexivity.
  - rewrite window_count_total. apply total_le. intros t k _ H. apply andb_true_iff in H. destruct H as [H1 H2]. cbn [forallb].
    rewrite (seen_inside _ _ _ _ Hw H1), (seen_inside _ _ _ _ Hw H2). reflexivity.
Qed.
Print Assumptions accumulate_below.

(** If no relevant word comes twice within [w] consecutive words of a text, the
    counts are the numbers of windows with the words. *)
Theorem accumulate_exact : forall token2id id2token rel texts w, dict_ok token2id id2token rel -> 1 <= w ->
  (forall t, In t texts -> spread w (fun u => exists i, In i rel /\ dget id2token i = Some u) t) ->
  exists s, word_occurrence token2id id2token rel texts w = Ok s /\
    (forall i u, In i rel -> dget id2token i = Some u ->
       get_occurrences rel s i = Ok (window_count w (rel_texts id2token rel texts) [u])) /\
    (forall i j u u', In i rel -> In j rel -> dget id2token i = Some u -> dget id2token j = Some u' ->
       get_co_occurrences rel s i j = Ok (window_count w (rel_texts id2token rel texts) [u; u'])).
Proof.
  intros t2i i2t rel texts w HD Hw HS. destruct (accumulate_seen t2i i2t rel texts w HD Hw) as (s & E & _ & O & C).
  exists s. split; [exact E|].
  assert (X : forall t k i u, In t (rel_texts i2t rel texts) -> In i rel -> dget i2t i = Some u -> seen w t k u = inside w t k u).
  { intros t k i u HT HI Eu. apply eq_true_iff_eq. split; [now apply seen_inside|]. unfold rel_texts in HT. apply filter_In in HT. destruct HT as [HT _].
    eapply inside_seen; [exact Hw|apply HS; exact HT|cbn; eauto]. }
  split.
  - intros i u HI Eu. rewrite (O i u HI Eu). f_equal. rewrite window_count_total. apply total_ext. intros t k HT. cbn [forallb].
    rewrite (X t k i u HT HI Eu). now rewrite andb_true_r.
  - intros i j u u' HI HJ Eu Eu'. rewrite (C i j u u' HI HJ Eu Eu'). f_equal. rewrite window_count_total. apply total_ext. intros t k HT. cbn [forallb].
    rewrite (X t k i u HT HI Eu), (X t k j u' HT HJ Eu'). now rewrite andb_true_r.
Qed.
Print Assumptions accumulate_exact.

(** Short texts need no condition: a text of at most [w] words is one window. *)
Theorem accumulate_short : forall token2id id2token rel texts w, dict_ok token2id id2token rel -> 1 <= w ->
  (forall t, In t texts -> length t <= w) ->
  exists s, word_occurrence token2id id2token rel texts w = Ok s /\
    ndocs s = length (rel_texts id2token rel texts) /\
    (forall i u, In i rel -> dget id2token i = Some u ->
       get_occurrences rel s i = Ok (length (filter (fun t => memb u t) (rel_texts id2token rel texts)))) /\
    (forall i j u u', In i rel -> In j rel -> dget id2token i = Some u -> dget id2token j = Some u' ->
       get_co_occurrences rel s i j = Ok (length (filter (fun t => memb u t && memb u' t) (rel_texts id2token rel texts)))).
Proof.
  intros t2i i2t rel texts w HD Hw HS. destruct (accumulate_seen t2i i2t rel texts w HD Hw) as (s & E & N & O & C).
  exists s. split; [exact E|].
  assert (T : forall (ts : list (list pystr)) f g, (forall t, In t ts -> length t <= w) -> (forall t, In t ts -> f t 0 = g t) -> total w f ts = length (filter g ts)).
  { induction ts as [|t ts IH]; intros f g HL HG; [reflexivity|]. rewrite total_cons.
    rewrite (IH f g) by (intros; (apply HL || apply HG); now right).
    assert (SL : slots w (length t) = [0]).
    { unfold slots. destruct (Nat.ltb_spec (length t) w); [reflexivity|]. specialize (HL t (or_introl eq_refl)).
      replace (length t - w) with 0 by lia. reflexivity. }
    rewrite SL. cbn [filter]. rewrite HG by now left. destruct (g t); reflexivity. }
  assert (HR : forall t, In t (rel_texts i2t rel texts) -> length t <= w).
  { intros t HT. unfold rel_texts in HT. apply filter_In in HT. apply HS. tauto. }
  assert (SN : forall t u, In t (rel_texts i2t rel texts) -> seen w t 0 u = memb u t).
  { intros t u HT. rewrite seen_first by exact Hw. rewrite firstn_all2; [reflexivity|]. now apply HR. }
  split; [|split].
  - rewrite N, <- total_windows. rewrite (T _ _ (fun _ => true)); auto. now rewrite filter_true.
  - intros i u HI Eu. rewrite (O i u HI Eu). f_equal. apply T; [exact HR|]. intros t HT. now apply SN.
  - intros i j u u' HI HJ Eu Eu'. rewrite (C i j u u' HI HJ Eu Eu'). f_equal. apply T; [exact HR|]. intros t HT. now rewrite !SN.
Qed.
Print Assumptions accumulate_short.

(** The example dictionary: a, b, c with ids 5, 6, 7. *)
Definition ex_t2i : dict pystr nat := [(str "a", 5); (str "b", 6); (str "c", 7)].
Definition ex_i2t : dict nat pystr := [(5, str "a"); (6, str "b"); (7, str "c")].

Lemma ex_dict_ok rel : NoDup rel -> (forall i, In i rel -> In i [5; 6; 7]) -> dict_ok ex_t2i ex_i2t rel.
Proof.
  intros HN HI. split; [exact HN|]. intros i Hi. specialize (HI i Hi). cbn in HI.
  destruct HI as [<-|[<-|[<-|[]]]]; eexists; split; reflexivity.
Qed.

Definition result_of (rel : list nat) (r : result occ_state) : result (nat * list (result nat) * list (result nat)) :=
  let* s := r in Ok (ndocs s, map (get_occurrences rel s) rel, map (fun ij : nat * nat => get_co_occurrences rel s (fst ij) (snd ij)) (combinations2 rel)).

Example accumulate_ex :
  result_of [7; 5; 6] (word_occurrence ex_t2i ex_i2t [7; 5; 6] [[str "a"; str "x"; str "b"; str "c"]; [str "x"]; [str "c"]] 3)
  = Ok (3, [Ok 2; Ok 1; Ok 2], [Ok 0; Ok 1; Ok 1]).
Proof. vm_compute. reflexivity. Qed.

(** A word that leaves the window while another copy of it stays inside is not
    counted any more: in "a b a c" with windows of 3 words, a is in both windows
    but counted once, and never together with c. *)
Theorem repeated_word_refuted : exists rel texts w s,
  dict_ok ex_t2i ex_i2t rel /\ word_occurrence ex_t2i ex_i2t rel texts w = Ok s /\
  window_count w (rel_texts ex_i2t rel texts) [str "a"] = 2 /\ get_occurrences rel s 5 = Ok 1 /\
  window_count w (rel_texts ex_i2t rel texts) [str "a"; str "c"] = 1 /\ get_co_occurrences rel s 5 7 = Ok 0.
Proof.
  exists [5; 6; 7], [[str "a"; str "b"; str "a"; str "c"]], 3.
  eexists. split; [apply ex_dict_ok; [repeat constructor; cbn; intuition lia|auto]|].
  split; [vm_compute; reflexivity|]. vm_compute. auto.
Qed.
Print Assumptions repeated_word_refuted.

(** Whether a text counts depends on the set of relevant words: adding a
    relevant word changes the number of documents, hence the estimated
    probability of the others. *)
Theorem num_docs_relevant_refuted : exists texts s s',
  word_occurrence ex_t2i ex_i2t [5] texts 2 = Ok s /\ word_occurrence ex_t2i ex_i2t [5; 6] texts 2 = Ok s' /\
  get_occurrences [5] s 5 = get_occurrences [5; 6] s' 5 /\ ndocs s = 1 /\ ndocs s' = 2.
Proof.
  exists [[str "a"; str "x"]; [str "b"; str "x"]]. eexists. eexists.
  split; [vm_compute; reflexivity|]. split; [vm_compute; reflexivity|]. vm_compute. auto.
Qed.
Print Assumptions num_docs_relevant_refuted.

(** A second [accumulate] on the same object doubles the pair counts of the
    first. *)
Theorem accumulate_twice_refuted : exists rel arrays s s',
  accumulate (occ_init 2) arrays 2 = Ok s /\ accumulate s arrays 2 = Ok s' /\ rel = [5; 6] /\
  get_occurrences rel s 5 = Ok 1 /\ get_co_occurrences rel s 5 6 = Ok 1 /\
  get_occurrences rel s' 5 = Ok 2 /\ get_co_occurrences rel s' 5 6 = Ok 3.
Proof.
  exists [5; 6], [[0; 1]]. eexists. eexists. split; [vm_compute; reflexivity|]. split; [vm_compute; reflexivity|]. vm_compute. auto.
Qed.
Print Assumptions accumulate_twice_refuted.
