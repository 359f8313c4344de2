(** * Proofs about the occurrence accumulators. *)
From Coq Require Import List Bool Arith Lia ZifyBool Permutation.
From Verif Require Import Base Str Utils_Model Utils_Properties CohAccum_Model CohAccum_Spec.

(** ** Lists *)

Lemma lput_map {A} (f g : nat -> A) n i x : i < n -> (forall j, j < n -> g j = if j =? i then x else f j) ->
  lput (map f (seq 0 n)) i x = Ok (map g (seq 0 n)).
Proof.
  intros Hi Hg. unfold lput. rewrite map_length, seq_length. destruct (Nat.ltb_spec i n); [|lia]. f_equal.
  apply nth_ext with (d := x) (d' := x).
  - rewrite app_length, firstn_length. cbn [length]. rewrite skipn_length, !map_length, seq_length. lia.
  - intros j Hj. assert (L : j < n).
    { rewrite app_length, firstn_length in Hj. cbn [length] in Hj. rewrite skipn_length, !map_length, seq_length in Hj. lia. }
    assert (E : nth j (map g (seq 0 n)) x = g j).
    { rewrite nth_indep with (d' := g 0) by (rewrite map_length, seq_length; lia).
      rewrite map_nth, seq_nth by lia. reflexivity. }
    rewrite E, Hg by lia.
    assert (F : forall k, k < n -> nth k (map f (seq 0 n)) x = f k).
    { intros k Hk. rewrite nth_indep with (d' := f 0) by (rewrite map_length, seq_length; lia).
      rewrite map_nth, seq_nth by lia. reflexivity. }
    assert (Lf : length (firstn i (map f (seq 0 n))) = i) by (rewrite firstn_length, map_length, seq_length; lia).
    destruct (Nat.lt_trichotomy j i) as [C|[C|C]].
    + rewrite app_nth1 by lia. rewrite <- (F j L). destruct (Nat.eqb_spec j i); [lia|].
      rewrite <- (firstn_skipn i (map f (seq 0 n))) at 2. rewrite app_nth1 by lia. reflexivity.
    + subst j. rewrite app_nth2, Lf, Nat.sub_diag, Nat.eqb_refl by lia. reflexivity.
    + rewrite app_nth2, Lf by lia. destruct (j - i) as [|m] eqn:Em; [lia|]. cbn [nth].
      destruct (Nat.eqb_spec j i); [lia|]. rewrite <- (F j L).
      rewrite <- (firstn_skipn (S i) (map f (seq 0 n))) at 2.
      rewrite app_nth2 by (rewrite firstn_length, map_length, seq_length; lia).
      rewrite firstn_length, map_length, seq_length. f_equal. lia.
Qed.

Lemma rfold_lput n : forall l (f : nat -> bool), Forall (fun x => x < n) l ->
  rfold (fun u x => lput u x true) l (map f (seq 0 n)) = Ok (map (fun i => f i || memb i l) (seq 0 n)).
Proof.
  induction l as [|x l IH]; intros f HF.
  - cbn [rfold]. f_equal. apply map_ext. intros i. cbn. now rewrite orb_false_r.
  - inversion HF; subst. cbn [rfold]. rewrite (lput_map f (fun i => f i || (i =? x))) with (i := x); [|auto|].
    + cbn [rbind]. rewrite IH by auto. f_equal. apply map_ext. intros i. rewrite <- orb_assoc. f_equal.
      apply eq_true_iff_eq. rewrite orb_true_iff, !memb_true, Nat.eqb_eq. cbn [In]. intuition congruence.
    + intros j _. destruct (Nat.eqb_spec j x); [apply orb_true_r | now rewrite orb_false_r].
Qed.

Lemma removelast_map_seq {A} (f : nat -> A) n : removelast (map f (seq 0 (S n))) = map f (seq 0 n).
Proof. rewrite seq_S, map_app. cbn [map]. rewrite removelast_last. reflexivity. Qed.

Lemma nth_map_seq {A} (f : nat -> A) n i d : i < n -> nth i (map f (seq 0 n)) d = f i.
Proof.
  intros Hi. rewrite nth_indep with (d' := f 0) by (rewrite map_length, seq_length; lia).
  rewrite map_nth, seq_nth by lia. reflexivity.
Qed.

Lemma nonzero_map (f : nat -> bool) n : nonzero (map f (seq 0 n)) = filter f (seq 0 n).
Proof.
  unfold nonzero. rewrite map_length, seq_length. apply filter_ext_in. intros i HI. apply in_seq in HI.
  apply nth_map_seq. lia.
Qed.

Lemma mask_incr_map (f : nat -> nat) (g : nat -> bool) n :
  mask_incr (map f (seq 0 n)) (map g (seq 0 n)) = map (fun i => f i + (if g i then 1 else 0)) (seq 0 n).
Proof.
  unfold mask_incr. induction (seq 0 n) as [|i l IH]; [reflexivity|]. cbn [map combine fst snd]. rewrite IH.
  f_equal. destruct (g i); lia.
Qed.

(** ** Pairs *)

Definition cnt2 (d : dict (nat * nat) nat) (k : nat * nat) : nat := dget_or d k 0.

Lemma counter_update_ok : forall l d, NoDup (dkeys d) ->
  NoDup (dkeys (counter_update d l)) /\
  (forall k, cnt2 (counter_update d l) k = cnt2 d k + count_occ eq_dec l k).
Proof.
  induction l as [|k l IH]; intros d HN; cbn [counter_update fold_left count_occ].
  - split; auto.
  - destruct (IH (dset d k (dget_or d k 0 + 1)) (NoDup_dset _ _ _ HN)) as [A1 A2]. split; [exact A1|].
    intros k'. unfold counter_update in A2. rewrite A2. unfold cnt2, dget_or. rewrite dget_dset.
    destruct (eq_dec k k') as [->|NE]; [|reflexivity]. lia.
Qed.

Lemma count_occ_map_pair (x : nat) : forall l (i j : nat),
  count_occ eq_dec (map (fun y => (x, y)) l) (i, j) = if x =? i then count_occ eq_dec l j else 0.
Proof.
  induction l as [|y l IH]; intros i j; cbn [map count_occ].
  - destruct (x =? i); reflexivity.
  - rewrite IH. destruct (eq_dec (x, y) (i, j)) as [E|NE].
    + inversion E; subst. rewrite Nat.eqb_refl. destruct (eq_dec j j); congruence.
    + destruct (Nat.eqb_spec x i); [|reflexivity]. subst. destruct (eq_dec y j); congruence.
Qed.

Lemma count_occ_filter_seq (f : nat -> bool) : forall n a j,
  count_occ eq_dec (filter f (seq a n)) j = if (a <=? j) && (j <? a + n) && f j then 1 else 0.
Proof.
  induction n as [|n IH]; intros a j; cbn [seq filter].
  - cbn [count_occ]. destruct (Nat.leb_spec a j), (Nat.ltb_spec j (a + 0)); try lia; reflexivity.
  - specialize (IH (S a) j).
    destruct (f a) eqn:Ef; cbn [count_occ].
    + rewrite IH. destruct (eq_dec a j) as [<-|NE].
      * rewrite Ef. destruct (Nat.leb_spec (S a) a), (Nat.leb_spec a a), (Nat.ltb_spec a (a + S n)); try lia. reflexivity.
      * destruct (Nat.leb_spec (S a) j), (Nat.leb_spec a j), (Nat.ltb_spec j (S a + n)), (Nat.ltb_spec j (a + S n)); try lia; reflexivity.
    + rewrite IH. destruct (Nat.eq_dec a j) as [<-|NE].
      * rewrite Ef, !andb_false_r. reflexivity.
      * destruct (Nat.leb_spec (S a) j), (Nat.leb_spec a j), (Nat.ltb_spec j (S a + n)), (Nat.ltb_spec j (a + S n)); try lia; reflexivity.
Qed.

Lemma count_occ_comb (f : nat -> bool) : forall n a i j,
  count_occ eq_dec (combinations2 (filter f (seq a n))) (i, j) =
  if (a <=? i) && (i <? j) && (j <? a + n) && f i && f j then 1 else 0.
Proof.
  induction n as [|n IH]; intros a i j; cbn [seq filter].
  - cbn [combinations2 count_occ]. destruct (Nat.leb_spec a i), (Nat.ltb_spec i j), (Nat.ltb_spec j (a + 0)); try lia; reflexivity.
  - specialize (IH (S a) i j). destruct (f a) eqn:Ef; cbn [combinations2].
    + rewrite count_occ_app, count_occ_map_pair, count_occ_filter_seq, IH.
      destruct (Nat.eqb_spec a i) as [<-|NE].
      * rewrite Ef. destruct (Nat.leb_spec (S a) a), (Nat.leb_spec a a), (Nat.leb_spec (S a) j), (Nat.ltb_spec a j),
          (Nat.ltb_spec j (S a + n)), (Nat.ltb_spec j (a + S n)); try lia; cbn; destruct (f j); reflexivity.
      * destruct (Nat.leb_spec (S a) i), (Nat.leb_spec a i), (Nat.ltb_spec j (S a + n)), (Nat.ltb_spec j (a + S n)); try lia; reflexivity.
    + rewrite IH. destruct (Nat.eq_dec a i) as [<-|NE].
      * rewrite Ef, !andb_false_r. reflexivity.
      * destruct (Nat.leb_spec (S a) i), (Nat.leb_spec a i), (Nat.ltb_spec j (S a + n)), (Nat.ltb_spec j (a + S n)); try lia; reflexivity.
Qed.

Lemma fold_co_add : forall d m i j, NoDup (dkeys d) -> fold_left co_add d m i j = m i j + cnt2 d (i, j).
Proof.
  induction d as [|[[a b] c] d IH]; intros m i j HN.
  - cbn. lia.
  - cbn [fold_left]. inversion HN; subst. rewrite IH by auto. unfold co_add at 1. cbn [fst snd].
    unfold cnt2, dget_or. cbn [dget]. destruct (eq_dec (a, b) (i, j)) as [E|NE].
    + inversion E; subst. rewrite !Nat.eqb_refl. cbn [andb].
      destruct (dget d (i, j)) eqn:Ed; [|lia]. exfalso. apply H1. apply dget_Some_key. eauto.
    + destruct (Nat.eqb_spec i a), (Nat.eqb_spec j b); cbn [andb]; try lia. congruence.
Qed.

(** ** One text *)

Section Text.
  Variable v w : nat.
  Hypothesis Hw : 1 <= w.

  Lemma at_pos_true {A} `{EqDec A} (t : list A) p x : at_pos t p x = true <-> nth_error t p = Some x.
  Proof.
    unfold at_pos. destruct (nth_error t p); [|split; discriminate]. rewrite eqb_true. split; congruence.
  Qed.

  Lemma seen_iff {A} `{EqDec A} (t : list A) k x : seen w t k x = true <->
    exists p, k <= p < k + w /\ nth_error t p = Some x /\ (forall q, q < k -> nth_error t q = Some x -> q + w <= p).
  Proof.
    unfold seen. rewrite existsb_exists. split.
    - intros (p & HI & HA). apply in_seq in HI. apply andb_true_iff in HA. destruct HA as [HA HB].
      exists p. split; [lia|]. split; [now apply at_pos_true|]. intros q Hq Ex.
      rewrite forallb_forall in HB. specialize (HB q). rewrite orb_true_iff, Nat.leb_le, negb_true_iff in HB.
      destruct HB as [HB|HB]; [apply in_seq; lia| |exact HB]. apply at_pos_true in Ex. congruence.
    - intros (p & HI & HA & HB). exists p. split; [apply in_seq; lia|]. apply andb_true_iff. split; [now apply at_pos_true|].
      rewrite forallb_forall. intros q Hq. apply in_seq in Hq. rewrite orb_true_iff, Nat.leb_le, negb_true_iff.
      destruct (at_pos t q x) eqn:E; [right|now left]. apply HB; [lia|]. now apply at_pos_true.
  Qed.

  (** The first window. *)
  Lemma seen_first {A} `{EqDec A} (t : list A) x : seen w t 0 x = memb x (firstn w t).
  Proof.
    apply eq_true_iff_eq. rewrite seen_iff, memb_true. split.
    - intros (p & HI & HA & _). apply nth_error_In with (n := p).
      rewrite <- (firstn_skipn w t) in HA. rewrite nth_error_app1 in HA; [exact HA|].
      rewrite firstn_length. assert (p < length t) by (apply nth_error_Some; rewrite firstn_skipn in HA; congruence). lia.
    - intros HI. apply In_nth_error in HI. destruct HI as [p E]. exists p.
      assert (L : p < length (firstn w t)) by (apply nth_error_Some; congruence).
      rewrite firstn_length in L. split; [lia|]. split; [|intros; lia].
      rewrite <- (firstn_skipn w t), nth_error_app1 by (rewrite firstn_length; lia). exact E.
  Qed.

  (** The next window. *)
  Lemma seen_next {A} `{EqDec A} (t : list A) k e y x : nth_error t k = Some e -> nth_error t (k + w) = Some y ->
    seen w t (S k) x = eqb x y || (negb (eqb x e) && seen w t k x).
  Proof.
    intros He Hy. apply eq_true_iff_eq. rewrite orb_true_iff, andb_true_iff, negb_true_iff, eqb_true, eqb_false, !seen_iff. split.
    - intros (p & HI & HA & HB). destruct (eq_dec x y) as [E|NE]; [now left|]. right. split.
      + intros ->. specialize (HB k ltac:(lia) He). assert (p = k + w) by lia. congruence.
      + exists p. split.
        * split; [lia|]. assert (p <> k + w) by congruence. lia.
        * split; [exact HA|]. intros q Hq. apply HB. lia.
    - intros [->|[NE (p & HI & HA & HB)]].
      + exists (k + w). split; [lia|]. split; [exact Hy|]. intros; lia.
      + exists p. split.
        * split; [|lia]. assert (p <> k) by congruence. lia.
        * split; [exact HA|]. intros q Hq Hq'. apply HB; [|exact Hq']. assert (q <> k) by congruence. lia.
  Qed.

  (** The state after the window at [k] of text [t], having started from the
      counts [o], [c], [n]. *)
  Definition b2n (b : bool) : nat := if b then 1 else 0.
  Definition ccount (t : list nat) (f : list nat -> nat -> bool) (ks : list nat) : nat := length (filter (f t) ks).
  Definition both (i j : nat) (t : list nat) (k : nat) : bool := seen w t k i && seen w t k j.

  Record at_window (t : list nat) (doc k : nat) (ks : list nat) (s0 s : occ_state) : Prop := AW {
    aw_uniq : uniq s = map (seen w t k) (seq 0 (S v));
    aw_doc : cur_doc s = Some doc;
    aw_edge : edge s = nth_error t k;
    aw_occ : exists f, occ s0 = map f (seq 0 v) /\
      occ s = map (fun x => f x + ccount t (fun t k => seen w t k x) ks) (seq 0 v);
    aw_keys : NoDup (dkeys (counter s));
    aw_cnt : forall i j, cnt2 (counter s) (i, j) = cnt2 (counter s0) (i, j) +
      (if (i <? j) && (j <? v) then ccount t (both i j) ks else 0);
    aw_docs : ndocs s = ndocs s0 + length ks;
    aw_co : co s = co s0
  }.

  Lemma ccount_snoc t f ks k : ccount t f (ks ++ [k]) = ccount t f ks + b2n (f t k).
  Proof.
    unfold ccount. rewrite filter_app, app_length. cbn [filter]. destruct (f t k); reflexivity.
  Qed.

  (** What [analyze_text] and the count do, once the window has been slid. *)
  Lemma analyze_ok t doc k ks s0 s win s1 :
    (exists f, occ s0 = map f (seq 0 v) /\ occ s = map (fun x => f x + ccount t (fun t k => seen w t k x) ks) (seq 0 v)) ->
    NoDup (dkeys (counter s)) ->
    (forall i j, cnt2 (counter s) (i, j) = cnt2 (counter s0) (i, j) +
      (if (i <? j) && (j <? v) then ccount t (both i j) ks else 0)) ->
    ndocs s = ndocs s0 + length ks -> co s = co s0 ->
    slide_window s win doc = Ok s1 ->
    s1 = OS (occ s) (co s) (ndocs s) (map (seen w t k) (seq 0 (S v))) (Some doc) (nth_error t k) (counter s) ->
    exists s2, analyze_text s win doc = Ok s2 /\ at_window t doc k (ks ++ [k]) s0 (count_doc s2).
  Proof.
    intros (f & Hf0 & Hf) HK HC HD HO HS ->. unfold analyze_text. rewrite HS. cbn [rbind]. cbn [uniq].
    rewrite removelast_map_seq. cbn [occ co ndocs cur_doc edge counter].
    assert (NK : forall x, ccount t (fun t k => seen w t k x) (ks ++ [k]) = ccount t (fun t k => seen w t k x) ks + b2n (seen w t k x)).
    { intros x. apply (ccount_snoc t (fun t k => seen w t k x)). }
    destruct (existsb (fun b => b) (map (seen w t k) (seq 0 v))) eqn:EX.
    - eexists. split; [reflexivity|].
      destruct (counter_update_ok (combinations2 (nonzero (map (seen w t k) (seq 0 v)))) (counter s) HK) as [U1 U2].
      constructor; cbn [count_doc uniq cur_doc edge occ counter ndocs co]; auto.
      + exists f. split; [exact Hf0|]. rewrite Hf, mask_incr_map. apply map_ext. intros x. rewrite NK. unfold b2n. lia.
      + intros i j. rewrite U2, HC, nonzero_map, count_occ_comb, ccount_snoc. unfold both.
        destruct (Nat.leb_spec 0 i), (Nat.ltb_spec i j), (Nat.ltb_spec j v), (Nat.ltb_spec j (0 + v)); cbn [andb]; unfold b2n; lia.
      + rewrite app_length. cbn [length]. lia.
    - eexists. split; [reflexivity|].
      assert (Z0 : forall x, x < v -> seen w t k x = false).
      { intros x Hx. destruct (seen w t k x) eqn:E; [|reflexivity]. exfalso.
        assert (existsb (fun b => b) (map (seen w t k) (seq 0 v)) = true); [|congruence].
        apply existsb_exists. exists true. split; [|reflexivity]. apply in_map_iff. exists x. split; [exact E|]. apply in_seq. lia. }
      constructor; cbn [count_doc uniq cur_doc edge occ counter ndocs co]; auto.
      + exists f. split; [exact Hf0|]. rewrite Hf. apply map_ext_in. intros x HI. apply in_seq in HI. rewrite NK, Z0 by lia. cbn. lia.
      + intros i j. rewrite HC, ccount_snoc. unfold both. destruct (Nat.ltb_spec i j), (Nat.ltb_spec j v); cbn [andb]; try lia.
        rewrite (Z0 j) by lia. rewrite andb_false_r. cbn. lia.
      + rewrite app_length. cbn [length]. lia.
  Qed.
End Text.

Lemma rfold_app {A S} (f : S -> A -> result S) : forall l1 l2 s, rfold f (l1 ++ l2) s = let* s' := rfold f l1 s in rfold f l2 s'.
Proof. induction l1 as [|x l1 IH]; intros l2 s; [reflexivity|]. cbn. destruct (f s x); cbn; auto. Qed.

Lemma rmapM_Some {A} (l : list A) : rmapM (of_option IndexError) (map Some l) = Ok l.
Proof. induction l as [|x l IH]; [reflexivity|]. cbn. rewrite IH. reflexivity. Qed.

Lemma windows_slots {A} (w : nat) (t : list A) :
  windows_of w true t = map (fun k => firstn w (skipn k t)) (slots w (length t)).
Proof.
  unfold windows_of, slots. destruct (Nat.ltb_spec (length t) w); [|reflexivity]. cbn [map skipn].
  rewrite firstn_all2 by lia. reflexivity.
Qed.

Lemma nth_error_window {A} (w k i : nat) (t : list A) : i < w -> nth_error (firstn w (skipn k t)) i = nth_error t (k + i).
Proof.
  intros Hi. revert t. induction k as [|k IH]; intros t.
  - cbn [skipn Nat.add]. revert w Hi t. induction i as [|i IHi]; intros w Hi t; (destruct w; [lia|]); destruct t; cbn; try reflexivity.
    apply IHi. lia.
  - destruct t as [|x t]; cbn [skipn].
    + rewrite firstn_nil. cbn. now destruct i.
    + cbn [Nat.add nth_error]. apply IH.
Qed.

Section Text2.
  Variable v w : nat.
  Hypothesis Hw : 1 <= w.

  Definition win_step (s : occ_state) (dw : nat * list (option nat)) : result occ_state :=
    let* win := rmapM (of_option IndexError) (snd dw) in
    let* s := analyze_text s win (fst dw) in
    Ok (count_doc s).

  Definition win_at (doc : nat) (t : list nat) (k : nat) : nat * list (option nat) :=
    (doc, map Some (firstn w (skipn k t))).

  Lemma iter_windows_cons n t ts : iter_windows_from n (t :: ts) w false =
    map (win_at n t) (slots w (length t)) ++ iter_windows_from (S n) ts w false.
  Proof.
    cbn [iter_windows_from]. f_equal. rewrite iter_windows1_spec. cbn [negb]. rewrite windows_slots, !map_map. reflexivity.
  Qed.

  (** Between texts. *)
  Record ready (s : occ_state) : Prop := RD {
    rd_occ : exists f, occ s = map f (seq 0 v);
    rd_uniq : length (uniq s) = S v;
    rd_keys : NoDup (dkeys (counter s))
  }.

  Lemma slide_first s t doc : ready s -> cur_doc s <> Some doc -> t <> [] -> Forall (fun x => x <= v) t ->
    slide_window s (firstn w t) doc =
    Ok (OS (occ s) (co s) (ndocs s) (map (seen w t 0) (seq 0 (S v))) (Some doc) (nth_error t 0) (counter s)).
  Proof.
    intros HR HD HN HF. unfold slide_window.
    assert (B : rfold (fun u x => lput u x true) (firstn w t) (map (fun _ => false) (uniq s)) = Ok (map (seen w t 0) (seq 0 (S v)))).
    { replace (map (fun _ : bool => false) (uniq s)) with (map (fun _ : nat => false) (seq 0 (S v))).
      - rewrite rfold_lput.
        + f_equal. apply map_ext. intros x. rewrite (seen_first w) by exact Hw. reflexivity.
        + apply Forall_forall. intros x HI. apply In_firstn in HI. rewrite Forall_forall in HF. specialize (HF x HI). lia.
      - pose proof (rd_uniq s HR) as L. rewrite <- L. clear. set (u := uniq s). generalize 0.
        induction u as [|b u IH]; intros n; [reflexivity|]. cbn [length seq map]. f_equal. apply IH. }
    assert (E : nth_error (firstn w t) 0 = nth_error t 0).
    { apply (nth_error_window w 0 0 t). lia. }
    destruct (nth_error t 0) as [e|] eqn:E0; [|destruct t; [congruence|discriminate]].
    destruct (cur_doc s) as [d|].
    - destruct (Nat.eqb_spec d doc); [congruence|]. rewrite B. cbn [rbind]. rewrite E. cbn. reflexivity.
    - rewrite B. cbn [rbind]. rewrite E. cbn. reflexivity.
  Qed.

  Lemma slide_next s0 s t doc k ks : at_window v w t doc k ks s0 s -> k + w < length t -> Forall (fun x => x <= v) t ->
    slide_window s (firstn w (skipn (S k) t)) doc =
    Ok (OS (occ s) (co s) (ndocs s) (map (seen w t (S k)) (seq 0 (S v))) (Some doc) (nth_error t (S k)) (counter s)).
  Proof.
    intros HA HL HF. unfold slide_window. rewrite (aw_doc _ _ _ _ _ _ _ _ HA), Nat.eqb_refl, (aw_edge _ _ _ _ _ _ _ _ HA), (aw_uniq _ _ _ _ _ _ _ _ HA).
    assert (LW : length (firstn w (skipn (S k) t)) = w) by (rewrite firstn_length, skipn_length; lia).
    rewrite LW, !nth_error_window by lia. replace (S k + (w - 1)) with (k + w) by lia. rewrite Nat.add_0_r.
    rewrite Forall_forall in HF.
    destruct (nth_error t k) as [e|] eqn:Ee; [|apply nth_error_None in Ee; lia].
    destruct (nth_error t (k + w)) as [y|] eqn:Ey; [|apply nth_error_None in Ey; lia].
    destruct (nth_error t (S k)) as [e'|] eqn:Ee'; [|apply nth_error_None in Ee'; lia].
    assert (e <= v) by (apply HF; eauto using nth_error_In).
    assert (y <= v) by (apply HF; eauto using nth_error_In).
    cbn [of_option rbind].
    rewrite (lput_map _ (fun x => negb (eqb x e) && seen w t k x)) with (i := e); [|lia|].
    - cbn [rbind]. rewrite (lput_map _ (seen w t (S k))) with (i := y); [|lia|].
      + reflexivity.
      + intros j _. rewrite (seen_next w Hw t k e y j Ee Ey). destruct (Nat.eqb_spec j y) as [->|NE].
        * now rewrite eqb_refl.
        * destruct (eqb j y) eqn:Q; [rewrite eqb_true in Q; congruence|reflexivity].
    - intros j _. destruct (Nat.eqb_spec j e) as [->|NE].
      + now rewrite eqb_refl.
      + destruct (eqb j e) eqn:Q; [rewrite eqb_true in Q; congruence|reflexivity].
  Qed.

  Lemma windows_ok s t doc : ready s -> cur_doc s <> Some doc -> t <> [] -> Forall (fun x => x <= v) t ->
    forall m, m < length (slots w (length t)) -> exists s', rfold win_step (map (win_at doc t) (seq 0 (S m))) s = Ok s' /\
      at_window v w t doc m (seq 0 (S m)) s s'.
  Proof.
    intros HR HD HN HF. induction m as [|m IH]; intros Hm.
    - cbn [seq map rfold]. unfold win_step at 1, win_at. cbn [fst snd skipn]. rewrite rmapM_Some. cbn [rbind].
      destruct (analyze_ok v w Hw t doc 0 [] s s (firstn w t)
         (OS (occ s) (co s) (ndocs s) (map (seen w t 0) (seq 0 (S v))) (Some doc) (nth_error t 0) (counter s))) as (s2 & E & HA).
      + destruct (rd_occ s HR) as [f Hf]. exists f. split; [exact Hf|]. rewrite Hf. apply map_ext. intros x. cbn. lia.
      + apply HR.
      + intros i j. destruct ((i <? j) && (j <? v)); cbn; lia.
      + cbn. lia.
      + reflexivity.
      + now apply slide_first.
      + reflexivity.
      + rewrite E. cbn [rbind]. eexists. split; [reflexivity|]. exact HA.
    - destruct IH as (s1 & E1 & A1); [lia|]. rewrite seq_S, map_app, rfold_app, E1. cbn [rbind map rfold Nat.add].
      unfold win_step at 1, win_at. cbn [fst snd]. rewrite rmapM_Some. cbn [rbind].
      assert (HL : m + w < length t).
      { unfold slots in Hm. destruct (Nat.ltb_spec (length t) w); [cbn in Hm; lia|]. rewrite seq_length in Hm. lia. }
      destruct (analyze_ok v w Hw t doc (S m) (seq 0 (S m)) s s1 (firstn w (skipn (S m) t))
         (OS (occ s1) (co s1) (ndocs s1) (map (seen w t (S m)) (seq 0 (S v))) (Some doc) (nth_error t (S m)) (counter s1))) as (s2 & E & HA).
      + apply A1.
      + apply A1.
      + apply A1.
      + apply A1.
      + apply A1.
      + eapply slide_next; eauto.
      + reflexivity.
      + rewrite E. cbn [rbind]. eexists. split; [reflexivity|]. exact HA.
  Qed.

  Definition occs (s : occ_state) (x : nat) : nat := nth x (occ s) 0.

  (** What a list of texts adds. *)
  Definition adds_occ (ts : list (list nat)) (x : nat) : nat := total w (fun t k => seen w t k x) ts.
  Definition adds_co (ts : list (list nat)) (i j : nat) : nat :=
    if (i <? j) && (j <? v) then total w (both w i j) ts else 0.
  Definition adds_docs (ts : list (list nat)) : nat := total w (fun _ _ => true) ts.

  Lemma total_cons {A} f (t : list A) ts : total w f (t :: ts) = length (filter (f t) (slots w (length t))) + total w f ts.
  Proof. reflexivity. Qed.
  Lemma total_app {A} f (l l' : list (list A)) : total w f (l ++ l') = total w f l + total w f l'.
  Proof. unfold total. rewrite map_app. apply list_sum_nat_app. Qed.

  Lemma filter_true {A} (l : list A) : filter (fun _ => true) l = l.
  Proof. induction l; cbn; congruence. Qed.

  Lemma slots_seq n : 1 <= length (slots w n) /\ slots w n = seq 0 (S (length (slots w n) - 1)).
  Proof.
    unfold slots. destruct (n <? w).
    - split; [cbn; lia|reflexivity].
    - rewrite seq_length. split; [lia|]. f_equal. lia.
  Qed.

  Definition good_text (t : list nat) : Prop := t <> [] /\ Forall (fun x => x <= v) t.

  Lemma texts_ok : forall ts n s, ready s -> Forall good_text ts -> (forall d, cur_doc s = Some d -> d < n) ->
    exists s', rfold win_step (iter_windows_from n ts w false) s = Ok s' /\ ready s' /\
      (forall x, x < v -> occs s' x = occs s x + adds_occ ts x) /\
      (forall i j, cnt2 (counter s') (i, j) = cnt2 (counter s) (i, j) + adds_co ts i j) /\
      ndocs s' = ndocs s + adds_docs ts /\ co s' = co s.
  Proof.
    induction ts as [|t ts IH]; intros n s HR HF HD.
    - exists s. cbn [iter_windows_from rfold]. split; [reflexivity|]. split; [exact HR|].
      unfold adds_occ, adds_co, adds_docs. cbn [total map list_sum_nat fold_right].
      repeat split; intros; try lia. destruct ((i <? j) && (j <? v)); lia.
    - inversion HF as [|? ? HG HF']; subst. destruct HG as [HN HL].
      rewrite iter_windows_cons, rfold_app. destruct (slots_seq (length t)) as [S1 S2].
      assert (HD' : cur_doc s <> Some n). { intros E. specialize (HD n E). lia. }
      destruct (windows_ok s t n HR HD' HN HL (length (slots w (length t)) - 1)) as (s1 & E1 & A1); [lia|].
      rewrite <- S2 in E1, A1. rewrite E1. cbn [rbind].
      destruct (aw_occ _ _ _ _ _ _ _ _ A1) as (f & F0 & F1).
      destruct (IH (S n) s1) as (s2 & E2 & R2 & O2 & C2 & D2 & Q2).
      + constructor.
        * eexists. exact F1.
        * rewrite (aw_uniq _ _ _ _ _ _ _ _ A1), map_length, seq_length. reflexivity.
        * apply A1.
      + exact HF'.
      + intros d. rewrite (aw_doc _ _ _ _ _ _ _ _ A1). intros E. inversion E. lia.
      + exists s2. split; [exact E2|]. split; [exact R2|]. split; [|split; [|split]].
        * intros x Hx. rewrite O2 by auto. unfold occs. rewrite F0, F1, !nth_map_seq by lia.
          unfold adds_occ. rewrite total_cons. unfold ccount. lia.
        * intros i j. rewrite C2, (aw_cnt _ _ _ _ _ _ _ _ A1). unfold adds_co. rewrite total_cons. unfold ccount.
          destruct ((i <? j) && (j <? v)); lia.
        * rewrite D2, (aw_docs _ _ _ _ _ _ _ _ A1). unfold adds_docs. rewrite total_cons, filter_true. lia.
        * rewrite Q2. apply A1.
  Qed.

  (** ** One batch *)

  Definition wf (s : occ_state) : Prop := length (occ s) = v /\ length (uniq s) = S v.

  Lemma map_nth_seq {A} (l : list A) d : map (fun i => nth i l d) (seq 0 (length l)) = l.
  Proof.
    apply nth_ext with (d := d) (d' := d).
    - now rewrite map_length, seq_length.
    - intros i Hi. rewrite map_length, seq_length in Hi. now apply (nth_map_seq (fun i => nth i l d)).
  Qed.

  Lemma partial_ok s ts : wf s -> Forall good_text ts ->
    exists s', partial_accumulate s ts w = Ok s' /\ wf s' /\
      (forall x, x < v -> occs s' x = occs s x + adds_occ ts x) /\
      (forall i j, co s' i j = co s i j + adds_co ts i j) /\
      ndocs s' = ndocs s + adds_docs ts.
  Proof.
    intros [W1 W2] HF. unfold partial_accumulate, acc_windows. fold win_step.
    destruct (texts_ok ts 0 (OS (occ s) (co s) (ndocs s) (uniq s) None None [])) as (s2 & E2 & R2 & O2 & C2 & D2 & Q2).
    - constructor; cbn [occ uniq counter].
      + exists (fun i => nth i (occ s) 0). rewrite <- W1. now rewrite map_nth_seq.
      + exact W2.
      + constructor.
    - exact HF.
    - intros d E. discriminate E.
    - unfold iter_windows_num. change (fun (s0 : occ_state) (dw : nat * list (option nat)) =>
        let* win := rmapM (of_option IndexError) (snd dw) in
        let* s1 := analyze_text s0 win (fst dw) in Ok (count_doc s1)) with win_step.
      rewrite E2. cbn [rbind]. eexists. split; [reflexivity|]. split; [|split; [|split]].
      + split; cbn [occ uniq]; [|apply R2]. destruct (rd_occ _ R2) as [f ->]. now rewrite map_length, seq_length.
      + intros x Hx. unfold occs at 1. cbn [occ]. fold (occs s2 x). rewrite O2 by auto. reflexivity.
      + intros i j. cbn [co]. rewrite fold_co_add by apply R2. rewrite Q2, C2. cbn. lia.
      + cbn [ndocs]. exact D2.
  Qed.
End Text2.
