(** Theorems about unpacking a packed matrix of n-gram vectors. *)
From Coq Require Import Permutation Lia.
From Verif Require Import Base FtUnpack_Model.

(** Spec: the row of bucket [h] is the packed row that the map gives it. *)
Definition restored {A} (m : list A) (hash2index : list (nat * nat)) (r : list A) : Prop := forall h i, In (h, i) hash2index -> nth_error r h = nth_error m i.

Lemma put_len : forall {A} (l : list A) n x, length (put l n x) = length l.
Proof. intros A l. induction l as [|y l IH]; intros [|n] x; cbn; auto. Qed.
Lemma put_same : forall {A} (l : list A) n x, n < length l -> nth_error (put l n x) n = Some x.
Proof. intros A l. induction l as [|y l IH]; intros [|n] x H; cbn in *; try lia; [reflexivity | apply IH; lia]. Qed.
Lemma put_other : forall {A} (l : list A) n k x, k <> n -> nth_error (put l n x) k = nth_error l k.
Proof. intros A l. induction l as [|y l IH]; intros [|n] [|k] x H; cbn; try reflexivity; try lia. apply IH. lia. Qed.
Lemma swap_spec : forall {A} (m r : list A) h i, swap_rows m h i = Ok r -> h <> i -> length r = length m /\ nth_error r h = nth_error m i /\ nth_error r i = nth_error m h /\ forall k, k <> h -> k <> i -> nth_error r k = nth_error m k.
Proof.
  intros A m r h i H N. unfold swap_rows in H. destruct (nth_error m i) as [a|] eqn:Ea; [|discriminate]. destruct (nth_error m h) as [b|] eqn:Eb; [|discriminate]. injection H as <-. assert (LH : h < length m) by (apply nth_error_Some; congruence). assert (LI : i < length m) by (apply nth_error_Some; congruence).
  split; [now rewrite !put_len|]. split; [rewrite put_other by exact N; now apply put_same|]. split; [apply put_same; now rewrite put_len|]. intros k N1 N2. now rewrite !put_other.
Qed.
Lemma swap_ok : forall {A} (m : list A) h i, h < length m -> i < length m -> exists r, swap_rows m h i = Ok r.
Proof. intros A m h i H1 H2. unfold swap_rows. apply nth_error_Some in H1. apply nth_error_Some in H2. destruct (nth_error m i); [|congruence]. destruct (nth_error m h); [|congruence]. eexists. reflexivity. Qed.
Definition ends (l : list (nat * nat)) : list nat := flat_map (fun p => [fst p; snd p]) l.
Lemma swaps_disjoint : forall {A} l (m : list A), NoDup (ends l) -> (forall k, In k (ends l) -> k < length m) ->
  exists r, swap_all m l = Ok r /\ length r = length m /\ (forall h i, In (h, i) l -> nth_error r h = nth_error m i /\ nth_error r i = nth_error m h) /\ (forall k, ~ In k (ends l) -> nth_error r k = nth_error m k).
Proof.
  intros A l. induction l as [|[h i] l IH]; intros m ND B; [exists m; repeat split; try reflexivity; destruct H|].
  cbn [ends flat_map app fst snd] in ND. fold (ends l) in ND. inversion ND as [|x y N1 ND1 EQ1]. inversion ND1 as [|x' y' N2 ND2 EQ2]. clear EQ1 EQ2. assert (NE : h <> i) by (intros ->; apply N1; now left).
  destruct (swap_ok m h i (B h (or_introl eq_refl)) (B i (or_intror (or_introl eq_refl)))) as [m1 E1]. destruct (swap_spec m m1 h i E1 NE) as [L1 [H1 [I1 K1]]].
  destruct (IH m1 ND2) as [r [Er [Lr [Pr Kr]]]]; [intros k Hk; rewrite L1; apply B; right; right; exact Hk|].
  exists r. cbn [swap_all]. destruct (Nat.eqb_spec h i); [contradiction|]. rewrite E1. cbn [rbind]. split; [exact Er|]. split; [congruence|]. split.
  - intros h' i' [E|I]; [injection E as <- <-; split; [rewrite Kr, H1; [reflexivity | intros I; apply N1; now right] | rewrite Kr, I1; [reflexivity | exact N2]]|].
    assert (Ih : In h' (ends l)) by (apply in_flat_map; exists (h', i'); split; [exact I | now left]). assert (Ii : In i' (ends l)) by (apply in_flat_map; exists (h', i'); split; [exact I | right; now left]).
    destruct (Pr h' i' I) as [P1 P2]. rewrite P1, P2. split; apply K1; intros ->; try (apply N1; now right); try (apply N2; assumption).
  - intros k NK. cbn [ends flat_map app fst snd] in NK. fold (ends l) in NK. rewrite Kr by (intros I; apply NK; right; now right). apply K1; intros ->; apply NK; [now left | right; now left].
Qed.
(** The map moves rows only in pairs, or out of rows whose own number is no bucket in use. *)
Definition paired (orig_rows : nat) (hash2index : list (nat * nat)) : Prop := forall h i, In (h, i) hash2index -> h <> i ->
  (h < orig_rows /\ In (i, h) hash2index) \/ (orig_rows <= h /\ ~ In i (map fst hash2index)).
Lemma fst_inj : forall (l : list (nat * nat)) h i j, NoDup (map fst l) -> In (h, i) l -> In (h, j) l -> i = j.
Proof. intros l h i j ND. induction l as [|[a b] l IH]; intros H1 H2; [destruct H1|]. cbn in ND. inversion ND as [|x y N ND']. destruct H1 as [E1|H1]; destruct H2 as [E2|H2]; try (injection E1 as -> ->); try (injection E2 as -> ->); [congruence | exfalso; apply N; apply in_map_iff; now exists (h, j) | exfalso; apply N; apply in_map_iff; now exists (h, i) | now apply IH]. Qed.
Lemma snd_inj : forall (l : list (nat * nat)) h k i, NoDup (map snd l) -> In (h, i) l -> In (k, i) l -> h = k.
Proof. intros l h k i ND. induction l as [|[a b] l IH]; intros H1 H2; [destruct H1|]. cbn in ND. inversion ND as [|x y N ND']. destruct H1 as [E1|H1]; destruct H2 as [E2|H2]; try (injection E1 as -> ->); try (injection E2 as -> ->); [congruence | exfalso; apply N; apply in_map_iff; now exists (k, i) | exfalso; apply N; apply in_map_iff; now exists (h, i) | now apply IH]. Qed.
Lemma NoDup_ends : forall l, NoDup l -> (forall p q x, In p l -> In q l -> (x = fst p \/ x = snd p) -> (x = fst q \/ x = snd q) -> p = q) -> (forall p, In p l -> fst p <> snd p) -> NoDup (ends l).
Proof.
  intros l ND HD HN. induction ND as [|p l N ND IH]; [constructor|]. cbn [ends flat_map app]. fold (ends l).
  assert (NI : forall x, x = fst p \/ x = snd p -> ~ In x (ends l)). { intros x Hx I. apply in_flat_map in I. destruct I as [q [Iq Hq]]. assert (p = q); [|subst; contradiction]. apply (HD p q x); [now left | now right | exact Hx|]. destruct Hq as [<-|[<-|[]]]; auto. }
  constructor; [intros [E|I]; [exact (HN p (or_introl eq_refl) (eq_sym E)) | exact (NI _ (or_introl eq_refl) I)]|]. constructor; [apply NI; now right|]. apply IH; [intros a b x Ha Hb; apply HD; now right | intros a Ha; apply HN; now right].
Qed.
Lemma NoDup_of_fst : forall (l : list (nat * nat)), NoDup (map fst l) -> NoDup l.
Proof. intros l H. induction l as [|p l IH]; [constructor|]. cbn in H. inversion H as [|x y N ND]. constructor; [intros I; apply N; now apply in_map | now apply IH]. Qed.
Theorem unpack_restores : forall A (m : list A) num_rows hash2index draw, length m < num_rows -> length (draw (num_rows - length m)) = num_rows - length m ->
  NoDup (map fst hash2index) -> NoDup (map snd hash2index) -> (forall h i, In (h, i) hash2index -> h < num_rows /\ i < length m) -> paired (length m) hash2index ->
  exists r, unpack m num_rows hash2index draw = Ok r /\ length r = num_rows /\ restored m hash2index r /\
  (forall k, k < num_rows -> ~ In k (map fst hash2index) -> nth_error r k = nth_error (m ++ draw (num_rows - length m)) k \/ exists h, In (h, k) hash2index /\ length m <= h /\ nth_error r k = nth_error (draw (num_rows - length m)) (h - length m)).
Proof.
  intros A m num_rows h2i draw HL HD NF NS HB HP. unfold unpack. destruct (Nat.eqb_spec (length m) num_rows); [lia|]. destruct (Nat.ltb_spec (length m) num_rows); [|lia]. cbn [negb]. set (M := m ++ draw (num_rows - length m)). set (o := length m) in *.
  assert (LM : length M = num_rows) by (unfold M; rewrite app_length; lia).
  assert (SI : forall h i, In (h, i) (swaps o h2i) <-> In (h, i) h2i /\ ((h < i /\ i < o) \/ o <= h)).
  { intros h i. unfold swaps. rewrite in_app_iff, !filter_In, andb_true_iff, !Nat.ltb_lt, Nat.leb_le. cbn [fst snd]. tauto. }
  assert (NDS : NoDup (ends (swaps o h2i))).
  { apply NoDup_ends.
    - unfold swaps. pose proof (NoDup_of_fst _ NF) as NDl. assert (G : forall f g : nat * nat -> bool, (forall p, f p = true -> g p = true -> False) -> NoDup (filter f h2i ++ filter g h2i)).
      { intros f g D. assert (A1 : NoDup (filter f h2i)) by now apply NoDup_filter. assert (A2 : NoDup (filter g h2i)) by now apply NoDup_filter. assert (A3 : forall p, In p (filter f h2i) -> ~ In p (filter g h2i)) by (intros p P1 P2; apply filter_In in P1; apply filter_In in P2; exact (D p (proj2 P1) (proj2 P2))).
        induction A1 as [|p l Np A1 IH]; [exact A2|]. cbn. constructor; [rewrite in_app_iff; intros [I|I]; [contradiction | exact (A3 p (or_introl eq_refl) I)] | apply IH; intros q Hq; apply A3; now right]. }
      apply G. intros [a b] P1 P2. cbn [fst snd] in *. apply andb_true_iff in P1. destruct P1 as [P1 P3]. apply Nat.ltb_lt in P1. apply Nat.ltb_lt in P3. apply Nat.leb_le in P2. lia.
    - intros [h i] [h' i'] x I1 I2 X1 X2. apply SI in I1. apply SI in I2. destruct I1 as [I1 C1]. destruct I2 as [I2 C2]. destruct (HB _ _ I1) as [B1 B2]. destruct (HB _ _ I2) as [B3 B4]. cbn [fst snd] in *.
      assert (N1 : h <> i) by lia. assert (N2 : h' <> i') by lia.
      destruct X1 as [->| ->]; destruct X2 as [E| E].
      + subst h'. now rewrite (fst_inj _ _ _ _ NF I1 I2).
      + subst i'. destruct (HP _ _ I1 N1) as [[Q1 Q2]|[Q1 Q2]]; [|lia]. assert (h' = i) by exact (snd_inj _ _ _ _ NS I2 Q2). lia.
      + subst h'. destruct (HP _ _ I2 N2) as [[Q1 Q2]|[Q1 Q2]]; [|lia]. assert (h = i') by exact (snd_inj _ _ _ _ NS I1 Q2). lia.
      + subst i'. now rewrite (snd_inj _ _ _ _ NS I1 I2).
    - intros [h i] I. apply SI in I. cbn. destruct I as [I C]. destruct (HB _ _ I). lia. }
  destruct (swaps_disjoint (swaps o h2i) M NDS) as [r [Er [Lr [Pr Kr]]]].
  { intros k Hk. apply in_flat_map in Hk. destruct Hk as [[h i] [I Hk]]. apply SI in I. destruct I as [I _]. destruct (HB _ _ I). rewrite LM. cbn in Hk. destruct Hk as [<-|[<-|[]]]; lia. }
  exists r. split; [exact Er|]. split; [congruence|]. split.
  - intros h i I. destruct (HB _ _ I) as [B1 B2]. assert (EM : nth_error M i = nth_error m i) by (unfold M; now rewrite nth_error_app1). rewrite <- EM. destruct (Nat.eq_dec h i) as [->|NE].
    + apply Kr. intros Hk. apply in_flat_map in Hk. destruct Hk as [[h' i'] [I' Hk]]. apply SI in I'. destruct I' as [I' C]. cbn in Hk. destruct Hk as [E|[E|[]]]; rewrite E in I'; [assert (i' = i) by exact (fst_inj _ _ _ _ NF I' I) | assert (h' = i) by exact (snd_inj _ _ _ _ NS I' I)]; lia.
    + destruct (HP _ _ I NE) as [[Q1 Q2]|[Q1 Q2]].
      * destruct (Nat.lt_trichotomy h i) as [L|[L|L]]; [|contradiction|]; [apply (Pr h i); apply SI; tauto | apply (Pr i h); apply SI; split; [exact Q2 | left; lia]].
      * apply (Pr h i). apply SI. split; [exact I | now right].
  - intros k Bk NK. destruct (in_dec Nat.eq_dec k (ends (swaps o h2i))) as [Hk|Hk]; [|left; now apply Kr]. right. apply in_flat_map in Hk. destruct Hk as [[h i] [I Hk]]. pose proof (Pr _ _ I) as [P1 P2]. apply SI in I. destruct I as [I C]. destruct (HB _ _ I) as [B1 B2]. cbn in Hk. destruct Hk as [E|[E|[]]]; rewrite E in *; [exfalso; apply NK; apply in_map_iff; now exists (k, i)|]. clear E.
    exists h. destruct (HP h k I ltac:(lia)) as [[Q1 Q2]|[Q1 Q2]]; [exfalso; apply NK; apply in_map_iff; now exists (k, h)|]. split; [exact I|]. split; [exact Q1|]. rewrite P2. unfold M. rewrite nth_error_app2 by exact Q1. reflexivity.
Qed.
Print Assumptions unpack_restores.
(** No row is lost or doubled, whatever the map. *)
Lemma put_split : forall {A} (l : list A) n x y, nth_error l n = Some y -> Permutation (x :: l) (y :: put l n x).
Proof. intros A l. induction l as [|z l IH]; intros [|n] x y H; cbn in *; try discriminate; [injection H as ->; apply perm_swap|]. eapply perm_trans; [apply perm_swap|]. eapply perm_trans; [apply perm_skip, (IH n x y H)|]. apply perm_swap. Qed.
Theorem unpack_rows : forall A (m : list A) num_rows hash2index draw r, unpack m num_rows hash2index draw = Ok r -> length m <> num_rows -> Permutation (m ++ draw (num_rows - length m)) r.
Proof.
  intros A m num_rows h2i draw r H NE. unfold unpack in H. destruct (Nat.eqb_spec (length m) num_rows); [contradiction|]. destruct (negb _); [discriminate|]. revert H. generalize (m ++ draw (num_rows - length m)). generalize (swaps (length m) h2i). clear. intros l.
  induction l as [|[h i] l IH]; intros M H; cbn [swap_all] in H; [injection H as ->; reflexivity|]. destruct (Nat.eqb_spec h i); [discriminate|]. destruct (swap_rows M h i) as [M'|] eqn:E; [|discriminate]. cbn [rbind] in H. eapply perm_trans; [|apply (IH _ H)].
  unfold swap_rows in E. destruct (nth_error M i) as [a|] eqn:Ea; [|discriminate]. destruct (nth_error M h) as [b|] eqn:Eb; [|discriminate]. injection E as <-.
  pose proof (put_split M h a b Eb) as P1. assert (E2 : nth_error (put M h a) i = Some a) by (rewrite put_other by congruence; exact Ea). pose proof (put_split (put M h a) i b a E2) as P2. apply (Permutation_cons_inv (a := a)). eapply perm_trans; [exact P1 | exact P2].
Qed.
Print Assumptions unpack_rows.
(** A cycle of three rows goes wrong: buckets 1, 2, 0 stored in this order. *)
Theorem unpack_cycle_refuted : exists (m : list nat) h2i draw r, NoDup (map fst h2i) /\ NoDup (map snd h2i) /\ (forall h i, In (h, i) h2i -> h < 4 /\ i < length m) /\ length (draw 1) = 1 /\ unpack m 4 h2i draw = Ok r /\ ~ restored m h2i r.
Proof.
  exists [10; 20; 30], [(1, 0); (2, 1); (0, 2)], (fun _ => [99]), [30; 20; 10; 99]. split; [repeat constructor; cbn; intuition discriminate|]. split; [repeat constructor; cbn; intuition discriminate|]. split; [intros h i [E|[E|[E|[]]]]; injection E as <- <-; cbn; lia|]. split; [reflexivity|]. split; [reflexivity|].
  intros R. specialize (R 1 0 (or_introl eq_refl)). discriminate R.
Qed.
Print Assumptions unpack_cycle_refuted.
(** So does a bucket beyond the packed rows whose packed row is needed by another bucket. *)
Theorem unpack_chain_refuted : exists (m : list nat) h2i draw r, NoDup (map fst h2i) /\ NoDup (map snd h2i) /\ (forall h i, In (h, i) h2i -> h < 4 /\ i < length m) /\ length (draw 2) = 2 /\ unpack m 4 h2i draw = Ok r /\ ~ restored m h2i r.
Proof.
  exists [10; 20], [(3, 0); (0, 1)], (fun _ => [98; 99]), [99; 10; 98; 20]. split; [repeat constructor; cbn; intuition discriminate|]. split; [repeat constructor; cbn; intuition discriminate|]. split; [intros h i [E|[E|[]]]; injection E as <- <-; cbn; lia|]. split; [reflexivity|]. split; [reflexivity|].
  intros R. specialize (R 3 0 (or_introl eq_refl)). discriminate R.
Qed.
Print Assumptions unpack_chain_refuted.
(** And a full matrix is returned as it is, whatever the map. *)
Theorem unpack_full_refuted : exists (m : list nat) h2i draw, paired (length m) h2i /\ NoDup (map fst h2i) /\ unpack m (length m) h2i draw = Ok m /\ ~ restored m h2i m.
Proof.
  exists [10; 20], [(1, 0); (0, 1)], (fun _ => []). split; [intros h i [E|[E|[]]] _; injection E as <- <-; left; cbn; auto|]. split; [repeat constructor; cbn; intuition discriminate|]. split; [reflexivity|]. intros R. specialize (R 1 0 (or_introl eq_refl)). discriminate R.
Qed.
Print Assumptions unpack_full_refuted.
Theorem unpack_fails : forall A (m : list A) num_rows h2i draw, num_rows < length m -> unpack m num_rows h2i draw = Err AssertionErr.
Proof. intros A m n h2i draw H. unfold unpack. destruct (Nat.eqb_spec (length m) n); [lia|]. destruct (Nat.ltb_spec (length m) n); [lia|]. reflexivity. Qed.
Print Assumptions unpack_fails.
Example unpack_x : unpack [10; 20; 30] 6 [(1, 0); (0, 1); (5, 2)] (fun _ => [7; 8; 9]) = Ok [20; 10; 9; 7; 8; 30].
Proof. reflexivity. Qed.
