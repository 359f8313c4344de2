(** Queries by cosine similarity (property C93). *)
From Coq Require Import Reals Lra Psatz Sorted.
From Verif Require Import Base Str MatReal_Model MatReal_Proofs LdaTrain_Model LdaTrain_Proofs LdaTrain_Proofs2 Lsi_Spec Lsi_Linear KvSim_Model KvSim_Spec KvSim_Proofs.
Local Open Scope R_scope.

Section Dim.
Variable d : nat.

Lemma get_row : forall m k v, one_row_each m -> (get_vector m k = Ok v <-> row_of m k v).
Proof.
  intros m k v (ND & L & K). unfold get_vector, get_index, row_of. split.
  - destruct (dget (ks_index m) k) as [i|] eqn:E; cbn; [|discriminate]. destruct (nth_error (ks_rows m) i) eqn:E2; cbn; [|discriminate].
    intros H; injection H as <-. exists i. split; [apply K; exact E | exact E2].
  - intros (i & A & B). apply K in A. rewrite A. cbn. rewrite B. reflexivity.
Qed.
Lemma get_unknown : forall m k, one_row_each m -> ~ In k (ks_keys m) -> get_index m k = Err KeyError.
Proof.
  intros m k (ND & L & K) N. unfold get_index. destruct (dget (ks_index m) k) as [i|] eqn:E; [|reflexivity].
  apply K, nth_error_In in E. contradiction.
Qed.
Lemma row_known : forall m k, one_row_each m -> In k (ks_keys m) -> exists v, row_of m k v.
Proof.
  intros m k (ND & L & K) H. apply In_nth_error in H. destruct H as (i & H).
  destruct (nth_error (ks_rows m) i) as [v|] eqn:E; [exists v, i; auto|].
  apply nth_error_None in E. assert (i < length (ks_keys m))%nat by (apply nth_error_Some; congruence). lia.
Qed.
Lemma row_in : forall m k v, row_of m k v -> In k (ks_keys m).
Proof. intros m k v (i & A & _). apply nth_error_In in A. exact A. Qed.
Lemma row_unique : forall m k v v', one_row_each m -> row_of m k v -> row_of m k v' -> v = v'.
Proof. intros m k v v' O A B. apply (get_row _ _ _ O) in A. apply (get_row _ _ _ O) in B. congruence. Qed.

(** ** Similarity of two keys *)
Theorem similarity_exact : forall m w1 w2 v1 v2, one_row_each m -> row_of m w1 v1 -> row_of m w2 v2 ->
  exists s, similarity d m w1 w2 = Ok s /\ similarity d m w2 w1 = Ok s /\ distance d m w1 w2 = Ok (1 - s) /\ -1 <= s <= 1 /\
    (~ zero_vec d v1 -> ~ zero_vec d v2 -> s = cosine d v1 v2 /\ (s = 1 <-> same_direction d v1 v2)) /\
    (zero_vec d v1 \/ zero_vec d v2 -> s = 0).
Proof.
  intros m w1 w2 v1 v2 O A B. apply (get_row _ _ _ O) in A. apply (get_row _ _ _ O) in B.
  exists (cosine d v1 v2). unfold distance, similarity. rewrite A, B. cbn. rewrite !unit_dot, (cosine_sym d v2 v1).
  repeat (split; [reflexivity|]). split; [apply cosine_bound|]. split.
  - intros N1 N2. split; [reflexivity | apply cosine_one; assumption].
  - intros [H|H]; [|rewrite cosine_sym]; apply cosine_zero; exact H.
Qed.
Theorem similarity_unknown : forall m w1 w2, one_row_each m -> ~ In w1 (ks_keys m) \/ ~ In w2 (ks_keys m) ->
  similarity d m w1 w2 = Err KeyError /\ distance d m w1 w2 = Err KeyError.
Proof.
  intros m w1 w2 O H. assert (E : similarity d m w1 w2 = Err KeyError); [|unfold distance; rewrite E; split; reflexivity].
  unfold similarity, get_vector. destruct (in_dec eq_dec w1 (ks_keys m)) as [I1|N1].
  - destruct H as [H|H]; [contradiction|]. destruct (row_known m w1 O I1) as (v & V). apply (get_row _ _ _ O) in V. unfold get_vector in V. rewrite V. cbn.
    rewrite (get_unknown m w2 O H). reflexivity.
  - rewrite (get_unknown m w1 O N1). reflexivity.
Qed.
Lemma sim_eq : forall m w1 w2 v1 v2, one_row_each m -> row_of m w1 v1 -> row_of m w2 v2 -> similarity d m w1 w2 = Ok (cosine d v1 v2).
Proof.
  intros m w1 w2 v1 v2 O A B. apply (get_row _ _ _ O) in A. apply (get_row _ _ _ O) in B. unfold similarity. rewrite A, B. cbn. rewrite unit_dot. reflexivity.
Qed.

(** ** Similarity of two sets of keys *)
Lemma rows_of : forall m ws vs, one_row_each m -> Forall2 (row_of m) ws vs -> rmapM (get_vector m) ws = Ok vs.
Proof.
  intros m ws vs O F. induction F as [|w v ws vs H F IH]; [reflexivity|]. cbn [rmapM]. apply (get_row _ _ _ O) in H. rewrite H. cbn. rewrite IH. reflexivity.
Qed.
Theorem n_similarity_exact : forall m ws1 ws2 vs1 vs2, one_row_each m -> ws1 <> [] -> ws2 <> [] -> Forall2 (row_of m) ws1 vs1 -> Forall2 (row_of m) ws2 vs2 ->
  exists s, n_similarity d m ws1 ws2 = Ok s /\ n_similarity d m ws2 ws1 = Ok s /\ -1 <= s <= 1 /\
    (~ zero_vec d (plain_sum vs1) -> ~ zero_vec d (plain_sum vs2) ->
       s = cosine d (plain_sum vs1) (plain_sum vs2) /\ (s = 1 <-> same_direction d (plain_sum vs1) (plain_sum vs2))) /\
    (zero_vec d (plain_sum vs1) \/ zero_vec d (plain_sum vs2) -> s = 0) /\
    (forall ws1' ws2', Permutation ws1 ws1' -> Permutation ws2 ws2' -> n_similarity d m ws1' ws2' = Ok s).
Proof.
  assert (MAIN : forall m ws1 ws2 vs1 vs2, one_row_each m -> ws1 <> [] -> ws2 <> [] -> Forall2 (row_of m) ws1 vs1 -> Forall2 (row_of m) ws2 vs2 ->
    n_similarity d m ws1 ws2 = Ok (cosine d (plain_sum vs1) (plain_sum vs2))).
  { intros m ws1 ws2 vs1 vs2 O N1 N2 F1 F2. unfold n_similarity. destruct ws1 as [|a ws1]; [contradiction|]. destruct ws2 as [|b ws2]; [contradiction|].
    rewrite (rows_of _ _ _ O F1). cbn [rbind]. rewrite (rows_of _ _ _ O F2). cbn [rbind]. f_equal. rewrite unit_dot.
    inversion F1; subst. inversion F2; subst. rewrite cosine_mean_r by discriminate. rewrite cosine_sym. rewrite cosine_mean_r by discriminate. apply cosine_sym. }
  intros m ws1 ws2 vs1 vs2 O N1 N2 F1 F2. exists (cosine d (plain_sum vs1) (plain_sum vs2)).
  split; [apply MAIN; assumption|]. split; [rewrite cosine_sym; apply MAIN; assumption|]. split; [apply cosine_bound|]. split; [|split].
  - intros Z1 Z2. split; [reflexivity | apply cosine_one; assumption].
  - intros [H|H]; [|rewrite cosine_sym]; apply cosine_zero; exact H.
  - intros ws1' ws2' P1 P2.
    assert (PF : forall ws ws' vs, Permutation ws ws' -> Forall2 (row_of m) ws vs -> exists vs', Forall2 (row_of m) ws' vs' /\ Permutation vs vs').
    { intros ws ws' vs P F. apply Permutation_Forall2 with (1 := P) in F. destruct F as (vs' & P' & F). exists vs'. split; [exact F | exact P']. }
    destruct (PF _ _ _ P1 F1) as (vs1' & F1' & Q1). destruct (PF _ _ _ P2 F2) as (vs2' & F2' & Q2).
    rewrite (MAIN m ws1' ws2' vs1' vs2' O); try assumption.
    + f_equal. rewrite (cosine_ext d (plain_sum vs1) (plain_sum vs1')) by (intros i _; apply plain_sum_perm; symmetry; exact Q1).
      rewrite cosine_sym. rewrite (cosine_ext d (plain_sum vs2) (plain_sum vs2')) by (intros i _; apply plain_sum_perm; symmetry; exact Q2). apply cosine_sym.
    + intros ->. apply Permutation_sym, Permutation_nil in P1. contradiction.
    + intros ->. apply Permutation_sym, Permutation_nil in P2. contradiction.
Qed.
Theorem n_similarity_single : forall m w1 w2, one_row_each m -> n_similarity d m [w1] [w2] = similarity d m w1 w2.
Proof.
  intros m w1 w2 O. destruct (in_dec eq_dec w1 (ks_keys m)) as [I1|N1].
  2: { rewrite (proj1 (similarity_unknown m w1 w2 O (or_introl N1))). unfold n_similarity, get_vector. cbn. rewrite (get_unknown m w1 O N1). reflexivity. }
  destruct (row_known m w1 O I1) as (v1 & V1).
  destruct (in_dec eq_dec w2 (ks_keys m)) as [I2|N2].
  2: { rewrite (proj1 (similarity_unknown m w1 w2 O (or_intror N2))). unfold n_similarity. rewrite (rows_of m [w1] [v1] O) by (repeat constructor; assumption).
       unfold get_vector. cbn. rewrite (get_unknown m w2 O N2). reflexivity. }
  destruct (row_known m w2 O I2) as (v2 & V2). rewrite (sim_eq m w1 w2 v1 v2) by assumption.
  destruct (n_similarity_exact m [w1] [w2] [v1] [v2]) as (s & E & _); try (assumption || discriminate || (repeat constructor; assumption)).
  unfold n_similarity. rewrite (rows_of m [w1] [v1] O), (rows_of m [w2] [v2] O) by (repeat constructor; assumption). cbn [rbind]. f_equal. rewrite unit_dot.
  rewrite (cosine_ext d v1 (mean [v1])) by (intros i _; unfold mean; cbn; lra). rewrite cosine_sym.
  rewrite (cosine_ext d v2 (mean [v2])) by (intros i _; unfold mean; cbn; lra). apply cosine_sym.
Qed.
Theorem n_similarity_empty : forall m ws, n_similarity d m [] ws = Err ZeroDivErr /\ n_similarity d m ws [] = Err ZeroDivErr.
Proof. intros m [|w ws]; split; reflexivity. Qed.

(** ** Distances to many keys *)
Lemma cos_opt : forall v u, (if Req_EM_T (vnorm d v * vnorm d u) 0 then None else Some (dotv d u v / (vnorm d v * vnorm d u))) =
  if Req_EM_T (vnorm d v * vnorm d u) 0 then None else Some (cosine d v u).
Proof.
  intros v u. destruct (Req_EM_T (vnorm d v * vnorm d u) 0); [reflexivity|]. unfold cosine. fold (vnorm d v) (vnorm d u). rewrite (dotv_sym d u v). reflexivity.
Qed.
Theorem distances_exact : forall m w v others, one_row_each m -> row_of m w v -> incl others (ks_keys m) ->
  exists l, distances d m w others = Ok l /\
    Forall2 (fun k o => forall u, row_of m k u ->
               (~ zero_vec d v -> ~ zero_vec d u -> exists x, distance d m w k = Ok x /\ o = Some x) /\
               (zero_vec d v \/ zero_vec d u -> o = None))
            (match others with [] => ks_keys m | _ => others end) l.
Proof.
  intros m w v others O V IN. pose proof V as V'. apply (get_row _ _ _ O) in V'. unfold distances. rewrite V'. cbn [rbind].
  set (names := match others with [] => ks_keys m | _ => others end).
  assert (R : exists rows, (match others with [] => Ok (ks_rows m) | _ => rmapM (fun k => let* i := get_index m k in of_option IndexError (nth_error (ks_rows m) i)) others end) = Ok rows /\
    Forall2 (row_of m) names rows).
  { assert (ALL : forall ns, incl ns (ks_keys m) -> exists rows, rmapM (fun k => let* i := get_index m k in of_option IndexError (nth_error (ks_rows m) i)) ns = Ok rows /\
      Forall2 (row_of m) ns rows).
    { intros ns H. assert (F : exists rows, Forall2 (row_of m) ns rows).
      { induction ns as [|n ns IH]; [exists []; constructor|]. destruct IH as (rows & F); [intros x X; apply H; right; exact X|].
        destruct (row_known m n O) as (u & U); [apply H; left; reflexivity|]. exists (u :: rows). constructor; assumption. }
      destruct F as (rows & F). exists rows. split; [|exact F]. exact (rows_of m ns rows O F). }
    destruct others as [|o os]; [|apply ALL; exact IN].
    exists (ks_rows m). split; [reflexivity|]. subst names. destruct O as (ND & L & K).
    assert (G : forall ks rows, length rows = length ks -> (forall i k u, nth_error ks i = Some k -> nth_error rows i = Some u -> row_of m k u) -> Forall2 (row_of m) ks rows).
    { induction ks as [|k ks IH]; intros [|r rows] LE H; try discriminate; [constructor|]. constructor; [apply (H 0%nat); reflexivity|].
      apply IH; [cbn in LE; lia|]. intros i; exact (H (S i)). }
    apply G; [exact L|]. intros i k u A B. exists i. split; assumption. }
  destruct R as (rows & E & F). rewrite E. cbn [rbind]. eexists. split; [reflexivity|]. unfold cosine_similarities. rewrite map_map.
  clearbody names. clear E. induction F as [|k u ns rows U F IH]; cbn [map]; [constructor|]. constructor; [|exact IH].
  intros u' U'. rewrite <- (row_unique m k u u' O U U') in *. clear u' U'. rewrite cos_opt. unfold distance. rewrite (sim_eq m w k v u) by assumption. cbn [rbind].
  split.
  - intros Z1 Z2. apply pos_nrm in Z1. apply pos_nrm in Z2. exists (1 - cosine d v u). split; [reflexivity|].
    destruct (Req_EM_T (vnorm d v * vnorm d u) 0) as [X|X]; [nra|reflexivity].
  - intros Z0. destruct (Req_EM_T (vnorm d v * vnorm d u) 0) as [X|X]; [reflexivity|]. exfalso. apply X.
    destruct Z0 as [Z0|Z0]; apply zero_nrm in Z0; rewrite Z0; ring.
Qed.

(** ** Keys closer than another, rank *)
Lemma pick : forall (l a : list pystr) (p : nat -> bool) (P : pystr -> bool), (forall i k, nth_error l i = Some k -> P k = p (length a + i)%nat) ->
  rmapM (fun i => of_option IndexError (nth_error (a ++ l) i)) (filter p (seq (length a) (length l))) = Ok (filter P l).
Proof.
  induction l as [|k l IH]; intros a p P H; [reflexivity|]. cbn [length seq filter]. rewrite (H 0%nat k eq_refl), Nat.add_0_r.
  assert (T : rmapM (fun i => of_option IndexError (nth_error (a ++ k :: l) i)) (filter p (seq (S (length a)) (length l))) = Ok (filter P l)).
  { replace (a ++ k :: l) with ((a ++ [k]) ++ l) by (rewrite <- app_assoc; reflexivity). replace (S (length a)) with (length (a ++ [k])) by (rewrite app_length; cbn; lia).
    apply IH. intros i k' E. rewrite (H (S i) k' E), app_length. f_equal. cbn. lia. }
  destruct (p (length a)); [|exact T]. cbn [rmapM]. rewrite nth_error_app2 by lia. rewrite Nat.sub_diag. cbn [nth_error of_option rbind]. rewrite T. reflexivity.
Qed.
Lemma filter_filter : forall {A} (p q : A -> bool) l, filter p (filter q l) = filter (fun x => q x && p x) l.
Proof. intros A p q l. induction l as [|x l IH]; [reflexivity|]. cbn. destruct (q x); cbn; rewrite IH; reflexivity. Qed.

Theorem closer_than_exact : forall m key1 key2 v1 v2, one_row_each m -> row_of m key1 v1 -> row_of m key2 v2 -> ~ zero_vec d v1 -> ~ zero_vec d v2 ->
  exists closer : pystr -> bool, closer_than d m key1 key2 = Ok (filter closer (ks_keys m)) /\ rank d m key1 key2 = Ok (1 + length (filter closer (ks_keys m)))%nat /\
    forall k v, row_of m k v -> (closer k = true <-> k <> key1 /\ ~ zero_vec d v /\ cosine d v1 v2 < cosine d v1 v).
Proof.
  intros m key1 key2 v1 v2 O V1 V2 Z1 Z2. pose proof V1 as V1'. apply (get_row _ _ _ O) in V1'. pose proof O as (ND & L & K).
  destruct V1 as (e1 & A1 & B1). destruct V2 as (e2 & A2 & B2).
  set (g := fun u => option_map (fun s => 1 - s) (if Req_EM_T (vnorm d v1 * vnorm d u) 0 then None else Some (dotv d u v1 / (vnorm d v1 * vnorm d u)))).
  set (P := fun k => match dget (ks_index m) k with Some i => nan_lt (nth i (map g (ks_rows m)) None) (g v2) && negb (i =? e1)%nat | None => false end).
  assert (E : closer_than d m key1 key2 = Ok (filter P (ks_keys m))).
  { unfold closer_than, distances. rewrite V1'. cbn [rbind]. unfold cosine_similarities. rewrite map_map. fold g.
    unfold get_index. rewrite (proj2 (K key1 e1) A1), (proj2 (K key2 e2) A2). cbn [of_option rbind].
    rewrite nth_error_map, B2. cbn [option_map of_option rbind]. rewrite filter_filter, map_length, L.
    apply (pick (ks_keys m) []). intros i k N. unfold P. rewrite (proj2 (K k i) N). cbn [length Nat.add]. reflexivity. }
  exists P. split; [exact E|]. split; [unfold rank; rewrite E; cbn [rbind]; f_equal; lia|].
  intros k v (i & A & B). unfold P. rewrite (proj2 (K k i) A).
  assert (NT : nth i (map g (ks_rows m)) None = g v). { apply nth_error_nth. rewrite nth_error_map, B. reflexivity. }
  rewrite NT. unfold g. rewrite !cos_opt. apply pos_nrm in Z1. apply pos_nrm in Z2.
  destruct (Req_EM_T (vnorm d v1 * vnorm d v2) 0) as [X|X]; [nra|]. rewrite andb_true_iff, negb_true_iff, Nat.eqb_neq.
  assert (KE : k <> key1 <-> i <> e1).
  { split; intros H C; apply H; [subst i; congruence|]. subst k. apply (proj1 (NoDup_nth_error _) ND); [apply nth_error_Some; congruence | congruence]. }
  destruct (Req_EM_T (vnorm d v1 * vnorm d v) 0) as [Y|Y]; cbn [option_map nan_lt].
  - split; [intros (C & _); discriminate|]. intros (_ & Z3 & _). apply pos_nrm in Z3. nra.
  - assert (Z3 : ~ zero_vec d v) by (intros C; apply zero_nrm in C; apply Y; rewrite C; ring).
    destruct (Rlt_dec (1 - cosine d v1 v) (1 - cosine d v1 v2)) as [LT|GE]; split.
    + intros (_ & H). split; [apply KE; exact H|]. split; [exact Z3 | lra].
    + intros (H & _ & _). split; [reflexivity | apply KE; exact H].
    + intros (C & _); discriminate.
    + intros (_ & _ & C). lra.
Qed.

Lemma filter_len_le : forall {A} (p q : A -> bool) l, (forall x, In x l -> p x = true -> q x = true) -> (length (filter p l) <= length (filter q l))%nat.
Proof.
  intros A p q l H. induction l as [|x l IH]; [cbn; lia|]. cbn. assert (IH' := IH (fun y I => H y (or_intror I))).
  specialize (H x (or_introl eq_refl)). destruct (p x); [rewrite H by reflexivity; cbn; lia|]. destruct (q x); cbn; lia.
Qed.
Lemma filter_len_lt : forall {A} (p q : A -> bool) l x, (forall x, In x l -> p x = true -> q x = true) -> In x l -> p x = false -> q x = true ->
  (length (filter p l) < length (filter q l))%nat.
Proof.
  intros A p q l x H I Px Qx. induction l as [|y l IH]; [contradiction|]. cbn.
  assert (LE := filter_len_le p q l (fun z I => H z (or_intror I))). destruct I as [->|I].
  - rewrite Px, Qx. cbn. lia.
  - assert (IH' := IH (fun z I => H z (or_intror I)) I). specialize (H y (or_introl eq_refl)). destruct (p y); [rewrite H by reflexivity; cbn; lia|]. destruct (q y); cbn; lia.
Qed.

(** The key itself has rank 1, every other rank is below the number of keys, and ranks order keys like similarities do. *)
Theorem rank_order : forall m key v, one_row_each m -> row_of m key v -> ~ zero_vec d v ->
  rank d m key key = Ok 1%nat /\
  (forall k2 v2, row_of m k2 v2 -> ~ zero_vec d v2 -> k2 <> key -> exists r, rank d m key k2 = Ok r /\ (1 <= r < length (ks_keys m))%nat) /\
  (forall k2 k3 v2 v3 s2 s3, row_of m k2 v2 -> row_of m k3 v3 -> ~ zero_vec d v2 -> ~ zero_vec d v3 -> k2 <> key -> k3 <> key ->
     similarity d m key k2 = Ok s2 -> similarity d m key k3 = Ok s3 ->
     exists r2 r3, rank d m key k2 = Ok r2 /\ rank d m key k3 = Ok r3 /\ ((r2 <= r3)%nat <-> s3 <= s2)).
Proof.
  intros m key v O V Zv. split; [|split].
  - destruct (closer_than_exact m key key v v O V V Zv Zv) as (c & _ & R & C). rewrite R. f_equal.
    replace (filter c (ks_keys m)) with ([] : list pystr); [reflexivity|]. symmetry.
    assert (N : forall k, In k (ks_keys m) -> c k = false).
    { intros k I. destruct (c k) eqn:E; [|reflexivity]. destruct (row_known m k O I) as (u & U). apply (C k u U) in E. destruct E as (_ & _ & E).
      rewrite (cosine_self d v Zv) in E. pose proof (cosine_bound d v u). lra. }
    clear -N. induction (ks_keys m) as [|k l IH]; [reflexivity|]. cbn. rewrite (N k (or_introl eq_refl)). apply IH. intros x X. apply N. right. exact X.
  - intros k2 v2 V2 Z2 NE. destruct (closer_than_exact m key k2 v v2 O V V2 Zv Z2) as (c & _ & R & C). eexists. split; [exact R|]. split; [lia|].
    assert (B : (length (filter c (ks_keys m)) + 2 <= length (ks_keys m))%nat).
    { assert (INC : incl (key :: k2 :: filter c (ks_keys m)) (ks_keys m)).
      { intros x [<-|[<-|I]]; [exact (row_in _ _ _ V) | exact (row_in _ _ _ V2) | apply filter_In in I; tauto]. }
      assert (NDc : NoDup (key :: k2 :: filter c (ks_keys m))).
      { destruct O as (ND & _ & _). constructor; [|constructor; [|apply NoDup_filter; exact ND]].
        - intros [E|I]; [congruence|]. apply filter_In in I. destruct I as (_ & I). apply (C key v V) in I. tauto.
        - intros I. apply filter_In in I. destruct I as (_ & I). apply (C k2 v2 V2) in I. lra. }
      pose proof (NoDup_incl_length NDc INC) as LE. cbn [length] in LE. lia. }
    lia.
  - intros k2 k3 v2 v3 s2 s3 V2 V3 Z2 Z3 N2 N3 S2 S3. rewrite (sim_eq m key k2 v v2) in S2 by assumption. rewrite (sim_eq m key k3 v v3) in S3 by assumption.
    injection S2 as <-. injection S3 as <-.
    destruct (closer_than_exact m key k2 v v2 O V V2 Zv Z2) as (c2 & _ & R2 & C2). destruct (closer_than_exact m key k3 v v3 O V V3 Zv Z3) as (c3 & _ & R3 & C3).
    eexists. eexists. split; [exact R2|]. split; [exact R3|].
    destruct (Rle_dec (cosine d v v3) (cosine d v v2)) as [LE|GT].
    + split; [intros _; exact LE|]. intros _. apply le_n_S. apply filter_len_le. intros k I H. destruct (row_known m k O I) as (u & U).
      apply (C2 k u U) in H. apply (C3 k u U). destruct H as (A & B & D). split; [exact A|]. split; [exact B | lra].
    + split; [|lra]. intros LE. exfalso.
      assert (LT : (length (filter c3 (ks_keys m)) < length (filter c2 (ks_keys m)))%nat); [|lia].
      apply filter_len_lt with (x := k3).
      * intros k I H. destruct (row_known m k O I) as (u & U). apply (C3 k u U) in H. apply (C2 k u U). destruct H as (A & B & D). split; [exact A|]. split; [exact B | lra].
      * exact (row_in _ _ _ V3).
      * destruct (c3 k3) eqn:E; [|reflexivity]. apply (C3 k3 v3 V3) in E. lra.
      * apply (C2 k3 v3 V3). split; [exact N3|]. split; [exact Z3 | lra].
Qed.

(** ** The most similar of given keys *)
Lemma argmax_first : forall l, l <> [] -> (argmax l < length l)%nat /\ (forall j, (j < length l)%nat -> nth j l 0 <= nth (argmax l) l 0) /\
  (forall j, (j < argmax l)%nat -> nth j l 0 < nth (argmax l) l 0).
Proof.
  induction l as [|x r IH]; [contradiction|]. intros _. destruct r as [|y r].
  - cbn [argmax]. split; [cbn; lia|]. split; intros j Lj; [|lia]. cbn in Lj. replace j with 0%nat by lia. lra.
  - destruct IH as (A & B & C); [discriminate|]. set (q := y :: r) in *. change (argmax (x :: q)) with (if Rle_dec (nth (argmax q) q 0) x then 0%nat else S (argmax q)).
    destruct (Rle_dec (nth (argmax q) q 0) x) as [LE|GT].
    + split; [cbn; lia|]. split; intros j Lj; [|lia]. cbn [nth]. destruct j as [|j]; [lra|]. cbn [length] in Lj. specialize (B j ltac:(lia)). lra.
    + split; [cbn [length]; lia|]. split; intros j Lj; cbn [nth]; (destruct j as [|j]; [lra|]); cbn [length] in Lj; [apply B | apply C]; lia.
Qed.
Theorem most_similar_to_given_first : forall m key1 keys, one_row_each m -> In key1 (ks_keys m) -> incl keys (ks_keys m) -> keys <> [] ->
  exists i k s, most_similar_to_given d m key1 keys = Ok k /\ nth_error keys i = Some k /\ similarity d m key1 k = Ok s /\
    forall j k', nth_error keys j = Some k' -> exists s', similarity d m key1 k' = Ok s' /\ s' <= s /\ ((j < i)%nat -> s' < s).
Proof.
  intros m key1 keys O I1 IN NE. destruct (row_known m key1 O I1) as (v & V).
  assert (F : exists ss, rmapM (similarity d m key1) keys = Ok ss /\ length ss = length keys /\
    forall j k, nth_error keys j = Some k -> similarity d m key1 k = Ok (nth j ss 0)).
  { clear NE. induction keys as [|k ks IH]; [exists []; split; [reflexivity|]; split; [reflexivity|]; intros [|j] k H; discriminate|].
    destruct IH as (ss & E & Ln & H); [intros x X; apply IN; right; exact X|]. destruct (row_known m k O) as (u & U); [apply IN; left; reflexivity|].
    exists (cosine d v u :: ss). cbn [rmapM]. rewrite (sim_eq m key1 k v u) by assumption. cbn [rbind]. rewrite E. split; [reflexivity|]. split; [cbn; lia|].
    intros [|j] k' N; cbn in N; [injection N as <-; apply sim_eq; assumption | exact (H j k' N)]. }
  destruct F as (ss & E & Ln & H). unfold most_similar_to_given. rewrite E. cbn [rbind].
  assert (NS : ss <> []) by (intros ->; destruct keys; [contradiction|discriminate]). destruct (argmax_first ss NS) as (A & B & C).
  destruct (nth_error keys (argmax ss)) as [k|] eqn:N; [|apply nth_error_None in N; lia].
  exists (argmax ss), k, (nth (argmax ss) ss 0). destruct ss as [|x ss]; [contradiction|]. split; [reflexivity|]. split; [exact N|]. split; [exact (H _ _ N)|].
  intros j k' J. exists (nth j (x :: ss) 0). split; [exact (H j k' J)|].
  assert (Lj : (j < length (x :: ss))%nat) by (rewrite Ln; apply nth_error_Some; congruence). split; [apply B; exact Lj | apply C].
Qed.
Theorem most_similar_to_none : forall m key1, most_similar_to_given d m key1 [] = Err ValueError.
Proof. reflexivity. Qed.

(** ** Words by their similarity to the centre of all of them *)
Lemma pair_le_total : forall x y, pair_le x y = true \/ pair_le y x = true.
Proof.
  intros (a, u) (b, w). unfold pair_le. cbn [fst snd]. destruct (Rlt_dec a b); [auto|]. destruct (Req_EM_T a b) as [E|NE].
  - subst b. destruct (Rlt_dec a a); [lra|]. destruct (Req_EM_T a a); [|lra]. apply str_leb_total.
  - right. destruct (Rlt_dec b a); [reflexivity|lra].
Qed.
Lemma pair_le_iff : forall x y, pair_le x y = true <-> fst x < fst y \/ (fst x = fst y /\ str_leb (snd x) (snd y) = true).
Proof.
  intros (a, u) (b, w). unfold pair_le. cbn [fst snd]. destruct (Rlt_dec a b); [tauto|]. destruct (Req_EM_T a b); [tauto|]. split; [discriminate | intros [H|(H & _)]; lra].
Qed.
Lemma pair_le_trans : forall x y z, pair_le x y = true -> pair_le y z = true -> pair_le x z = true.
Proof.
  intros x y z A B. apply pair_le_iff in A. apply pair_le_iff in B. apply pair_le_iff. destruct A as [A|(A & A')], B as [B|(B & B')]; try (left; lra).
  right. split; [lra | exact (str_leb_trans _ _ _ A' B')].
Qed.
Lemma sorted_rev : forall {A} (R : A -> A -> Prop) l, StronglySorted R l -> StronglySorted (fun a b => R b a) (rev l).
Proof.
  intros A R l. induction l as [|x l IH]; intros H; [constructor|]. inversion H; subst. cbn [rev].
  assert (G : forall a, StronglySorted (fun a b => R b a) a -> Forall (R x) a -> StronglySorted (fun a b => R b a) (a ++ [x])).
  { induction a as [|y a IHa]; intros S1 F1; cbn; [repeat constructor|]. inversion S1; subst. inversion F1; subst. constructor; [apply IHa; assumption|].
    apply Forall_app. split; [assumption | repeat constructor; assumption]. }
  apply G; [apply IH; assumption|]. apply Forall_rev. assumption.
Qed.

Definition is_known (m : kvs) (w : pystr) : bool := memb w (ks_keys m).
Definition centre (vs : list vec) : vec := direction_sum d (map (fun v => (v, 1)) vs).
Lemma known_index : forall m w, one_row_each m -> dmem (ks_index m) w = is_known m w.
Proof.
  intros m w (ND & L & K). unfold dmem, is_known. destruct (dget (ks_index m) w) as [i|] eqn:E.
  - symmetry. apply memb_true. apply K in E. apply nth_error_In in E. exact E.
  - symmetry. apply memb_false. intros I. apply In_nth_error in I. destruct I as (i & I). apply K in I. congruence.
Qed.
Lemma normed_rows : forall m ws vs, one_row_each m -> Forall2 (row_of m) ws vs -> rmapM (get_normed d m) ws = Ok (map (normed d) vs).
Proof.
  intros m ws vs O F. induction F as [|w v ws vs H F IH]; [reflexivity|]. cbn [rmapM]. unfold get_normed at 1. apply (get_row _ _ _ O) in H. rewrite H. cbn [rbind]. rewrite IH. reflexivity.
Qed.
Lemma centre_sum : forall vs i, plain_sum (map (normed d) vs) i = centre vs i.
Proof.
  intros vs i. unfold plain_sum, centre, direction_sum. rewrite !map_map. f_equal. apply map_ext. intros v. unfold normed, vnorm. cbn [fst snd]. ring.
Qed.
Lemma normed_score : forall v vs, vs <> [] -> dotv d (normed d v) (unitvec d (mean (map (normed d) vs))) = cosine d v (centre vs).
Proof.
  intros v vs NE. transitivity (cosine d v (mean (map (normed d) vs))).
  - rewrite <- dot_unit_r. unfold normed at 1. rewrite (dotv_ext d (fun i => v i / vnorm d v) _ (fun i => / vnorm d v * v i) (unitvec d (mean (map (normed d) vs)))) by (intros; unfold Rdiv; ring || reflexivity).
    rewrite dot_scal_l. unfold Rdiv. ring.
  - rewrite cosine_mean_r by (destruct vs; [contradiction|discriminate]). rewrite cosine_sym. rewrite (cosine_ext d (centre vs) _) by (intros; apply centre_sum). apply cosine_sym.
Qed.

Theorem centrality_exact : forall m words vs, one_row_each m ->
  let used := filter (is_known m) words in
  used <> [] -> Forall2 (row_of m) used vs -> Forall (fun v => ~ zero_vec d v) vs ->
  exists l, rank_by_centrality d m words true = Ok l /\
    Permutation l (combine (map (fun v => cosine d v (centre vs)) vs) used) /\
    StronglySorted (fun a b => fst b < fst a \/ (fst a = fst b /\ str_leb (snd b) (snd a) = true)) l.
Proof.
  intros m words vs O used NE F NZ. unfold rank_by_centrality.
  rewrite (filter_ext (fun w => dmem (ks_index m) w) (is_known m)) by (intros; apply known_index; exact O). fold used.
  destruct used as [|w ws] eqn:U; [contradiction|]. rewrite <- U in *. clear U.
  rewrite (normed_rows _ _ _ O F). cbn [rbind]. rewrite map_map. eexists. split; [reflexivity|]. split.
  - rewrite <- Permutation_rev, <- Permutation_isort.
    erewrite map_ext; [apply Permutation_refl|]. intros v. apply normed_score. intros ->. inversion F. congruence.
  - pose proof (isort_StronglySorted pair_le pair_le_total pair_le_trans (combine (map (fun x => dotv d (normed d x) (unitvec d (mean (map (normed d) vs)))) vs) used)) as SS.
    apply sorted_rev in SS. clear -SS. induction SS as [|a l SS IH F]; [constructor|]. constructor; [exact IH|].
    eapply Forall_impl; [|exact F]. intros b H. apply pair_le_iff in H. destruct H as [H|(H & H')]; [left; exact H | right; split; [symmetry; exact H | exact H']].
Qed.

(** [w] is the word of [ws] that is farthest from the centre [c], the first in the alphabet of several. *)
Definition odd_one (m : kvs) (c : vec) (ws : list pystr) (w : pystr) : Prop :=
  In w ws /\ exists v, row_of m w v /\ forall w' v', In w' ws -> row_of m w' v' ->
    cosine d v c < cosine d v' c \/ (cosine d v c = cosine d v' c /\ str_leb w w' = true).
Lemma odd_one_unique : forall m c ws w w', one_row_each m -> odd_one m c ws w -> odd_one m c ws w' -> w = w'.
Proof.
  intros m c ws w w' O (I1 & v & V & H) (I2 & v' & V' & H'). specialize (H w' v' I2 V'). specialize (H' w v I1 V).
  destruct H as [H|(E & H)], H' as [H'|(E' & H')]; try lra. apply str_leb_antisym; assumption.
Qed.
Lemma Forall2_len : forall {A B} (Q : A -> B -> Prop) a b, Forall2 Q a b -> length a = length b.
Proof. intros A B Q a b F. induction F; cbn; congruence. Qed.
Lemma in_combine_row : forall m ws vs (g : vec -> R) w v, one_row_each m -> Forall2 (row_of m) ws vs -> row_of m w v -> In w ws -> In (g v, w) (combine (map g vs) ws).
Proof.
  intros m ws vs g w v O F V I. induction F as [|w0 v0 ws vs H F IH]; [contradiction|]. cbn [map combine]. destruct I as [->|I]; [|right; apply IH; exact I].
  left. rewrite (row_unique m w v v0 O V H). reflexivity.
Qed.
Lemma combine_in_row : forall m ws vs (g : vec -> R) x w, Forall2 (row_of m) ws vs -> In (x, w) (combine (map g vs) ws) -> In w ws /\ exists v, row_of m w v /\ x = g v.
Proof.
  intros m ws vs g x w F I. induction F as [|w0 v0 ws vs H F IH]; [contradiction|]. cbn [map combine] in I. destruct I as [E|I].
  - injection E as <- <-. split; [left; reflexivity | exists v0; auto].
  - destruct (IH I) as (A & B). split; [right; exact A | exact B].
Qed.
Theorem doesnt_match_exact : forall m words vs, one_row_each m ->
  let used := filter (is_known m) words in
  used <> [] -> Forall2 (row_of m) used vs -> Forall (fun v => ~ zero_vec d v) vs ->
  exists w, doesnt_match d m words = Ok w /\ odd_one m (centre vs) used w.
Proof.
  intros m words vs O used NE F NZ. destruct (centrality_exact m words vs O NE F NZ) as (l & E & P & SS). fold used in P.
  unfold doesnt_match. rewrite E. cbn [rbind]. destruct (rev l) as [|(x, w) r] eqn:R.
  { apply (f_equal (@length _)) in R. rewrite rev_length in R. apply Permutation_length in P. cbn in R. rewrite R in P. rewrite combine_length, map_length in P.
    pose proof (Forall2_len _ _ _ F) as LF. fold used in LF. destruct used; [contradiction|]. cbn in P, LF. rewrite <- LF in P. cbn in P. lia. }
  exists w. split; [reflexivity|].
  assert (L : l = rev r ++ [(x, w)]) by (rewrite <- (rev_involutive l), R; reflexivity).
  assert (IX : In (x, w) (combine (map (fun v => cosine d v (centre vs)) vs) used)).
  { eapply Permutation_in; [exact P|]. rewrite L. apply in_or_app. right. left. reflexivity. }
  destruct (combine_in_row _ _ _ _ _ _ F IX) as (Iw & v & V & Ex). split; [exact Iw|]. exists v. split; [exact V|].
  intros w' v' I' V'.
  assert (IL : In (cosine d v' (centre vs), w') l) by (eapply Permutation_in; [symmetry; exact P | exact (in_combine_row m used vs (fun v => cosine d v (centre vs)) w' v' O F V' I')]).
  rewrite L in IL, SS. apply in_app_or in IL. destruct IL as [IL|[IL|[]]].
  - clear -IL SS Ex. subst x. induction (rev r) as [|y a IH]; [contradiction|]. cbn [app] in SS. inversion SS; subst. destruct IL as [->|IL]; [|apply IH; assumption].
    rewrite Forall_forall in H2. specialize (H2 (cosine d v (centre vs), w) ltac:(apply in_or_app; right; left; reflexivity)). cbn [fst snd] in H2.
    destruct H2 as [H2|(H2 & H3)]; [left; exact H2 | right; split; [symmetry; exact H2 | exact H3]].
  - injection IL as E1 E2. subst w'. right. split; [congruence | apply str_leb_refl].
Qed.

(** The answer depends neither on the order of the words nor on the lengths of their vectors. *)
Definition same_directions (m m' : kvs) : Prop :=
  ks_keys m = ks_keys m' /\ Forall2 (same_direction d) (ks_rows m) (ks_rows m').
Lemma same_dir_row : forall m m' w v, one_row_each m -> one_row_each m' -> same_directions m m' -> row_of m w v -> exists v', row_of m' w v' /\ same_direction d v v'.
Proof.
  intros m m' w v O O' (K & F) (i & A & B).
  assert (G : forall a b i v, Forall2 (same_direction d) a b -> nth_error a i = Some v -> exists v', nth_error b i = Some v' /\ same_direction d v v').
  { clear. intros a b i v F. revert i. induction F as [|x y a b H F IH]; intros [|i] E; cbn in *; try discriminate; [injection E as <-; eauto | apply IH; exact E]. }
  destruct (G _ _ i v F B) as (v' & B' & SD). exists v'. split; [exists i; split; [rewrite <- K; exact A | exact B'] | exact SD].
Qed.
Lemma same_dir_normed : forall v v' i, same_direction d v v' -> (i < d)%nat -> v' i / vnorm d v' = v i / vnorm d v.
Proof.
  intros v v' i (c & P & H) L. rewrite (nrm_scal d c v v') by (assumption || lra). rewrite (H i L). pose proof (nrm_nonneg d v).
  destruct (Req_dec (vnorm d v) 0) as [Z0|Z0]; [|field; lra]. apply zero_nrm in Z0. rewrite (Z0 i L). unfold Rdiv. ring.
Qed.
Lemma centre_perm : forall vs vs' i, Permutation vs vs' -> centre vs i = centre vs' i.
Proof. intros vs vs' i P. rewrite <- !centre_sum. apply plain_sum_perm. apply Permutation_map. exact P. Qed.
Lemma centre_dir : forall vs vs' i, Forall2 (same_direction d) vs vs' -> (i < d)%nat -> centre vs' i = centre vs i.
Proof.
  intros vs vs' i F L. rewrite <- !centre_sum. unfold plain_sum. rewrite !map_map. induction F as [|v v' vs vs' H F IH]; [reflexivity|]. cbn [map fold_right].
  rewrite IH. unfold normed at 1 3. rewrite (same_dir_normed v v' i H L). reflexivity.
Qed.
Theorem doesnt_match_invariant : forall m m' words words' vs, one_row_each m -> one_row_each m' -> same_directions m m' -> Permutation words words' ->
  filter (is_known m) words <> [] -> Forall2 (row_of m) (filter (is_known m) words) vs -> Forall (fun v => ~ zero_vec d v) vs ->
  doesnt_match d m words = doesnt_match d m' words'.
Proof.
  intros m m' words words' vs O O' SD P NE F NZ. destruct (doesnt_match_exact m words vs O NE F NZ) as (w & E & OD).
  assert (FE : forall l, filter (is_known m') l = filter (is_known m) l) by (intros l; apply filter_ext; intros a; unfold is_known; rewrite (proj1 SD); reflexivity).
  assert (PU : Permutation (filter (is_known m) words) (filter (is_known m') words')).
  { rewrite FE. clear -P. induction P as [|x l l' P IH|x y l|a b c P1 IH1 P2 IH2]; cbn; [constructor | destruct (is_known m x); [constructor|]; exact IH | |
      etransitivity; [exact IH1 | exact IH2]].
    destruct (is_known m x), (is_known m y); try apply perm_swap; reflexivity. }
  destruct (Permutation_Forall2 PU F) as (vs1 & P1 & F1).
  assert (F2 : exists vs2, Forall2 (row_of m') (filter (is_known m') words') vs2 /\ Forall2 (same_direction d) vs1 vs2).
  { clear -F1 SD O O'. induction F1 as [|a v l vs1 H F1 IH]; [exists []; split; constructor|]. destruct IH as (vs2 & A & B). destruct (same_dir_row m m' a v O O' SD H) as (v' & V' & D).
    exists (v' :: vs2). split; constructor; assumption. }
  destruct F2 as (vs2 & F2 & D2).
  destruct (doesnt_match_exact m' words' vs2 O') as (w' & E' & OD').
  - intros C. rewrite C in PU. apply Permutation_sym, Permutation_nil in PU. contradiction.
  - exact F2.
  - assert (NZ1 : Forall (fun v => ~ zero_vec d v) vs1) by (eapply Permutation_Forall; [exact P1 | exact NZ]).
    clear -NZ1 D2. induction D2 as [|v v' a b H D2 IH]; [constructor|]. inversion NZ1; subst. constructor; [|apply IH; assumption].
    destruct H as (c & Pc & H). intros C. apply H2. intros i L. specialize (C i L). rewrite (H i L) in C. apply Rmult_integral in C. destruct C; [lra | assumption].
  - rewrite E, E'. f_equal. apply (odd_one_unique m (centre vs) (filter (is_known m) words) w w' O OD).
    destruct OD' as (I' & v' & V' & H'). split; [eapply Permutation_in; [symmetry; exact PU | exact I']|].
    destruct (row_known m w' O) as (v & V). { rewrite (proj1 SD). exact (row_in _ _ _ V'). }
    assert (SCORE : forall a u u', row_of m a u -> row_of m' a u' -> cosine d u' (centre vs2) = cosine d u (centre vs)).
    { intros a u u' A A'. destruct (same_dir_row m m' a u O O' SD A) as (u2 & U2 & Du). rewrite (row_unique m' a u' u2 O' A' U2). rewrite (cosine_dir d u u2 _ Du).
      rewrite !(cosine_sym d u). apply cosine_ext. intros i L. rewrite (centre_dir vs1 vs2 i D2 L). apply centre_perm. symmetry. exact P1. }
    exists v. split; [exact V|]. intros a u Ia U. destruct (same_dir_row m m' a u O O' SD U) as (u' & U' & _).
    specialize (H' a u' (Permutation_in _ PU Ia) U'). rewrite (SCORE w' v v' V V'), (SCORE a u u' U U') in H'. exact H'.
Qed.

(** Of two words, none is closer to the centre: the first in the alphabet does not match. *)
Theorem doesnt_match_two : forall m a b va vb, one_row_each m -> row_of m a va -> row_of m b vb -> ~ zero_vec d va -> ~ zero_vec d vb ->
  doesnt_match d m [a; b] = Ok (if str_leb a b then a else b).
Proof.
  intros m a b va vb O A B Za Zb.
  assert (U : filter (is_known m) [a; b] = [a; b]).
  { cbn. unfold is_known. rewrite (proj2 (memb_true _ _) (row_in _ _ _ A)), (proj2 (memb_true _ _) (row_in _ _ _ B)). reflexivity. }
  destruct (doesnt_match_exact m [a; b] [va; vb] O) as (w & E & OD); rewrite ?U; try discriminate; [repeat constructor; assumption | repeat constructor; assumption|].
  rewrite E. f_equal. rewrite U in OD. apply (odd_one_unique m (centre [va; vb]) [a; b]); [exact O | exact OD|].
  assert (EQ : cosine d va (centre [va; vb]) = cosine d vb (centre [va; vb])).
  { apply pos_nrm in Za. apply pos_nrm in Zb. unfold cosine at 1 2. fold (vnorm d va) (vnorm d vb).
    set (c := centre [va; vb]).
    assert (CE : forall x, dotv d x c = / vnorm d va * dotv d x va + / vnorm d vb * dotv d x vb).
    { intros x. rewrite <- !dotv_scal_r. unfold dotv at 2 3. rewrite <- sumn_plus. apply sumn_ext. intros i _. unfold c, centre, direction_sum. cbn [map fold_right fst snd].
      fold (vnorm d va) (vnorm d vb). unfold Rdiv. ring. }
    set (nc := sqrt (dotv d c c)). clearbody nc. rewrite !CE, <- !nrm_sq, (dotv_sym d vb va).
    destruct (Req_dec nc 0) as [Z0|Z0]; [rewrite Z0, !Rmult_0_r; unfold Rdiv; rewrite Rinv_0; ring | field; repeat split; lra]. }
  destruct (str_leb a b) eqn:LE.
  - split; [left; reflexivity|]. exists va. split; [exact A|]. intros w' v' [<-|[<-|[]]] V'; right.
    + rewrite (row_unique m a v' va O V' A). split; [reflexivity | apply str_leb_refl].
    + rewrite (row_unique m b v' vb O V' B). split; [exact EQ | exact LE].
  - split; [right; left; reflexivity|]. exists vb. split; [exact B|]. intros w' v' [<-|[<-|[]]] V'; right.
    + rewrite (row_unique m a v' va O V' A). split; [symmetry; exact EQ|]. destruct (str_leb_total a b) as [T|T]; [congruence | exact T].
    + rewrite (row_unique m b v' vb O V' B). split; [reflexivity | apply str_leb_refl].
Qed.
Theorem doesnt_match_none : forall m words, one_row_each m -> filter (is_known m) words = [] -> doesnt_match d m words = Err ValueError.
Proof.
  intros m words O H. unfold doesnt_match, rank_by_centrality. rewrite (filter_ext (fun w => dmem (ks_index m) w) (is_known m)) by (intros; apply known_index; exact O).
  rewrite H. reflexivity.
Qed.

(** ** Scores of rows for several keys *)
Definition plain (vs : list vec) : list (vec * option R) := map (fun v => (v, None)) vs.
Theorem similar_score_exact : forall (positive negative : list vec) (row : vec), positive ++ negative <> [] ->
  let q := direction_sum d (map (fun v => (v, 1)) positive ++ map (fun v => (v, -1)) negative) in
  ~ zero_vec d row -> Forall (fun v => ~ zero_vec d v) (positive ++ negative) ->
  (~ zero_vec d q -> similar_score d (plain positive) (plain negative) row = cosine d row q) /\
  (zero_vec d q -> similar_score d (plain positive) (plain negative) row = 0).
Proof.
  intros positive negative row NE q Zr Zv.
  assert (E : similar_score d (plain positive) (plain negative) row = cosine d row q).
  { unfold similar_score. rewrite dot_unit_r. unfold weights, plain. rewrite !map_app, !map_map. cbn [fst snd].
    rewrite cosine_mean_r by (destruct positive, negative; try discriminate; contradiction).
    rewrite !(cosine_sym d row). apply cosine_ext. intros i L. subst q. unfold plain_sum, direction_sum. rewrite !map_app, !map_map. cbn [fst snd]. reflexivity. }
  split; [intros _; exact E|]. intros Zq. rewrite E, cosine_sym. apply cosine_zero. exact Zq.
Qed.
(** Weights replace 1 and -1, in both lists; all of them times a positive number is the same. *)
Theorem similar_score_weights : forall ws row, ws <> [] -> ~ zero_vec d row -> Forall (fun vw => ~ zero_vec d (fst vw)) ws ->
  ~ zero_vec d (direction_sum d ws) ->
  (forall a b, ws = a ++ b -> similar_score d (map (fun vw => (fst vw, Some (snd vw))) a) (map (fun vw => (fst vw, Some (snd vw))) b) row =
                              cosine d row (direction_sum d ws)) /\
  (forall c, 0 < c -> similar_score d (map (fun vw => (fst vw, Some (c * snd vw))) ws) [] row = cosine d row (direction_sum d ws)).
Proof.
  intros ws row NE Zr Zv Zq. split.
  - intros a b E. unfold similar_score. rewrite dot_unit_r. unfold weights. rewrite !map_map, <- map_app, <- E. cbn [fst snd]. rewrite !map_map.
    rewrite cosine_mean_r by (destruct ws; [contradiction|discriminate]).
    rewrite !(cosine_sym d row). apply cosine_ext. intros i L. unfold plain_sum, direction_sum. rewrite !map_map. reflexivity.
  - intros c P. unfold similar_score. rewrite dot_unit_r. unfold weights. cbn [map]. rewrite app_nil_r, !map_map. cbn [fst snd].
    rewrite cosine_mean_r by (destruct ws; [contradiction|discriminate]).
    rewrite !(cosine_sym d row). apply cosine_dir. exists c. split; [exact P|]. intros i L. unfold plain_sum, direction_sum. rewrite !map_map.
    clear. induction ws as [|w ws IH]; cbn [map fold_right]; [ring|]. rewrite IH. unfold normed, vnorm. ring.
Qed.
Lemma similar_single : forall v row, similar_score d (plain [v]) [] row = cosine d row v.
Proof.
  intros v row. unfold similar_score, plain, weights. rewrite dot_unit_r. cbn [map app fst snd]. rewrite cosine_mean_r by discriminate.
  rewrite !(cosine_sym d row). pose proof (nrm_nonneg d v) as NN. destruct (Req_dec (vnorm d v) 0) as [Z0|Z0].
  - apply zero_nrm in Z0. rewrite (cosine_zero d v row Z0). apply cosine_zero. intros i L. unfold plain_sum, normed. cbn. rewrite (Z0 i L). unfold Rdiv. ring.
  - apply cosine_dir. exists (/ vnorm d v). split; [apply Rinv_0_lt_compat; lra|]. intros i L. unfold plain_sum, normed. cbn. field. lra.
Qed.

(** ** The multiplicative score *)
Definition product (l : list R) : R := fold_right Rmult 1 l.
Lemma shifted_eq : forall t row, shifted d (normed d t) row = (1 + cosine d row t) / 2.
Proof.
  intros t row. unfold shifted, cosine. fold (vnorm d row) (vnorm d t).
  rewrite (dotv_ext d row (normed d t) row (fun i => / vnorm d t * t i)) by (intros; unfold normed, Rdiv; ring || reflexivity). rewrite dotv_scal_r.
  unfold Rdiv at 2 4. rewrite Rinv_mult. unfold Rdiv. ring.
Qed.
Lemma product_unit : forall (f : vec -> R) l, (forall x, In x l -> 0 <= f x <= 1) -> 0 <= product (map f l) <= 1.
Proof.
  intros f l H. induction l as [|x l IH]; cbn; [lra|]. assert (A := H x (or_introl eq_refl)). assert (B := IH (fun y I => H y (or_intror I))). unfold product in B. nra.
Qed.
Lemma half_unit : forall t row, 0 <= (1 + cosine d row t) / 2 <= 1.
Proof. intros t row. pose proof (cosine_bound d row t). lra. Qed.
Theorem cosmul_exact : forall (positive negative : list vec) (row : vec), ~ zero_vec d row -> Forall (fun v => ~ zero_vec d v) (positive ++ negative) ->
  let p := product (map (fun t => (1 + cosine d row t) / 2) positive) in let n := product (map (fun t => (1 + cosine d row t) / 2) negative) in
  cosmul_score d positive negative row = p / (n + 1 / 1000000) /\ 0 <= cosmul_score d positive negative row <= 1000000.
Proof.
  intros positive negative row Zr Zv p n.
  assert (E : cosmul_score d positive negative row = p / (n + 1 / 1000000)).
  { unfold cosmul_score. rewrite !map_map. rewrite (map_ext _ _ (fun t => shifted_eq t row)). rewrite (map_ext _ _ (fun t => shifted_eq t row)). reflexivity. }
  split; [exact E|]. rewrite E. pose proof (product_unit (fun t => (1 + cosine d row t) / 2) positive (fun t _ => half_unit t row)) as P. change (0 <= p <= 1) in P.
  pose proof (product_unit (fun t => (1 + cosine d row t) / 2) negative (fun t _ => half_unit t row)) as Nn. change (0 <= n <= 1) in Nn. clearbody p n.
  assert (D : 0 < n + 1 / 1000000) by lra. split.
  - apply Rmult_le_reg_r with (n + 1 / 1000000); [exact D|]. unfold Rdiv at 2. rewrite Rmult_assoc, Rinv_l by lra. lra.
  - apply Rmult_le_reg_r with (n + 1 / 1000000); [exact D|]. unfold Rdiv at 1. rewrite Rmult_assoc, Rinv_l by lra. lra.
Qed.
Lemma product_mono : forall (f g : vec -> R) l, (forall x, In x l -> 0 <= f x <= g x) -> 0 <= product (map f l) <= product (map g l).
Proof.
  intros f g l H. induction l as [|x l IH]; cbn; [lra|]. assert (A := H x (or_introl eq_refl)). assert (B := IH (fun y I => H y (or_intror I))). unfold product in B. nra.
Qed.
Lemma quot_mono : forall p1 p2 n1 n2, 0 <= p1 <= p2 -> 0 <= n2 <= n1 -> p1 / (n1 + 1 / 1000000) <= p2 / (n2 + 1 / 1000000).
Proof. intros. unfold Rdiv. apply Rmult_le_compat; try lra; [apply Rlt_le, Rinv_0_lt_compat; lra | apply Rinv_le_contravar; lra]. Qed.
Theorem cosmul_monotone : forall (positive negative : list vec) (row row' : vec), ~ zero_vec d row -> ~ zero_vec d row' -> Forall (fun v => ~ zero_vec d v) (positive ++ negative) ->
  (forall t, In t positive -> cosine d row t <= cosine d row' t) -> (forall t, In t negative -> cosine d row' t <= cosine d row t) ->
  cosmul_score d positive negative row <= cosmul_score d positive negative row'.
Proof.
  intros positive negative row row' Z1 Z2 Zv HP HN. destruct (cosmul_exact positive negative row Z1 Zv) as (E1 & _). destruct (cosmul_exact positive negative row' Z2 Zv) as (E2 & _).
  rewrite E1, E2.
  destruct (product_mono (fun t => (1 + cosine d row t) / 2) (fun t => (1 + cosine d row' t) / 2) positive) as (A & B).
  { intros t I. pose proof (half_unit t row). specialize (HP t I). lra. }
  destruct (product_mono (fun t => (1 + cosine d row' t) / 2) (fun t => (1 + cosine d row t) / 2) negative) as (C & D).
  { intros t I. pose proof (half_unit t row'). specialize (HN t I). lra. }
  apply quot_mono; [split; [exact A | exact B] | split; [exact C | exact D]].
Qed.
(** One positive key: rows are ranked as by [most_similar]. *)
Theorem cosmul_single : forall (v row row' : vec), ~ zero_vec d v -> ~ zero_vec d row -> ~ zero_vec d row' ->
  (cosmul_score d [v] [] row <= cosmul_score d [v] [] row' <-> similar_score d (plain [v]) [] row <= similar_score d (plain [v]) [] row').
Proof.
  intros v row row' Zv Z1 Z2. rewrite !similar_single. destruct (cosmul_exact [v] [] row Z1) as (E1 & _); [repeat constructor; exact Zv|].
  destruct (cosmul_exact [v] [] row' Z2) as (E2 & _); [repeat constructor; exact Zv|]. rewrite E1, E2. cbn. lra.
Qed.

(** ** Relative cosine similarity *)
Theorem relative_similarity_sum : forall m wa sims, sims <> [] -> Forall (fun p => similarity d m wa (fst p) = Ok (snd p)) sims -> Rsum (map snd sims) <> 0 ->
  exists l, rmapM (fun p => relative_cosine_similarity d m sims wa (fst p)) sims = Ok l /\ length l = length sims /\ Rsum l = 1.
Proof.
  intros m wa sims NE F NZ. set (S0 := Rsum (map snd sims)) in *.
  assert (G : forall l, Forall (fun p => similarity d m wa (fst p) = Ok (snd p)) l ->
    rmapM (fun p => relative_cosine_similarity d m sims wa (fst p)) l = Ok (map (fun p => snd p / S0) l)).
  { intros l H. induction H as [|p l H F1 IH]; [reflexivity|]. cbn [rmapM map]. unfold relative_cosine_similarity at 1. destruct sims as [|x xs]; [contradiction|].
    rewrite H. cbn [rbind]. fold S0. rewrite IH. reflexivity. }
  exists (map (fun p => snd p / S0) sims). split; [apply G; exact F|]. split; [apply map_length|].
  rewrite (Rsum_ext (fun p : pystr * R => snd p / S0) (fun p => / S0 * snd p)) by (intros; unfold Rdiv; ring). rewrite Rsum_scal. fold S0. field. exact NZ.
Qed.
(** Above one n-th exactly if more similar than the n most similar keys are on average. *)
Theorem relative_similarity_average : forall m wa wb sims s, similarity d m wa wb = Ok s -> 0 < Rsum (map snd sims) ->
  exists r, relative_cosine_similarity d m sims wa wb = Ok r /\ (1 / INR (length sims) < r <-> Rsum (map snd sims) / INR (length sims) < s).
Proof.
  intros m wa wb sims s E P. unfold relative_cosine_similarity. destruct sims as [|x xs]; [cbn in P; lra|]. rewrite E. cbn [rbind]. eexists. split; [reflexivity|].
  set (S0 := Rsum _) in *. set (n := INR _). assert (Pn : 0 < n) by (apply lt_0_INR; cbn; lia). clearbody S0 n.
  split; intros H.
  - apply Rmult_lt_compat_r with (r := S0) in H; [|exact P]. replace (s / S0 * S0) with s in H by (field; lra). replace (1 / n * S0) with (S0 / n) in H by (field; lra). exact H.
  - apply Rmult_lt_reg_r with S0; [exact P|]. replace (s / S0 * S0) with s by (field; lra). replace (1 / n * S0) with (S0 / n) by (field; lra). exact H.
Qed.
End Dim.
Print Assumptions similarity_exact.
Print Assumptions similarity_unknown.
Print Assumptions n_similarity_exact.
Print Assumptions n_similarity_single.
Print Assumptions n_similarity_empty.
Print Assumptions distances_exact.
Print Assumptions closer_than_exact.
Print Assumptions rank_order.
Print Assumptions most_similar_to_given_first.
Print Assumptions most_similar_to_none.
Print Assumptions centrality_exact.
Print Assumptions doesnt_match_exact.
Print Assumptions doesnt_match_invariant.
Print Assumptions doesnt_match_two.
Print Assumptions doesnt_match_none.
Print Assumptions similar_score_exact.
Print Assumptions similar_score_weights.
Print Assumptions cosmul_exact.
Print Assumptions cosmul_monotone.
Print Assumptions cosmul_single.
Print Assumptions relative_similarity_sum.
Print Assumptions relative_similarity_average.

(** ** Examples and violations *)
Definition v2 (x y : R) : vec := fun i => match i with O => x | _ => y end.
Definition kvs_of (l : list (pystr * vec)) : kvs := mkKvs (map fst l) (combine (map fst l) (seq 0 (length l))) (map snd l).
Lemma dot_v2 : forall a b c e, dotv 2 (v2 a b) (v2 c e) = a * c + b * e.
Proof. intros. unfold dotv, sumn, Rsum, v2. cbn. ring. Qed.
Lemma nz_v2 : forall a b, a <> 0 \/ b <> 0 -> ~ zero_vec 2 (v2 a b).
Proof. intros a b H C. pose proof (C 0%nat ltac:(lia)). pose proof (C 1%nat ltac:(lia)). cbn in *. tauto. Qed.
Lemma kvs_of_ok : forall l, NoDup (map fst l) -> one_row_each (kvs_of l).
Proof.
  intros l ND. unfold one_row_each, kvs_of. cbn [ks_keys ks_index ks_rows]. split; [exact ND|]. split; [rewrite !map_length; reflexivity|].
  assert (G : forall (ks : list pystr) s k i, NoDup ks -> (dget (combine ks (seq s (length ks))) k = Some i <-> exists j, i = (s + j)%nat /\ nth_error ks j = Some k)).
  { induction ks as [|x ks IH]; intros s k i N; cbn [length seq combine dget fst snd].
    - split; [discriminate|]. intros ([|j] & _ & C); discriminate.
    - inversion N; subst. destruct (eq_dec x k) as [<-|NE].
      + split; [intros E; injection E as <-; exists 0%nat; split; [lia|reflexivity]|]. intros (j & -> & E). destruct j as [|j]; [f_equal; lia|].
        cbn in E. apply nth_error_In in E. contradiction.
      + rewrite (IH (S s) k i) by assumption. split; intros (j & -> & E); [exists (S j); split; [lia | exact E]|].
        destruct j as [|j]; [cbn in E; congruence|]. exists j. split; [lia | exact E]. }
  intros k i. rewrite <- (map_length fst l). rewrite (G (map fst l) 0%nat k i ND). split; [intros (j & -> & E); exact E | intros E; exists i; split; [lia | exact E]].
Qed.

(** Three directions: (3, 4) is at 3/5 of (1, 0), whose angle with (0, 2) is a right one. *)
Definition three : kvs := kvs_of [(str "east", v2 1 0); (str "north", v2 0 2); (str "between", v2 3 4)].
Lemma three_ok : one_row_each three.
Proof. apply kvs_of_ok. repeat constructor; cbn; intuition discriminate. Qed.
Lemma sqrt_25 : sqrt 25 = 5.
Proof. replace 25 with (5 * 5) by ring. apply sqrt_square. lra. Qed.
Lemma row_east : row_of three (str "east") (v2 1 0). Proof. exists 0%nat. split; reflexivity. Qed.
Lemma row_north : row_of three (str "north") (v2 0 2). Proof. exists 1%nat. split; reflexivity. Qed.
Lemma row_between : row_of three (str "between") (v2 3 4). Proof. exists 2%nat. split; reflexivity. Qed.
Lemma cos_eb : cosine 2 (v2 1 0) (v2 3 4) = 3 / 5.
Proof. unfold cosine. rewrite !dot_v2. replace (1 * 1 + 0 * 0) with 1 by ring. replace (3 * 3 + 4 * 4) with 25 by ring. rewrite sqrt_1, sqrt_25. field. Qed.
Lemma cos_en : cosine 2 (v2 1 0) (v2 0 2) = 0.
Proof. unfold cosine. rewrite !dot_v2. unfold Rdiv. ring. Qed.
Example similarity_ex : similarity 2 three (str "east") (str "between") = Ok (3 / 5) /\ distance 2 three (str "east") (str "north") = Ok (1 - 0) /\
  n_similarity 2 three [str "east"] [str "between"] = Ok (3 / 5).
Proof.
  pose proof (sim_eq 2 three _ _ _ _ three_ok row_east row_between) as E. rewrite cos_eb in E. split; [exact E|]. split.
  - unfold distance. rewrite (sim_eq 2 three _ _ _ _ three_ok row_east row_north), cos_en. reflexivity.
  - rewrite n_similarity_single by exact three_ok. exact E.
Qed.
Example closer_ex : closer_than 2 three (str "east") (str "north") = Ok [str "between"] /\ rank 2 three (str "east") (str "north") = Ok 2%nat.
Proof.
  destruct (closer_than_exact 2 three (str "east") (str "north") (v2 1 0) (v2 0 2)) as (c & E & R & C); [exact three_ok | exact row_east | exact row_north | apply nz_v2; lra | apply nz_v2; lra |].
  rewrite cos_en in C.
  assert (C1 : c (str "east") = false). { destruct (c (str "east")) eqn:X; [|reflexivity]. apply (C _ _ row_east) in X. tauto. }
  assert (C2 : c (str "north") = false). { destruct (c (str "north")) eqn:X; [|reflexivity]. apply (C _ _ row_north) in X. rewrite cos_en in X. lra. }
  assert (C3 : c (str "between") = true). { apply (C _ _ row_between). rewrite cos_eb. split; [discriminate|]. split; [apply nz_v2; lra | lra]. }
  assert (F : filter c (ks_keys three) = [str "between"]).
  { change (ks_keys three) with [str "east"; str "north"; str "between"]. cbn [filter]. rewrite C1, C2, C3. reflexivity. }
  rewrite F in E, R. split; [exact E | exact R].
Qed.
Example given_ex : most_similar_to_given 2 three (str "east") [str "north"; str "between"; str "between"] = Ok (str "between").
Proof.
  unfold most_similar_to_given. cbn [rmapM]. rewrite (sim_eq 2 three _ _ _ _ three_ok row_east row_north), (sim_eq 2 three _ _ _ _ three_ok row_east row_between), cos_en, cos_eb.
  cbn [rbind argmax nth]. repeat (destruct (Rle_dec _ _); try lra; cbn [nth]). reflexivity.
Qed.
Example odd_ex : doesnt_match 2 three [str "east"; str "who"; str "between"] = doesnt_match 2 three [str "between"; str "east"] /\
  doesnt_match 2 three [str "between"; str "east"] = Ok (str "between").
Proof.
  assert (A : doesnt_match 2 three [str "between"; str "east"] = Ok (str "between")).
  { rewrite (doesnt_match_two 2 three _ _ (v2 3 4) (v2 1 0) three_ok row_between row_east); [reflexivity | apply nz_v2; lra | apply nz_v2; lra]. }
  split; [|exact A]. rewrite A.
  change (doesnt_match 2 three [str "east"; str "who"; str "between"]) with (doesnt_match 2 three [str "east"; str "between"]).
  rewrite (doesnt_match_two 2 three _ _ (v2 1 0) (v2 3 4) three_ok row_east row_between); [reflexivity | apply nz_v2; lra | apply nz_v2; lra].
Qed.
Example cosmul_ex : cosmul_score 2 [v2 1 0] [v2 0 2] (v2 3 4) = 8 / 10 / (9 / 10 + 1 / 1000000).
Proof.
  destruct (cosmul_exact 2 [v2 1 0] [v2 0 2] (v2 3 4)) as (E & _); [apply nz_v2; lra | repeat constructor; apply nz_v2; lra|]. rewrite E. cbn [map product fold_right].
  rewrite (cosine_sym 2 (v2 3 4) (v2 1 0)), cos_eb.
  assert (X : cosine 2 (v2 3 4) (v2 0 2) = 4 / 5).
  { unfold cosine. rewrite !dot_v2. replace (3 * 3 + 4 * 4) with 25 by ring. replace (0 * 0 + 2 * 2) with (2 * 2) by ring. rewrite sqrt_25, sqrt_square by lra. field. }
  rewrite X. field.
Qed.

(** A zero vector has the similarity 0 to every key, yet its rank is 1: nothing counts as closer. *)
Theorem rank_zero_refuted : exists m a z k s, one_row_each m /\ rank 2 m a z = Ok 1%nat /\ similarity 2 m a z = Ok 0 /\ In k (ks_keys m) /\ k <> a /\ k <> z /\
  similarity 2 m a k = Ok s /\ 0 < s.
Proof.
  set (m := kvs_of [(str "a", v2 1 0); (str "z", v2 0 0); (str "k", v2 3 4)]).
  assert (O : one_row_each m) by (apply kvs_of_ok; repeat constructor; cbn; intuition discriminate).
  assert (RA : row_of m (str "a") (v2 1 0)) by (exists 0%nat; split; reflexivity). assert (RZ : row_of m (str "z") (v2 0 0)) by (exists 1%nat; split; reflexivity).
  assert (RK : row_of m (str "k") (v2 3 4)) by (exists 2%nat; split; reflexivity).
  exists m, (str "a"), (str "z"), (str "k"), (3 / 5). split; [exact O|].
  split; [|split; [rewrite (sim_eq 2 m _ _ _ _ O RA RZ); f_equal; rewrite cosine_sym; apply cosine_zero; intros [|i] L; reflexivity|]].
  2: { split; [right; right; left; reflexivity|]. split; [discriminate|]. split; [discriminate|]. split; [rewrite (sim_eq 2 m _ _ _ _ O RA RK), cos_eb; reflexivity | lra]. }
  assert (NZ : vnorm 2 (v2 0 0) = 0) by (apply zero_nrm; intros [|i] L; reflexivity).
  unfold rank, closer_than, distances. rewrite (proj2 (get_row m _ _ O) RA). cbn [rbind].
  change (ks_rows m) with [v2 1 0; v2 0 0; v2 3 4]. unfold cosine_similarities. cbn [map]. rewrite NZ, Rmult_0_r.
  destruct (Req_EM_T 0 0) as [_|C]; [|contradiction]. cbn [option_map].
  change (get_index m (str "a")) with (Ok 0%nat). change (get_index m (str "z")) with (Ok 1%nat). cbn [rbind nth_error of_option length seq filter nth].
  repeat match goal with |- context [nan_lt ?x None] => replace (nan_lt x None) with false by (destruct x; reflexivity) end. reflexivity.
Qed.
Print Assumptions rank_zero_refuted.

(** Distance 1 for a pair of which one vector is zero, but no number among the distances to all keys. *)
Theorem distances_zero_refuted : exists m a z l, one_row_each m /\ distance 2 m a z = Ok 1 /\ distances 2 m a [z] = Ok l /\ l = [None].
Proof.
  set (m := kvs_of [(str "a", v2 1 0); (str "z", v2 0 0)]).
  assert (O : one_row_each m) by (apply kvs_of_ok; repeat constructor; cbn; intuition discriminate).
  assert (RA : row_of m (str "a") (v2 1 0)) by (exists 0%nat; split; reflexivity). assert (RZ : row_of m (str "z") (v2 0 0)) by (exists 1%nat; split; reflexivity).
  destruct (distances_exact 2 m (str "a") (v2 1 0) [str "z"] O RA) as (l & E & F); [intros x [<-|[]]; right; left; reflexivity|].
  exists m, (str "a"), (str "z"), l. split; [exact O|]. split.
  - unfold distance. rewrite (sim_eq 2 m _ _ _ _ O RA RZ), cosine_sym, cosine_zero by (intros [|i] L; reflexivity). cbn. f_equal. ring.
  - split; [exact E|]. inversion F as [|? o ? r H H2]; subst. inversion H2; subst. f_equal. apply (H _ RZ). right. intros [|i] L; reflexivity.
Qed.
Print Assumptions distances_zero_refuted.

(** Without unit vectors the score is no similarity: the word that points exactly to the centre of the three, at which the others do not
    point, comes last. *)
Theorem centrality_unnormed_refuted : exists m words w l s, one_row_each m /\ rank_by_centrality 2 m words false = Ok (l ++ [(s, w)]) /\ length l = 2%nat /\
  (exists v c, row_of m w v /\ (forall i, (i < 2)%nat -> c i = fold_right Rplus 0 (map (fun u : vec => u i) (ks_rows m)) / 3) /\ cosine 2 v c = 1 /\
     forall k u, row_of m k u -> k <> w -> cosine 2 u c < 1).
Proof.
  set (m := kvs_of [(str "a", v2 1 0); (str "b", v2 10 10); (str "c", v2 10 (-10))]).
  assert (O : one_row_each m) by (apply kvs_of_ok; repeat constructor; cbn; intuition discriminate).
  exists m, [str "a"; str "b"; str "c"], (str "a"), [(10, str "c"); (10, str "b")], 1. split; [exact O|]. split; [|split; [reflexivity|]].
  - unfold rank_by_centrality. change (filter (fun w => dmem (ks_index m) w) [str "a"; str "b"; str "c"]) with [str "a"; str "b"; str "c"].
    change (rmapM (get_vector m) [str "a"; str "b"; str "c"]) with (Ok [v2 1 0; v2 10 10; v2 10 (-10)]). cbn [rbind].
    set (ce := unitvec 2 (mean [v2 1 0; v2 10 10; v2 10 (-10)])).
    assert (M : forall i, (i < 2)%nat -> mean [v2 1 0; v2 10 10; v2 10 (-10)] i = v2 7 0 i).
    { intros [|[|i]] L; [| |lia]; unfold mean, v2, Rsum; cbn [map fold_right length]; rewrite !S_INR; cbn [INR]; lra. }
    assert (CE : forall i, (i < 2)%nat -> ce i = v2 1 0 i).
    { intros i L. assert (NV : vnorm 2 (mean [v2 1 0; v2 10 10; v2 10 (-10)]) = 7).
      { unfold vnorm. rewrite (dotv_ext 2 _ _ (v2 7 0) (v2 7 0)) by exact M. rewrite dot_v2. replace (7 * 7 + 0 * 0) with (7 * 7) by ring. apply sqrt_square. lra. }
      unfold ce, unitvec. rewrite NV. destruct (Rlt_dec 0 7); [|lra]. rewrite (M i L). destruct i as [|i]; cbn; lra. }
    cbn [map combine]. rewrite !(dotv_ext 2 (v2 _ _) ce (v2 _ _) (v2 1 0)) by (auto || (intros; symmetry; reflexivity)). 
    rewrite !dot_v2. replace (1 * 1 + 0 * 0) with 1 by ring. replace (10 * 1 + 10 * 0) with 10 by ring. replace (10 * 1 + -10 * 0) with 10 by ring.
    cbn [isort insert].
    assert (L1 : pair_le (10, str "b") (10, str "c") = true) by (apply pair_le_iff; right; split; reflexivity). rewrite L1. cbn [insert].
    assert (L2 : pair_le (1, str "a") (10, str "b") = true) by (apply pair_le_iff; left; cbn; lra). rewrite L2. reflexivity.
  - exists (v2 1 0), (v2 7 0). split; [exists 0%nat; split; reflexivity|]. split; [|split].
    + intros [|[|i]] L; [| |lia]; cbn; lra.
    + unfold cosine. rewrite !dot_v2. replace (1 * 1 + 0 * 0) with 1 by ring. replace (7 * 7 + 0 * 0) with (7 * 7) by ring. rewrite sqrt_1, sqrt_square by lra. field.
    + intros k u (i & A & B) NE. destruct (Rlt_dec (cosine 2 u (v2 7 0)) 1) as [|GE]; [assumption|].
      pose proof (cosine_bound 2 u (v2 7 0)) as CB. assert (EQ : cosine 2 u (v2 7 0) = 1) by lra. exfalso.
      assert (K : i = 1%nat \/ i = 2%nat).
      { assert (i < 3)%nat by (change 3%nat with (length (ks_rows m)); apply nth_error_Some; congruence). assert (i <> 0%nat); [|lia].
        intros ->. apply NE. change (Some (str "a") = Some k) in A. congruence. }
      assert (U : u = v2 10 10 \/ u = v2 10 (-10)).
      { destruct K as [-> | ->]; [left; change (Some (v2 10 10) = Some u) in B | right; change (Some (v2 10 (-10)) = Some u) in B]; congruence. }
      clear A B K NE GE CB. destruct U as [-> | ->]; apply (cosine_one 2) in EQ; try (apply nz_v2; lra);
        destruct EQ as (c & P & H); pose proof (H 1%nat ltac:(lia)) as H1; cbn in H1; lra.
Qed.
Print Assumptions centrality_unnormed_refuted.

(** If the most similar keys are dissimilar, the less similar of two keys has the larger relative similarity. *)
Theorem relative_similarity_refuted : exists m wa wb wc sims sb sc rb rc, one_row_each m /\ Forall (fun p => similarity 2 m wa (fst p) = Ok (snd p)) sims /\ sims <> [] /\
  similarity 2 m wa wb = Ok sb /\ similarity 2 m wa wc = Ok sc /\ sc < sb /\
  relative_cosine_similarity 2 m sims wa wb = Ok rb /\ relative_cosine_similarity 2 m sims wa wc = Ok rc /\ rb < rc.
Proof.
  set (m := kvs_of [(str "a", v2 1 0); (str "b", v2 (-3) 4); (str "c", v2 (-1) 0)]).
  assert (O : one_row_each m) by (apply kvs_of_ok; repeat constructor; cbn; intuition discriminate).
  assert (RA : row_of m (str "a") (v2 1 0)) by (exists 0%nat; split; reflexivity). assert (RB : row_of m (str "b") (v2 (-3) 4)) by (exists 1%nat; split; reflexivity).
  assert (RC : row_of m (str "c") (v2 (-1) 0)) by (exists 2%nat; split; reflexivity).
  assert (SB : similarity 2 m (str "a") (str "b") = Ok (- 3 / 5)).
  { rewrite (sim_eq 2 m _ _ _ _ O RA RB). f_equal. unfold cosine. rewrite !dot_v2. replace (1 * 1 + 0 * 0) with 1 by ring. replace (-3 * -3 + 4 * 4) with 25 by ring. rewrite sqrt_1, sqrt_25. field. }
  assert (SC : similarity 2 m (str "a") (str "c") = Ok (- 1)).
  { rewrite (sim_eq 2 m _ _ _ _ O RA RC). f_equal. unfold cosine. rewrite !dot_v2. replace (1 * 1 + 0 * 0) with 1 by ring. replace (-1 * -1 + 0 * 0) with 1 by ring. rewrite sqrt_1. field. }
  exists m, (str "a"), (str "b"), (str "c"), [(str "b", - 3 / 5); (str "c", - 1)], (- 3 / 5), (- 1), (3 / 8), (5 / 8).
  split; [exact O|]. split; [repeat constructor; assumption|]. split; [discriminate|]. split; [exact SB|]. split; [exact SC|]. split; [lra|].
  unfold relative_cosine_similarity. rewrite SB, SC. cbn [rbind map snd]. unfold Rsum. cbn [fold_right].
  split; [f_equal; field; lra|]. split; [f_equal; field; lra | lra].
Qed.
Print Assumptions relative_similarity_refuted.
