(** Word Mover's Distance (C94). *)
From Coq Require Import Reals Lra Psatz.
From Verif Require Import Base Str MatReal_Model MatReal_Proofs LdaTrain_Model Lsi_Spec Lsi_Linear KvSim_Model KvSim_Spec KvSim_Proofs KvSim_Properties
  Dictionary_Model Dictionary_Spec Dictionary_Proofs Wmd_Spec Wmd_Transport Wmd_Model Wmd_Proofs.
Local Open Scope R_scope.

(** The words of a document that have a vector. *)
Definition known (m : kvs) (doc : list pystr) : list pystr := filter (is_known m) doc.
(** [row] gives the vector of every key, and the vectors of the words of the documents are not zero. *)
Definition vectors_of (m : kvs) (row : pystr -> vec) : Prop := one_row_each m /\ forall w, In w (ks_keys m) -> row_of m w (row w).
Definition usable (d : nat) (m : kvs) (row : pystr -> vec) (doc : list pystr) : Prop := known m doc <> [] /\ forall w, In w (known m doc) -> ~ zero_vec d (row w).
(** Some pair of words has a distance. *)
Definition apart (d : nat) (row : pystr -> vec) (k1 k2 : list pystr) : Prop := exists a b, In a k1 /\ In b k2 /\ ~ same_direction d (row a) (row b).
Definition one_word (k1 k2 : list pystr) : Prop := exists w, forall a, In a k1 \/ In a k2 -> a = w.

(** A routine as asked for exists. *)
Lemma fin_dec : forall n (P : nat -> Prop), (forall i, {P i} + {~ P i}) -> {forall i, In i (seq 0 n) -> P i} + {~ forall i, In i (seq 0 n) -> P i}.
Proof.
  intros n P D. destruct (Forall_dec P D (seq 0 n)) as [F|F]; [left; apply Forall_forall; exact F | right; intros A; apply F, Forall_forall; exact A].
Defined.
Theorem emd_exists : exists emd, emd_correct emd.
Proof.
  assert (DD : forall n p, {distribution (seq 0 n) p} + {~ distribution (seq 0 n) p}).
  { intros n p. unfold distribution. destruct (fin_dec n (fun i => 0 <= p i)) as [A|A]; [intros; apply Rle_dec| |right; tauto]. destruct (Req_EM_T (Sum (seq 0 n) p) 1); [left | right]; tauto. }
  assert (DN : forall n D, {forall i, In i (seq 0 n) -> forall j, In j (seq 0 n) -> 0 <= D i j} + {~ forall i, In i (seq 0 n) -> forall j, In j (seq 0 n) -> 0 <= D i j}).
  { intros n D. apply fin_dec. intros i. apply fin_dec. intros j. apply Rle_dec. }
  exists (fun n p q D => match DD n p, DD n q, DN n D with
    | left P, left Q, left N => proj1_sig (least_exists (seq 0 n) p q D P Q (fun a b Ia Ib => N a Ia b Ib))
    | _, _, _ => 0 end).
  intros n p q D P Q N _ _. destruct (DD n p) as [P'|]; [|contradiction]. destruct (DD n q) as [Q'|]; [|contradiction]. destruct (DN n D) as [N'|N'].
  - apply proj2_sig.
  - exfalso. apply N'. intros i Ii j Ij. apply in_seq in Ii. apply in_seq in Ij. apply N; lia.
Qed.
Print Assumptions emd_exists.

Section Dim.
Variable d : nat.
Variable emd : nat -> (nat -> R) -> (nat -> R) -> (nat -> nat -> R) -> R.
Hypothesis EMD : emd_correct emd.
Let DIST (row : pystr -> vec) : pystr -> pystr -> R := fun a b => chord d (row a) (row b).

Lemma filter_known : forall m doc, one_row_each m -> filter (fun t => dmem (ks_index m) t) doc = known m doc.
Proof. intros m doc O. apply filter_ext. intros w. apply known_index. exact O. Qed.
Lemma known_key : forall m doc w, In w (known m doc) -> In w (ks_keys m).
Proof. intros m doc w I. apply filter_In in I. destruct I as (_ & K). unfold is_known in K. rewrite memb_true in K. exact K. Qed.

Lemma wmd_cases : forall m row doc1 doc2, vectors_of m row -> usable d m row doc1 -> usable d m row doc2 ->
  let k1 := known m doc1 in let k2 := known m doc2 in
  (one_word k1 k2 /\ wmdistance d emd m doc1 doc2 = Ok (Val 0) /\ least_cost (voc k1 k2) (share k1) (share k2) (DIST row) 0) \/
  (~ one_word k1 k2 /\ ~ apart d row k1 k2 /\ wmdistance d emd m doc1 doc2 = Ok Inf) \/
  (~ one_word k1 k2 /\ apart d row k1 k2 /\ exists x, wmdistance d emd m doc1 doc2 = Ok (Val x) /\ least_cost (voc k1 k2) (share k1) (share k2) (DIST row) x).
Proof.
  intros m row doc1 doc2 (O & ROW) (NE1 & NZ1) (NE2 & NZ2) k1 k2. unfold wmdistance. rewrite !filter_known by exact O. fold k1 k2 in NE1, NZ1, NE2, NZ2 |- *.
  assert (KEY1 : forall w, In w k1 -> In w (ks_keys m)) by (intros w; apply known_key). assert (KEY2 : forall w, In w k2 -> In w (ks_keys m)) by (intros w; apply known_key).
  clearbody k1 k2.
  replace (match k1, k2 with [], _ => Ok Inf | _, [] => Ok Inf | _, _ =>
    let* dic := d_add_documents d_empty [k1; k2] (Some 2000000%Z) in
    if (d_len dic =? 1)%nat then Ok (Val 0)
    else
      let* D := distance_matrix d m k1 k2 (items dic) in
      if Req_EM_T (sumn (d_len dic) (fun i => sumn (d_len dic) (D i))) 0 then Ok Inf
      else Ok (Val (emd (d_len dic) (nbow dic k1) (nbow dic k2) D)) end) with (
    if (d_len (dic k1 k2) =? 1)%nat then Ok (Val 0)
    else
      let* D := distance_matrix d m k1 k2 (items (dic k1 k2)) in
      if Req_EM_T (sumn (d_len (dic k1 k2)) (fun i => sumn (d_len (dic k1 k2)) (D i))) 0 then Ok Inf
      else Ok (Val (emd (d_len (dic k1 k2)) (nbow (dic k1 k2) k1) (nbow (dic k1 k2) k2) D)))
    by (destruct k1; [congruence|]; destruct k2; [congruence|]; reflexivity).
  set (V := voc k1 k2). set (n := d_len (dic k1 k2)).
  assert (VI : forall w, In w V <-> In w k1 \/ In w k2) by (apply voc_in). assert (ND : NoDup V) by apply voc_nd. assert (LV : length V = n) by apply voc_len.
  assert (I1 : incl k1 V) by (intros w I; apply VI; auto). assert (I2 : incl k2 V) by (intros w I; apply VI; auto).
  assert (NZ : forall w, In w V -> ~ zero_vec d (row w)) by (intros w I; apply VI in I; destruct I; auto).
  assert (ROWV : forall w, In w V -> row_of m w (row w)) by (intros w I; apply ROW; apply VI in I; destruct I; auto).
  destruct (n =? 1)%nat eqn:N1.
  - left. apply Nat.eqb_eq in N1. destruct V as [|w [|]] eqn:EV; [cbn [length] in LV; lia | | cbn [length] in LV; lia]. split; [|split; [reflexivity|]].
    + exists w. intros a A. apply VI in A. destruct A as [->|[]]; reflexivity.
    + pose proof (share_dist [w] k1 ND I1 NE1) as S1. pose proof (share_dist [w] k2 ND I2 NE2) as S2.
      apply (least_ext [w] (share k1) (share k1) _ _ (DIST row) (DIST row) 0); [reflexivity | | reflexivity |].
      * intros a [<-|[]]. destruct S1 as (_ & S1), S2 as (_ & S2). unfold Sum in S1, S2. cbn in S1, S2. lra.
      * apply least_same; [exact ND | exact S1 | intros; apply chord_nonneg | intros; apply chord_refl].
  - right. apply Nat.eqb_neq in N1.
    assert (NO : ~ one_word k1 k2).
    { intros (w & OW). apply N1. rewrite <- LV. destruct V as [|a [|b V']] eqn:EV.
      - exfalso. destruct k1 as [|x k1']; [congruence|]. apply (I1 x). left. reflexivity.
      - reflexivity.
      - exfalso. assert (a = w) by (apply OW, VI; left; reflexivity). assert (b = w) by (apply OW, VI; right; left; reflexivity). subst. inversion ND; subst. apply H1. left. reflexivity. }
    destruct (matrix_ok k1 k2 d m row O ROWV) as (D & -> & DS & DP & D0). cbn [rbind].
    assert (DV : forall a b, In a V -> In b V -> 0 <= D (id_of k1 k2 a) (id_of k1 k2 b)).
    { intros a b Ia Ib. destruct (in_dec eq_dec a k1), (in_dec eq_dec b k2), (in_dec eq_dec b k1), (in_dec eq_dec a k2);
        (rewrite DP by tauto; apply chord_nonneg) || (rewrite D0 by tauto; lra). }
    assert (DN : forall i j, (i < n)%nat -> (j < n)%nat -> 0 <= D i j).
    { intros i j Li Lj. destruct (id_ex k1 k2 i Li) as (a & Ia & <-), (id_ex k1 k2 j Lj) as (b & Ib & <-). apply DV; assumption. }
    destruct (Req_EM_T (sumn n (fun i => sumn n (D i))) 0) as [Z0|Z0].
    + left. split; [exact NO|]. split; [|reflexivity]. intros (a & b & Ia & Ib & NS). apply NS. assert (Va : In a V) by auto. assert (Vb : In b V) by auto.
      apply (chord_0 d (row a) (row b)); [auto | auto|]. rewrite <- (DP a b) by auto. change (sumn n) with (Sum (seq 0 n)) in Z0.
      assert (LA := id_lt k1 k2 a Va). assert (LB := id_lt k1 k2 b Vb). fold n in LA, LB.
      assert (U1 : Sum (seq 0 n) (D (id_of k1 k2 a)) <= Sum (seq 0 n) (fun i => Sum (seq 0 n) (D i))).
      { apply (Sum_in (seq 0 n) (fun i => Sum (seq 0 n) (D i))); [|apply in_seq; lia]. intros i Ii. apply in_seq in Ii. apply Sum_nonneg. intros j Ij. apply in_seq in Ij. apply DN; lia. }
      assert (U2 : D (id_of k1 k2 a) (id_of k1 k2 b) <= Sum (seq 0 n) (D (id_of k1 k2 a))).
      { apply Sum_in; [|apply in_seq; lia]. intros j Ij. apply in_seq in Ij. apply DN; lia. }
      specialize (DV a b Va Vb). lra.
    + right. split; [exact NO|]. split.
      * destruct (Exists_dec (fun a => Exists (fun b => D (id_of k1 k2 a) (id_of k1 k2 b) <> 0) k2) k1) as [EX|NX].
        { intros a. apply Exists_dec. intros b. destruct (Req_EM_T (D (id_of k1 k2 a) (id_of k1 k2 b)) 0); [right; tauto | left; assumption]. }
        { apply Exists_exists in EX. destruct EX as (a & Ia & EX). apply Exists_exists in EX. destruct EX as (b & Ib & NB). exists a, b. split; [exact Ia|]. split; [exact Ib|].
          intros SD. apply NB. rewrite DP by auto. apply chord_0; auto. }
        { exfalso. apply Z0. assert (ALL : forall a b, In a k1 -> In b k2 -> D (id_of k1 k2 a) (id_of k1 k2 b) = 0).
          { intros a b Ia Ib. destruct (Req_dec (D (id_of k1 k2 a) (id_of k1 k2 b)) 0) as [E0|E0]; [exact E0|]. exfalso. apply NX. apply Exists_exists. exists a. split; [exact Ia|]. apply Exists_exists. exists b. auto. }
          apply Sum_zero. intros i Li. apply in_seq in Li. apply Sum_zero. intros j Lj. apply in_seq in Lj.
          destruct (id_ex k1 k2 i ltac:(fold n; lia)) as (a & Ia & <-), (id_ex k1 k2 j ltac:(fold n; lia)) as (b & Ib & <-). fold V in Ia, Ib.
          destruct (in_dec eq_dec a k1) as [A1|A1], (in_dec eq_dec b k2) as [B2|B2], (in_dec eq_dec b k1) as [B1|B1], (in_dec eq_dec a k2) as [A2|A2];
            (apply ALL; assumption) || (rewrite DS; apply ALL; assumption) || (apply D0; tauto). }
      * eexists. split; [reflexivity|].
        assert (NB1 : forall w, In w V -> nbow (dic k1 k2) k1 (id_of k1 k2 w) = share k1 w) by (intros; apply nbow_share; assumption).
        assert (NB2 : forall w, In w V -> nbow (dic k1 k2) k2 (id_of k1 k2 w) = share k2 w) by (intros; apply nbow_share; assumption).
        assert (TODIST : forall doc (f : nat -> R), (forall w, In w V -> f (id_of k1 k2 w) = share doc w) -> incl doc V -> doc <> [] -> distribution (seq 0 n) f).
        { intros doc f F IN NE. destruct (share_dist V doc ND IN NE) as (S0 & S1). split.
          - intros i Li. apply in_seq in Li. destruct (id_ex k1 k2 i ltac:(fold n; lia)) as (a & Ia & <-). rewrite F by exact Ia. apply share_nonneg.
          - unfold n. rewrite <- (Sum_perm _ _ f (ids_perm k1 k2)). rewrite Sum_map. fold V. rewrite <- S1. apply Sum_ext. exact F. }
        assert (LC : least_cost (seq 0 n) (nbow (dic k1 k2) k1) (nbow (dic k1 k2) k2) D (emd n (nbow (dic k1 k2) k1) (nbow (dic k1 k2) k2) D)).
        { apply EMD; [apply (TODIST k1); assumption | apply (TODIST k2); assumption | exact DN | |].
          - intros i Li P1 P2. destruct (id_ex k1 k2 i Li) as (a & Ia & <-). rewrite NB1 in P1 by exact Ia. rewrite NB2 in P2 by exact Ia.
            apply share_pos in P1. apply share_pos in P2. rewrite DP by auto. apply chord_refl.
          - intros i j k Li Lj Lk P1 P2 Q2 Q3. destruct (id_ex k1 k2 i Li) as (a & Ia & <-), (id_ex k1 k2 j Lj) as (b & Ib & <-), (id_ex k1 k2 k Lk) as (c & Ic & <-).
            rewrite NB1 in P1, P2 by assumption. rewrite NB2 in Q2, Q3 by assumption. apply share_pos in P1. apply share_pos in P2. apply share_pos in Q2. apply share_pos in Q3.
            rewrite !DP by auto. apply chord_triangle. }
        apply least_words in LC. revert LC. apply least_ext; [exact NB1 | exact NB2|]. intros a b Ia Ib PA PB. fold V in Ia, Ib. rewrite NB1 in PA by exact Ia. rewrite NB2 in PB by exact Ib.
        apply DP. left. split; apply share_pos; [pose proof (share_nonneg k1 a) | pose proof (share_nonneg k2 b)]; lra.
Qed.

(** The least cost does not depend on which further words are listed. *)
Lemma words_any : forall k1 k2 W D x, NoDup W -> incl (k1 ++ k2) W -> (least_cost (voc k1 k2) (share k1) (share k2) D x <-> least_cost W (share k1) (share k2) D x).
Proof.
  intros k1 k2 W D x ND IN. set (V := voc k1 k2). assert (VI : forall w, In w V <-> In w k1 \/ In w k2) by apply voc_in.
  set (R := filter (fun w => negb (memb w V)) W).
  assert (PM : Permutation W (V ++ R)).
  { apply NoDup_Permutation; [exact ND | |].
    - assert (NDV : NoDup V) by apply voc_nd. assert (NDR : NoDup R) by (apply NoDup_filter; exact ND).
      assert (DJ : forall w, In w V -> ~ In w R) by (intros w I J; apply filter_In in J; destruct J as (_ & J); apply negb_true_iff in J; rewrite memb_false in J; contradiction).
      clearbody R. clear -NDV NDR DJ. induction V as [|v V IH]; [exact NDR|]. apply NoDup_cons_iff in NDV. destruct NDV as (NI & NDV). cbn. constructor.
      + rewrite in_app_iff. intros [I|I]; [contradiction | exact (DJ v (or_introl eq_refl) I)].
      + apply IH; [exact NDV|]. intros w I. apply DJ. right. exact I.
    - intros w. rewrite in_app_iff. unfold R. rewrite filter_In, negb_true_iff, memb_false. split.
      + intros I. destruct (in_dec eq_dec w V); tauto.
      + intros [I|(I & _)]; [|exact I]. apply IN, in_or_app, VI. exact I. }
  assert (Z0 : forall w, In w R -> ~ In w k1 /\ ~ In w k2).
  { intros w I. apply filter_In in I. destruct I as (_ & J). apply negb_true_iff in J. rewrite memb_false, VI in J. tauto. }
  rewrite (least_app V R).
  - split; apply least_perm; [symmetry|]; exact PM.
  - apply (Permutation_NoDup PM ND).
  - intros a I. apply share_zero, Z0, I.
  - intros a I. apply share_zero, Z0, I.
Qed.

(** The value is the least cost of moving the shares of the known words of one document to those of the other, over any list of words
    with those of the documents. *)
Theorem wmd_exact : forall m row doc1 doc2 W, vectors_of m row -> usable d m row doc1 -> usable d m row doc2 ->
  apart d row (known m doc1) (known m doc2) \/ one_word (known m doc1) (known m doc2) ->
  NoDup W -> incl (known m doc1 ++ known m doc2) W ->
  exists x, wmdistance d emd m doc1 doc2 = Ok (Val x) /\ least_cost W (share (known m doc1)) (share (known m doc2)) (fun a b => chord d (row a) (row b)) x.
Proof.
  intros m row doc1 doc2 W V U1 U2 AP ND IN. destruct (wmd_cases m row doc1 doc2 V U1 U2) as [(_ & E & L)|[(NO & NA & _)|(_ & _ & x & E & L)]].
  - exists 0. split; [exact E|]. apply (words_any _ _ W) in L; assumption.
  - tauto.
  - exists x. split; [exact E|]. apply (words_any _ _ W) in L; assumption.
Qed.
Lemma wmd_value : forall m row doc1 doc2 x, vectors_of m row -> usable d m row doc1 -> usable d m row doc2 -> wmdistance d emd m doc1 doc2 = Ok (Val x) ->
  least_cost (voc (known m doc1) (known m doc2)) (share (known m doc1)) (share (known m doc2)) (DIST row) x.
Proof.
  intros m row doc1 doc2 x V U1 U2 E. destruct (wmd_cases m row doc1 doc2 V U1 U2) as [(_ & E' & L)|[(_ & _ & E')|(_ & _ & y & E' & L)]]; rewrite E in E'.
  - injection E' as ->. exact L.
  - discriminate.
  - injection E' as ->. exact L.
Qed.
(** Infinity: no known words on a side, or several words but no distance between the sides. *)
Theorem wmd_infinite : forall m row doc1 doc2, vectors_of m row -> (forall w, In w (known m (doc1 ++ doc2)) -> ~ zero_vec d (row w)) ->
  (wmdistance d emd m doc1 doc2 = Ok Inf <->
   known m doc1 = [] \/ known m doc2 = [] \/ (~ one_word (known m doc1) (known m doc2) /\ ~ apart d row (known m doc1) (known m doc2))).
Proof.
  intros m row doc1 doc2 V NZ. assert (K : known m (doc1 ++ doc2) = known m doc1 ++ known m doc2) by apply filter_app.
  destruct (known m doc1) as [|a l1] eqn:E1.
  { split; [auto|]. intros _. unfold wmdistance. rewrite !filter_known, E1 by apply V. reflexivity. }
  destruct (known m doc2) as [|b l2] eqn:E2.
  { split; [auto|]. intros _. unfold wmdistance. rewrite !filter_known, E1, E2 by apply V. reflexivity. }
  assert (U1 : usable d m row doc1) by (split; [congruence|]; intros w I; apply NZ; rewrite K; apply in_or_app; left; rewrite <- E1; exact I).
  assert (U2 : usable d m row doc2) by (split; [congruence|]; intros w I; apply NZ; rewrite K; apply in_or_app; right; rewrite <- E2; exact I).
  pose proof (wmd_cases m row doc1 doc2 V U1 U2) as C. cbv zeta in C. rewrite E1, E2 in C. destruct C as [(OW & E & _)|[(NO & NA & E)|(_ & AP & x & E & _)]]; rewrite E.
  - split; [discriminate|]. intros [?|[?|(NO & _)]]; [discriminate | discriminate | contradiction].
  - tauto.
  - split; [discriminate|]. intros [?|[?|(_ & NA)]]; [discriminate | discriminate | contradiction].
Qed.
Theorem wmd_symmetric : forall m row doc1 doc2, vectors_of m row -> (forall w, In w (known m (doc1 ++ doc2)) -> ~ zero_vec d (row w)) ->
  wmdistance d emd m doc1 doc2 = wmdistance d emd m doc2 doc1.
Proof.
  intros m row doc1 doc2 V NZ. assert (K : known m (doc1 ++ doc2) = known m doc1 ++ known m doc2) by apply filter_app.
  destruct (known m doc1) as [|a l1] eqn:E1.
  { unfold wmdistance. rewrite !filter_known, E1 by apply V. destruct (known m doc2); reflexivity. }
  destruct (known m doc2) as [|b l2] eqn:E2.
  { unfold wmdistance. rewrite !filter_known, E1, E2 by apply V. reflexivity. }
  assert (U1 : usable d m row doc1) by (split; [congruence|]; intros w I; apply NZ; rewrite K; apply in_or_app; left; rewrite <- E1; exact I).
  assert (U2 : usable d m row doc2) by (split; [congruence|]; intros w I; apply NZ; rewrite K; apply in_or_app; right; rewrite <- E2; exact I).
  assert (OS : forall k1 k2, one_word k1 k2 -> one_word k2 k1) by (intros k1 k2 (w & H); exists w; intros; apply H; tauto).
  assert (SS : forall x y, same_direction d x y -> same_direction d y x).
  { intros x y (c & C & H). exists (/ c). split; [apply Rinv_0_lt_compat; exact C|]. intros i L. rewrite H by exact L. field. lra. }
  assert (AS : forall k1 k2, apart d row k1 k2 -> apart d row k2 k1) by (intros k1 k2 (x & y & Ix & Iy & N); exists y, x; split; [exact Iy|]; split; [exact Ix|]; intros SD; apply N, SS, SD).
  destruct (wmd_cases m row doc1 doc2 V U1 U2) as [(OW & E & _)|[(NO & NA & E)|(NO & AP & x & E & LX)]];
  destruct (wmd_cases m row doc2 doc1 V U2 U1) as [(OW' & E' & _)|[(NO' & NA' & E')|(NO' & AP' & x' & E' & LX')]]; try (exfalso; auto; fail); rewrite E, E'; try reflexivity.
  f_equal. f_equal. apply (words_any _ _ (voc (known m doc1) (known m doc2))) in LX'.
  - apply least_sym in LX'; [|intros; apply chord_sym]. exact (glb_unique _ _ _ LX LX').
  - apply voc_nd.
  - intros w I. apply voc_in. apply in_app_or in I. tauto.
Qed.
Theorem wmd_bounds : forall m row doc1 doc2 x, vectors_of m row -> usable d m row doc1 -> usable d m row doc2 -> wmdistance d emd m doc1 doc2 = Ok (Val x) -> 0 <= x <= 2.
Proof.
  intros m row doc1 doc2 x V U1 U2 E. pose proof (wmd_value m row doc1 doc2 x V U1 U2 E) as L. destruct U1 as (N1 & Z1), U2 as (N2 & Z2).
  set (k1 := known m doc1) in *. set (k2 := known m doc2) in *. assert (VI := voc_in k1 k2). split.
  - apply (glb_ge _ x 0 L). intros c (T & PL & ->). apply cost_nonneg with (1 := PL). intros; apply chord_nonneg.
  - apply (least_bound _ _ _ _ x 2) with (4 := L).
    + apply share_dist; [apply voc_nd | intros w I; apply VI; auto | exact N1].
    + apply share_dist; [apply voc_nd | intros w I; apply VI; auto | exact N2].
    + intros a b Ia Ib. apply VI in Ia. apply VI in Ib. apply chord_2; [destruct Ia | destruct Ib]; auto.
Qed.
(** Only the shares of the known words count: not their order, not how often a document is repeated. *)
Theorem wmd_shares_only : forall m row doc1 doc1' doc2 doc2', vectors_of m row -> (forall w, In w (known m (doc1 ++ doc2)) -> ~ zero_vec d (row w)) ->
  (forall w, share (known m doc1) w = share (known m doc1') w) -> (forall w, share (known m doc2) w = share (known m doc2') w) ->
  wmdistance d emd m doc1 doc2 = wmdistance d emd m doc1' doc2'.
Proof.
  intros m row doc1 doc1' doc2 doc2' V NZ S1 S2. assert (K : known m (doc1 ++ doc2) = known m doc1 ++ known m doc2) by apply filter_app.
  assert (SUP : forall k k', (forall w, share k w = share k' w) -> (forall w, In w k <-> In w k')) by (intros k k' H w; rewrite <- !share_pos, H; tauto).
  assert (X1 := SUP _ _ S1). assert (X2 := SUP _ _ S2).
  assert (NIL : forall k k' : list pystr, (forall w, In w k <-> In w k') -> k = [] -> k' = []) by (intros k [|y k'] H ->; [reflexivity|]; destruct (proj2 (H y) (or_introl eq_refl))).
  destruct (list_eq_dec eq_dec (known m doc1) []) as [E1|E1].
  { unfold wmdistance. rewrite !filter_known by apply V. rewrite E1, (NIL _ _ X1 E1). reflexivity. }
  destruct (list_eq_dec eq_dec (known m doc2) []) as [E2|E2].
  { unfold wmdistance. rewrite !filter_known by apply V. rewrite E2, (NIL _ _ X2 E2). destruct (known m doc1), (known m doc1'); reflexivity. }
  assert (U1 : usable d m row doc1) by (split; [congruence|]; intros w I; apply NZ; rewrite K; apply in_or_app; left; exact I).
  assert (U2 : usable d m row doc2) by (split; [congruence|]; intros w I; apply NZ; rewrite K; apply in_or_app; right; exact I).
  assert (U1' : usable d m row doc1').
  { split; [intros E; apply E1; apply (NIL (known m doc1') (known m doc1)); [intros; symmetry; apply X1 | exact E]|]. intros w I. apply U1, X1, I. }
  assert (U2' : usable d m row doc2').
  { split; [intros E; apply E2; apply (NIL (known m doc2') (known m doc2)); [intros; symmetry; apply X2 | exact E]|]. intros w I. apply U2, X2, I. }
  assert (OE : one_word (known m doc1) (known m doc2) <-> one_word (known m doc1') (known m doc2')).
  { split; intros (w & H); exists w; intros a A; apply H; [rewrite X1, X2 | rewrite <- X1, <- X2]; exact A. }
  assert (AE : apart d row (known m doc1) (known m doc2) <-> apart d row (known m doc1') (known m doc2')).
  { split; intros (a & b & Ia & Ib & N); exists a, b; [rewrite <- X1, <- X2 | rewrite X1, X2]; auto. }
  destruct (wmd_cases m row doc1 doc2 V U1 U2) as [(OW & E & _)|[(NO & NA & E)|(NO & AP & x & E & LX)]];
  destruct (wmd_cases m row doc1' doc2' V U1' U2') as [(OW' & E' & _)|[(NO' & NA' & E')|(NO' & AP' & x' & E' & LX')]]; try (exfalso; tauto); rewrite E, E'; try reflexivity.
  f_equal. f_equal. apply (words_any _ _ (voc (known m doc1) (known m doc2))) in LX'.
  - apply (least_ext _ _ _ (share (known m doc1)) (share (known m doc2)) _ (DIST row)) in LX'; [exact (glb_unique _ _ _ LX LX') | intros; symmetry; apply S1 | intros; symmetry; apply S2 | reflexivity].
  - apply voc_nd.
  - intros w I. apply voc_in. apply in_app_or in I. rewrite X1, X2. exact I.
Qed.
Theorem wmd_same : forall m row doc1 doc2 x, vectors_of m row -> usable d m row doc1 -> usable d m row doc2 -> (forall w, share (known m doc1) w = share (known m doc2) w) ->
  wmdistance d emd m doc1 doc2 = Ok (Val x) -> x = 0.
Proof.
  intros m row doc1 doc2 x V U1 U2 S E. pose proof (wmd_value m row doc1 doc2 x V U1 U2 E) as L. refine (glb_unique _ _ _ L _).
  set (k1 := known m doc1) in *. set (k2 := known m doc2) in *.
  apply (least_ext _ (share k1) (share k1) _ _ (DIST row) (DIST row) 0); [reflexivity | intros; apply S | reflexivity|].
  apply least_same; [apply voc_nd | | intros; apply chord_nonneg | intros; apply chord_refl].
  apply share_dist; [apply voc_nd | intros w I; apply voc_in; auto | apply U1].
Qed.
Theorem wmd_triangle : forall m row doc1 doc2 doc3 x y z, vectors_of m row -> usable d m row doc1 -> usable d m row doc2 -> usable d m row doc3 ->
  wmdistance d emd m doc1 doc2 = Ok (Val x) -> wmdistance d emd m doc2 doc3 = Ok (Val y) -> wmdistance d emd m doc1 doc3 = Ok (Val z) -> z <= x + y.
Proof.
  intros m row doc1 doc2 doc3 x y z V U1 U2 U3 EX EY EZ.
  pose proof (wmd_value m row doc1 doc2 x V U1 U2 EX) as LX. pose proof (wmd_value m row doc2 doc3 y V U2 U3 EY) as LY. pose proof (wmd_value m row doc1 doc3 z V U1 U3 EZ) as LZ.
  set (k1 := known m doc1) in *. set (k2 := known m doc2) in *. set (k3 := known m doc3) in *.
  set (W := nodup (@eq_dec pystr _) (k1 ++ k2 ++ k3)). assert (ND : NoDup W) by apply NoDup_nodup.
  assert (IW : forall w, In w k1 \/ In w k2 \/ In w k3 -> In w W) by (intros w I; apply nodup_In; rewrite !in_app_iff; exact I).
  apply (words_any _ _ W) in LX; [|exact ND | intros w I; apply IW; apply in_app_or in I; tauto].
  apply (words_any _ _ W) in LY; [|exact ND | intros w I; apply IW; apply in_app_or in I; tauto].
  apply (words_any _ _ W) in LZ; [|exact ND | intros w I; apply IW; apply in_app_or in I; tauto].
  refine (least_triangle W (share k1) (share k2) (share k3) (DIST row) x y z _ _ LX LY LZ).
  - apply share_dist; [exact ND | intros w I; apply IW; auto | apply U2].
  - intros a b c _ _ _. apply chord_triangle.
Qed.

(** Two words, one per document. *)
Theorem wmd_single : forall m row a b, vectors_of m row -> In a (ks_keys m) -> In b (ks_keys m) -> ~ zero_vec d (row a) -> ~ zero_vec d (row b) -> ~ same_direction d (row a) (row b) ->
  wmdistance d emd m [a] [b] = Ok (Val (chord d (row a) (row b))).
Proof.
  intros m row a b V Ia Ib Za Zb NS.
  assert (KA : known m [a] = [a]) by (unfold known; cbn [filter]; unfold is_known; rewrite (proj2 (memb_true a (ks_keys m)) Ia); reflexivity).
  assert (KB : known m [b] = [b]) by (unfold known; cbn [filter]; unfold is_known; rewrite (proj2 (memb_true b (ks_keys m)) Ib); reflexivity).
  assert (NE : a <> b) by (intros ->; apply NS; exists 1; split; [lra | intros; ring]).
  assert (ND : NoDup [a; b]) by (constructor; [intros [E|[]]; congruence | constructor; [intros [] | constructor]]).
  destruct (wmd_exact m row [a] [b] [a; b] V) as (x & E & L).
  - rewrite ?KA. split; [rewrite KA; discriminate|]. rewrite KA. intros w [<-|[]]. exact Za.
  - split; [rewrite KB; discriminate|]. rewrite KB. intros w [<-|[]]. exact Zb.
  - left. rewrite KA, KB. exists a, b. cbn. auto.
  - exact ND.
  - rewrite KA, KB. apply incl_refl.
  - rewrite E. do 2 f_equal. rewrite KA, KB in L. refine (glb_unique _ _ _ L _).
    assert (SA : share [a] a = 1) by (unfold share; cbn [count_occ length]; destruct (eq_dec a a); [cbn [INR]; field | congruence]).
    assert (SB : share [b] b = 1) by (unfold share; cbn [count_occ length]; destruct (eq_dec b b); [cbn [INR]; field | congruence]).
    assert (SAB : share [a] b = 0) by (apply share_zero; intros [X|[]]; congruence). assert (SBA : share [b] a = 0) by (apply share_zero; intros [X|[]]; congruence).
    assert (ONE : forall T, plan [a; b] (share [a]) (share [b]) T -> cost [a; b] (fun a b => chord d (row a) (row b)) T = chord d (row a) (row b)).
    { intros T PL. assert (ia : In a [a; b]) by (left; reflexivity). assert (ib : In b [a; b]) by (right; left; reflexivity).
      pose proof (plan_zero _ _ _ T a a PL ia ia (or_intror SBA)) as T1. pose proof (plan_zero _ _ _ T b a PL ib ia (or_introl SAB)) as T2. pose proof (plan_zero _ _ _ T b b PL ib ib (or_introl SAB)) as T3.
      pose proof (proj1 (proj2 PL) a ia) as M. unfold cost. unfold Sum in M |- *. cbn [map fold_right] in M |- *. rewrite T1, T2, T3, SA in *. replace (T a b) with 1 by lra. ring. }
    split.
    + intros c (T & PL & ->). rewrite ONE by exact PL. apply Rle_refl.
    + intros y Y. apply Y. exists (fun a' b' => share [a] a' * share [b] b'). assert (PL : plan [a; b] (share [a]) (share [b]) (fun a' b' => share [a] a' * share [b] b')).
      { apply plan_product; apply share_dist; try exact ND; try discriminate; intros w [<-|[]]; [left | right; left]; reflexivity. }
      split; [exact PL | symmetry; apply ONE; exact PL].
Qed.

(** A distance of 0 means the same shares, if different words have different directions. *)
Lemma smallest : forall (l : list (pystr * pystr)) (f : pystr * pystr -> R), (forall x, In x l -> 0 < f x) -> exists e, 0 < e /\ forall x, In x l -> e <= f x.
Proof.
  induction l as [|x l IH]; intros f H; [exists 1; split; [lra | intros y []]|]. destruct (IH f (fun y Y => H y (or_intror Y))) as (e & E & L).
  exists (Rmin e (f x)). split; [apply Rmin_glb_lt; [exact E | apply H; left; reflexivity]|]. intros y [<-|I]; [apply Rmin_r|]. apply Rle_trans with e; [apply Rmin_l | apply L; exact I].
Qed.
Theorem wmd_separates : forall m row doc1 doc2 x, vectors_of m row -> usable d m row doc1 -> usable d m row doc2 ->
  (forall a b, In a (known m (doc1 ++ doc2)) -> In b (known m (doc1 ++ doc2)) -> same_direction d (row a) (row b) -> a = b) ->
  wmdistance d emd m doc1 doc2 = Ok (Val x) -> (x = 0 <-> forall w, share (known m doc1) w = share (known m doc2) w).
Proof.
  intros m row doc1 doc2 x V U1 U2 SEP E. split; [|intros S; exact (wmd_same m row doc1 doc2 x V U1 U2 S E)].
  intros X0. pose proof (wmd_value m row doc1 doc2 x V U1 U2 E) as L. replace (known m (doc1 ++ doc2)) with (known m doc1 ++ known m doc2) in SEP by (symmetry; apply filter_app).
  destruct U1 as (_ & Z1), U2 as (_ & Z2). set (k1 := known m doc1) in *. set (k2 := known m doc2) in *. set (W := voc k1 k2) in *. assert (VI : forall w, In w W <-> In w k1 \/ In w k2) by apply voc_in. assert (ND : NoDup W) by apply voc_nd.
  destruct (smallest (filter (fun ab => negb (eqb (fst ab) (snd ab))) (list_prod W W)) (fun ab => chord d (row (fst ab)) (row (snd ab)))) as (e & EP & EL).
  { intros (a, b) I. apply filter_In in I. destruct I as (I & N). apply in_prod_iff in I. destruct I as (Ia & Ib). cbn [fst snd] in *. apply negb_true_iff in N.
    destruct (chord_nonneg d (row a) (row b)) as [P|P]; [exact P|]. exfalso. symmetry in P. apply VI in Ia. apply VI in Ib.
    apply chord_0 in P; [|destruct Ia; auto | destruct Ib; auto]. apply SEP in P; [|apply in_or_app; exact Ia | apply in_or_app; exact Ib]. rewrite (proj2 (eqb_true a b) P) in N. discriminate. }
  assert (FAR : forall a b, In a W -> In b W -> a <> b -> e <= chord d (row a) (row b)).
  { intros a b Ia Ib N. apply (EL (a, b)). apply filter_In. split; [apply in_prod; assumption|]. cbn [fst snd]. apply negb_true_iff. destruct (eqb a b) eqn:Q; [|reflexivity]. rewrite eqb_true in Q. contradiction. }
  intros w. destruct (in_dec eq_dec w W) as [IW|NW].
  2:{ rewrite VI in NW. rewrite !share_zero by tauto. reflexivity. }
  destruct (Req_dec (share k1 w) (share k2 w)) as [Q|Q]; [exact Q|]. exfalso.
  assert (LOW : e * Rabs (share k1 w - share k2 w) <= x).
  { apply (glb_ge _ x _ L). intros c (T & PL & ->). pose proof PL as (TN & TP & TQ). pose proof (plan_le_p _ _ _ _ w w PL IW IW) as TLP. pose proof (plan_le_q _ _ _ _ w w PL IW IW) as TLQ.
    assert (G1 : e * (share k1 w - share k2 w) <= cost W (DIST row) T).
    { apply Rle_trans with (Sum W (fun b => T w b * DIST row w b)).
      - apply Rle_trans with (Sum W (fun b => e * T w b + (if eq_dec w b then - (e * T w w) else 0))).
        + rewrite Sum_plus, Sum_single, Sum_scal by assumption. replace (Sum W (T w)) with (share k1 w) by (symmetry; exact (TP w IW)). nra.
        + apply Sum_le. intros b Ib. specialize (TN w b IW Ib). destruct (eq_dec w b) as [<-|N]; [unfold DIST; rewrite chord_refl; lra|]. specialize (FAR w b IW Ib N). unfold DIST. nra.
      - apply (Sum_in W (fun a => Sum W (fun b => T a b * DIST row a b))); [|exact IW]. intros a Ia. apply Sum_nonneg. intros b Ib. apply Rmult_le_pos; [auto | apply chord_nonneg]. }
    assert (G2 : e * (share k2 w - share k1 w) <= cost W (DIST row) T).
    { unfold cost. rewrite Sum_swap. apply Rle_trans with (Sum W (fun a => T a w * DIST row a w)).
      - apply Rle_trans with (Sum W (fun a => e * T a w + (if eq_dec w a then - (e * T w w) else 0))).
        + rewrite Sum_plus, Sum_single by assumption. rewrite (Sum_scal e W (fun a => T a w)). rewrite (TQ w IW). nra.
        + apply Sum_le. intros a Ia. specialize (TN a w Ia IW). destruct (eq_dec w a) as [<-|N]; [unfold DIST; rewrite chord_refl; lra|]. specialize (FAR a w Ia IW (fun X => N (eq_sym X))). unfold DIST. nra.
      - apply (Sum_in W (fun b => Sum W (fun a => T a b * DIST row a b))); [|exact IW]. intros b Ib. apply Sum_nonneg. intros a Ia. apply Rmult_le_pos; [auto | apply chord_nonneg]. }
    unfold Rabs. destruct (Rcase_abs (share k1 w - share k2 w)); nra. }
  assert (0 < Rabs (share k1 w - share k2 w)) by (apply Rabs_pos_lt; lra). nra.
Qed.

(** Never below the distance of the averages of the unit vectors. *)
Theorem wmd_average : forall m row doc1 doc2 x, vectors_of m row -> usable d m row doc1 -> usable d m row doc2 -> wmdistance d emd m doc1 doc2 = Ok (Val x) ->
  let W := nodup eq_dec (known m doc1 ++ known m doc2) in
  norm_of d (fun i => average d W (share (known m doc1)) row i - average d W (share (known m doc2)) row i) <= x.
Proof.
  intros m row doc1 doc2 x V U1 U2 E W. pose proof (wmd_value m row doc1 doc2 x V U1 U2 E) as L. set (k1 := known m doc1) in *. set (k2 := known m doc2) in *.
  apply (words_any _ _ W) in L; [|apply NoDup_nodup | intros w I; apply nodup_In; exact I]. apply (glb_ge _ x _ L). intros c (T & PL & ->). destruct PL as (TN & TP & TQ).
  set (c := fun i => average d W (share k1) row i - average d W (share k2) row i). set (u := fun w i => row w i / norm_of d (row w)).
  assert (CI : forall i, c i = Sum W (fun a => Sum W (fun b => T a b * (u a i - u b i)))).
  { intros i. unfold c, average. rewrite (Sum_ext W (fun a => Sum W (fun b => T a b * (u a i - u b i))) (fun a => share k1 a * u a i + -1 * Sum W (fun b => T a b * u b i))).
    - rewrite Sum_plus, (Sum_scal (-1) W (fun a => Sum W (fun b => T a b * u b i))), (Sum_swap W W (fun a b => T a b * u b i)).
      rewrite (Sum_ext W (fun b => Sum W (fun a => T a b * u b i)) (fun b => share k2 b * u b i)); [|intros b Ib; rewrite (Sum_scal_r W (fun a => T a b)), TQ by exact Ib; reflexivity].
      unfold u. ring.
    - intros a Ia. rewrite <- (TP a Ia), <- (Sum_scal_r W (fun b => T a b)), <- (Sum_scal (-1) W (fun b => T a b * u b i)), <- Sum_plus. apply Sum_ext. intros; ring. }
  assert (NN : 0 <= norm_of d c) by apply sqrt_pos.
  assert (SQ : norm_of d c * norm_of d c <= cost W (DIST row) T * norm_of d c).
  { change (norm_of d c) with (vnorm d c). rewrite nrm_sq. unfold cost. rewrite <- Sum_scal_r.
    replace (dotv d c c) with (Sum W (fun a => Sum W (fun b => T a b * dotv d (fun i => u a i - u b i) c))).
    - apply Sum_le. intros a Ia. rewrite <- Sum_scal_r. apply Sum_le. intros b Ib. specialize (TN a b Ia Ib).
      pose proof (cs d (fun i => u a i - u b i) c) as CS. apply Rle_trans with (T a b * (DIST row a b * vnorm d c)); [|lra]. apply Rmult_le_compat_l; [exact TN|].
      apply Rle_trans with (1 := Rle_abs _). exact CS.
    - change (dotv d c c) with (Sum (seq 0 d) (fun i => c i * c i)).
      rewrite (Sum_ext (seq 0 d) (fun i => c i * c i) (fun i => Sum W (fun a => Sum W (fun b => T a b * ((u a i - u b i) * c i))))).
      + rewrite (Sum_swap (seq 0 d) W). apply Sum_ext. intros a Ia. rewrite (Sum_swap (seq 0 d) W). apply Sum_ext. intros b Ib. rewrite (Sum_scal (T a b) (seq 0 d)). reflexivity.
      + intros i _. rewrite (CI i) at 1. rewrite <- Sum_scal_r. apply Sum_ext. intros a _. rewrite <- Sum_scal_r. apply Sum_ext. intros; ring. }
  destruct NN as [P|P]; [apply (Rmult_le_reg_r (norm_of d c)); [exact P | exact SQ]|].
  change (norm_of d c <= cost W (DIST row) T). rewrite <- P. apply Sum_nonneg. intros a Ia. apply Sum_nonneg. intros b Ib. apply Rmult_le_pos; [auto | apply chord_nonneg].
Qed.
End Dim.
Print Assumptions wmd_exact.
Print Assumptions wmd_infinite.
Print Assumptions wmd_symmetric.
Print Assumptions wmd_bounds.
Print Assumptions wmd_shares_only.
Print Assumptions wmd_same.
Print Assumptions wmd_triangle.
Print Assumptions wmd_single.
Print Assumptions wmd_separates.
Print Assumptions wmd_average.

(** ** Examples *)
Definition rows (m : kvs) (w : pystr) : vec := match get_vector m w with Ok v => v | Err _ => fun _ => 0 end.
Lemma rows_ok : forall m, one_row_each m -> vectors_of m (rows m).
Proof. intros m O. split; [exact O|]. intros w I. destruct (row_known m w O I) as (v & RV). unfold rows. rewrite (proj2 (get_row m w v O) RV). exact RV. Qed.
Lemma rows_at : forall m w v, one_row_each m -> row_of m w v -> rows m w = v.
Proof. intros m w v O RV. unfold rows. rewrite (proj2 (get_row m w v O) RV). reflexivity. Qed.
Definition east : pystr := str "east".
Definition north : pystr := str "north".
Definition between : pystr := str "between".
Lemma rows_three : rows three east = v2 1 0 /\ rows three north = v2 0 2 /\ rows three between = v2 3 4.
Proof. split; [apply rows_at; [exact three_ok | exact row_east]|]. split; apply rows_at; try exact three_ok; [exact row_north | exact row_between]. Qed.
Lemma nz_three : forall w, In w [east; north; between] -> ~ zero_vec 2 (rows three w).
Proof. destruct rows_three as (E & N & B). intros w [<-|[<-|[<-|[]]]]; [rewrite E | rewrite N | rewrite B]; apply nz_v2; lra. Qed.
Lemma usable_three : forall doc, known three doc <> [] -> usable 2 three (rows three) doc.
Proof. intros doc NE. split; [exact NE|]. intros w I. apply nz_three. exact (known_key three doc w I). Qed.
Lemma apart_en : ~ same_direction 2 (rows three east) (rows three north).
Proof.
  destruct rows_three as (-> & -> & _). intros (c & C & H). pose proof (H 1%nat ltac:(lia)) as H1. cbn in H1. lra.
Qed.

Example wmd_single_ex : forall emd, emd_correct emd -> wmdistance 2 emd three [east] [north] = Ok (Val (sqrt 2)).
Proof.
  intros emd C. rewrite (wmd_single 2 emd C three (rows three) east north (rows_ok three three_ok)); [| left; reflexivity | right; left; reflexivity | apply nz_three; cbn; auto | apply nz_three; cbn; auto | exact apart_en].
  do 2 f_equal. destruct rows_three as (-> & -> & _). apply Rsqr_inj; [apply chord_nonneg | apply sqrt_pos|]. unfold Rsqr. rewrite sqrt_sqrt by lra.
  rewrite chord_sq by (apply nz_v2; lra). rewrite cos_en. ring.
Qed.
Definition doc_a : list pystr := [east; str "nowhere"; east; north].
Definition doc_b : list pystr := [between; north].
Lemma known_a : known three doc_a = [east; east; north]. Proof. reflexivity. Qed.
Lemma known_b : known three doc_b = [between; north]. Proof. reflexivity. Qed.
Lemma ab_apart : apart 2 (rows three) (known three doc_a) (known three doc_b).
Proof. exists east, north. rewrite known_a, known_b. split; [left; reflexivity|]. split; [right; left; reflexivity | exact apart_en]. Qed.
Lemma ab_value : forall emd, emd_correct emd -> exists x, wmdistance 2 emd three doc_a doc_b = Ok (Val x) /\
  least_cost [north; between; east] (share [east; east; north]) (share [between; north]) (fun a b => chord 2 (rows three a) (rows three b)) x.
Proof.
  intros emd C. destruct (wmd_exact 2 emd C three (rows three) doc_a doc_b [north; between; east] (rows_ok three three_ok)) as (x & E & L).
  - apply usable_three. rewrite known_a. discriminate.
  - apply usable_three. rewrite known_b. discriminate.
  - left. exact ab_apart.
  - repeat constructor; cbn; intros H; repeat (destruct H as [H|H]; [discriminate|]); exact H.
  - rewrite known_a, known_b. intros w H. cbn in H |- *. tauto.
  - exists x. split; [exact E | exact L].
Qed.
Example wmd_exact_ex : forall emd, emd_correct emd -> exists x, wmdistance 2 emd three doc_a doc_b = Ok (Val x) /\ 0 < x <= 2.
Proof.
  intros emd C. destruct (ab_value emd C) as (x & E & _). exists x. split; [exact E|].
  assert (UA : usable 2 three (rows three) doc_a) by (apply usable_three; rewrite known_a; discriminate). assert (UB : usable 2 three (rows three) doc_b) by (apply usable_three; rewrite known_b; discriminate).
  pose proof (wmd_bounds 2 emd C three (rows three) doc_a doc_b x (rows_ok _ three_ok) UA UB E) as (B0 & B2). split; [|exact B2].
  destruct B0 as [P|P]; [exact P|]. exfalso. symmetry in P. revert P. 
  assert (SEP : forall a b, In a (known three (doc_a ++ doc_b)) -> In b (known three (doc_a ++ doc_b)) -> same_direction 2 (rows three a) (rows three b) -> a = b).
  { assert (G : forall w, In w (known three (doc_a ++ doc_b)) -> w = east \/ w = north \/ w = between).
    { intros w I. apply known_key in I. destruct I as [<-|[<-|[<-|[]]]]; auto. }
    destruct rows_three as (RE & RN & RB). intros a b Ia Ib (c & Cp & H). pose proof (H 0%nat ltac:(lia)) as H0. pose proof (H 1%nat ltac:(lia)) as H1.
    destruct (G a Ia) as [->|[->| ->]], (G b Ib) as [->|[->| ->]]; try reflexivity; rewrite ?RE, ?RN, ?RB in H0, H1; cbn in H0, H1; exfalso; lra. }
  rewrite (wmd_separates 2 emd C three (rows three) doc_a doc_b x (rows_ok _ three_ok) UA UB SEP E). rewrite known_a, known_b. intros S. specialize (S east).
  assert (S0 : share [between; north] east = 0) by (apply share_zero; intros [X|[X|[]]]; discriminate X). assert (S1 : 0 < share [east; east; north] east) by (apply share_pos; left; reflexivity). lra.
Qed.
Example wmd_shares_only_ex : forall emd, emd_correct emd -> wmdistance 2 emd three doc_a doc_b = wmdistance 2 emd three [north; east; east; east; north; east] (doc_b ++ rev doc_b).
Proof.
  intros emd C. apply (wmd_shares_only 2 emd C three (rows three)); [exact (rows_ok _ three_ok) | | |].
  - intros w I. apply nz_three. exact (known_key _ _ _ I).
  - intros w. change (known three [north; east; east; east; north; east]) with [north; east; east; east; north; east]. rewrite known_a. unfold share. cbn [count_occ length].
    destruct (eq_dec east w), (eq_dec north w); cbn [INR]; field.
  - intros w. change (known three (doc_b ++ rev doc_b)) with [between; north; north; between]. rewrite known_b. unfold share. cbn [count_occ length].
    destruct (eq_dec between w), (eq_dec north w); cbn [INR]; field.
Qed.
Example wmd_infinite_ex : forall emd, emd_correct emd -> wmdistance 2 emd three doc_a [str "nowhere"; str "anywhere"] = Ok Inf.
Proof.
  intros emd C. apply (wmd_infinite 2 emd C three (rows three)); [exact (rows_ok _ three_ok) | | right; left; reflexivity].
  intros w I. apply nz_three. exact (known_key _ _ _ I).
Qed.
(** An average of the distances does not obey the triangle inequality by itself; the least cost does. *)
Example wmd_triangle_ex : forall emd x y, emd_correct emd -> wmdistance 2 emd three [east] doc_a = Ok (Val x) -> wmdistance 2 emd three doc_a [north] = Ok (Val y) -> sqrt 2 <= x + y.
Proof.
  intros emd x y C EX EY. apply (wmd_triangle 2 emd C three (rows three) [east] doc_a [north] x y (sqrt 2) (rows_ok _ three_ok)); [| | | exact EX | exact EY | apply wmd_single_ex; exact C];
    apply usable_three; discriminate.
Qed.

(** ** A document may be infinitely far from itself *)
Definition twins : kvs := kvs_of [(str "cat", v2 1 0); (str "kitten", v2 2 0)].
Theorem wmd_self_refuted : exists m row doc, vectors_of m row /\ usable 2 m row doc /\ incl doc (ks_keys m) /\
  forall emd, emd_correct emd -> wmdistance 2 emd m doc doc = Ok Inf /\ least_cost doc (share doc) (share doc) (fun a b => chord 2 (row a) (row b)) 0.
Proof.
  assert (O : one_row_each twins).
  { apply kvs_of_ok. cbn. constructor; [intros [X|[]]; discriminate X|]. constructor; [intros [] | constructor]. }
  assert (RC : rows twins (str "cat") = v2 1 0) by (apply rows_at; [exact O|]; exists 0%nat; split; reflexivity).
  assert (RK : rows twins (str "kitten") = v2 2 0) by (apply rows_at; [exact O|]; exists 1%nat; split; reflexivity).
  assert (NZ : forall w, In w (ks_keys twins) -> ~ zero_vec 2 (rows twins w)).
  { intros w [<-|[<-|[]]]; [change (~ zero_vec 2 (rows twins (str "cat"))); rewrite RC | change (~ zero_vec 2 (rows twins (str "kitten"))); rewrite RK]; apply nz_v2; lra. }
  exists twins, (rows twins), [str "cat"; str "kitten"]. split; [exact (rows_ok _ O)|]. split; [split; [discriminate | intros w I; apply NZ; exact (known_key _ _ _ I)]|]. split; [apply incl_refl|].
  intros emd C. change (known twins [str "cat"; str "kitten"]) with [str "cat"; str "kitten"]. split.
  - apply (wmd_infinite 2 emd C twins (rows twins)); [exact (rows_ok _ O) | intros w I; apply NZ; exact (known_key _ _ _ I)|]. right. right.
    change (known twins [str "cat"; str "kitten"]) with [str "cat"; str "kitten"]. split.
    + intros (w & H). assert (A : str "cat" = w) by (apply H; cbn; auto). assert (B : str "kitten" = w) by (apply H; cbn; auto). rewrite <- A in B. discriminate B.
    + intros (a & b & Ia & Ib & N). apply N. destruct Ia as [<-|[<-|[]]], Ib as [<-|[<-|[]]]; rewrite ?RC, ?RK; [exists 1 | exists 2 | exists (1 / 2) | exists 1]; (split; [lra|]; intros [|[|i]] L; cbn; lra).
  - apply least_same; [| | intros; apply chord_nonneg | intros; apply chord_refl].
    + constructor; [intros [X|[]]; discriminate X|]. constructor; [intros [] | constructor].
    + apply share_dist; [|apply incl_refl | discriminate]. constructor; [intros [X|[]]; discriminate X|]. constructor; [intros [] | constructor].
Qed.
Print Assumptions wmd_self_refuted.
