(** Properties of cosine similarity, Hellinger distance and unit vectors. *)

From Verif Require Import Base MatReal_Model MatReal_Proofs.
From Coq Require Import Reals Lra Psatz.
Local Open Scope R_scope.

(** ** cossim *)

Theorem cossim_bounded : forall x y q, cossim x y = Ok q -> -1 <= q <= 1.
Proof. exact cossim_bound. Qed.
Print Assumptions cossim_bounded.

Theorem cossim_symmetric : forall x y, cossim x y = cossim y x.
Proof.
  intros x y. pose proof (cossim_cases x y) as (C1 & C2 & C3). pose proof (cossim_cases y x) as (D1 & D2 & D3). cbv zeta in *.
  set (a := dict_of x) in *. set (b := dict_of y) in *.
  assert (Na : NoDup (map fst a)) by apply NoDup_dict_of. assert (Nb : NoDup (map fst b)) by apply NoDup_dict_of.
  assert (DA : a = [] \/ a <> []) by (destruct a; [left|right]; congruence).
  assert (DB : b = [] \/ b <> []) by (destruct b; [left|right]; congruence).
  destruct DA as [EA|EA]; [rewrite C1, D1 by auto; reflexivity|].
  destruct DB as [EB|EB]; [rewrite C1, D1 by auto; reflexivity|].
  destruct (Rlt_dec 0 (sumsq (dvals a))); [|rewrite C3, D3 by tauto; reflexivity].
  destruct (Rlt_dec 0 (sumsq (dvals b))); [|rewrite C3, D3 by tauto; reflexivity].
  rewrite C2, D2 by auto. rewrite (dot_sym a b) by auto. rewrite (Rmult_comm (sqrt _)). reflexivity.
Qed.
Print Assumptions cossim_symmetric.

Theorem cossim_self_one : forall x, NoDup (map fst x) -> (exists i w, In (i, w) x /\ w <> 0) -> cossim x x = Ok 1.
Proof.
  intros x ND (i & w & HI & NZ). pose proof (cossim_cases x x) as (_ & C2 & _). cbv zeta in C2.
  rewrite (dict_of_NoDup x ND) in C2.
  assert (P : 0 < sumsq (dvals x)) by (apply sumsq_pos; exists w; split; auto; apply (in_map snd) in HI; exact HI).
  rewrite C2; auto; [|intros ->; destruct HI|intros ->; destruct HI].
  f_equal. rewrite dot_self by auto. unfold dvals in *. rewrite sqrt_sqrt by lra. field. lra.
Qed.
Print Assumptions cossim_self_one.

(** The assertion fires exactly for a non-empty all-zero vector against a non-empty vector. *)
Theorem cossim_error_iff : forall x y, NoDup (map fst x) -> NoDup (map fst y) ->
  ((exists e, cossim x y = Err e) <->
   x <> [] /\ y <> [] /\ ((forall i w, In (i, w) x -> w = 0) \/ (forall i w, In (i, w) y -> w = 0))).
Proof.
  intros x y Nx Ny. pose proof (cossim_cases x y) as (C1 & C2 & C3). cbv zeta in *.
  rewrite (dict_of_NoDup x Nx) in *. rewrite (dict_of_NoDup y Ny) in *.
  assert (Z : forall v : rbow, ~ 0 < sumsq (dvals v) <-> forall i w, In (i, w) v -> w = 0).
  { intros v. split.
    - intros NP i w HI. destruct (Req_dec w 0); auto. exfalso. apply NP. apply sumsq_pos. exists w. split; auto.
      apply (in_map snd) in HI. exact HI.
    - intros Hz P. apply sumsq_pos in P. destruct P as (w & Hw & NZ). apply in_map_iff in Hw.
      destruct Hw as ([i u] & E & HI). cbn in E. subst u. apply NZ. eapply Hz; eauto. }
  split.
  - intros [e E].
    assert (DX : x = [] \/ x <> []) by (destruct x; [left|right]; congruence).
    assert (DY : y = [] \/ y <> []) by (destruct y; [left|right]; congruence).
    destruct DX as [EX|EX]; [rewrite C1 in E by auto; discriminate|].
    destruct DY as [EY|EY]; [rewrite C1 in E by auto; discriminate|].
    split; auto. split; auto.
    destruct (Rlt_dec 0 (sumsq (dvals x))) as [P1|P1]; [|left; apply Z; auto].
    destruct (Rlt_dec 0 (sumsq (dvals y))) as [P2|P2]; [|right; apply Z; auto].
    rewrite C2 in E by auto. discriminate.
  - intros (EX & EY & HZ). exists AssertionErr. apply C3; auto. intros [P1 P2].
    destruct HZ as [HZ|HZ]; apply Z in HZ; contradiction.
Qed.
Print Assumptions cossim_error_iff.

(** Only directions matter. *)
Theorem cossim_scale_invariant : forall k x y, 0 < k -> NoDup (map fst x) ->
  cossim (map (fun iw => (fst iw, k * snd iw)) x) y = cossim x y.
Proof.
  intros k x y Hk Nx. set (kx := map _ x).
  assert (Kk : map fst kx = map fst x) by (unfold kx; rewrite map_map; reflexivity).
  pose proof (cossim_cases kx y) as (C1 & C2 & C3). pose proof (cossim_cases x y) as (D1 & D2 & D3). cbv zeta in *.
  rewrite (dict_of_NoDup kx) in * by (rewrite Kk; exact Nx). rewrite (dict_of_NoDup x Nx) in *. set (b := dict_of y) in *.
  assert (SQ : sumsq (dvals kx) = k ^ 2 * sumsq (dvals x)).
  { unfold sumsq, dvals, kx. rewrite !map_map, <- Rsum_scal. apply Rsum_ext. intros [i w] _. cbn. ring. }
  assert (DT : dot kx b = k * dot x b).
  { unfold dot, kx. rewrite !map_map, <- Rsum_scal. apply Rsum_ext. intros [i w] _. cbn [fst snd]. ring. }
  assert (DX : kx = [] <-> x = []) by (unfold kx; destruct x; split; intros; cbn in *; congruence).
  assert (DX' : x = [] \/ x <> []) by (destruct x; [left|right]; congruence).
  assert (DB : b = [] \/ b <> []) by (destruct b; [left|right]; congruence).
  destruct DX' as [EX|EX]; [rewrite C1 by (left; apply DX; exact EX); rewrite D1 by auto; reflexivity|].
  destruct DB as [EB|EB]; [rewrite C1, D1 by auto; reflexivity|].
  assert (PS : 0 < sumsq (dvals kx) <-> 0 < sumsq (dvals x)).
  { rewrite SQ. assert (K2 : 0 < k ^ 2) by (apply pow_lt; exact Hk). split; intros H.
    - apply Rmult_lt_reg_l with (k ^ 2); [exact K2|]. rewrite Rmult_0_r. exact H.
    - apply Rmult_lt_0_compat; auto. }
  assert (EK : kx <> []) by (intros E; apply EX, DX, E).
  destruct (Rlt_dec 0 (sumsq (dvals x))) as [P1|P1].
  2:{ rewrite C3 by (auto; intros [P _]; apply P1, PS, P). rewrite D3 by (auto; intros [P _]; exact (P1 P)). reflexivity. }
  destruct (Rlt_dec 0 (sumsq (dvals b))) as [P2|P2].
  2:{ rewrite C3 by (auto; intros [_ P]; exact (P2 P)). rewrite D3 by (auto; intros [_ P]; exact (P2 P)). reflexivity. }
  rewrite C2 by (auto; apply PS; exact P1). rewrite D2 by auto.
  f_equal. rewrite SQ, DT, sqrt_mult by (apply pow2_ge_0 || apply sumsq_nonneg).
  rewrite sqrt_pow2 by lra. pose proof (sqrt_lt_R0 _ P1). pose proof (sqrt_lt_R0 _ P2). field. repeat split; lra.
Qed.
Print Assumptions cossim_scale_invariant.

Example cossim_ex : cossim [(0%Z, 3); (7%Z, 4)] [(7%Z, 2); (1%Z, 0)] = Ok (4 / 5).
Proof.
  unfold cossim, sumsq, Rsum, dget_or. cbn.
  replace (3 * 3 + (4 * 4 + 0)) with (5 ^ 2) by ring. replace (2 * 2 + (0 * 0 + 0)) with (2 ^ 2) by ring.
  rewrite !sqrt_pow2 by lra. destruct (Rlt_dec 0 (1 * 5)); [|lra]. destruct (Rlt_dec 0 (1 * 2)); [|lra]. f_equal. field.
Qed.

(** ** hellinger *)

Lemma enumerates_dict_of : forall I x y, enumerates I x y <-> enumerates I (dict_of x) (dict_of y).
Proof.
  intros I x y. unfold enumerates. split; intros [N H]; split; auto; intros i; rewrite H.
  - rewrite <- (In_dkeys_dict_of x i), <- (In_dkeys_dict_of y i). reflexivity.
  - pose proof (In_dkeys_dict_of x i). pose proof (In_dkeys_dict_of y i). unfold dkeys in *. tauto.
Qed.

(** The unspecified iteration order of the id set does not matter, and neither does the order of the arguments. *)
Theorem hellinger_symmetric : forall I J x y, enumerates I x y -> enumerates J y x -> hellinger I x y = hellinger J y x.
Proof.
  intros I J x y HI HJ. rewrite !hellinger_eq. do 2 f_equal.
  assert (HJ' : enumerates J x y) by (destruct HJ as [N H]; split; auto; intros i; rewrite H; tauto).
  rewrite (hell_perm I J) by (eapply enumerates_perm; eauto). apply hell_sym.
Qed.
Print Assumptions hellinger_symmetric.

Theorem hellinger_range : forall I x y, NoDup (map fst x) -> NoDup (map fst y) -> enumerates I x y ->
  (forall i w, In (i, w) (x ++ y) -> 0 <= w) -> Rsum (map snd x) = 1 -> Rsum (map snd y) = 1 ->
  0 <= hellinger I x y <= 1.
Proof.
  intros I x y Nx Ny E P Sx Sy. rewrite hellinger_eq, !dict_of_NoDup by auto. split; [apply sqrt_pos|].
  apply Rle_trans with (sqrt 1); [apply sqrt_le_1_alt | rewrite sqrt_1; lra].
  assert (hell I x y <= Rsum (map snd x) + Rsum (map snd y)); [|lra].
  apply hell_le; auto; intros i w HI; apply (P i w), in_app_iff; auto.
Qed.
Print Assumptions hellinger_range.

Theorem hellinger_zero_iff : forall I x y, NoDup (map fst x) -> NoDup (map fst y) -> enumerates I x y ->
  (forall i w, In (i, w) (x ++ y) -> 0 <= w) ->
  (hellinger I x y = 0 <-> forall i, dget_or x i 0 = dget_or y i 0).
Proof.
  intros I x y Nx Ny E P. rewrite hellinger_eq, !dict_of_NoDup by auto.
  assert (Px : rnonneg x) by (intros i w HI; apply (P i w), in_app_iff; auto).
  assert (Py : rnonneg y) by (intros i w HI; apply (P i w), in_app_iff; auto).
  split.
  - intros Z i. apply sqrt_eq_0 in Z; [|pose proof (hell_nonneg I x y); lra].
    destruct (in_dec eq_dec i I) as [HI|NI].
    + assert (Q : (sqrt (at_ x i) - sqrt (at_ y i)) ^ 2 = 0).
      { apply (Rsum_zero (map (fun i => (sqrt (at_ x i) - sqrt (at_ y i)) ^ 2) I)).
        - intros q Hq. apply in_map_iff in Hq. destruct Hq as (k & <- & _). apply pow2_ge_0.
        - fold (hell I x y). lra.
        - apply (in_map (fun i => (sqrt (at_ x i) - sqrt (at_ y i)) ^ 2)); exact HI. }
      apply sqrt_inj; [apply at_nonneg; auto | apply at_nonneg; auto|]. fold (at_ x i). fold (at_ y i).
      destruct (Req_dec (sqrt (at_ x i)) (sqrt (at_ y i))) as [|NE]; auto. exfalso.
      assert (0 < (sqrt (at_ x i) - sqrt (at_ y i)) ^ 2); [|lra]. rewrite <- Rsqr_pow2. apply Rsqr_pos_lt. lra.
    + destruct E as [_ E]. rewrite E in NI. unfold dget_or.
      replace (dget x i) with (@None R) by (symmetry; apply dget_None; unfold dkeys; tauto).
      replace (dget y i) with (@None R) by (symmetry; apply dget_None; unfold dkeys; tauto). reflexivity.
  - intros H. replace (hell I x y) with 0; [rewrite Rmult_0_r; apply sqrt_0|].
    unfold hell, at_. rewrite (Rsum_ext _ (fun _ => 0 * 1)).
    + rewrite (Rsum_scal (fun _ => 1) 0). lra.
    + intros i _. rewrite H. ring.
Qed.
Print Assumptions hellinger_zero_iff.

(** The triangle inequality: it is a metric on non-negative vectors. *)
Theorem hellinger_triangle : forall I J K x y z, enumerates I x z -> enumerates J x y -> enumerates K y z ->
  hellinger I x z <= hellinger J x y + hellinger K y z.
Proof.
  intros I J K x y z HI HJ HK. rewrite enumerates_dict_of in HI, HJ, HK. rewrite !hellinger_eq.
  set (a := dict_of x) in *. set (b := dict_of y) in *. set (c := dict_of z) in *.
  set (U := nodup eq_dec (map fst a ++ map fst b ++ map fst c)).
  assert (NU : NoDup U) by apply NoDup_nodup.
  assert (InU : forall i, In i U <-> In i (map fst a) \/ In i (map fst b) \/ In i (map fst c)).
  { intros i. unfold U. rewrite nodup_In, !in_app_iff. reflexivity. }
  assert (Z0 : forall (d : rbow) i, ~ In i (map fst d) -> at_ d i = 0).
  { intros d i NI. unfold at_, dget_or. replace (dget d i) with (@None R); [reflexivity|]. symmetry. apply dget_None; exact NI. }
  assert (EX : forall L p q, enumerates L p q -> incl (map fst p) U -> incl (map fst q) U -> hell L p q = hell U p q).
  { intros L p q [NL HL] I1 I2. apply hell_incl; auto.
    - intros i Hi. apply HL in Hi. destruct Hi; auto.
    - intros i _ NI. rewrite HL in NI. split; apply Z0; tauto. }
  rewrite (EX I a c HI), (EX J a b HJ), (EX K b c HK) by (intros i Hi; apply InU; tauto).
  rewrite !sqrt_mult by (try lra; apply hell_nonneg). rewrite <- Rmult_plus_distr_l.
  apply Rmult_le_compat_l; [apply sqrt_pos|]. unfold hell.
  rewrite (Rsum_ext (fun i => (sqrt (at_ a i) - sqrt (at_ c i)) ^ 2)
             (fun i => ((sqrt (at_ a i) - sqrt (at_ b i)) + (sqrt (at_ b i) - sqrt (at_ c i))) ^ 2))
    by (intros; ring).
  apply (minkowski (fun i => sqrt (at_ a i) - sqrt (at_ b i)) (fun i => sqrt (at_ b i) - sqrt (at_ c i))).
Qed.
Print Assumptions hellinger_triangle.

(** Disjoint distributions are at distance exactly 1. *)
Example hellinger_ex : hellinger [2; 0]%Z [(0%Z, 1)] [(2%Z, 1)] = 1.
Proof.
  rewrite hellinger_eq. unfold hell, at_, dget_or, Rsum. cbn. rewrite sqrt_1, sqrt_0.
  match goal with |- sqrt ?t = 1 => replace t with 1 by lra end. apply sqrt_1.
Qed.

Theorem hellinger_dense_range : forall x y, length x = length y ->
  (forall w, In w (x ++ y) -> 0 <= w) -> Rsum x = 1 -> Rsum y = 1 ->
  exists q, hellinger_dense x y = Ok q /\ hellinger_dense y x = Ok q /\ 0 <= q <= 1.
Proof.
  intros x y L P Sx Sy. unfold hellinger_dense. rewrite L, Nat.eqb_refl. eexists. split; [reflexivity|]. split.
  - f_equal. do 2 f_equal. clear - L. revert y L. induction x as [|a x IH]; intros [|b y] L; try discriminate; [reflexivity|].
    cbn [combine map fst snd]. rewrite !Rsum_cons, (IH y) by (injection L; auto). ring.
  - split; [apply sqrt_pos|]. apply Rle_trans with (sqrt 1); [apply sqrt_le_1_alt | rewrite sqrt_1; lra].
    assert (Rsum (map (fun xy => (sqrt (fst xy) - sqrt (snd xy)) ^ 2) (combine x y)) <= Rsum x + Rsum y); [|lra].
    clear Sx Sy. revert y L P. induction x as [|a x IH]; intros [|b y] L P; try discriminate; [cbn; lra|].
    cbn [combine map fst snd]. rewrite !Rsum_cons.
    assert (A0 : 0 <= a) by (apply P; simpl; auto). assert (B0 : 0 <= b) by (apply P; apply in_app_iff; simpl; auto).
    specialize (IH y ltac:(injection L; auto)).
    assert (IH' : Rsum (map (fun xy => (sqrt (fst xy) - sqrt (snd xy)) ^ 2) (combine x y)) <= Rsum x + Rsum y).
    { apply IH. intros w Hw. apply P. apply in_app_iff in Hw. cbn. rewrite in_app_iff. cbn. tauto. }
    pose proof (sqrt_sqrt _ A0) as SA. pose proof (sqrt_sqrt _ B0) as SB.
    pose proof (sqrt_pos a). pose proof (sqrt_pos b). nra.
Qed.
Print Assumptions hellinger_dense_range.

Example hellinger_dense_ex : hellinger_dense [1; 0] [0; 1] = Ok 1.
Proof.
  unfold hellinger_dense, Rsum. cbn. rewrite sqrt_1, sqrt_0. f_equal.
  match goal with |- sqrt ?t = 1 => replace t with 1 by lra end. apply sqrt_1.
Qed.

(** ** unitvec *)

(** Bags: l2 and l1 normalisation give norm exactly 1, keep ids and directions, and report the old norm. *)
Theorem unitvec_bow_l2 : forall x i w, In (i, w) x -> w <> 0 ->
  exists v len, unitvec_bow x L2 = Ok (v, len) /\ 0 < len /\ map fst v = map fst x /\
    (forall j u, In (j, u) x -> In (j, u / len) v) /\ Rsum (map (fun ju => snd ju ^ 2) v) = 1 /\
    len ^ 2 = Rsum (map (fun ju => snd ju ^ 2) x).
Proof.
  intros x i w HI NZ. unfold unitvec_bow. destruct x as [|p x']; [destruct HI|]. set (x := p :: x') in *.
  set (S := Rsum (map (fun iv => snd iv ^ 2) x)).
  assert (ES : S = sumsq (map snd x)) by (unfold S, sumsq; rewrite map_map; apply Rsum_ext; intros; ring).
  assert (PS : 0 < S) by (rewrite ES; apply sumsq_pos; exists w; split; auto; apply (in_map snd) in HI; exact HI).
  rewrite Rmult_1_l. pose proof (sqrt_lt_R0 _ PS) as PL. destruct (Rlt_dec 0 (sqrt S)) as [_|N]; [|contradiction].
  eexists _, _. split; [reflexivity|]. rewrite ret_normalized_eq. split; [exact PL|].
  split; [rewrite map_map; reflexivity|]. split; [|split].
  - intros j u Hj. apply in_map_iff. exists (j, u). auto.
  - rewrite map_map. cbn [snd]. rewrite (Rsum_ext _ (fun iv : Z * R => (1 / S) * snd iv ^ 2)).
    + rewrite Rsum_scal. fold S. field. lra.
    + intros [j u] _. cbn [snd]. rewrite <- (sqrt_sqrt S) at 2 by lra. field. lra.
  - rewrite <- Rsqr_pow2. apply Rsqr_sqrt. lra.
Qed.
Print Assumptions unitvec_bow_l2.

Theorem unitvec_bow_l1 : forall x i w, In (i, w) x -> w <> 0 ->
  exists v len, unitvec_bow x L1 = Ok (v, len) /\ 0 < len /\ map fst v = map fst x /\
    (forall j u, In (j, u) x -> In (j, u / len) v) /\ Rsum (map (fun ju => Rabs (snd ju)) v) = 1 /\
    len = Rsum (map (fun ju => Rabs (snd ju)) x).
Proof.
  intros x i w HI NZ. unfold unitvec_bow. destruct x as [|p x']; [destruct HI|]. set (x := p :: x') in *.
  set (S := Rsum (map (fun iv => Rabs (snd iv)) x)).
  assert (NN : forall q, In q (map (fun iv : Z * R => Rabs (snd iv)) x) -> 0 <= q).
  { intros q Hq. apply in_map_iff in Hq. destruct Hq as (y & <- & _). apply Rabs_pos. }
  assert (PS : 0 < S).
  { destruct (Rle_lt_or_eq_dec _ _ (Rsum_nonneg _ NN)) as [|E]; [assumption|]. exfalso.
    assert (Rabs w = 0).
    { apply (Rsum_zero _ NN); [symmetry; exact E|]. apply (in_map (fun iv : Z * R => Rabs (snd iv))) in HI. exact HI. }
    apply Rabs_no_R0 in NZ. contradiction. }
  destruct (Rlt_dec 0 S) as [_|N]; [|contradiction].
  eexists _, _. split; [reflexivity|]. rewrite ret_normalized_eq. split; [exact PS|].
  split; [rewrite map_map; reflexivity|]. split; [|split; [|reflexivity]].
  - intros j u Hj. apply in_map_iff. exists (j, u). auto.
  - rewrite map_map. cbn [snd]. rewrite (Rsum_ext _ (fun iv : Z * R => (1 / S) * Rabs (snd iv))).
    + rewrite Rsum_scal. fold S. field. lra.
    + intros [j u] _. cbn [snd]. unfold Rdiv. rewrite Rabs_mult, (Rabs_right (/ S)); [field; lra|].
      apply Rle_ge, Rlt_le, Rinv_0_lt_compat. exact PS.
Qed.
Print Assumptions unitvec_bow_l1.

(** The documented "zero-vector will be unchanged" holds only for the empty
    bag: an explicit all-zero bag raises. *)
Theorem unitvec_bow_zero : forall x norm, norm <> Unique -> (forall i w, In (i, w) x -> w = 0) ->
  (x = [] /\ unitvec_bow x norm = Ok ([], 1)) \/ (x <> [] /\ unitvec_bow x norm = Err AssertionErr).
Proof.
  intros x norm NU HZ. destruct x as [|p x']; [left; split; reflexivity|]. right. split; [discriminate|].
  unfold unitvec_bow. set (x := p :: x') in *.
  assert (S1 : Rsum (map (fun iv => Rabs (snd iv)) x) = 0).
  { rewrite (Rsum_ext _ (fun _ => 0 * 1)); [rewrite (Rsum_scal (fun _ => 1) 0); lra|].
    intros [i w] HI. cbn. rewrite (HZ i w HI), Rabs_R0. ring. }
  assert (S2 : Rsum (map (fun iv => snd iv ^ 2) x) = 0).
  { rewrite (Rsum_ext _ (fun _ => 0 * 1)); [rewrite (Rsum_scal (fun _ => 1) 0); lra|].
    intros [i w] HI. cbn [snd]. rewrite (HZ i w HI). ring. }
  destruct norm; [| |congruence].
  - rewrite S1. destruct (Rlt_dec 0 0); [lra|reflexivity].
  - rewrite S2, sqrt_0. destruct (Rlt_dec 0 (1 * 0)); [lra|reflexivity].
Qed.
Print Assumptions unitvec_bow_zero.

Theorem unitvec_zero_refuted : exists x, (forall i w, In (i, w) x -> w = 0) /\ unitvec_bow x L2 = Err AssertionErr.
Proof.
  exists [(0%Z, 0)]. assert (H : forall i w, In (i, w) [(0%Z, 0)] -> w = 0) by (intros i w [E|[]]; congruence).
  split; [exact H|]. destruct (unitvec_bow_zero [(0%Z, 0)] L2) as [[E _]|[_ E]]; auto; discriminate.
Qed.
Print Assumptions unitvec_zero_refuted.

(** Normalising twice changes nothing. *)
Theorem unitvec_bow_idempotent : forall x v len, unitvec_bow x L2 = Ok (v, len) -> unitvec_bow v L2 = Ok (v, 1).
Proof.
  intros x v len E. destruct x as [|[i w] x']; [injection E as <- <-; reflexivity|].
  set (x := (i, w) :: x') in *.
  assert (NZ : exists j u, In (j, u) x /\ u <> 0).
  { unfold unitvec_bow in E. unfold x in E. fold x in E.
    destruct (Rlt_dec 0 (1 * sqrt (Rsum (map (fun iv => snd iv ^ 2) x)))) as [P|]; [|discriminate].
    assert (ES : Rsum (map (fun iv => snd iv ^ 2) x) = sumsq (map snd x)) by (unfold sumsq; rewrite map_map; apply Rsum_ext; intros; ring).
    rewrite ES in P. apply (proj1 (sqrt_pos_iff _ (sumsq_nonneg _))) in P. apply sumsq_pos in P. destruct P as (u & Hu & NZ).
    apply in_map_iff in Hu. destruct Hu as ([j u'] & Eq & HI). cbn in Eq. subst. eauto. }
  destruct NZ as (j & u & HI & NZ). destruct (unitvec_bow_l2 x j u HI NZ) as (v' & len' & E' & P & K & _ & S1 & _).
  rewrite E in E'. injection E' as <- <-. unfold unitvec_bow. destruct v as [|q v']; [discriminate|].
  rewrite S1, sqrt_1, Rmult_1_l. destruct (Rlt_dec 0 1); [|lra]. unfold ret_normalized_vec. destruct (Req_EM_T 1 1); [reflexivity|congruence].
Qed.
Print Assumptions unitvec_bow_idempotent.

Example unitvec_bow_ex : unitvec_bow [(0%Z, 3); (4%Z, -4)] L2 = Ok ([(0%Z, 3/5); (4%Z, -4/5)], 5).
Proof.
  unfold unitvec_bow, Rsum. cbn [map fold_right snd].
  replace (3 ^ 2 + ((-4) ^ 2 + 0)) with (5 ^ 2) by ring. rewrite sqrt_pow2, Rmult_1_l by lra.
  destruct (Rlt_dec 0 5); [|lra]. rewrite ret_normalized_eq. reflexivity.
Qed.

(** Dense arrays: norm 1, or unchanged when all entries are zero. *)
Theorem unitvec_dense_norm : forall x v len, unitvec_dense x L2 = (v, len) ->
  (sumsq v = 1 /\ len ^ 2 = sumsq x /\ v = map (fun a => a / len) x) \/ ((forall a, In a x -> a = 0) /\ v = x /\ len = 1).
Proof.
  intros x v len E. unfold unitvec_dense in E.
  replace (match x with [] => 0 | _ => sqrt (sumsq x) end) with (sqrt (sumsq x)) in E
    by (destruct x; [unfold sumsq, Rsum; cbn; apply sqrt_0 | reflexivity]).
  destruct (Rlt_dec 0 (sqrt (sumsq x))) as [P|NP].
  - injection E as <- <-. left. assert (PS : 0 < sumsq x).
    { destruct (Rle_lt_or_eq_dec _ _ (sumsq_nonneg x)) as [|E]; auto. rewrite <- E, sqrt_0 in P. lra. }
    split; [|split].
    + unfold sumsq at 1. rewrite map_map. rewrite (Rsum_ext _ (fun a => (1 / sumsq x) * (a * a))).
      * rewrite (Rsum_scal (fun a => a * a)). fold (sumsq x). field. lra.
      * intros a _. rewrite <- (sqrt_sqrt (sumsq x)) at 3 by lra. field. lra.
    + rewrite <- Rsqr_pow2. apply Rsqr_sqrt. lra.
    + apply map_ext. intros a. field. lra.
  - injection E as <- <-. right. split; [|split; reflexivity]. intros a Ha. destruct (Req_dec a 0); auto. exfalso. apply NP.
    apply sqrt_lt_R0. apply sumsq_pos. eauto.
Qed.
Print Assumptions unitvec_dense_norm.

Example unitvec_dense_ex : unitvec_dense [0; 0] L2 = ([0; 0], 1).
Proof.
  unfold unitvec_dense, sumsq, Rsum. cbn [map fold_right]. replace (0 * 0 + (0 * 0 + 0)) with 0 by ring. rewrite sqrt_0.
  destruct (Rlt_dec 0 0); [lra|reflexivity].
Qed.

(** Normalising a CSR matrix of floats rewrites the caller's matrix. *)
Theorem unitvec_csr_argument_refuted : exists data, caller_data_after (unitvec_csr data false L1) <> data.
Proof.
  exists [2]. unfold unitvec_csr, Rsum. cbn [map fold_right].
  rewrite Rabs_right by lra. destruct (Rlt_dec 0 (2 + 0)); [|lra]. cbn [caller_data_after]. intros E. injection E as E. lra.
Qed.
Print Assumptions unitvec_csr_argument_refuted.

(** The 'unique' norm counts stored entries of a sparse matrix but non-zero entries of an array:
    the two formats of the same vector normalise differently when a zero is stored. *)
Theorem unitvec_unique_formats_refuted : exists data,
  out_data (unitvec_csr data false Unique) <> fst (unitvec_dense data Unique).
Proof.
  exists [0; 2]. unfold unitvec_csr, unitvec_dense, count_nonzero. cbn [length filter map].
  destruct (Req_EM_T 0 0) as [_|]; [|congruence]. destruct (Req_EM_T 2 0) as [E|_]; [lra|]. cbn [length].
  replace (INR 2) with 2 by (cbn; lra). replace (INR 1) with 1 by reflexivity.
  destruct (Rlt_dec 0 2); [|lra]. destruct (Rlt_dec 0 1); [|lra]. cbn [out_data fst map]. intros E. injection E as _ E. lra.
Qed.
Print Assumptions unitvec_unique_formats_refuted.
