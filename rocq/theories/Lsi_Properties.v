(** Latent semantic indexing: what the incremental decomposition keeps of the documents. *)
From Coq Require Import Reals Lra Permutation.
From Verif Require Import Base MatReal_Model MatReal_Proofs Utils_Model Utils_Properties LdaTrain_Model LdaTrain_Proofs2 Lsi_Model Lsi_Spec Lsi_Linear Lsi_Proofs Lsi_Proofs2.
From Coq Require Import ZifyBool ZifyNat.
Local Open Scope R_scope.

(** ** How many factors are kept *)
Theorem lsi_clip_spectrum : forall n e k discard, 0 <= discard -> (forall a, (a < n)%nat -> 0 <= e a) ->
  match clip_spectrum n e k discard with
  | Ok j => (0 < n)%nat /\ (0 < k)%nat /\ (sumn n e = 0 -> j = 1%nat) /\ (0 < sumn n e -> least_leading n e k (Rmin discard (1 / INR k)) j)
  | Err ZeroDivErr => k = O
  | Err IndexError => n = O
  | Err _ => False
  end.
Proof.
  intros n e k discard Hd NN. destruct (Nat.eq_dec k 0) as [->|Hk]; [reflexivity|]. destruct (Nat.eq_dec n 0) as [->|Hn].
  - unfold clip_spectrum. destruct (Nat.eqb_spec k 0); [lia|]. cbn [seq filter length]. destruct (Nat.ltb_spec (Nat.min k (1 + 0) - 1) 0); [lia|reflexivity].
  - destruct (clip_spec n e k discard) as (j & -> & A & B); [lia|lia|exact Hd|exact NN|]. repeat split; try lia; auto; now apply B.
Qed.
Print Assumptions lsi_clip_spectrum.
(** a relative energy of one in ten thousand is dropped by [merge] but kept by [stochastic_svd] *)
Definition energies : nat -> R := fun a => match a with O => 9999 | _ => 1 end.
Example clip_example : clip_spectrum 2 energies 5 discard_merge = Ok 1%nat /\ clip_spectrum 2 energies 5 eps_svd = Ok 2%nat.
Proof.
  assert (S2 : sumn 2 energies = 10000) by (rewrite !sumn_S, sumn_0; unfold energies; lra).
  assert (S1 : sumn 1 energies = 9999) by (rewrite !sumn_S, sumn_0; unfold energies; lra).
  assert (I5 : INR 5 = 5) by (cbn; lra).
  split.
  - destruct (clip_spec 2 energies 5 discard_merge) as (j & -> & _ & B); [lia|lia|unfold discard_merge; lra|intros [|a] _; unfold energies; lra|].
    destruct (B ltac:(lra)) as [[H1 H2] H3 H4 H5]. f_equal. assert (J : (j = 1 \/ j = 2)%nat) by lia. destruct J as [->|J]; [reflexivity|].
    specialize (H5 1%nat ltac:(lia)). rewrite S1, S2, I5 in H5. unfold discard_merge in H5. rewrite Rmin_left in H5 by lra. lra.
  - destruct (clip_spec 2 energies 5 eps_svd) as (j & -> & _ & B); [lia|lia|unfold eps_svd; lra|intros [|a] _; unfold energies; lra|].
    destruct (B ltac:(lra)) as [[H1 H2] H3 H4 H5]. f_equal. assert (J : (j = 1 \/ j = 2)%nat) by lia. destruct J as [->|J]; [|exact J].
    specialize (H4 ltac:(lia)). rewrite S1, S2, I5 in H4. unfold eps_svd in H4. rewrite Rmin_left in H4 by lra. lra.
Qed.

(** ** One merge *)
Definition pgram (p : proj) : nat -> nat -> R := match p_us p with None => fun _ _ => 0 | Some f => gram (f_n f) (f_u f) (f_s f) end.

Theorem lsi_merge : forall p other decay l f1 f2, p_us p = Some f1 -> p_us other = Some f2 -> p_m other = p_m p -> (0 < p_m p)%nat -> (0 < p_k p)%nat ->
  (0 < f_n f1)%nat -> orthonormal_cols (p_m p) (f_n f1) (f_u f1) -> lib_ok (p_m p) decay f1 f2 l ->
  exists f', merge p other decay l = Ok {| p_m := p_m p; p_k := p_k p; p_us := Some f' |} /\
    kept (p_m p) (fun i j => decay ^ 2 * pgram p i j + pgram other i j) (p_k p) (1 / 1000) (f_n f') (f_u f') (f_s f') /\
    (forall a, 0 <= f_u f' O a).
Proof.
  intros p other decay l f1 f2 E1 E2 EM Hm Hk Hn O OK. destruct (merge_kept p other decay l f1 f2 E1 E2 EM Hm Hk Hn O OK) as (f' & H1 & H2 & H3).
  exists f'. split; [exact H1|]. split; [|exact H3]. eapply kept_ext; [|exact H2]. intros i j _ _. unfold merged_T, pgram. rewrite E1, E2. reflexivity.
Qed.
Print Assumptions lsi_merge.
(** empty projections, and projections of different feature spaces *)
Theorem lsi_merge_trivial : forall p other decay l,
  (p_us other = None -> merge p other decay l = Ok p) /\
  (p_us p = None -> p_us other <> None -> merge p other decay l = Ok {| p_m := p_m p; p_k := p_k p; p_us := p_us other |}) /\
  (p_us p <> None -> p_us other <> None -> p_m p <> p_m other -> merge p other decay l = Err ValueError).
Proof.
  intros p other decay l. unfold merge. destruct (p_us other) as [f2|] eqn:E2.
  - destruct (p_us p) as [f1|] eqn:E1; repeat split; intros; try congruence. destruct (Nat.eqb_spec (p_m p) (p_m other)); [contradiction|reflexivity].
  - repeat split; intros; congruence.
Qed.
Print Assumptions lsi_merge_trivial.

(** ** Two documents in perpendicular directions, merged *)
Definition axis (k : nat) (s : R) : factors := {| f_n := 1; f_u := fun i _ => delta i k; f_s := fun _ => s |}.
Definition of_axis (m topics k : nat) (s : R) : proj := {| p_m := m; p_k := topics; p_us := Some (axis k s) |}.
(** what LAPACK returns for [axis 0 a] and [axis 1 b]: the small matrix is diagonal, the larger of its entries comes first *)
Definition axis_lib (a b : R) : lib :=
  let big := if Rlt_dec a b then true else false in
  {| l_q := fun i _ => delta i 1; l_r := fun _ _ => 1; l_failed := false;
     l_uk := fun i j => if big then delta i (1 - j) else delta i j;
     l_sk := fun j => if (if big then (j =? 1)%nat else (j =? 0)%nat) then a else b |}.
Ltac two := repeat match goal with
  | H : (?a < 1)%nat |- _ => is_var a; replace a with 0%nat in * by lia; clear H
  | H : (?a < 2)%nat |- _ => is_var a; let E := fresh in assert (E : (a = 0 \/ a = 1)%nat) by lia; destruct E; subst a; clear H
  end.
Lemma axis_lib_ok : forall a b, 0 <= a -> 0 <= b -> lib_ok 2 1 (axis 0 a) (axis 1 b) (axis_lib a b).
Proof.
  intros a b Ha Hb. unfold lib_ok. cbv zeta. cbn [axis f_n f_u f_s axis_lib l_q l_r l_failed l_uk l_sk].
  change (rows_k 2 1 1) with 2%nat. change (1 + 1)%nat with 2%nat. split; [split|split; [|split; [|split]]].
  - intros x y Hx Hy. change (Nat.min 2 1) with 1%nat in *. two. unfold mmul, tr, delta, sumn. cbn. lra.
  - intros i j Hi Hj. change (Nat.min 2 1) with 1%nat in *. unfold w_of, c_of, mmul, tr, axis, delta, sumn. cbn [f_n f_u f_s]. two; cbn; lra.
  - intros x y Hx Hy. change (Nat.min 2 2) with 2%nat in *. unfold mmul, tr, delta, sumn. two; destruct (Rlt_dec a b); cbn; lra.
  - intros x Hx. change (Nat.min 2 2) with 2%nat in *. two; destruct (Rlt_dec a b); cbn; lra.
  - intros x y Hxy Hy. change (Nat.min 2 2) with 2%nat in *. assert (Hx : (x < 2)%nat) by lia. two; destruct (Rlt_dec a b); cbn; try lra; lia.
  - change (Nat.min 2 2) with 2%nat. exists (fun i j => if Rlt_dec a b then delta i (1 - j) else delta i j). split.
    + intros x y Hx Hy. unfold mmul, tr, delta, sumn. two; destruct (Rlt_dec a b); cbn; lra.
    + intros i j Hi Hj. unfold kmat, c_of, mmul, tr, axis, delta, sumn. cbn [f_n f_u f_s]. two; destruct (Rlt_dec a b); cbn; lra.
Qed.
Lemma axis_orth : forall k s, (k < 2)%nat -> orthonormal_cols 2 1 (f_u (axis k s)).
Proof. intros k s H a b Ha Hb. two; unfold dotv, sumn, axis, delta; cbn; lra. Qed.
Lemma axis_gram : forall m n k s i j, pgram (of_axis m n k s) i j = s ^ 2 * (delta i k * delta j k).
Proof. intros. unfold pgram, of_axis, axis, gram, sumn. cbn [p_us f_n f_u f_s seq map]. change (Rsum [s ^ 2 * (delta i k * delta j k)]) with (s ^ 2 * (delta i k * delta j k) + 0). lra. Qed.

(** both are kept, in descending order; with 100 and 1 the smaller one is lost although there is room for two topics *)
Example merge_example : exists f', merge (of_axis 2 2 0 3) (of_axis 2 2 1 4) 1 (axis_lib 3 4) = Ok {| p_m := 2; p_k := 2; p_us := Some f' |} /\
  f_n f' = 2%nat /\ f_s f' O = 4 /\ f_s f' 1%nat = 3 /\ f_u f' 1%nat O = 1 /\ f_u f' O 1%nat = 1 /\ f_u f' O O = 0.
Proof.
  unfold merge. cbn [of_axis p_us p_m p_k Nat.eqb negb axis_lib l_failed axis f_n].
  change (rows_k 2 1 1) with 2%nat. change (Nat.min 2 (1 + 1)) with 2%nat.
  match goal with |- context [clip_spectrum 2 ?e 2 discard_merge] => set (en := e) end.
  assert (E0 : en O = 16) by (unfold en; cbn [axis_lib l_sk l_failed]; destruct (Rlt_dec 3 4); [cbn; lra|lra]).
  assert (E1 : en 1%nat = 9) by (unfold en; cbn [axis_lib l_sk l_failed]; destruct (Rlt_dec 3 4); [cbn; lra|lra]).
  assert (S2 : sumn 2 en = 25) by (rewrite !sumn_S, sumn_0, E0, E1; lra).
  assert (S1 : sumn 1 en = 16) by (rewrite !sumn_S, sumn_0, E0; lra).
  assert (CL : clip_spectrum 2 en 2 discard_merge = Ok 2%nat).
  { destruct (clip_spec 2 en 2 discard_merge) as (j & -> & _ & B); [lia|lia|unfold discard_merge; lra|intros; two; lra|].
    destruct (B ltac:(lra)) as [[H1 H2] H3 H4 H5]. f_equal. assert (J : (j = 1 \/ j = 2)%nat) by lia. destruct J as [->|J]; [|exact J].
    specialize (H4 ltac:(lia)). rewrite S1, S2 in H4. replace (INR 2) with 2 in H4 by (cbn; lra). unfold discard_merge in H4. rewrite Rmin_left in H4 by lra. lra. }
  rewrite CL. cbn [rbind]. eexists. split; [reflexivity|]. cbn [f_n f_s f_u]. change (Nat.min 2 1) with 1%nat.
  unfold canonical, mmul, axis_lib, axis, delta, sumn. cbn [l_sk l_uk l_q f_u l_failed Nat.ltb Nat.leb].
  destruct (Rlt_dec 3 4); [|lra].
  repeat split; cbn; try lra; repeat match goal with |- context [Rlt_dec ?a ?b] => destruct (Rlt_dec a b) end; lra.
Qed.

(** ** A series of merges *)
Definition lib_good (p up : proj) (decay : R) (l : lib) : Prop := forall f1 f2, p_us p = Some f1 -> p_us up = Some f2 -> lib_ok (p_m p) decay f1 f2 l.
Fixpoint libs_good (p : proj) (decay : R) (ups : list (proj * lib)) : Prop :=
  match ups with
  | [] => True
  | (up, l) :: rest => lib_good p up decay l /\ match merge p up decay l with Ok p' => libs_good p' decay rest | Err _ => True end
  end.
(** a projection of [m] terms that is empty, or whose basis is orthonormal and that has some energy *)
Definition good (m k : nat) (p : proj) : Prop :=
  p_m p = m /\ p_k p = k /\
  match p_us p with None => True | Some f => (0 < f_n f)%nat /\ orthonormal_cols m (f_n f) (f_u f) /\ 0 < trace m (gram (f_n f) (f_u f) (f_s f)) end.
(** every merge discounts what was there by the square of the decay *)
Fixpoint discounted (decay : R) (G : nat -> nat -> R) (ups : list (proj * lib)) : nat -> nat -> R :=
  match ups with [] => G | (up, _) :: rest => discounted decay (fun i j => decay ^ 2 * G i j + pgram up i j) rest end.
(** [W] is [G] and a sum of squares *)
Definition above (m : nat) (W G : nat -> nat -> R) : Prop :=
  exists N (V : nat -> nat -> R), forall i j, (i < m)%nat -> (j < m)%nat -> W i j = G i j + sumn N (fun a => V i a * V j a).

Lemma above_refl : forall m G, above m G G.
Proof. intros. exists O, (fun _ _ => 0). intros. rewrite sumn_0. ring. Qed.
Lemma above_trans : forall m A B C, above m A B -> above m B C -> above m A C.
Proof.
  intros m A B C (N & V & H) (N' & V' & H'). exists (N + N')%nat, (fun i a => if (a <? N)%nat then V i a else V' i (a - N)%nat).
  intros i j Hi Hj. rewrite (H i j Hi Hj), (H' i j Hi Hj), sumn_split.
  rewrite (sumn_ext N (fun a => (if (a <? N)%nat then V i a else V' i (a - N)%nat) * _) (fun a => V i a * V j a)) by (intros a Ha; destruct (Nat.ltb_spec a N); [reflexivity|lia]).
  rewrite (sumn_ext N' (fun a => (if (N + a <? N)%nat then _ else _) * _) (fun a => V' i a * V' j a)); [ring|].
  intros a Ha. destruct (Nat.ltb_spec (N + a) N); [lia|]. now replace (N + a - N)%nat with a by lia.
Qed.
Lemma above_step : forall m d A B U, above m A B -> above m (fun i j => d ^ 2 * A i j + U i j) (fun i j => d ^ 2 * B i j + U i j).
Proof.
  intros m d A B U (N & V & H). exists N, (fun i a => d * V i a). intros i j Hi Hj. rewrite (H i j Hi Hj).
  rewrite (sumn_ext N (fun a => d * V i a * (d * V j a)) (fun a => d ^ 2 * (V i a * V j a))) by (intros; ring). rewrite sumn_scal. ring.
Qed.
Lemma above_ext : forall m A B A' B', (forall i j, A i j = A' i j) -> (forall i j, B i j = B' i j) -> above m A B -> above m A' B'.
Proof. intros m A B A' B' EA EB (N & V & H). exists N, V. intros i j Hi Hj. rewrite <- EA, <- EB. now apply H. Qed.
Lemma above_disc : forall m d ups A B, above m A B -> above m (discounted d A ups) (discounted d B ups).
Proof. intros m d. induction ups as [|[up l] ups IH]; intros A B H; cbn [discounted]; [exact H|]. apply IH. now apply above_step. Qed.

Lemma trace_plus : forall m A B d, trace m (fun i j => d * A i j + B i j) = d * trace m A + trace m B.
Proof. intros. unfold trace. rewrite sumn_plus, sumn_scal. reflexivity. Qed.
Lemma good_trace : forall m k p, good m k p -> 0 <= trace m (pgram p).
Proof.
  intros m k p (_ & _ & H). unfold pgram. destruct (p_us p) as [f|]; [lra|]. unfold trace. rewrite sumn_zero. lra.
Qed.

Lemma merge_step : forall m k p up decay l, (0 < m)%nat -> (0 < k)%nat -> good m k p -> good m k up -> lib_good p up decay l ->
  exists p', merge p up decay l = Ok p' /\ good m k p' /\ above m (fun i j => decay ^ 2 * pgram p i j + pgram up i j) (pgram p') \/
             merge p up decay l = Ok p /\ p' = p /\ p_us up = None /\ above m (fun i j => pgram p i j + pgram up i j) (pgram p').
Proof.
  intros m k p up decay l Hm Hk Gp Gu LG. destruct (p_us up) as [f2|] eqn:E2.
  - destruct (p_us p) as [f1|] eqn:E1.
    + assert (Gp' := Gp). assert (Gu' := Gu). destruct Gp' as (M1 & K1 & F1), Gu' as (M2 & K2 & F2). rewrite E1 in F1. rewrite E2 in F2. subst m k.
      destruct F1 as (N1 & O1 & T1), F2 as (N2 & O2 & T2).
      destruct (lsi_merge p up decay l f1 f2 E1 E2 M2 Hm Hk N1 O1 (LG f1 f2 E1 E2)) as (f' & HM & KP & _).
      assert (TT : 0 < trace (p_m p) (fun i j => decay ^ 2 * pgram p i j + pgram up i j)).
      { rewrite trace_plus. assert (P := good_trace _ _ _ Gp). assert (Q : 0 < trace (p_m p) (pgram up)) by (unfold pgram; rewrite E2; exact T2). nra. }
      exists {| p_m := p_m p; p_k := p_k p; p_us := Some f' |}. left. split; [exact HM|]. split.
      * split; [reflexivity|]. split; [reflexivity|]. cbn [p_us]. destruct KP as [R1 R2 _ _ _]. destruct (R2 TT) as [A1 A2 A3 A4 A5]. split; [lia|]. split; [exact A1|].
        rewrite (trace_orth _ _ _ _ A1). apply sumn_pos; [lia|]. intros a Ha. assert (0 < f_s f' a) by (apply A4; exact Ha). nra.
      * exact (k_rest _ _ _ _ _ _ _ KP).
    + exists {| p_m := p_m p; p_k := p_k p; p_us := Some f2 |}. left. destruct (lsi_merge_trivial p up decay l) as (_ & H & _).
      assert (EM : merge p up decay l = Ok {| p_m := p_m p; p_k := p_k p; p_us := Some f2 |}) by (rewrite E2 in H; apply H; congruence).
      split; [exact EM|]. destruct Gp as (M1 & K1 & _), Gu as (M2 & K2 & F2). rewrite E2 in F2. split.
      * split; [exact M1|]. split; [exact K1|]. exact F2.
      * apply (above_ext m (pgram up) (pgram up)); [|unfold pgram; rewrite E2; reflexivity|apply above_refl].
        intros i j. unfold pgram at 2. rewrite E1. ring.
  - exists p. right. destruct (lsi_merge_trivial p up decay l) as (H & _). split; [now apply H|]. split; [reflexivity|]. split; [reflexivity|].
    apply (above_ext m (pgram p) (pgram p)); [|reflexivity|apply above_refl]. intros i j. unfold pgram at 3. rewrite E2. ring.
Qed.

(** Serial training on non-empty chunks never fails, and what it gives is the discounted sum of the chunks' covariances without a sum of squares. *)
Theorem lsi_train : forall m k decay ups p, (0 < m)%nat -> (0 < k)%nat -> good m k p -> Forall (fun ul => good m k (fst ul) /\ p_us (fst ul) <> None) ups ->
  libs_good p decay ups ->
  exists p', train p decay ups = Ok p' /\ good m k p' /\ above m (discounted decay (pgram p) ups) (pgram p').
Proof.
  intros m k decay ups. induction ups as [|[up l] ups IH]; intros p Hm Hk Gp GU LG; cbn [train discounted].
  - exists p. split; [reflexivity|]. split; [exact Gp|]. apply above_refl.
  - inversion GU as [|? ? (G1 & NE) GU']; subst. destruct LG as (L1 & L2). cbn [fst] in *.
    destruct (merge_step m k p up decay l Hm Hk Gp G1 L1) as (p1 & [(HM & GP & AB)|(_ & _ & E & _)]); [|contradiction].
    rewrite HM in L2. destruct (IH p1 Hm Hk GP GU' L2) as (p' & T & GP' & AB'). exists p'. rewrite HM. cbn [rbind]. split; [exact T|]. split; [exact GP'|].
    eapply above_trans; [|exact AB']. now apply above_disc.
Qed.
Print Assumptions lsi_train.

(** with a decay of one: the sum of all covariances *)
Lemma discounted_1 : forall ups G i j, discounted 1 G ups i j = G i j + Rsum (map (fun ul => pgram (fst ul) i j) ups).
Proof.
  induction ups as [|[up l] ups IH]; intros G i j; cbn [discounted map]; [change (Rsum []) with 0; lra|]. rewrite IH, Rsum_cons. cbn [fst]. lra.
Qed.

(** nothing is invented: no direction has more energy than in the documents; and if the energy is all there, so is everything else *)
Theorem lsi_above : forall m W G, above m W G ->
  (forall x, quad m G x <= quad m W x) /\ trace m G <= trace m W /\
  (trace m G = trace m W -> forall i j, (i < m)%nat -> (j < m)%nat -> G i j = W i j).
Proof.
  intros m W G (N & V & H).
  assert (GE : forall i j, sumn N (fun a => V i a * V j a) = gram N V (fun _ => 1) i j) by (intros; unfold gram; apply sumn_ext; intros; ring).
  assert (TR : trace m W = trace m G + trace m (gram N V (fun _ => 1))).
  { rewrite (trace_ext m W _ H). unfold trace. rewrite sumn_plus. f_equal. apply sumn_ext. intros. apply GE. }
  assert (TV : trace m (gram N V (fun _ => 1)) = sumn N (fun a => dotv m (fun i => V i a) (fun i => V i a))) by (rewrite trace_gram; apply sumn_ext; intros; ring).
  assert (NN : 0 <= sumn N (fun a => dotv m (fun i => V i a) (fun i => V i a))) by (apply sumn_nonneg; intros; apply dotv_self).
  split; [|split].
  - intros x. rewrite (quad_ext m W (fun i j => G i j + gram N V (fun _ => 1) i j)) by (intros; rewrite H, GE by assumption; reflexivity).
    assert (E : quad m (fun i j => G i j + gram N V (fun _ => 1) i j) x = quad m G x + quad m (gram N V (fun _ => 1)) x).
    { unfold quad, dotv. rewrite <- sumn_plus. apply sumn_ext. intros i _. unfold apply. rewrite <- Rmult_plus_distr_l, <- sumn_plus. f_equal. apply sumn_ext. intros. ring. }
    rewrite E, gram_quad. assert (0 <= sumn N (fun a => 1 ^ 2 * dotv m x (fun j => V j a) ^ 2)) by (apply sumn_nonneg; intros; nra). lra.
  - rewrite TR, TV. lra.
  - intros E i j Hi Hj. rewrite TR, TV in E. rewrite (H i j Hi Hj). rewrite (sumn_all0 N); [ring|].
    assert (Z0 : forall a, (a < N)%nat -> dotv m (fun i => V i a) (fun i => V i a) = 0).
    { intros a Ha. assert (Q : sqrt (dotv m (fun i => V i a) (fun i => V i a)) = 0).
      { apply (sumn_sq0 N (fun a => sqrt (dotv m (fun i => V i a) (fun i => V i a)))); [|exact Ha]. rewrite <- (sumn_ext N (fun a => dotv m (fun i => V i a) (fun i => V i a))); [lra|].
        intros k Hk. symmetry. apply sqrt_sqrt, dotv_self. }
      apply sqrt_eq_0 in Q; [exact Q|apply dotv_self]. }
    intros a Ha. rewrite (dotv_0 m _ (Z0 a Ha) i Hi). ring.
Qed.
Print Assumptions lsi_above.

(** merges that have room for all factors lose at most a thousandth of the energy each *)
Fixpoint roomy (p : proj) (decay : R) (ups : list (proj * lib)) : Prop :=
  match ups with
  | [] => True
  | (up, l) :: rest => match merge p up decay l with
                       | Ok p' => (forall f, p_us p' = Some f -> (f_n f < p_k p')%nat) /\ roomy p' decay rest
                       | Err _ => True
                       end
  end.
Lemma disc_scale : forall m d ups c A B, 0 <= c <= 1 -> Forall (fun ul => 0 <= trace m (pgram (fst ul))) ups -> c * trace m A <= trace m B ->
  c * trace m (discounted d A ups) <= trace m (discounted d B ups).
Proof.
  intros m d. induction ups as [|[up l] ups IH]; intros c A B Hc F H; cbn [discounted]; [exact H|]. inversion F; subst. apply IH; [exact Hc|assumption|].
  rewrite !trace_plus. cbn [fst] in *. assert (0 <= d ^ 2) by nra. nra.
Qed.
Theorem lsi_train_energy : forall m k decay ups p p', (0 < m)%nat -> (0 < k)%nat -> good m k p -> Forall (fun ul => good m k (fst ul) /\ p_us (fst ul) <> None) ups ->
  libs_good p decay ups -> roomy p decay ups -> train p decay ups = Ok p' ->
  (999 / 1000) ^ length ups * trace m (discounted decay (pgram p) ups) <= trace m (pgram p').
Proof.
  intros m k decay ups. induction ups as [|[up l] ups IH]; intros p p' Hm Hk Gp GU LG RM TR; cbn [train discounted length].
  - inversion TR; subst. rewrite pow_O. lra.
  - inversion GU as [|? ? (G1 & NE) GU']; subst. destruct LG as (L1 & L2). cbn [fst roomy train] in *.
    destruct (merge_step m k p up decay l Hm Hk Gp G1 L1) as (p1 & [(HM & GP & AB)|(_ & _ & E & _)]); [|contradiction].
    rewrite HM in L2, RM, TR. cbn [rbind] in TR. destruct RM as (R1 & R2). specialize (IH p1 p' Hm Hk GP GU' L2 R2 TR).
    assert (ST : 999 / 1000 * trace m (fun i j => decay ^ 2 * pgram p i j + pgram up i j) <= trace m (pgram p1)).
    { destruct (p_us p) as [f1|] eqn:E1.
      - destruct (p_us up) as [f2|] eqn:E2; [|contradiction]. assert (Gp' := Gp). destruct Gp' as (M1 & K1 & F1). assert (G1' := G1). destruct G1' as (M2 & K2 & F2). rewrite E1 in F1. subst m k. destruct F1 as (N1 & O1 & _).
        destruct (lsi_merge p up decay l f1 f2 E1 E2 M2 Hm Hk N1 O1 (L1 f1 f2 E1 E2)) as (f' & HM' & KP & _). rewrite HM' in HM. inversion HM; subst p1.
        specialize (R1 f' eq_refl). cbn [p_k] in R1. assert (LS := k_loss _ _ _ _ _ _ _ KP R1).
        change (pgram {| p_m := p_m p; p_k := p_k p; p_us := Some f' |}) with (gram (f_n f') (f_u f') (f_s f')).
        set (T := trace (p_m p) (fun i j => decay ^ 2 * pgram p i j + pgram up i j)) in *.
        assert (0 <= T). { unfold T. rewrite trace_plus. assert (P := good_trace _ _ _ Gp). assert (Q := good_trace _ _ _ G1). assert (0 <= decay ^ 2) by nra. nra. }
        assert (Rmin (1 / 1000) (1 / INR (p_k p)) <= 1 / 1000) by apply Rmin_l. nra.
      - destruct (lsi_above m _ _ AB) as (_ & _ & _). destruct (lsi_merge_trivial p up decay l) as (_ & H & _). rewrite (H E1 NE) in HM. inversion HM; subst p1.
        rewrite trace_plus. assert (Z0 : trace m (pgram p) = 0) by (unfold pgram; rewrite E1; unfold trace; apply sumn_zero).
        assert (EQ : trace m (pgram {| p_m := p_m p; p_k := p_k p; p_us := p_us up |}) = trace m (pgram up)) by reflexivity.
        rewrite Z0, EQ. assert (Q := good_trace _ _ _ G1). lra. }
    assert (FT : Forall (fun ul => 0 <= trace m (pgram (fst ul))) ups) by (eapply Forall_impl; [|exact GU']; intros [u' l'] (Y & _); exact (good_trace _ _ _ Y)).
    assert (DS := disc_scale m decay ups (999 / 1000) _ _ ltac:(lra) FT ST).
    assert (CP : 0 <= (999 / 1000) ^ length ups) by (apply pow_le; lra). assert (MM := Rmult_le_compat_l _ _ _ CP DS). eapply Rle_trans; [|exact IH]. eapply Rle_trans; [|exact MM]. right. rewrite <- tech_pow_Rmult. ring.
Qed.
Print Assumptions lsi_train_energy.

(** ** The decomposition of one chunk *)
(** It is that of the documents projected on the sampled range, whatever the chunks of the stream and whether the input is sparse. *)
Theorem lsi_svd : forall m rank extra iters sparse input y f, (0 < m)%nat -> (0 < rank)%nat -> concat input <> [] ->
  svd_run m rank extra iters sparse input y f ->
  let docs := map fst (concat input) in
  exists q, orthonormal_cols m (Nat.min m (samples_of rank extra)) q /\ orthonormal_cols m (f_n f) (f_u f) /\
    kept m (cov (map (onto m (Nat.min m (samples_of rank extra)) q) docs)) rank (1 / 1000000) (f_n f) (f_u f) (f_s f).
Proof.
  intros m rank extra iters sparse input y f Hm Hr NE (q & r & u & s & RF & SV & FI) docs.
  assert (SP : (0 < samples_of rank extra)%nat) by (unfold samples_of; destruct extra; lia).
  assert (ED : concat (map (map fst) input) = docs) by (unfold docs; symmetry; apply concat_map).
  assert (OQ := range_orth _ _ _ _ _ _ _ _ RF).
  destruct (finish_kept m _ q sparse (map (map fst) input) rank u s OQ SV) as (f' & FI' & KP & OF); [lia|exact Hr| |].
  { rewrite ED. unfold docs. rewrite map_length. destruct (concat input); [congruence|cbn; lia]. }
  rewrite FI' in FI. inversion FI; subst f'. rewrite ED in KP. exists q. split; [exact OQ|]. split; [exact OF|exact KP].
Qed.
Print Assumptions lsi_svd.

(** It is exact when the sampled matrix spans the documents, and always when there are as many samples as terms. *)
Theorem lsi_svd_exact : forall m rank extra iters sparse input y f, (0 < m)%nat -> (0 < rank)%nat -> concat input <> [] ->
  svd_run m rank extra iters sparse input y f ->
  let docs := map fst (concat input) in
  Forall (combines m (match iters with O => samples_of rank extra | S _ => Nat.min m (samples_of rank extra) end) y) docs \/ (m <= samples_of rank extra)%nat ->
  kept m (cov docs) rank (1 / 1000000) (f_n f) (f_u f) (f_s f).
Proof.
  intros m rank extra iters sparse input y f Hm Hr NE (q & r & u & s & RF & SV & FI) docs SPAN.
  assert (SP : (0 < samples_of rank extra)%nat) by (unfold samples_of; destruct extra; lia).
  assert (ED : concat (map (map fst) input) = docs) by (unfold docs; symmetry; apply concat_map).
  assert (OQ := range_orth _ _ _ _ _ _ _ _ RF).
  destruct (finish_kept m _ q sparse (map (map fst) input) rank u s OQ SV) as (f' & FI' & KP & OF); [lia|exact Hr| |].
  { rewrite ED. unfold docs. rewrite map_length. destruct (concat input); [congruence|cbn; lia]. }
  rewrite FI' in FI. inversion FI; subst f'. rewrite ED in KP. eapply kept_ext; [|exact KP]. intros i j Hi Hj. apply cov_ext. intros d Hd.
  destruct SPAN as [SPAN|LE].
  - rewrite Forall_forall in SPAN. split; apply (range_span _ _ _ _ _ _ _ _ _ RF (SPAN d Hd)); assumption.
  - replace (Nat.min m (samples_of rank extra)) with m in * by lia. split; now apply onto_square.
Qed.
Print Assumptions lsi_svd_exact.

(** The action matrix that is sampled does not depend on the chunks. *)
Theorem lsi_action : forall m q input i a,
  action input i a = fold_right Rplus 0 (map (fun d : col * col => fst d i * snd d a) (concat input)) /\
  power m q (map (map fst) input) i a = sumn m (fun j => cov (map fst (concat input)) i j * q j a).
Proof.
  intros. split; [exact (action_concat input i a)|]. rewrite power_concat, <- concat_map. unfold power1, cov. change (fold_right Rplus 0) with Rsum.
  set (docs := map fst (concat input)). induction docs as [|d docs IH]; cbn [map].
  - change (Rsum []) with 0. symmetry. apply sumn_all0. intros. change (Rsum []) with 0. ring.
  - rewrite Rsum_cons, IH. rewrite <- sumn_scal, <- sumn_plus. apply sumn_ext. intros. rewrite Rsum_cons. ring.
Qed.
Print Assumptions lsi_action.

(** ** Distributed training *)
Fixpoint workers_good (p : proj) (decay : R) (workers : list (list (proj * lib) * lib)) : Prop :=
  match workers with [] => True | w :: ws => libs_good (empty_like p) decay (fst w) /\ workers_good p decay ws end.
(** the jobs of all workers, as the serial version would merge them *)
Definition all_jobs (workers : list (list (proj * lib) * lib)) : list proj := map fst (concat (map fst workers)).
Definition total (ps : list proj) : nat -> nat -> R := fun i j => fold_right Rplus 0 (map (fun p => pgram p i j) ps).

Lemma above_plus : forall m A B A' B', above m A B -> above m A' B' -> above m (fun i j => A i j + A' i j) (fun i j => B i j + B' i j).
Proof.
  intros m A B A' B' (N & V & H) (N' & V' & H'). exists (N + N')%nat, (fun i a => if (a <? N)%nat then V i a else V' i (a - N)%nat).
  intros i j Hi Hj. rewrite (H i j Hi Hj), (H' i j Hi Hj), sumn_split.
  rewrite (sumn_ext N (fun a => (if (a <? N)%nat then V i a else V' i (a - N)%nat) * _) (fun a => V i a * V j a)) by (intros a Ha; destruct (Nat.ltb_spec a N); [reflexivity|lia]).
  rewrite (sumn_ext N' (fun a => (if (N + a <? N)%nat then _ else _) * _) (fun a => V' i a * V' j a)); [ring|].
  intros a Ha. destruct (Nat.ltb_spec (N + a) N); [lia|]. now replace (N + a - N)%nat with a by lia.
Qed.

(** merges of states of workers, some of which may be empty *)
Lemma train_states : forall m k ups p, (0 < m)%nat -> (0 < k)%nat -> good m k p -> Forall (fun ul => good m k (fst ul)) ups -> libs_good p 1 ups ->
  exists p', train p 1 ups = Ok p' /\ good m k p' /\ above m (fun i j => pgram p i j + total (map fst ups) i j) (pgram p').
Proof.
  intros m k. induction ups as [|[up l] ups IH]; intros p Hm Hk Gp GU LG; cbn [train map].
  - exists p. split; [reflexivity|]. split; [exact Gp|]. apply (above_ext m (pgram p) (pgram p)); [|reflexivity|apply above_refl]. intros. unfold total. cbn. ring.
  - inversion GU as [|? ? G1 GU']; subst. destruct LG as (L1 & L2). cbn [fst] in *.
    assert (ST : exists p1, merge p up 1 l = Ok p1 /\ good m k p1 /\ above m (fun i j => pgram p i j + pgram up i j) (pgram p1)).
    { destruct (merge_step m k p up 1 l Hm Hk Gp G1 L1) as (p1 & [(HM & GP & AB)|(HM & E & _ & AB)]).
      - exists p1. split; [exact HM|]. split; [exact GP|]. eapply above_ext; [|reflexivity|exact AB]. intros. cbv beta. ring.
      - subst p1. exists p. split; [exact HM|]. split; [exact Gp|]. exact AB. }
    destruct ST as (p1 & HM & GP & AB). rewrite HM in L2. destruct (IH p1 Hm Hk GP GU' L2) as (p' & T & GP' & AB').
    exists p'. rewrite HM. cbn [rbind]. split; [exact T|]. split; [exact GP'|].
    eapply above_trans; [|exact AB']. apply (above_ext m (fun i j => (pgram p i j + pgram up i j) + total (map fst ups) i j) (fun i j => pgram p1 i j + total (map fst ups) i j)).
    + intros. unfold total. cbn [map fold_right]. ring.
    + reflexivity.
    + apply above_plus; [exact AB|apply above_refl].
Qed.

(** With a decay of one it does not matter which worker gets which job. *)
Theorem lsi_distributed : forall m k p workers, (0 < m)%nat -> (0 < k)%nat -> good m k p -> workers <> [] ->
  Forall (fun w => Forall (fun ul => good m k (fst ul) /\ p_us (fst ul) <> None) (fst w)) workers -> workers_good p 1 workers ->
  (forall st l ss, rmapM (fun w => let* s := train (empty_like p) 1 (fst w) in Ok (s, snd w)) workers = Ok ((st, l) :: ss) -> libs_good st 1 ss) ->
  exists p', dist_add p 1 workers = Ok p' /\ good m k p' /\
    forall jobs, Permutation jobs (all_jobs workers) -> above m (total jobs) (pgram p').
Proof.
  intros m k p workers Hm Hk Gp NE GW WG DG. unfold dist_add.
  assert (ST : exists states, rmapM (fun w => let* s := train (empty_like p) 1 (fst w) in Ok (s, snd w)) workers = Ok states /\ length states = length workers /\
               Forall (fun sl => good m k (fst sl)) states /\ above m (total (all_jobs workers)) (total (map fst states))).
  { clear NE DG. induction workers as [|[jobs l] ws IH]; cbn [rmapM].
    - exists []. repeat split; [constructor|apply above_refl].
    - inversion GW as [|? ? G1 GW']; subst. destruct WG as (W1 & W2). cbn [fst snd] in *.
      assert (GE : good m k (empty_like p)) by (destruct Gp as (A & B & _); split; [exact A|]; split; [exact B|exact Logic.I]).
      destruct (lsi_train m k 1 jobs (empty_like p) Hm Hk GE G1 W1) as (s & TR & GS & AB). destruct (IH GW' W2) as (ss & E & LN & FS & AB').
      rewrite TR. cbn [rbind]. rewrite E. cbn [rbind]. exists ((s, l) :: ss). split; [reflexivity|]. split; [cbn; now rewrite LN|]. split; [constructor; assumption|].
      apply (above_ext m (fun i j => discounted 1 (pgram (empty_like p)) jobs i j + total (all_jobs ws) i j) (fun i j => pgram s i j + total (map fst ss) i j)).
      + intros i j. rewrite discounted_1. unfold total, all_jobs. cbn [map concat fst]. rewrite !map_app. change (fold_right Rplus 0) with Rsum. rewrite Rsum_app, (map_map fst (fun p0 => pgram p0 i j) jobs).
        change (pgram (empty_like p) i j) with 0. ring.
      + reflexivity.
      + now apply above_plus. }
  destruct ST as (states & E & LN & FS & AB). rewrite E. cbn [rbind]. destruct states as [|[st l] ss]; [destruct workers; [congruence|discriminate]|].
  cbn [getstate]. inversion FS as [|? ? G1 FS']; subst. cbn [fst] in *.
  destruct (train_states m k ss st Hm Hk G1 FS' (DG st l ss E)) as (p' & TR & GP & AB'). exists p'. split; [exact TR|]. split; [exact GP|].
  intros jobs PJ. eapply above_trans; [|exact AB']. eapply above_ext; [| |exact AB].
  - intros i j. unfold total. change (fold_right Rplus 0) with Rsum. apply Rsum_perm. apply Permutation_map, Permutation_sym, PJ.
  - reflexivity.
Qed.
Print Assumptions lsi_distributed.

(** ** Known violations, with one term and one topic *)
Definition unit_proj (s : R) : proj := of_axis 1 1 0 s.
(** what LAPACK returns for two projections of one term: the component perpendicular to the first is empty *)
Definition unit_lib (sigma : R) : lib :=
  {| l_q := fun _ _ => 1; l_r := fun _ _ => 0; l_failed := false; l_uk := delta; l_sk := fun a => match a with O => sigma | _ => 0 end |}.
Lemma unit_lib_ok : forall d a b sigma, 0 < sigma -> sigma ^ 2 = (d * a) ^ 2 + b ^ 2 -> lib_ok 1 d (axis 0 a) (axis 0 b) (unit_lib sigma).
Proof.
  intros d a b sigma P E. unfold lib_ok. cbv zeta. cbn [axis f_n f_u f_s unit_lib l_q l_r l_failed l_uk l_sk].
  change (rows_k 1 1 1) with 2%nat. change (1 + 1)%nat with 2%nat. change (Nat.min 1 1) with 1%nat. split; [split|split; [|split; [|split]]].
  - intros x y Hx Hy. change (Nat.min 1 1) with 1%nat in *. two. unfold mmul, tr, delta, sumn. cbn. lra.
  - intros i j Hi Hj. change (Nat.min 1 1) with 1%nat in *. unfold w_of, c_of, mmul, tr, axis, delta, sumn. cbn [f_n f_u f_s]. two; cbn; lra.
  - intros x y Hx Hy. change (Nat.min 2 2) with 2%nat in *. unfold mmul, tr, delta, sumn. two; cbn; lra.
  - intros x Hx. change (Nat.min 2 2) with 2%nat in *. two; lra.
  - intros x y Hxy Hy. change (Nat.min 2 2) with 2%nat in *. assert (Hx : (x < 2)%nat) by lia. two; try lra; lia.
  - change (Nat.min 2 2) with 2%nat. exists (fun i j => match i, j with O, O => d * a / sigma | S _, O => b / sigma | O, S _ => - b / sigma | S _, S _ => d * a / sigma end). split.
    + assert (Q : (d * a / sigma) * (d * a / sigma) + (b / sigma) * (b / sigma) = 1) by (replace (d * a / sigma * (d * a / sigma) + b / sigma * (b / sigma)) with (((d * a) ^ 2 + b ^ 2) / sigma ^ 2) by (field; lra); rewrite <- E; field; lra).
      intros x y Hx Hy. unfold mmul, tr, delta, sumn. two; cbn [seq map Rsum fold_right Nat.eqb Nat.ltb Nat.leb Nat.sub Nat.min]; [|field; lra|field; lra|].
      * rewrite Rplus_0_r. exact Q.
      * rewrite Rplus_0_r. replace (- b / sigma * (- b / sigma)) with (b / sigma * (b / sigma)) by (field; lra). lra.
    + intros i j Hi Hj. unfold kmat, c_of, mmul, tr, axis, delta, sumn. cbn [f_n f_u f_s]. two; cbn [seq map Rsum fold_right Nat.eqb Nat.ltb Nat.leb Nat.sub Nat.min]; field; lra.
Qed.
Lemma unit_good : forall s, 0 < s -> good 1 1 (unit_proj s).
Proof.
  intros s H. split; [reflexivity|]. split; [reflexivity|]. cbn [unit_proj of_axis p_us]. split; [cbn; lia|]. split.
  - intros a b Ha Hb. cbn [axis f_n f_u] in *. two. unfold dotv, sumn, delta. cbn. lra.
  - unfold trace, gram, sumn, axis, delta. cbn. nra.
Qed.
(** a good projection of one term on one topic *)
Lemma unit_merge : forall d a b sigma, 0 < a -> 0 < b -> 0 < sigma -> sigma ^ 2 = (d * a) ^ 2 + b ^ 2 ->
  exists p', merge (unit_proj a) (unit_proj b) d (unit_lib sigma) = Ok p' /\ pgram p' O O = sigma ^ 2.
Proof.
  intros d a b sigma Ha Hb P E.
  destruct (lsi_merge (unit_proj a) (unit_proj b) d (unit_lib sigma) (axis 0 a) (axis 0 b) eq_refl eq_refl eq_refl) as (f' & HM & KP & _); try (cbn; lia).
  - apply (unit_good a Ha).
  - apply unit_lib_ok; assumption.
  - eexists. split; [exact HM|]. change (pgram _) with (gram (f_n f') (f_u f') (f_s f')).
    destruct (k_rest _ _ _ _ _ _ _ KP) as (N & V & H). destruct (k_range _ _ _ _ _ _ _ KP) as (N1 & N2). cbn [unit_proj of_axis p_k p_m] in *.
    assert (F1 : f_n f' = 1%nat) by lia.
    assert (TT : 0 < trace 1 (fun i j => d ^ 2 * pgram (unit_proj a) i j + pgram (unit_proj b) i j)).
    { unfold trace. rewrite sumn_S, sumn_0. unfold unit_proj. rewrite !axis_gram. unfold delta. cbn [Nat.eqb]. assert (0 < b ^ 2) by nra. assert (0 <= d ^ 2 * a ^ 2) by nra. nra. }
    destruct (k_top _ _ _ _ _ _ _ KP TT) as [O1 E1 _ _ _]. rewrite F1 in *.
    assert (OO := O1 O O ltac:(lia) ltac:(lia)). unfold dotv in OO. rewrite sumn_S, sumn_0 in OO. cbn [Nat.eqb] in OO.
    assert (EE := E1 O O ltac:(lia) ltac:(lia)). unfold apply in EE. rewrite sumn_S, sumn_0 in EE. unfold unit_proj in EE. rewrite !axis_gram in EE. unfold delta in EE. cbn [Nat.eqb] in EE.
    unfold gram. rewrite sumn_S, sumn_0. set (x := f_u f' O O) in *. assert (XX : x * x = 1) by lra. rewrite XX.
    assert (H0 : f_s f' O ^ 2 * (x * x) = (d ^ 2 * a ^ 2 + b ^ 2) * (x * x)) by (rewrite <- Rmult_assoc, <- EE; ring). rewrite XX in H0. rewrite E. nra.
Qed.

(** serial, with decay, and distributed over two workers, without *)
Example train_example : exists p', libs_good (empty_like (unit_proj 1)) (1 / 2) [(unit_proj 6, unit_lib 5); (unit_proj 4, unit_lib 5)] /\
  train (empty_like (unit_proj 1)) (1 / 2) [(unit_proj 6, unit_lib 5); (unit_proj 4, unit_lib 5)] = Ok p' /\
  pgram p' O O = discounted (1 / 2) (pgram (empty_like (unit_proj 1))) [(unit_proj 6, unit_lib 5); (unit_proj 4, unit_lib 5)] O O.
Proof.
  destruct (unit_merge (1 / 2) 6 4 5) as (ps & HS & GS); [lra|lra|lra|lra|]. exists ps. split; [|split].
  - cbn [libs_good]. split; [intros f1 f2 E1; discriminate|]. change (merge (empty_like (unit_proj 1)) (unit_proj 6) (1 / 2) (unit_lib 5)) with (@Ok proj (unit_proj 6)). split; [|rewrite HS; exact Logic.I].
    intros f1 f2 E1 E2. injection E1 as <-. injection E2 as <-. cbn [unit_proj of_axis p_m]. apply unit_lib_ok; lra.
  - cbn [train]. change (merge (empty_like (unit_proj 1)) (unit_proj 6) (1 / 2) (unit_lib 5)) with (@Ok proj (unit_proj 6)). cbn [rbind]. rewrite HS. reflexivity.
  - rewrite GS. cbn [discounted]. change (pgram (empty_like (unit_proj 1)) O O) with 0. unfold unit_proj. rewrite !axis_gram. unfold delta. cbn [Nat.eqb]. lra.
Qed.
Example distributed_example : exists p', dist_add (unit_proj 1) 1 [([(unit_proj 3, unit_lib 5)], unit_lib 5); ([(unit_proj 4, unit_lib 5)], unit_lib 5); ([], unit_lib 5)] = Ok p' /\
  pgram p' O O = total [unit_proj 4; unit_proj 3] O O.
Proof.
  destruct (unit_merge 1 3 4 5) as (ps & HS & GS); [lra|lra|lra|lra|]. exists ps. split.
  - unfold dist_add. cbn [rmapM fst snd train].
    change (merge (empty_like (unit_proj 1)) (unit_proj 3) 1 (unit_lib 5)) with (@Ok proj (unit_proj 3)). change (merge (empty_like (unit_proj 1)) (unit_proj 4) 1 (unit_lib 5)) with (@Ok proj (unit_proj 4)).
    cbn [rbind getstate train]. rewrite HS. cbn [rbind]. change (merge ps (empty_like (unit_proj 1)) 1 (unit_lib 5)) with (Ok ps). reflexivity.
  - rewrite GS. unfold total, unit_proj. cbn [map fold_right]. rewrite !axis_gram. unfold delta. cbn [Nat.eqb]. lra.
Qed.

(** the dispatcher merges the workers' states without decay: old documents are not discounted as in the serial version *)
Theorem lsi_distributed_decay_refuted : exists p decay j1 j2 l1 l2 ld,
  good 1 1 p /\ good 1 1 j1 /\ good 1 1 j2 /\ libs_good p decay [(j1, l1); (j2, l2)] /\ libs_good j1 1 [(j2, ld)] /\
  exists ps pd, train p decay [(j1, l1); (j2, l2)] = Ok ps /\ dist_add p decay [([(j1, l1)], ld); ([(j2, l2)], ld)] = Ok pd /\ pgram ps O O = 25 /\ pgram pd O O = 52.
Proof.
  assert (S52 : 0 < sqrt 52) by (apply sqrt_lt_R0; lra). assert (Q52 : sqrt 52 ^ 2 = 52) by (apply pow_sqrt; lra).
  destruct (unit_merge (1 / 2) 6 4 5) as (ps & HS & GS); [lra|lra|lra|lra|].
  destruct (unit_merge 1 6 4 (sqrt 52)) as (pd & HD & GD); [lra|lra|lra|rewrite Q52; lra|].
  exists (empty_like (unit_proj 1)), (1 / 2), (unit_proj 6), (unit_proj 4), (unit_lib 5), (unit_lib 5), (unit_lib (sqrt 52)).
  split; [repeat split|]. split; [apply unit_good; lra|]. split; [apply unit_good; lra|]. split.
  - cbn [libs_good]. split; [intros f1 f2 E1; discriminate|]. change (merge (empty_like (unit_proj 1)) (unit_proj 6) (1 / 2) (unit_lib 5)) with (@Ok proj (unit_proj 6)). split; [|rewrite HS; exact Logic.I].
    intros f1 f2 E1 E2. injection E1 as <-. injection E2 as <-. cbn [unit_proj of_axis p_m]. apply unit_lib_ok; lra.
  - split.
    + cbn [libs_good]. rewrite HD. split; [|exact Logic.I]. intros f1 f2 E1 E2. injection E1 as <-. injection E2 as <-. cbn [unit_proj of_axis p_m]. apply unit_lib_ok; [exact S52|rewrite Q52; lra].
    + exists ps, pd. split; [|split; [|split; [rewrite GS; lra|rewrite GD; exact Q52]]].
      * cbn [train]. change (merge (empty_like (unit_proj 1)) (unit_proj 6) (1 / 2) (unit_lib 5)) with (@Ok proj (unit_proj 6)). cbn [rbind]. rewrite HS. reflexivity.
      * unfold dist_add. cbn [rmapM fst snd train].
        change (merge (empty_like (empty_like (unit_proj 1))) (unit_proj 6) (1 / 2) (unit_lib 5)) with (@Ok proj (unit_proj 6)).
        change (merge (empty_like (empty_like (unit_proj 1))) (unit_proj 4) (1 / 2) (unit_lib 5)) with (@Ok proj (unit_proj 4)).
        cbn [rbind getstate train]. rewrite HD. reflexivity.
Qed.
Print Assumptions lsi_distributed_decay_refuted.

(** a second call of [add_documents] replaces what the model knew *)
Theorem lsi_distributed_forgets_refuted :
  (forall p p' decay workers, p_m p = p_m p' -> p_k p = p_k p' -> dist_add p decay workers = dist_add p' decay workers) /\
  exists p j l ld, good 1 1 p /\ good 1 1 j /\ libs_good p 1 [(j, l)] /\
  exists ps pd, train p 1 [(j, l)] = Ok ps /\ dist_add p 1 [([(j, l)], ld)] = Ok pd /\ pgram ps O O = 25 /\ pgram pd O O = 16.
Proof.
  split.
  - intros p p' decay workers EM EK. unfold dist_add. replace (empty_like p) with (empty_like p') by (unfold empty_like; now rewrite EM, EK). reflexivity.
  - destruct (unit_merge 1 3 4 5) as (ps & HS & GS); [lra|lra|lra|lra|].
    exists (unit_proj 3), (unit_proj 4), (unit_lib 5), (unit_lib 5). split; [apply unit_good; lra|]. split; [apply unit_good; lra|]. split.
    + cbn [libs_good]. rewrite HS. split; [|exact Logic.I]. intros f1 f2 E1 E2. injection E1 as <-. injection E2 as <-. cbn [unit_proj of_axis p_m]. apply unit_lib_ok; lra.
    + exists ps, (unit_proj 4). split; [cbn [train]; rewrite HS; reflexivity|]. split; [reflexivity|]. split; [rewrite GS; lra|]. unfold unit_proj. rewrite axis_gram. unfold delta. cbn. lra.
Qed.
Print Assumptions lsi_distributed_forgets_refuted.

(** ** The chunk size matters, even if there are enough topics *)
Definition doc_axis (k : nat) (w : R) : col := fun i => w * delta i k.
Lemma one_svd : forall k w, (k < 2)%nat -> 0 < w -> svd_run 2 2 (Some 0%nat) 0 true [[(doc_axis k w, fun a => delta a k)]] (action [[(doc_axis k w, fun a => delta a k)]])
  {| f_n := 1; f_u := mmul 2 delta (fun i _ => delta i k); f_s := fun _ => w |}.
Proof.
  intros k w Hk Hw. unfold svd_run. cbv zeta. change (samples_of 2 (Some 0%nat)) with 2%nat. change (Nat.min 2 2) with 2%nat.
  exists delta, (action [[(doc_axis k w, fun a => delta a k)]]), (fun i _ => delta i k), (fun _ => w). split; [|split].
  - constructor. split.
    + intros a b Ha Hb. change (Nat.min 2 2) with 2%nat in *. two; unfold mmul, tr, delta, sumn; cbn; lra.
    + intros i j Hi Hj. change (Nat.min 2 2) with 2%nat in *. unfold mmul. now rewrite (sumn_delta' 2 i).
  - unfold final_svd_ok. cbn [map concat fst app length]. change (Nat.min 2 1) with 1%nat. split; [|split; [|split]].
    + intros a b Ha Hb. change (Nat.min 2 1) with 1%nat in *. two; unfold mmul, tr, delta, sumn; cbn; lra.
    + intros. lra.
    + intros. lra.
    + change (Nat.min 2 1) with 1%nat. exists (fun _ _ => 1). split.
      * intros a b Ha Hb. clear Hk. two. unfold mmul, tr, delta, sumn. cbn. lra.
      * intros i j Hi Hj. assert (j = O) by lia. subst j. unfold of_cols, project, doc_axis. cbn [map nth]. rewrite (sumn_S 0), sumn_0.
        rewrite (sumn_ext 2 _ (fun i0 => w * delta i0 k * delta i0 i)) by (intros; ring). rewrite sumn_delta by exact Hi. lra.
  - unfold finish. cbn [map concat fst app length]. change (Nat.min 2 1) with 1%nat.
    destruct (clip_spec 1 (fun _ => w ^ 2) 2 eps_svd) as (n & EC & _ & B); [lia|lia|unfold eps_svd; lra|intros; nra|].
    assert (T : sumn 1 (fun _ => w ^ 2) = w ^ 2) by (rewrite sumn_S, sumn_0; lra).
    destruct (B ltac:(rewrite T; nra)) as [[N1 _] N2 _ _]. assert (n = 1%nat) by lia. subst n. rewrite EC. reflexivity.
Qed.
(** two documents of weights 100 and 1: one chunk has rank two, merging two chunks gives rank one *)
Theorem lsi_chunksize_refuted : exists d1 d2 o1 o2 y1 y2 f1 f2 l p',
  svd_run 2 2 (Some 0%nat) 0 true [[(d1, o1)]] y1 f1 /\ svd_run 2 2 (Some 0%nat) 0 true [[(d2, o2)]] y2 f2 /\
  let p := {| p_m := 2; p_k := 2; p_us := None |} in
  let ups := [({| p_m := 2; p_k := 2; p_us := Some f1 |}, l); ({| p_m := 2; p_k := 2; p_us := Some f2 |}, l)] in
  libs_good p 1 ups /\ train p 1 ups = Ok p' /\ (exists f, p_us p' = Some f /\ f_n f = 1%nat) /\
  (* whereas the same documents in one chunk, whatever LAPACK returns *)
  forall o1 o2 y f, svd_run 2 2 (Some 0%nat) 0 true [[(d1, o1); (d2, o2)]] y f -> f_n f = 2%nat.
Proof.
  pose proof (one_svd 0 100 ltac:(lia) ltac:(lra)) as R1. pose proof (one_svd 1 1 ltac:(lia) ltac:(lra)) as R2.
  set (f1 := {| f_n := 1; f_u := mmul 2 delta (fun i _ => delta i 0); f_s := fun _ => 100 |}) in *.
  set (f2 := {| f_n := 1; f_u := mmul 2 delta (fun i _ => delta i 1); f_s := fun _ => 1 |}) in *.
  set (l := axis_lib 100 1).
  assert (UE : forall k i, (k < 2)%nat -> (i < 2)%nat -> mmul 2 delta (fun i _ => delta i k) i 0%nat = delta i k) by (intros k i Hk Hi; unfold mmul; rewrite (sumn_delta' 2 i) by exact Hi; reflexivity).
  assert (LO : lib_ok 2 1 f1 f2 l).
  { assert (A := axis_lib_ok 100 1 ltac:(lra) ltac:(lra)). unfold lib_ok in *. cbv zeta in *. fold l in A. change (f_n f1) with 1%nat. change (f_n f2) with 1%nat. change (f_s f1) with (f_s (axis 0 100)). change (f_s f2) with (f_s (axis 1 1)).
    change (f_n (axis 0 100)) with 1%nat in A. change (f_n (axis 1 1)) with 1%nat in A.
    assert (CE : forall i j, (i < 1)%nat -> (j < 1)%nat -> c_of 2 f1 f2 i j = c_of 2 (axis 0 100) (axis 1 1) i j).
    { intros i j Hi Hj. two. unfold c_of, mmul at 1, tr. cbn [f1 f2 f_u]. unfold mmul at 3. unfold tr. cbn [axis f_u]. apply sumn_ext. intros. now rewrite !UE by lia. }
    destruct A as ((OQ & QE) & OU & NN & D & v & OV & KE). split; [split; [exact OQ|]|split; [exact OU|split; [exact NN|split; [exact D|exists v; split; [exact OV|]]]]].
    - intros i j Hi Hj. rewrite (QE i j Hi Hj). assert (j = O) by lia. subst j. unfold w_of. cbn [f1 f2 f_u f_n]. change (f_n (axis 0 100)) with 1%nat. rewrite UE by lia. cbn [axis f_u].
      f_equal. set (cc := c_of 2 f1 f2) in *. unfold mmul at 1. set (uu := mmul 2 delta (fun i0 _ : nat => delta i0 0)) in *. unfold mmul. rewrite !(sumn_S 0), !sumn_0.
      rewrite <- (CE O O) by lia. unfold uu. rewrite UE by lia. reflexivity.
    - intros i j Hi Hj. rewrite <- (KE i j Hi Hj). change (rows_k 2 1 1) with 2%nat in Hi. change (1 + 1)%nat with 2%nat in Hj. unfold kmat. two; cbn [Nat.ltb Nat.leb Nat.eqb Nat.sub]; try reflexivity. rewrite (CE O O) by lia. reflexivity. }
  set (p1 := {| p_m := 2; p_k := 2; p_us := Some f1 |}). set (p2 := {| p_m := 2; p_k := 2; p_us := Some f2 |}).
  assert (O1 : orthonormal_cols 2 1 (f_u f1)) by (intros a b Ha Hb; two; unfold dotv, sumn, f1, delta, mmul, sumn; cbn; lra).
  destruct (lsi_merge p1 p2 1 l f1 f2 eq_refl eq_refl eq_refl) as (f' & HM & KP & _); [cbn; lia|cbn; lia|cbn; lia|exact O1|exact LO|].
  exists (doc_axis 0 100), (doc_axis 1 1), (fun a => delta a 0), (fun a => delta a 1), (action [[(doc_axis 0 100, fun a : nat => delta a 0)]]), (action [[(doc_axis 1 1, fun a : nat => delta a 1)]]), f1, f2, l, {| p_m := 2; p_k := 2; p_us := Some f' |}.
  split; [exact R1|]. split; [exact R2|]. cbv zeta. split; [|split; [|split]].
  - cbn [libs_good]. split; [intros x1 x2 E1; discriminate|]. change (merge {| p_m := 2; p_k := 2; p_us := None |} _ 1 l) with (@Ok proj p1). split.
    + intros x1 x2 E1 E2. injection E1 as <-. injection E2 as <-. exact LO.
    + fold p2. rewrite HM. exact Logic.I.
  - cbn [train]. change (merge {| p_m := 2; p_k := 2; p_us := None |} _ 1 l) with (@Ok proj p1). cbn [rbind]. fold p2. rewrite HM. reflexivity.
  - exists f'. split; [reflexivity|].
    assert (GE : forall i j, pgram p1 i j = f_s f1 O ^ 2 * (f_u f1 i O * f_u f1 j O) /\ pgram p2 i j = f_s f2 O ^ 2 * (f_u f2 i O * f_u f2 j O)).
    { intros. unfold pgram, gram, p1, p2. cbn [p_us]. change (f_n f1) with 1%nat. change (f_n f2) with 1%nat. rewrite !sumn_S, !sumn_0. split; lra. }
    assert (TR : trace 2 (fun i j => 1 ^ 2 * pgram p1 i j + pgram p2 i j) = 10001).
    { unfold trace. rewrite !sumn_S, sumn_0. destruct (GE O O) as (-> & ->), (GE 1%nat 1%nat) as (-> & ->). cbn [f1 f2 f_s f_u]. rewrite !UE by lia. unfold delta. cbn [Nat.eqb]. lra. }
    destruct (k_range _ _ _ _ _ _ _ KP) as (N1 & N2). cbn [p1 p_k p_m] in *. assert (J : (f_n f' = 1 \/ f_n f' = 2)%nat) by lia. destruct J as [J|J]; [exact J|]. exfalso.
    assert (LE := k_least _ _ _ _ _ _ _ KP ltac:(rewrite TR; lra) 1%nat ltac:(lia)).
    (* the energy of the first factor is the largest quadratic form, at least that of the first axis *)
    destruct (k_top _ _ _ _ _ _ _ KP ltac:(rewrite TR; lra)) as [OO EE DD PP RR]. rewrite TR in LE.
    assert (I2 : INR 2 = 2) by (cbn; lra). rewrite I2, Rmin_left in LE by lra.
    assert (T1 : trace 2 (gram 1 (f_u f') (f_s f')) = f_s f' O ^ 2).
    { rewrite trace_orth; [rewrite sumn_S, sumn_0; lra|]. intros a b Ha Hb. apply OO; lia. }
    rewrite T1 in LE.
    assert (TE : forall i j, 1 ^ 2 * pgram p1 i j + pgram p2 i j = 10000 * (f_u f1 i O * f_u f1 j O) + f_u f2 i O * f_u f2 j O) by (intros; destruct (GE i j) as (-> & ->); cbn [f1 f2 f_s]; lra).
    assert (EV : forall a i, (a < 2)%nat -> (i < 2)%nat -> f_s f' a ^ 2 * f_u f' i a = (if (i =? 0)%nat then 10000 else 1) * f_u f' i a).
    { intros a i Ha Hi. rewrite <- EE by lia. unfold apply. rewrite (sumn_ext 2 _ (fun j => (if (i =? 0)%nat then 10000 else 1) * f_u f' j a * delta j i)).
      - rewrite sumn_delta by exact Hi. reflexivity.
      - intros j Hj. rewrite TE. cbn [f1 f2 f_u]. rewrite !UE by lia. two; unfold delta; cbn [Nat.eqb]; ring. }
    assert (N0 := OO O O ltac:(lia) ltac:(lia)). assert (N1' := OO 1%nat 1%nat ltac:(lia) ltac:(lia)). assert (N01 := OO O 1%nat ltac:(lia) ltac:(lia)).
    unfold dotv in N0, N1', N01. rewrite !sumn_S, sumn_0 in N0, N1', N01. cbn [Nat.eqb] in N0, N1', N01.
    assert (A00 := EV O O ltac:(lia) ltac:(lia)). assert (A01 := EV O 1%nat ltac:(lia) ltac:(lia)). assert (A10 := EV 1%nat O ltac:(lia) ltac:(lia)). assert (A11 := EV 1%nat 1%nat ltac:(lia) ltac:(lia)).
    cbn [Nat.eqb] in A00, A01, A10, A11. assert (D1 := DD O 1%nat ltac:(lia) ltac:(lia)). assert (P1 := PP 1%nat ltac:(lia)).
    set (x0 := f_u f' O O) in *. set (x1 := f_u f' 1%nat O) in *. set (z0 := f_u f' O 1%nat) in *. set (z1 := f_u f' 1%nat 1%nat) in *. set (s0 := f_s f' O) in *. set (s1 := f_s f' 1%nat) in *.
    clearbody x0 x1 z0 z1 s0 s1. assert (S0 : s0 ^ 2 < 10000) by lra.
    assert (X0 : x0 = 0) by (destruct (Req_dec x0 0); [assumption|]; apply Rmult_eq_reg_r in A00; [lra|assumption]). subst x0.
    assert (s1 ^ 2 <= s0 ^ 2) by (apply pow_incr; lra).
    assert (Z0 : z0 = 0) by (destruct (Req_dec z0 0); [assumption|]; apply Rmult_eq_reg_r in A10; [lra|assumption]). subst z0.
    assert (x1 * z1 = 0) by lra. assert (x1 * x1 = 1) by lra. assert (z1 * z1 = 1) by lra. nra.
  - intros o1 o2 y f SR.
    assert (KF := lsi_svd_exact 2 2 (Some 0%nat) 0 true [[(doc_axis 0 100, o1); (doc_axis 1 1, o2)]] y f ltac:(lia) ltac:(lia) ltac:(discriminate) SR (or_intror (le_n 2))). cbn [concat app map fst] in KF.
    assert (CV : forall i j, cov [doc_axis 0 100; doc_axis 1 1] i j = 10000 * (delta i 0 * delta j 0) + delta i 1 * delta j 1) by (intros; unfold cov, doc_axis; cbn [map fold_right]; ring).
    assert (TR : trace 2 (cov [doc_axis 0 100; doc_axis 1 1]) = 10001) by (unfold trace; rewrite !sumn_S, sumn_0, !CV; unfold delta; cbn [Nat.eqb]; lra).
    destruct (k_range _ _ _ _ _ _ _ KF) as (N1 & N2). assert (J : (f_n f = 1 \/ f_n f = 2)%nat) by lia. destruct J as [J|J]; [|exact J]. exfalso.
    assert (LS := k_loss _ _ _ _ _ _ _ KF ltac:(lia)). destruct (k_top _ _ _ _ _ _ _ KF ltac:(rewrite TR; lra)) as [OO EE DD PP RR].
    rewrite (trace_orth _ _ _ _ OO), J, sumn_S, sumn_0, TR in LS. assert (I2 : INR 2 = 2) by (cbn; lra). rewrite I2, Rmin_left in LS by lra. rewrite J in *.
    assert (EV : forall i, (i < 2)%nat -> f_s f O ^ 2 * f_u f i O = (if (i =? 0)%nat then 10000 else 1) * f_u f i O).
    { intros i Hi. rewrite <- EE by lia. unfold apply. rewrite (sumn_ext 2 _ (fun j => (if (i =? 0)%nat then 10000 else 1) * f_u f j O * delta j i)).
      - rewrite sumn_delta by exact Hi. reflexivity.
      - intros j Hj. rewrite CV. two; unfold delta; cbn [Nat.eqb]; ring. }
    assert (N0 := OO O O ltac:(lia) ltac:(lia)). unfold dotv in N0. rewrite !sumn_S, sumn_0 in N0. cbn [Nat.eqb] in N0.
    assert (A0 := EV O ltac:(lia)). assert (A1 := EV 1%nat ltac:(lia)). cbn [Nat.eqb] in A0, A1.
    set (x0 := f_u f O O) in *. set (x1 := f_u f 1%nat O) in *. set (s0 := f_s f O) in *. clearbody x0 x1 s0.
    destruct (Req_dec x0 0) as [->|NZ]; [|apply Rmult_eq_reg_r in A0; [lra|assumption]].
    destruct (Req_dec x1 0) as [->|NZ]; [lra|]. apply Rmult_eq_reg_r in A1; [lra|assumption].
Qed.
Print Assumptions lsi_chunksize_refuted.

(** ** Use *)
(** Over the documents that the topics are eigenvectors of, they are uncorrelated, and the energy of each is its squared singular value. *)
Theorem lsi_uncorrelated : forall m docs f, top_eigen m (cov docs) (f_n f) (f_u f) (f_s f) -> forall a b, (a < f_n f)%nat -> (b < f_n f)%nat ->
  fold_right Rplus 0 (map (fun d => latent m f d a * latent m f d b) docs) = if (a =? b)%nat then f_s f a ^ 2 else 0.
Proof.
  intros m docs f [O E _ _ _] a b Ha Hb.
  assert (L : fold_right Rplus 0 (map (fun d => latent m f d a * latent m f d b) docs) = dotv m (fun i => f_u f i a) (apply m (cov docs) (fun j => f_u f j b))).
  { unfold dotv, apply, cov, latent. clear. induction docs as [|d docs IH]; cbn [map fold_right].
    - symmetry. apply sumn_all0. intros. rewrite (sumn_all0 m); [ring|]. intros. cbn. ring.
    - rewrite IH. rewrite (sumn_ext m (fun i => f_u f i a * sumn m (fun j => (d i * d j + fold_right Rplus 0 (map (fun d0 => d0 i * d0 j) docs)) * f_u f j b))
        (fun i => d i * f_u f i a * sumn m (fun j => d j * f_u f j b) + f_u f i a * sumn m (fun j => fold_right Rplus 0 (map (fun d0 => d0 i * d0 j) docs) * f_u f j b))).
      + rewrite sumn_plus, sumn_scal_r. reflexivity.
      + intros i _. rewrite (sumn_ext m _ (fun j => d i * (d j * f_u f j b) + fold_right Rplus 0 (map (fun d0 => d0 i * d0 j) docs) * f_u f j b)) by (intros; ring).
        rewrite sumn_plus, sumn_scal. ring. }
  rewrite L. rewrite (dotv_ext m _ _ (fun i => f_u f i a) (fun i => f_s f b ^ 2 * f_u f i b)) by (intros; auto). rewrite dotv_scal_r, (O a b Ha Hb).
  destruct (Nat.eqb_spec a b) as [->|]; ring.
Qed.
Print Assumptions lsi_uncorrelated.

(** Transforming a corpus gives what transforming its documents gives, whatever the chunk size. *)
Theorem lsi_corpus : forall m topics f chunksize ds, chunksize <> Some O ->
  getitem_corpus m topics f false chunksize ds = Ok (map (getitem_doc m topics f false) ds).
Proof.
  intros m topics f [c|] ds NZ; unfold getitem_corpus, getitem_chunk; cbn [negb].
  - assert (Hc : (1 <= c)%nat) by (destruct c; [congruence|lia]). destruct (chunkize_serial_exact ds c Hc) as (E & _).
    rewrite <- E at 2. set (cs := chunkize_serial ds c). clearbody cs. clear.
    assert (R : rmapM (fun ds => Ok (map (fun d => map (latent m f d) (seq 0 (Nat.min topics (f_n f)))) ds)) cs = Ok (map (map (getitem_doc m topics f false)) cs)).
    { induction cs as [|x cs IH]; [reflexivity|]. cbn [rmapM rbind map]. rewrite IH. cbn [rbind]. do 2 f_equal. }
    rewrite R. cbn [rmap]. f_equal. symmetry. apply concat_map.
  - reflexivity.
Qed.
Print Assumptions lsi_corpus.

(** [scaled] is forgotten when a corpus is transformed in chunks; without chunks the factors go to the documents instead of the topics *)
Theorem lsi_scaled_refuted : exists f d1 d2 d3,
  let ds := [d1; d2] in
  map (getitem_doc 2 2 f true) ds = [[1; 0]; [0; 1]] /\
  (exists x, getitem_corpus 2 2 f true (Some 512%nat) ds = Ok x /\ x = [[2; 0]; [0; 4]]) /\
  (exists x, getitem_corpus 2 2 f true None (rev ds) = Ok x /\ x = [[0; 2]; [1 / 2; 0]]) /\
  getitem_corpus 2 2 f true None [d1; d2; d3] = Err ValueError.
Proof.
  exists {| f_n := 2; f_u := delta; f_s := fun a => match a with O => 2 | _ => 4 end |}, (doc_axis 0 2), (doc_axis 1 4), (doc_axis 0 0). cbv zeta.
  assert (LT : forall k w a, (k < 2)%nat -> (a < 2)%nat -> latent 2 {| f_n := 2; f_u := delta; f_s := fun a => match a with O => 2 | _ => 4 end |} (doc_axis k w) a = w * delta a k).
  { intros k w a Hk Ha. unfold latent, doc_axis. cbn [f_u]. rewrite sumn_delta by exact Ha. reflexivity. }
  repeat split.
  - unfold getitem_doc. cbn [f_n f_s]. change (Nat.min 2 2) with 2%nat. cbn [seq map]. rewrite !LT by lia. unfold delta. cbn [Nat.eqb]. repeat (f_equal; try field).
  - eexists. split; [unfold getitem_corpus; exact (lsi_corpus 2 2 {| f_n := 2; f_u := delta; f_s := fun a => match a with O => 2 | _ => 4 end |} (Some 512%nat) [doc_axis 0 2; doc_axis 1 4] ltac:(discriminate))|]. unfold getitem_doc. cbn [f_n f_s]. change (Nat.min 2 2) with 2%nat. cbn [seq map].
    rewrite !LT by lia. unfold delta. cbn [Nat.eqb]. repeat (f_equal; try field).
  - eexists. split; [unfold getitem_corpus, getitem_chunk; cbn [rev app length f_n negb]; change (Nat.min 2 2) with 2%nat; cbn [Nat.eqb]; reflexivity|].
    cbn [seq map combine fst snd f_s]. rewrite !LT by lia. unfold delta. cbn [Nat.eqb]. repeat (f_equal; try field).
Qed.
Print Assumptions lsi_scaled_refuted.
