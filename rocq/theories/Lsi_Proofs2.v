(** Proofs about [stochastic_svd] and about a series of merges. *)
From Coq Require Import Reals Lra Permutation.
From Verif Require Import Base MatReal_Model MatReal_Proofs Utils_Model LdaTrain_Model LdaTrain_Proofs2 Lsi_Model Lsi_Spec Lsi_Linear Lsi_Proofs.
From Coq Require Import ZifyBool ZifyNat.
Local Open Scope R_scope.

(** ** One merge *)
Lemma energy_prefix : forall t r s, (r <= t)%nat -> (forall a, (r <= a)%nat -> (a < t)%nat -> s a = 0) ->
  sumn t (fun a => s a ^ 2) = sumn r (fun a => s a ^ 2).
Proof.
  intros t r s H Z0. replace t with (r + (t - r))%nat by lia. rewrite sumn_split, (sumn_all0 (t - r)); [lra|].
  intros k Hk. rewrite Z0 by lia. ring.
Qed.

Lemma clip_le : forall t e k d n, clip_spectrum t e k d = Ok n -> (1 <= n)%nat -> (n <= t)%nat.
Proof.
  intros t e k d n E H. unfold clip_spectrum in E. destruct (k =? 0)%nat; [discriminate|]. cbv zeta in E.
  match type of E with context [(Nat.min k ?x - 1)%nat] => set (c := x) in E; clearbody c end.
  destruct (Nat.ltb_spec (Nat.min k c - 1) t) as [L|L]; [|discriminate]. assert (Nat.min k c = n) by congruence. lia.
Qed.

(** [least_leading] of energies with [r] positive ones keeps at most [r] *)
Lemma keep_le : forall t r s k thr j, (r <= t)%nat -> (forall a, (r <= a)%nat -> (a < t)%nat -> s a = 0) -> 0 <= thr ->
  0 < sumn t (fun a => s a ^ 2) -> least_leading t (fun a => s a ^ 2) k thr j -> (j <= r)%nat.
Proof.
  intros t r s k thr j Hr Z0 Ht T [H1 H2 H3 H4]. destruct (le_lt_dec j r) as [|L]; [assumption|]. exfalso.
  assert (R1 : (1 <= r)%nat). { destruct r; [|lia]. rewrite (energy_prefix t 0 s Hr Z0), sumn_0 in T. lra. }
  specialize (H4 r ltac:(lia)). rewrite (energy_prefix t r s Hr Z0) in H4.
  assert (0 <= sumn r (fun a => s a ^ 2)) by (apply sumn_nonneg; intros; nra). nra.
Qed.

Lemma kept_of : forall m T t r u s k discard, spectral m T r u s -> (r <= t)%nat -> (0 < t)%nat -> (0 < k)%nat -> 0 <= discard ->
  (forall a, (r <= a)%nat -> (a < t)%nat -> s a = 0) ->
  exists n, clip_spectrum t (fun a => s a ^ 2) k discard = Ok n /\ kept m T k discard n u s /\ (trace m T = 0 -> n = 1%nat /\ r = O).
Proof.
  intros m T t r u s k discard SP Hr Ht Hk Hd Z0.
  destruct (clip_spec t (fun a => s a ^ 2) k discard Ht Hk Hd) as (n & E & N0 & N1); [intros; nra|]. exists n. split; [exact E|].
  assert (IK : 0 < INR k) by (apply lt_0_INR; lia).
  assert (TH : 0 <= Rmin discard (1 / INR k)) by (apply Rmin_glb; [exact Hd|unfold Rdiv; rewrite Rmult_1_l; apply Rlt_le, Rinv_0_lt_compat; exact IK]).
  assert (TR : trace m T = sumn t (fun a => s a ^ 2)).
  { rewrite (trace_ext m T _ (sp_sum _ _ _ _ _ SP)), (trace_orth m r u s (sp_orth _ _ _ _ _ SP)). symmetry. now apply energy_prefix. }
  assert (G : forall n, (n <= r)%nat -> trace m (gram n u s) = sumn n (fun a => s a ^ 2)).
  { intros n' Hn. apply trace_orth. intros a b Ha Hb. apply (sp_orth _ _ _ _ _ SP); lia. }
  assert (NN : 0 <= sumn t (fun a => s a ^ 2)) by (apply sumn_nonneg; intros; nra).
  destruct (Req_dec (sumn t (fun a => s a ^ 2)) 0) as [T0|T0].
  - assert (n = 1%nat) by auto. subst n.
    assert (R0 : r = O).
    { destruct r; [reflexivity|]. exfalso. rewrite (energy_prefix t (S r) s Hr Z0) in T0. rewrite sumn_S in T0.
      assert (0 < s r) by (apply (sp_pos _ _ _ _ _ SP); lia). assert (0 <= sumn r (fun a => s a ^ 2)) by (apply sumn_nonneg; intros; nra). nra. }
    subst r. assert (S0 : s O = 0) by (apply Z0; lia).
    assert (TE : forall i j, (i < m)%nat -> (j < m)%nat -> T i j = 0) by (intros i j Hi Hj; rewrite (sp_sum _ _ _ _ _ SP i j Hi Hj); reflexivity).
    assert (GE : forall i j, gram 1 u s i j = 0) by (intros; unfold gram; rewrite sumn_S, sumn_0, S0; ring).
    split; [|split; auto]. split.
    + lia.
    + intros H. lra.
    + intros _. rewrite TR, T0, trace_gram, sumn_S, sumn_0, S0. lra.
    + intros H. lra.
    + exists O, (fun _ _ => 0). intros i j Hi Hj. rewrite (TE i j Hi Hj), GE, sumn_0. ring.
  - assert (LL := N1 ltac:(lra)). assert (JR : (n <= r)%nat) by (apply (keep_le t r s k _ n Hr Z0 TH); [lra|exact LL]).
    split; [|intros; lra]. destruct LL as [H1 H2 H3 H4]. split.
    + exact H1.
    + intros _. exact (spectral_top m T r u s n SP JR).
    + intros H. rewrite TR, (G n JR). apply H3. exact H.
    + intros _ i Hi. rewrite TR, (G i) by lia. apply H4. exact Hi.
    + exists (r - n)%nat, (fun i a => s (n + a)%nat * u i (n + a)%nat). intros i j Hi Hj. rewrite (sp_sum _ _ _ _ _ SP i j Hi Hj).
      unfold gram. replace r with (n + (r - n))%nat at 1 by lia. rewrite sumn_split. f_equal. apply sumn_ext. intros. ring.
Qed.

Lemma kept_ext : forall m T T' k d n u s, (forall i j, (i < m)%nat -> (j < m)%nat -> T i j = T' i j) -> kept m T k d n u s -> kept m T' k d n u s.
Proof.
  intros m T T' k d n u s E [H1 H2 H3 H4 (N & V & H5)].
  assert (TR : trace m T = trace m T') by (apply trace_ext; exact E).
  split.
  - exact H1.
  - intros P. rewrite <- TR in P. destruct (H2 P) as [A B C D F]. split; auto.
    + intros a i Ha Hi. rewrite <- (B a i Ha Hi). unfold apply. apply sumn_ext. intros j Hj. now rewrite E.
    + intros x Hx a Ha. rewrite <- (quad_ext m T T' x E). now apply F.
  - rewrite <- TR. exact H3.
  - rewrite <- TR. exact H4.
  - exists N, V. intros i j Hi Hj. rewrite <- (E i j Hi Hj). now apply H5.
Qed.

Lemma merge_kept : forall p other decay l f1 f2, p_us p = Some f1 -> p_us other = Some f2 -> p_m other = p_m p -> (0 < p_m p)%nat -> (0 < p_k p)%nat ->
  (0 < f_n f1)%nat -> orthonormal_cols (p_m p) (f_n f1) (f_u f1) -> lib_ok (p_m p) decay f1 f2 l ->
  exists f', merge p other decay l = Ok {| p_m := p_m p; p_k := p_k p; p_us := Some f' |} /\
    kept (p_m p) (merged_T decay f1 f2) (p_k p) discard_merge (f_n f') (f_u f') (f_s f') /\
    (forall a, 0 <= f_u f' O a).
Proof.
  intros p other decay l f1 f2 E1 E2 EM Hm Hk Hn O OK. unfold merge. rewrite E1, E2, EM, Nat.eqb_refl. cbn [negb].
  destruct (merged_spectral (p_m p) decay f1 f2 l OK O) as (r & Hr & SP & Z0).
  apply spectral_canonical in SP.
  assert (T0 : (0 < merged_t (p_m p) f1 f2 l)%nat) by (unfold merged_t, rows_k; destruct (l_failed l); lia).
  destruct (kept_of (p_m p) _ _ r _ _ (p_k p) discard_merge SP Hr T0 Hk) as (n & EC & KP & _); [unfold discard_merge; lra|exact Z0|].
  unfold merged_t, merged_s in EC.
  match goal with |- context [clip_spectrum ?a ?b ?c ?d] => replace (clip_spectrum a b c d) with (Ok n) by (rewrite <- EC; destruct (l_failed l); reflexivity) end.
  cbn [rbind]. eexists. split; [reflexivity|]. cbn [f_n f_u f_s]. split; [exact KP|]. intros a. now apply canonical_first.
Qed.

(** ** Chunks *)
Lemma fold_madd : forall {A} (f : A -> mat) l y i j, fold_left (fun y c => madd y (f c)) l y i j = y i j + Rsum (map (fun c => f c i j) l).
Proof.
  intros A f l. induction l as [|c l IH]; intros y i j; cbn [fold_left map]; [change (Rsum []) with 0; lra|]. rewrite IH, Rsum_cons. unfold madd. lra.
Qed.
Lemma Rsum_concat : forall {A} (g : A -> R) ls, Rsum (map (fun l => Rsum (map g l)) ls) = Rsum (map g (concat ls)).
Proof. intros A g ls. induction ls as [|l ls IH]; [reflexivity|]. cbn [map concat]. rewrite Rsum_cons, map_app, Rsum_app, IH. reflexivity. Qed.
Lemma action_concat : forall chunks i a, action chunks i a = act (concat chunks) i a.
Proof. intros. unfold action. rewrite fold_madd. unfold act, mzero. rewrite (Rsum_concat (fun d : col * col => fst d i * snd d a)). lra. Qed.
Lemma power_concat : forall m q chunks i a, power m q chunks i a = power1 m q (concat chunks) i a.
Proof. intros. unfold power. rewrite fold_madd. unfold power1, mzero. rewrite (Rsum_concat (fun d : col => d i * sumn m (fun j => d j * q j a))). lra. Qed.
Lemma covariance_concat : forall m q chunks i j, covariance m q chunks i j = cov (project m q (concat chunks)) i j.
Proof.
  intros. unfold covariance. rewrite fold_madd. unfold mzero, outer, project.
  rewrite (Rsum_ext _ (fun c => Rsum (map (fun d : col => sumn m (fun k => q k i * d k) * sumn m (fun k => q k j * d k)) c))).
  - rewrite (Rsum_concat (fun d : col => sumn m (fun k => q k i * d k) * sumn m (fun k => q k j * d k))). unfold cov. rewrite map_map.
    change (Rsum ?l) with (fold_right Rplus 0 l). lra.
  - intros c _. now rewrite map_map.
Qed.
Lemma cov_mmul : forall (b : list col) i j, cov b i j = mmul (length b) (of_cols b) (tr (of_cols b)) i j.
Proof.
  intros. unfold mmul, tr, of_cols, cov, sumn. change (fold_right Rplus 0) with Rsum. f_equal.
  induction b as [|d b IH]; [reflexivity|]. cbn [length seq map nth]. f_equal. rewrite IH, <- seq_shift, map_map. reflexivity.
Qed.


Lemma final_gram : forall m p q sparse chunks u s, final_svd_ok m p q sparse chunks u s ->
  let t := if sparse then Nat.min p (length (concat chunks)) else p in
  let s' := if sparse then s else fun a => sqrt (s a) in
  let K := of_cols (project m q (concat chunks)) in
  orthonormal_cols p t u /\ (forall a, (a < t)%nat -> 0 <= s' a) /\ (forall a b, (a <= b)%nat -> (b < t)%nat -> s' b <= s' a) /\
  forall a b, (a < p)%nat -> (b < p)%nat -> mmul (length (concat chunks)) K (tr K) a b = gram t u s' a b.
Proof.
  intros m p q sparse chunks u s SV t s' K. unfold final_svd_ok in SV. subst t s'. set (docs := concat chunks) in *. destruct sparse.
  - assert (SV' := SV). destruct SV' as (OU & NN & D & _). split; [now apply orth_cols|]. repeat split; [exact NN|exact D|].
    intros a b Ha Hb. exact (svd_gram p _ K u s a b SV Ha Hb).
  - assert (E : forall a b, covariance m q chunks a b = mmul (length docs) K (tr K) a b).
    { intros. rewrite covariance_concat, cov_mmul. fold docs. unfold K. unfold project at 1. now rewrite map_length. }
    assert (SV' : svd_of p p (mmul (length docs) K (tr K)) u s).
    { destruct SV as (A & B & C & v & V1 & V2). split; [exact A|]. split; [exact B|]. split; [exact C|]. exists v. split; [exact V1|]. intros. rewrite <- E. auto. }
    assert (SV'' := SV'). destruct SV'' as (OU & NN & D & _). rewrite Nat.min_id in *. split; [now apply orth_cols|]. repeat split.
    + intros. apply sqrt_pos.
    + intros. apply sqrt_le_1_alt. now apply D.
    + intros a b Ha Hb. exact (svd_square_gram p _ u s a b SV' (outer_sym p _ K) (outer_psd p _ K) Ha Hb).
Qed.

Lemma finish_kept : forall m p q sparse chunks rank u s, orthonormal_cols m p q -> final_svd_ok m p q sparse chunks u s ->
  (0 < p)%nat -> (0 < rank)%nat -> (0 < length (concat chunks))%nat ->
  exists f, finish p q sparse (length (concat chunks)) rank u s = Ok f /\
    kept m (cov (map (onto m p q) (concat chunks))) rank eps_svd (f_n f) (f_u f) (f_s f) /\ orthonormal_cols m (f_n f) (f_u f).
Proof.
  intros m p q sparse chunks rank u s OQ SV Hp Hrank Hd. destruct (final_gram _ _ _ _ _ _ _ SV) as (OU & NN & D & KK).
  set (t := if sparse then Nat.min p (length (concat chunks)) else p) in *.
  set (s' := if sparse then s else fun a => sqrt (s a)) in *.
  set (docs := concat chunks) in *. set (K := of_cols (project m q docs)) in *.
  set (C := fun i j => sumn p (fun l => q i l * K l j)).
  destruct (iso_spectral m p (length docs) t q K C u s') as (r & Hr & SP & Z0); try assumption.
  - reflexivity.
  - intros j j' _ _. unfold C.
    change (dotv m (fun i => sumn p (fun l => q i l * K l j)) (fun i => sumn p (fun l => q i l * K l j')) = sumn p (fun l => K l j * K l j')).
    rewrite dotv_apply. apply sumn_ext. intros a Ha. rewrite (sumn_ext p _ (fun b => K a j * K b j' * delta b a)); [now rewrite sumn_delta|].
    intros b Hb. f_equal. rewrite delta_sym. exact (OQ a b Ha Hb).
  - destruct (kept_of m _ t r _ s' rank eps_svd SP Hr) as (n & EC & KP & _); [unfold t; destruct sparse; lia|assumption|unfold eps_svd; lra|exact Z0|].
    unfold finish. fold t s'. rewrite EC. cbn [rbind]. eexists. split; [reflexivity|]. cbn [f_n f_u f_s]. split.
    + eapply kept_ext; [|exact KP]. intros i j _ _. unfold cov. change (fold_right Rplus 0) with Rsum. rewrite map_map. unfold mmul, tr, sumn at 1. f_equal.
      assert (CE : forall i j, C i j = nth j (map (fun d => onto m p q d i) docs) 0).
      { intros i' j'. unfold C, K, of_cols, onto. destruct (le_lt_dec (length docs) j') as [L|L].
        - rewrite (nth_overflow (map _ docs) 0) by (now rewrite map_length). apply sumn_all0. intros. rewrite nth_overflow; [ring|]. unfold project. now rewrite map_length.
        - rewrite (nth_indep _ 0 (onto m p q (fun _ => 0) i')) by (now rewrite map_length). rewrite (map_nth (fun d => onto m p q d i')). unfold onto. apply sumn_ext. intros a _.
          unfold project. rewrite (nth_indep _ (fun _ => 0) ((fun (d : col) a0 => sumn m (fun i0 => q i0 a0 * d i0)) (fun _ => 0))) by (now rewrite map_length).
          rewrite (map_nth (fun (d : col) a0 => sumn m (fun i0 => q i0 a0 * d i0))). ring. }
      rewrite (map_ext _ (fun l => nth l (map (fun d => onto m p q d i) docs) 0 * nth l (map (fun d => onto m p q d j) docs) 0)) by (intros; now rewrite !CE).
      clear. induction docs as [|d docs IH]; [reflexivity|]. cbn [length seq map nth]. f_equal. rewrite <- IH, <- seq_shift, map_map. reflexivity.
    + assert (n <= t)%nat.
      { apply (clip_le _ _ _ _ _ EC). destruct KP as [KR _ _ _ _]; lia. }
      intros a b Ha Hb. rewrite <- (OU a b) by lia. unfold mmul.
      rewrite dotv_apply. unfold dotv. apply sumn_ext. intros c Hc. rewrite (sumn_ext p _ (fun c' => u c a * u c' b * delta c' c)); [now rewrite sumn_delta|].
      intros c' Hc'. f_equal. rewrite delta_sym. exact (OQ c c' Hc Hc').
Qed.

(** ** Range *)
Lemma range_orth : forall m sm docs y0 n y q r, range_finder m sm docs y0 n y q r -> orthonormal_cols m (Nat.min m sm) q.
Proof.
  intros m sm docs y0 n y q r H. destruct H as [q r (O & _)|n y q r q' r' _ (O & _)]; apply orth_cols; [exact O|].
  replace (Nat.min m (Nat.min m sm)) with (Nat.min m sm) in O by lia. exact O.
Qed.
Definition ycols (m samples iters : nat) : nat := match iters with O => samples | S _ => Nat.min m samples end.
Lemma onto_span : forall m p q d x, orthonormal_cols m p q -> (forall i, (i < m)%nat -> d i = sumn p (fun a => q i a * x a)) ->
  forall i, (i < m)%nat -> onto m p q d i = d i.
Proof.
  intros m p q d x O E i Hi. rewrite (E i Hi). unfold onto. apply sumn_ext. intros a Ha.
  rewrite (sumn_ext m _ (fun k => q k a * sumn p (fun b => q k b * x b))) by (intros k Hk; rewrite (E k Hk); reflexivity).
  rewrite assoc_l. rewrite (sumn_ext p _ (fun b => delta a b * x b)); [rewrite sumn_delta' by exact Ha; ring|]. intros b Hb. f_equal. exact (O a b Ha Hb).
Qed.
Lemma range_span : forall m sm docs y0 n y q r d, range_finder m sm docs y0 n y q r -> combines m (ycols m sm n) y d ->
  forall i, (i < m)%nat -> onto m (Nat.min m sm) q d i = d i.
Proof.
  intros m sm docs y0 n y q r d RF (z & Hz). assert (O := range_orth _ _ _ _ _ _ _ _ RF).
  assert (QR : forall i j, (i < m)%nat -> (j < ycols m sm n)%nat -> sumn (Nat.min m sm) (fun a => q i a * r a j) = y i j).
  { destruct RF as [q r (_ & E)|n y q r q' r' _ (_ & E)]; cbn [ycols]; [exact E|].
    replace (Nat.min m (Nat.min m sm)) with (Nat.min m sm) in E by lia. exact E. }
  apply (onto_span m _ q d (fun a => sumn (ycols m sm n) (fun j => r a j * z j)) O). intros i Hi. rewrite (Hz i Hi), assoc_l.
  apply sumn_ext. intros j Hj. now rewrite (QR i j Hi Hj).
Qed.
Lemma onto_square : forall m q d i, orthonormal_cols m m q -> (i < m)%nat -> onto m m q d i = d i.
Proof.
  intros m q d i O Hi. unfold onto.
  rewrite (sumn_ext m _ (fun a => sumn m (fun k => q i a * q k a * d k))) by (intros; rewrite <- sumn_scal_r; apply sumn_ext; intros; ring).
  rewrite sumn_swap2. rewrite (sumn_ext m _ (fun k => delta i k * d k)); [now rewrite sumn_delta'|]. intros k Hk. rewrite sumn_scal_r. f_equal.
  exact (square_orth m q O i k Hi Hk).
Qed.
Lemma cov_ext : forall (f : col -> col) docs i j, (forall d, In d docs -> f d i = d i /\ f d j = d j) -> cov (map f docs) i j = cov docs i j.
Proof.
  intros. unfold cov. rewrite map_map. f_equal. apply map_ext_in. intros d Hd. destruct (H d Hd) as (-> & ->). reflexivity.
Qed.
