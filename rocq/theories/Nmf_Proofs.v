From Coq Require Import Reals Lra Lia FunctionalExtensionality Permutation.
From Verif Require Import Base MatReal_Model MatReal_Proofs Utils_Model LdaTrain_Model LdaTrain_Proofs2 Lsi_Model Lsi_Linear Nmf_Model Nmf_Spec.
Local Open Scope R_scope.

(** ** Coordinate descent *)
Section H.
Variables (m K : nat) (W : mat) (v : col).

Definition resid (h : col) (i : nat) : R := v i - sumn K (fun k => W i k * h k).

Lemma grad_resid : forall h k, grad m K W v h k = - sumn m (fun i => W i k * resid h i).
Proof.
  intros h k. unfold grad, wtv, gram_w, resid.
  rewrite (sumn_ext K _ (fun l => sumn m (fun i => W i k * (W i l * h l)))).
  2:{ intros l _. rewrite <- sumn_scal_r. apply sumn_ext. intros. ring. }
  rewrite sumn_swap2. rewrite (sumn_ext m (fun i => W i k * (v i - _)) (fun i => W i k * v i - sumn K (fun l => W i k * (W i l * h l)))).
  2:{ intros i _. rewrite (sumn_scal K (fun l => W i l * h l)). ring. }
  rewrite sumn_minus. ring.
Qed.

Lemma sumn_upd : forall n f h k x, (k < n)%nat -> sumn n (fun l => f l * upd h k x l) = sumn n (fun l => f l * h l) + f k * (x - h k).
Proof.
  intros n f h k x Hk.
  rewrite (sumn_ext n _ (fun l => f l * h l + (f l * (x - h k)) * delta l k)).
  - rewrite sumn_plus, sumn_delta by auto. reflexivity.
  - intros l _. unfold upd, delta. destruct (Nat.eqb_spec l k) as [->|]; ring.
Qed.

Lemma sqerr_diff : forall h x, sqerr m K W v x = sqerr m K W v h + 2 * sumn K (fun k => grad m K W v h k * (x k - h k)) + sumn m (fun i => sumn K (fun k => W i k * (x k - h k)) ^ 2).
Proof.
  intros h x. unfold sqerr.
  assert (E : sumn K (fun k => grad m K W v h k * (x k - h k)) = - sumn m (fun i => resid h i * sumn K (fun k => W i k * (x k - h k)))).
  { rewrite (sumn_ext K _ (fun k => sumn m (fun i => - (resid h i * (W i k * (x k - h k)))))).
    - rewrite sumn_swap2. rewrite (sumn_ext m _ (fun i => (-1) * (resid h i * sumn K (fun k => W i k * (x k - h k))))).
      + rewrite sumn_scal. ring.
      + intros i _. rewrite (sumn_ext K _ (fun k => (- resid h i) * (W i k * (x k - h k)))); [rewrite sumn_scal; ring | intros; ring].
    - intros k _. rewrite grad_resid. rewrite (sumn_ext m (fun i => - _) (fun i => (W i k * resid h i) * (- (x k - h k)))); [rewrite sumn_scal_r; ring | intros; ring]. }
  rewrite E. rewrite (sumn_ext m (fun i => (v i - sumn K (fun k => W i k * x k)) ^ 2)
    (fun i => resid h i ^ 2 + ((-2) * (resid h i * sumn K (fun k => W i k * (x k - h k))) + sumn K (fun k => W i k * (x k - h k)) ^ 2))).
  - rewrite !sumn_plus, sumn_scal. unfold resid. ring.
  - intros i _. rewrite (sumn_ext K (fun k => W i k * (x k - h k)) (fun k => W i k * x k - W i k * h k)) by (intros; ring).
    rewrite sumn_minus. unfold resid. ring.
Qed.

Lemma sqerr_upd : forall h k x, (k < K)%nat -> sqerr m K W v (upd h k x) = sqerr m K W v h + 2 * grad m K W v h k * (x - h k) + gram_w m W k k * (x - h k) ^ 2.
Proof.
  intros h k x Hk. rewrite (sqerr_diff h).
  assert (E : forall f : nat -> R, sumn K (fun l => f l * (upd h k x l - h l)) = f k * (x - h k)).
  { intros f. rewrite (sumn_ext K _ (fun l => (f l * (x - h k)) * delta l k)); [apply sumn_delta; auto|].
    intros l _. unfold upd, delta. destruct (Nat.eqb_spec l k) as [->|]; ring. }
  rewrite E. rewrite (sumn_ext m _ (fun i => (W i k * W i k) * (x - h k) ^ 2)) by (intros; rewrite E; ring).
  rewrite sumn_scal_r. unfold gram_w. ring.
Qed.

Lemma gram_pos : forall k, 0 <= gram_w m W k k.
Proof. intros. apply sumn_nonneg. intros. apply Rle_0_sqr. Qed.
Lemma gram_zero : forall k, gram_w m W k k = 0 <-> empty_topic m W k.
Proof.
  intros k. split.
  - intros H. exact (sumn_sq0 m (fun i => W i k) H).
  - intros H. apply sumn_all0. intros i Hi. rewrite (H i Hi). ring.
Qed.
Lemma grad_empty : forall h k, empty_topic m W k -> grad m K W v h k = 0.
Proof. intros h k H. rewrite grad_resid. rewrite sumn_all0; [ring|]. intros i Hi. rewrite (H i Hi). ring. Qed.
Lemma sqerr_empty : forall h k x, (k < K)%nat -> empty_topic m W k -> sqerr m K W v (upd h k x) = sqerr m K W v h.
Proof. intros h k x Hk H. rewrite sqerr_upd by auto. rewrite grad_empty by auto. apply gram_zero in H. rewrite H. ring. Qed.

(** How much one step gains. *)
Lemma step_gain : forall kappa h k, (k < K)%nat -> 0 < kappa -> 0 <= h k -> gram_w m W k k <> 0 ->
  let x := Rmax (h k - grad m K W v h k * kappa / gram_w m W k k) 0 in
  sqerr m K W v (upd h k x) + (2 / kappa - 1) * gram_w m W k k * (x - h k) ^ 2 <= sqerr m K W v h.
Proof.
  intros kappa h k Hk Hkap Hh HG x. rewrite sqerr_upd by auto. pose proof (gram_pos k) as GP.
  set (G := gram_w m W k k) in *. set (g := grad m K W v h k) in *. clearbody G g.
  assert (GP' : 0 < G) by lra.
  set (q := g * kappa / G) in *. assert (Eg : g = q * G / kappa) by (unfold q; field; lra).
  enough (E : 2 * g * (x - h k) + 2 / kappa * G * (x - h k) ^ 2 <= 0) by lra.
  rewrite Eg. replace (2 * (q * G / kappa) * (x - h k) + 2 / kappa * G * (x - h k) ^ 2) with (2 * (G / kappa) * ((x - h k) * (q + (x - h k)))) by (field; lra).
  assert (0 < G / kappa) by (apply Rdiv_lt_0_compat; lra).
  enough ((x - h k) * (q + (x - h k)) <= 0) by nra.
  unfold x, Rmax. destruct (Rle_dec (h k - q) 0); nra.
Qed.

Lemma coord_fst : forall kappa s k, fst (coord m K kappa W v s k) = upd (fst s) k (if Req_EM_T (gram_w m W k k) 0 then 0 else Rmax (fst s k - grad m K W v (fst s) k * kappa / gram_w m W k k) 0).
Proof. intros kappa [h w] k. unfold coord. cbn [fst]. destruct (Req_EM_T _ 0); reflexivity. Qed.

Lemma coord_nonneg : forall kappa s k, nonneg K (fst s) -> nonneg K (fst (coord m K kappa W v s k)).
Proof.
  intros kappa s k H l Hl. rewrite coord_fst. unfold upd. destruct (Nat.eqb_spec l k); [|auto].
  destruct (Req_EM_T _ 0); [lra | apply Rmax_r].
Qed.
Lemma coord_descent : forall kappa s k, 0 < kappa <= 2 -> (k < K)%nat -> nonneg K (fst s) -> sqerr m K W v (fst (coord m K kappa W v s k)) <= sqerr m K W v (fst s).
Proof.
  intros kappa s k Hkap Hk H. rewrite coord_fst. destruct (Req_EM_T (gram_w m W k k) 0) as [E|E].
  - rewrite sqerr_empty; [lra | auto | apply gram_zero; auto].
  - pose proof (step_gain kappa (fst s) k Hk (proj1 Hkap) (H k Hk) E) as G. cbv zeta in G.
    set (x := Rmax _ 0) in *. pose proof (gram_pos k). 
    assert (0 <= 2 / kappa - 1). { assert (1 <= 2 / kappa); [|lra]. apply (Rmult_le_reg_r kappa); [lra|]. unfold Rdiv. rewrite Rmult_assoc, Rinv_l by lra. lra. }
    assert (0 <= (2 / kappa - 1) * gram_w m W k k * (x - fst s k) ^ 2); [|lra]. apply Rmult_le_pos; [apply Rmult_le_pos; auto | apply pow2_ge_0].
Qed.

Lemma sweep_inv : forall kappa perm s, 0 < kappa <= 2 -> (forall k, In k perm -> (k < K)%nat) -> nonneg K (fst s) ->
  nonneg K (fst (fold_left (coord m K kappa W v) perm s)) /\ sqerr m K W v (fst (fold_left (coord m K kappa W v) perm s)) <= sqerr m K W v (fst s).
Proof.
  intros kappa perm. induction perm as [|k perm IH]; intros s Hkap Hp Hs; cbn [fold_left]; [split; [auto | lra]|].
  destruct (IH (coord m K kappa W v s k) Hkap) as [A B].
  - intros; apply Hp; simpl; auto.
  - apply coord_nonneg; auto.
  - split; [exact A|]. pose proof (coord_descent kappa s k Hkap (Hp k (or_introl eq_refl)) Hs). lra.
Qed.
Lemma sweep_nonneg : forall kappa perm s, nonneg K (fst s) -> nonneg K (fst (fold_left (coord m K kappa W v) perm s)).
Proof. intros kappa perm. induction perm as [|k perm IH]; intros s Hs; cbn [fold_left]; [auto|]. apply IH, coord_nonneg, Hs. Qed.

(** ** When nothing is violated *)
Definition projected (kappa : R) (h : col) (k : nat) : R :=
  let g := grad m K W v h k * kappa / gram_w m W k k in if Req_EM_T (h k) 0 then Rmin 0 g else g.
Lemma upd_same : forall h k, upd h k (h k) = h.
Proof. intros. apply functional_extensionality. intros l. unfold upd. destruct (Nat.eqb_spec l k) as [->|]; reflexivity. Qed.

Lemma projected_zero : forall kappa h k, 0 <= h k -> (projected kappa h k = 0 <-> Rmax (h k - grad m K W v h k * kappa / gram_w m W k k) 0 = h k).
Proof.
  intros kappa h k H. unfold projected. set (g := grad m K W v h k * kappa / gram_w m W k k). clearbody g.
  destruct (Req_EM_T (h k) 0) as [E|E].
  - rewrite E. unfold Rmin, Rmax. destruct (Rle_dec 0 g), (Rle_dec (0 - g) 0); split; intros; lra.
  - unfold Rmax. destruct (Rle_dec (h k - g) 0); split; intros; lra.
Qed.

Lemma violation_ge : forall kappa perm h x y, 0 <= x -> snd (fold_left (coord m K kappa W v) perm (h, Some x)) = Some y -> x <= y.
Proof.
  intros kappa perm. induction perm as [|k perm IH]; intros h x y Hx E; cbn [fold_left] in E; [cbn in E; injection E; lra|].
  cbn [coord] in E. destruct (Req_EM_T (gram_w m W k k) 0).
  - exfalso. revert E. clear. generalize (upd h k 0). induction perm as [|k' perm IH]; intros h' E; cbn [fold_left] in E; [discriminate E|].
    cbn [coord] in E. destruct (Req_EM_T _ 0); [exact (IH _ E)|]. cbn [option_map] in E. exact (IH _ E).
  - cbn [option_map] in E. match type of E with context [Some (?a + ?b)] => assert (P : 0 <= b) by (apply Rle_0_sqr); apply IH in E end; lra.
Qed.

Lemma none_stays : forall kappa perm h, snd (fold_left (coord m K kappa W v) perm (h, None)) = None.
Proof.
  intros kappa perm. induction perm as [|k' perm IH]; intros h'; cbn [fold_left]; [reflexivity|].
  cbn [coord]. destruct (Req_EM_T _ 0); [exact (IH _)|]. cbn [option_map]. exact (IH _).
Qed.

Lemma violation_zero : forall kappa perm h, nonneg K h -> (forall k, In k perm -> (k < K)%nat) ->
  (snd (fold_left (coord m K kappa W v) perm (h, Some 0)) = Some 0 <-> forall k, In k perm -> gram_w m W k k <> 0 /\ projected kappa h k = 0).
Proof.
  intros kappa perm. induction perm as [|k perm IH]; intros h Hh Hp; cbn [fold_left].
  - split; [intros _ k [] | intros _; reflexivity].
  - cbn [coord]. destruct (Req_EM_T (gram_w m W k k) 0) as [E|E].
    + rewrite none_stays. split; [discriminate|]. intros F. destruct (F k (or_introl eq_refl)) as [F1 _]. contradiction.
    + cbn [option_map]. change (if Req_EM_T (h k) 0 then Rmin 0 (grad m K W v h k * kappa / gram_w m W k k) else grad m K W v h k * kappa / gram_w m W k k) with (projected kappa h k).
      assert (Hk : (k < K)%nat) by (apply Hp; simpl; auto). pose proof (projected_zero kappa h k (Hh k Hk)) as PZ.
      assert (Hp' : forall l, In l perm -> (l < K)%nat) by (intros; apply Hp; simpl; auto).
      split.
      * intros F. assert (P0 : projected kappa h k = 0).
        { apply violation_ge in F; [nra|]. pose proof (Rle_0_sqr (projected kappa h k)). unfold Rsqr in *. lra. }
        rewrite P0 in F. rewrite (proj1 PZ P0), upd_same in F. replace (0 + 0 * 0) with 0 in F by ring.
        intros l [<-|Hl]; [auto|]. apply (proj1 (IH h Hh Hp')); auto.
      * intros F. destruct (F k (or_introl eq_refl)) as [_ P0]. rewrite P0, (proj1 PZ P0), upd_same. replace (0 + 0 * 0) with 0 by ring.
        apply IH; auto. intros l Hl. apply F. simpl; auto.
Qed.
Lemma sweep_rest : forall kappa perm h x, (forall k, In k perm -> gram_w m W k k <> 0 /\ 0 <= h k /\ projected kappa h k = 0) -> fst (fold_left (coord m K kappa W v) perm (h, x)) = h.
Proof.
  intros kappa perm. induction perm as [|k perm IH]; intros h x F; cbn [fold_left]; [reflexivity|].
  destruct (F k (or_introl eq_refl)) as [G [Hk P0]]. cbn [coord]. destruct (Req_EM_T (gram_w m W k k) 0); [contradiction|].
  rewrite (proj1 (projected_zero kappa h k Hk) P0), upd_same. apply IH. intros; apply F; simpl; auto.
Qed.

(** Kuhn-Tucker *)
Lemma best_iff : forall kappa h, 0 < kappa -> nonneg K h -> (forall k, (k < K)%nat -> gram_w m W k k <> 0) ->
  ((forall k, (k < K)%nat -> projected kappa h k = 0) <-> best_fit m K W v h).
Proof.
  intros kappa h Hkap Hh HG. split.
  - intros P. split; [auto|]. intros x Hx. rewrite (sqerr_diff h x).
    assert (A : 0 <= sumn K (fun k => grad m K W v h k * (x k - h k))).
    { apply sumn_nonneg. intros k Hk. specialize (P k Hk). unfold projected in P. specialize (HG k Hk). pose proof (gram_pos k).
      assert (Hq : 0 < kappa / gram_w m W k k) by (apply Rdiv_lt_0_compat; lra).
      replace (grad m K W v h k * kappa / gram_w m W k k) with (grad m K W v h k * (kappa / gram_w m W k k)) in P by (unfold Rdiv; ring).
      specialize (Hx k Hk). destruct (Req_EM_T (h k) 0) as [E|E].
      - rewrite E. apply Rmult_le_pos; [|lra]. unfold Rmin in P. destruct (Rle_dec 0 _) as [L|L]; [|lra].
        apply Rnot_lt_le. intros N. nra.
      - assert (grad m K W v h k = 0) as -> by (apply Rmult_integral in P; destruct P; lra). lra. }
    assert (B : 0 <= sumn m (fun i => sumn K (fun k => W i k * (x k - h k)) ^ 2)) by (apply sumn_nonneg; intros; apply pow2_ge_0). lra.
  - intros [_ B] k Hk. apply projected_zero; [auto|].
    pose proof (step_gain 1 h k Hk Rlt_0_1 (Hh k Hk) (HG k Hk)) as G. cbv zeta in G. pose proof (gram_pos k) as GP. specialize (HG k Hk).
    set (x := Rmax (h k - grad m K W v h k * 1 / gram_w m W k k) 0) in *.
    assert (F : sqerr m K W v h <= sqerr m K W v (upd h k x)).
    { apply B. intros l Hl. unfold upd. destruct (Nat.eqb_spec l k); [apply Rmax_r | auto]. }
    assert (Ex : x = h k). { assert ((x - h k) ^ 2 <= 0); [|nra]. replace (2 / 1 - 1) with 1 in G by field.  assert (gram_w m W k k * (x - h k) ^ 2 <= 0) by lra. nra. }
    unfold x in Ex. set (G0 := gram_w m W k k) in *. set (g0 := grad m K W v h k) in *. specialize (Hh k Hk).
    assert (Hq : 0 < / G0) by (apply Rinv_0_lt_compat; lra). unfold Rdiv in *.
    unfold Rmax in *. destruct (Rle_dec (h k - g0 * 1 * / G0) 0) as [L|L].
    + assert (0 <= g0 * / G0) by lra. destruct (Rle_dec (h k - g0 * kappa * / G0) 0) as [L'|L']; nra.
    + assert (g0 * / G0 = 0) as Z0 by lra. replace (g0 * kappa * / G0) with ((g0 * / G0) * kappa) by ring. rewrite Z0. destruct (Rle_dec _ 0); lra.
Qed.
End H.

(** ** Batches of documents *)
Definition run_h (m K : nat) (kappa : R) (W : mat) (vs : list col) (hs : list col) (p : list nat) : list col := fst (solve_h m K kappa W p vs hs).

Lemma iter_prefix : forall m K kappa stop W vs perms e hs, exists n, (n <= length perms)%nat /\ (perms <> [] -> (0 < n)%nat) /\
  iter_h m K kappa stop W vs perms e hs = fold_left (run_h m K kappa W vs) (firstn n perms) hs.
Proof.
  intros m K kappa stop W vs perms. induction perms as [|p perms IH]; intros e hs; [exists 0%nat; repeat split; auto; congruence|].
  cbn [iter_h]. destruct (h_stops stop e _).
  - exists 1%nat. cbn [length firstn fold_left]. repeat split; [lia|lia].
  - destruct (IH (option_map (fun x => x / INR m) (snd (solve_h m K kappa W p vs hs))) (fst (solve_h m K kappa W p vs hs))) as [n [L [_ E]]]. exists (S n).
    cbn [length firstn fold_left]. repeat split; [lia | lia | exact E].
Qed.

Lemma run_map : forall m K kappa W p vs hs, run_h m K kappa W vs hs p = map (fun vh => fst (sweep m K kappa W p (fst vh) (snd vh))) (combine vs hs).
Proof. intros. unfold run_h, solve_h. cbn [fst]. rewrite map_map. reflexivity. Qed.

Lemma combine_map_r : forall {A B C} (f : A * B -> C) (a : list A) (b : list B), combine a (map f (combine a b)) = map (fun ab => (fst ab, f ab)) (combine a b).
Proof. intros A B C f a. induction a as [|x a IH]; intros [|y b]; cbn [combine map fst]; [reflexivity..|]. rewrite IH. reflexivity. Qed.

(** The documents of a batch do not meet each other. *)
Definition run1 (m K : nat) (kappa : R) (W : mat) (v h : col) (p : list nat) : col := fst (sweep m K kappa W p v h).
Lemma run_many : forall m K kappa W vs perms hs, length hs = length vs ->
  fold_left (run_h m K kappa W vs) perms hs = map (fun vh => fold_left (run1 m K kappa W (fst vh)) perms (snd vh)) (combine vs hs).
Proof.
  intros m K kappa W vs perms. induction perms as [|p perms IH]; intros hs L; cbn [fold_left].
  - revert hs L. induction vs as [|x vs IHv]; intros [|y hs] L; cbn in L; try discriminate; cbn [combine map snd]; [reflexivity|]. f_equal. apply IHv. lia.
  - rewrite IH. 2:{ rewrite run_map, map_length, combine_length. lia. }
    rewrite run_map. rewrite combine_map_r, map_map. apply map_ext. intros [x y]. reflexivity.
Qed.

Lemma run1_good : forall m K kappa W v perms h, 0 < kappa <= 2 -> (forall p k, In p perms -> In k p -> (k < K)%nat) -> nonneg K h ->
  nonneg K (fold_left (run1 m K kappa W v) perms h) /\ sqerr m K W v (fold_left (run1 m K kappa W v) perms h) <= sqerr m K W v h.
Proof.
  intros m K kappa W v perms. induction perms as [|p perms IH]; intros h Hkap Hp Hh; cbn [fold_left]; [split; [auto | lra]|].
  destruct (sweep_inv m K W v kappa p (h, Some 0) Hkap (fun k => Hp p k (or_introl eq_refl)) Hh) as [A B].
  destruct (IH (run1 m K kappa W v h p) Hkap (fun q k Hq => Hp q k (or_intror Hq)) A) as [C D]. split; [exact C|].
  cbn [fst] in B. unfold run1 in *. unfold sweep in *. lra.
Qed.
Lemma run1_nonneg : forall m K kappa W v perms h, nonneg K h -> nonneg K (fold_left (run1 m K kappa W v) perms h).
Proof.
  intros m K kappa W v perms. induction perms as [|p perms IH]; intros h Hh; cbn [fold_left]; [auto|]. apply IH. unfold run1, sweep. apply sweep_nonneg. exact Hh.
Qed.

Lemma zeros_len : forall n, length (zeros n) = n.
Proof. intros. apply repeat_length. Qed.
Lemma start_len : forall n h, length (start_h n h) = n.
Proof. intros n [hs|]; cbn [start_h]; [|apply zeros_len]. destruct (Nat.eqb_spec (length hs) n); [auto | apply zeros_len]. Qed.
Lemma iter_len : forall m K kappa stop W vs perms e hs, length hs = length vs -> length (iter_h m K kappa stop W vs perms e hs) = length vs.
Proof.
  intros m K kappa stop W vs perms e hs L. destruct (iter_prefix m K kappa stop W vs perms e hs) as [n [_ [_ ->]]].
  rewrite run_many by auto. rewrite map_length, combine_length. lia.
Qed.

(** An empty topic: no number, no early end *)
Lemma empty_none : forall m K kappa W v perm h x k, In k perm -> empty_topic m W k -> snd (fold_left (coord m K kappa W v) perm (h, x)) = None.
Proof.
  intros m K kappa W v perm. induction perm as [|j perm IH]; intros h x k [] E; cbn [fold_left].
  - subst j. cbn [coord]. apply gram_zero in E. destruct (Req_EM_T (gram_w m W k k) 0); [apply none_stays | contradiction].
  - destruct (coord m K kappa W v (h, x) j) as [h' x']. apply (IH h' x' k); auto.
Qed.
Lemma empty_zero : forall m K kappa W v perm h x k, In k perm -> empty_topic m W k -> fst (fold_left (coord m K kappa W v) perm (h, x)) k = 0.
Proof.
  intros m K kappa W v perm h x k Hin E. apply gram_zero in E.
  assert (Keep : forall perm s, fst s k = 0 -> fst (fold_left (coord m K kappa W v) perm s) k = 0).
  { clear -E. induction perm as [|j perm IH]; intros s H; cbn [fold_left]; [auto|]. apply IH. rewrite coord_fst. unfold upd.
    destruct (Nat.eqb_spec k j) as [<-|]; [|auto]. destruct (Req_EM_T (gram_w m W k k) 0); [reflexivity | contradiction]. }
  revert h x Hin. induction perm as [|j perm IH]; intros h x []; cbn [fold_left].
  - subst j. apply Keep. rewrite coord_fst. unfold upd. rewrite Nat.eqb_refl. destruct (Req_EM_T (gram_w m W k k) 0); [reflexivity | contradiction].
  - destruct (coord m K kappa W v (h, x) j) as [h' x']. apply (IH h' x'); auto.
Qed.
Lemma fold_oadd_none : forall l, fold_left oadd l None = None.
Proof. induction l; cbn [fold_left oadd]; auto. Qed.

Lemma iter_never_stops : forall m K kappa stop W vs perms hs, vs <> [] -> length hs = length vs -> (forall p, In p perms -> exists k, In k p /\ empty_topic m W k) ->
  iter_h m K kappa stop W vs perms None hs = fold_left (run_h m K kappa W vs) perms hs.
Proof.
  intros m K kappa stop W vs perms. induction perms as [|p perms IH]; intros hs NE L Hp; [reflexivity|].
  cbn [iter_h fold_left].
  assert (E : snd (solve_h m K kappa W p vs hs) = None).
  { unfold solve_h. cbn [snd]. destruct vs as [|v vs]; [congruence|]. destruct hs as [|h hs]; [discriminate L|]. cbn [combine map fold_left].
    destruct (Hp p (or_introl eq_refl)) as [k [Hk Ek]]. cbn [fst snd]. unfold sweep. rewrite (empty_none m K kappa W v p h (Some 0) k Hk Ek). cbn [oadd].
    rewrite fold_oadd_none. reflexivity. }
  rewrite E. cbn [option_map h_stops]. rewrite IH; auto.
  - unfold solve_h. cbn [fst]. rewrite !map_length, combine_length. lia.
  - intros q Hq. apply Hp. simpl; auto.
Qed.

(** ** The step of W *)
Lemma clip_nonneg : forall b x, match b with Max y => 0 <= y | _ => True end -> 0 <= clip b x.
Proof. intros [| |y] x H; cbn [clip]; [apply Rmax_r | apply Rmax_r |]. apply Rmin_glb; [apply Rmax_r | exact H]. Qed.
Definition bound_ok (b : bound) : Prop := match b with Max y => 0 <= y | _ => True end.

Lemma transform_feasible : forall m K b W, bound_ok b -> feasible m K (transform m b W).
Proof.
  intros m K b W H. split.
  - intros i k _ _. unfold transform. apply Rmult_le_pos; [apply clip_nonneg; auto|]. apply Rlt_le, Rinv_0_lt_compat. pose proof (Rmax_r (sqrt (sumn m (fun j => clip b (W j k) ^ 2))) 1). lra.
  - intros k _. unfold transform. set (q := sumn m (fun j => clip b (W j k) ^ 2)). set (N := Rmax (sqrt q) 1).
    assert (N1 : 1 <= N) by apply Rmax_r. assert (NS : sqrt q <= N) by apply Rmax_l.
    rewrite (sumn_ext m _ (fun i => clip b (W i k) ^ 2 * (/ N) ^ 2)) by (intros; field; lra). rewrite sumn_scal_r. fold q.
    assert (q0 : 0 <= q) by (apply sumn_nonneg; intros; apply pow2_ge_0).
    assert (Hq : q <= N ^ 2). { rewrite <- (pow_sqrt q q0). apply pow_incr. split; [apply sqrt_pos | auto]. }
    replace ((/ N) ^ 2) with (/ N ^ 2) by (field; lra). apply (Rmult_le_reg_r (N ^ 2)); [apply pow_lt; lra|]. rewrite Rmult_assoc, Rinv_l by (apply pow_nonzero; lra). lra.
Qed.
Lemma transform_max : forall m b y W i k, b = Max y -> 0 <= y -> transform m b W i k <= y.
Proof.
  intros m b y W i k -> Hy. unfold transform. set (N := Rmax _ 1). assert (N1 : 1 <= N) by apply Rmax_r. cbn [clip].
  assert (C : Rmin (Rmax (W i k) 0) y <= y) by apply Rmin_r. assert (C0 : 0 <= Rmin (Rmax (W i k) 0) y) by (apply Rmin_glb; [apply Rmax_r | auto]).
  apply (Rmult_le_reg_r N); [lra|]. unfold Rdiv. rewrite Rmult_assoc, Rinv_l by lra. nra.
Qed.

Lemma cs_sumn : forall n f g, sumn n (fun i => f i * g i) ^ 2 <= sumn n (fun i => f i ^ 2) * sumn n (fun i => g i ^ 2).
Proof. intros. unfold sumn. apply cauchy_schwarz. Qed.

(** clipping and scaling is the projection *)
Lemma project_col : forall m (x w : col), (forall i, (i < m)%nat -> 0 <= w i) -> sumn m (fun i => w i ^ 2) <= 1 ->
  let N := Rmax (sqrt (sumn m (fun j => Rmax (x j) 0 ^ 2))) 1 in
  let p i := Rmax (x i) 0 / N in
  sumn m (fun i => (x i - p i) * (w i - p i)) <= 0.
Proof.
  intros m x w Hw Hn N p. assert (N1 : 1 <= N) by apply Rmax_r.
  assert (P0 : forall i, 0 <= p i). { intros. unfold p. apply Rmult_le_pos; [apply Rmax_r|]. apply Rlt_le, Rinv_0_lt_compat. lra. }
  assert (EC : forall i, Rmax (x i) 0 = N * p i) by (intros; unfold p; field; lra).
  assert (S1 : sumn m (fun i => (x i - Rmax (x i) 0) * (w i - p i)) <= 0).
  { apply Rle_trans with (sumn m (fun _ => 0)); [|rewrite sumn_zero; lra]. apply sumn_le. intros i Hi. specialize (Hw i Hi). pose proof (EC i) as E. specialize (P0 i). cbv beta. clear EC Hn. clearbody p N.
    unfold Rmax in *. destruct (Rle_dec (x i) 0) as [L|L].
    - assert (p i = 0) as -> by (symmetry in E; apply Rmult_integral in E; destruct E; lra). rewrite !Rminus_0_r. nra.
    - replace (x i - x i) with 0 by ring. lra. }
  assert (S2 : (N - 1) * sumn m (fun i => p i * (w i - p i)) <= 0).
  { destruct (Req_EM_T N 1) as [->|NN]; [lra|].
    assert (EN : N = sqrt (sumn m (fun j => Rmax (x j) 0 ^ 2))). { unfold N, Rmax in *. destruct (Rle_dec _ 1); lra. }
    assert (PP : sumn m (fun i => p i ^ 2) = 1).
    { assert (E2 : N ^ 2 = sumn m (fun j => Rmax (x j) 0 ^ 2)). { rewrite EN at 1. apply pow_sqrt. apply sumn_nonneg. intros; apply pow2_ge_0. }
      rewrite (sumn_ext m _ (fun j => N ^ 2 * p j ^ 2)) in E2 by (intros; rewrite EC; ring). rewrite sumn_scal in E2. assert (0 < N ^ 2) by (apply pow_lt; lra). nra. }
    pose proof (cs_sumn m p w) as CS. rewrite PP in CS. set (d := sumn m (fun i => p i * w i)) in *.
    assert (Hd : d <= 1) by nra.
    rewrite (sumn_ext m _ (fun i => p i * w i - p i ^ 2)) by (intros; ring). rewrite sumn_minus, PP. fold d. nra. }
  rewrite (sumn_ext m _ (fun i => (x i - Rmax (x i) 0) * (w i - p i) + (N - 1) * (p i * (w i - p i)))) by (intros; rewrite EC; ring).
  rewrite sumn_plus, sumn_scal. lra.
Qed.

Lemma frob_sq : forall K A, frobenius K A ^ 2 = sumn K (fun i => sumn K (fun j => A i j ^ 2)).
Proof. intros. unfold frobenius. apply pow_sqrt. apply sumn_nonneg; intros. apply sumn_nonneg; intros. apply pow2_ge_0. Qed.

Lemma quad_frob : forall K A (d : col), sumn K (fun k => sumn K (fun l => d l * A l k) * d k) <= frobenius K A * sumn K (fun k => d k ^ 2).
Proof.
  intros K A d. set (D := sumn K (fun k => d k ^ 2)). set (F := frobenius K A).
  assert (D0 : 0 <= D) by (apply sumn_nonneg; intros; apply pow2_ge_0). assert (F0 : 0 <= F) by apply sqrt_pos.
  pose proof (cs_sumn K (fun k => sumn K (fun l => d l * A l k)) d) as CS. fold D in CS. cbv beta in CS. set (q := sumn K (fun k => sumn K (fun l => d l * A l k) * d k)) in *.
  assert (B : sumn K (fun k => sumn K (fun l => d l * A l k) ^ 2) <= D * F ^ 2).
  { unfold F. rewrite frob_sq. rewrite sumn_swap2. rewrite <- sumn_scal. apply sumn_le. intros k _. pose proof (cs_sumn K d (fun l => A l k)) as C. exact C. }
  apply Rsqr_incr_0_var; [|nra]. unfold Rsqr. nra.
Qed.

Lemma w_error_diff : forall m K A B W W', symmetric_in K A ->
  w_error m K A B W' = w_error m K A B W + sumn m (fun i => sumn K (fun k => (mmul K W A i k - B i k) * (W' i k - W i k)))
    + 1 / 2 * sumn m (fun i => sumn K (fun k => sumn K (fun l => (W' i l - W i l) * A l k) * (W' i k - W i k))).
Proof.
  intros m K A B W W' SA. unfold w_error.
  assert (R1 : forall i, sumn K (fun k => mmul K W' A i k * W' i k) = sumn K (fun k => mmul K W A i k * W i k) + 2 * sumn K (fun k => mmul K W A i k * (W' i k - W i k))
     + sumn K (fun k => sumn K (fun l => (W' i l - W i l) * A l k) * (W' i k - W i k))).
  { intros i.
    assert (E1 : forall k, sumn K (fun l => (W' i l - W i l) * A l k) = mmul K W' A i k - mmul K W A i k).
    { intros k. unfold mmul. rewrite <- sumn_minus. apply sumn_ext. intros; ring. }
    rewrite (sumn_ext K (fun k => sumn K _ * _) (fun k => (mmul K W' A i k * W' i k + mmul K W A i k * W i k) - (mmul K W' A i k * W i k + mmul K W A i k * W' i k))) by (intros; rewrite E1; ring).
    rewrite (sumn_ext K (fun k => mmul K W A i k * (W' i k - W i k)) (fun k => mmul K W A i k * W' i k - mmul K W A i k * W i k)) by (intros; ring).
    rewrite !sumn_minus, !sumn_plus.
    assert (SW : sumn K (fun k => mmul K W' A i k * W i k) = sumn K (fun k => mmul K W A i k * W' i k)).
    { unfold mmul. rewrite (sumn_ext K _ (fun k => sumn K (fun l => W' i l * A l k * W i k))) by (intros; rewrite <- sumn_scal_r; reflexivity).
      rewrite sumn_swap2. apply sumn_ext. intros l Hl. rewrite <- sumn_scal_r. apply sumn_ext. intros k Hk. rewrite (SA l k Hl Hk). ring. }
    rewrite SW. ring. }
  rewrite (sumn_ext m (fun i => sumn K (fun k => mmul K W' A i k * W' i k)) _ (fun i _ => R1 i)). rewrite !sumn_plus, sumn_scal.
  rewrite (sumn_ext m (fun i => sumn K (fun k => (mmul K W A i k - B i k) * (W' i k - W i k)))
     (fun i => sumn K (fun k => mmul K W A i k * (W' i k - W i k)) - (sumn K (fun k => W' i k * B i k) - sumn K (fun k => W i k * B i k)))).
  2:{ intros i _. rewrite <- !sumn_minus. apply sumn_ext. intros; ring. }
  rewrite !sumn_minus. lra.
Qed.

Lemma w_step_gain : forall m K b kappa A B W, 0 < kappa -> symmetric_in K A -> 0 < frobenius K A -> feasible m K W ->
  let eta := kappa / frobenius K A in
  (forall i k, (i < m)%nat -> (k < K)%nat -> clip b (W i k - eta * (mmul K W A i k - B i k)) = Rmax (W i k - eta * (mmul K W A i k - B i k)) 0) ->
  w_error m K A B (w_step m K b eta A B W) + (1 / kappa - 1 / 2) * frobenius K A * sumn m (fun i => sumn K (fun k => (w_step m K b eta A B W i k - W i k) ^ 2)) <= w_error m K A B W.
Proof.
  intros m K b kappa A B W Hkap SA HF [W0 W1] eta HC. set (W' := w_step m K b eta A B W). rewrite (w_error_diff m K A B W W' SA).
  set (F := frobenius K A) in *. assert (He : 0 < eta) by (apply Rdiv_lt_0_compat; auto).
  set (G := fun i k => mmul K W A i k - B i k). set (DD := sumn m (fun i => sumn K (fun k => (W' i k - W i k) ^ 2))).
  assert (Q : sumn m (fun i => sumn K (fun k => sumn K (fun l => (W' i l - W i l) * A l k) * (W' i k - W i k))) <= F * DD).
  { unfold DD. rewrite <- sumn_scal. apply sumn_le. intros i _. exact (quad_frob K A (fun k => W' i k - W i k)). }
  assert (P : sumn m (fun i => sumn K (fun k => G i k * (W' i k - W i k))) <= - DD / eta).
  { assert (PC : forall k, (k < K)%nat -> eta * sumn m (fun i => G i k * (W' i k - W i k)) + sumn m (fun i => (W' i k - W i k) ^ 2) <= 0).
    { intros k Hk. pose proof (project_col m (fun i => W i k - eta * G i k) (fun i => W i k) (fun i Hi => W0 i k Hi Hk) (W1 k Hk)) as PR. cbv zeta in PR.
      set (N := Rmax (sqrt (sumn m (fun j => Rmax (W j k - eta * G j k) 0 ^ 2))) 1) in *.
      rewrite (sumn_ext m _ (fun i => eta * (G i k * (W' i k - W i k)) + (W' i k - W i k) ^ 2)) in PR.
      - rewrite sumn_plus, sumn_scal in PR. exact PR.
      - intros i Hi. assert (EW : W' i k = Rmax (W i k - eta * G i k) 0 / N).
        { unfold W', w_step, transform. rewrite (HC i k Hi Hk). f_equal. unfold N. f_equal. f_equal. apply sumn_ext. intros j Hj. rewrite (HC j k Hj Hk). reflexivity. }
        rewrite <- EW. ring. }
    assert (T : eta * sumn K (fun k => sumn m (fun i => G i k * (W' i k - W i k))) + sumn K (fun k => sumn m (fun i => (W' i k - W i k) ^ 2)) <= 0).
    { rewrite <- sumn_scal, <- sumn_plus, <- (sumn_zero K). apply sumn_le. exact PC. }
    rewrite sumn_swap2. unfold DD. rewrite (sumn_swap2 m K). set (a := sumn K _) in *. set (c := sumn K (fun j => sumn m (fun i => (W' i j - W i j) ^ 2))) in *.
    apply (Rmult_le_reg_l eta); [auto|]. replace (eta * (- c / eta)) with (- c) by (field; lra). lra. }
  assert (E : DD / eta = DD * F / kappa) by (unfold eta; field; lra).
  replace (- DD / eta) with (- (DD * F / kappa)) in P by (rewrite <- E; unfold Rdiv; ring).
  change (fun i => sumn K (fun k => (mmul K W A i k - B i k) * (W' i k - W i k))) with (fun i => sumn K (fun k => G i k * (W' i k - W i k))).
  replace ((1 / kappa - 1 / 2) * F * DD) with (DD * F / kappa - 1 / 2 * (F * DD)) by (field; lra). lra.
Qed.
