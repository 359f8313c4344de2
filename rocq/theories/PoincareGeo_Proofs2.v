(** Lemmas about the updates of a batch: duplicates and clipping. *)
From Coq Require Import Reals Lra Psatz.
From Verif Require Import Base KeyedVectors_Model KeyedVectors_Proofs MatReal_Model MatReal_Proofs W2vGrad_Spec PoincareGeo_Model PoincareGeo_Proofs.
Local Open Scope R_scope.

(** ** Clipping *)
Definition abs1 (v : vec) : R := Rsum (map Rabs v).
Lemma abs1_nonneg : forall v, 0 <= abs1 v.
Proof. intros. apply Rsum_nonneg. intros x Hx. apply in_map_iff in Hx. destruct Hx as (y & <- & _). apply Rabs_pos. Qed.
Lemma abs1_sq : forall v, inner v v <= abs1 v ^ 2.
Proof.
  induction v as [|x v IH]; cbn [inner]; [cbn; lra|]. unfold abs1 in *. cbn [map]. rewrite Rsum_cons. pose proof (abs1_nonneg v) as P. unfold abs1 in P. pose proof (Rabs_pos x) as Q.
  assert (E : x * x = Rabs x * Rabs x) by (unfold Rabs; destruct (Rcase_abs x); ring). rewrite E. nra.
Qed.
Lemma sign_sub : forall eps w, 0 <= eps -> inner (lin w (map sign w) (- eps)) (lin w (map sign w) (- eps)) <= inner w w - 2 * eps * abs1 w + INR (length w) * eps ^ 2.
Proof.
  intros eps w P. induction w as [|x w IH]; [cbn; lra|]. cbn [map lin inner length]. unfold abs1 in *. cbn [map]. rewrite Rsum_cons, S_INR.
  assert (K : (x + - eps * sign x) * (x + - eps * sign x) <= x * x - 2 * eps * Rabs x + eps ^ 2).
  { unfold sign, Rabs. destruct (Rcase_abs x) as [N|N]; destruct (Rlt_dec 0 x); destruct (Rlt_dec x 0); try lra; nra. }
  lra.
Qed.
Lemma scaled_inner : forall v k, inner (map (fun x => x * k) v) (map (fun x => x * k) v) = k ^ 2 * inner v v.
Proof. intros v k. induction v as [|x v IH]; cbn [map inner]; [lra|]. rewrite IH. ring. Qed.
Lemma clip_length : forall eps v, length (clip_row eps v) = length v.
Proof. intros. unfold clip_row. destruct (Rlt_dec _ _); [reflexivity|]. rewrite lin_length; rewrite !map_length; reflexivity. Qed.
Lemma clip_row_norm : forall eps v, 0 < eps < 1 -> INR (length v) * eps < 2 * (1 - eps) -> norm (clip_row eps v) < 1 - eps.
Proof.
  intros eps v [P P1] D. unfold clip_row. set (t := 1 - eps) in *. destruct (Rlt_dec (norm v) t) as [L|L]; [exact L|]. assert (Pt : 0 < t) by (unfold t; lra). apply norm_lt; [exact Pt|].
  set (w := map (fun x => x * (t / norm v)) v). assert (Pn : 0 < norm v) by lra.
  assert (Ew : inner w w = t ^ 2) by (unfold w; rewrite scaled_inner, <- norm_sq; field; lra). pose proof (sign_sub eps w ltac:(lra)) as SS. pose proof (abs1_sq w) as A. rewrite Ew in *. pose proof (abs1_nonneg w) as An.
  assert (At : t <= abs1 w) by nra. assert (Lw : length w = length v) by apply map_length. rewrite Lw in SS.
  assert (eps * t <= eps * abs1 w) by (apply Rmult_le_compat_l; lra). assert (INR (length v) * eps ^ 2 < 2 * (eps * t)) by nra. lra.
Qed.
Lemma clip_vector_norm : forall eps v, 0 < eps < 1 -> INR (length v) * eps < 2 -> norm (clip_vector eps v) < 1.
Proof.
  intros eps v [P P1] D. unfold clip_vector. destruct (Rlt_dec (norm v) (1 - eps)) as [L|L]; [lra|]. apply norm_lt; [lra|]. assert (Pn : 0 < norm v) by lra.
  set (w := map (fun x => x / norm v) v). assert (Es : map sign v = map sign w).
  { unfold w. rewrite map_map. apply map_ext. intros x. unfold sign. pose proof (Rinv_0_lt_compat _ Pn) as Q. unfold Rdiv.
    destruct (Rlt_dec 0 x) as [X|X]; destruct (Rlt_dec 0 (x * / norm v)) as [Y|Y]; try reflexivity; [exfalso; apply Y; now apply Rmult_lt_0_compat | | ].
    - exfalso. apply X. apply (Rmult_lt_reg_r (/ norm v)); [exact Q | lra].
    - destruct (Rlt_dec x 0) as [X2|X2]; destruct (Rlt_dec (x * / norm v) 0) as [Y2|Y2]; try reflexivity; exfalso.
      + apply Y2. rewrite <- (Rmult_0_l (/ norm v)). apply Rmult_lt_compat_r; assumption.
      + apply X2. apply (Rmult_lt_reg_r (/ norm v)); [exact Q | lra]. }
  rewrite Es. assert (Ew : inner w w = 1).
  { unfold w. replace (map (fun x => x / norm v) v) with (map (fun x => x * / norm v) v) by reflexivity. rewrite scaled_inner, <- norm_sq. field. lra. }
  pose proof (sign_sub eps w ltac:(lra)) as SS. pose proof (abs1_sq w) as A. rewrite Ew in *. pose proof (abs1_nonneg w) as An. assert (At : 1 <= abs1 w) by nra. assert (Lw : length w = length v) by apply map_length. rewrite Lw in SS. nra.
Qed.

(** ** Assigning rows *)
Definition is_last (idx : list nat) (i q : nat) : Prop := nth_error idx q = Some i /\ forall q', (q < q')%nat -> nth_error idx q' <> Some i.
Lemma exists_last : forall idx i, In i idx -> exists q, is_last idx i q.
Proof.
  induction idx as [|k idx IH]; intros i H; [destruct H|]. destruct (in_dec Nat.eq_dec i idx) as [Hi|N].
  - destruct (IH i Hi) as (q & A & B0). exists (S q). split; [exact A|]. intros [|q'] L; [lia|]. apply B0. lia.
  - destruct H as [->|H]; [|contradiction]. exists 0%nat. split; [reflexivity|]. intros [|q'] L E; [lia|]. apply N. eapply nth_error_In. exact E.
Qed.
Lemma set_nth_nth : forall {A} (l : list A) i x j d, (i < length l)%nat -> nth j (set_nth l i x) d = if (j =? i)%nat then x else nth j l d.
Proof.
  intros A l. induction l as [|a l IH]; intros [|i] x [|j] d H; cbn in *; try lia; try reflexivity. apply IH. lia.
Qed.
Lemma set_nth_nth_other : forall {A} (l : list A) i x j d, j <> i -> nth j (set_nth l i x) d = nth j l d.
Proof. intros A l. induction l as [|a l IH]; intros [|i] x [|j] d H; cbn; try reflexivity; try lia. apply IH. lia. Qed.
Lemma put_rows_length : forall idx rows X, length (put_rows X idx rows) = length X.
Proof. unfold put_rows. induction idx as [|i idx IH]; intros [|r rows] X; cbn; auto. rewrite IH. apply set_nth_length. Qed.
Lemma put_rows_other : forall idx rows X i d, ~ In i idx -> nth i (put_rows X idx rows) d = nth i X d.
Proof.
  unfold put_rows. induction idx as [|k idx IH]; intros [|r rows] X i d N; cbn; try reflexivity. rewrite IH by (intros H; apply N; now right). apply set_nth_nth_other. intros ->. apply N. now left.
Qed.
Lemma put_rows_last : forall idx rows X i q d, length idx = length rows -> (i < length X)%nat -> is_last idx i q -> nth i (put_rows X idx rows) d = nth q rows d.
Proof.
  induction idx as [|k idx IH]; intros [|r rows] X i q d L Hi [A B0]; try discriminate; [destruct q; discriminate|].
  change (put_rows X (k :: idx) (r :: rows)) with (put_rows (set_nth X k r) idx rows). destruct q as [|q].
  - injection A as ->. rewrite put_rows_other.
    + cbn [nth]. rewrite set_nth_nth by exact Hi. now rewrite Nat.eqb_refl.
    + intros H. apply In_nth_error in H. destruct H as (q & H). apply (B0 (S q)); [lia | exact H].
  - cbn [nth]. apply IH; [cbn in L; congruence | now rewrite set_nth_length |]. split; [exact A|]. intros q' Hq. apply (B0 (S q')). lia.
Qed.

(** ** Positions *)
Definition pos_of (nodes : list nat) (i : nat) : list nat := filter (fun p => nth p nodes (S i) =? i)%nat (seq 0 (length nodes)).
Lemma pos_of_cons : forall k nodes i, pos_of (k :: nodes) i = (if (k =? i)%nat then [0%nat] else []) ++ map S (pos_of nodes i).
Proof.
  intros k nodes i. unfold pos_of. cbn [length]. rewrite <- cons_seq. cbn [filter]. change (nth 0 (k :: nodes) (S i)) with k. rewrite <- seq_shift.
  assert (E : forall l, filter (fun p => nth p (k :: nodes) (S i) =? i)%nat (map S l) = map S (filter (fun p => nth p nodes (S i) =? i)%nat l)).
  { induction l as [|a l IH]; [reflexivity|]. cbn [map filter]. change (nth (S a) (k :: nodes) (S i)) with (nth a nodes (S i)). destruct (nth a nodes (S i) =? i)%nat; cbn [map]; now rewrite IH. }
  rewrite E. destruct (k =? i)%nat; reflexivity.
Qed.
Lemma pos_of_app : forall a b i, pos_of (a ++ b) i = pos_of a i ++ map (fun p => (length a + p)%nat) (pos_of b i).
Proof.
  induction a as [|k a IH]; intros b i; cbn [app length]; [unfold pos_of at 2; cbn; now rewrite map_id|]. rewrite !pos_of_cons, IH, map_app, map_map, app_assoc. f_equal.
Qed.
Lemma pos_of_in : forall nodes i p, In p (pos_of nodes i) <-> nth_error nodes p = Some i.
Proof.
  intros nodes i p. unfold pos_of. rewrite filter_In, in_seq. split.
  - intros [L E]. apply Nat.eqb_eq in E. rewrite (nth_error_nth' nodes (S i)) by lia. now rewrite E.
  - intros E. assert (p < length nodes)%nat by (apply nth_error_Some; congruence). split; [lia|]. apply Nat.eqb_eq. now apply nth_error_nth.
Qed.
Lemma pos_of_NoDup : forall nodes i, NoDup (pos_of nodes i).
Proof. intros. apply NoDup_filter, seq_NoDup. Qed.
Lemma positions_step : forall nodes k, positions (nodes ++ [k]) = dset (positions nodes) k (dget_or (positions nodes) k [] ++ [length nodes]).
Proof.
  intros nodes k. unfold positions. rewrite app_length. cbn [length]. rewrite Nat.add_1_r, seq_S. cbn [plus].
  assert (E : forall (a : list nat) x (b : list nat) y, length a = length b -> combine (a ++ [x]) (b ++ [y]) = combine a b ++ [(x, y)]).
  { clear. induction a as [|c a IH]; intros x [|d b] y L; try discriminate; [reflexivity|]. cbn. f_equal. apply IH. cbn in L. congruence. }
  rewrite E by apply seq_length. rewrite fold_left_app. reflexivity.
Qed.
Lemma positions_get : forall nodes i, dget (positions nodes) i = if in_dec Nat.eq_dec i nodes then Some (pos_of nodes i) else None.
Proof.
  induction nodes as [|k nodes IH] using rev_ind; intros i; [reflexivity|]. rewrite positions_step, dget_dset, pos_of_app. unfold pos_of at 2. cbn [length seq filter nth].
  destruct (eq_dec k i) as [->|N].
  - destruct (in_dec Nat.eq_dec i (nodes ++ [i])) as [_|N]; [|exfalso; apply N, in_or_app; right; now left]. rewrite Nat.eqb_refl. cbn [map]. rewrite Nat.add_0_r. unfold dget_or. rewrite IH.
    destruct (in_dec Nat.eq_dec i nodes) as [_|Ni]; [reflexivity|]. f_equal. f_equal. destruct (pos_of nodes i) as [|p l] eqn:E; [reflexivity|]. exfalso. apply Ni.
    assert (Hp : In p (pos_of nodes i)) by (rewrite E; now left). apply pos_of_in in Hp. eapply nth_error_In. exact Hp.
  - rewrite (proj2 (Nat.eqb_neq k i) N). cbn [map]. rewrite app_nil_r, IH. destruct (in_dec Nat.eq_dec i nodes) as [H|H]; destruct (in_dec Nat.eq_dec i (nodes ++ [k])) as [H2|H2]; try reflexivity; exfalso.
    + apply H2, in_or_app. now left.
    + apply in_app_or in H2. destruct H2 as [H2|[H2|[]]]; [contradiction | congruence].
Qed.
Lemma positions_keys : forall nodes, NoDup (dkeys (positions nodes)).
Proof.
  induction nodes as [|k nodes IH] using rev_ind; [constructor|]. rewrite positions_step. apply NoDup_dset. exact IH.
Qed.

(** ** Merging *)
Lemma merge_length : forall size ups ps, length (merge_updates size ups ps) = length ups.
Proof.
  intros size ups ps. unfold merge_updates. destruct (length ps =? 1)%nat; [reflexivity|].
  assert (G : forall l us, length (fold_left (fun us p => set_nth us p (zero size)) l us) = length us) by (induction l as [|p l IH]; intros us; cbn [fold_left]; [reflexivity|]; rewrite IH; apply set_nth_length).
  rewrite G. apply set_nth_length.
Qed.
Lemma total_one : forall size x, length x = size -> total size [x] = x.
Proof. intros size x <-. unfold total, zero. cbn [fold_left]. induction x as [|a x IH]; [reflexivity|]. cbn [length repeat lin]. rewrite IH. f_equal. lra. Qed.
Lemma zeroed : forall size l us q d, (forall p, In p l -> p < length us)%nat ->
  nth q (fold_left (fun us p => set_nth us p (zero size)) l us) d = if in_dec Nat.eq_dec q l then zero size else nth q us d.
Proof.
  intros size. induction l as [|p l IH]; intros us q d H; cbn [fold_left]; [reflexivity|]. rewrite IH by (intros p' Hp; rewrite set_nth_length; apply H; now right).
  assert (Hp : (p < length us)%nat) by (apply H; now left). destruct (in_dec Nat.eq_dec q l) as [Hq|Nq]; destruct (in_dec Nat.eq_dec q (p :: l)) as [H2|H2]; try reflexivity.
  - exfalso. apply H2. now right.
  - destruct H2 as [->|H2]; [|contradiction]. rewrite set_nth_nth by exact Hp. now rewrite Nat.eqb_refl.
  - apply set_nth_nth_other. intros ->. apply H2. now left.
Qed.
Lemma merge_nth : forall size ups ps q, ps <> [] -> NoDup ps -> (forall p, In p ps -> p < length ups /\ length (nth p ups []) = size)%nat ->
  nth q (merge_updates size ups ps) [] =
  if in_dec Nat.eq_dec q ps then (if (q =? last ps 0)%nat then total size (map (fun p => nth p ups []) ps) else zero size) else nth q ups [].
Proof.
  intros size ups ps q Ne ND H. unfold merge_updates. destruct (Nat.eqb_spec (length ps) 1) as [L|L].
  - destruct ps as [|p [|? ?]]; try discriminate. cbn [last map]. destruct (in_dec Nat.eq_dec q [p]) as [[->|[]]|N]; [|reflexivity]. rewrite Nat.eqb_refl. symmetry. apply total_one. apply H. now left.
  - pose proof (app_removelast_last 0%nat Ne) as E. set (a := removelast ps) in *. set (z := last ps 0%nat) in *. clearbody a z.
    assert (Nz : ~ In z a). { rewrite E in ND. apply NoDup_remove_2 in ND. rewrite app_nil_r in ND. exact ND. }
    assert (Hz : (z < length ups)%nat) by (apply H; rewrite E; apply in_or_app; right; now left).
    rewrite zeroed by (intros p Hp; rewrite set_nth_length; apply H; rewrite E; apply in_or_app; now left).
    rewrite set_nth_nth by exact Hz.
    assert (IFF : In q ps <-> In q a \/ q = z) by (rewrite E, in_app_iff; cbn [In]; intuition congruence).
    destruct (in_dec Nat.eq_dec q a) as [Ha|Na]; destruct (in_dec Nat.eq_dec q ps) as [Hp|Np]; destruct (Nat.eqb_spec q z) as [->|Q]; try reflexivity; exfalso; intuition congruence.
Qed.
Lemma merge_fold : forall size (L : list (nat * list nat)) ups q,
  (forall k ps, In (k, ps) L -> ps <> [] /\ NoDup ps /\ forall p, In p ps -> p < length ups /\ length (nth p ups []) = size)%nat ->
  (forall k ps k' ps' p, In (k, ps) L -> In (k', ps') L -> In p ps -> In p ps' -> k = k') -> NoDup (map fst L) ->
  (forall k ps, In (k, ps) L -> In q ps ->
    nth q (fold_left (fun us kp => merge_updates size us (snd kp)) L ups) [] = if (q =? last ps 0)%nat then total size (map (fun p => nth p ups []) ps) else zero size).
Proof.
  intros size. induction L as [|[k0 p0] L IH]; intros ups q W D N k ps Hk Hq; [destruct Hk|]. cbn [fold_left snd]. inversion N as [|? ? N1 N2]; subst.
  destruct (W k0 p0 (or_introl eq_refl)) as (Ne0 & ND0 & B0).
  assert (Keep : forall k ps p, In (k, ps) L -> In p ps -> nth p (merge_updates size ups p0) [] = nth p ups []).
  { intros k' ps' p Hin Hp. rewrite merge_nth by assumption. destruct (in_dec Nat.eq_dec p p0) as [Hp0|]; [|reflexivity]. exfalso.
    assert (k0 = k') by (eapply (D k0 p0 k' ps' p); [now left | now right | assumption | assumption]). subst. apply N1. apply in_map_iff. exists (k', ps'). auto. }
  assert (Notin : forall (l : list (nat * list nat)) (ups0 : list vec), ~ (exists k ps, In (k, ps) l /\ In q ps) -> (forall k ps, In (k, ps) l -> ps <> [] /\ NoDup ps /\ forall p, In p ps -> p < length ups0 /\ length (nth p ups0 []) = size)%nat ->
    (forall k ps k' ps' p, In (k, ps) l -> In (k', ps') l -> In p ps -> In p ps' -> k = k') -> NoDup (map fst l) ->
    nth q (fold_left (fun us kp => merge_updates size us (snd kp)) l ups0) [] = nth q ups0 []).
  { clear. induction l as [|[k p0] l IH]; intros ups0 Nq W D N; [reflexivity|]. cbn [fold_left snd]. inversion N as [|? ? N1 N2]; subst. destruct (W k p0 (or_introl eq_refl)) as (Ne0 & ND0 & B0). rewrite IH.
    - rewrite merge_nth by assumption. destruct (in_dec Nat.eq_dec q p0) as [H|]; [|reflexivity]. exfalso. apply Nq. exists k, p0. split; [now left | exact H].
    - intros (k' & ps' & H1 & H2). apply Nq. exists k', ps'. split; [now right | exact H2].
    - intros k' ps' H. destruct (W k' ps' (or_intror H)) as (W1 & W2 & W3). split; [exact W1|]. split; [exact W2|]. intros p Hp. destruct (W3 p Hp) as [V1 V2]. rewrite merge_length. split; [exact V1|].
      rewrite merge_nth by assumption. destruct (in_dec Nat.eq_dec p p0) as [Hp0|]; [|exact V2]. exfalso. assert (k = k') by (eapply (D k p0 k' ps' p); [now left | now right | assumption | assumption]). subst. apply N1. apply in_map_iff. exists (k', ps'). auto.
    - intros k1 ps1 k2 ps2 p H1 H2. apply D; now right.
    - exact N2. }
  assert (W' : forall k ps, In (k, ps) L -> ps <> [] /\ NoDup ps /\ (forall p, In p ps -> p < length (merge_updates size ups p0) /\ length (nth p (merge_updates size ups p0) []) = size)%nat).
  { intros k' ps' H. destruct (W k' ps' (or_intror H)) as (W1 & W2 & W3). split; [exact W1|]. split; [exact W2|]. intros p Hp. destruct (W3 p Hp) as [V1 V2]. rewrite merge_length, (Keep k' ps' p H Hp). split; assumption. }
  assert (D' : forall k ps k' ps' p, In (k, ps) L -> In (k', ps') L -> In p ps -> In p ps' -> k = k') by (intros k1 ps1 k2 ps2 p H1 H2; apply D; now right).
  destruct Hk as [E|Hk].
  - injection E as <- <-. rewrite Notin; [| | exact W' | exact D' | exact N2].
    + rewrite merge_nth by assumption. destruct (in_dec Nat.eq_dec q p0); [reflexivity | contradiction].
    + intros (k' & ps' & H1 & H2). assert (k0 = k') by (eapply (D k0 p0 k' ps' q); [now left | now right | assumption | assumption]). subst. apply N1. apply in_map_iff. exists (k', ps'). auto.
  - rewrite (IH (merge_updates size ups p0) q W' D' N2 k ps Hk Hq). destruct (q =? last ps 0)%nat; [|reflexivity]. f_equal. apply map_ext_in. intros p Hp. apply (Keep k ps p Hk Hp).
Qed.
Lemma handle_length : forall size nodes ups, length (handle_duplicates size ups nodes) = length ups.
Proof.
  intros size nodes. unfold handle_duplicates. generalize (positions nodes). induction d as [|[k ps] d IH]; intros ups; cbn [fold_left]; [reflexivity|]. rewrite IH. apply merge_length.
Qed.
Lemma last_pos : forall nodes i q, is_last nodes i q -> last (pos_of nodes i) 0%nat = q.
Proof.
  intros nodes i q [A B0]. assert (L : (q < length nodes)%nat) by (apply nth_error_Some; congruence). unfold pos_of.
  replace (length nodes) with (q + S (length nodes - S q))%nat by lia. rewrite seq_app, filter_app. cbn [plus seq filter]. rewrite (nth_error_nth _ _ _ A), Nat.eqb_refl.
  replace (filter _ (seq (S q) _)) with (@nil nat); [apply last_last|]. symmetry. set (m := (length nodes - S q)%nat). 
  assert (G : forall l, (forall p, In p l -> q < p < length nodes)%nat -> filter (fun p => nth p nodes (S i) =? i)%nat l = []).
  { induction l as [|p l IH]; intros H; [reflexivity|]. cbn [filter]. destruct (Nat.eqb_spec (nth p nodes (S i)) i) as [E|]; [|apply IH; intros; apply H; now right]. exfalso. destruct (H p (or_introl eq_refl)) as [H1 H2]. apply (B0 p H1). rewrite (nth_error_nth' nodes (S i)) by exact H2. now rewrite E. }
  apply G. intros p Hp. apply in_seq in Hp. unfold m in Hp. lia.
Qed.
(** All updates of a node are found, added up, at its last position. *)
Lemma handle_nth : forall size nodes ups i q, length ups = length nodes -> Forall (fun u => length u = size) ups -> is_last nodes i q ->
  nth q (handle_duplicates size ups nodes) [] = total size (map (fun p => nth p ups []) (pos_of nodes i)).
Proof.
  intros size nodes ups i q L F H. assert (Hin : In i nodes) by (destruct H as [A _]; eapply nth_error_In; exact A).
  assert (G : forall k ps, In (k, ps) (positions nodes) -> In k nodes /\ ps = pos_of nodes k).
  { intros k ps Hk. pose proof (In_dget (positions nodes) k ps (positions_keys nodes) Hk) as E. rewrite positions_get in E. destruct (in_dec Nat.eq_dec k nodes); [|discriminate]. injection E as <-. auto. }
  unfold handle_duplicates. rewrite (merge_fold size (positions nodes) ups q) with (k := i) (ps := pos_of nodes i).
  - rewrite (last_pos nodes i q H), Nat.eqb_refl. reflexivity.
  - intros k ps Hk. destruct (G k ps Hk) as [Hkn ->]. split; [|split; [apply pos_of_NoDup|]].
    + destruct (In_nth_error _ _ Hkn) as (p & E). apply pos_of_in in E. intros Z0. rewrite Z0 in E. destruct E.
    + intros p Hp. apply pos_of_in in Hp. assert (p < length nodes)%nat by (apply nth_error_Some; congruence). split; [lia|]. rewrite Forall_forall in F. apply F. apply nth_In. lia.
  - intros k ps k' ps' p H1 H2 H3 H4. destruct (G k ps H1) as [_ ->]. destruct (G k' ps' H2) as [_ ->]. apply pos_of_in in H3, H4. congruence.
  - apply positions_keys.
  - apply dget_In. rewrite positions_get. destruct (in_dec Nat.eq_dec i nodes); [reflexivity | contradiction].
  - apply pos_of_in. apply H.
Qed.
(** The updates of a node, as a selection. *)
Definition updates_of (i : nat) (idx : list nat) (ups : list vec) : list vec := map snd (filter (fun p => fst p =? i)%nat (combine idx ups)).
Lemma updates_pos : forall i idx ups, length ups = length idx -> map (fun p => nth p ups []) (pos_of idx i) = updates_of i idx ups.
Proof.
  intros i. unfold updates_of. induction idx as [|k idx IH]; intros [|u ups] L; try discriminate; [reflexivity|]. rewrite pos_of_cons, map_app, map_map. cbn [combine filter fst nth]. rewrite IH by (cbn in L; congruence).
  destruct (k =? i)%nat; reflexivity.
Qed.
Lemma updates_nil : forall i idx ups, length ups = length idx -> (updates_of i idx ups = [] <-> ~ In i idx).
Proof.
  intros i. unfold updates_of. induction idx as [|k idx IH]; intros [|u ups] L; try discriminate; [cbn; tauto|]. cbn [combine filter fst In]. assert (L' : length ups = length idx) by (cbn in L; congruence). specialize (IH ups L').
  destruct (Nat.eqb_spec k i) as [->|N]; cbn [map]; [split; [discriminate | intros H; exfalso; apply H; now left]|]. rewrite IH. tauto.
Qed.
(** What happens to a row. *)
Definition moved (eps : R) (size : nat) (x : vec) (ups : list vec) : vec := match ups with [] => x | _ => clip_row eps (vsub x (total size ups)) end.
Lemma apply_length : forall eps size X idx ups, length (apply_updates eps size X idx ups) = length X.
Proof. intros. unfold apply_updates, sub_rows. rewrite !put_rows_length. reflexivity. Qed.
Lemma nth_map_lt : forall {A C} (f : A -> C) l q d d', (q < length l)%nat -> nth q (map f l) d = f (nth q l d').
Proof. intros A C f l q d d' H. rewrite (nth_indep _ d (f d')) by (now rewrite map_length). apply map_nth. Qed.
Lemma nth_combine_lt : forall {A C} (a : list A) (b : list C) q d d', length a = length b -> nth q (combine a b) (d, d') = (nth q a d, nth q b d').
Proof. intros. apply combine_nth. assumption. Qed.
Theorem apply_updates_row : forall eps size X idx ups i, (i < length X)%nat -> length ups = length idx -> Forall (fun u => length u = size) ups ->
  nth i (apply_updates eps size X idx ups) [] = moved eps size (nth i X []) (updates_of i idx ups).
Proof.
  intros eps size X idx ups i Hi L F. unfold apply_updates. set (X1 := sub_rows X idx (handle_duplicates size ups idx)).
  destruct (in_dec Nat.eq_dec i idx) as [Hin|N].
  - destruct (exists_last idx i Hin) as (q & Hq). assert (Lq : (q < length idx)%nat) by (apply nth_error_Some; destruct Hq as [A _]; congruence).
    assert (Eq : nth q idx 0%nat = i) by (apply nth_error_nth; apply Hq).
    assert (E1 : nth i X1 [] = vsub (nth i X []) (total size (updates_of i idx ups))).
    { unfold X1, sub_rows. rewrite (put_rows_last idx _ X i q) by (auto; rewrite map_length, combine_length; unfold take_rows; rewrite map_length, handle_length; lia).
      rewrite (nth_map_lt _ _ q [] ([], [])) by (rewrite combine_length; unfold take_rows; rewrite map_length, handle_length; lia).
      rewrite nth_combine_lt by (unfold take_rows; rewrite map_length, handle_length; congruence). cbn [fst snd]. unfold take_rows. rewrite (nth_map_lt _ idx q [] 0%nat) by exact Lq. rewrite Eq.
      rewrite (handle_nth size idx ups i q L F Hq), updates_pos by exact L. reflexivity. }
    assert (Hi1 : (i < length X1)%nat) by (unfold X1, sub_rows; rewrite put_rows_length; exact Hi).
    rewrite (put_rows_last idx _ X1 i q) by (auto; unfold clip_vectors, take_rows; rewrite !map_length; reflexivity). unfold clip_vectors, take_rows. rewrite map_map, (nth_map_lt _ idx q [] 0%nat) by exact Lq. rewrite Eq, E1.
    unfold moved. destruct (updates_of i idx ups) as [|u us] eqn:E; [|reflexivity]. exfalso. apply (proj1 (updates_nil i idx ups L) E). exact Hin.
  - rewrite put_rows_other by exact N. unfold X1, sub_rows. rewrite put_rows_other by exact N. unfold moved. rewrite (proj2 (updates_nil i idx ups L) N). reflexivity.
Qed.
