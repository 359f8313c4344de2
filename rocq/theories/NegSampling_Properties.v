(** Theorems about negative sampling (properties C45, C64). *)

From Verif Require Import Base NegSampling_Model NegSampling_Spec.
From Coq Require Import Reals Lra Lia ZifyNat ZifyBool Zquot.
Local Open Scope R_scope.

(** ** Rounding to integers *)
Lemma py_floor_spec : forall x, IZR (py_floor x) <= x < IZR (py_floor x) + 1.
Proof. intros x. unfold py_floor. destruct (archimed x). rewrite minus_IZR. lra. Qed.
Lemma py_floor_unique : forall x n, IZR n <= x < IZR n + 1 -> py_floor x = n.
Proof.
  intros x n H. pose proof (py_floor_spec x) as F. assert (A : (py_floor x < n + 1)%Z) by (apply lt_IZR; rewrite plus_IZR; lra).
  assert (B : (n < py_floor x + 1)%Z) by (apply lt_IZR; rewrite plus_IZR; lra). lia.
Qed.
Lemma py_round_near : forall x, Rabs (IZR (py_round x) - x) <= 1/2.
Proof.
  intros x. pose proof (py_floor_spec x) as F. unfold py_round. destruct (Rlt_dec _ _); [apply Rabs_le; lra|]. destruct (Rlt_dec _ _); [rewrite plus_IZR; apply Rabs_le; lra|].
  destruct (Z.even _); [|rewrite plus_IZR]; apply Rabs_le; lra.
Qed.
Lemma py_round_int : forall n, py_round (IZR n) = n.
Proof.
  intros n. unfold py_round. assert (E : py_floor (IZR n) = n) by (apply py_floor_unique; lra). rewrite E. destruct (Rlt_dec _ _); [reflexivity | lra].
Qed.
Lemma py_floor_mono : forall x y, x <= y -> (py_floor x <= py_floor y)%Z.
Proof.
  intros x y H. pose proof (py_floor_spec x). pose proof (py_floor_spec y). assert (A : (py_floor x < py_floor y + 1)%Z) by (apply lt_IZR; rewrite plus_IZR; lra). lia.
Qed.
Lemma py_round_mono : forall x y, x <= y -> (py_round x <= py_round y)%Z.
Proof.
  intros x y H. pose proof (py_floor_mono x y H) as M. pose proof (py_floor_spec x). pose proof (py_floor_spec y).
  destruct (Z.eq_dec (py_floor x) (py_floor y)) as [E|E].
  - unfold py_round. rewrite E in *. repeat destruct (Rlt_dec _ _); destruct (Z.even (py_floor y)); try lia; exfalso; lra.
  - assert (A : (py_round x <= py_floor x + 1)%Z) by (unfold py_round; repeat destruct (Rlt_dec _ _); destruct (Z.even (py_floor x)); lia).
    assert (B : (py_floor y <= py_round y)%Z) by (unfold py_round; repeat destruct (Rlt_dec _ _); destruct (Z.even (py_floor y)); lia). lia.
Qed.

(** ** The table *)
Section Table.
Variable rnd : R -> R.
Variable domain : Z.
Hypothesis Hr : rounding rnd domain.

Lemma sum_from : forall ws c, (forall w, In w ws -> 0 <= w) -> rnd c = c -> c <= fold_left (fun c w => rnd (c + w)) ws c /\ rnd (fold_left (fun c w => rnd (c + w)) ws c) = fold_left (fun c w => rnd (c + w)) ws c.
Proof.
  destruct Hr as (Mo & Id & _). induction ws as [|w ws IH]; intros c P C; [cbn; split; [lra | exact C]|]. cbn [fold_left].
  destruct (IH (rnd (c + w)) ltac:(intros; apply P; right; assumption) (Id _)) as [A B]. split; [|exact B].
  specialize (P w (or_introl eq_refl)). specialize (Mo c (c + w) ltac:(lra)). lra.
Qed.
Lemma cumulate_length : forall z d ws c, length (cumulate rnd z d c ws) = length ws.
Proof. induction ws as [|w ws IH]; intros c; cbn; auto. Qed.
Lemma entry_mono : forall z c c', 0 < z -> c <= c' -> (0 <= domain)%Z ->
  (py_round (rnd (rnd (c / z) * IZR domain)) <= py_round (rnd (rnd (c' / z) * IZR domain)))%Z.
Proof.
  destruct Hr as (Mo & _). intros z c c' Z L D. apply py_round_mono, Mo. apply Rmult_le_compat_r; [apply (IZR_le 0); exact D|]. apply Mo. apply Rmult_le_compat_r; [|exact L].
  apply Rlt_le, Rinv_0_lt_compat, Z.
Qed.
Lemma cumulate_ge : forall z ws c i x, 0 < z -> (0 <= domain)%Z -> rnd c = c -> (forall w, In w ws -> 0 <= w) -> nth_error (cumulate rnd z (IZR domain) c ws) i = Some x ->
  (py_round (rnd (rnd (c / z) * IZR domain)) <= x)%Z.
Proof.
  destruct Hr as (Mo & Id & _). induction ws as [|w ws IH]; intros c i x Z D C P H; [destruct i; discriminate|]. cbn [cumulate] in H.
  assert (L : c <= rnd (c + w)) by (specialize (P w (or_introl eq_refl)); specialize (Mo c (c + w) ltac:(lra)); lra).
  destruct i as [|i]; cbn in H.
  - injection H as <-. apply entry_mono; assumption.
  - etransitivity; [apply (entry_mono z c (rnd (c + w))); assumption|]. apply (IH (rnd (c + w)) i x); auto. intros; apply P; right; assumption.
Qed.
Lemma cumulate_mono : forall z ws c, 0 < z -> (0 <= domain)%Z -> (forall w, In w ws -> 0 <= w) -> rnd c = c -> nondecreasing (cumulate rnd z (IZR domain) c ws).
Proof.
  destruct Hr as (Mo & Id & _). induction ws as [|w ws IH]; intros c Z D P C i j x y L Hi Hj; [destruct i; discriminate|]. cbn [cumulate] in Hi, Hj.
  assert (P' : forall w0, In w0 ws -> 0 <= w0) by (intros; apply P; right; assumption).
  destruct i as [|i]; cbn in Hi.
  - injection Hi as <-. destruct j as [|j]; cbn in Hj; [injection Hj as <-; lia|]. apply (cumulate_ge z ws (rnd (c + w)) j y); auto.
  - destruct j as [|j]; [lia|]. cbn in Hj. apply (IH (rnd (c + w)) Z D P' (Id _) i j x y); [lia | assumption | assumption].
Qed.
Lemma cumulate_last : forall z ws c, ws <> [] -> 0 < z -> fold_left (fun c w => rnd (c + w)) ws c = z -> last (cumulate rnd z (IZR domain) c ws) 0%Z = domain.
Proof.
  destruct Hr as (Mo & Id & _ & R1 & Rd). induction ws as [|w ws IH]; intros c N Z S; [congruence|]. cbn [cumulate fold_left] in *. destruct ws as [|w' ws].
  - cbn in *. rewrite S. unfold Rdiv. rewrite Rinv_r by lra. rewrite R1, Rmult_1_l, Rd. apply py_round_int.
  - specialize (IH (rnd (c + w)) ltac:(discriminate) Z S). cbn [last]. cbn [cumulate] in IH |- *. exact IH.
Qed.

(** The table has one entry per word, never decreases, starts at 0 or more and ends at the domain size; the assertion in the
    code never fails.  This holds for float arithmetic: only the properties in [rounding] are used. *)
Theorem cum_table_ok : forall ws, (0 <= domain)%Z -> (forall w, In w ws -> 0 <= w) -> float_sum rnd ws <> 0 -> exists t,
  make_cum_table rnd domain ws = Ok t /\ length t = length ws /\ nondecreasing t /\ last t 0%Z = domain /\ (forall x, In x t -> 0 <= x <= domain)%Z.
Proof.
  intros ws D P Z. pose proof Hr as (Mo & Id & R0 & _). destruct (sum_from ws 0 P R0) as [S _]. fold (float_sum rnd ws) in S.
  assert (Zp : 0 < float_sum rnd ws) by lra. assert (N : ws <> []) by (intros ->; apply Z; reflexivity).
  set (t := cumulate rnd (float_sum rnd ws) (IZR domain) 0 ws). exists t.
  assert (L : last t 0%Z = domain) by (apply cumulate_last; auto). assert (M : nondecreasing t) by (apply cumulate_mono; auto).
  assert (Lt : length t = length ws) by apply cumulate_length.
  split; [|split; [exact Lt | split; [exact M | split; [exact L|]]]].
  - unfold make_cum_table. destruct ws as [|w ws]; [congruence|]. destruct (Req_EM_T _ _) as [E|E]; [contradiction|]. fold t. rewrite L, Z.eqb_refl. reflexivity.
  - intros x Hx. apply In_nth_error in Hx. destruct Hx as [i Hi]. split.
    + pose proof (cumulate_ge _ _ _ i x Zp D R0 P Hi) as G. replace (0 / float_sum rnd ws) with 0 in G by (unfold Rdiv; ring). rewrite R0, Rmult_0_l, R0 in G. rewrite (py_round_int 0) in G. exact G.
    + assert (Hn : t <> []) by (intros E; rewrite E in Lt; destruct ws; [congruence | discriminate]).
      assert (Hl : nth_error t (length t - 1) = Some (last t 0%Z)).
      { clear - Hn. destruct (exists_last Hn) as (l & y & ->). rewrite last_last, app_length. cbn. rewrite nth_error_app2 by lia. replace (length l + 1 - 1 - length l)%nat with 0%nat by lia. reflexivity. }
      rewrite L in Hl. refine (M i (length t - 1)%nat x domain _ Hi Hl). assert (i < length t)%nat by (apply nth_error_Some; congruence). lia.
Qed.
End Table.
Print Assumptions cum_table_ok.

(** In exact arithmetic every entry is its word's exact cumulative share of the domain, to within one half. *)
Fixpoint exact_sum (ws : list R) : R := match ws with [] => 0 | w :: r => w + exact_sum r end.
Theorem cum_table_fair : forall ws domain t i x, make_cum_table (fun x => x) domain ws = Ok t -> nth_error t i = Some x ->
  Rabs (IZR x - exact_sum (firstn (S i) ws) / exact_sum ws * IZR domain) <= 1/2.
Proof.
  intros ws domain t i x H Hx. unfold make_cum_table in H. destruct ws as [|w0 ws0] eqn:Ew; [injection H as <-; destruct i; discriminate|]. rewrite <- Ew in *. clear Ew.
  destruct (Req_EM_T _ _) as [|E]; [discriminate|]. destruct (_ =? _)%Z; [|discriminate]. injection H as <-.
  assert (S : forall l c, fold_left (fun c w => c + w) l c = c + exact_sum l) by (induction l as [|a l IH]; intros c; cbn; [ring | rewrite IH; ring]).
  unfold float_sum in *. rewrite S in *. rewrite Rplus_0_l in *. 
  assert (G : forall l c j y, nth_error (cumulate (fun x => x) (exact_sum ws) (IZR domain) c l) j = Some y -> y = py_round ((c + exact_sum (firstn (j + 1) l)) / exact_sum ws * IZR domain)).
  { induction l as [|a l IH]; intros c j y Hj; [destruct j; discriminate|]. cbn [cumulate] in Hj. replace (j + 1)%nat with (Datatypes.S j) by lia. destruct j as [|j]; cbn in Hj.
    - injection Hj as <-. cbn. f_equal. f_equal. f_equal. ring.
    - apply IH in Hj. replace (j + 1)%nat with (Datatypes.S j) in Hj by lia. rewrite Hj. cbn [firstn exact_sum]. f_equal. f_equal. f_equal. ring. }
  apply G in Hx. replace (i + 1)%nat with (Datatypes.S i) in Hx by lia. rewrite Rplus_0_l in Hx. subst x. apply py_round_near.
Qed.
Print Assumptions cum_table_fair.
Example cum_table_ex : make_cum_table (fun x => x) 100 [4; 2; 2] = Ok [50; 75; 100]%Z.
Proof.
  unfold make_cum_table, float_sum, cumulate. cbn [fold_left]. destruct (Req_EM_T _ _) as [E|E]; [exfalso; lra|]. cbv zeta. replace ((0 + 4) / (0 + 4 + 2 + 2) * 100) with (IZR 50) by (field; lra).
  replace ((0 + 4 + 2) / (0 + 4 + 2 + 2) * 100) with (IZR 75) by (field; lra). replace ((0 + 4 + 2 + 2) / (0 + 4 + 2 + 2) * 100) with (IZR 100) by (field; lra). rewrite !py_round_int. reflexivity.
Qed.

(** ** Drawing *)
Local Open Scope nat_scope.
Lemma bisect_ok : forall fuel a x lo hi, nondecreasing a -> hi <= length a -> lo <= hi -> hi - lo <= fuel ->
  (forall j y, j < lo -> nth_error a j = Some y -> (y < x)%Z) -> (forall j y, hi <= j -> nth_error a j = Some y -> (x <= y)%Z) ->
  exists i, bisect_loop fuel a x lo hi = Some i /\ insertion_point a x i.
Proof.
  induction fuel as [|f IH]; intros a x lo hi M H1 H2 H3 Hl Hh.
  - assert (lo = hi) by lia. subst. exists hi. cbn [bisect_loop]. rewrite Nat.ltb_irrefl. split; [reflexivity|]. split; [exact H1|]. split; assumption.
  - cbn [bisect_loop]. destruct (lo <? hi) eqn:E.
    + apply Nat.ltb_lt in E. set (mid := (lo + hi) / 2). assert (B : lo <= mid < hi) by (unfold mid; split; [apply Nat.div_le_lower_bound; lia | apply Nat.div_lt_upper_bound; lia]).
      clearbody mid. destruct (nth_error a mid) as [y|] eqn:Em; [|apply nth_error_None in Em; lia]. destruct (x <=? y)%Z eqn:Exy.
      * apply IH; try lia; auto. intros j y' Hj E'. specialize (M mid j y y' Hj Em E'). lia.
      * apply IH; try lia; auto. intros j y' Hj E'. assert (Hjm : j <= mid) by lia. specialize (M j mid y' y Hjm E' Em). lia.
    + apply Nat.ltb_ge in E. assert (lo = hi) by lia. subst. exists hi. split; [reflexivity|]. split; [exact H1|]. split; assumption.
Qed.
Theorem bisect_left_ok : forall a x, nondecreasing a -> exists i, bisect_left a x 0 (length a) = Some i /\ insertion_point a x i.
Proof. intros a x M. apply bisect_ok; auto; try lia. intros j y H E. assert (j < length a) by (apply nth_error_Some; congruence). lia. Qed.
Print Assumptions bisect_left_ok.
Lemma insertion_unique : forall a x i j, insertion_point a x i -> insertion_point a x j -> i = j.
Proof.
  assert (X : forall a x i j, insertion_point a x i -> insertion_point a x j -> ~ i < j).
  { intros a x i j (L1 & A1 & B1) (L2 & A2 & B2) H. destruct (nth_error a i) as [y|] eqn:E; [|apply nth_error_None in E; lia]. specialize (B1 i y (le_n _) E). specialize (A2 i y H E). lia. }
  intros a x i j H1 H2. pose proof (X a x i j H1 H2). pose proof (X a x j i H2 H1). lia.
Qed.

(** Any random number yields a word. *)
Theorem draw_ok : forall t r, nondecreasing t -> (0 < last t 0)%Z -> exists i, draw t r = Some i /\ i < length t /\ insertion_point t (r mod last t 0)%Z i.
Proof.
  intros t r M L. unfold draw. replace (last t 0 =? 0)%Z with false by lia. destruct (bisect_left_ok t (r mod last t 0)%Z M) as (i & E & I). exists i. split; [exact E|]. split; [|exact I].
  pose proof (Z.mod_pos_bound r (last t 0%Z) L) as B. destruct I as (I1 & I2 & _). destruct (Nat.eq_dec i (length t)) as [Ei|]; [|lia]. exfalso.
  assert (N : t <> []) by (intros ->; cbn in L; lia). destruct (exists_last N) as (l & y & ->). rewrite last_last in *. rewrite app_length in Ei. cbn in Ei.
  specialize (I2 (length l) y ltac:(lia)). rewrite nth_error_app2, Nat.sub_diag in I2 by lia. specialize (I2 eq_refl). lia.
Qed.
Print Assumptions draw_ok.

(** For how many of the numbers below the last entry word [i] is drawn: as many as its increment, but the first word gets one
    more, the first word that reaches the last entry one less. *)
Lemma below_length : forall n, length (below n) = Z.to_nat n.
Proof. intros. unfold below. rewrite map_length, seq_length. reflexivity. Qed.
Lemma count_range : forall n (f : Z -> bool) lo hi, (-1 <= lo)%Z -> (lo <= hi)%Z -> (hi < n)%Z -> (forall r, 0 <= r < n -> (f r = true <-> lo < r <= hi))%Z ->
  Z.of_nat (length (filter f (below n))) = (hi - lo)%Z.
Proof.
  intros n f lo hi H1 H2 H3 Hf. unfold below.
  assert (E : Z.to_nat n = (Z.to_nat (lo + 1) + (Z.to_nat (hi - lo) + Z.to_nat (n - 1 - hi)))%nat) by lia. rewrite E. rewrite !seq_app, !map_app, !filter_app.
  assert (F0 : forall l, (forall r, In r l -> 0 <= r < n /\ ~ (lo < r <= hi))%Z -> filter f l = []).
  { induction l as [|r l IH]; intros H; [reflexivity|]. cbn. destruct (f r) eqn:Er; [exfalso; destruct (H r (or_introl eq_refl)) as [A B]; apply B, (Hf r A), Er|]. apply IH. intros; apply H; right; assumption. }
  assert (F1 : forall l, (forall r, In r l -> lo < r <= hi)%Z -> (forall r, In r l -> 0 <= r < n)%Z -> filter f l = l).
  { induction l as [|r l IH]; intros H H'; [reflexivity|]. cbn. rewrite (proj2 (Hf r (H' r (or_introl eq_refl)))) by (apply H; left; reflexivity). rewrite IH; auto; intros; [apply H | apply H']; right; assumption. }
  rewrite (F0 (map Z.of_nat (seq 0 (Z.to_nat (lo + 1))))), (F1 (map Z.of_nat (seq (0 + Z.to_nat (lo + 1)) _))), (F0 (map Z.of_nat (seq _ (Z.to_nat (n - 1 - hi))))).
  - cbn [app]. rewrite app_nil_r, map_length, seq_length. lia.
  - intros r Hr. apply in_map_iff in Hr. destruct Hr as (k & <- & Hk). apply in_seq in Hk. lia.
  - intros r Hr. apply in_map_iff in Hr. destruct Hr as (k & <- & Hk). apply in_seq in Hk. lia.
  - intros r Hr. apply in_map_iff in Hr. destruct Hr as (k & <- & Hk). apply in_seq in Hk. lia.
  - intros r Hr. apply in_map_iff in Hr. destruct Hr as (k & <- & Hk). apply in_seq in Hk. lia.
Qed.
Theorem draw_counts : forall t i x, nondecreasing t -> (forall x, In x t -> 0 <= x)%Z -> (0 < last t 0)%Z -> nth_error t i = Some x ->
  Z.of_nat (length (filter (fun r => match draw t r with Some j => j =? i | None => false end) (below (last t 0%Z)))) =
  (increment t i + (if (i =? 0)%nat then 1 else 0) - (if (x =? last t 0) && ((i =? 0)%nat || (nth (i - 1)%nat t 0 <? last t 0)) then 1 else 0))%Z.
Proof.
  intros t i x M P L Hx. set (n := last t 0%Z) in *.
  assert (Xn : (x <= n)%Z).
  { assert (Hn : t <> []) by (intros E; rewrite E in Hx; destruct i; discriminate). unfold n. destruct (exists_last Hn) as (l & y & E). rewrite E in *. rewrite last_last.
    assert (i < length (l ++ [y])) by (apply nth_error_Some; congruence). rewrite app_length in H. cbn in H. refine (M i (length l) x y ltac:(lia) Hx _). rewrite nth_error_app2, Nat.sub_diag by lia. reflexivity. }
  assert (X0 : (0 <= x)%Z) by (apply P; eapply nth_error_In; exact Hx).
  set (lo := match i with O => (-1)%Z | S j => nth j t 0%Z end).
  assert (Lo : (-1 <= lo <= x)%Z /\ (i <> 0 -> (0 <= lo)%Z)).
  { unfold lo. destruct i as [|j]; [lia|]. assert (j < length t) by (assert (S j < length t) by (apply nth_error_Some; congruence); lia).
    assert (Ej : nth_error t j = Some (nth j t 0%Z)) by (apply nth_error_nth'; assumption). specialize (M j (S j) _ x ltac:(lia) Ej Hx). specialize (P (nth j t 0%Z) (nth_error_In _ _ Ej)). lia. }
  assert (D : forall r, (0 <= r < n)%Z -> (match draw t r with Some j => j =? i | None => false end = true <-> (lo < r <= x)%Z)).
  { intros r Hr. destruct (draw_ok t r M L) as (j & E & Hj & I). rewrite E. fold n in I. rewrite Z.mod_small in I by exact Hr. rewrite Nat.eqb_eq. split.
    - intros ->. destruct I as (_ & A & B). split; [|apply (B i x (le_n _) Hx)]. unfold lo. destruct i as [|k]; [lia|]. apply (A k); [lia|]. apply nth_error_nth'. lia.
    - intros [A B]. apply (insertion_unique t r j i I). split; [apply Nat.lt_le_incl, nth_error_Some; congruence|]. split.
      + intros k y Hk Ey. unfold lo in A. destruct i as [|i']; [lia|]. assert (i' < length t) by (assert (S i' < length t) by (apply nth_error_Some; congruence); lia).
        assert (Ei : nth_error t i' = Some (nth i' t 0%Z)) by (apply nth_error_nth'; assumption). specialize (M k i' y _ ltac:(lia) Ey Ei). lia.
      + intros k y Hk Ey. specialize (M i k x y Hk Hx Ey). lia. }
  assert (Ix : nth i t 0%Z = x) by (apply nth_error_nth; exact Hx).
  assert (Inc : increment t i = (x - lo - (if (i =? 0)%nat then 1 else 0))%Z) by (unfold increment, lo; rewrite Ix; destruct i; cbn [Nat.eqb]; lia).
  rewrite Inc. assert (Pred : (i =? 0) = false -> nth (i - 1) t 0%Z = lo) by (unfold lo; destruct i; [discriminate|]; intros _; f_equal; lia).
  destruct (Z.eq_dec x n) as [Exn|Nxn].
  - destruct (Z.eq_dec lo n) as [Eln|Nln].
    + rewrite (count_range n _ (n - 1) (n - 1)) by (try lia; intros r Hr; rewrite (D r Hr); lia).
      assert (Ei : (i =? 0) = false) by (destruct i; [unfold lo in Eln; lia | reflexivity]). rewrite (Pred Ei), Ei. replace (x =? n)%Z with true by lia. replace (lo <? n)%Z with false by lia. cbn. lia.
    + rewrite (count_range n _ lo (n - 1)) by (try lia; intros r Hr; rewrite (D r Hr); lia).
      replace (x =? n)%Z with true by lia. destruct (i =? 0) eqn:Ei; cbn [orb andb]; [lia|]. rewrite (Pred eq_refl). replace (lo <? n)%Z with true by lia. cbn. lia.
  - rewrite (count_range n _ lo x) by (try lia; intros r Hr; rewrite (D r Hr); lia). replace (x =? n)%Z with false by lia. cbn [andb]. lia.
Qed.
Print Assumptions draw_counts.
Example draw_ex : map (draw [3; 3; 7; 8; 8]%Z) (below 8) = [Some 0; Some 0; Some 0; Some 0; Some 2; Some 2; Some 2; Some 2].
Proof. vm_compute. reflexivity. Qed.
(** So a word with a positive increment may never be drawn, and one without any may be. *)
Theorem draw_proportional_refuted : exists t, nondecreasing t /\ (increment t 0 = 0 /\ increment t 2 = 1)%Z /\
  existsb (fun r => match draw t r with Some j => j =? 0 | None => false end) (below (last t 0%Z)) = true /\ existsb (fun r => match draw t r with Some j => j =? 2 | None => false end) (below (last t 0%Z)) = false.
Proof.
  exists [0; 9; 10]%Z. split; [|vm_compute; auto].
  intros i j x y L Hi Hj. destruct i as [|[|[|i]]]; cbn in Hi; try (destruct i; discriminate); injection Hi as <-; destruct j as [|[|[|j]]]; cbn in Hj; try (destruct j; discriminate); injection Hj as <-; lia.
Qed.

(** ** C64: the random number generator *)
Local Open Scope Z_scope.
Lemma next_random_mod : forall s, next_random s = (s * 25214903917 + 11) mod 2 ^ 48.
Proof. intros s. unfold next_random. rewrite <- Znumtheory.Zmod_div_mod; [reflexivity | reflexivity | reflexivity |]. exists (2 ^ 16). reflexivity. Qed.

Fixpoint pow_pair (j : nat) : Z * Z := match j with O => (25214903917, 11) | S j => let '(a, c) := pow_pair j in (a * a, a * c + c) end.
Lemma iterate_add : forall {A} (f : A -> A) n m x, iterate f (n + m) x = iterate f n (iterate f m x).
Proof. induction n as [|n IH]; intros m x; [reflexivity|]. cbn. f_equal. apply IH. Qed.
Definition lin (s : Z) : Z := s * 25214903917 + 11.
Lemma pow_pair_ok : forall j x, iterate lin (Nat.pow 2 j) x = fst (pow_pair j) * x + snd (pow_pair j).
Proof.
  induction j as [|j IH]; intros x; [change (x * 25214903917 + 11 = 25214903917 * x + 11); ring|]. replace (Nat.pow 2 (S j)) with (Nat.pow 2 j + Nat.pow 2 j)%nat by (cbn; lia). rewrite iterate_add, !IH. cbn [pow_pair]. destruct (pow_pair j) as [a c]. cbn [fst snd]. ring.
Qed.
Lemma pow_pair_form : forall j, exists a c, pow_pair j = (4 * 2 ^ Z.of_nat j * a + 1, 2 ^ Z.of_nat j * (2 * c + 1)).
Proof.
  induction j as [|j (a & c & E)]; [exists 6303725979, 5; reflexivity|]. cbn [pow_pair]. rewrite E. rewrite Nat2Z.inj_succ, Z.pow_succ_r by lia. set (p := 2 ^ Z.of_nat j).
  exists (2 * p * a * a + a), (p * a * (2 * c + 1) + c). f_equal; ring.
Qed.
Lemma iterate_pow : forall j x, exists d, iterate lin (Nat.pow 2 j) x = x + 2 ^ Z.of_nat j * (2 * d + 1).
Proof. intros j x. rewrite pow_pair_ok. destruct (pow_pair_form j) as (a & c & ->). cbn [fst snd]. exists (2 * a * x + c). ring. Qed.
Lemma iterate_mult : forall j m x, exists d, iterate lin (m * Nat.pow 2 j) x = x + 2 ^ Z.of_nat j * (2 * d + Z.of_nat m).
Proof.
  induction m as [|m IH]; intros x; [exists 0; cbn; ring|]. cbn [Nat.mul]. rewrite iterate_add. destruct (IH x) as (d & ->). destruct (iterate_pow j (x + 2 ^ Z.of_nat j * (2 * d + Z.of_nat m))) as (d' & ->).
  exists (d + d'). rewrite Nat2Z.inj_succ. ring.
Qed.
(** The [n]-th iterate is congruent to the start modulo 2^k exactly when 2^k divides [n]. *)
Lemma iterate_cong : forall (k n : nat) x, (iterate lin n x - x) mod 2 ^ Z.of_nat k = 0 <-> Nat.divide (Nat.pow 2 k) n.
Proof.
  induction k as [|k IH]; intros n x.
  - cbn. rewrite Z.mod_1_r. split; [intros _; exists n; lia | auto].
  - split.
    + intros H. assert (H' : (iterate lin n x - x) mod 2 ^ Z.of_nat k = 0).
      { apply Z.mod_divide; [apply Z.pow_nonzero; lia|]. apply Z.mod_divide in H; [|apply Z.pow_nonzero; lia]. destruct H as [q H]. exists (q * 2). rewrite H, Nat2Z.inj_succ, Z.pow_succ_r by lia. ring. }
      apply IH in H'. destruct H' as [m ->]. destruct (iterate_mult k m x) as (d & E). rewrite E in H. replace (x + 2 ^ Z.of_nat k * (2 * d + Z.of_nat m) - x) with (2 ^ Z.of_nat k * (2 * d + Z.of_nat m)) in H by ring.
      rewrite Nat2Z.inj_succ, Z.pow_succ_r in H by lia. apply Z.mod_divide in H; [|apply Z.neq_mul_0; split; [lia | apply Z.pow_nonzero; lia]]. destruct H as [q H].
      assert (H' : 2 * d + Z.of_nat m = 2 * q) by (apply (Z.mul_cancel_l _ _ (2 ^ Z.of_nat k)); [apply Z.pow_nonzero; lia | rewrite H; ring]).
      assert (E2 : exists h, m = (2 * h)%nat) by (exists (Z.to_nat (q - d)); lia). destruct E2 as [h ->]. exists h. cbn. lia.
    + intros [m ->]. destruct (iterate_mult (S k) m x) as (d & E). rewrite E. replace (x + 2 ^ Z.of_nat (S k) * (2 * d + Z.of_nat m) - x) with ((2 * d + Z.of_nat m) * 2 ^ Z.of_nat (S k)) by ring. apply Z.mod_mul. apply Z.pow_nonzero; lia.
Qed.
Lemma iterate_next : forall n s, 0 <= s < 2 ^ 48 -> iterate next_random n s = iterate lin n s mod 2 ^ 48.
Proof.
  induction n as [|n IH]; intros s H; [cbn; rewrite Z.mod_small; auto|]. cbn [iterate]. rewrite IH by exact H. rewrite next_random_mod. unfold lin at 2.
  rewrite Z.add_mod, Z.mul_mod_idemp_l, <- Z.add_mod by discriminate. reflexivity.
Qed.

(** From any start the generator visits all 2^48 states before it returns to the start. *)
Theorem lcg_period : forall s (n : nat), 0 <= s < 2 ^ 48 -> (iterate next_random n s = s <-> Nat.divide (Nat.pow 2 48) n).
Proof.
  intros s n H. rewrite iterate_next by exact H. rewrite <- (iterate_cong 48 n s). change (Z.of_nat 48) with 48. split.
  - intros E. rewrite Zminus_mod, E, (Z.mod_small s) by exact H. rewrite Z.sub_diag. reflexivity.
  - intros E. apply Z.mod_divide in E; [|discriminate]. destruct E as [q E]. replace (iterate lin n s) with (s + q * 2 ^ 48) by lia. rewrite Z.mod_add by discriminate. apply Z.mod_small. exact H.
Qed.
Theorem lcg_range : forall s n, 0 <= s < 2 ^ 48 -> 0 <= iterate next_random n s < 2 ^ 48 /\ 0 <= fst (random_int32 (iterate next_random n s)) < 2 ^ 32.
Proof.
  intros s n H. rewrite iterate_next by exact H. assert (B : 0 <= iterate lin n s mod 2 ^ 48 < 2 ^ 48) by (apply Z.mod_pos_bound; reflexivity). split; [exact B|].
  cbn [random_int32 fst]. split; [apply Z.div_pos; lia|]. apply Z.div_lt_upper_bound; [reflexivity|]. change (2 ^ 16 * 2 ^ 32) with (2 ^ 48). lia.
Qed.
(** Two different numbers of steps below 2^48 lead to different states, so each state is reached. *)
Theorem lcg_distinct : forall s (i j : nat), 0 <= s < 2 ^ 48 -> (i <= j)%nat -> iterate next_random i s = iterate next_random j s -> Nat.divide (Nat.pow 2 48) (j - i).
Proof.
  intros s i j H L E. destruct (lcg_range s i H) as [B _]. apply (lcg_period (iterate next_random i s)); [exact B|]. rewrite <- iterate_add. replace (j - i + i)%nat with j by lia. symmetry. exact E.
Qed.
Print Assumptions lcg_period. Print Assumptions lcg_range. Print Assumptions lcg_distinct.
Example lcg_ex : iterate next_random 3 12345 = 4520194479498 /\ fst (random_int32 (iterate next_random 1 0)) = 0 /\ fst (random_int32 (iterate next_random 2 0)) = 4232237.
Proof. vm_compute. auto. Qed.
