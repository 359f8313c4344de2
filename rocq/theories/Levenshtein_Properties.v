(** Levenshtein distance and similarity (property C50). *)
From Verif Require Import Base Str NegSampling_Model NegSampling_Properties LineCorpora_Proofs Levenshtein_Model Levenshtein_Spec.
From Coq Require Import Lia ZifyNat ZifyBool ZifyN Reals Lra.
Local Open Scope nat_scope.

(** ** The distance *)
Inductive align : pystr -> pystr -> nat -> Prop :=
| a_nil : align [] [] 0
| a_match : forall c a b n, align a b n -> align (c :: a) (c :: b) n
| a_sub : forall c d a b n, align a b n -> align (c :: a) (d :: b) (S n)
| a_ins : forall d a b n, align a b n -> align a (d :: b) (S n)
| a_del : forall c a b n, align a b n -> align (c :: a) b (S n).

Lemma lev_cons : forall x a y b, lev (x :: a) (y :: b) =
  Nat.min (lev a b + (if (x =? y)%N then 0 else 1)) (Nat.min (S (lev a (y :: b))) (S (lev (x :: a) b))).
Proof. reflexivity. Qed.
Lemma align_ins_all : forall b, align [] b (length b).
Proof. induction b as [|c b IH]; [constructor | apply a_ins; exact IH]. Qed.
Lemma align_del_all : forall a, align a [] (length a).
Proof. induction a as [|c a IH]; [constructor | apply a_del; exact IH]. Qed.
Lemma min_case : forall (P : nat -> Prop) m n, P m -> P n -> P (Nat.min m n).
Proof. intros P m n A B. destruct (Nat.min_dec m n) as [E|E]; rewrite E; assumption. Qed.
Lemma lev_align : forall a b, align a b (lev a b).
Proof.
  induction a as [|x a IH]; intros b; [apply align_ins_all|].
  induction b as [|y b IHb]; [apply (align_del_all (x :: a))|]. rewrite lev_cons. apply min_case; [|apply min_case].
  - destruct (x =? y)%N eqn:E.
    + apply N.eqb_eq in E. subst y. rewrite Nat.add_0_r. apply a_match, IH.
    + rewrite Nat.add_1_r. apply a_sub, IH.
  - apply a_del, IH.
  - apply a_ins, IHb.
Qed.
Lemma lev_nil_r : forall a, lev a [] = length a.
Proof. destruct a; reflexivity. Qed.
Lemma align_lev : forall a b n, align a b n -> lev a b <= n.
Proof.
  intros a b n H. induction H as [|c a b n H IH|c d a b n H IH|d a b n H IH|c a b n H IH].
  - apply Nat.le_0_l.
  - rewrite lev_cons, N.eqb_refl. lia.
  - rewrite lev_cons. destruct (c =? d)%N; lia.
  - destruct a as [|x a]; [cbn [lev length] in *; lia|]. rewrite lev_cons. lia.
  - destruct b as [|y b]; [rewrite lev_nil_r in *; cbn [length]; lia|]. rewrite lev_cons. lia.
Qed.

(** Edits, position by position. *)
Inductive edit1 : pystr -> pystr -> Prop :=
| e1_ins : forall c v, edit1 v (c :: v)
| e1_del : forall c v, edit1 (c :: v) v
| e1_sub : forall c d v, edit1 (c :: v) (d :: v)
| e1_skip : forall c u v, edit1 u v -> edit1 (c :: u) (c :: v).
Lemma edit_edit1 : forall a b, edit a b -> edit1 a b.
Proof. intros a b H. destruct H as [u c v|u c v|u c d v]; induction u as [|x u IH]; cbn [app]; try (apply e1_skip; exact IH); constructor. Qed.
Lemma edit1_edit : forall a b, edit1 a b -> edit a b.
Proof.
  intros a b H. induction H as [c v|c v|c d v|c u v H IH]; [apply (e_ins [] c v) | apply (e_del [] c v) | apply (e_sub [] c d v)|].
  destruct IH as [u c' v|u c' v|u c' d v]; [apply (e_ins (c :: u)) | apply (e_del (c :: u)) | apply (e_sub (c :: u))].
Qed.
Lemma align_refl : forall a, align a a 0.
Proof. induction a; constructor; assumption. Qed.
Lemma align_edit1 : forall a b n, align a b n -> forall b', edit1 b b' -> exists m, m <= S n /\ align a b' m.
Proof.
  intros a b n H. induction H as [|c a b n H IH|c d a b n H IH|d a b n H IH|c a b n H IH]; intros b' E.
  - inversion E; subst. exists 1. split; [lia|]. apply a_ins. constructor.
  - inversion E as [x v|x v|x y v|x u v E']; subst.
    + exists (S n). split; [lia|]. apply a_ins, a_match, H.
    + exists (S n). split; [lia|]. apply a_del, H.
    + exists (S n). split; [lia|]. apply a_sub, H.
    + destruct (IH v E') as (m & L & A). exists m. split; [lia|]. apply a_match, A.
  - inversion E as [x v|x v|x y v|x u v E']; subst.
    + exists (S (S n)). split; [lia|]. apply a_ins, a_sub, H.
    + exists (S n). split; [lia|]. apply a_del, H.
    + exists (S n). split; [lia|]. apply a_sub, H.
    + destruct (IH v E') as (m & L & A). exists (S m). split; [lia|]. apply a_sub, A.
  - inversion E as [x v|x v|x y v|x u v E']; subst.
    + exists (S (S n)). split; [lia|]. apply a_ins, a_ins, H.
    + exists n. split; [lia | exact H].
    + exists (S n). split; [lia|]. apply a_ins, H.
    + destruct (IH v E') as (m & L & A). exists (S m). split; [lia|]. apply a_ins, A.
  - destruct (IH b' E) as (m & L & A). exists (S m). split; [lia|]. apply a_del, A.
Qed.
Lemma edits_align : forall n a b, edits n a b -> exists m, m <= n /\ align a b m.
Proof.
  intros n a b H. induction H as [a|n a b c H (m & L & A) E]; [exists 0; split; [lia | apply align_refl]|].
  destruct (align_edit1 a b m A c (edit_edit1 _ _ E)) as (k & K & B). exists k. split; [lia | exact B].
Qed.
Lemma edits_cons_skip : forall n a b c, edits n a b -> edits n (c :: a) (c :: b).
Proof. intros n a b c H. induction H as [a|n a b d H IH E]; [constructor|]. econstructor; [exact IH|]. apply edit1_edit, e1_skip, edit_edit1, E. Qed.
Lemma edits_app : forall n a b, edits n a b -> forall m c, edits m b c -> edits (n + m) a c.
Proof. intros n a b H m c G. induction G as [b|m b c d G IH E]; [rewrite Nat.add_0_r; exact H|]. rewrite Nat.add_succ_r. econstructor; [apply IH; exact H | exact E]. Qed.
Lemma edits_first : forall n a b c, edit a b -> edits n b c -> edits (S n) a c.
Proof. intros n a b c E H. apply (edits_app 1 a b); [econstructor; [constructor | exact E] | exact H]. Qed.
Lemma align_edits : forall a b n, align a b n -> edits n a b.
Proof.
  intros a b n H. induction H as [|c a b n H IH|c d a b n H IH|d a b n H IH|c a b n H IH].
  - constructor.
  - apply edits_cons_skip, IH.
  - eapply edits_first; [apply (e_sub [] c d a) | apply edits_cons_skip, IH].
  - eapply edits_first; [apply (e_ins [] d a) | apply edits_cons_skip, IH].
  - eapply edits_first; [apply (e_del [] c a) | exact IH].
Qed.
(** The distance is the least number of single-character edits that turn the first term into the second. *)
Theorem lev_least : forall a b, edits (lev a b) a b /\ forall n, edits n a b -> lev a b <= n.
Proof.
  intros a b. split; [apply align_edits, lev_align|]. intros n H. destruct (edits_align n a b H) as (m & L & A). pose proof (align_lev a b m A). lia.
Qed.
Print Assumptions lev_least.
Lemma align_max : forall a b, exists n, n <= Nat.max (length a) (length b) /\ align a b n.
Proof.
  induction a as [|x a IH]; intros b; [exists (length b); split; [cbn [length]; lia | apply align_ins_all]|].
  destruct b as [|y b]; [exists (length (x :: a)); split; [lia | apply align_del_all]|]. destruct (IH b) as (n & L & A). exists (S n). split; [cbn [length]; lia | apply a_sub, A].
Qed.
Lemma lev_max : forall a b, lev a b <= Nat.max (length a) (length b).
Proof. intros a b. destruct (align_max a b) as (n & L & A). pose proof (align_lev a b n A). lia. Qed.
Lemma edit_sym : forall a b, edit a b -> edit b a.
Proof. intros a b H. destruct H; constructor. Qed.
Lemma edits_sym : forall n a b, edits n a b -> edits n b a.
Proof. intros n a b H. induction H as [a|n a b c H IH E]; [constructor|]. eapply edits_first; [apply edit_sym; exact E | exact IH]. Qed.
(** It is a metric, and at most the length of the longer term. *)
Theorem lev_metric : forall a b c, (lev a b = 0 <-> a = b) /\ lev a b = lev b a /\ lev a c <= lev a b + lev b c /\ lev a b <= Nat.max (length a) (length b).
Proof.
  intros a b c. split; [|split; [|split]].
  - split; [intros E; destruct (lev_least a b) as [H _]; rewrite E in H; inversion H; reflexivity|]. intros E. subst. destruct (lev_least b b) as [_ H]. specialize (H 0 (es_nil b)). lia.
  - destruct (lev_least a b) as [A1 A2], (lev_least b a) as [B1 B2]. pose proof (A2 _ (edits_sym _ _ _ B1)). pose proof (B2 _ (edits_sym _ _ _ A1)). lia.
  - destruct (lev_least a b) as [A _], (lev_least b c) as [B _]. apply lev_least. eapply edits_app; eassumption.
  - apply lev_max.
Qed.
Print Assumptions lev_metric.
(** With a bound, distances above it are reported as the length of the longer term, all others exactly. *)
Theorem levdist_bounded : forall a b m, levdist a b None = lev a b /\
  ((Z.of_nat (lev a b) <= m)%Z -> levdist a b (Some m) = lev a b) /\
  ((m < Z.of_nat (lev a b))%Z -> levdist a b (Some m) = Nat.max (length a) (length b)).
Proof.
  intros a b m. split; [reflexivity|]. unfold levdist. split; intros H.
  - replace (Z.of_nat (lev a b) >? m)%Z with false by lia. reflexivity.
  - replace (Z.of_nat (lev a b) >? m)%Z with true by lia. reflexivity.
Qed.
Print Assumptions levdist_bounded.

(** ** The similarity *)
Local Open Scope R_scope.
Lemma rpow_0 : forall y, 0 < y -> rpow 0 y = 0.
Proof. intros y H. unfold rpow. destruct (Req_EM_T 0 0) as [_|X]; [|lra]. destruct (Req_EM_T y 0); [lra | reflexivity]. Qed.
Lemma rpow_pos : forall x y, 0 < x -> rpow x y = Rpower x y.
Proof. intros x y H. unfold rpow. destruct (Req_EM_T x 0); [lra | reflexivity]. Qed.
Lemma similarity_rpow : forall alpha beta d n, 0 < beta -> (0 < n)%nat -> (d <= n)%nat -> alpha * rpow (1 - INR d / INR n) beta = similarity alpha beta d n.
Proof.
  intros alpha beta d n B N D. unfold similarity. assert (Pn : 0 < INR n) by (apply lt_0_INR; exact N). destruct (d =? n)%nat eqn:E.
  - apply Nat.eqb_eq in E. subst d. replace (1 - INR n / INR n) with 0 by (field; lra). rewrite rpow_0 by exact B. ring.
  - apply Nat.eqb_neq in E. assert (INR d < INR n) by (apply lt_INR; lia). rewrite rpow_pos; [reflexivity|].
    assert (INR d / INR n < 1) by (apply Rmult_lt_reg_r with (INR n); [exact Pn | field_simplify; lra]). lra.
Qed.
Lemma clamp_range : forall s, 0 <= clamp s <= 1.
Proof. intros s. unfold clamp. split; [apply Rmax_r|]. apply Rmax_lub; [apply Rmin_r | lra]. Qed.
(** The cut-off by distance is exactly the cut-off by similarity. *)
Lemma cutoff : forall alpha beta m d n, 0 < alpha -> 0 < beta -> 0 <= m -> (0 < n)%nat -> (d <= n)%nat ->
  ((py_floor (INR n * (1 - rpow (m / alpha) (1 / beta))) < Z.of_nat d)%Z <-> similarity alpha beta d n < m).
Proof.
  intros alpha beta m d n A B M N D. assert (Pn : 0 < INR n) by (apply lt_0_INR; exact N). assert (Pd : 0 <= INR d) by apply pos_INR.
  set (q := rpow (m / alpha) (1 / beta)).
  assert (F : (py_floor (INR n * (1 - q)) < Z.of_nat d)%Z <-> INR n * (1 - q) < INR d).
  { pose proof (py_floor_spec (INR n * (1 - q))) as S. rewrite (INR_IZR_INZ d). split; intros H.
    - apply Zlt_le_succ in H. apply IZR_le in H. rewrite succ_IZR in H. lra.
    - apply lt_IZR. lra. }
  rewrite F. set (x := 1 - INR d / INR n). assert (Ex : INR d = INR n * (1 - x)) by (unfold x; field; lra).
  assert (F2 : INR n * (1 - q) < INR d <-> x < q) by (rewrite Ex; split; intros H; nra). rewrite F2.
  assert (B' : 0 < 1 / beta) by (apply Rdiv_lt_0_compat; lra).
  unfold similarity. fold x. destruct (d =? n)%nat eqn:E.
  - apply Nat.eqb_eq in E. subst d. assert (Ex0 : x = 0) by (unfold x; field; lra). rewrite Ex0. unfold q. destruct (Req_EM_T m 0) as [Z|Z].
    + subst m. replace (0 / alpha) with 0 by (field; lra). rewrite rpow_0 by exact B'. tauto.
    + assert (0 < m / alpha) by (apply Rdiv_lt_0_compat; lra). rewrite rpow_pos by assumption. pose proof (exp_pos (1 / beta * ln (m / alpha))) as X. unfold Rpower. split; intros; lra.
  - apply Nat.eqb_neq in E. assert (Ld : INR d < INR n) by (apply lt_INR; lia). assert (Px : 0 < x) by nra.
    pose proof (exp_pos (beta * ln x)) as Pp. unfold q. destruct (Req_EM_T m 0) as [Z|Z].
    + subst m. replace (0 / alpha) with 0 by (field; lra). rewrite rpow_0 by exact B'. fold (Rpower x beta) in Pp. split; intros H; [lra | nra].
    + assert (Pm : 0 < m / alpha) by (apply Rdiv_lt_0_compat; lra). rewrite rpow_pos by exact Pm.
      assert (Q : Rpower (Rpower (m / alpha) (1 / beta)) beta = m / alpha) by (rewrite Rpower_mult; replace (1 / beta * beta) with 1 by (field; lra); apply Rpower_1; exact Pm).
      assert (Pq : 0 < Rpower (m / alpha) (1 / beta)) by (unfold Rpower; apply exp_pos).
      assert (Em : m = alpha * (m / alpha)) by (field; lra). split; intros H.
      * pose proof (Rlt_Rpower_l x (Rpower (m / alpha) (1 / beta)) beta B (conj Px H)) as X. rewrite Q in X. rewrite Em. apply Rmult_lt_compat_l; assumption.
      * destruct (Rlt_le_dec x (Rpower (m / alpha) (1 / beta))) as [G|G]; [exact G|]. exfalso.
        assert (X : Rpower (Rpower (m / alpha) (1 / beta)) beta <= Rpower x beta).
        { destruct G as [G|G]; [left; apply Rlt_Rpower_l; [exact B | split; assumption] | rewrite G; right; reflexivity]. }
        rewrite Q in X. assert (alpha * (m / alpha) <= alpha * Rpower x beta) by (apply Rmult_le_compat_l; lra). lra.
Qed.

(** With a minimal similarity, exactly the similarities below it (after clamping it to the interval from 0 to 1) become 0. *)
Theorem levsim_exact : forall alpha beta s t1 t2, 0 < alpha -> 0 < beta ->
  let n := Nat.max (length t1) (length t2) in
  (n = 0%nat -> levsim alpha beta s t1 t2 = Ok 1) /\
  (n <> 0%nat -> let x := similarity alpha beta (lev t1 t2) n in
     (clamp s <= x -> levsim alpha beta s t1 t2 = Ok x) /\ (x < clamp s -> levsim alpha beta s t1 t2 = Ok 0)).
Proof.
  intros alpha beta s t1 t2 A B n. unfold levsim. fold n. destruct (Rlt_dec alpha 0) as [X|_]; [lra|]. destruct (Rlt_dec beta 0) as [X|_]; [lra|].
  split; [intros E; rewrite E; reflexivity|]. intros N. set (x := similarity alpha beta (lev t1 t2) n). destruct (n =? 0)%nat eqn:E; [apply Nat.eqb_eq in E; contradiction|].
  destruct (Req_EM_T alpha 0) as [X|_]; [lra|]. destruct (Req_EM_T beta 0) as [X|_]; [lra|].
  pose proof (cutoff alpha beta (clamp s) (lev t1 t2) n A B (proj1 (clamp_range s)) ltac:(lia) (lev_max t1 t2)) as C. fold x in C.
  set (md := py_floor _) in *. destruct (levdist_bounded t1 t2 md) as (_ & L1 & L2). split; intros H.
  - rewrite L1; [rewrite similarity_rpow; [reflexivity | exact B | lia | apply lev_max]|]. destruct (Z_lt_le_dec md (Z.of_nat (lev t1 t2))) as [G|G]; [|exact G]. apply C in G. lra.
  - rewrite L2 by (apply C; exact H). fold n. rewrite similarity_rpow; [|exact B | lia | lia]. unfold similarity. rewrite Nat.eqb_refl. reflexivity.
Qed.
Print Assumptions levsim_exact.

Lemma similarity_range : forall alpha beta d n, 0 < alpha -> 0 < beta -> (0 < n)%nat -> (d <= n)%nat -> 0 <= similarity alpha beta d n <= alpha /\
  (similarity alpha beta d n = alpha <-> d = 0%nat) /\ (similarity alpha beta d n = 0 <-> d = n).
Proof.
  intros alpha beta d n A B N D. unfold similarity. assert (Pn : 0 < INR n) by (apply lt_0_INR; exact N). destruct (d =? n)%nat eqn:E.
  - apply Nat.eqb_eq in E. subst. split; [lra|]. split; [split; intros; [lra | lia]|]. tauto.
  - apply Nat.eqb_neq in E. assert (Ld : INR d < INR n) by (apply lt_INR; lia). set (x := 1 - INR d / INR n).
    assert (Ex : INR d = INR n * (1 - x)) by (unfold x; field; lra). assert (Px : 0 < x) by nra. pose proof (pos_INR d) as Pd. assert (Lx : x <= 1) by nra.
    assert (Pp : 0 < Rpower x beta) by (unfold Rpower; apply exp_pos).
    assert (One : Rpower 1 beta = 1) by (unfold Rpower; rewrite ln_1, Rmult_0_r; apply exp_0).
    assert (Lp : Rpower x beta <= 1). { destruct Lx as [Lx|Lx]; [left; rewrite <- One; apply Rlt_Rpower_l; [exact B | split; assumption] | rewrite Lx, One; lra]. }
    split; [nra|]. split.
    + split; intros H.
      * destruct Lx as [Lx|Lx]; [exfalso; assert (Rpower x beta < 1) by (rewrite <- One; apply Rlt_Rpower_l; [exact B | split; assumption]); nra|].
        apply INR_eq. rewrite Ex, Lx. cbn [INR]. ring.
      * subst d. assert (x = 1) by (unfold x; cbn [INR]; field; lra). rewrite H, One. ring.
    + split; intros H; [nra | contradiction].
Qed.
(** Similarities lie between 0 and alpha (or are 1 for two empty terms); identical terms have similarity alpha, unless alpha is below the minimal similarity. *)
Theorem levsim_range : forall alpha beta s t1 t2, 0 < alpha -> 0 < beta -> exists x, levsim alpha beta s t1 t2 = Ok x /\ 0 <= x <= Rmax alpha 1 /\
  levsim alpha beta s t2 t1 = Ok x /\ (t1 <> [] -> t1 = t2 -> clamp s <= alpha -> x = alpha).
Proof.
  intros alpha beta s t1 t2 A B. destruct (levsim_exact alpha beta s t1 t2 A B) as [H0 H1]. destruct (levsim_exact alpha beta s t2 t1 A B) as [G0 G1].
  rewrite (Nat.max_comm (length t2)) in G0, G1. destruct (lev_metric t2 t1 t1) as (_ & Sym & _ & _). rewrite Sym in G1.
  set (n := Nat.max (length t1) (length t2)) in *. pose proof (Rmax_l alpha 1) as ML. pose proof (Rmax_r alpha 1) as MR.
  destruct (Nat.eq_dec n 0) as [Z|Z].
  - exists 1. split; [apply H0; exact Z|]. split; [lra|]. split; [apply G0; exact Z|]. intros N. exfalso. apply N. destruct t1; [reflexivity | unfold n in Z; cbn [length] in Z; lia].
  - specialize (H1 Z). specialize (G1 Z). cbv zeta in H1, G1. destruct H1 as [H1 H2], G1 as [G1 G2].
    destruct (similarity_range alpha beta (lev t1 t2) n A B ltac:(lia) (lev_max t1 t2)) as (R1 & R2 & _).
    set (x := similarity alpha beta (lev t1 t2) n) in *. destruct (Rlt_le_dec x (clamp s)) as [L|L].
    + exists 0. split; [apply H2; exact L|]. split; [lra|]. split; [apply G2; exact L|]. intros _ E L2. exfalso. subst t2. destruct (lev_metric t1 t1 t1) as (M & _).
      assert (x = alpha) by (apply R2; apply M; reflexivity). lra.
    + exists x. split; [apply H1; exact L|]. split; [lra|]. split; [apply G1; exact L|]. intros _ E _. apply R2. subst t2. apply lev_metric; reflexivity || exact t1.
Qed.
Print Assumptions levsim_range.

(** The documented upper bound of 1 does not hold: identical terms have similarity 1.8 by default. *)
Theorem levsim_bound_refuted : exists t1 t2 x, levsim 1.8 5 0 t1 t2 = Ok x /\ 1 < x.
Proof.
  exists (str "a"), (str "a"), 1.8. split; [|lra]. destruct (levsim_range 1.8 5 0 (str "a") (str "a")) as (x & H & _ & _ & E); [lra | lra|]. rewrite H. f_equal.
  apply E; [discriminate | reflexivity|]. pose proof (clamp_range 0). lra.
Qed.
(** A minimal similarity above 1 is not respected: it is cut down to 1. *)
Theorem levsim_threshold_refuted : exists t1 t2 x, levsim 1.8 1 1.6 t1 t2 = Ok x /\ 0 < x < 1.6.
Proof.
  exists (str "abc"), (str "abd"), 1.2. split; [|lra]. destruct (levsim_exact 1.8 1 1.6 (str "abc") (str "abd") ltac:(lra) ltac:(lra)) as [_ H].
  specialize (H ltac:(discriminate)). cbv zeta in H. destruct H as [H _].
  assert (E : similarity 1.8 1 (lev (str "abc") (str "abd")) (Nat.max (length (str "abc")) (length (str "abd"))) = 1.2).
  { change (lev (str "abc") (str "abd")) with 1%nat. change (Nat.max (length (str "abc")) (length (str "abd"))) with 3%nat. unfold similarity. cbn [Nat.eqb INR]. rewrite Rpower_1 by lra. lra. }
  rewrite E in H. apply H. pose proof (clamp_range 1.6). lra.
Qed.
(** Zero parameters pass the assertions but cannot be used. *)
Theorem levsim_zero_refuted : (exists beta, 0 <= beta /\ levsim 0 beta 0 (str "a") (str "b") = Err ZeroDivErr) /\ (exists alpha, 0 <= alpha /\ levsim alpha 0 0 (str "a") (str "b") = Err ZeroDivErr).
Proof.
  split; [exists 1 | exists 1]; (split; [lra|]); unfold levsim; repeat (destruct (Rlt_dec _ _); [lra|]); cbn [str length map String.list_ascii_of_string Nat.max Nat.eqb].
  - destruct (Req_EM_T 0 0); [reflexivity | lra].
  - destruct (Req_EM_T 1 0); [lra|]. destruct (Req_EM_T 0 0); [reflexivity | lra].
Qed.
(** Two empty terms are less similar than any other two identical terms. *)
Theorem levsim_empty_refuted : exists witness, witness = 1.8 /\ (levsim witness 5 0 [] [] = Ok 1 /\ forall t, t <> [] -> levsim witness 5 0 t t = Ok witness).
Proof. exists 1.8. split; [reflexivity|].
  split; [apply (levsim_exact 1.8 5 0 [] []); [lra | lra | reflexivity]|]. intros t N. destruct (levsim_range 1.8 5 0 t t) as (x & H & _ & _ & E); [lra | lra|]. rewrite H. f_equal.
  apply E; [exact N | reflexivity|]. pose proof (clamp_range 0). lra.
Qed.

(** ** The most similar terms *)
Lemma sim_geb_total : forall x y, sim_geb x y = true \/ sim_geb y x = true.
Proof.
  intros [x s] [y t]. unfold sim_geb. cbn [fst snd]. destruct (Rlt_dec y x); [left; reflexivity|]. destruct (Rlt_dec x y); [right; reflexivity|].
  destruct (Req_EM_T x y); [|lra]. destruct (Req_EM_T y x); [|lra]. destruct (str_leb_total t s) as [E|E]; rewrite E; tauto.
Qed.
Lemma sim_geb_trans : forall x y z, sim_geb x y = true -> sim_geb y z = true -> sim_geb x z = true.
Proof.
  intros [x s] [y t] [z u]. unfold sim_geb. cbn [fst snd]. destruct (Rlt_dec y x), (Rlt_dec z y), (Rlt_dec z x); intros; try reflexivity; try lra;
  repeat match goal with H : context [Req_EM_T ?a ?b] |- _ => destruct (Req_EM_T a b) | |- context [Req_EM_T ?a ?b] => destruct (Req_EM_T a b) end; try discriminate; try lra.
  eapply str_leb_trans; eassumption.
Qed.
Lemma sim_geb_le : forall x y, sim_geb x y = true -> fst y <= fst x /\ (fst y = fst x -> str_leb (snd y) (snd x) = true).
Proof.
  intros [x s] [y t]. unfold sim_geb. cbn [fst snd]. destruct (Rlt_dec y x); [intros _; split; intros; lra|]. destruct (Req_EM_T x y); [|discriminate]. intros H. split; [lra | intros _; exact H].
Qed.
Lemma StronglySorted_filter : forall {A} (Q : A -> A -> Prop) f l, StronglySorted Q l -> StronglySorted Q (filter f l).
Proof.
  intros A Q f l H. induction H as [|x l H IH F]; [constructor|]. cbn [filter]. destruct (f x); [|exact IH]. constructor; [exact IH|].
  apply Forall_forall. intros y Hy. apply filter_In in Hy. rewrite Forall_forall in F. apply F. tauto.
Qed.
Lemma StronglySorted_weaken : forall {A} (Q Q' : A -> A -> Prop) l, (forall x y, Q x y -> Q' x y) -> StronglySorted Q l -> StronglySorted Q' l.
Proof. intros A Q Q' l I H. induction H as [|x l H IH F]; constructor; [exact IH|]. eapply Forall_impl; [|exact F]. intros y. apply I. Qed.
Lemma StronglySorted_mapped : forall {A B} (g : A -> B) (Q : B -> B -> Prop) l, StronglySorted (fun x y => Q (g x) (g y)) l -> StronglySorted Q (map g l).
Proof.
  intros A B g Q l H. induction H as [|x l H IH F]; [constructor|]. cbn [map]. constructor; [exact IH|]. apply Forall_forall. intros y Hy. apply in_map_iff in Hy. destruct Hy as (z & E & Hz). subst.
  rewrite Forall_forall in F. exact (F z Hz).
Qed.

(** The list returned: terms of the dictionary other than the given one, each with its similarity, which is positive and not
    below the threshold; best first, ties by descending term; and nothing better is left out. *)
Theorem lev_most_similar_ok : forall alpha beta threshold terms t1 topn, 0 < alpha -> 0 < beta -> NoDup terms ->
  exists r, lev_most_similar alpha beta threshold terms t1 topn = Ok r /\
    (length r <= topn)%nat /\ NoDup (map fst r) /\
    (forall t s, In (t, s) r -> In t terms /\ t <> t1 /\ levsim alpha beta threshold t1 t = Ok s /\ 0 < s /\ clamp threshold <= s) /\
    StronglySorted (fun p q => snd q <= snd p /\ (snd q = snd p -> str_leb (fst q) (fst p) = true)) r /\
    (forall t s, In t terms -> t <> t1 -> levsim alpha beta threshold t1 t = Ok s -> 0 < s -> ~ In (t, s) r ->
       length r = topn /\ forall t' s', In (t', s') r -> s <= s' /\ (s = s' -> str_leb t t' = true)).
Proof.
  intros alpha beta threshold terms t1 topn A B ND. unfold lev_most_similar. set (cands := filter (fun t2 => negb (eqb t1 t2)) terms).
  assert (X : exists sims, rmapM (fun t2 => let* s := levsim alpha beta threshold t1 t2 in Ok (s, t2)) cands = Ok sims /\ map snd sims = cands /\
     Forall (fun p => levsim alpha beta threshold t1 (snd p) = Ok (fst p)) sims).
  { generalize cands as l. induction l as [|t l (sims & E & M & F)]; [exists []; repeat split; constructor|].
    destruct (levsim_range alpha beta threshold t1 t A B) as (x & Hx & _). exists ((x, t) :: sims). cbn [rmapM]. rewrite Hx. cbn [rbind]. rewrite E. cbn [rbind map snd]. rewrite M.
    split; [reflexivity|]. split; [reflexivity|]. constructor; [exact Hx | exact F]. }
  destruct X as (sims & E & M & F). rewrite E. cbn [rbind]. eexists. split; [reflexivity|].
  set (L := filter (fun p => if Rlt_dec 0 (fst p) then true else false) (isort sim_geb sims)). rewrite Forall_forall in F.
  assert (HL : forall s t, In (s, t) L <-> In (s, t) sims /\ 0 < s).
  { intros s t. unfold L. rewrite filter_In, In_isort. cbn [fst]. destruct (Rlt_dec 0 s); split; intros [? ?]; split; auto; try discriminate. }
  assert (SL : StronglySorted (fun x y => sim_geb x y = true) L) by (apply StronglySorted_filter, isort_StronglySorted; [exact sim_geb_total | exact sim_geb_trans]).
  assert (NDs : NoDup (map snd L)).
  { assert (NoDup (map snd (isort sim_geb sims))). { eapply Permutation_NoDup; [apply Permutation_map, Permutation_isort|]. rewrite M. apply NoDup_filter. exact ND. }
    unfold L. clear - H. induction (isort sim_geb sims) as [|x l IH]; [constructor|]. cbn [map filter] in *. inversion H as [|? ? NI H']; subst. destruct (Rlt_dec 0 (fst x)); [|exact (IH H')].
    cbn [map]. constructor; [|exact (IH H')]. intros Hx. apply NI. apply in_map_iff in Hx. destruct Hx as (y & Ey & Hy). apply filter_In in Hy. rewrite <- Ey. apply in_map. tauto. }
  set (sw := fun p : R * pystr => (snd p, fst p)). assert (Hin : forall t s, In (t, s) (firstn topn (map sw L)) -> In (s, t) (firstn topn L)).
  { intros t s H. rewrite firstn_map in H. apply in_map_iff in H. destruct H as ([s' t'] & Es & H). unfold sw in Es. cbn [fst snd] in Es. injection Es as E1 E2. subst. exact H. }
  split; [rewrite firstn_length; lia|]. split; [rewrite <- firstn_map; apply NoDup_firstn; rewrite map_map; exact NDs|].
  split; [|split].
  - intros t s H. apply Hin in H. apply In_firstn in H. apply HL in H. destruct H as [Hs Ps]. pose proof (F _ Hs) as Hl. cbn [fst snd] in Hl.
    assert (Hc : In t cands) by (rewrite <- M; exact (in_map snd sims (s, t) Hs)). apply filter_In in Hc. destruct Hc as [Ht Hn].
    assert (Nt : t <> t1). { intros Et. subst t1. rewrite eqb_refl in Hn. discriminate. }
    split; [exact Ht|]. split; [exact Nt|]. split; [exact Hl|]. split; [exact Ps|].
    destruct (levsim_exact alpha beta threshold t1 t A B) as [H0 H1]. cbv zeta in H1. destruct (Nat.eq_dec (Nat.max (length t1) (length t)) 0) as [Z|Z].
    + exfalso. apply Nt. destruct t; [|cbn [length] in Z; lia]. destruct t1; [reflexivity | cbn [length] in Z; lia].
    + destruct (H1 Z) as [G1 G2]. destruct (Rlt_le_dec (similarity alpha beta (lev t1 t) (Nat.max (length t1) (length t))) (clamp threshold)) as [G|G].
      * rewrite (G2 G) in Hl. injection Hl as Hl. lra.
      * rewrite (G1 G) in Hl. injection Hl as Hl. lra.
  - apply StronglySorted_firstn, StronglySorted_mapped. eapply StronglySorted_weaken; [|exact SL]. intros x y H. exact (sim_geb_le x y H).
  - intros t s Ht Nt Hs Ps NI.
    assert (Hsim : In (s, t) sims).
    { assert (Hc : In t (map snd sims)). { rewrite M. apply filter_In. split; [exact Ht|]. destruct (eqb t1 t) eqn:Eq; [apply (proj1 (eqb_true _ _)) in Eq; congruence | reflexivity]. }
      apply in_map_iff in Hc. destruct Hc as ([s' t'] & Et & Hi). cbn [snd] in Et. subst t'. pose proof (F _ Hi) as G. cbn [fst snd] in G. rewrite Hs in G. injection G as G. subst. exact Hi. }
    assert (HLi : In (s, t) L) by (apply HL; split; assumption).
    assert (Hk : In (s, t) (skipn topn L)).
    { rewrite <- (firstn_skipn topn L) in HLi. apply in_app_or in HLi. destruct HLi as [H|H]; [|exact H]. exfalso. apply NI. rewrite firstn_map. apply in_map_iff. exists (s, t). split; [reflexivity | exact H]. }
    split.
    + rewrite firstn_length, map_length. assert (length (skipn topn L) <> 0%nat) by (destruct (skipn topn L); [contradiction | discriminate]). rewrite skipn_length in H. lia.
    + intros t' s' H. apply Hin in H. rewrite <- (firstn_skipn topn L) in SL. apply StronglySorted_app_inv in SL. destruct SL as (_ & _ & SL). pose proof (SL _ _ H Hk) as G. apply sim_geb_le in G. exact G.
Qed.
Print Assumptions lev_most_similar_ok.

(** kitten and sitting are three edits apart. *)
Example lev_ex : lev (str "kitten") (str "sitting") = 3%nat /\ levdist (str "kitten") (str "sitting") (Some 2%Z) = 7%nat.
Proof. split; reflexivity. Qed.
Example levsim_ex : levsim 1.8 1 0.5 (str "abc") (str "xyd") = Ok 0 /\ levsim 1.8 1 0.5 (str "abc") (str "axc") = Ok 1.2.
Proof.
  split.
  - destruct (levsim_exact 1.8 1 0.5 (str "abc") (str "xyd") ltac:(lra) ltac:(lra)) as [_ H]. specialize (H ltac:(discriminate)). cbv zeta in H. apply H.
    change (lev (str "abc") (str "xyd")) with 3%nat. change (Nat.max (length (str "abc")) (length (str "xyd"))) with 3%nat. unfold similarity. cbn [Nat.eqb].
    unfold clamp. rewrite Rmin_left, Rmax_left; lra.
  - destruct (levsim_exact 1.8 1 0.5 (str "abc") (str "axc") ltac:(lra) ltac:(lra)) as [_ H]. specialize (H ltac:(discriminate)). cbv zeta in H. destruct H as [H _].
    assert (E : similarity 1.8 1 (lev (str "abc") (str "axc")) (Nat.max (length (str "abc")) (length (str "axc"))) = 1.2).
    { change (lev (str "abc") (str "axc")) with 1%nat. change (Nat.max (length (str "abc")) (length (str "axc"))) with 3%nat. unfold similarity. cbn [Nat.eqb INR]. rewrite Rpower_1 by lra. lra. }
    rewrite E in H. apply H. pose proof (clamp_range 0.5). lra.
Qed.
