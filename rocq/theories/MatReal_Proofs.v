(** Proofs about cosine similarity, Hellinger distance and unit vectors. *)

From Verif Require Import Base MatReal_Model.
From Coq Require Import Reals Lra Psatz.
Local Open Scope R_scope.

Lemma Rsum_cons : forall x l, Rsum (x :: l) = x + Rsum l.
Proof. reflexivity. Qed.
Lemma Rsum_app : forall a b, Rsum (a ++ b) = Rsum a + Rsum b.
Proof.
  induction a as [|x a IH]; intros b; cbn [app]; [change (Rsum []) with 0; lra|]. rewrite !Rsum_cons, IH. lra.
Qed.
Lemma Rsum_nonneg : forall l, (forall x, In x l -> 0 <= x) -> 0 <= Rsum l.
Proof.
  induction l as [|x l IH]; intros H; [cbn; lra|]. rewrite Rsum_cons.
  assert (0 <= x) by (apply H; simpl; auto). assert (0 <= Rsum l) by (apply IH; intros; apply H; simpl; auto). lra.
Qed.
Lemma Rsum_scal : forall {A} (f : A -> R) k l, Rsum (map (fun x => k * f x) l) = k * Rsum (map f l).
Proof. induction l; [cbn; lra|]. cbn [map]. rewrite !Rsum_cons, IHl. lra. Qed.
Lemma Rsum_plus : forall {A} (f g : A -> R) l, Rsum (map (fun x => f x + g x) l) = Rsum (map f l) + Rsum (map g l).
Proof. induction l; [cbn; lra|]. cbn [map]. rewrite !Rsum_cons, IHl. lra. Qed.
Lemma Rsum_ext : forall {A} (f g : A -> R) l, (forall x, In x l -> f x = g x) -> Rsum (map f l) = Rsum (map g l).
Proof. intros. f_equal. apply map_ext_in. auto. Qed.
Lemma Rsum_le : forall {A} (f g : A -> R) l, (forall x, In x l -> f x <= g x) -> Rsum (map f l) <= Rsum (map g l).
Proof.
  induction l; intros H; [cbn; lra|]. cbn [map]. rewrite !Rsum_cons.
  specialize (H a (or_introl eq_refl)) as Ha. assert (Rsum (map f l) <= Rsum (map g l)) by (apply IHl; intros; apply H; simpl; auto). lra.
Qed.
Lemma Rsum_zero : forall l, (forall x, In x l -> 0 <= x) -> Rsum l = 0 -> forall x, In x l -> x = 0.
Proof.
  induction l; intros H E x Hx; [destruct Hx|]. rewrite Rsum_cons in E.
  assert (0 <= a) by (apply H; simpl; auto). assert (0 <= Rsum l) by (apply Rsum_nonneg; intros; apply H; simpl; auto).
  destruct Hx as [<-|Hx]; [lra|]. apply IHl; auto; [intros; apply H; simpl; auto | lra].
Qed.
Lemma Rsum_perm : forall l l', Permutation l l' -> Rsum l = Rsum l'.
Proof. induction 1; rewrite ?Rsum_cons; try lra. Qed.

(** Cauchy-Schwarz for finite sums. *)
Lemma cauchy_schwarz : forall {A} (f g : A -> R) l,
  (Rsum (map (fun x => f x * g x) l)) ^ 2 <= Rsum (map (fun x => f x ^ 2) l) * Rsum (map (fun x => g x ^ 2) l).
Proof.
  intros A f g l. induction l as [|x l IH]; [cbn; lra|]. cbn [map]. rewrite !Rsum_cons.
  set (S := Rsum (map (fun x => f x * g x) l)) in *. set (P := Rsum (map (fun x => f x ^ 2) l)) in *.
  set (Q := Rsum (map (fun x => g x ^ 2) l)) in *.
  assert (P0 : 0 <= P) by (apply Rsum_nonneg; intros y Hy; apply in_map_iff in Hy; destruct Hy as (z & <- & _); nra).
  assert (Q0 : 0 <= Q) by (apply Rsum_nonneg; intros y Hy; apply in_map_iff in Hy; destruct Hy as (z & <- & _); nra).
  generalize (f x) as a. generalize (g x) as b. intros b a.
  assert (K : 2 * (a * b) * S <= a ^ 2 * Q + b ^ 2 * P).
  { assert (E : (2 * (a * b) * S) ^ 2 <= (a ^ 2 * Q + b ^ 2 * P) ^ 2).
    { apply Rle_trans with (4 * (a * b) ^ 2 * (P * Q)).
      - replace ((2 * (a * b) * S) ^ 2) with (4 * (a * b) ^ 2 * S ^ 2) by ring.
        apply Rmult_le_compat_l; [nra|exact IH].
      - replace ((a ^ 2 * Q + b ^ 2 * P) ^ 2) with ((a ^ 2 * Q - b ^ 2 * P) ^ 2 + 4 * (a * b) ^ 2 * (P * Q)) by ring.
        assert (0 <= (a ^ 2 * Q - b ^ 2 * P) ^ 2) by (apply pow2_ge_0). lra. }
    assert (0 <= a ^ 2 * Q + b ^ 2 * P).
    { assert (0 <= a ^ 2) by apply pow2_ge_0. assert (0 <= b ^ 2) by apply pow2_ge_0. nra. }
    destruct (Rle_dec (2 * (a * b) * S) (a ^ 2 * Q + b ^ 2 * P)) as [|NL]; [assumption|].
    exfalso. assert (a ^ 2 * Q + b ^ 2 * P < 2 * (a * b) * S) by lra. nra. }
  nra.
Qed.

(** A sum over entries is a sum over any set of ids containing the keys. *)
Lemma Rsum_single : forall (k : Z) (c : R) I, NoDup I -> In k I -> Rsum (map (fun i => if eq_dec k i then c else 0) I) = c.
Proof.
  induction I as [|i I IH]; intros ND HI; [destruct HI|]. inversion ND; subst. cbn [map]. rewrite Rsum_cons.
  destruct (eq_dec k i) as [->|NE].
  - assert (Z0 : Rsum (map (fun j => if eq_dec i j then c else 0) I) = 0).
    { clear - H1. induction I as [|j I IH]; [reflexivity|]. cbn [map]. rewrite Rsum_cons.
      destruct (eq_dec i j) as [->|]; [exfalso; apply H1; simpl; auto|]. rewrite IH by (intros HI; apply H1; simpl; auto). lra. }
    lra.
  - destruct HI as [->|HI]; [congruence|]. rewrite IH by auto. lra.
Qed.

Lemma Rsum_over : forall (f : Z -> R -> R) (a : rbow) I, NoDup (map fst a) -> NoDup I -> incl (map fst a) I ->
  Rsum (map (fun i => match dget a i with Some v => f i v | None => 0 end) I) = Rsum (map (fun iv => f (fst iv) (snd iv)) a).
Proof.
  intros f a I. induction a as [|[k v] a IH]; intros NDa NDI INC.
  - cbn. induction I as [|i I IHI]; [reflexivity|]. inversion NDI; subst. cbn [map]. rewrite Rsum_cons, IHI; auto; [lra|]. intros x [].
  - cbn [map fst snd] in *. inversion NDa; subst. rewrite Rsum_cons.
    rewrite <- IH; auto; [|intros x Hx; apply INC; simpl; auto].
    rewrite <- (Rsum_single k (f k v) I) at 1 by (auto; apply INC; simpl; auto).
    rewrite <- Rsum_plus. apply Rsum_ext. intros i Hi. cbn [dget].
    destruct (eq_dec k i) as [->|NE]; [|lra].
    assert (D : dget a i = None) by (apply dget_None; auto). rewrite D. lra.
Qed.

Definition keys_of (a b : rbow) : list Z := nodup eq_dec (map fst a ++ map fst b).
Definition at_ (a : rbow) (i : Z) : R := dget_or a i 0.

Lemma Rsum_at : forall (F : R -> R) (a : rbow) I, F 0 = 0 -> NoDup (map fst a) -> NoDup I -> incl (map fst a) I ->
  Rsum (map (fun i => F (at_ a i)) I) = Rsum (map F (map snd a)).
Proof.
  intros F a I F0 NDa NDI INC. rewrite map_map, <- (Rsum_over (fun _ v => F v) a I NDa NDI INC).
  apply Rsum_ext. intros i _. unfold at_, dget_or. destruct (dget a i); auto.
Qed.

Definition dot (a b : rbow) : R := Rsum (map (fun iv => snd iv * dget_or b (fst iv) 0) a).

Lemma dot_over : forall a b I, NoDup (map fst a) -> NoDup I -> incl (map fst a) I ->
  dot a b = Rsum (map (fun i => at_ a i * at_ b i) I).
Proof.
  intros a b I NDa NDI INC. unfold dot. rewrite <- (Rsum_over (fun i v => v * dget_or b i 0) a I NDa NDI INC).
  apply Rsum_ext. intros i _. unfold at_ at 1. unfold dget_or at 2. destruct (dget a i); [reflexivity|lra].
Qed.

Lemma incl_keys_l : forall a b, incl (map fst a) (keys_of a b).
Proof. intros a b x Hx. apply nodup_In, in_app_iff; auto. Qed.
Lemma incl_keys_r : forall a b, incl (map fst b) (keys_of a b).
Proof. intros a b x Hx. apply nodup_In, in_app_iff; auto. Qed.
Lemma NoDup_keys_of : forall a b, NoDup (keys_of a b).
Proof. intros. apply NoDup_nodup. Qed.

Lemma dot_sym : forall a b, NoDup (map fst a) -> NoDup (map fst b) -> dot a b = dot b a.
Proof.
  intros a b Na Nb.
  rewrite (dot_over a b (keys_of a b)) by (auto using NoDup_keys_of, incl_keys_l).
  rewrite (dot_over b a (keys_of a b)) by (auto using NoDup_keys_of, incl_keys_r).
  apply Rsum_ext. intros. lra.
Qed.

Lemma sumsq_over : forall a I, NoDup (map fst a) -> NoDup I -> incl (map fst a) I ->
  sumsq (map snd a) = Rsum (map (fun i => at_ a i ^ 2) I).
Proof.
  intros a I Na NI INC. rewrite (Rsum_at (fun v => v ^ 2) a I) by (auto; lra). unfold sumsq. apply Rsum_ext. intros; ring.
Qed.

Lemma dot_cs : forall a b, NoDup (map fst a) -> NoDup (map fst b) ->
  (dot a b) ^ 2 <= sumsq (map snd a) * sumsq (map snd b).
Proof.
  intros a b Na Nb.
  rewrite (dot_over a b (keys_of a b)), (sumsq_over a (keys_of a b)), (sumsq_over b (keys_of a b))
    by (auto using NoDup_keys_of, incl_keys_l, incl_keys_r).
  apply cauchy_schwarz.
Qed.

Lemma sumsq_nonneg : forall l, 0 <= sumsq l.
Proof. intros. apply Rsum_nonneg. intros x Hx. apply in_map_iff in Hx. destruct Hx as (y & <- & _). nra. Qed.

Lemma sumsq_pos : forall l, 0 < sumsq l <-> exists x, In x l /\ x <> 0.
Proof.
  intros l. split.
  - induction l as [|x l IH]; intros H; [cbn in H; lra|]. unfold sumsq in H. cbn [map] in H. rewrite Rsum_cons in H.
    destruct (Req_dec x 0) as [->|]; [|exists x; simpl; auto].
    destruct IH as (y & Hy & NZ); [unfold sumsq; lra|]. exists y; simpl; auto.
  - intros (x & Hx & NZ). destruct (Rle_lt_or_eq_dec _ _ (sumsq_nonneg l)) as [|E]; [assumption|]. exfalso.
    assert (x * x = 0); [|nra]. apply (Rsum_zero (map (fun v => v * v) l)).
    + intros y Hy. apply in_map_iff in Hy. destruct Hy as (z & <- & _). nra.
    + symmetry; exact E.
    + apply (in_map (fun v => v * v)); exact Hx.
Qed.

Lemma sqrt_pos_iff : forall x, 0 <= x -> (0 < 1 * sqrt x <-> 0 < x).
Proof.
  intros x Hx. rewrite Rmult_1_l. split; intros H; [|apply sqrt_lt_R0; auto].
  destruct (Rle_lt_or_eq_dec _ _ Hx) as [|E]; auto. subst. rewrite sqrt_0 in H. lra.
Qed.

(** Unfolding of [cossim] on distinct-id dictionaries. *)
Lemma cossim_cases : forall x y,
  let a := dict_of x in let b := dict_of y in
  (a = [] \/ b = [] -> cossim x y = Ok 0) /\
  (a <> [] -> b <> [] -> 0 < sumsq (dvals a) -> 0 < sumsq (dvals b) ->
     cossim x y = Ok (dot a b / (sqrt (sumsq (dvals a)) * sqrt (sumsq (dvals b))))) /\
  (a <> [] -> b <> [] -> ~ (0 < sumsq (dvals a) /\ 0 < sumsq (dvals b)) -> cossim x y = Err AssertionErr).
Proof.
  intros x y a b. unfold cossim. fold a. fold b.
  assert (Na : NoDup (map fst a)) by apply NoDup_dict_of. assert (Nb : NoDup (map fst b)) by apply NoDup_dict_of.
  split; [|split].
  - intros [->| ->]; [reflexivity|destruct a; reflexivity].
  - intros Ha Hb Pa Pb. destruct a as [|pa a']; [congruence|]. destruct b as [|pb b']; [congruence|].
    set (a := pa :: a') in *. set (b := pb :: b') in *.
    destruct (Rlt_dec 0 (1 * sqrt (sumsq (dvals a)))) as [|N]; [|exfalso; apply N; apply sqrt_pos_iff; auto using sumsq_nonneg].
    destruct (Rlt_dec 0 (1 * sqrt (sumsq (dvals b)))) as [|N]; [|exfalso; apply N; apply sqrt_pos_iff; auto using sumsq_nonneg].
    rewrite !Rmult_1_l.
    destruct (Nat.ltb (length b) (length a)); [|reflexivity].
    fold (dot b a). rewrite (dot_sym b a) by auto. reflexivity.
  - intros Ha Hb NP. destruct a as [|pa a']; [congruence|]. destruct b as [|pb b']; [congruence|].
    set (a := pa :: a') in *. set (b := pb :: b') in *.
    destruct (Rlt_dec 0 (1 * sqrt (sumsq (dvals a)))) as [P1|N]; [|reflexivity].
    destruct (Rlt_dec 0 (1 * sqrt (sumsq (dvals b)))) as [P2|N]; [|reflexivity].
    exfalso. apply NP. split; apply sqrt_pos_iff; auto using sumsq_nonneg.
Qed.

Lemma cossim_bound : forall x y q, cossim x y = Ok q -> -1 <= q <= 1.
Proof.
  intros x y q E. pose proof (cossim_cases x y) as C. cbv zeta in C. destruct C as (C1 & C2 & C3).
  set (a := dict_of x) in *. set (b := dict_of y) in *.
  assert (Na : NoDup (map fst a)) by apply NoDup_dict_of. assert (Nb : NoDup (map fst b)) by apply NoDup_dict_of.
  destruct a as [|pa a'] eqn:Ea.
  { rewrite C1 in E by auto. injection E as <-. lra. }
  rewrite <- Ea in *. assert (NEa : a <> []) by (rewrite Ea; discriminate).
  destruct b as [|pb b'] eqn:Eb.
  { rewrite C1 in E by auto. injection E as <-. lra. }
  rewrite <- Eb in *. assert (NEb : b <> []) by (rewrite Eb; discriminate).
  destruct (Rlt_dec 0 (sumsq (dvals a))) as [Pa|]; [|rewrite C3 in E by tauto; discriminate].
  destruct (Rlt_dec 0 (sumsq (dvals b))) as [Pb|]; [|rewrite C3 in E by tauto; discriminate].
  rewrite C2 in E by auto. injection E as <-.
  pose proof (dot_cs a b Na Nb) as CS. unfold dvals in *.
  set (A := sumsq (map snd a)) in *. set (B := sumsq (map snd b)) in *.
  assert (SA : 0 < sqrt A) by (apply sqrt_lt_R0; auto). assert (SB : 0 < sqrt B) by (apply sqrt_lt_R0; auto).
  assert (QA : sqrt A * sqrt A = A) by (apply sqrt_sqrt; lra). assert (QB : sqrt B * sqrt B = B) by (apply sqrt_sqrt; lra).
  set (d := dot a b) in *. set (s := sqrt A * sqrt B).
  assert (Ps : 0 < s) by (apply Rmult_lt_0_compat; auto).
  assert (E2 : s * s = A * B) by (unfold s; replace (sqrt A * sqrt B * (sqrt A * sqrt B)) with ((sqrt A * sqrt A) * (sqrt B * sqrt B)) by ring; rewrite QA, QB; reflexivity).
  assert (Db : - s <= d <= s) by nra.
  split.
  - apply Rmult_le_reg_r with s; [auto|]. unfold Rdiv. rewrite Rmult_assoc, Rinv_l by lra. lra.
  - apply Rmult_le_reg_r with s; [auto|]. unfold Rdiv. rewrite Rmult_assoc, Rinv_l by lra. lra.
Qed.

Lemma dot_self : forall a, NoDup (map fst a) -> dot a a = sumsq (map snd a).
Proof.
  intros a Na. unfold dot, sumsq. rewrite map_map. apply Rsum_ext. intros [i v] HI. cbn [fst snd]. unfold dget_or.
  rewrite (In_dget a i v Na HI). reflexivity.
Qed.

(** ** Hellinger *)
Definition hell (I : list Z) (a b : rbow) : R := Rsum (map (fun i => (sqrt (at_ a i) - sqrt (at_ b i)) ^ 2) I).

(** [I] enumerates the ids of both bags, in any order. *)
Definition enumerates (I : list Z) (a b : rbow) : Prop := NoDup I /\ forall i, In i I <-> In i (map fst a) \/ In i (map fst b).

Lemma hell_nonneg : forall I a b, 0 <= hell I a b.
Proof. intros. apply Rsum_nonneg. intros x Hx. apply in_map_iff in Hx. destruct Hx as (y & <- & _). apply pow2_ge_0. Qed.

Lemma enumerates_perm : forall I J a b, enumerates I a b -> enumerates J a b -> Permutation I J.
Proof. intros I J a b [N H] [N' H']. apply NoDup_Permutation; auto. intros i. rewrite H, H'. reflexivity. Qed.

Lemma hell_perm : forall I J a b, Permutation I J -> hell I a b = hell J a b.
Proof. intros. unfold hell. apply Rsum_perm, Permutation_map; auto. Qed.

Lemma hell_sym : forall I a b, hell I a b = hell I b a.
Proof. intros. unfold hell. apply Rsum_ext. intros. ring. Qed.

(** Extra ids at which both bags vanish do not matter. *)
Lemma hell_incl : forall I J a b, NoDup I -> NoDup J -> incl I J ->
  (forall i, In i J -> ~ In i I -> at_ a i = 0 /\ at_ b i = 0) -> hell I a b = hell J a b.
Proof.
  intros I J a b NI. revert J. induction I as [|i I IH]; intros J NJ INC Z.
  - unfold hell. cbn [map]. change (Rsum []) with 0. induction J as [|j J IHJ]; [reflexivity|]. cbn [map]. rewrite Rsum_cons.
    inversion NJ; subst. destruct (Z j (or_introl eq_refl) (fun x => x)) as [-> ->].
    rewrite <- IHJ; auto; [ring|intros x []|intros k Hk _; apply Z; simpl; auto].
  - inversion NI; subst. assert (HJ : In i J) by (apply INC; simpl; auto). apply in_split in HJ. destruct HJ as (J1 & J2 & ->).
    assert (NJ' : NoDup (J1 ++ J2)) by (apply NoDup_remove_1 in NJ; auto).
    assert (NIi : ~ In i (J1 ++ J2)) by (apply NoDup_remove_2 in NJ; auto).
    rewrite (hell_perm (J1 ++ i :: J2) (i :: J1 ++ J2)) by (apply Permutation_sym, Permutation_middle).
    unfold hell. cbn [map]. rewrite !Rsum_cons. f_equal. apply (IH H2 (J1 ++ J2)); auto.
    + intros k Hk. assert (Hk' : In k (J1 ++ i :: J2)) by (apply INC; simpl; auto).
      rewrite in_app_iff in *. cbn in Hk'. destruct Hk' as [|[->|]]; auto. contradiction.
    + intros k Hk NIk. apply Z; [rewrite in_app_iff in *; simpl; tauto|]. intros [->|]; contradiction.
Qed.

Lemma hellinger_eq : forall I x y, hellinger I x y = sqrt (1/2 * hell I (dict_of x) (dict_of y)).
Proof. reflexivity. Qed.

Definition rnonneg (a : rbow) : Prop := forall i w, In (i, w) a -> 0 <= w.

Lemma at_nonneg : forall a i, rnonneg a -> 0 <= at_ a i.
Proof. intros a i N. unfold at_, dget_or. destruct (dget a i) eqn:E; [|lra]. apply dget_In in E. eapply N; eauto. Qed.

Lemma hell_le : forall I a b, NoDup (map fst a) -> NoDup (map fst b) -> rnonneg a -> rnonneg b -> enumerates I a b ->
  hell I a b <= Rsum (map snd a) + Rsum (map snd b).
Proof.
  intros I a b Na Nb Pa Pb [NI HI].
  rewrite <- (map_id (map snd a)), <- (map_id (map snd b)).
  rewrite <- (Rsum_at (fun x => x) a I), <- (Rsum_at (fun x => x) b I); auto;
    try (intros k Hk; apply HI; auto). rewrite <- Rsum_plus. unfold hell.
  apply Rsum_le. intros i _. pose proof (at_nonneg a i Pa) as A0. pose proof (at_nonneg b i Pb) as B0.
  pose proof (sqrt_sqrt _ A0) as SA. pose proof (sqrt_sqrt _ B0) as SB.
  pose proof (sqrt_pos (at_ a i)) as PA. pose proof (sqrt_pos (at_ b i)) as PB. nra.
Qed.

(** Minkowski's inequality for finite sums. *)
Lemma minkowski : forall {A} (f g : A -> R) l,
  sqrt (Rsum (map (fun x => (f x + g x) ^ 2) l)) <= sqrt (Rsum (map (fun x => f x ^ 2) l)) + sqrt (Rsum (map (fun x => g x ^ 2) l)).
Proof.
  intros A f g l. pose proof (cauchy_schwarz f g l) as CS.
  set (P := Rsum (map (fun x => f x ^ 2) l)) in *. set (Q := Rsum (map (fun x => g x ^ 2) l)) in *.
  set (S := Rsum (map (fun x => f x * g x) l)) in *.
  assert (E : Rsum (map (fun x => (f x + g x) ^ 2) l) = P + 2 * S + Q).
  { unfold P, Q, S. rewrite <- Rsum_scal, <- !Rsum_plus. apply Rsum_ext. intros; ring. }
  assert (P0 : 0 <= P) by (apply Rsum_nonneg; intros y Hy; apply in_map_iff in Hy; destruct Hy as (z & <- & _); apply pow2_ge_0).
  assert (Q0 : 0 <= Q) by (apply Rsum_nonneg; intros y Hy; apply in_map_iff in Hy; destruct Hy as (z & <- & _); apply pow2_ge_0).
  pose proof (sqrt_pos P) as SP. pose proof (sqrt_pos Q) as SQ.
  pose proof (sqrt_sqrt _ P0) as EP. pose proof (sqrt_sqrt _ Q0) as EQ.
  rewrite E. apply Rsqr_incr_0_var; [|lra]. unfold Rsqr.
  assert (N : 0 <= P + 2 * S + Q).
  { rewrite <- E. apply Rsum_nonneg. intros y Hy. apply in_map_iff in Hy. destruct Hy as (z & <- & _). apply pow2_ge_0. }
  rewrite sqrt_sqrt by exact N.
  assert (SB : S <= sqrt P * sqrt Q).
  { assert (E2 : (sqrt P * sqrt Q) * (sqrt P * sqrt Q) = P * Q).
    { replace (sqrt P * sqrt Q * (sqrt P * sqrt Q)) with ((sqrt P * sqrt P) * (sqrt Q * sqrt Q)) by ring. rewrite EP, EQ; reflexivity. }
    assert (0 <= sqrt P * sqrt Q) by (apply Rmult_le_pos; auto).
    destruct (Rle_dec S (sqrt P * sqrt Q)); [assumption|]. exfalso. nra. }
  nra.
Qed.

(** ** unitvec *)
Lemma ret_normalized_eq : forall v len, ret_normalized_vec v len = map (fun iv => (fst iv, snd iv / len)) v.
Proof.
  intros v len. unfold ret_normalized_vec. destruct (Req_EM_T len 1) as [->|]; [|reflexivity].
  rewrite <- (map_id v) at 1. apply map_ext. intros [i w]. cbn. f_equal. field.
Qed.
