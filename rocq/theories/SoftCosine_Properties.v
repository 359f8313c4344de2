(** The inner product under a term similarity matrix: the three ways of calling it, the soft cosine, positive definiteness. *)
From Verif Require Import Base Str MatReal_Model SoftCosine_Model SoftCosine_Spec TermSim_Model TermSim_Spec TermSim_Properties.
From Coq Require Import QArith Qabs Qreals Reals Lra Psatz.
Local Open Scope R_scope.

(** ** Sums *)
Lemma rsum_ext : forall l f g, (forall i, In i l -> f i = g i) -> rsum l f = rsum l g.
Proof. induction l as [|i l IH]; intros f g H; [reflexivity|]. cbn [rsum]. rewrite (H i (or_introl eq_refl)), (IH f g); [reflexivity | intros j Hj; apply H; right; exact Hj]. Qed.
Lemma rsum_plus : forall l f g, rsum l (fun i => f i + g i) = rsum l f + rsum l g.
Proof. induction l as [|i l IH]; intros f g; cbn [rsum]; [ring | rewrite IH; ring]. Qed.
Lemma rsum_scale : forall l c f, rsum l (fun i => c * f i) = c * rsum l f.
Proof. induction l as [|i l IH]; intros c f; cbn [rsum]; [ring | rewrite IH; ring]. Qed.
Lemma rsum_zero : forall l f, (forall i, In i l -> f i = 0) -> rsum l f = 0.
Proof. intros l f H. rewrite (rsum_ext l f (fun _ => 0) H). clear H. induction l as [|i l IH]; cbn [rsum]; [reflexivity | rewrite IH; ring]. Qed.
Lemma rsum_le : forall l f g, (forall i, In i l -> f i <= g i) -> rsum l f <= rsum l g.
Proof. induction l as [|i l IH]; intros f g H; cbn [rsum]; [lra|]. pose proof (H i (or_introl eq_refl)). assert (rsum l f <= rsum l g) by (apply IH; intros j Hj; apply H; right; exact Hj). lra. Qed.
Lemma rsum_swap : forall l m (f : nat -> nat -> R), rsum l (fun i => rsum m (fun j => f i j)) = rsum m (fun j => rsum l (fun i => f i j)).
Proof. induction l as [|i l IH]; intros m f; cbn [rsum]; [symmetry; apply rsum_zero; reflexivity|]. rewrite IH, <- rsum_plus. reflexivity. Qed.
Lemma rsum_filter : forall p l f, rsum (filter p l) f = rsum l (fun i => if p i then f i else 0).
Proof. intros p. induction l as [|i l IH]; intros f; [reflexivity|]. cbn [filter rsum]. destruct (p i); cbn [rsum]; rewrite IH; ring. Qed.
Lemma rsum_pick : forall l k f, NoDup l -> In k l -> rsum l (fun i => if Nat.eqb i k then f i else 0) = f k.
Proof.
  induction l as [|i l IH]; intros k f N H; [destruct H|]. inversion N as [|? ? NI N']; subst. cbn [rsum]. destruct H as [->|H].
  - rewrite Nat.eqb_refl, rsum_zero; [ring|]. intros j Hj. destruct (Nat.eqb_spec j k) as [->|]; [contradiction | reflexivity].
  - destruct (Nat.eqb_spec i k) as [->|]; [contradiction|]. rewrite IH by assumption. ring.
Qed.
Lemma rsum_pos : forall l f, (forall i, In i l -> 0 <= f i) -> (exists i, In i l /\ 0 < f i) -> 0 < rsum l f.
Proof.
  induction l as [|i l IH]; intros f H (k & Hk & Pk); [destruct Hk|]. cbn [rsum]. destruct Hk as [->|Hk].
  - assert (0 <= rsum l f) by (rewrite <- (rsum_zero l (fun _ => 0)) by reflexivity; apply rsum_le; intros j Hj; apply H; right; exact Hj). lra.
  - pose proof (H i (or_introl eq_refl)). assert (0 < rsum l f) by (apply IH; [intros j Hj; apply H; right; exact Hj | exists k; auto]). lra.
Qed.

(** ** Diagonal dominance *)
Lemma dominant_bound : forall l M x, NoDup l -> (forall i j, In i l -> In j l -> M i j = M j i) -> (forall i, In i l -> M i i = 1) ->
  rsum l (fun k => x k * x k * (1 - rsum l (fun r => if Nat.eqb r k then 0 else Rabs (M r k)))) <= bil l M x x.
Proof.
  intros l M x N Sy Di. set (d := fun i j : nat => if Nat.eqb i j then 0 else Rabs (M i j)).
  assert (Lo : rsum l (fun i => rsum l (fun j => (if Nat.eqb j i then x i * x i else 0) - /2 * (d i j * (x i * x i)) - /2 * (d i j * (x j * x j)))) <= bil l M x x).
  { unfold bil. apply rsum_le. intros i Hi. apply rsum_le. intros j Hj. unfold d. rewrite (Nat.eqb_sym j i). destruct (Nat.eqb_spec i j) as [<-|NE].
    - rewrite (Di i Hi). lra.
    - pose proof (Rle_abs (M i j)). pose proof (Rle_abs (- M i j)) as H1. rewrite Rabs_Ropp in H1. set (a := Rabs (M i j)) in *. assert (- (/2 * a * (x i * x i + x j * x j)) <= x i * M i j * x j); [|lra].
      assert (0 <= (a + M i j) * ((x i + x j) * (x i + x j)) + (a - M i j) * ((x i - x j) * (x i - x j))) by (apply Rplus_le_le_0_compat; apply Rmult_le_pos; try lra; apply Rle_0_sqr). nra. }
  eapply Rle_trans; [|exact Lo]. apply Req_le.
  assert (E1 : rsum l (fun i => rsum l (fun j => (if Nat.eqb j i then x i * x i else 0) - /2 * (d i j * (x i * x i)) - /2 * (d i j * (x j * x j)))) =
               rsum l (fun i => x i * x i) + (- /2) * rsum l (fun i => rsum l (fun j => d i j * (x i * x i))) + (- /2) * rsum l (fun i => rsum l (fun j => d i j * (x j * x j)))).
  { rewrite <- !rsum_scale, <- !rsum_plus. apply rsum_ext. intros i Hi. rewrite (rsum_ext l _ (fun j => (if Nat.eqb j i then x i * x i else 0) + (- /2) * (d i j * (x i * x i)) + (- /2) * (d i j * (x j * x j)))) by (intros; ring). rewrite !rsum_plus, !rsum_scale. rewrite (rsum_pick l i (fun _ => x i * x i) N Hi). reflexivity. }
  rewrite E1. assert (E2 : rsum l (fun i => rsum l (fun j => d i j * (x i * x i))) = rsum l (fun i => rsum l (fun j => d i j * (x j * x j)))).
  { rewrite rsum_swap. apply rsum_ext. intros j Hj. apply rsum_ext. intros i Hi. f_equal. unfold d. rewrite (Nat.eqb_sym i j). destruct (Nat.eqb j i); [reflexivity|]. rewrite (Sy i j Hi Hj). reflexivity. }
  rewrite E2, rsum_swap. replace (rsum l (fun i => x i * x i) + - /2 * _ + - /2 * _) with (rsum l (fun i => x i * x i) + (-1) * rsum l (fun j => rsum l (fun i => d i j * (x j * x j)))) by lra.
  rewrite <- rsum_scale, <- rsum_plus. apply rsum_ext. intros k Hk. fold (d). replace (rsum l (fun i => d i k * (x k * x k))) with (x k * x k * rsum l (fun i => d i k)) by (rewrite <- rsum_scale; apply rsum_ext; intros; ring). unfold d. ring.
Qed.
Lemma dominant_positive : forall n M, mat_symmetric n M -> (forall i, (i < n)%nat -> M i i = 1) -> (forall k, (k < n)%nat -> sum n (fun r => if Nat.eqb r k then 0 else Rabs (M r k)) < 1) -> mat_positive n M.
Proof.
  intros n M Sy Di Do x (i & Li & Hx). unfold product, sum in *. assert (R : forall i, In i (seq 0 n) -> (i < n)%nat) by (intros j Hj; apply in_seq in Hj; lia).
  eapply Rlt_le_trans; [|apply (dominant_bound (seq 0 n) M x (seq_NoDup n 0)); auto]. apply rsum_pos.
  - intros k Hk. specialize (Do k (R k Hk)). apply Rmult_le_pos; [apply Rle_0_sqr | lra].
  - exists i. split; [apply in_seq; lia|]. specialize (Do i Li). apply Rmult_lt_0_compat; [apply Rsqr_pos_lt; exact Hx | lra].
Qed.

(** The matrix of the triplets, as reals. *)
Definition matrix (ts : list triplet) : mat := fun i j => Q2R (entry ts i j).
Lemma Q2R_Qabs : forall q, Q2R (Qabs q) = Rabs (Q2R q).
Proof.
  intros q. apply Qabs_case; intros H; apply Qle_Rle in H; rewrite RMicromega.Q2R_0 in H; [rewrite Rabs_pos_eq by exact H; reflexivity|]. rewrite Q2R_opp, Rabs_left1 by exact H. reflexivity.
Qed.
Lemma column_sum : forall ts k l, NoDup l -> rsum l (fun r => if Nat.eqb r k then 0 else Rabs (matrix ts r k)) <= Q2R (Qsum (map (fun t => Qabs (t_val t)) (off ts k))).
Proof.
  induction ts as [|t ts IH]; intros k l N; unfold matrix.
  - unfold off. cbn [filter map Qsum]. rewrite RMicromega.Q2R_0. rewrite rsum_zero; [lra|]. intros i _. destruct (Nat.eqb i k); [reflexivity|]. unfold entry. cbn [filter map Qsum]. rewrite RMicromega.Q2R_0. apply Rabs_R0.
  - specialize (IH k l N). unfold matrix in IH. unfold off, entry in *. cbn [filter]. destruct (Nat.eqb_spec (t_col t) k) as [E|E].
    + assert (St : rsum l (fun r => if Nat.eqb r k then 0 else Rabs (Q2R (Qsum (map t_val (if Nat.eqb (t_row t) r && true then t :: filter (fun t => Nat.eqb (t_row t) r && Nat.eqb (t_col t) k) ts else filter (fun t => Nat.eqb (t_row t) r && Nat.eqb (t_col t) k) ts)))))
        <= rsum l (fun r => if Nat.eqb r (t_row t) then if Nat.eqb r k then 0 else Rabs (Q2R (t_val t)) else 0) + rsum l (fun r => if Nat.eqb r k then 0 else Rabs (Q2R (Qsum (map t_val (filter (fun t => Nat.eqb (t_row t) r && Nat.eqb (t_col t) k) ts)))))).
      { rewrite <- rsum_plus. apply rsum_le. intros r _. rewrite (Nat.eqb_sym r (t_row t)). destruct (Nat.eqb r k); [destruct (Nat.eqb (t_row t) r); lra|]. destruct (Nat.eqb (t_row t) r); cbn [andb]; [|lra]. cbn [map Qsum]. rewrite Q2R_plus. apply Rabs_triang. }
      eapply Rle_trans; [exact St|]. clear St. assert (Pk : rsum l (fun r => if Nat.eqb r (t_row t) then if Nat.eqb r k then 0 else Rabs (Q2R (t_val t)) else 0) <= (if Nat.eqb (t_row t) k then 0 else Rabs (Q2R (t_val t)))).
      { destruct (in_dec Nat.eq_dec (t_row t) l) as [I1|I1].
        - rewrite (rsum_pick l (t_row t) (fun r => if Nat.eqb r k then 0 else Rabs (Q2R (t_val t))) N I1). lra.
        - rewrite rsum_zero; [destruct (Nat.eqb (t_row t) k); [lra | apply Rabs_pos]|]. intros i Hi. destruct (Nat.eqb_spec i (t_row t)) as [->|]; [contradiction | reflexivity]. }
      cbn [andb]. destruct (Nat.eqb (t_row t) k); cbn [negb map Qsum]; [lra|]. rewrite Q2R_plus, Q2R_Qabs. lra.
    + cbn [andb]. rewrite (rsum_ext l _ (fun r => if Nat.eqb r k then 0 else Rabs (Q2R (Qsum (map t_val (filter (fun t => Nat.eqb (t_row t) r && Nat.eqb (t_col t) k) ts)))))); [exact IH|]. intros r _. rewrite andb_false_r. reflexivity.
Qed.
(** A matrix built with symmetric and dominant is positive definite. *)
Theorem termsim_positive : forall c ts, well c -> c_symmetric c = true -> c_dominant c = true -> create_source c = Ok ts -> mat_positive (n_terms c) (matrix ts).
Proof.
  intros c ts W Sy Do H. apply dominant_positive.
  - intros i j _ _. apply Qeq_eqR. eapply termsim_symmetric; eassumption.
  - intros i Hi. unfold matrix. rewrite (Qeq_eqR _ _ (termsim_diagonal c ts i W H Hi)). unfold Q2R. cbn. lra.
  - intros k _. eapply Rle_lt_trans; [apply (column_sum ts k (seq 0 (n_terms c)) (seq_NoDup _ 0))|]. replace 1 with (Q2R 1) by (unfold Q2R; cbn; lra). apply Qlt_Rlt. eapply termsim_dominant; eassumption.
Qed.
Print Assumptions termsim_positive.

(** ** Restriction to some indices *)
Lemma bil_filter : forall p l M x y, (forall i, In i l -> p i = false -> x i = 0) -> (forall i, In i l -> p i = false -> y i = 0) -> bil (filter p l) M x y = bil l M x y.
Proof.
  intros p l M x y Hx Hy. unfold bil. rewrite rsum_filter. apply rsum_ext. intros i Hi. destruct (p i) eqn:Pi.
  - rewrite rsum_filter. apply rsum_ext. intros j Hj. destruct (p j) eqn:Pj; [reflexivity | rewrite (Hy j Hj Pj); ring].
  - symmetry. apply rsum_zero. intros j _. rewrite (Hx i Hi Pi). ring.
Qed.
Lemma dot_filter : forall p l x, (forall i, In i l -> p i = false -> x i = 0) -> dot (filter p l) x x = dot l x x.
Proof. intros p l x H. unfold dot. rewrite rsum_filter. apply rsum_ext. intros i Hi. destruct (p i) eqn:P; [reflexivity | rewrite (H i Hi P); ring]. Qed.
Lemma normalize_filter : forall p l M nz x, (forall i, In i l -> p i = false -> x i = 0) -> normalize_vector (filter p l) M nz x = normalize_vector l M nz x.
Proof. intros p l M nz x H. unfold normalize_vector. rewrite (bil_filter p l M x x H H), (dot_filter p l x H). reflexivity. Qed.
Lemma normalize_support : forall l M nz x x' (q : nat -> Prop), normalize_vector l M nz x = Ok x' -> (forall i, q i -> x i = 0) -> forall i, q i -> x' i = 0.
Proof.
  intros l M nz x x' q H Z i Hi. specialize (Z i Hi). unfold normalize_vector in H. destruct nz; [injection H as <-; exact Z | |]; destruct (Rlt_dec (bil l M x x) 0); try discriminate; injection H as <-; match goal with |- context [Rlt_dec 0 ?r] => destruct (Rlt_dec 0 r) end; rewrite ?Z; try exact Z; unfold Rdiv; rewrite ?Z; ring.
Qed.
Lemma dict_get_outside : forall X i, ~ In i (map fst X) -> dict_get X i = 0.
Proof. intros X i H. unfold dict_get, dget_or. destruct (dget (dict_of X) i) as [w|] eqn:G; [|reflexivity]. exfalso. apply H. apply In_dkeys_dict_of. apply dget_Some_key. exists w. exact G. Qed.
(** Two vectors: the restriction to their own indices does not matter. *)
Theorem inner_vectors_full : forall n M X Y nx ny, X <> [] -> Y <> [] -> in_range n X = true -> in_range n Y = true ->
  inner_vectors n M X Y nx ny = (let* x := normalize_vector (seq 0 n) M nx (dict_get X) in let* y := normalize_vector (seq 0 n) M ny (dict_get Y) in Ok (clipped nx ny (product n M x y))).
Proof.
  intros n M X Y nx ny NX NY RX RY. unfold inner_vectors. destruct X as [|a X']; [congruence|]. destruct Y as [|b Y']; [congruence|]. set (X := a :: X') in *. set (Y := b :: Y') in *. rewrite RX, RY. cbn [andb]. set (p := fun i : nat => memb i (map fst X ++ map fst Y)).
  assert (HX : forall i, p i = false -> dict_get X i = 0) by (intros i Hi; apply dict_get_outside; unfold p in Hi; apply memb_false in Hi; intros X0; apply Hi; apply in_app_iff; left; exact X0).
  assert (HY : forall i, p i = false -> dict_get Y i = 0) by (intros i Hi; apply dict_get_outside; unfold p in Hi; apply memb_false in Hi; intros X0; apply Hi; apply in_app_iff; right; exact X0).
  rewrite !normalize_filter by auto. destruct (normalize_vector (seq 0 n) M nx (dict_get X)) as [x|e] eqn:Ex; [|reflexivity]. cbn [rbind]. destruct (normalize_vector (seq 0 n) M ny (dict_get Y)) as [y|e] eqn:Ey; [|reflexivity]. cbn [rbind]. rewrite bil_filter; [reflexivity| |].
  - intros i _ Hi. exact (normalize_support _ _ _ _ _ (fun i => p i = false) Ex HX i Hi).
  - intros i _ Hi. exact (normalize_support _ _ _ _ _ (fun i => p i = false) Ey HY i Hi).
Qed.
Print Assumptions inner_vectors_full.
(** An empty document is similar to nothing, not even to itself. *)
Theorem soft_empty : forall n M X nx ny, inner_vectors n M [] X nx ny = Ok 0 /\ inner_vectors n M X [] nx ny = Ok 0.
Proof. intros n M X nx ny. split; [reflexivity|]. destruct X; reflexivity. Qed.
Print Assumptions soft_empty.

(** ** Proper vectors *)
Lemma weight_dict : forall n X i, proper n X -> dict_get X i = weight X i.
Proof. intros n X i (_ & N & _). unfold dict_get, weight. rewrite dict_of_NoDup by exact N. reflexivity. Qed.
Lemma weight_csc : forall n X i, proper n X -> csc_get X i = weight X i.
Proof.
  intros n X i (_ & N & _). unfold csc_get, weight, dget_or. clear n. induction X as [|[j w] X IH]; [reflexivity|]. cbn [filter fst dget map] in *. inversion N as [|? ? NI N']; subst. specialize (IH N'). destruct (eq_dec i j) as [->|NE].
  - rewrite Nat.eqb_refl. cbn [map Rsum fold_right snd]. assert (E : filter (fun iw : nat * R => Nat.eqb (fst iw) j) X = []).
    { destruct (filter (fun iw : nat * R => Nat.eqb (fst iw) j) X) as [|t l] eqn:Ef; [reflexivity|]. exfalso. assert (Ht : In t (filter (fun iw : nat * R => Nat.eqb (fst iw) j) X)) by (rewrite Ef; left; reflexivity). apply filter_In in Ht. destruct Ht as [H1 H2]. apply Nat.eqb_eq in H2. apply NI. rewrite <- H2. apply in_map. exact H1. }
    rewrite E. cbn [map fold_right]. destruct (eq_dec j j); [ring | congruence].
  - destruct (Nat.eqb_spec j i); [congruence|]. destruct (eq_dec j i); [congruence | exact IH].
Qed.
Lemma proper_range : forall n X, proper n X -> in_range n X = true.
Proof. intros n X (_ & _ & H). apply forallb_forall. intros [i w] Hi. apply Nat.ltb_lt. apply (H i w Hi). Qed.
Lemma proper_nonzero : forall n X, proper n X -> exists i, (i < n)%nat /\ weight X i <> 0.
Proof.
  intros n X (NE & N & H). destruct X as [|[i w] X]; [congruence|]. destruct (H i w (or_introl eq_refl)) as [L W]. exists i. split; [exact L|]. unfold weight, dget_or. cbn [dget]. destruct (eq_dec i i); [exact W | congruence].
Qed.
Lemma weight_outside : forall X i, ~ In i (map fst X) -> weight X i = 0.
Proof. intros X i H. unfold weight, dget_or. destruct (dget X i) as [w|] eqn:G; [|reflexivity]. exfalso. apply H. apply dget_In in G. apply (in_map fst) in G. exact G. Qed.
Lemma length2_pos : forall n x, (exists i, (i < n)%nat /\ x i <> 0) -> 0 < length2 n x.
Proof. intros n x (i & L & H). unfold length2, sum. apply rsum_pos; [intros; apply Rle_0_sqr|]. exists i. split; [apply in_seq; lia | apply Rsqr_pos_lt; exact H]. Qed.
Lemma scale_pos : forall n M nz x, mat_positive n M -> (exists i, (i < n)%nat /\ x i <> 0) -> 0 < scale n M nz x.
Proof.
  intros n M nz x P H. specialize (P x H). pose proof (length2_pos n x H). destruct nz; cbn [scale]; [lra | apply sqrt_lt_R0; exact P|]. apply sqrt_lt_R0. apply Rdiv_lt_0_compat; assumption.
Qed.
Lemma product_ext : forall n M x x' y y', (forall i, (i < n)%nat -> x i = x' i) -> (forall i, (i < n)%nat -> y i = y' i) -> product n M x y = product n M x' y'.
Proof. intros n M x x' y y' Hx Hy. unfold product, sum. apply rsum_ext. intros i Hi. apply in_seq in Hi. apply rsum_ext. intros j Hj. apply in_seq in Hj. rewrite (Hx i), (Hy j) by lia. reflexivity. Qed.
Lemma length2_ext : forall n x x', (forall i, (i < n)%nat -> x i = x' i) -> length2 n x = length2 n x'.
Proof. intros n x x' H. unfold length2, sum. apply rsum_ext. intros i Hi. apply in_seq in Hi. rewrite (H i) by lia. reflexivity. Qed.
Lemma scale_ext : forall n M nz x x', (forall i, (i < n)%nat -> x i = x' i) -> scale n M nz x = scale n M nz x'.
Proof. intros n M nz x x' H. destruct nz; cbn [scale]; rewrite ?(product_ext n M x x' x x' H H), ?(length2_ext n x x' H); reflexivity. Qed.
Lemma product_div : forall n M x y a b, a <> 0 -> b <> 0 -> product n M (fun i => x i / a) (fun i => y i / b) = product n M x y / (a * b).
Proof.
  intros n M x y a b Ha Hb. unfold product, sum. unfold Rdiv at 3. rewrite Rmult_comm, <- rsum_scale. apply rsum_ext. intros i _. rewrite <- rsum_scale. apply rsum_ext. intros j _. field. split; assumption.
Qed.
Lemma normalize_positive : forall n M nz x, mat_positive n M -> (exists i, (i < n)%nat /\ x i <> 0) ->
  exists x', normalize_vector (seq 0 n) M nz x = Ok x' /\ forall i, x' i = x i / scale n M nz x.
Proof.
  intros n M nz x P H. pose proof (scale_pos n M nz x P H) as S. pose proof (P x H) as Px. unfold normalize_vector. change (bil (seq 0 n) M x x) with (product n M x x). change (dot (seq 0 n) x x) with (length2 n x).
  destruct nz; cbn [scale] in *; [exists x; split; [reflexivity | intros i; field] | |]; destruct (Rlt_dec (product n M x x) 0); try lra; [|destruct (Rlt_dec 0 (product n M x x)); [|lra]]; eexists; (split; [reflexivity|]); intros i; match goal with |- context [Rlt_dec 0 ?r] => destruct (Rlt_dec 0 r); [reflexivity | lra] end.
Qed.
(** Two vectors: the soft cosine and its relatives. *)
Theorem soft_vectors : forall n M X Y nx ny, mat_positive n M -> proper n X -> proper n Y ->
  inner_vectors n M X Y nx ny = Ok (clipped nx ny (soft n M nx ny (weight X) (weight Y))).
Proof.
  intros n M X Y nx ny P PX PY. rewrite inner_vectors_full; [|apply PX | apply PY | apply proper_range; assumption | apply proper_range; assumption].
  assert (NX : exists i, (i < n)%nat /\ dict_get X i <> 0) by (destruct (proper_nonzero n X PX) as (i & L & W); exists i; rewrite (weight_dict n) by exact PX; auto). assert (NY : exists i, (i < n)%nat /\ dict_get Y i <> 0) by (destruct (proper_nonzero n Y PY) as (i & L & W); exists i; rewrite (weight_dict n) by exact PY; auto).
  destruct (normalize_positive n M nx _ P NX) as (x & Ex & Hx). destruct (normalize_positive n M ny _ P NY) as (y & Ey & Hy). rewrite Ex, Ey. cbn [rbind]. do 2 f_equal. unfold soft.
  rewrite (product_ext n M x (fun i => weight X i / scale n M nx (weight X)) y (fun i => weight Y i / scale n M ny (weight Y))).
  - apply product_div; apply Rgt_not_eq; apply scale_pos; try exact P; apply proper_nonzero; assumption.
  - intros i _. rewrite Hx, (weight_dict n) by exact PX. f_equal. apply scale_ext. intros; apply (weight_dict n). exact PX.
  - intros i _. rewrite Hy, (weight_dict n) by exact PY. f_equal. apply scale_ext. intros; apply (weight_dict n). exact PY.
Qed.
Print Assumptions soft_vectors.

(** ** Cauchy-Schwarz *)
Lemma product_plus : forall n M x y t, mat_symmetric n M -> product n M (fun i => x i - t * y i) (fun i => x i - t * y i) = product n M x x - 2 * t * product n M x y + t * t * product n M y y.
Proof.
  intros n M x y t Sy. assert (C : product n M y x = product n M x y).
  { unfold product, sum. rewrite rsum_swap. apply rsum_ext. intros i Hi. apply rsum_ext. intros j Hj. apply in_seq in Hi, Hj. rewrite (Sy j i) by lia. ring. }
  replace (product n M x x - 2 * t * product n M x y + t * t * product n M y y) with (product n M x x + (- t) * product n M x y + (- t) * product n M y x + t * t * product n M y y) by (rewrite C; ring).
  unfold product, sum. rewrite <- !rsum_scale, <- !rsum_plus. apply rsum_ext. intros i _. rewrite <- !rsum_scale, <- !rsum_plus. apply rsum_ext. intros j _. ring.
Qed.
Lemma nonzero_dec : forall n x, (exists i, (i < n)%nat /\ x i <> 0) \/ (forall i, (i < n)%nat -> x i = 0).
Proof.
  induction n as [|n IH]; intros x; [right; intros i Hi; lia|]. destruct (IH x) as [(i & L & H)|H]; [left; exists i; split; [lia | exact H]|]. destruct (Req_dec (x n) 0) as [E|E]; [right; intros i Hi; destruct (Nat.eq_dec i n) as [->|]; [exact E | apply H; lia] | left; exists n; split; [lia | exact E]].
Qed.
Theorem soft_cauchy_schwarz : forall n M x y, mat_symmetric n M -> mat_positive n M -> product n M x y * product n M x y <= product n M x x * product n M y y.
Proof.
  intros n M x y Sy P. assert (NN : forall z, 0 <= product n M z z).
  { intros z. destruct (nonzero_dec n z) as [H|H]; [left; apply P; exact H|]. right. symmetry. unfold product, sum. apply rsum_zero. intros i Hi. apply in_seq in Hi. apply rsum_zero. intros j _. rewrite (H i) by lia. ring. }
  destruct (nonzero_dec n y) as [H|H].
  - pose proof (P y H) as C. set (c := product n M y y) in *. set (b := product n M x y) in *. pose proof (NN (fun i => x i - (b / c) * y i)) as K. rewrite (product_plus n M x y (b / c) Sy) in K. fold b c in K. set (a := product n M x x) in *. assert (a - 2 * (b / c) * b + b / c * (b / c) * c = a - b * b / c) as E by (field; lra). rewrite E in K. assert (b * b / c * c = b * b) by (field; lra). apply (Rmult_le_compat_r c) in K; [|lra]. rewrite Rmult_0_l, Rmult_minus_distr_r in K. lra.
  - assert (E : product n M x y = 0) by (unfold product, sum; apply rsum_zero; intros i _; apply rsum_zero; intros j Hj; apply in_seq in Hj; rewrite (H j) by lia; ring). rewrite E, Rmult_0_l. apply Rmult_le_pos; apply NN.
Qed.
Print Assumptions soft_cauchy_schwarz.
(** The soft cosine lies between -1 and 1 (so the clipping changes nothing), and is 1 for a vector and itself. *)
Theorem soft_cosine_range : forall n M X Y, mat_symmetric n M -> mat_positive n M -> proper n X -> proper n Y ->
  -1 <= soft n M NTrue NTrue (weight X) (weight Y) <= 1 /\ inner_vectors n M X Y NTrue NTrue = Ok (soft n M NTrue NTrue (weight X) (weight Y)) /\ inner_vectors n M X X NTrue NTrue = Ok 1.
Proof.
  intros n M X Y Sy P PX PY. assert (R : -1 <= soft n M NTrue NTrue (weight X) (weight Y) <= 1).
  { pose proof (soft_cauchy_schwarz n M (weight X) (weight Y) Sy P) as CS. pose proof (P _ (proper_nonzero n X PX)) as A. pose proof (P _ (proper_nonzero n Y PY)) as C. unfold soft. cbn [scale]. rewrite <- sqrt_mult by lra. set (b := product n M (weight X) (weight Y)) in *. set (ac := product n M (weight X) (weight X) * product n M (weight Y) (weight Y)) in *.
    assert (Pac : 0 < ac) by (apply Rmult_lt_0_compat; assumption). pose proof (sqrt_lt_R0 ac Pac) as S. assert (B : Rabs b <= sqrt ac) by (rewrite <- sqrt_Rsqr_abs; apply sqrt_le_1; [apply Rle_0_sqr | lra | exact CS]).
    pose proof (Rle_abs b). pose proof (Rle_abs (- b)) as H1. rewrite Rabs_Ropp in H1. split; [apply (Rmult_le_reg_r (sqrt ac)); [exact S|]; unfold Rdiv; rewrite Rmult_assoc, Rinv_l by lra; lra | apply (Rmult_le_reg_r (sqrt ac)); [exact S|]; unfold Rdiv; rewrite Rmult_assoc, Rinv_l by lra; lra]. }
  split; [exact R|]. split.
  - rewrite soft_vectors by assumption. cbn [clipped]. unfold clip. destruct (Rlt_dec _ _); [lra|]. destruct (Rlt_dec _ _); [lra | reflexivity].
  - rewrite soft_vectors by assumption. cbn [clipped]. assert (E : soft n M NTrue NTrue (weight X) (weight X) = 1).
    { unfold soft. cbn [scale]. pose proof (P _ (proper_nonzero n X PX)) as A. rewrite sqrt_sqrt by lra. field. lra. }
    rewrite E. unfold clip. destruct (Rlt_dec _ _); [lra|]. destruct (Rlt_dec _ _); [lra | reflexivity].
Qed.
Print Assumptions soft_cosine_range.
(** 'maintain' keeps the length: under the matrix, the normalised vector is as long as the vector was before. *)
Theorem maintain_length : forall n M X, mat_positive n M -> proper n X -> soft n M NMaintain NMaintain (weight X) (weight X) = length2 n (weight X).
Proof.
  intros n M X P PX. pose proof (P _ (proper_nonzero n X PX)) as A. pose proof (length2_pos n _ (proper_nonzero n X PX)) as L. unfold soft. cbn [scale]. rewrite sqrt_sqrt by (left; apply Rdiv_lt_0_compat; assumption). field. lra.
Qed.
Print Assumptions maintain_length.

(** ** Corpora *)
Lemma normalize_document_positive : forall n M nz X, mat_positive n M -> proper n X -> nz <> NFalse ->
  exists x', normalize_document (seq 0 n) M nz (csc_get X) = Ok x' /\ forall i, x' i = weight X i / scale n M nz (weight X).
Proof.
  intros n M nz X P PX NF. unfold normalize_document. assert (Ex : forall i, csc_get X i = weight X i) by (intros; apply (weight_csc n); exact PX). destruct (proper_nonzero n X PX) as (k & Lk & Wk).
  assert (Z : all_zero (seq 0 n) (csc_get X) = false).
  { unfold all_zero. destruct (forallb _ _) eqn:F; [|reflexivity]. exfalso. rewrite forallb_forall in F. specialize (F k). rewrite Ex in F. destruct (Req_EM_T (weight X k) 0); [contradiction|]. assert (false = true) by (apply F; apply in_seq; lia). discriminate. }
  rewrite Z. pose proof (scale_pos n M nz (weight X) P (proper_nonzero n X PX)) as S. change (bil (seq 0 n) M (csc_get X) (csc_get X)) with (product n M (csc_get X) (csc_get X)). change (dot (seq 0 n) (csc_get X) (csc_get X)) with (length2 n (csc_get X)).
  rewrite (product_ext n M (csc_get X) (weight X) (csc_get X) (weight X)) by (intros; apply Ex). rewrite (length2_ext n (csc_get X) (weight X)) by (intros; apply Ex).
  destruct nz; [congruence| |]; cbn [scale] in *; match goal with |- context [Req_EM_T ?v 0] => destruct (Req_EM_T v 0) as [E|E]; [rewrite E, sqrt_0 in S; lra|] end; eexists; (split; [reflexivity|]); intros i; cbv beta; rewrite Ex; field; lra.
Qed.
Lemma normalize_corpus_positive : forall n M nz Xs, mat_positive n M -> Forall (proper n) Xs ->
  exists xs, normalize_corpus (seq 0 n) M nz (map csc_get Xs) = Ok xs /\ Forall2 (fun X x => forall i, x i = weight X i / scale n M nz (weight X)) Xs xs.
Proof.
  intros n M nz Xs P F. unfold normalize_corpus. assert (B : existsb (fun y => if Rlt_dec (bil (seq 0 n) M y y) 0 then true else false) (map csc_get Xs) = false).
  { destruct (existsb _ _) eqn:E; [|reflexivity]. exfalso. apply existsb_exists in E. destruct E as (y & Hy & Hb). apply in_map_iff in Hy. destruct Hy as (X & <- & HX). rewrite Forall_forall in F. specialize (F X HX). destruct (Rlt_dec _ 0) as [Hlt|]; [|discriminate]. change (bil (seq 0 n) M (csc_get X) (csc_get X)) with (product n M (csc_get X) (csc_get X)) in Hlt.
    rewrite (product_ext n M (csc_get X) (weight X) (csc_get X) (weight X)) in Hlt by (intros; apply (weight_csc n); exact F). pose proof (P _ (proper_nonzero n X F)). lra. }
  rewrite B. assert (Tr : forall nz, nz <> NFalse -> exists xs, rmapM (normalize_document (seq 0 n) M nz) (map csc_get Xs) = Ok xs /\ Forall2 (fun X x => forall i, x i = weight X i / scale n M nz (weight X)) Xs xs).
  { clear nz. intros nz NF. clear B. induction F as [|X Xs HX F IH]; [exists []; split; [reflexivity | constructor]|]. destruct IH as (xs & E & G). destruct (normalize_document_positive n M nz X P HX NF) as (x & E1 & G1). exists (x :: xs). cbn [map rmapM]. rewrite E1. cbn [rbind]. rewrite E. split; [reflexivity | constructor; assumption]. }
  destruct nz; [|apply Tr; discriminate..]. exists (map csc_get Xs). split; [reflexivity|]. clear B Tr. induction F as [|X Xs HX F IH]; [constructor|]. cbn [map]. constructor; [|exact IH]. intros i. cbn [scale]. rewrite (weight_csc n) by exact HX. field.
Qed.
Lemma Forall2_map_eq : forall {A B C} (R : A -> B -> Prop) (f : A -> C) (g : B -> C) l m, Forall2 R l m -> (forall a b, In a l -> R a b -> g b = f a) -> map g m = map f l.
Proof. intros A B C R f g l m F. induction F as [|a b l m Hab F IH]; intros H; [reflexivity|]. cbn [map]. rewrite (H a b (or_introl eq_refl) Hab), IH; [reflexivity | intros a' b' Hin; apply H; right; exact Hin]. Qed.
(** Two corpora: the table of what two vectors give. *)
Theorem soft_corpora : forall n M Xs Ys nx ny, mat_positive n M -> Forall (proper n) Xs -> Forall (proper n) Ys ->
  exists table, inner_corpora n M Xs Ys nx ny = Ok table /\ table = map (fun X => map (fun Y => clipped nx ny (soft n M nx ny (weight X) (weight Y))) Ys) Xs /\
    forall X Y, In X Xs -> In Y Ys -> inner_vectors n M X Y nx ny = Ok (clipped nx ny (soft n M nx ny (weight X) (weight Y))).
Proof.
  intros n M Xs Ys nx ny P FX FY. unfold inner_corpora. assert (RX : forallb (in_range n) Xs = true) by (apply forallb_forall; intros X HX; apply proper_range; rewrite Forall_forall in FX; apply FX; exact HX). assert (RY : forallb (in_range n) Ys = true) by (apply forallb_forall; intros X HX; apply proper_range; rewrite Forall_forall in FY; apply FY; exact HX).
  rewrite RX, RY. cbn [andb]. destruct (normalize_corpus_positive n M nx Xs P FX) as (xs & Ex & Gx). destruct (normalize_corpus_positive n M ny Ys P FY) as (ys & Ey & Gy). rewrite Ex. cbn [rbind]. rewrite Ey. cbn [rbind]. rewrite Forall_forall in FX, FY.
  eexists. split; [reflexivity|]. split; [|intros X Y HX HY; apply soft_vectors; auto]. eapply Forall2_map_eq; [exact Gx|]. intros X x HX Hx. cbv beta. eapply Forall2_map_eq; [exact Gy|]. intros Y y HY Hy. cbv beta in *. f_equal. change (bil (seq 0 n) M x y) with (product n M x y).
  rewrite (product_ext n M x (fun i => weight X i / scale n M nx (weight X)) y (fun i => weight Y i / scale n M ny (weight Y))) by (intros; auto). apply product_div; apply Rgt_not_eq; apply scale_pos; try exact P; apply proper_nonzero; auto.
Qed.
Print Assumptions soft_corpora.

(** ** A vector and a corpus *)
Definition expand (n : nat) (M : mat) (X : vec) (j : nat) : R := sum n (fun i => weight X i * M i j).
(** As long as no index of the query cancels in the expanded query, the products are right; normalised documents need all their
    indices in the expanded query. *)
Theorem soft_vector_corpus : forall n M X Ys nx ny, mat_positive n M -> proper n X -> Forall (proper n) Ys ->
  (forall i w, In (i, w) X -> expand n M X i <> 0) ->
  (ny = NFalse \/ forall Y i w, In Y Ys -> In (i, w) Y -> expand n M X i <> 0) ->
  inner_vector_corpus n M X Ys nx ny = Ok (map (fun Y => clipped nx ny (soft n M nx ny (weight X) (weight Y))) Ys).
Proof.
  intros n M X Ys nx ny P PX FY HX HY. unfold inner_vector_corpus. assert (RY : forallb (in_range n) Ys = true) by (apply forallb_forall; intros Y HYs; apply proper_range; rewrite Forall_forall in FY; apply FY; exact HYs).
  rewrite (proper_range n X PX), RY. cbn [andb]. cbv zeta. set (ex := fun j => rsum (seq 0 n) (fun i => csc_get X i * M i j)). assert (Eex : forall j, ex j = expand n M X j) by (intros j; unfold ex, expand, sum; apply rsum_ext; intros i _; rewrite (weight_csc n) by exact PX; reflexivity).
  set (p := fun j => if Req_EM_T (rsum (seq 0 n) (fun i => csc_get X i * M i j)) 0 then false else true). assert (Pp : forall j, p j = false -> expand n M X j = 0) by (intros j Hj; unfold p in Hj; fold (ex j) in Hj; destruct (Req_EM_T (ex j) 0) as [E|]; [rewrite <- Eex; exact E | discriminate]). clearbody p. clear Eex ex.
  assert (ZX : forall i, p i = false -> dict_get X i = 0).
  { intros i Hi. rewrite (weight_dict n) by exact PX. destruct (in_dec Nat.eq_dec i (map fst X)) as [I1|I1]; [|apply weight_outside; exact I1]. apply in_map_iff in I1. destruct I1 as ([i' w] & E & Hin). cbn [fst] in E. subst i'. exfalso. exact (HX i w Hin (Pp i Hi)). }
  assert (NE : Nat.eqb (length (filter p (seq 0 n))) 0 = false).
  { destruct (proper_nonzero n X PX) as (i & Li & Wi). destruct (filter p (seq 0 n)) as [|a l] eqn:F; [|reflexivity]. exfalso. assert (Hi : ~ In i (filter p (seq 0 n))) by (rewrite F; intros []). apply Wi. rewrite <- (weight_dict n) by exact PX. apply ZX. destruct (p i) eqn:E; [|reflexivity]. exfalso. apply Hi. apply filter_In. split; [apply in_seq; lia | exact E]. }
  rewrite NE. rewrite normalize_filter by auto.
  assert (NX : exists i, (i < n)%nat /\ dict_get X i <> 0) by (destruct (proper_nonzero n X PX) as (i & L & W); exists i; rewrite (weight_dict n) by exact PX; auto).
  destruct (normalize_positive n M nx _ P NX) as (x & Ex & Hx). rewrite Ex. cbn [rbind]. assert (Hx' : forall i, x i = weight X i / scale n M nx (weight X)) by (intros i; rewrite Hx, (weight_dict n) by exact PX; f_equal; apply scale_ext; intros; apply (weight_dict n); exact PX).
  assert (Zx : forall i, In i (seq 0 n) -> p i = false -> x i = 0) by (intros i _ Hi; exact (normalize_support _ _ _ _ _ (fun i => p i = false) Ex ZX i Hi)).
  assert (Sx : scale n M nx (weight X) <> 0) by (apply Rgt_not_eq; apply scale_pos; [exact P | apply proper_nonzero; exact PX]).
  assert (Half : forall y, bil (filter p (seq 0 n)) M x y = product n M x y).
  { intros y. unfold bil, product, sum. rewrite rsum_swap. rewrite (rsum_swap (seq 0 n) (seq 0 n)). rewrite rsum_filter. apply rsum_ext. intros j Hj. destruct (p j) eqn:Pj.
    - rewrite rsum_filter. apply rsum_ext. intros i Hi. destruct (p i) eqn:Pi; [reflexivity | rewrite (Zx i Hi Pi); ring].
    - rewrite (rsum_ext _ _ (fun i => (y j / scale n M nx (weight X)) * (weight X i * M i j))) by (intros i _; rewrite Hx'; field; exact Sx). rewrite rsum_scale. change (rsum (seq 0 n) (fun i => weight X i * M i j)) with (expand n M X j). rewrite (Pp j Pj). ring. }
  assert (NC : exists ys, normalize_corpus (filter p (seq 0 n)) M ny (map csc_get Ys) = Ok ys /\ Forall2 (fun Y y => forall i, y i = weight Y i / scale n M ny (weight Y)) Ys ys).
  { destruct HY as [->|HY].
    - exists (map csc_get Ys). split; [reflexivity|]. clear - FY. induction FY as [|Y Ys HY F IH]; [constructor|]. cbn [map]. constructor; [|exact IH]. intros i. cbn [scale]. rewrite (weight_csc n) by exact HY. field.
    - destruct (normalize_corpus_positive n M ny Ys P FY) as (ys & E & G). exists ys. split; [|exact G]. rewrite <- E. rewrite Forall_forall in FY.
      assert (Zy : forall Y, In Y Ys -> forall i, In i (seq 0 n) -> p i = false -> csc_get Y i = 0).
      { intros Y HYs i _ Hi. rewrite (weight_csc n) by (apply FY; exact HYs). destruct (in_dec Nat.eq_dec i (map fst Y)) as [I1|I1]; [|apply weight_outside; exact I1]. apply in_map_iff in I1. destruct I1 as ([i' w] & E' & Hin). cbn [fst] in E'. subst i'. exfalso. exact (HY Y i w HYs Hin (Pp i Hi)). }
      unfold normalize_corpus. assert (B : forall Y, In Y Ys -> bil (filter p (seq 0 n)) M (csc_get Y) (csc_get Y) = bil (seq 0 n) M (csc_get Y) (csc_get Y)) by (intros Y HYs; apply bil_filter; apply Zy; exact HYs).
      assert (D : forall nz Y, In Y Ys -> normalize_document (filter p (seq 0 n)) M nz (csc_get Y) = normalize_document (seq 0 n) M nz (csc_get Y)).
      { intros nz Y HYs. unfold normalize_document. rewrite (B Y HYs), (dot_filter p (seq 0 n) (csc_get Y) (Zy Y HYs)). assert (A : all_zero (filter p (seq 0 n)) (csc_get Y) = all_zero (seq 0 n) (csc_get Y)); [|rewrite A; reflexivity].
        unfold all_zero. specialize (Zy Y HYs). clear - Zy. induction (seq 0 n) as [|i l IH]; [reflexivity|]. cbn [filter forallb]. assert (IH' := IH (fun j Hj => Zy j (or_intror Hj))). destruct (p i) eqn:Pi; cbn [forallb]; rewrite IH'; [reflexivity|]. rewrite (Zy i (or_introl eq_refl) Pi). destruct (Req_EM_T 0 0); [reflexivity | congruence]. }
      assert (X1 : existsb (fun y => if Rlt_dec (bil (filter p (seq 0 n)) M y y) 0 then true else false) (map csc_get Ys) = existsb (fun y => if Rlt_dec (bil (seq 0 n) M y y) 0 then true else false) (map csc_get Ys)).
      { clear - B. induction Ys as [|Y Ys IH]; [reflexivity|]. cbn [map existsb]. rewrite (B Y (or_introl eq_refl)), IH; [reflexivity | intros Y' H; apply B; right; exact H]. }
      assert (X2 : forall nz, rmapM (normalize_document (filter p (seq 0 n)) M nz) (map csc_get Ys) = rmapM (normalize_document (seq 0 n) M nz) (map csc_get Ys)).
      { intros nz. clear - D. induction Ys as [|Y Ys IH]; [reflexivity|]. cbn [map rmapM]. rewrite (D nz Y (or_introl eq_refl)), IH; [reflexivity | intros nz' Y' H; apply D; right; exact H]. }
      rewrite X1, !X2. reflexivity. }
  destruct NC as (ys & E & G). rewrite E. cbn [rbind]. f_equal. rewrite Forall_forall in FY. eapply Forall2_map_eq; [exact G|]. intros Y y HYs Hy. cbv beta in *. f_equal. rewrite Half. rewrite (product_ext n M x (fun i => weight X i / scale n M nx (weight X)) y (fun i => weight Y i / scale n M ny (weight Y))) by (intros; auto).
  apply product_div; [exact Sx|]. apply Rgt_not_eq; apply scale_pos; [exact P | apply proper_nonzero; apply FY; exact HYs].
Qed.
Print Assumptions soft_vector_corpus.
(** Non-negative similarities and positive weights cannot cancel. *)
Theorem no_cancellation : forall n M X, (forall i j, 0 <= M i j) -> (forall i, (i < n)%nat -> 0 < M i i) -> proper n X -> (forall i w, In (i, w) X -> 0 < w) ->
  forall i w, In (i, w) X -> expand n M X i <> 0.
Proof.
  intros n M X Nn Di (_ & N & R) Pw i w Hin. assert (Nw : forall j, 0 <= weight X j) by (intros j; unfold weight, dget_or; destruct (dget X j) as [u|] eqn:G; [left; apply (Pw j); apply dget_In; exact G | lra]).
  apply Rgt_not_eq. unfold expand, sum. apply rsum_pos; [intros j _; apply Rmult_le_pos; auto|]. exists i. destruct (R i w Hin) as [Li _]. split; [apply in_seq; lia|]. apply Rmult_lt_0_compat; [|apply Di; exact Li]. unfold weight, dget_or. rewrite (In_dget X i w N Hin). apply (Pw i w Hin).
Qed.
Print Assumptions no_cancellation.
(** ... and never violate the assertion. *)
Theorem nonnegative_accepted : forall n M X Y nx ny, (forall i j, 0 <= M i j) -> (forall i w, In (i, w) X -> 0 <= w) -> (forall i w, In (i, w) Y -> 0 <= w) ->
  inner_vectors n M X Y nx ny <> Err AssertionErr.
Proof.
  intros n M X Y nx ny Nn HX HY. assert (D : forall Z : vec, (forall i w, In (i, w) Z -> 0 <= w) -> forall i, 0 <= dict_get Z i).
  { intros V HV i. unfold dict_get, dget_or. destruct (dget (dict_of V) i) as [w|] eqn:G; [|lra]. apply dget_In in G. apply (HV i w). clear - G. revert G. unfold dict_of. assert (K : forall l d x, In x (fold_left (fun d (kv : nat * R) => dset d (fst kv) (snd kv)) l d) -> In x l \/ In x d).
    { induction l as [|[k v] l IH]; intros d x H; [right; exact H|]. cbn [fold_left fst snd] in H. apply IH in H. destruct H as [H|H]; [left; right; exact H|]. clear - H. induction d as [|[k' v'] d IH]; cbn [dset] in H; [destruct H as [<-|[]]; left; left; reflexivity|]. destruct (eq_dec k' k) as [->|]; [destruct H as [<-|H]; [left; left; reflexivity | right; right; exact H] | destruct H as [<-|H]; [right; left; reflexivity|]]. destruct (IH H) as [X|X]; [left; exact X | right; right; exact X]. }
    intros G. destruct (K V [] (i, w) G) as [H|[]]. exact H. }
  assert (NV : forall idx nz x, (forall i, 0 <= x i) -> exists x', normalize_vector idx M nz x = Ok x').
  { intros idx nz x Hx. assert (B : 0 <= bil idx M x x) by (unfold bil; rewrite <- (rsum_zero idx (fun _ => 0)) by reflexivity; apply rsum_le; intros i _; rewrite <- (rsum_zero idx (fun _ => 0)) by reflexivity; apply rsum_le; intros j _; apply Rmult_le_pos; [apply Rmult_le_pos|]; auto).
    unfold normalize_vector. destruct nz; [eexists; reflexivity| |]; (destruct (Rlt_dec (bil idx M x x) 0); [lra|]); eexists; reflexivity. }
  unfold inner_vectors. destruct X as [|a X]; [discriminate|]. destruct Y as [|b Y]; [discriminate|]. destruct (_ && _); [|discriminate].
  match goal with |- context [normalize_vector ?idx M nx ?x] => destruct (NV idx nx x (D _ HX)) as (x' & ->) end. cbn [rbind]. match goal with |- context [normalize_vector ?idx M ny ?x] => destruct (NV idx ny x (D _ HY)) as (y' & ->) end. discriminate.
Qed.
Print Assumptions nonnegative_accepted.

(** ** What goes wrong *)
Definition identity : mat := fun i j => if Nat.eqb i j then 1 else 0.
(** Documents are normalised over the words of the query only: the cosine of (1, 0) and (1, 1) comes out as 1. *)
Theorem soft_cosine_corpus_refuted : exists X Y, proper 2 X /\ proper 2 Y /\ inner_vector_corpus 2 identity X [Y] NTrue NTrue = Ok [1] /\
  inner_vectors 2 identity X Y NTrue NTrue = Ok (/ sqrt 2) /\ / sqrt 2 < 1.
Proof.
  exists [(0%nat, 1)], [(0%nat, 1); (1%nat, 1)]. assert (PX : proper 2 [(0%nat, 1)]) by (split; [discriminate|]; split; [cbn; repeat constructor; cbn; intuition discriminate|]; intros i w [E|[]]; injection E as <- <-; split; [lia | lra]).
  assert (PY : proper 2 [(0%nat, 1); (1%nat, 1)]) by (split; [discriminate|]; split; [cbn; repeat constructor; cbn; intuition discriminate|]; intros i w [E|[E|[]]]; injection E as <- <-; (split; [lia | lra])).
  assert (Pid : mat_positive 2 identity) by (intros x (i & Li & Hi); unfold product, sum, identity; cbn [seq rsum Nat.eqb]; destruct i as [|[|i]]; [pose proof (Rsqr_pos_lt _ Hi) as H; pose proof (Rle_0_sqr (x 1%nat)); unfold Rsqr in *; lra | pose proof (Rsqr_pos_lt _ Hi) as H; pose proof (Rle_0_sqr (x 0%nat)); unfold Rsqr in *; lra | lia]).
  assert (S2 : 1 < sqrt 2) by (rewrite <- sqrt_1 at 1; apply sqrt_lt_1; lra).
  split; [exact PX|]. split; [exact PY|]. split; [|split].
  - unfold inner_vector_corpus. cbn [in_range forallb fst andb Nat.ltb Nat.leb]. cbv zeta. set (p := fun j : nat => _). assert (Ef : filter p (seq 0 2) = [0%nat]).
    { cbn [seq filter]. unfold p at 1 2. unfold csc_get, identity. cbn [rsum seq filter fst Nat.eqb map snd Rsum fold_right]. destruct (Req_EM_T _ 0) as [E|_]; [exfalso; lra|]. destruct (Req_EM_T _ 0) as [_|E]; [reflexivity | exfalso; apply E; lra]. }
    rewrite Ef. cbn [length Nat.eqb]. unfold normalize_vector, normalize_corpus, bil. cbn [rsum map existsb].
    assert (Ex : dict_get [(0%nat, 1)] 0%nat = 1) by reflexivity. assert (Ey : csc_get [(0%nat, 1); (1%nat, 1)] 0%nat = 1) by (unfold csc_get; cbn; lra). assert (Ei : identity 0%nat 0%nat = 1) by reflexivity. rewrite Ex, Ey, Ei.
    replace (1 * 1 * 1 + 0 + 0) with 1 by ring. rewrite !sqrt_1. destruct (Rlt_dec 1 0); [lra|]. destruct (Rlt_dec 0 1); [|lra]. cbn [rbind orb]. cbn [rmapM]. unfold normalize_document, all_zero, bil. cbn [forallb rsum]. rewrite Ey, Ei. destruct (Req_EM_T 1 0); [lra|]. cbn [andb].
    replace (1 * 1 * 1 + 0 + 0) with 1 by ring. destruct (Req_EM_T 1 0); [lra|]. cbn [rbind map]. do 2 f_equal. rewrite Ex, Ey, sqrt_1. unfold clipped, clip. destruct (Rlt_dec _ (-1)); [lra|]. destruct (Rlt_dec 1 _); lra.
  - rewrite soft_vectors by assumption. f_equal. unfold clipped. assert (E : soft 2 identity NTrue NTrue (weight [(0%nat, 1)]) (weight [(0%nat, 1); (1%nat, 1)]) = / sqrt 2).
    { unfold soft. cbn [scale]. unfold product, sum, identity. cbn [seq rsum Nat.eqb]. change (weight [(0%nat, 1)] 0%nat) with 1. change (weight [(0%nat, 1)] 1%nat) with 0. change (weight [(0%nat, 1); (1%nat, 1)] 0%nat) with 1. change (weight [(0%nat, 1); (1%nat, 1)] 1%nat) with 1.
      replace (1 * 1 * 1 + (1 * 0 * 0 + 0) + (0 * 0 * 1 + (0 * 1 * 0 + 0) + 0)) with 1 by ring. replace (1 * 1 * 1 + (1 * 0 * 1 + 0) + (1 * 0 * 1 + (1 * 1 * 1 + 0) + 0)) with 2 by ring. replace (1 * 1 * 1 + (1 * 0 * 1 + 0) + (0 * 0 * 1 + (0 * 1 * 1 + 0) + 0)) with 1 by ring. rewrite sqrt_1. field. lra. }
    rewrite E. assert (0 < / sqrt 2 < 1) by (split; [apply Rinv_0_lt_compat; lra | assert (/ sqrt 2 < / 1) by (apply Rinv_lt_contravar; lra); lra]). unfold clip. destruct (Rlt_dec _ _); [lra|]. destruct (Rlt_dec _ _); [lra | reflexivity].
  - assert (/ sqrt 2 < / 1) by (apply Rinv_lt_contravar; lra). lra.
Qed.
(** A query whose expansion cancels in one of its own words loses that word. *)
Definition halves : mat := fun i j => if Nat.eqb i j then 1 else / 2.
Theorem cancellation_refuted : exists X Y, proper 2 X /\ proper 2 Y /\ mat_positive 2 halves /\ inner_vector_corpus 2 halves X [Y] NFalse NFalse = Ok [-2] /\ inner_vectors 2 halves X Y NFalse NFalse = Ok (- 3 / 2).
Proof.
  exists [(0%nat, 1); (1%nat, -2)], [(1%nat, 1)]. assert (PX : proper 2 [(0%nat, 1); (1%nat, -2)]) by (split; [discriminate|]; split; [cbn; repeat constructor; cbn; intuition discriminate|]; intros i w [E|[E|[]]]; injection E as <- <-; (split; [lia | lra])).
  assert (PY : proper 2 [(1%nat, 1)]) by (split; [discriminate|]; split; [cbn; repeat constructor; cbn; intuition discriminate|]; intros i w [E|[]]; injection E as <- <-; (split; [lia | lra])).
  assert (Ph : mat_positive 2 halves).
  { apply dominant_positive; [intros i j _ _; unfold halves; rewrite (Nat.eqb_sym i j); reflexivity | intros i _; unfold halves; rewrite Nat.eqb_refl; reflexivity|]. intros k Hk. unfold sum, halves. assert (A : Rabs (/ 2) = / 2) by (apply Rabs_pos_eq; lra). destruct k as [|[|k]]; [| |lia]; cbn [seq rsum Nat.eqb]; rewrite A; lra. }
  split; [exact PX|]. split; [exact PY|]. split; [exact Ph|]. split.
  - unfold inner_vector_corpus. cbn [in_range forallb fst andb Nat.ltb Nat.leb]. cbv zeta. set (p := fun j : nat => _). assert (Ef : filter p (seq 0 2) = [1%nat]).
    { assert (P0 : p 0%nat = false) by (unfold p, csc_get, halves; cbn [rsum seq filter fst Nat.eqb map snd Rsum fold_right]; destruct (Req_EM_T _ 0) as [_|E]; [reflexivity | exfalso; apply E; lra]).
      assert (P1 : p 1%nat = true) by (unfold p, csc_get, halves; cbn [rsum seq filter fst Nat.eqb map snd Rsum fold_right]; destruct (Req_EM_T _ 0) as [E|_]; [exfalso; lra | reflexivity]). cbn [seq filter]. rewrite P0, P1. reflexivity. }
    rewrite Ef. cbn [length Nat.eqb]. unfold normalize_vector, normalize_corpus, bil. cbn [rbind map rsum clipped]. do 2 f_equal. change (dict_get [(0%nat, 1); (1%nat, -2)] 1%nat) with (-2). unfold csc_get, halves. cbn [filter fst Nat.eqb map snd Rsum fold_right]. ring.
  - rewrite soft_vectors by assumption. f_equal. cbn [clipped]. unfold soft. cbn [scale]. unfold product, sum, halves. cbn [seq rsum Nat.eqb]. change (weight [(0%nat, 1); (1%nat, -2)] 0%nat) with 1. change (weight [(0%nat, 1); (1%nat, -2)] 1%nat) with (-2). change (weight [(1%nat, 1)] 0%nat) with 0. change (weight [(1%nat, 1)] 1%nat) with 1. field.
Qed.
(** Without dominance, negative similarities can make a norm negative: the assertion fails for an ordinary bag of words. *)
Definition negative : config := mkConfig (uniform_index abc (-9#10)) abc None true false None F32.
Theorem not_dominant_refuted : exists ts, well negative /\ create_source negative = Ok ts /\ proper 3 [(0%nat, 1); (1%nat, 1); (2%nat, 1)] /\
  inner_vectors 3 (matrix ts) [(0%nat, 1); (1%nat, 1); (2%nat, 1)] [(0%nat, 1)] NTrue NTrue = Err AssertionErr.
Proof.
  eexists. split; [|split; [vm_compute; reflexivity|split]].
  - split; [split; [vm_compute; repeat constructor; cbn; intuition discriminate | split; [apply Permutation_refl | unfold n_terms; cbn; lia]]|]. split; [exact Logic.I|]. split; [|left; reflexivity]. intros term n. destruct (uniform_good abc (-9#10) term n) as (A & B & _); [vm_compute; repeat constructor; cbn; intuition discriminate|]. split; assumption.
  - split; [discriminate|]. split; [cbn; repeat constructor; cbn; intuition discriminate|]. intros i w [E|[E|[E|[]]]]; injection E as <- <-; (split; [lia | lra]).
  - set (ts := _ :: _). assert (M1 : forall i, In i [0;1;2]%nat -> matrix ts i i = 1) by (intros i [<-|[<-|[<-|[]]]]; unfold matrix, ts, Q2R, entry; cbn; lra).
    assert (M2 : forall i j, In i [0;1;2]%nat -> In j [0;1;2]%nat -> i <> j -> matrix ts i j = - (9 / 10)) by (intros i j [<-|[<-|[<-|[]]]] [<-|[<-|[<-|[]]]] H; try congruence; unfold matrix, ts, Q2R, entry; cbn; lra).
    unfold inner_vectors. cbn [in_range forallb fst andb Nat.ltb Nat.leb]. change (filter _ (seq 0 3)) with [0; 1; 2]%nat. unfold normalize_vector, bil. cbn [rsum].
    change (dict_get [(0%nat, 1); (1%nat, 1); (2%nat, 1)] 0%nat) with 1. change (dict_get [(0%nat, 1); (1%nat, 1); (2%nat, 1)] 1%nat) with 1. change (dict_get [(0%nat, 1); (1%nat, 1); (2%nat, 1)] 2%nat) with 1.
    rewrite !M1 by (cbn; auto). rewrite !M2 by (cbn; auto; discriminate). destruct (Rlt_dec _ 0) as [_|H]; [reflexivity | exfalso; apply H; lra].
Qed.
(** An index given twice: two vectors take the last weight, two corpora the sum. *)
Theorem duplicates_refuted : exists X Y, inner_vectors 1 identity X Y NFalse NFalse = Ok 1 /\ inner_corpora 1 identity [X] [Y] NFalse NFalse = Ok [[2]].
Proof.
  exists [(0%nat, 1); (0%nat, 1)], [(0%nat, 1)]. split.
  - rewrite inner_vectors_full; [|discriminate | discriminate | reflexivity | reflexivity]. cbn [normalize_vector rbind clipped]. f_equal. unfold product, sum, identity. cbn [seq rsum Nat.eqb]. change (dict_get [(0%nat, 1); (0%nat, 1)] 0%nat) with 1. change (dict_get [(0%nat, 1)] 0%nat) with 1. ring.
  - unfold inner_corpora. cbn [forallb in_range fst andb Nat.ltb Nat.leb normalize_corpus rbind map clipped]. do 3 f_equal. unfold bil, identity, csc_get. cbn [seq rsum Nat.eqb filter fst map snd Rsum fold_right]. ring.
Qed.

(** ** Examples *)
Example positive_ex : exists ts, create_source (cfg true true None None F64) = Ok ts /\ mat_positive 3 (matrix ts).
Proof. destruct (termsim_total (cfg true true None None F64) (cfg_well true true None F64 (or_intror eq_refl))) as (ts & E). exists ts. split; [exact E|]. apply (termsim_positive (cfg true true None None F64) ts); [apply cfg_well; right; reflexivity | reflexivity | reflexivity | exact E]. Qed.
Example soft_ex : inner_vectors 2 halves [(0%nat, 1)] [(1%nat, 1)] NTrue NTrue = Ok (/ 2) /\ inner_corpora 2 halves [[(0%nat, 1)]] [[(1%nat, 4)]; [(0%nat, 2)]] NFalse NFalse = Ok [[2; 2]].
Proof.
  destruct cancellation_refuted as (_ & _ & _ & _ & Ph & _). assert (P1 : forall i w, (i < 2)%nat -> w <> 0 -> proper 2 [(i, w)]) by (intros i w Li Hw; split; [discriminate|]; split; [cbn; repeat constructor; cbn; intuition discriminate|]; intros j u [E|[]]; injection E as <- <-; auto). split.
  - rewrite soft_vectors; [|exact Ph | apply P1; [lia | lra] | apply P1; [lia | lra]]. f_equal. assert (E : soft 2 halves NTrue NTrue (weight [(0%nat, 1)]) (weight [(1%nat, 1)]) = / 2).
    { unfold soft. cbn [scale]. unfold product, sum, halves. cbn [seq rsum Nat.eqb]. change (weight [(0%nat, 1)] 0%nat) with 1. change (weight [(0%nat, 1)] 1%nat) with 0. change (weight [(1%nat, 1)] 0%nat) with 0. change (weight [(1%nat, 1)] 1%nat) with 1. match goal with |- _ / (sqrt ?a * sqrt ?b) = _ => replace a with 1 by ring; replace b with 1 by ring end. rewrite sqrt_1. field. }
    rewrite E. unfold clipped, clip. destruct (Rlt_dec _ _); [lra|]. destruct (Rlt_dec _ _); [lra | reflexivity].
  - unfold inner_corpora. cbn [forallb in_range fst andb Nat.ltb Nat.leb normalize_corpus rbind map clipped]. unfold bil, halves, csc_get. cbn [seq rsum Nat.eqb filter fst map snd Rsum fold_right]. do 2 f_equal. f_equal; [field|]. f_equal. field.
Qed.
