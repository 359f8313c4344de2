(** The geometry of Poincaré embeddings (properties C86, C87). *)
From Coq Require Import Reals Lra Psatz.
From Verif Require Import Base KeyedVectors_Model KeyedVectors_Proofs MatReal_Model MatReal_Proofs W2vGrad_Spec PoincareGeo_Model PoincareGeo_Proofs PoincareGeo_Proofs2.
Local Open Scope R_scope.

(** ** C86: the distance *)
(** On vectors of norm below 1, the distance is a metric. *)
Theorem poincare_metric : forall n u v w,
  (length u = n /\ norm u < 1) -> (length v = n /\ norm v < 1) -> (length w = n /\ norm w < 1) ->
  0 <= vector_distance u v /\ (vector_distance u v = 0 <-> u = v) /\ vector_distance u v = vector_distance v u /\
  vector_distance u w <= vector_distance u v + vector_distance v w.
Proof.
  intros n u v w Hu Hv Hw. destruct (gamma_ge n u v Hu Hv) as [Guv Euv]. destruct (gamma_ge n v w Hv Hw) as [Gvw _]. destruct (gamma_ge n u w Hu Hw) as [Guw _].
  rewrite (distance_gamma u v), (distance_gamma v u), (distance_gamma u w), (distance_gamma v w). unfold pdist. split; [now apply arccosh_pos|]. split; [rewrite arccosh_zero by exact Guv; exact Euv|].
  split; [rewrite gamma_sym by (destruct Hu, Hv; congruence); reflexivity|]. 
  rewrite arccosh_plus by assumption. apply arccosh_le; [exact Guw|]. apply (gamma_triangle n); assumption.
Qed.
Print Assumptions poincare_metric.
(** The similarity is positive and at most 1; 1 exactly for equal vectors; the farther, the smaller. *)
Theorem poincare_similarity : forall n u v w,
  (length u = n /\ norm u < 1) -> (length v = n /\ norm v < 1) -> (length w = n /\ norm w < 1) ->
  0 < similarity u v <= 1 /\ (similarity u v = 1 <-> u = v) /\ (similarity u v < similarity u w <-> vector_distance u w < vector_distance u v).
Proof.
  intros n u v w Hu Hv Hw. destruct (poincare_metric n u v w Hu Hv Hw) as (P & E & _). destruct (poincare_metric n u w w Hu Hw Hw) as (P2 & _). unfold similarity.
  set (d := vector_distance u v) in *. set (d2 := vector_distance u w) in *. clearbody d d2. pose proof (Rinv_0_lt_compat (1 + d) ltac:(lra)) as Q.
  assert (S1 : 1 / (1 + d) * (1 + d) = 1) by (field; lra). assert (S2 : 1 / (1 + d2) * (1 + d2) = 1) by (field; lra). assert (Q2 : 0 < 1 / (1 + d)) by (unfold Rdiv; lra).
  assert (Q3 : 0 < 1 / (1 + d2)) by (pose proof (Rinv_0_lt_compat (1 + d2) ltac:(lra)); unfold Rdiv; lra).
  set (s := 1 / (1 + d)) in *. set (s2 := 1 / (1 + d2)) in *. clearbody s s2.
  split; [split; [lra | nra]|]. split; [rewrite <- E; split; intros H; [rewrite H in S1; lra | rewrite H in S1; lra]|]. split; intros H; [|nra]. destruct (Rlt_dec d2 d); [assumption|]. nra.
Qed.
Print Assumptions poincare_similarity.
(** Far from the centre the distance grows without bound: the distance of [0] and a vector of norm [r] is [ln ((1 + r) / (1 - r))]. *)
Theorem distance_from_centre : forall n v, length v = n -> norm v < 1 -> vector_distance (zero n) v = ln ((1 + norm v) / (1 - norm v)).
Proof.
  intros n v L N. rewrite distance_gamma. unfold pdist, gamma. rewrite euclid_sq, inner_sub_sq by (rewrite zero_length; congruence). unfold alpha_of. rewrite !norm_sq, !inner_zero_l, <- norm_sq.
  pose proof (norm_pos v) as P. set (r := norm v) in *. clearbody r. assert (Q : 0 < 1 - r ^ 2) by nra. unfold arccosh. f_equal.
  replace (1 + 2 * ((0 - 2 * 0 + r ^ 2) / ((1 - 0) * (1 - r ^ 2)))) with ((1 + r ^ 2) / (1 - r ^ 2)) by (field; lra).
  replace (((1 + r ^ 2) / (1 - r ^ 2)) ^ 2 - 1) with ((2 * r / (1 - r ^ 2)) ^ 2) by (field; lra).
  rewrite sqrt_pow2; [field; split; nra|]. apply Rmult_le_pos; [lra|]. left. now apply Rinv_0_lt_compat.
Qed.
Print Assumptions distance_from_centre.
Example poincare_ex : vector_distance [0; 0] [3 / 5; 0] = ln 4 /\ norm [3 / 5; 0] = 3 / 5.
Proof.
  assert (E : norm [3 / 5; 0] = 3 / 5). { unfold norm, sumsq. cbn [map]. unfold Rsum. cbn [fold_right]. replace (3 / 5 * (3 / 5) + (0 * 0 + 0)) with ((3 / 5) ^ 2) by field. apply sqrt_pow2. lra. }
  split; [|exact E]. change [0; 0] with (zero 2). rewrite (distance_from_centre 2) by (cbn; try reflexivity; rewrite E; lra). rewrite E. f_equal. field.
Qed.

(** ** C87: training *)
(** The gradients are the partial derivatives of the loss: along any direction of [u] and of the other vectors, the loss changes
    by the inner product with the gradients. *)
Theorem loss_gradient : forall n reg u vs du dvs, in_ball n u -> Forall (in_ball n) vs -> vs <> [] -> ~ In u vs ->
  length du = n -> length dvs = length vs -> Forall (fun d => length d = n) dvs ->
  slope (fun s => loss_fn reg (lin u du s) (map (fun p => lin (fst p) (snd p) s) (combine vs dvs))) 0
    (inner (grad_u u vs) du + Rsum (map (fun p => inner (fst p) (snd p)) (combine (grad_v reg u vs) dvs))).
Proof. intros n reg u vs du dvs Hu Hv Ne N Lu Lv F. exact (loss_slope n reg u du vs dvs Hu Lu Ne Hv F Lv N). Qed.
Print Assumptions loss_gradient.
(** On a line, the distance of 0 and 1/2 is ln 3; it falls with slope 2 when 0 moves towards 1/2, and grows with slope 8/3 when 1/2
    moves away. *)
Example dgrad_ex : dgrad_u [0] [1 / 2] = [-2] /\ dgrad_v [0] [1 / 2] = [8 / 3].
Proof.
  assert (A0 : alpha_of [0] = 1) by (unfold alpha_of; rewrite norm_sq; cbn [inner]; ring). assert (A1 : alpha_of [1 / 2] = 3 / 4) by (unfold alpha_of; rewrite norm_sq; cbn [inner]; field).
  assert (E : euclid [0] [1 / 2] ^ 2 = 1 / 4) by (rewrite euclid_sq; unfold vsub; cbn [inner lin]; field). assert (G : gamma [0] [1 / 2] = 5 / 3) by (unfold gamma; rewrite E, A0, A1; field).
  assert (C : coef [0] [1 / 2] = 4). { unfold coef. rewrite G, A0, A1. replace ((5 / 3) ^ 2 - 1) with ((4 / 3) ^ 2) by field. rewrite sqrt_pow2 by lra. field. }
  unfold dgrad_u, dgrad_v. rewrite G. destruct (Req_EM_T (5 / 3) 1) as [H|H]; [lra|]. rewrite C, E, A0, A1. unfold scale, vsub. cbn [map lin]. split; f_equal; field.
Qed.
(** Nothing is divided by zero, and no logarithm or root is taken of a number out of range. *)
Theorem gradients_defined : forall n u v, in_ball n u -> in_ball n v ->
  0 < 1 - norm u ^ 2 <= 1 /\ 1 <= gamma u v /\ (gamma u v = 1 <-> u = v) /\ (u <> v -> 0 < alpha_of u * alpha_of v * sqrt (gamma u v ^ 2 - 1)) /\
  0 < expnd u v <= 1 /\ (forall vs, 0 < Zsum u (v :: vs)).
Proof.
  intros n u v Hu Hv. pose proof (ball_alpha n u Hu) as Pu. pose proof (ball_alpha n v Hv) as Pv. destruct (gamma_ge n u v Hu Hv) as [G E].
  split; [unfold alpha_of in Pu; pose proof (pow2_ge_0 (norm u)); lra|]. split; [exact G|]. split; [exact E|]. split.
  - intros N. assert (1 < gamma u v) by (destruct G as [|G]; [assumption|]; exfalso; apply N, E; congruence). apply Rmult_lt_0_compat; [now apply Rmult_lt_0_compat|]. apply sqrt_lt_R0. nra.
  - split; [|apply Zsum_pos]. split; [apply expnd_pos|]. unfold expnd. rewrite <- exp_0. pose proof (arccosh_pos _ G) as A. unfold pdist. destruct A as [A|A]; [left; apply exp_increasing; lra | rewrite <- A, Ropp_0; lra].
Qed.
Print Assumptions gradients_defined.

(** One step along the updates of an example goes downhill. *)
Lemma sum_sq : forall lr (vs gs : list vec), length gs = length vs ->
  Rsum (map (fun p => inner (fst p) (snd p)) (combine gs (map (scale (-1)) (map (fun p => scale (lr * alpha_of (fst p) ^ 2 / 4) (snd p)) (combine vs gs))))) =
  - (lr / 4) * Rsum (map (fun p => alpha_of (fst p) ^ 2 * inner (snd p) (snd p)) (combine vs gs)).
Proof.
  intros lr. induction vs as [|v vs IH]; intros [|g gs] L; try discriminate; [cbn; lra|]. cbn [combine map]. rewrite !Rsum_cons, IH by (cbn in L; congruence). cbn [fst snd]. rewrite !inner_scale_r. field.
Qed.
Theorem step_downhill : forall n lr reg u vs, in_ball n u -> Forall (in_ball n) vs -> vs <> [] -> ~ In u vs -> 0 < lr ->
  exists d, slope (fun s => loss_fn reg (lin u (scale (-1) (u_update lr u vs)) s) (map (fun p => lin (fst p) (snd p) s) (combine vs (map (scale (-1)) (v_updates lr reg u vs))))) 0 d /\
    d <= 0 /\ (d = 0 -> inner (grad_u u vs) (grad_u u vs) = 0 /\ forall g, In g (grad_v reg u vs) -> inner g g = 0).
Proof.
  intros n lr reg u vs Hu Hv Ne N P.
  assert (Lu : length u = n) by apply Hu. assert (Fv : Forall (fun v => length v = n) vs) by (eapply Forall_impl; [|exact Hv]; intros v H; apply H).
  pose proof (grad_u_length n u vs Lu Fv) as Gu. destruct (grad_v_length n reg u vs Lu Fv) as [Gv1 Gv2].
  eexists. split.
  - apply (loss_gradient n); [exact Hu | exact Hv | exact Ne | exact N | | | ].
    + unfold u_update. rewrite !scale_length. exact Gu.
    + unfold v_updates. rewrite !map_length, combine_length. rewrite Gv1. apply Nat.min_id.
    + apply Forall_forall. intros d Hd. apply in_map_iff in Hd. destruct Hd as (x & <- & Hx). unfold v_updates in Hx. apply in_map_iff in Hx. destruct Hx as ([v g] & <- & Hx). rewrite !scale_length. cbn [fst snd]. apply in_combine_r in Hx. rewrite Forall_forall in Gv2. auto.
  - unfold u_update, v_updates. rewrite sum_sq by exact Gv1. rewrite !inner_scale_r. pose proof (inner_pos (grad_u u vs)) as Pg. pose proof (ball_alpha n u Hu) as Au.
    set (SV := Rsum (map (fun p => alpha_of (fst p) ^ 2 * inner (snd p) (snd p)) (combine vs (grad_v reg u vs)))).
    assert (NN : forall x, In x (map (fun p => alpha_of (fst p) ^ 2 * inner (snd p) (snd p)) (combine vs (grad_v reg u vs))) -> 0 <= x).
    { intros x Hx. apply in_map_iff in Hx. destruct Hx as ([v g] & <- & _). cbn [fst snd]. apply Rmult_le_pos; [apply pow2_ge_0 | apply inner_pos]. }
    assert (PS : 0 <= SV) by (apply Rsum_nonneg; exact NN). assert (A2 : 0 < alpha_of u ^ 2) by (apply pow_lt; exact Au).
    assert (PU : 0 <= alpha_of u ^ 2 * inner (grad_u u vs) (grad_u u vs)) by (apply Rmult_le_pos; lra).
    replace (-1 * (lr * alpha_of u ^ 2 / 4 * inner (grad_u u vs) (grad_u u vs)) + - (lr / 4) * SV) with (- (lr / 4) * (alpha_of u ^ 2 * inner (grad_u u vs) (grad_u u vs) + SV)) by field.
    split; [nra|]. intros Z0. assert (Z1 : alpha_of u ^ 2 * inner (grad_u u vs) (grad_u u vs) + SV = 0) by nra. split; [nra|].
    intros g Hg. assert (SV0 : SV = 0) by lra. destruct (In_nth _ _ [] Hg) as (k & Lk & Ek).
    assert (Hin : In (nth k vs [], g) (combine vs (grad_v reg u vs))).
    { rewrite <- Ek, <- combine_nth by congruence. apply nth_In. rewrite combine_length. lia. }
    pose proof (Rsum_zero _ NN SV0 (alpha_of (nth k vs []) ^ 2 * inner g g)) as Z2. specialize (Z2 ltac:(apply in_map_iff; exists (nth k vs [], g); auto)).
    assert (Av : 0 < alpha_of (nth k vs [])). { apply (ball_alpha n). rewrite Forall_forall in Hv. apply Hv. apply nth_In. lia. }
    apply Rmult_integral in Z2. destruct Z2 as [Z2|Z2]; [|exact Z2]. pose proof (pow_lt _ 2 Av). lra.
Qed.
Print Assumptions step_downhill.

(** The reported loss leaves the regularization out. *)
Theorem reported_loss : forall reg u vs, batch_loss u vs = loss_fn 0 u vs /\ loss_fn reg u vs = batch_loss u vs + (match vs with v0 :: _ => reg * norm v0 ^ 2 | [] => 0 end).
Proof.
  intros reg u vs. assert (E : forall reg, loss_fn reg u vs = batch_loss u vs + (match vs with v0 :: _ => reg * norm v0 ^ 2 | [] => 0 end)).
  { clear. intros reg. unfold loss_fn, batch_loss, Zsum, expnd. destruct vs as [|v0 vs]; [lra|]. reflexivity. }
  split; [|apply E]. rewrite E. destruct vs; lra.
Qed.
Print Assumptions reported_loss.

(** ** Every node gets all its updates, and stays inside the ball *)
(** The updates of node [i] in a batch, in order: as the first node of a relation, and as a related node or negative sample. *)
Definition u_moves (lr : R) (X : list vec) (batch : list example) (i : nat) : list vec :=
  map (fun e => u_update lr (nth (fst e) X []) (map (fun k => nth k X []) (snd e))) (filter (fun e => fst e =? i)%nat batch).
Definition v_moves (lr reg : R) (X : list vec) (batch : list example) (i : nat) : list vec :=
  concat (map (fun e => map snd (filter (fun p => fst p =? i)%nat (combine (snd e) (v_updates lr reg (nth (fst e) X []) (map (fun k => nth k X []) (snd e)))))) batch).
Definition batch_ok (X : list vec) (batch : list example) : Prop := Forall (fun e => fst e < length X /\ Forall (fun k => k < length X) (snd e))%nat batch.
Definition shaped (size : nat) (X : list vec) : Prop := Forall (fun x => length x = size) X.

Lemma row_shaped : forall size X k, shaped size X -> (k < length X)%nat -> length (nth k X []) = size.
Proof. intros size X k F H. unfold shaped in F. rewrite Forall_forall in F. apply F. now apply nth_In. Qed.
Lemma rows_shaped : forall size X ks, shaped size X -> Forall (fun k => k < length X)%nat ks -> Forall (fun x => length x = size) (map (fun k => nth k X []) ks).
Proof. intros size X ks F H. apply Forall_forall. intros x Hx. apply in_map_iff in Hx. destruct Hx as (k & <- & Hk). rewrite Forall_forall in H. apply row_shaped; auto. Qed.
Lemma v_updates_shape : forall size lr reg u vs, length u = size -> Forall (fun x => length x = size) vs ->
  length (v_updates lr reg u vs) = length vs /\ Forall (fun x => length x = size) (v_updates lr reg u vs).
Proof.
  intros size lr reg u vs L F. destruct (grad_v_length size reg u vs L F) as [A B0]. unfold v_updates. rewrite map_length, combine_length, A, Nat.min_id. split; [reflexivity|].
  apply Forall_forall. intros x Hx. apply in_map_iff in Hx. destruct Hx as ([v g] & <- & Hx). rewrite scale_length. cbn [snd]. apply in_combine_r in Hx. rewrite Forall_forall in B0. auto.
Qed.
Lemma u_updates_of : forall lr X batch i, updates_of i (map fst batch) (map (fun p => u_update lr (fst p) (snd p)) (map (fun e => (nth (fst e) X [], take_rows X (snd e))) batch)) = u_moves lr X batch i.
Proof.
  intros lr X batch i. unfold updates_of, u_moves. induction batch as [|e batch IH]; [reflexivity|]. cbn [map combine filter fst]. destruct (fst e =? i)%nat; cbn [map]; rewrite IH; reflexivity.
Qed.
Lemma updates_app : forall i a ua b ub, length a = length ua -> updates_of i (a ++ b) (ua ++ ub) = updates_of i a ua ++ updates_of i b ub.
Proof.
  intros i a. unfold updates_of. induction a as [|k a IH]; intros [|u ua] b ub L; try discriminate; [reflexivity|]. cbn [app combine filter fst]. destruct (k =? i)%nat; cbn [map app]; rewrite IH by (cbn in L; congruence); reflexivity.
Qed.
Lemma v_updates_of : forall size lr reg X batch i, shaped size X -> batch_ok X batch ->
  updates_of i (concat (map snd batch)) (concat (map (fun p => v_updates lr reg (fst p) (snd p)) (map (fun e => (nth (fst e) X [], take_rows X (snd e))) batch))) = v_moves lr reg X batch i /\
  length (concat (map (fun p => v_updates lr reg (fst p) (snd p)) (map (fun e => (nth (fst e) X [], take_rows X (snd e))) batch))) = length (concat (map snd batch)) /\
  Forall (fun u => length u = size) (concat (map (fun p => v_updates lr reg (fst p) (snd p)) (map (fun e => (nth (fst e) X [], take_rows X (snd e))) batch))).
Proof.
  intros size lr reg X batch i F OK. induction OK as [|e batch [H1 H2] OK IH]; [repeat split; constructor|]. cbn [map concat fst snd]. destruct IH as (A & B0 & C).
  destruct (v_updates_shape size lr reg (nth (fst e) X []) (take_rows X (snd e))) as [D1 D2]; [now apply row_shaped | now apply rows_shaped|].
  assert (D3 : length (v_updates lr reg (nth (fst e) X []) (take_rows X (snd e))) = length (snd e)) by (rewrite D1; unfold take_rows; apply map_length).
  split; [|split].
  - rewrite updates_app by congruence. rewrite A. unfold v_moves. cbn [map concat]. reflexivity.
  - rewrite !app_length, B0, D3. reflexivity.
  - apply Forall_app. split; assumption.
Qed.
Lemma total_length : forall size ups, Forall (fun u => length u = size) ups -> length (total size ups) = size.
Proof. intros size ups F. unfold total. apply (total_inner size ups [] (zero size)); [apply zero_length | exact F]. Qed.
Lemma moved_ok : forall eps size x ups, 0 < eps < 1 -> INR size * eps < 2 * (1 - eps) -> length x = size -> Forall (fun u => length u = size) ups ->
  length (moved eps size x ups) = size /\ (ups <> [] -> norm (moved eps size x ups) < 1 - eps) /\ (norm x < 1 -> norm (moved eps size x ups) < 1).
Proof.
  intros eps size x ups P D L F. unfold moved. destruct ups as [|u us]; [split; [exact L|]; split; [congruence | auto]|].
  assert (V : length (vsub x (total size (u :: us))) = size) by (unfold vsub; rewrite lin_length; [exact L | rewrite total_length; assumption]).
  pose proof (clip_row_norm eps (vsub x (total size (u :: us))) P) as C. rewrite V in C. specialize (C D). split; [rewrite clip_length; exact V|]. split; [intros _; exact C | intros _; lra].
Qed.
(** A node moves by the sum of all its updates as a first node, is clipped, then moves by the sum of all its other updates, and is
    clipped.  Other nodes do not move. *)
Theorem batch_rows : forall lr reg eps size X batch i, shaped size X -> batch_ok X batch -> (i < length X)%nat ->
  length (update_vectors_batch lr reg eps size X batch) = length X /\
  nth i (update_vectors_batch lr reg eps size X batch) [] = moved eps size (moved eps size (nth i X []) (u_moves lr X batch i)) (v_moves lr reg X batch i).
Proof.
  intros lr reg eps size X batch i F OK Hi. unfold update_vectors_batch. destruct (v_updates_of size lr reg X batch i F OK) as (A & B0 & C).
  split; [rewrite !apply_length; reflexivity|]. rewrite apply_updates_row by (try rewrite apply_length; assumption). rewrite A. f_equal.
  rewrite apply_updates_row; [rewrite u_updates_of; reflexivity | exact Hi | rewrite !map_length; reflexivity|].
  apply Forall_forall. intros x Hx. rewrite map_map in Hx. apply in_map_iff in Hx. destruct Hx as (e & <- & He). cbn [fst snd]. unfold batch_ok in OK. rewrite Forall_forall in OK. destruct (OK e He) as [H1 H2].
  unfold u_update. rewrite scale_length. apply grad_u_length; [now apply row_shaped | now apply rows_shaped].
Qed.
Print Assumptions batch_rows.
(** Node 0 is the first node of two relations, node 2 the related node in both, and a negative sample in a third. *)
Example batch_rows_ex : forall X, length X = 4%nat -> let b := [(0, [2; 3]); (0, [2; 1]); (3, [1; 2])]%nat in
  batch_ok X b /\ map (fun i => length (u_moves 1 X b i)) [0; 1; 2; 3]%nat = [2; 0; 0; 1]%nat /\ map (fun i => length (v_moves 1 1 X b i)) [0; 1; 2; 3]%nat = [0; 2; 3; 1]%nat.
Proof. intros X L b. split; [unfold batch_ok, b; rewrite L; repeat constructor|]. split; reflexivity. Qed.
Lemma u_moves_shape : forall lr size X batch i, shaped size X -> batch_ok X batch -> Forall (fun u => length u = size) (u_moves lr X batch i).
Proof.
  intros lr size X batch i F OK. apply Forall_forall. intros x Hx. unfold u_moves in Hx. apply in_map_iff in Hx. destruct Hx as (e & <- & He). apply filter_In in He. destruct He as [He _]. unfold batch_ok in OK. rewrite Forall_forall in OK. destruct (OK e He) as [H1 H2].
  unfold u_update. rewrite scale_length. apply grad_u_length; [now apply row_shaped | now apply rows_shaped].
Qed.
Lemma v_moves_shape : forall lr reg size X batch i, shaped size X -> batch_ok X batch -> Forall (fun u => length u = size) (v_moves lr reg X batch i).
Proof.
  intros lr reg size X batch i F OK. destruct (v_updates_of size lr reg X batch i F OK) as (A & _ & C). rewrite <- A. apply Forall_forall. intros x Hx. unfold updates_of in Hx. apply in_map_iff in Hx. destruct Hx as ([k u] & <- & Hx).
  apply filter_In in Hx. destruct Hx as [Hx _]. apply in_combine_r in Hx. rewrite Forall_forall in C. auto.
Qed.

Lemma moves_nonempty : forall lr reg size X batch i, shaped size X -> batch_ok X batch ->
  (In i (map fst batch) -> u_moves lr X batch i <> []) /\ (In i (concat (map snd batch)) -> v_moves lr reg X batch i <> []).
Proof.
  intros lr reg size X batch i F OK. destruct (v_updates_of size lr reg X batch i F OK) as (A & B0 & _). split; intros H E.
  - rewrite <- u_updates_of in E. apply updates_nil in E; [contradiction | rewrite !map_length; reflexivity].
  - rewrite <- A in E. apply updates_nil in E; [contradiction | exact B0].
Qed.
(** Through a batch, all vectors stay inside the unit ball, and the nodes of the batch end up inside the smaller ball of radius
    [1 - epsilon]. *)
Theorem batch_in_ball : forall lr reg eps size X batch, 0 < eps < 1 -> INR size * eps < 2 * (1 - eps) ->
  Forall (in_ball size) X -> batch_ok X batch ->
  Forall (in_ball size) (update_vectors_batch lr reg eps size X batch) /\
  forall i, In i (map fst batch) \/ In i (concat (map snd batch)) -> norm (nth i (update_vectors_batch lr reg eps size X batch) []) < 1 - eps.
Proof.
  intros lr reg eps size X batch P D F OK. assert (Sh : shaped size X) by (unfold shaped; eapply Forall_impl; [|exact F]; intros x Hx; apply Hx).
  assert (R0 : forall i, (i < length X)%nat -> length (nth i (update_vectors_batch lr reg eps size X batch) []) = size /\ norm (nth i (update_vectors_batch lr reg eps size X batch) []) < 1 /\
    (In i (map fst batch) \/ In i (concat (map snd batch)) -> norm (nth i (update_vectors_batch lr reg eps size X batch) []) < 1 - eps)).
  { intros i Hi. destruct (batch_rows lr reg eps size X batch i Sh OK Hi) as [_ E]. rewrite E.
    assert (B0 : in_ball size (nth i X [])) by (rewrite Forall_forall in F; apply F; now apply nth_In).
    destruct (moved_ok eps size (nth i X []) (u_moves lr X batch i) P D (proj1 B0) (u_moves_shape lr size X batch i Sh OK)) as (L1 & N1 & M1).
    destruct (moved_ok eps size _ (v_moves lr reg X batch i) P D L1 (v_moves_shape lr reg size X batch i Sh OK)) as (L2 & N2 & M2).
    destruct (moves_nonempty lr reg size X batch i Sh OK) as [Q1 Q2]. split; [exact L2|]. split; [apply M2, M1, B0|]. intros [H|H]; [|now apply N2, Q2].
    destruct (v_moves lr reg X batch i) as [|m ms] eqn:Em; [cbn [moved]; now apply N1, Q1 | apply N2; discriminate]. }
  assert (Len : length (update_vectors_batch lr reg eps size X batch) = length X) by (unfold update_vectors_batch; rewrite !apply_length; reflexivity).
  split.
  - apply Forall_forall. intros x Hx. destruct (In_nth _ _ [] Hx) as (i & Hi & <-). rewrite Len in Hi. destruct (R0 i Hi) as (A & B0 & _). split; assumption.
  - intros i Hin. apply R0; [|exact Hin]. unfold batch_ok in OK. rewrite Forall_forall in OK. destruct Hin as [H|H].
    + apply in_map_iff in H. destruct H as (e & <- & He). apply (OK e He).
    + apply in_concat in H. destruct H as (l & Hl & H). apply in_map_iff in Hl. destruct Hl as (e & <- & He). destruct (OK e He) as [_ Q]. rewrite Forall_forall in Q. auto.
Qed.
Print Assumptions batch_in_ball.
(** So the distances and gradients of every batch of any run are defined. *)
Theorem stays_in_ball : forall reg eps size bs X, 0 < eps < 1 -> INR size * eps < 2 * (1 - eps) ->
  Forall (in_ball size) X -> Forall (fun b => batch_ok X (snd b)) bs ->
  let X' := fold_left (fun Y b => update_vectors_batch (fst b) reg eps size Y (snd b)) bs X in length X' = length X /\ Forall (in_ball size) X'.
Proof.
  intros reg eps size bs. induction bs as [|[lr b] bs IH]; intros X P D F OK; [split; [reflexivity | exact F]|]. cbn [fold_left fst snd]. inversion OK as [|? ? Hb Hbs]; subst.
  assert (Len : length (update_vectors_batch lr reg eps size X b) = length X) by (unfold update_vectors_batch; rewrite !apply_length; reflexivity).
  destruct (IH (update_vectors_batch lr reg eps size X b) P D) as [A B0].
  - apply batch_in_ball; assumption.
  - eapply Forall_impl; [|exact Hbs]. intros [lr' b'] Hb'. cbn [snd] in *. unfold batch_ok in *. rewrite Len. exact Hb'.
  - split; [rewrite A; exact Len | exact B0].
Qed.
Print Assumptions stays_in_ball.
(** With the defaults (50 dimensions, epsilon 0.00001) the bound on the dimension holds; it allows up to 199997 dimensions. *)
Example defaults_fit : INR 50 * (1 / 100000) < 2 * (1 - 1 / 100000).
Proof. rewrite INR_IZR_INZ. cbn. lra. Qed.
(** With an epsilon of 0 nothing is subtracted, and a vector that left the ball ends up on its border, where the distance divides
    by zero. *)
Theorem clip_border_refuted : exists v, norm (clip_row 0 v) = 1 /\ 1 - norm (clip_row 0 v) ^ 2 = 0.
Proof.
  exists [2; 0]. assert (E : norm [2; 0] = 2). { unfold norm, sumsq. cbn [map]. unfold Rsum. cbn [fold_right]. replace (2 * 2 + (0 * 0 + 0)) with (2 ^ 2) by ring. apply sqrt_pow2. lra. }
  assert (C : clip_row 0 [2; 0] = [1; 0]).
  { unfold clip_row. rewrite E. destruct (Rlt_dec 2 (1 - 0)) as [H|H]; [lra|]. cbn [map lin]. f_equal; [field|]. f_equal. unfold sign. destruct (Rlt_dec 0 (0 * ((1 - 0) / 2))), (Rlt_dec (0 * ((1 - 0) / 2)) 0); lra. }
  rewrite C. assert (N1 : norm [1; 0] = 1). { unfold norm, sumsq. cbn [map]. unfold Rsum. cbn [fold_right]. replace (1 * 1 + (0 * 0 + 0)) with (1 ^ 2) by ring. apply sqrt_pow2. lra. }
  rewrite N1. split; [reflexivity | ring].
Qed.
Print Assumptions clip_border_refuted.
(** The bound on epsilon and the dimensions is needed: with 9/10 in one dimension, the subtraction goes past zero. *)
Theorem clip_dimensions_refuted : exists eps v, 0 < eps < 1 /\ 1 - eps < norm (clip_row eps v).
Proof.
  exists (9 / 10), [1]. split; [lra|]. assert (E : norm [1] = 1). { unfold norm, sumsq. cbn [map]. unfold Rsum. cbn [fold_right]. replace (1 * 1 + 0) with (1 ^ 2) by ring. apply sqrt_pow2. lra. }
  assert (C : clip_row (9 / 10) [1] = [- (8 / 10)]).
  { unfold clip_row. rewrite E. destruct (Rlt_dec 1 (1 - 9 / 10)) as [H|H]; [lra|]. cbn [map lin]. f_equal. unfold sign. destruct (Rlt_dec 0 (1 * ((1 - 9 / 10) / 1))); lra. }
  rewrite C. unfold norm, sumsq. cbn [map]. unfold Rsum. cbn [fold_right]. replace (- (8 / 10) * - (8 / 10) + 0) with ((8 / 10) ^ 2) by field. rewrite sqrt_pow2; lra.
Qed.
Print Assumptions clip_dimensions_refuted.
(** The version for a single vector scales to norm 1 instead of the threshold. *)
Theorem clip_single : forall eps v, 0 < eps < 1 -> INR (length v) * eps < 2 -> norm (clip_vector eps v) < 1.
Proof. intros eps v P D. now apply clip_vector_norm. Qed.
Print Assumptions clip_single.
Theorem clip_versions_refuted : exists eps v, clip_vector eps v <> clip_row eps v.
Proof.
  exists (1 / 10), [2]. assert (E : norm [2] = 2). { unfold norm, sumsq. cbn [map]. unfold Rsum. cbn [fold_right]. replace (2 * 2 + 0) with (2 ^ 2) by ring. apply sqrt_pow2. lra. }
  unfold clip_vector, clip_row. rewrite E. destruct (Rlt_dec 2 (1 - 1 / 10)) as [H|H]; [lra|]. cbn [map lin]. unfold sign. destruct (Rlt_dec 0 2), (Rlt_dec 0 (2 * ((1 - 1 / 10) / 2))); try lra. intros Q. injection Q. lra.
Qed.
Print Assumptions clip_versions_refuted.
