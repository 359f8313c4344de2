(** Proofs about Huffman trees. *)

From Coq Require Import Permutation.
From Verif Require Import Base Huffman_Model Huffman_Spec.
From Coq Require Import ZifyBool ZifyNat.
Local Open Scope nat_scope.

(** ** Kraft's inequality *)
Lemma sum_app : forall l l', sum (l ++ l') = sum l + sum l'.
Proof. induction l as [|x l IH]; intros; cbn; [reflexivity|]. rewrite IH. lia. Qed.
Lemma sum_perm : forall l l', Permutation l l' -> sum l = sum l'.
Proof. induction 1; cbn; lia. Qed.
Lemma kraft_scale : forall k M ls, Forall (fun l => l <= M) ls -> kraft (k + M) ls = 2 ^ k * kraft M ls.
Proof.
  intros k M ls H. induction H as [|l ls H _ IH]; unfold kraft in *; cbn; [lia|].
  rewrite IH. replace (k + M - l) with (k + (M - l)) by lia. rewrite Nat.pow_add_r. lia.
Qed.

Definition tails (b : bool) (cs : list (list bool)) : list (list bool) :=
  flat_map (fun c => match c with [] => [] | x :: r => if Bool.eqb x b then [r] else [] end) cs.

(** Prefix-freeness on lists, convenient for induction. *)
Inductive pfree : list (list bool) -> Prop :=
| pf_nil : pfree []
| pf_cons : forall c cs, Forall (fun c' => ~ (exists s, c' = c ++ s) /\ ~ (exists s, c = c' ++ s)) cs -> pfree cs -> pfree (c :: cs).
Lemma pfree_tails : forall b cs, pfree cs -> pfree (tails b cs).
Proof.
  intros b cs H. induction H as [|c cs Hc H IH]; [constructor|]. cbn [tails flat_map]. fold (tails b cs).
  destruct c as [|x r]; [exact IH|]. destruct (Bool.eqb x b) eqn:E; [|exact IH]. cbn [app]. constructor; [|exact IH].
  apply Forall_forall. intros t Ht. apply in_flat_map in Ht. destruct Ht as (c' & Hi & Ht). rewrite Forall_forall in Hc. specialize (Hc c' Hi).
  destruct c' as [|y t']; [destruct Ht|]. destruct (Bool.eqb y b) eqn:E'; [|destruct Ht]. destruct Ht as [<-|[]].
  apply Bool.eqb_prop in E, E'. subst x y. destruct Hc as [H1 H2]. split; intros [s ->]; [apply H1 | apply H2]; exists s; reflexivity.
Qed.
Lemma kraft_tails : forall M cs, ~ In [] cs ->
  kraft (S M) (map (@length bool) cs) = kraft M (map (@length bool) (tails true cs)) + kraft M (map (@length bool) (tails false cs)).
Proof.
  intros M cs H. induction cs as [|c cs IH]; [reflexivity|]. cbn [tails flat_map]. fold (tails true cs) (tails false cs).
  destruct c as [|x r]; [exfalso; apply H; left; reflexivity|]. specialize (IH (fun X => H (or_intror X))).
  unfold kraft in *. cbn [map sum length]. rewrite IH. cbn [Nat.sub].
  destruct x; cbn [Bool.eqb app map sum]; lia.
Qed.
Lemma tails_length : forall b M cs, Forall (fun c => length c <= S M) cs -> Forall (fun c => length c <= M) (tails b cs).
Proof.
  intros b M cs H. apply Forall_forall. intros t Ht. apply in_flat_map in Ht. destruct Ht as (c & Hc & Ht). rewrite Forall_forall in H. specialize (H c Hc).
  destruct c as [|x r]; [destruct Ht|]. destruct (Bool.eqb x b); [|destruct Ht]. destruct Ht as [<-|[]]. cbn in H. lia.
Qed.
Lemma pfree_empty : forall cs, pfree cs -> In [] cs -> cs = [[]].
Proof.
  intros cs H. induction H as [|c cs Hc H IH]; [intros []|]. intros [->|Hi].
  - destruct cs as [|c' cs]; [reflexivity|]. inversion Hc; subst. exfalso. apply (proj1 H2). exists c'. reflexivity.
  - rewrite Forall_forall in Hc. exfalso. apply (proj2 (Hc [] Hi)). exists c. reflexivity.
Qed.
Lemma kraft_le : forall M cs, pfree cs -> Forall (fun c => length c <= M) cs -> kraft M (map (@length bool) cs) <= 2 ^ M.
Proof.
  induction M as [|M IH]; intros cs P L.
  - destruct cs as [|c cs]; [cbn; lia|]. inversion L; subst. assert (c = []) by (destruct c; [reflexivity | cbn in H1; lia]). subst c.
    rewrite (pfree_empty _ P (or_introl eq_refl)). cbn. lia.
  - destruct (in_dec (list_eq_dec Bool.bool_dec) [] cs) as [Hi|Hn].
    + rewrite (pfree_empty _ P Hi). unfold kraft. cbn [map length sum Nat.sub]. lia.
    + rewrite (kraft_tails M cs Hn). pose proof (IH _ (pfree_tails true cs P) (tails_length true M cs L)). pose proof (IH _ (pfree_tails false cs P) (tails_length false M cs L)).
      cbn [Nat.pow]. lia.
Qed.
Lemma prefix_free_pfree : forall cs, prefix_free cs <-> pfree cs.
Proof.
  split.
  - induction cs as [|c cs IH]; intros H; [constructor|]. constructor.
    + apply Forall_forall. intros c' Hc'. apply In_nth_error in Hc'. destruct Hc' as [j Hj].
      split; intros X; [specialize (H 0 (S j) c c' eq_refl Hj X) | specialize (H (S j) 0 c' c Hj eq_refl X)]; discriminate.
    + apply IH. intros i j x y Hx Hy E. specialize (H (S i) (S j) x y Hx Hy E). congruence.
  - induction 1 as [|c cs Hc H IH]; intros i j x y Hx Hy E; [destruct i; discriminate|]. rewrite Forall_forall in Hc.
    destruct i as [|i], j as [|j]; cbn in Hx, Hy; [reflexivity | | |].
    + injection Hx as <-. exfalso. apply (proj1 (Hc y (nth_error_In _ _ Hy)) E).
    + injection Hy as <-. exfalso. apply (proj2 (Hc x (nth_error_In _ _ Hx)) E).
    + f_equal. apply (IH i j x y); assumption.
Qed.

(** ** Optimality: merging the two lightest items loses nothing *)
Definition weight_cost (ps : list (nat * nat)) : nat := sum (map (fun p => fst p * snd p) ps).
Definition feasible (ps : list (nat * nat)) : Prop :=
  exists M, Forall (fun p => snd p <= M) ps /\ kraft M (map snd ps) <= 2 ^ M.
Lemma kraft_perm : forall M l l', Permutation l l' -> kraft M l = kraft M l'.
Proof. intros. apply sum_perm, Permutation_map. assumption. Qed.
Lemma feasible_perm : forall ps qs, Permutation ps qs -> feasible ps -> feasible qs.
Proof.
  intros ps qs P (M & H & K). exists M. split; [|rewrite <- (kraft_perm M (map snd ps)) by (apply Permutation_map; exact P); exact K].
  rewrite Forall_forall in *. intros p Hp. apply H. apply Permutation_sym in P. eapply Permutation_in; eassumption.
Qed.
Lemma weight_cost_perm : forall ps qs, Permutation ps qs -> weight_cost ps = weight_cost qs.
Proof. intros. apply sum_perm, Permutation_map. assumption. Qed.

Definition lmax (ps : list (nat * nat)) : nat := fold_right Nat.max 0 (map snd ps).
Lemma lmax_le : forall ps, Forall (fun p => snd p <= lmax ps) ps.
Proof.
  induction ps as [|p ps IH]; [constructor|]. unfold lmax in *; cbn [map fold_right]. constructor; [lia|]. eapply Forall_impl; [|exact IH]. cbv beta. intros; lia.
Qed.
Lemma lmax_least : forall M ps, Forall (fun p => snd p <= M) ps -> lmax ps <= M.
Proof. intros M ps H. induction H; unfold lmax in *; cbn [map fold_right]; lia. Qed.
Lemma lmax_in : forall ps, ps <> [] -> exists p, In p ps /\ snd p = lmax ps.
Proof.
  induction ps as [|p ps IH]; [congruence|]. intros _. unfold lmax in *; cbn [map fold_right].
  destruct ps as [|q ps]; [exists p; split; [left; reflexivity | cbn; lia]|].
  destruct IH as (r & Hr & Er); [discriminate|]. destruct (Nat.le_gt_cases (snd p) (fold_right Nat.max 0 (map snd (q :: ps)))).
  - exists r. split; [right; exact Hr | lia].
  - exists p. split; [left; reflexivity | lia].
Qed.
Lemma feasible_max : forall ps, feasible ps -> kraft (lmax ps) (map snd ps) <= 2 ^ lmax ps.
Proof.
  intros ps (M & H & K). pose proof (lmax_least M ps H) as L.
  assert (E : M = (M - lmax ps) + lmax ps) by lia. rewrite E in K at 1. rewrite kraft_scale in K.
  - rewrite E in K at 2. rewrite Nat.pow_add_r in K. assert (0 < 2 ^ (M - lmax ps)) by (apply Nat.neq_0_lt_0, Nat.pow_nonzero; lia). nia.
  - rewrite Forall_map. apply lmax_le.
Qed.

(** How many items are as deep as possible. *)
Lemma kraft_parity : forall M (ps : list (nat * nat)), M <> 0 -> Forall (fun p => snd p <= M) ps -> exists q, kraft M (map snd ps) = 2 * q + length (filter (fun p => snd p =? M) ps).
Proof.
  intros M ps D H. induction H as [|p ps H _ [q IH]]; [exists 0; reflexivity|]. unfold kraft in *. cbn [map sum filter]. rewrite IH.
  destruct (snd p =? M) eqn:E.
  - apply Nat.eqb_eq in E. rewrite E, Nat.sub_diag. exists q. cbn. lia.
  - apply Nat.eqb_neq in E. exists (q + 2 ^ (M - snd p - 1)). replace (M - snd p) with (S (M - snd p - 1)) at 1 by lia. cbn [Nat.pow]. lia.
Qed.

Lemma In_perm : forall {X} (x : X) l, In x l -> exists l', Permutation l (x :: l').
Proof. intros X x l H. apply in_split in H. destruct H as (l1 & l2 & ->). exists (l1 ++ l2). symmetry. apply Permutation_middle. Qed.

(** An item as light as any other can be moved to any of the lengths in use that is the largest. *)
Lemma swap_max : forall a ps ws, Permutation (map fst ps) (a :: ws) -> Forall (fun w => a <= w) ws ->
  forall l, In l (map snd ps) -> Forall (fun p => snd p <= l) ps ->
  exists qs, Permutation (map fst qs) ws /\ Permutation (map snd ps) (l :: map snd qs) /\ weight_cost ((a, l) :: qs) <= weight_cost ps.
Proof.
  intros a ps ws P A l Hl Hm. apply in_map_iff in Hl. destruct Hl as ((w & l') & E & Hp). cbn in E. subst l'.
  assert (Ha : In a (map fst ps)) by (apply Permutation_sym in P; eapply Permutation_in; [exact P | left; reflexivity]).
  apply in_map_iff in Ha. destruct Ha as ((a' & la) & E & Hq). cbn in E. subst a'.
  destruct (In_perm _ _ Hp) as [ps1 P1].
  assert (Hq1 : In (a, la) ((w, l) :: ps1)) by (eapply Permutation_in; eassumption). destruct Hq1 as [E|Hq1].
  - injection E as -> ->. exists ps1. split; [|split].
    + apply (Permutation_cons_inv (a := a)). rewrite <- P. rewrite P1. reflexivity.
    + rewrite P1. reflexivity.
    + rewrite (weight_cost_perm _ _ P1). reflexivity.
  - destruct (In_perm _ _ Hq1) as [ps2 P2]. assert (P3 : Permutation ps ((w, l) :: (a, la) :: ps2)) by (rewrite P1, P2; reflexivity).
    exists ((w, la) :: ps2). split; [|split].
    + apply (Permutation_cons_inv (a := a)). rewrite <- P, P3. cbn [map fst]. apply perm_swap.
    + rewrite P3. reflexivity.
    + rewrite (weight_cost_perm _ _ P3). unfold weight_cost. cbn [map fst snd sum].
      assert (a <= w).
      { assert (Hw : In w (a :: ws)) by (eapply Permutation_in; [exact P | apply in_map_iff; exists (w, l); auto]). destruct Hw as [->|Hw]; [lia|]. rewrite Forall_forall in A. apply A. exact Hw. }
      assert (la <= l) by (rewrite Forall_forall in Hm; apply (Hm (a, la)); assumption). nia.
Qed.

Lemma snd_le : forall M (ps : list (nat * nat)), Forall (fun p => snd p <= M) ps <-> (forall l, In l (map snd ps) -> l <= M).
Proof.
  intros M ps. rewrite Forall_forall. split; [intros H l Hl; apply in_map_iff in Hl; destruct Hl as (p & <- & Hp); auto|].
  intros H p Hp. apply H, in_map, Hp.
Qed.
Lemma feasible_lengths : forall ps qs, Permutation (map snd ps) (map snd qs) -> feasible ps -> feasible qs.
Proof.
  intros ps qs P (M & H & K). exists M. split; [|rewrite <- (kraft_perm M _ _ P); exact K].
  rewrite snd_le in *. intros l Hl. apply H. apply Permutation_sym in P. eapply Permutation_in; eassumption.
Qed.

Lemma merge_feasible : forall k ps a b ws, sum (map snd ps) <= k -> Permutation (map fst ps) (a :: b :: ws) ->
  Forall (fun w => a <= w) (b :: ws) -> Forall (fun w => b <= w) ws -> feasible ps ->
  exists qs, Permutation (map fst qs) ((a + b) :: ws) /\ feasible qs /\ weight_cost qs + (a + b) <= weight_cost ps.
Proof.
  induction k as [k IH] using lt_wf_ind. intros ps a b ws Hk P A B F.
  pose proof (feasible_max ps F) as K. set (M := lmax ps) in *. pose proof (lmax_le ps) as Hm. fold M in Hm.
  assert (Ne : ps <> []) by (intros ->; apply Permutation_nil in P; discriminate).
  destruct (lmax_in ps Ne) as (p0 & Hp0 & E0). fold M in E0.
  assert (M0 : M <> 0).
  { intros E. rewrite E in *. assert (length ps = S (S (length ws))) by (apply Permutation_length in P; rewrite map_length in P; exact P).
    assert (Kc : kraft 0 (map snd ps) = length ps).
    { clear. induction ps as [|p ps IH]; [reflexivity|]. unfold kraft in *. cbn [map sum length]. rewrite IH. reflexivity. }
    cbn [Nat.pow] in K. lia. }
  assert (Inl : In M (map snd ps)) by (rewrite <- E0; apply in_map; exact Hp0).
  destruct (swap_max a ps (b :: ws) P A M Inl Hm) as (qs & Pq & Pl & Cq).
  assert (Fq : feasible ((a, M) :: qs)) by (apply (feasible_lengths ps); [exact Pl | exact F]).
  assert (Hq : Forall (fun p => snd p <= M) qs).
  { rewrite snd_le in *. intros l Hl. apply Hm. apply Permutation_sym in Pl. eapply Permutation_in; [exact Pl | right; exact Hl]. }
  destruct (in_dec Nat.eq_dec M (map snd qs)) as [Hi|Hn].
  - destruct (swap_max b qs ws Pq B M Hi Hq) as (rs & Pr & Pl' & Cr).
    exists ((a + b, M - 1) :: rs). split; [cbn; constructor; exact Pr|]. split.
    + exists M. split; [constructor; [cbn; lia|]|].
      * rewrite snd_le in *. intros l Hl. apply Hq. apply Permutation_sym in Pl'. eapply Permutation_in; [exact Pl' | right; exact Hl].
      * rewrite (kraft_perm M _ _ Pl) in K. rewrite (kraft_perm M _ (M :: M :: map snd rs)) in K by (constructor; exact Pl').
        unfold kraft in *. cbn [map sum snd] in *. rewrite Nat.sub_diag in K. replace (M - (M - 1)) with 1 by lia. cbn [Nat.pow] in *. lia.
    + unfold weight_cost in *. cbn [map fst snd sum] in *. nia.
  - (* the deepest item has no sibling: it can be shortened *)
    assert (Sm : sum (map snd ((a, M - 1) :: qs)) < sum (map snd ps)).
    { rewrite (sum_perm _ _ Pl). cbn [map snd sum]. lia. }
    assert (Fs : feasible ((a, M - 1) :: qs)).
    { exists M. split; [constructor; [cbn; lia | exact Hq]|]. cbn [map snd].
      rewrite (kraft_perm M _ _ Pl) in K. destruct (kraft_parity M qs M0 Hq) as [q Eq].
      assert (Fz : filter (fun p => snd p =? M) qs = []).
      { destruct (filter (fun p => snd p =? M) qs) as [|y l] eqn:Ef; [reflexivity|]. exfalso. apply Hn.
        assert (Hy : In y (filter (fun p => snd p =? M) qs)) by (rewrite Ef; left; reflexivity). apply filter_In in Hy. destruct Hy as [Hy Ey]. apply Nat.eqb_eq in Ey. rewrite <- Ey. apply in_map. exact Hy. }
      rewrite Fz in Eq. cbn [length] in Eq. unfold kraft in *. cbn [map sum snd] in *. rewrite Eq in *.
      rewrite Nat.sub_diag in K. replace (M - (M - 1)) with 1 by lia. destruct M as [|M']; [congruence|]. cbn [Nat.pow] in *. lia. }
    destruct (IH (sum (map snd ((a, M - 1) :: qs))) ltac:(lia) _ a b ws (le_n _) ltac:(cbn; constructor; exact Pq) A B Fs) as (rs & R1 & R2 & R3).
    exists rs. split; [exact R1|]. split; [exact R2|].
    unfold weight_cost in *. cbn [map fst snd sum] in *. nia.
Qed.
