(** Unit length of normed vectors, over the real numbers (property C37). *)

From Coq Require Import Reals Lra.
From Verif Require Import Base Str MatReal_Model MatReal_Proofs KeyedVectors_Model KeyedVectors_Spec KeyedVectors_Proofs KeyedVectors_Properties.
Local Open Scope R_scope.

(** The Euclidean norm and division as numpy computes them, without rounding. *)
Definition rnorm (v : list R) : R := sqrt (sumsq v).
Definition rdivide (v : list R) (n : R) : list R := map (fun x => x / n) v.

Lemma sumsq_div : forall v n, n <> 0 -> sumsq (rdivide v n) = sumsq v / (n * n).
Proof.
  intros v n N. induction v as [|x v IH]; [unfold sumsq, rdivide; cbn; field; exact N|].
  change (sumsq (rdivide (x :: v) n)) with (x / n * (x / n) + sumsq (rdivide v n)). rewrite IH.
  change (sumsq (x :: v)) with (x * x + sumsq v). field. exact N.
Qed.
Lemma sumsq_pos : forall v, (exists x, In x v /\ x <> 0) -> 0 < sumsq v.
Proof.
  assert (C : forall x v, sumsq (x :: v) = x * x + sumsq v) by reflexivity.
  assert (N : forall v, 0 <= sumsq v).
  { induction v as [|x v IH]; [unfold sumsq; cbn; lra|]. rewrite C. pose proof (Rle_0_sqr x) as H. unfold Rsqr in H. lra. }
  induction v as [|y v IH]; intros (x & Hi & Hx); [destruct Hi|]. specialize (N v). rewrite C.
  destruct Hi as [->|Hi].
  - assert (0 < x * x) by (apply Rsqr_pos_lt in Hx; exact Hx). lra.
  - assert (0 < sumsq v) by (apply IH; eauto). pose proof (Rle_0_sqr y) as H1. unfold Rsqr in H1. lra.
Qed.

(** As long as the norms are current, the normed vector of every key has length 1 (unless the vector is zero). *)
Theorem kv_norm_unit : forall zero count ops, Forall well_shaped ops -> cache_of ops <> Stale ->
  forall k v, snd (content count ops) k = Some v -> (exists x, In x v /\ x <> 0) ->
  exists u, fst (get_vector rnorm rdivide (run zero rnorm rdivide count ops) (KStr k) true) = Ok u /\
            rnorm u = 1 /\ u = map (fun x => x / sqrt (sumsq v)) v.
Proof.
  intros zero count ops W NS k v E NZ. exists (rdivide v (rnorm v)). split.
  { rewrite (kv_norm_fresh zero rnorm rdivide count ops W NS k), E. reflexivity. }
  split; [|reflexivity]. pose proof (sumsq_pos v NZ) as P. pose proof (sqrt_lt_R0 _ P) as Q.
  unfold rnorm. rewrite sumsq_div by (unfold rnorm; lra). rewrite sqrt_sqrt by lra. unfold Rdiv. rewrite Rinv_r by lra. apply sqrt_1.
Qed.
Print Assumptions kv_norm_unit.

Example kv_norm_unit_ex : exists u,
  fst (get_vector rnorm rdivide (run [0; 0] rnorm rdivide 0 [AddOne (str "a") [3; 4]; Normed (str "a")]) (KStr (str "a")) true) = Ok u /\ rnorm u = 1.
Proof.
  destruct (kv_norm_unit [0; 0] 0 [AddOne (str "a") [3; 4]; Normed (str "a")]) with (k := str "a") (v := [3; 4]) as (u & A & B & _); eauto.
  - repeat constructor.
  - discriminate.
  - exists 3. split; [left; reflexivity | lra].
Qed.
