From Coq Require Import Reals Lra Lia FunctionalExtensionality Permutation.
From Verif Require Import Base MatReal_Model MatReal_Proofs Utils_Model LdaTrain_Model LdaTrain_Proofs2 Lsi_Model Lsi_Linear Hdp_Model Hdp_Spec.
Local Open Scope R_scope.

(** ** Normalizing logarithms *)
Lemma log_normalize_sum : forall n v, (0 < n)%nat -> sumn n (fun i => exp (log_normalize n v i)) = 1.
Proof.
  intros n v Hn. unfold log_normalize. set (sh := 100 - ln (INR n + 1) - maxn n v). set (tot := sumn n (fun i => exp (v i + sh))).
  assert (TP : 0 < tot) by (apply sumn_pos; auto; intros; apply exp_pos).
  rewrite (sumn_ext n _ (fun i => exp (v i + sh) * / tot)).
  - rewrite sumn_scal_r. fold tot. field. lra.
  - intros i _. replace (v i - (ln tot - sh)) with ((v i + sh) + - ln tot) by ring. rewrite exp_plus, exp_Ropp, exp_ln by auto. reflexivity.
Qed.

(** ** Words of a chunk *)
Lemma memb_nat : forall (w : nat) l, memb w l = true <-> In w l.
Proof. intros. apply memb_true. Qed.
Lemma word_list_fold : forall (ws l : list nat), NoDup l -> NoDup (fold_left (fun l w => if memb w l then l else l ++ [w]) ws l) /\
  (forall w, In w (fold_left (fun l w => if memb w l then l else l ++ [w]) ws l) <-> In w l \/ In w ws).
Proof.
  induction ws as [|x ws IH]; intros l ND; cbn [fold_left]; [split; [auto | intros; cbn [In]; tauto]|].
  destruct (memb x l) eqn:M.
  - destruct (IH l ND) as [A B]. split; [auto|]. intros w. rewrite B. cbn [In]. apply memb_nat in M. intuition (subst; auto).
  - assert (ND' : NoDup (l ++ [x])).
    { apply (Permutation_NoDup (Permutation_cons_append l x)). constructor; auto. intros H. apply memb_nat in H. congruence. }
    destruct (IH _ ND') as [A B]. split; [auto|]. intros w. rewrite B, in_app_iff. cbn [In]. tauto.
Qed.
Lemma word_list_NoDup : forall chunk, NoDup (word_list chunk).
Proof. intros. apply word_list_fold. constructor. Qed.
Lemma word_list_In : forall chunk w, In w (word_list chunk) <-> exists d, In d chunk /\ In w (map fst d).
Proof.
  intros chunk w. unfold word_list. rewrite (proj2 (word_list_fold (concat (map (map fst) chunk)) [] (NoDup_nil _))). rewrite in_concat. split.
  - intros [[]|[x [Hx Hw]]]. apply in_map_iff in Hx. destruct Hx as [d [<- Hd]]. eauto.
  - intros [d [Hd Hw]]. right. exists (map fst d). split; [apply in_map; auto | auto].
Qed.
Lemma index_of_Some : forall w l j, index_of w l = Some j -> (j < length l)%nat /\ nth j l 0%nat = w.
Proof.
  intros w l. induction l as [|x l IH]; intros j E; [discriminate E|]. cbn [index_of] in E. destruct (Nat.eqb_spec x w) as [->|NE].
  - injection E as <-. cbn. split; [lia | auto].
  - destruct (index_of w l) as [i|]; [|discriminate E]. injection E as <-. destruct (IH i eq_refl). cbn. split; [lia | auto].
Qed.
Lemma index_of_None : forall w l, index_of w l = None <-> ~ In w l.
Proof.
  intros w l. induction l as [|x l IH]; cbn [index_of In]; [tauto|]. destruct (Nat.eqb_spec x w) as [->|NE]; [split; [discriminate | tauto]|].
  destruct (index_of w l) as [k|]; cbn [option_map]; split; try discriminate.
  - intros H. exfalso. assert (A : Some k = None) by (apply IH; tauto). discriminate A.
  - intros _ [E|E]; [auto | revert E; apply IH; auto].
  - auto.
Qed.
Lemma index_of_nth : forall l j, NoDup l -> (j < length l)%nat -> index_of (nth j l 0%nat) l = Some j.
Proof.
  induction l as [|x l IH]; intros j ND Hj; [cbn in Hj; lia|]. inversion ND; subst. destruct j as [|j]; cbn [nth index_of].
  - rewrite Nat.eqb_refl. reflexivity.
  - cbn in Hj. destruct (Nat.eqb_spec x (nth j l 0%nat)) as [E|]; [exfalso; subst x; apply H1, nth_In; lia|]. rewrite IH by (auto; lia). reflexivity.
Qed.

Lemma Rsum_zeros : forall (l : list nat), Rsum (map (fun _ => 0) l) = 0.
Proof. induction l; cbn [map]; rewrite ?Rsum_cons, ?IHl; cbn; ring. Qed.
(** a sum over all words is one over those that count *)
Lemma sum_support : forall n f l, NoDup l -> (forall w, In w l -> (w < n)%nat) -> (forall w, (w < n)%nat -> ~ In w l -> f w = 0) -> sumn n f = Rsum (map f l).
Proof.
  intros n f l ND HI H0.
  rewrite (sumn_ext n f (fun w => Rsum (map (fun x => f x * delta w x) l))).
  - rewrite (sumn_swap nat n (fun w x => f x * delta w x)). apply Rsum_ext. intros x Hx.
    apply (sumn_delta n x (fun _ => f x)). auto.
  - intros w Hw. destruct (in_dec Nat.eq_dec w l) as [I0|NI].
    + clear H0 HI. induction l as [|x l IH]; [destruct I0|]. inversion ND; subst. cbn [map]. rewrite Rsum_cons. destruct I0 as [->|I0].
      * unfold delta at 1. rewrite Nat.eqb_refl. rewrite (Rsum_ext _ (fun _ => 0)).
        -- rewrite Rsum_zeros. ring.
        -- intros y Hy. unfold delta. destruct (Nat.eqb_spec w y); [subst; contradiction | ring].
      * rewrite <- IH by auto. unfold delta. destruct (Nat.eqb_spec w x); [subst; contradiction | ring].
    + rewrite (H0 w Hw NI). symmetry. rewrite (Rsum_ext _ (fun _ => 0)).
      * apply Rsum_zeros.
      * intros y Hy. unfold delta. destruct (Nat.eqb_spec w y); [subst; contradiction | ring].
Qed.
Lemma Rsum_nth : forall (f : nat -> R) l, Rsum (map f l) = sumn (length l) (fun j => f (nth j l 0%nat)).
Proof.
  intros f l. unfold sumn. f_equal. induction l as [|x l IH]; [reflexivity|]. cbn [map length seq nth]. f_equal. rewrite IH, <- seq_shift, map_map. reflexivity.
Qed.

Section Hdp.
Variable psi : R -> R.
Variable lik : doc -> mat -> mat -> mat -> R.
Variable o : opts.
Notation doc_step := (doc_e_step psi lik o).
Notation says_of := (chunk_says psi lik o).

(** ** One document *)
Lemma elog_doc_ext : forall d elog elog', (forall t w, In w (map fst d) -> elog t w = elog' t w) -> elog_doc d elog = elog_doc d elog'.
Proof.
  intros d elog elog' H. apply functional_extensionality. intros t. apply functional_extensionality. intros n. unfold elog_doc.
  destruct (Nat.ltb_spec n (length d)); [|reflexivity]. apply H. unfold word. apply in_map, nth_In. auto.
Qed.
Lemma doc_step_ext : forall d elog elog' s1, (forall t w, In w (map fst d) -> elog t w = elog' t w) -> doc_step d elog s1 = doc_step d elog' s1.
Proof. intros d elog elog' s1 H. unfold doc_e_step. rewrite (elog_doc_ext d elog elog' H). reflexivity. Qed.

Definition stochastic (d : doc) (x : mat * mat) : Prop :=
  (forall k t, 0 <= fst x k t) /\ (forall n k, 0 <= snd x n k) /\ (forall k, (0 < o_T o)%nat -> sumn (o_T o) (fst x k) = 1) /\ (forall n, (0 < o_K o)%nat -> sumn (o_K o) (snd x n) = 1).
Lemma e_loop_stochastic : forall d el s1 fuel it phi s2 last old conv x, (forall y, last = Some y -> stochastic d y) ->
  e_loop psi lik o d el s1 fuel it phi s2 last old conv = Some x -> stochastic d x.
Proof.
  intros d el s1 fuel. induction fuel as [|fuel IH]; intros it phi s2 last old conv x HL E; cbn [e_loop] in E; [auto|].
  destruct (if Rlt_dec conv 0 then true else _); [|auto]. apply IH in E; [auto|]. intros y EY. injection EY as <-.
  unfold stochastic. cbn [fst snd]. repeat split.
  - intros. unfold var_phi_of. apply Rlt_le, exp_pos.
  - intros. unfold phi_of. apply Rlt_le, exp_pos.
  - intros k HT. unfold var_phi_of. apply log_normalize_sum. auto.
  - intros n HK. unfold phi_of. apply log_normalize_sum. auto.
Qed.
Lemma e_loop_some : forall d el s1 fuel it phi s2 last old conv, last <> None -> e_loop psi lik o d el s1 fuel it phi s2 last old conv <> None.
Proof.
  intros d el s1 fuel. induction fuel as [|fuel IH]; intros it phi s2 last old conv HL; cbn [e_loop]; [auto|].
  destruct (if Rlt_dec conv 0 then true else _); [|auto]. apply IH. discriminate.
Qed.
Lemma e_loop_entered : forall d el s1 fuel it phi s2 last old, (0 < fuel)%nat -> o_converge o < 1 -> e_loop psi lik o d el s1 fuel it phi s2 last old 1 <> None.
Proof.
  intros d el s1 [|fuel] it phi s2 last old Hf Hc; [lia|]. cbn [e_loop]. destruct (Rlt_dec 1 0); [lra|]. destruct (Rlt_dec (o_converge o) 1); [|lra]. apply e_loop_some. discriminate.
Qed.
Lemma doc_step_eq : forall d elog s1, doc_step d elog s1 = e_loop psi lik o d (elog_doc d elog) s1 e_rounds 0 (fun _ _ => 1 / INR (o_K o)) (fun _ => 0) None (- Rpower 10 200) 1.
Proof. reflexivity. Qed.
Lemma doc_step_stochastic : forall d elog s1 x, doc_step d elog s1 = Some x -> stochastic d x.
Proof.
  intros d elog s1 x. rewrite doc_step_eq. generalize e_rounds. intros fuel. apply e_loop_stochastic. discriminate.
Qed.
Lemma doc_step_entered : forall d elog s1, o_converge o < 1 -> doc_step d elog s1 <> None.
Proof. intros d elog s1 Hc. rewrite doc_step_eq. apply e_loop_entered; [unfold e_rounds; lia | auto]. Qed.
Lemma doc_step_some : forall d elog s1, o_converge o < 1 -> exists x, doc_step d elog s1 = Some x /\ stochastic d x.
Proof.
  intros d elog s1 Hc. pose proof (doc_step_entered d elog s1 Hc) as N0. destruct (doc_step d elog s1) as [x|] eqn:E; [|congruence].
  exists x. split; [auto | eapply doc_step_stochastic; exact E].
Qed.

(** ** Statistics of a chunk *)
Lemma last_at_spec : forall j ids, (forall n n', nth_error ids n = Some (Some j) -> nth_error ids n' = Some (Some j) -> n = n') ->
  match last_at j ids with Some n => nth_error ids n = Some (Some j) | None => forall n, nth_error ids n <> Some (Some j) end.
Proof using Type.
  clear psi lik o.
  intros j ids. induction ids as [|i ids IH]; intros U; cbn [last_at]; [intros [|n]; discriminate|].
  assert (U' : forall n n', nth_error ids n = Some (Some j) -> nth_error ids n' = Some (Some j) -> n = n') by (intros n n' A B; assert (S n = S n') by (apply U; auto); lia).
  specialize (IH U'). destruct (last_at j ids) as [n|]; [exact IH|].
  destruct i as [i'|]; [destruct (Nat.eqb_spec i' j) as [->|NE]|].
  - reflexivity.
  - intros [|n]; cbn; [congruence | apply IH].
  - intros [|n]; cbn; [discriminate | apply IH].
Qed.
Lemma doc_says_at : forall d vp phi t w n, NoDup (map fst d) -> (n < length d)%nat -> word d n = w -> doc_says o d vp phi t w = sumn (o_K o) (fun k => vp k t * phi n k) * count d n.
Proof using o.
  clear psi lik.
  intros d vp phi t w n ND Hn Hw. unfold doc_says.
  rewrite (sumn_ext (length d) _ (fun n' => (sumn (o_K o) (fun k => vp k t * phi n' k) * count d n') * delta n' n)).
  - apply (sumn_delta (length d) n (fun n' => sumn (o_K o) (fun k => vp k t * phi n' k) * count d n')). auto.
  - intros n' Hn'. unfold delta. destruct (Nat.eqb_spec n' n) as [->|NE]; [rewrite Hw, Nat.eqb_refl; ring|].
    destruct (Nat.eqb_spec (word d n') w) as [E|]; [|ring]. exfalso. apply NE. subst w.
    apply (proj1 (NoDup_nth (map fst d) 0%nat) ND n' n); rewrite ?map_length; auto. change 0%nat with (fst (0%nat, 0)). rewrite !map_nth. exact E.
Qed.
Lemma doc_says_0 : forall d vp phi t w, ~ In w (map fst d) -> doc_says o d vp phi t w = 0.
Proof using o.
  clear psi lik.
  intros d vp phi t w NI. unfold doc_says. apply sumn_all0. intros n Hn. destruct (Nat.eqb_spec (word d n) w) as [E|]; [|reflexivity]. exfalso. apply NI. subst w. unfold word. apply in_map, nth_In. auto.
Qed.
Lemma add_doc_spec : forall words d vp phi ss t w j, NoDup (map fst d) -> NoDup words -> index_of w words = Some j ->
  snd (add_doc o words d vp phi ss) t j = snd ss t j + doc_says o d vp phi t w.
Proof using o.
  clear psi lik.
  intros words d vp phi ss t w j ND NW E. unfold add_doc. cbn [snd]. set (ids := map (fun wc => index_of (fst wc) words) d).
  assert (AT : forall n, nth_error ids n = Some (Some j) <-> (n < length d)%nat /\ word d n = w).
  { intros n. unfold ids. split.
    - intros H. assert (Hn : (n < length d)%nat) by (rewrite <- (map_length (fun wc => index_of (fst wc) words) d); apply nth_error_Some; congruence). split; [auto|].
      rewrite (map_nth_error _ _ _ (nth_error_nth' d (0%nat, 0) Hn)) in H. injection H as H. apply index_of_Some in H. apply index_of_Some in E. unfold word. destruct H, E. congruence.
    - intros [Hn Hw]. rewrite (map_nth_error _ _ _ (nth_error_nth' d (0%nat, 0) Hn)). unfold word in Hw. rewrite Hw, E. reflexivity. }
  pose proof (last_at_spec j ids) as LS. destruct (last_at j ids) as [n|].
  - assert (A : nth_error ids n = Some (Some j)).
    { apply LS. intros a b A B. apply AT in A. apply AT in B. destruct A as [A1 A2], B as [B1 B2].
      apply (proj1 (NoDup_nth (map fst d) 0%nat) ND a b); rewrite ?map_length; auto. change 0%nat with (fst (0%nat, 0)). rewrite !map_nth. unfold word in *. congruence. }
    apply AT in A. destruct A as [Hn Hw]. rewrite (doc_says_at d vp phi t w n ND Hn Hw). f_equal. rewrite <- sumn_scal_r. apply sumn_ext. intros; ring.
  - rewrite doc_says_0; [ring|]. intros I0. apply (In_nth _ _ 0%nat) in I0. destruct I0 as [n [Hn Hw]]. rewrite map_length in Hn.
    change 0%nat with (fst (0%nat, 0)) in Hw. rewrite map_nth in Hw. apply (LS ltac:(intros a b A B; apply AT in A; apply AT in B; destruct A as [A1 A2], B as [B1 B2];
      apply (proj1 (NoDup_nth (map fst d) 0%nat) ND a b); rewrite ?map_length; auto; change 0%nat with (fst (0%nat, 0)); rewrite !map_nth; unfold word in *; congruence) n).
    apply AT. split; auto.
Qed.

Lemma says_cons : forall wc d chunk elog s1, says_of ((wc :: d) :: chunk) elog s1 = match doc_step (wc :: d) elog s1, says_of chunk elog s1 with
  | Some (vp, phi), Some (m, q) => Some ((fun t w => doc_says o (wc :: d) vp phi t w + m t w), fun t => sumn (o_K o) (fun k => vp k t) + q t) | _, _ => None end.
Proof. reflexivity. Qed.
Lemma stats_cons : forall words elog s1 wc d chunk ss, stats_of psi lik o words elog s1 ((wc :: d) :: chunk) ss =
  match doc_step (wc :: d) elog s1 with Some (vp, phi) => stats_of psi lik o words elog s1 chunk (add_doc o words (wc :: d) vp phi ss) | None => None end.
Proof. reflexivity. Qed.
Lemma stats_spec : forall words elog elog' s1 chunk ss, NoDup words -> Forall (fun d => NoDup (map fst d)) chunk ->
  (forall t w d, In d chunk -> In w (map fst d) -> elog t w = elog' t w) ->
  match chunk_says psi lik o chunk elog' s1 with
  | None => stats_of psi lik o words elog s1 chunk ss = None
  | Some (m, q) => exists ss', stats_of psi lik o words elog s1 chunk ss = Some ss' /\ (forall t, fst ss' t = fst ss t + q t) /\
      (forall t w j, index_of w words = Some j -> snd ss' t j = snd ss t j + m t w)
  end.
Proof.
  intros words elog elog' s1 chunk. induction chunk as [|d chunk IH]; intros ss NW ND HE.
  - cbn [chunk_says stats_of]. exists ss. split; [auto|]. split; intros; unfold mzero; ring.
  - inversion ND as [|? ? Nd ND']; subst. assert (HE' : forall t w d, In d chunk -> In w (map fst d) -> elog t w = elog' t w) by (intros t w d' I1; apply HE; right; auto).
    destruct d as [|wc d]; [cbn [chunk_says stats_of]; apply IH; auto|].
    assert (ED : doc_step (wc :: d) elog s1 = doc_step (wc :: d) elog' s1) by (apply doc_step_ext; intros t w I1; apply (HE t w (wc :: d)); auto; left; reflexivity).
    rewrite says_cons, stats_cons, ED. destruct (doc_step (wc :: d) elog' s1) as [[vp phi]|]; [|reflexivity].
    specialize (IH (add_doc o words (wc :: d) vp phi ss) NW ND' HE'). destruct (chunk_says psi lik o chunk elog' s1) as [[m q]|]; [|exact IH].
    destruct IH as [ss' [E [A B]]]. exists ss'. split; [auto|]. split.
    + intros t. rewrite A. cbn [add_doc fst]. ring.
    + intros t w j Ej. rewrite (B t w j Ej), (add_doc_spec words (wc :: d) vp phi ss t w j Nd NW Ej). ring.
Qed.

(** ** Lazy and eager *)
Definition all_some (l : list (option R)) : Prop := Forall (fun x => x <> None) l.
Definition eff (s : hdp) (t w : nat) : R := m_lambda s t w * factor_or_0 (m_r s) (m_time s w).
Record Rep (s : hdp) (e : eager) : Prop := {
  rep_lambda : forall t w, (w < o_W o)%nat -> e_lambda e t w = eff s t w;
  rep_sum : forall t, m_lambda_sum s t = e_sum o e t;
  rep_varphi : m_varphi s = e_varphi e;
  rep_sticks : m_sticks s = e_sticks e;
  rep_ct : m_ct s = e_ct e;
  rep_r : length (m_r s) = S (m_ct s) /\ all_some (m_r s);
  rep_time : forall w, (w < o_W o)%nat -> (m_time s w <= m_ct s)%nat }.

Lemma factor_some : forall rs t, all_some rs -> (t < length rs)%nat -> exists x y, last rs None = Some x /\ nth t rs None = Some y /\ factor rs t = Some (exp (x - y)) /\ factor_or_0 rs t = exp (x - y).
Proof using Type.
  clear psi lik o.
  intros rs t H Ht. assert (A : nth t rs None <> None) by (apply (proj1 (Forall_forall _ _) H), nth_In; auto).
  assert (B : last rs None <> None). { destruct rs as [|r rs]; [cbn in Ht; lia|]. apply (proj1 (Forall_forall _ _) H). destruct (exists_last (l := r :: rs) ltac:(discriminate)) as [l' [x ->]]. rewrite last_last. apply in_or_app. right. left. auto. }
  unfold factor_or_0, factor. destruct (last rs None) as [x|]; [|congruence]. destruct (nth t rs None) as [y|]; [|congruence]. exists x, y. auto.
Qed.

Lemma refresh_rep : forall words s e, Rep s e -> (forall w, In w words -> (w < o_W o)%nat) ->
  exists s1, refresh psi o words s = Some s1 /\
  (forall t w, In w words -> m_lambda s1 t w = e_lambda e t w /\ m_elog s1 t w = e_elog psi o e t w) /\
  (forall t w, ~ In w words -> m_lambda s1 t w = m_lambda s t w) /\
  m_lambda_sum s1 = m_lambda_sum s /\ m_sticks s1 = m_sticks s /\ m_varphi s1 = m_varphi s /\ m_ct s1 = m_ct s /\ m_time s1 = m_time s /\ m_r s1 = m_r s /\ m_docs s1 = m_docs s.
Proof using psi o.
  clear lik.
  intros words s e R0 HW. destruct (rep_r s e R0) as [RL RS]. unfold refresh.
  assert (F : forallb (fun w => is_some (factor (m_r s) (m_time s w))) words = true).
  { apply forallb_forall. intros w I0. destruct (factor_some (m_r s) (m_time s w) RS) as [x [y [_ [_ [-> _]]]]]; [|reflexivity]. pose proof (rep_time s e R0 w (HW w I0)). lia. }
  rewrite F. eexists. split; [reflexivity|]. cbn [m_lambda m_elog m_lambda_sum m_sticks m_varphi m_ct m_time m_r m_docs]. repeat split; auto.
  - apply memb_nat in H. rewrite H. apply memb_nat in H. rewrite (rep_lambda s e R0 t w (HW w H)). reflexivity.
  - assert (M : memb w words = true) by (apply memb_nat; auto). rewrite !M. unfold e_elog. rewrite (rep_lambda s e R0 t w (HW w H)), (rep_sum s e R0). reflexivity.
  - intros t w NI. destruct (memb w words) eqn:M; [apply memb_nat in M; contradiction | reflexivity].
Qed.

Lemma says_0 : forall chunk elog s1 m q t w, (forall d, In d chunk -> ~ In w (map fst d)) -> says_of chunk elog s1 = Some (m, q) -> m t w = 0.
Proof.
  induction chunk as [|d chunk IH]; intros elog s1 m q t w NI E.
  - cbn in E. injection E as <- <-. reflexivity.
  - destruct d as [|wc d]; [cbn [chunk_says] in E; eapply IH; eauto; intros d I0; apply NI; right; auto|].
    rewrite says_cons in E.
    destruct (doc_step (wc :: d) elog s1) as [[vp phi]|]; [|discriminate E]. destruct (says_of chunk elog s1) as [[m' q']|] eqn:E'; [|discriminate E]. injection E as <- <-.
    rewrite doc_says_0 by (apply NI; left; auto). rewrite (IH elog s1 m' q' t w); auto; [ring|]. intros d' I0. apply NI. right. auto.
Qed.

Theorem chunk_rep : forall order opt_o s e chunk, Rep s e -> Forall (doc_ok (o_W o)) chunk -> 0 <= rhot o (m_ct s) < 1 ->
  match eager_chunk psi order lik o opt_o e chunk with
  | Some e' => exists s', update_chunk psi order lik o opt_o s chunk = Some s' /\ Rep s' e' /\ m_docs s' = m_docs s
  | None => update_chunk psi order lik o opt_o s chunk = None
  end.
Proof.
  intros order opt_o s e chunk R0 HD Hrho. set (words := word_list chunk).
  assert (NW : NoDup words) by apply word_list_NoDup.
  assert (WI : forall w, In w words <-> exists d, In d chunk /\ In w (map fst d)) by (intros; apply word_list_In).
  assert (WB : forall w, In w words -> (w < o_W o)%nat).
  { intros w I0. apply WI in I0. destruct I0 as [d [Hd Hw]]. rewrite Forall_forall in HD. destruct (HD d Hd) as [_ F]. apply in_map_iff in Hw. destruct Hw as [wc [<- Hwc]]. rewrite Forall_forall in F. apply F; auto. }
  assert (NDs : Forall (fun d => NoDup (map fst d)) chunk) by (eapply Forall_impl; [|exact HD]; intros d [A _]; exact A).
  destruct (refresh_rep words s e R0 WB) as [s1 [ER [RL [RO [ES [EK [EV [EC [ET [EM ED]]]]]]]]]].
  unfold update_chunk. fold words. rewrite ER. unfold eager_chunk. rewrite EK, (rep_sticks s e R0).
  set (st := expect_log_sticks psi (o_T o) (fst (e_sticks e)) (snd (e_sticks e))).
  pose proof (stats_spec words (m_elog s1) (e_elog psi o e) st chunk ((fun _ => 0), mzero) NW NDs) as SS.
  assert (HE : forall t w d, In d chunk -> In w (map fst d) -> m_elog s1 t w = e_elog psi o e t w) by (intros t w d Hd Hw; apply RL; apply WI; eauto).
  specialize (SS HE). destruct (says_of chunk (e_elog psi o e) st) as [[says q]|] eqn:EQ; [|rewrite SS; reflexivity].
  destruct SS as [ss [EST [SA SB]]]. rewrite EST. unfold update_lambda. rewrite EC, (rep_ct s e R0). set (rho := rhot o (e_ct e)) in *. rewrite (rep_ct s e R0) in Hrho. fold rho in Hrho.
  unfold next_r. destruct (Rlt_dec (1 - rho) 0); [lra|]. destruct (Req_EM_T (1 - rho) 0); [lra|]. rewrite EM.
  destruct (rep_r s e R0) as [LR AR]. destruct (factor_some (m_r s) 0 AR ltac:(lia)) as [x [y [EX _]]]. rewrite EX.
  cbn [fst snd] in SA, SB.
  (* the sums *)
  assert (SUMS : forall t, (1 - rho) * m_lambda_sum s1 t + rho * INR (o_D o) * sumn (length words) (snd ss t) / INR (length chunk) =
     sumn (o_W o) (fun w => (1 - rho) * e_lambda e t w + rho * (INR (o_D o) * says t w / INR (length chunk)))).
  { intros t. rewrite sumn_plus, sumn_scal, ES, (rep_sum s e R0). unfold e_sum. f_equal.
    rewrite (sumn_ext (o_W o) _ (fun w => (rho * INR (o_D o) / INR (length chunk)) * says t w)) by (intros; unfold Rdiv; ring). rewrite sumn_scal.
    rewrite (sum_support (o_W o) (says t) words NW WB).
    - rewrite Rsum_nth. rewrite (sumn_ext (length words) (snd ss t) (fun j => says t (nth j words 0%nat))).
      + unfold Rdiv. ring.
      + intros j Hj. rewrite (SB t (nth j words 0%nat) j (index_of_nth words j NW Hj)). unfold mzero. ring.
    - intros w _ NI. eapply says_0; [|exact EQ]. intros d Hd Hw. apply NI, WI. eauto. }
  set (sums := fun t => (1 - rho) * m_lambda_sum s1 t + rho * INR (o_D o) * sumn (length words) (snd ss t) / INR (length chunk)) in *.
  set (lam_e := fun t w => (1 - rho) * e_lambda e t w + rho * (INR (o_D o) * says t w / INR (length chunk))) in *.
  assert (SF : sums = fun t => sumn (o_W o) (lam_e t)) by (apply functional_extensionality; exact SUMS).
  assert (VF : (fun t => (1 - rho) * m_varphi s1 t + rho * fst ss t * INR (o_D o) / INR (length chunk)) = (fun t => (1 - rho) * e_varphi e t + rho * (INR (o_D o) * q t / INR (length chunk)))).
  { apply functional_extensionality. intros t. rewrite EV, (rep_varphi s e R0), SA. unfold Rdiv. ring. }
  set (vph := fun t => (1 - rho) * m_varphi s1 t + rho * fst ss t * INR (o_D o) / INR (length chunk)) in *.
  set (vph_e := fun t => (1 - rho) * e_varphi e t + rho * (INR (o_D o) * q t / INR (length chunk))) in *.
  set (idx := if opt_o then order (o_T o) sums else fun t => t).
  set (idx_e := if opt_o then order (o_T o) (fun t => sumn (o_W o) (lam_e t)) else fun t => t).
  assert (EI : idx_e = idx) by (unfold idx, idx_e; rewrite SF; reflexivity).
  set (lam := fun t w => match index_of w words with Some j => m_lambda s1 t w * (1 - rho) + rho * INR (o_D o) * snd ss t j / INR (length chunk) | None => m_lambda s1 t w end).
  exists (mkHdp (fun t => lam (idx t)) (fun t => sums (idx t)) (fun t => m_elog s1 (idx t)) (top_sticks o (fun t => vph (idx t))) (fun t => vph (idx t))
     (S (e_ct e)) (fun w => if memb w words then S (e_ct e) else m_time s1 w) (m_r s ++ [Some (x + ln (1 - rho))]) (m_docs s1) (m_lda s1)).
  split; [reflexivity|].
  match goal with |- Rep ?a _ /\ ?b => change (Rep a (mkEager (fun t => lam_e (idx_e t)) (fun t => vph_e (idx_e t)) (top_sticks o (fun t => vph_e (idx_e t))) (S (e_ct e))) /\ b) end.
  rewrite EI, <- VF. unfold lam.
  split; [|cbn [m_docs]; auto]. rewrite ET.
  constructor; cbn [m_lambda m_lambda_sum m_varphi m_sticks m_ct m_r m_time e_lambda e_varphi e_sticks e_ct]; auto.
  - intros t w Hw. unfold eff. cbn [m_lambda m_r m_time].
    assert (LR' : length (m_r s ++ [Some (x + ln (1 - rho))]) = S (S (e_ct e))) by (rewrite app_length; cbn [length]; rewrite LR, (rep_ct s e R0); lia).
    destruct (index_of w words) as [j|] eqn:EJ.
    + assert (IN : In w words) by (destruct (in_dec Nat.eq_dec w words) as [|N1]; auto; exfalso; apply index_of_None in N1; congruence).
      rewrite (proj2 (memb_nat w words) IN). unfold factor_or_0, factor. rewrite last_last. rewrite app_nth2 by (rewrite LR, (rep_ct s e R0); lia).
      replace (S (e_ct e) - length (m_r s))%nat with 0%nat by (rewrite LR, (rep_ct s e R0); lia). cbn [nth]. replace (x + ln (1 - rho) - (x + ln (1 - rho))) with 0 by ring. rewrite exp_0, Rmult_1_r.
      rewrite (proj1 (RL (idx t) w IN)). rewrite (SB (idx t) w j EJ). unfold lam_e, mzero, Rdiv. ring.
    + apply index_of_None in EJ. assert (MB : memb w words = false) by (destruct (memb w words) eqn:M; [apply memb_nat in M; contradiction | reflexivity]). rewrite MB.
      rewrite (RO (idx t) w EJ). unfold lam_e. rewrite (says_0 chunk (e_elog psi o e) st says q (idx t) w (fun d Hd Hw' => EJ (proj2 (WI w) (ex_intro _ d (conj Hd Hw')))) EQ).
      rewrite (rep_lambda s e R0 (idx t) w Hw). unfold eff.
      destruct (factor_some (m_r s) (m_time s w) AR) as [x' [y' [EX' [EY' [_ EF]]]]]; [pose proof (rep_time s e R0 w Hw); rewrite LR; lia|].
      rewrite EX in EX'. injection EX' as <-. rewrite EF. unfold factor_or_0, factor. rewrite last_last. rewrite app_nth1 by (pose proof (rep_time s e R0 w Hw); rewrite LR; lia). rewrite EY'.
      replace (x + ln (1 - rho) - y') with ((x - y') + ln (1 - rho)) by ring. rewrite exp_plus, exp_ln by lra. unfold Rdiv. ring.
  - intros t. unfold e_sum. cbn [e_lambda]. rewrite SF. reflexivity.
  - split.
    + rewrite app_length. cbn [length]. rewrite LR, (rep_ct s e R0). lia.
    + apply Forall_app. split; [auto|]. constructor; [discriminate | constructor].
  - intros w Hw. destruct (memb w words); [lia|]. pose proof (rep_time s e R0 w Hw). rewrite (rep_ct s e R0) in H. lia.
Qed.

Theorem expectations_rep : forall s e, Rep s e -> exists s', update_expectations psi o s = Some s' /\ Rep s' e /\ m_docs s' = m_docs s /\
  (forall t w, (w < o_W o)%nat -> m_lambda s' t w = e_lambda e t w /\ m_elog s' t w = e_elog psi o e t w) /\ (forall w, m_time s' w = m_ct s').
Proof using psi o.
  clear lik.
  intros s e R0. destruct (refresh_rep (seq 0 (o_W o)) s e R0) as [s1 [ER [RL [_ [ES [EK [EV [EC [ET [EM ED]]]]]]]]]]; [intros w Hw; apply in_seq in Hw; lia|].
  unfold update_expectations. rewrite ER. eexists. split; [reflexivity|]. cbn [m_docs m_lambda m_elog m_time m_ct]. split; [|split; [auto | split; [|auto]]].
  - destruct (rep_r s e R0) as [LR AR].
    constructor; cbn [m_lambda m_lambda_sum m_varphi m_sticks m_ct m_r m_time]; rewrite ?ES, ?EV, ?EK, ?EC, ?EM; try (apply (rep_sum s e R0)); try (apply (rep_varphi s e R0)); try (apply (rep_sticks s e R0)); try (apply (rep_ct s e R0)); auto.
    intros t w Hw. unfold eff. cbn [m_lambda m_r m_time]. assert (IW : In w (seq 0 (o_W o))) by (apply in_seq; lia). rewrite (proj1 (RL t w IW)).
    destruct (factor_some (m_r s) (m_ct s) AR ltac:(lia)) as [x [y [EX [EY [_ EF]]]]]. rewrite EF.
    assert (x = y). { assert (Some x = Some y); [|congruence]. rewrite <- EX, <- EY. destruct (exists_last (l := m_r s)) as [l' [z E]]; [destruct (m_r s); [cbn in LR; lia | discriminate]|].
      rewrite E in *. rewrite last_last. rewrite app_length in LR. cbn in LR. rewrite app_nth2 by lia. replace (m_ct s - length l')%nat with 0%nat by lia. reflexivity. }
    subst y. replace (x - x) with 0 by ring. rewrite exp_0. ring.
  - intros t w Hw. apply RL. apply in_seq. lia.
Qed.

Lemma new_rep : forall draw, Rep (new_hdp psi o draw) (new_eager o draw).
Proof using psi o.
  clear lik.
  intros draw. constructor; cbn; auto.
  - intros t w _. unfold eff. cbn. rewrite Rminus_0_r, exp_0. ring.
  - split; [auto|]. constructor; [discriminate | constructor].
Qed.
End Hdp.
