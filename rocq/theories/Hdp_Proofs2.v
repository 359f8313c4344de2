From Coq Require Import Reals Lra Lia FunctionalExtensionality Permutation.
From Verif Require Import Base MatReal_Model MatReal_Proofs Utils_Model LdaTrain_Model LdaTrain_Proofs2 Lsi_Model Lsi_Linear Hdp_Model Hdp_Spec Hdp_Proofs.
Local Open Scope R_scope.

(** an order: a permutation that puts the larger first *)
Definition order_ok (order : nat -> (nat -> R) -> nat -> nat) : Prop := forall n f,
  Permutation (map (order n f) (seq 0 n)) (seq 0 n) /\ forall i j, (i < j < n)%nat -> f (order n f j) <= f (order n f i).
Lemma order_sum : forall order n f g, order_ok order -> sumn n (fun t => g (order n f t)) = sumn n g.
Proof. intros order n f g H. unfold sumn. rewrite <- (map_map (order n f) g). apply Rsum_perm, Permutation_map. apply H. Qed.
Lemma order_lt : forall order n f k, order_ok order -> (k < n)%nat -> (order n f k < n)%nat.
Proof.
  intros order n f k H Hk. destruct (H n f) as [P _]. assert (I0 : In (order n f k) (seq 0 n)) by (apply (Permutation_in _ P), in_map, in_seq; lia). apply in_seq in I0. lia.
Qed.
Lemma order_inj : forall order n f i j, order_ok order -> (i < n)%nat -> (j < n)%nat -> order n f i = order n f j -> i = j.
Proof.
  intros order n f i j H Hi Hj E. destruct (H n f) as [P _].
  assert (ND : NoDup (map (order n f) (seq 0 n))) by (apply (Permutation_NoDup (Permutation_sym P)), seq_NoDup).
  apply (proj1 (NoDup_nth _ 0%nat) ND); rewrite ?map_length, ?seq_length; auto.
  rewrite !(nth_indep _ 0%nat (order n f 0%nat)) by (rewrite map_length, seq_length; auto). rewrite !map_nth, !seq_nth by auto. exact E.
Qed.
(** what is in strict order stays *)
Lemma order_id : forall order n f k, order_ok order -> (forall i j, (i < j < n)%nat -> f j < f i) -> (k < n)%nat -> order n f k = k.
Proof.
  intros order n f k H D Hk.
  assert (INC : forall i j, (i < j < n)%nat -> (order n f i < order n f j)%nat).
  { intros i j Hij. destruct (H n f) as [_ S0]. specialize (S0 i j Hij). pose proof (order_lt order n f i H ltac:(lia)). pose proof (order_lt order n f j H ltac:(lia)).
    destruct (Nat.lt_trichotomy (order n f i) (order n f j)) as [|[E|L]]; [auto | apply order_inj in E; auto; lia |]. specialize (D _ _ (conj L H0)). lra. }
  assert (GE : forall i, (i < n)%nat -> (i <= order n f i)%nat).
  { induction i as [|i IH]; intros Hi; [lia|]. specialize (INC i (S i) ltac:(lia)). specialize (IH ltac:(lia)). lia. }
  assert (LE : forall m i, (i + m = n - 1)%nat -> (i < n)%nat -> (order n f i <= i)%nat).
  { induction m as [|m IH]; intros i E Hi; [pose proof (order_lt order n f i H Hi); lia|]. specialize (INC i (S i) ltac:(lia)). specialize (IH (S i) ltac:(lia) ltac:(lia)). lia. }
  specialize (GE k Hk). specialize (LE (n - 1 - k)%nat k ltac:(lia) Hk). lia.
Qed.

Lemma sumn_const : forall n c, sumn n (fun _ => c) = INR n * c.
Proof. induction n as [|n IH]; intros c; [rewrite sumn_0; cbn; ring|]. rewrite sumn_S, IH, S_INR. ring. Qed.
Lemma Rsum_nth_gen : forall A (x0 : A) (F : A -> R) l, Rsum (map F l) = sumn (length l) (fun n => F (nth n l x0)).
Proof.
  intros A x0 F l. unfold sumn. f_equal. induction l as [|x l IH]; [reflexivity|]. cbn [map length seq nth]. f_equal. rewrite IH, <- seq_shift, map_map. reflexivity.
Qed.

(** ** Breaking the stick *)
Lemma stick_sum : forall s n, sumn n (fun i => s i * left_of s i) + left_of s n = 1.
Proof. intros s. induction n as [|n IH]; [rewrite sumn_0; cbn; ring|]. rewrite sumn_S. cbn [left_of]. lra. Qed.
Lemma left_nonneg : forall s n, (forall i, (i < n)%nat -> 0 <= s i <= 1) -> 0 <= left_of s n.
Proof. intros s. induction n as [|n IH]; intros H; cbn [left_of]; [lra|]. specialize (IH ltac:(intros; apply H; lia)). specialize (H n ltac:(lia)). nra. Qed.

Section Hdp.
Variable psi : R -> R.
Variable order : nat -> (nat -> R) -> nat -> nat.
Variable lik : doc -> mat -> mat -> mat -> R.
Variable o : opts.
Notation doc_step := (doc_e_step psi lik o).
Notation says_of := (chunk_says psi lik o).

(** ** Masses *)
Lemma sumn_swap2' : forall n m (F : nat -> nat -> R), sumn n (fun i => sumn m (F i)) = sumn m (fun j => sumn n (fun i => F i j)).
Proof. intros. apply sumn_swap2. Qed.
Lemma doc_mass : forall d vp phi w, (forall k, sumn (o_T o) (vp k) = 1) -> (forall n, sumn (o_K o) (phi n) = 1) -> sumn (o_T o) (fun t => doc_says o d vp phi t w) = count_in w d.
Proof.
  intros d vp phi w H1 H2. unfold doc_says. rewrite sumn_swap2'.
  assert (E : count_in w d = Rsum (map (fun wc => if (fst wc =? w)%nat then snd wc else 0) d)).
  { unfold count_in. clear. induction d as [|[w' c] d IH]; [reflexivity|]. cbn [map filter fst snd]. destruct (w' =? w)%nat; cbn [map snd]; rewrite !Rsum_cons, IH; ring. }
  rewrite E, (Rsum_nth_gen _ (0%nat, 0)). apply sumn_ext. intros n _. unfold word, count. destruct (Nat.eqb (fst (nth n d (0%nat, 0))) w); [|apply sumn_zero].
  rewrite sumn_scal_r, sumn_swap2'. rewrite (sumn_ext (o_K o) _ (phi n)); [rewrite H2; ring|]. intros k _. rewrite sumn_scal_r, H1. ring.
Qed.
Definition chunk_count (chunk : list doc) (w : nat) : R := Rsum (map (count_in w) chunk).
Definition full (d : doc) : bool := match d with [] => false | _ => true end.
Lemma says_spec : forall chunk elog s1, o_converge o < 1 -> exists m q, says_of chunk elog s1 = Some (m, q) /\
  (Forall (fun d => Forall (fun wc => 0 <= snd wc) d) chunk -> forall t w, 0 <= m t w) /\ (forall t, 0 <= q t) /\
  ((0 < o_T o)%nat -> (0 < o_K o)%nat -> (forall w, sumn (o_T o) (fun t => m t w) = chunk_count chunk w) /\ sumn (o_T o) q = INR (o_K o) * INR (length (filter full chunk))).
Proof.
  intros chunk elog s1 Hc. induction chunk as [|d chunk IH].
  - exists mzero, (fun _ => 0). split; [reflexivity|]. repeat split; intros; unfold mzero; try lra.
    + apply sumn_zero.
    + rewrite sumn_zero. cbn. ring.
  - destruct IH as [m [q [E [A [B C]]]]]. destruct d as [|wc d].
    + exists m, q. cbn [chunk_says]. split; [auto|]. split; [intros F; inversion F; auto|]. split; [auto|]. intros HT HK. destruct (C HT HK) as [C1 C2]. split; [|exact C2].
      intros w. rewrite C1. unfold chunk_count. cbn [map]. rewrite Rsum_cons. unfold count_in at 2. cbn. ring.
    + destruct (doc_step_some psi lik o (wc :: d) elog s1 Hc) as [[vp phi] [ED [S1 [S2 [S3 S4]]]]]. cbn [fst snd] in *.
      rewrite says_cons, ED, E. eexists _, _. split; [reflexivity|]. split; [|split].
      * intros F t w. inversion F as [|? ? F1 F2]; subst. specialize (A F2 t w). apply Rplus_le_le_0_compat; [|auto]. unfold doc_says. apply sumn_nonneg. intros n Hn.
        destruct (word (wc :: d) n =? w)%nat; [|lra]. apply Rmult_le_pos; [apply sumn_nonneg; intros; apply Rmult_le_pos; auto|]. unfold count. rewrite Forall_forall in F1. apply F1, nth_In. auto.
      * intros t. apply Rplus_le_le_0_compat; [apply sumn_nonneg; auto | auto].
      * intros HT HK. destruct (C HT HK) as [C1 C2]. split.
        -- intros w. rewrite sumn_plus, C1, (doc_mass (wc :: d) vp phi w) by auto. unfold chunk_count. cbn [map]. rewrite Rsum_cons. reflexivity.
        -- rewrite sumn_plus, C2, sumn_swap2'. rewrite (sumn_ext (o_K o) _ (fun _ => 1)) by (intros; apply S3; auto).
           cbn [filter full length]. rewrite S_INR. replace (sumn (o_K o) (fun _ => 1)) with (INR (o_K o)); [ring|].
           clear. induction (o_K o); [rewrite sumn_0; reflexivity|]. rewrite sumn_S, <- IHn, S_INR. reflexivity.
Qed.

(** ** Eager training *)
Definition rho_ok : Prop := forall ct, 0 <= rhot o ct < 1.
Lemma rhot_range : forall ct, 0 < o_scale o <= 1 -> 0 < o_tau o -> 0 < o_kappa o -> 0 < rhot o ct < 1.
Proof using o.
  clear psi order lik.
  intros ct Hs Ht Hk. unfold rhot. pose proof (pos_INR ct) as C0.
  assert (L : 0 < ln (o_tau o + 1 + INR ct)) by (apply Rle_lt_trans with (ln 1); [rewrite ln_1; lra | apply ln_increasing; lra]).
  assert (E : Rpower (o_tau o + 1 + INR ct) (- o_kappa o) < 1) by (unfold Rpower; apply Rlt_le_trans with (exp 0); [apply exp_increasing; pose proof (Rmult_lt_0_compat _ _ Hk L); lra | rewrite exp_0; lra]).
  assert (P : 0 < Rpower (o_tau o + 1 + INR ct) (- o_kappa o)) by (unfold Rpower; apply exp_pos).
  set (p := Rpower _ _) in *. clearbody p. destruct (Rlt_dec (o_scale o * p) 0); nra.
Qed.

Record Pos (e : eager) : Prop := {
  pos_lambda : forall t w, (w < o_W o)%nat -> 0 < o_eta o + e_lambda e t w;
  pos_varphi : forall t, 0 <= e_varphi e t;
  pos_a : forall t, 0 < fst (e_sticks e) t;
  pos_b : forall t, (t < o_T o - 1)%nat -> 0 < snd (e_sticks e) t }.
Lemma new_pos : forall draw, (forall t w, 0 < draw t w) -> (0 < o_D o)%nat -> (0 < o_T o)%nat -> Pos (new_eager o draw).
Proof using o.
  clear psi order lik.
  intros draw H HD HT. constructor; cbn.
  - intros t w Hw. assert (0 < INR (o_D o)) by (apply lt_0_INR; auto). assert (0 < INR (o_T o) * INR (o_W o)) by (apply Rmult_lt_0_compat; apply lt_0_INR; lia).
    assert (0 < draw t w * INR (o_D o) * 100 / (INR (o_T o) * INR (o_W o))); [|lra].
    apply Rmult_lt_0_compat; [|apply Rinv_0_lt_compat; auto]. specialize (H t w). apply Rmult_lt_0_compat; [apply Rmult_lt_0_compat; auto | lra].
  - intros; lra.
  - intros; lra.
  - intros t Ht. apply lt_0_INR. lia.
Qed.
Definition chunk_ok (c : list doc) : Prop := Forall (doc_ok (o_W o)) c.
Lemma chunk_counts : forall c, chunk_ok c -> Forall (fun d => Forall (fun wc : nat * R => 0 <= snd wc) d) c.
Proof. intros c H. eapply Forall_impl; [|exact H]. intros d [_ F]. eapply Forall_impl; [|exact F]. intros wc [_ ?]. auto. Qed.
Lemma div_size_nonneg : forall x n, 0 <= x -> 0 <= x / INR n.
Proof.
  intros x n H. unfold Rdiv. apply Rmult_le_pos; [auto|]. destruct n as [|n]; [cbn [INR]; rewrite Rinv_0; lra|]. apply Rlt_le, Rinv_0_lt_compat, lt_0_INR. lia.
Qed.
Lemma eager_chunk_pos : forall opt_o e c, o_converge o < 1 -> 0 <= rhot o (e_ct e) < 1 -> 0 < o_eta o -> 0 < o_gamma o -> chunk_ok c -> Pos e ->
  exists e', eager_chunk psi order lik o opt_o e c = Some e' /\ Pos e' /\ e_ct e' = S (e_ct e).
Proof.
  intros opt_o e c Hc Hr He Hg HC HP. unfold eager_chunk.
  destruct (says_spec c (e_elog psi o e) (expect_log_sticks psi (o_T o) (fst (e_sticks e)) (snd (e_sticks e))) Hc) as [m [q [-> [A [B _]]]]]. specialize (A (chunk_counts c HC)).
  eexists. split; [reflexivity|]. set (rho := rhot o (e_ct e)) in *. clearbody rho. pose proof (pos_INR (o_D o)) as D0.
  assert (V : forall t, 0 <= (1 - rho) * e_varphi e t + rho * (INR (o_D o) * q t / INR (length c))).
  { intros t. pose proof (pos_varphi e HP t). pose proof (div_size_nonneg (INR (o_D o) * q t) (length c) ltac:(apply Rmult_le_pos; auto)). nra. }
  split; [|reflexivity]. constructor; cbn [e_lambda e_varphi e_sticks top_sticks fst snd]; cbv zeta.
  - intros t w Hw. set (i := _ t). pose proof (pos_lambda e HP i w Hw). pose proof (div_size_nonneg (INR (o_D o) * m i w) (length c) ltac:(apply Rmult_le_pos; auto)). set (x := _ / _) in *. clearbody x. nra.
  - intros t. apply V.
  - intros t. specialize (V ((if opt_o then order (o_T o) (fun t0 => sumn (o_W o) (fun w => (1 - rho) * e_lambda e t0 w + rho * (INR (o_D o) * m t0 w / INR (length c)))) else fun t0 => t0) t)). lra.
  - intros t Ht. apply Rplus_le_lt_0_compat; [|auto]. apply sumn_nonneg. intros. apply V.
Qed.
Lemma eager_run_pos : forall opt_o chunks e, o_converge o < 1 -> rho_ok -> 0 < o_eta o -> 0 < o_gamma o -> Forall chunk_ok chunks -> Pos e ->
  exists e', eager_run psi order lik o opt_o e chunks = Some e' /\ Pos e' /\ e_ct e' = (e_ct e + length chunks)%nat.
Proof.
  intros opt_o chunks. induction chunks as [|c chunks IH]; intros e Hc Hr He Hg HC HP.
  - exists e. cbn. split; [auto | split; [auto | lia]].
  - inversion HC; subst. destruct (eager_chunk_pos opt_o e c Hc (Hr _) He Hg H1 HP) as [e1 [E1 [P1 C1]]]. destruct (IH e1 Hc Hr He Hg H2 P1) as [e2 [E2 [P2 C2]]].
    exists e2. cbn [eager_run length]. rewrite E1. split; [auto | split; [auto | lia]].
Qed.
Lemma eager_run_app : forall opt_o a b e, eager_run psi order lik o opt_o e (a ++ b) = match eager_run psi order lik o opt_o e a with Some e' => eager_run psi order lik o opt_o e' b | None => None end.
Proof. intros opt_o a. induction a as [|c a IH]; intros b e; cbn [app eager_run]; [reflexivity|]. destruct (eager_chunk _ _ _ _ _ _ _); auto. Qed.

(** ** Rounds *)
(** the number of chunks, counted from 1, after which the training ends in this round *)
Fixpoint stop_at (late : nat -> bool) (n docs : nat) (chunks : list (list doc)) : option nat :=
  match chunks with
  | [] => None
  | c :: rest => if update_finished o late (S n) (docs + length c) then Some 1%nat else option_map S (stop_at late (S n) (docs + length c) rest)
  end.
(** a finished model shows the state [e] *)
Definition Final (s : hdp) (e : eager) : Prop :=
  Rep o s e /\ (forall t w, (w < o_W o)%nat -> m_lambda s t w = e_lambda e t w /\ m_elog s t w = e_elog psi o e t w) /\ m_lda s = Some (hdp_to_lda o s).
Lemma count_docs_rep : forall n s e, Rep o s e -> Rep o (count_docs n s) e.
Proof. intros n s e [A B C D E F G]. constructor; auto. Qed.
Lemma with_lda_rep : forall s e, Rep o s e -> Rep o (with_lda o s) e.
Proof. intros s e [A B C D E F G]. constructor; auto. Qed.

Lemma chunk_pos_rep : forall s e c, o_converge o < 1 -> rho_ok -> 0 < o_eta o -> 0 < o_gamma o -> chunk_ok c -> Rep o s e -> Pos e ->
  exists s' e', update_chunk psi order lik o true s c = Some s' /\ eager_chunk psi order lik o true e c = Some e' /\ Rep o s' e' /\ Pos e' /\ m_docs s' = m_docs s.
Proof.
  intros s e c Hc Hr He Hg HC R0 HP. destruct (eager_chunk_pos true e c Hc (Hr _) He Hg HC HP) as [e' [E' [P' _]]].
  pose proof (chunk_rep psi lik o order true s e c R0 HC (Hr _)) as X. rewrite E' in X. destruct X as [s' [ES [RS DS]]]. exists s', e'. auto.
Qed.
Theorem pass_spec : forall late chunks n s e, o_converge o < 1 -> rho_ok -> 0 < o_eta o -> 0 < o_gamma o -> Forall chunk_ok chunks -> Rep o s e -> Pos e ->
  match stop_at late n (m_docs s) chunks with
  | Some k => exists s' e', pass psi order lik o late chunks n s = inl (Done s') /\ eager_run psi order lik o true e (firstn k chunks) = Some e' /\ Final s' e' /\ Pos e' /\
      m_docs s' = (m_docs s + length (concat (firstn k chunks)))%nat
  | None => exists s' e', pass psi order lik o late chunks n s = inr ((n + length chunks)%nat, s') /\ eager_run psi order lik o true e chunks = Some e' /\ Rep o s' e' /\ Pos e' /\
      m_docs s' = (m_docs s + length (concat chunks))%nat
  end.
Proof.
  intros late chunks. induction chunks as [|c chunks IH]; intros n s e Hc Hr He Hg HC R0 HP.
  - cbn [stop_at pass]. exists s, e. cbn. rewrite !Nat.add_0_r. auto.
  - inversion HC as [|? ? HC1 HC2]; subst. destruct (chunk_pos_rep s e c Hc Hr He Hg HC1 R0 HP) as [s1 [e1 [E1 [F1 [R1 [P1 D1]]]]]].
    cbn [stop_at pass]. rewrite E1. set (s2 := count_docs (length c) s1). assert (R2 : Rep o s2 e1) by (apply count_docs_rep; auto).
    assert (D2 : m_docs s2 = (m_docs s + length c)%nat) by (unfold s2; cbn; lia). rewrite <- D2.
    destruct (expectations_rep psi o s2 e1 R2) as [s3 [E3 [R3 [D3 [L3 T3]]]]].
    destruct (update_finished o late (S n) (m_docs s2)).
    + rewrite E3. exists (with_lda o s3), e1. cbn [firstn eager_run concat]. rewrite F1, app_nil_r. split; [auto|]. split; [auto|]. split; [|split; [auto | cbn; lia]].
      split; [apply with_lda_rep; auto|]. split; [exact L3 | reflexivity].
    + assert (GO : forall s', Rep o s' e1 -> m_docs s' = m_docs s2 ->
        match option_map S (stop_at late (S n) (m_docs s2) chunks) with
        | Some k => exists s'' e', pass psi order lik o late chunks (S n) s' = inl (Done s'') /\ eager_run psi order lik o true e (firstn k (c :: chunks)) = Some e' /\ Final s'' e' /\ Pos e' /\
            m_docs s'' = (m_docs s + length (concat (firstn k (c :: chunks))))%nat
        | None => exists s'' e', pass psi order lik o late chunks (S n) s' = inr ((n + length (c :: chunks))%nat, s'') /\ eager_run psi order lik o true e (c :: chunks) = Some e' /\ Rep o s'' e' /\ Pos e' /\
            m_docs s'' = (m_docs s + length (concat (c :: chunks)))%nat
        end).
      { intros s' R' D'. specialize (IH (S n) s' e1 Hc Hr He Hg HC2 R' P1). rewrite D' in IH. destruct (stop_at late (S n) (m_docs s2) chunks) as [k|]; cbn [option_map].
        - destruct IH as [s'' [e' [A [B [C [D E]]]]]]. exists s'', e'. cbn [firstn eager_run concat]. rewrite F1, app_length. split; [auto | split; [auto | split; [auto | split; [auto | lia]]]].
        - destruct IH as [s'' [e' [A [B [C [D E]]]]]]. exists s'', e'. cbn [eager_run concat length]. rewrite F1, app_length. rewrite A. replace (n + S (length chunks))%nat with (S n + length chunks)%nat by lia.
          split; [auto | split; [auto | split; [auto | split; [auto | lia]]]]. }
      destruct (Nat.modulo (S n) (save_freq o) =? 0)%nat; [rewrite E3; apply GO; auto | apply GO; auto].
Qed.
End Hdp.
