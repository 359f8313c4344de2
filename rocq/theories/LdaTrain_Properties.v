(** C84: training an LDA model on one machine. *)
From Coq Require Import Reals Lra.
From Verif Require Import Base MatReal_Model MatReal_Proofs Utils_Model LdaTrain_Model LdaTrain_Proofs LdaTrain_Proofs2.
From Coq Require Import Permutation ZifyBool ZifyNat.
Local Open Scope R_scope.

(** ** Which documents go into which M step *)
(** The history [m_steps] lists for every M step its pass, its rho and the documents whose statistics it blends in.  Every pass
    cuts the corpus into batches of [chunksize * update_every] documents, in order (one batch, if [update_every] is 0), and the
    weight of a batch follows the number of documents trained on before. *)
Theorem update_batches : forall K V eps edir draw na ne a corpus m, (0 < a_chunksize a)%nat -> corpus <> [] -> forallb (in_vocab V) corpus = true ->
  exists m' bss, update K V eps edir draw na ne a corpus (length corpus) m = Ok m' /\ m_steps m' = m_steps m ++ concat bss /\ length bss = a_passes a /\
    (forall i bs, nth_error bss i = Some bs ->
       batches (if (a_update_every a =? 0)%nat then length corpus else a_chunksize a * a_update_every a)%nat corpus (map snd bs) /\
       paced a i (m_updates m + if (0 <? i)%nat then length corpus else 0) bs) /\
    m_updates m' = (m_updates m + if (0 <? a_passes a)%nat then length corpus else 0)%nat /\
    numdocs (m_state m') = (numdocs (m_state m) + length corpus)%nat.
Proof.
  intros K V eps edir draw na ne a corpus m Hn Hne Hv. unfold update. replace (length corpus =? 0)%nat with false by (destruct corpus; [contradiction | reflexivity]).
  destruct (passes_ok K V eps edir draw na ne a corpus Hn Hne Hv (a_passes a) 0 (add_docs m (length corpus))) as (m' & bss & E & S1 & S2 & S3 & S4 & S5).
  exists m', bss. split; [exact E|]. split; [exact S1|]. split; [exact S2|]. split; [intros i bs Hi; destruct (S3 i bs Hi) as [A B]; split; [exact A | exact B]|]. split; [exact S4 | exact S5].
Qed.
Print Assumptions update_batches.

(** The documents of all batches of a pass are the corpus, each document once. *)
Theorem update_every_document : forall K V eps edir draw na ne a corpus m m', (0 < a_chunksize a)%nat -> corpus <> [] -> forallb (in_vocab V) corpus = true ->
  update K V eps edir draw na ne a corpus (length corpus) m = Ok m' -> forall p, (p < a_passes a)%nat ->
  concat (map snd (filter (fun b => (fst (fst b) =? p)%nat) (skipn (length (m_steps m)) (m_steps m')))) = corpus.
Proof.
  intros K V eps edir draw na ne a corpus m m' Hn Hne Hv E p Hp. destruct (update_batches K V eps edir draw na ne a corpus m Hn Hne Hv) as (m1 & bss & E1 & S1 & S2 & S3 & _). rewrite E in E1. injection E1 as <-. rewrite S1, skipn_app, skipn_all, Nat.sub_diag. cbn [skipn app].
  assert (Pc : forall bs i u, paced a i u bs -> forall b, In b bs -> fst (fst b) = i).
  { induction bs as [|[[q r] x] bs IH]; intros i u P b Hb; [destruct Hb|]. destruct P as (P1 & _ & P3). destruct Hb as [<-|Hb]; [exact P1 | exact (IH _ _ P3 b Hb)]. }
  assert (G : forall (bss : list (list (nat * R * list doc))) q, (forall i bs, nth_error bss i = Some bs -> (forall b, In b bs -> fst (fst b) = (q + i)%nat) /\ concat (map snd bs) = corpus) -> (q <= p < q + length bss)%nat ->
    concat (map snd (filter (fun b => (fst (fst b) =? p)%nat) (concat bss))) = corpus).
  { clear - Hne. induction bss as [|bs bss IH]; intros q H Hq; [cbn in Hq; lia|]. cbn [concat]. rewrite filter_app, map_app, concat_app. destruct (H O bs eq_refl) as [H1 H2].
    assert (H' : forall i bs0, nth_error bss i = Some bs0 -> (forall b, In b bs0 -> fst (fst b) = (S q + i)%nat) /\ concat (map snd bs0) = corpus). { intros i bs0 Hi. destruct (H (S i) bs0 Hi) as [A B]. split; [|exact B]. intros b Hb. rewrite (A b Hb). lia. }
    destruct (Nat.eq_dec p q) as [->|D].
    - replace (filter (fun b => (fst (fst b) =? q)%nat) bs) with bs.
      + rewrite H2. replace (filter (fun b => (fst (fst b) =? q)%nat) (concat bss)) with (@nil (nat * R * list doc)); [cbn; apply app_nil_r|]. symmetry. assert (X : forall b, In b (concat bss) -> (fst (fst b) =? q)%nat = false).
        { intros b Hb. apply in_concat in Hb. destruct Hb as (bs0 & Hin & Hb). apply In_nth_error in Hin. destruct Hin as [i Hi]. rewrite (proj1 (H' i bs0 Hi) b Hb). lia. }
        clear - X. induction (concat bss) as [|b l IHl]; [reflexivity|]. cbn [filter]. rewrite (X b (or_introl eq_refl)). apply IHl. intros b' Hb'. apply X. right. exact Hb'.
      + symmetry. clear - H1. induction bs as [|b l IHl]; [reflexivity|]. cbn [filter]. rewrite (H1 b (or_introl eq_refl)). replace (q + 0 =? q)%nat with true by lia. f_equal. apply IHl. intros b' Hb'. apply H1. right. exact Hb'.
    - replace (filter (fun b => (fst (fst b) =? p)%nat) bs) with (@nil (nat * R * list doc)).
      + cbn [map concat app]. apply (IH (S q)); [exact H' | cbn [length] in Hq; lia].
      + symmetry. clear - H1 D. induction bs as [|b l IHl]; [reflexivity|]. cbn [filter]. rewrite (H1 b (or_introl eq_refl)). replace (q + 0 =? p)%nat with false by lia. apply IHl. intros b' Hb'. apply H1. right. exact Hb'. }
  apply (G bss 0%nat); [|lia]. intros i bs Hi. destruct (S3 i bs Hi) as [B P]. split; [exact (Pc _ _ _ P) | exact (proj1 B)].
Qed.
Print Assumptions update_every_document.

Definition d1 : doc := [(0%nat, 1)]. Definition d2 : doc := [(1%nat, 2)]. Definition d3 : doc := [(0%nat, 1); (1%nat, 1)].
Definition start : lda := Lda fresh (fun _ _ => 1) (fun _ => 1) (fun _ _ => 1) (fun _ _ => 1) 0 0 false false 5 (1/1000) [].
Definition setting (chunksize passes update_every : nat) : settings := Settings chunksize (1/2) 1 passes update_every 0 5 (1/1000).
Definition history (r : result lda) : result (list (list doc) * nat) := let* m := r in Ok (map snd (m_steps m), m_updates m).
Example update_batches_ex : history (update 2 2 0 (fun _ _ _ => 1) (fun _ _ => 1) (fun a _ => a) (fun e _ => e) (setting 2 2 1) [d1; d2; d3] 3 start) = Ok ([[d1; d2]; [d3]; [d1; d2]; [d3]], 3%nat).
Proof. lazy. reflexivity. Qed.
Example update_batches_batch_ex : history (update 2 2 0 (fun _ _ _ => 1) (fun _ _ => 1) (fun a _ => a) (fun e _ => e) (setting 2 2 0) [d1; d2; d3] 3 start) = Ok ([[d1; d2; d3]; [d1; d2; d3]], 3%nat).
Proof. lazy. reflexivity. Qed.

(** The weight is between 0 and 1 for [offset >= 1], and it does not grow while training goes on. *)
Theorem rho_decays : forall a m1 m2 p1 p2, 1 <= a_offset a -> 0 <= a_decay a -> (0 < a_chunksize a)%nat -> (m_updates m1 <= m_updates m2)%nat -> (p1 <= p2)%nat ->
  0 < rho a m2 p2 <= rho a m1 p1 /\ rho a m1 p1 <= 1.
Proof.
  intros a m1 m2 p1 p2 Ho Hd Hn Hu Hp. unfold rho. assert (Hc : 0 < / INR (a_chunksize a)) by (apply Rinv_0_lt_compat; apply lt_0_INR; exact Hn). assert (I1 := pos_INR p1). assert (I2 := le_INR _ _ Hp). assert (I3 := pos_INR (m_updates m1)). assert (I4 := le_INR _ _ Hu).
  assert (I5 : 0 <= INR (m_updates m1) / INR (a_chunksize a)) by (apply Rmult_le_pos; lra). assert (I6 : INR (m_updates m1) / INR (a_chunksize a) <= INR (m_updates m2) / INR (a_chunksize a)) by (apply Rmult_le_compat_r; lra).
  split; [split; [apply exp_pos | apply rho_decreasing; lra] | apply rho_range; lra].
Qed.
Print Assumptions rho_decays.
Example rho_decays_ex : rho (Settings 10 1 1 1 1 0 5 0) start 0 = 1 /\ rho (Settings 10 1 1 1 1 0 5 0) start 1 = 1 / 2.
Proof.
  unfold rho. cbn [a_offset a_chunksize a_decay start m_updates INR]. split.
  - replace (1 + 0 + _) with 1 by (unfold Rdiv; ring). unfold Rpower. rewrite ln_1, Rmult_0_r. apply exp_0.
  - replace (1 + 1 + _) with 2 by (unfold Rdiv; ring). replace (Ropp 1) with (- (1)) by ring. rewrite Rpower_Ropp, Rpower_1 by lra. field.
Qed.

(** A corpus that is not as long as it says it is. *)
Theorem update_wrong_length : forall K V eps edir draw na ne a corpus len m, (0 < a_chunksize a)%nat -> (0 < len)%nat -> len <> length corpus -> (0 < a_passes a)%nat -> a_eval_every a = 0%nat -> forallb (in_vocab V) corpus = true ->
  update K V eps edir draw na ne a corpus len m = Err RuntimeErr.
Proof.
  intros K V eps edir draw na ne a corpus len m Hn Hl Hd Hp He Hv. unfold update. replace (len =? 0)%nat with false by lia. destruct (a_passes a) as [|k]; [lia|]. cbn [seq rfold]. unfold pass_step.
  destruct (Utils_Properties.chunkize_serial_exact corpus (a_chunksize a) Hn) as (C1 & C2 & C3). set (cs := chunkize_serial corpus (a_chunksize a)) in *. clearbody cs.
  assert (M0 : Mid a 0 0 (m_steps (add_docs m len)) (m_updates (add_docs m len)) (numdocs (m_state (add_docs m len))) [] (Progress (add_docs m len) fresh false 0)).
  { constructor; try reflexivity.
    - exists []. cbn [g_model map concat app g_other fresh seen]. rewrite app_nil_r. split; [reflexivity|]. split; [reflexivity|]. split; [exact I|]. split; [unfold after_pass; cbn [map concat length Nat.ltb Nat.leb]; lia|]. split; [constructor | reflexivity].
    - cbn [g_other fresh seen length]. destruct (Nat.eqb_spec (a_update_every a) 0) as [U|U]; [lia|]. rewrite Nat.mod_0_l by exact U. lia. }
  rewrite <- C1 in Hv. destruct (chunks_end K V eps edir draw na ne a len 0 cs 0 _ _ _ _ _ Hn C2 C3 Hv M0) as (s & E & En). rewrite E. cbn [rbind]. rewrite (N_len _ _ _ _ _ _ _ En). cbn [app]. rewrite C1. replace (length corpus =? len)%nat with false by lia. reflexivity.
Qed.
Print Assumptions update_wrong_length.
Example update_wrong_length_ex : update 2 2 0 (fun _ _ _ => 1) (fun _ _ => 1) (fun a _ => a) (fun e _ => e) (setting 2 2 1) [] 3 start = Err RuntimeErr.
Proof. reflexivity. Qed.

(** ** Inference *)
(** The words of a document are shared out among the topics: no topic falls below its prior, and the sum grows by the number of words
    (a little less, because of the [epsilon] in the denominator). *)
Theorem gamma_mass : forall K eps edir p d g0, (0 < K)%nat -> 0 <= eps -> (forall n v i, 0 < edir n v i) -> (0 < p_iterations p)%nat ->
  Forall (fun wc => 0 <= snd wc) d -> (forall k w, (k < K)%nat -> In w (map fst d) -> 0 < p_beta p k w) ->
  let g := fst (infer_doc K eps edir p d g0) in
  (forall k, (k < K)%nat -> p_alpha p k <= g k) /\
  sumn K (p_alpha p) <= sumn K g <= sumn K (p_alpha p) + Rsum (map snd d) /\
  (eps = 0 -> sumn K g = sumn K (p_alpha p) + Rsum (map snd d)).
Proof.
  intros K eps edir p d g0 HK He Hd Hi Hc Hb g. unfold g, infer_doc. destruct (iterate_last K eps edir (p_iterations p) (p_threshold p) (p_alpha p) (p_beta p) d g0 Hi) as (g' & ->).
  apply (gamma_bounds K eps He HK); [exact Hc | exact Hb | intros k; apply Hd].
Qed.
Print Assumptions gamma_mass.
Example gamma_mass_ex : sumn 2 (fst (infer_doc 2 0 (fun _ _ _ => 1) (model_params start) d3 (fun _ => 7))) = 2 + 2.
Proof.
  destruct (gamma_mass 2 0 (fun _ _ _ => 1) (model_params start) d3 (fun _ => 7)) as (_ & _ & H).
  - lia.
  - lra.
  - intros; lra.
  - cbn; lia.
  - repeat constructor; cbn; lra.
  - intros; cbn; lra.
  - rewrite (H eq_refl). cbn. unfold sumn. cbn. lra.
Qed.

(** The gammas of a document depend on the document, the model and the random start only, not on the chunk it is in. *)
Theorem gammas_each : forall K V eps edir draw p r chunk gs, inference K V eps edir draw p r chunk = Ok gs -> length (fst gs) = length chunk /\
  forall i d, nth_error chunk i = Some d -> nth_error (fst gs) i = Some (fst (infer_doc K eps edir p d (draw (r + i)%nat))).
Proof.
  intros K V eps edir draw p r chunk gs E. unfold inference in E. destruct (infer_loop K V eps edir draw p r chunk (fun _ _ => 0)) as [gs'|e] eqn:E'; [|discriminate E]. cbn [rbind] in E. injection E as <-. cbn [fst]. split; [|exact (infer_loop_gammas K V eps edir draw p chunk r _ gs' E')].
  clear - E'. revert r gs' E'. generalize (fun _ _ : nat => 0). induction chunk as [|d chunk IH]; intros acc r gs E; cbn [infer_loop] in E; [injection E as <-; reflexivity|]. destruct (in_vocab V d); [|discriminate E]. destruct (infer_loop K V eps edir draw p (S r) chunk _) as [gs2|e] eqn:E2; [|discriminate E]. cbn [rbind] in E. injection E as <-. cbn [fst length]. f_equal. exact (IH _ _ _ E2).
Qed.
Print Assumptions gammas_each.

(** The statistics of a chunk: for every word, the topics share the occurrences of the word in the chunk. *)
Definition occurrences (w : nat) (chunk : list doc) : R := Rsum (map (fun d => Rsum (map snd (filter (fun wc => (fst wc =? w)%nat) d))) chunk).
Theorem statistics_mass : forall K V eps edir draw p r chunk gs, (0 < K)%nat -> 0 <= eps -> (forall n v i, 0 < edir n v i) -> (forall k w, (k < K)%nat -> 0 < p_beta p k w) ->
  Forall (fun d => NoDup (map fst d) /\ Forall (fun wc => 0 <= snd wc) d) chunk -> inference K V eps edir draw p r chunk = Ok gs ->
  forall w, (forall k, (k < K)%nat -> 0 <= snd gs k w) /\ 0 <= sumn K (fun k => snd gs k w) <= occurrences w chunk /\ (eps = 0 -> sumn K (fun k => snd gs k w) = occurrences w chunk).
Proof.
  intros K V eps edir draw p r chunk gs HK He Hd Hb F E w. unfold inference in E. destruct (infer_loop K V eps edir draw p r chunk (fun _ _ => 0)) as [gs'|e] eqn:E'; [|discriminate E]. cbn [rbind] in E. injection E as <-. cbn [snd]. split.
  - intros k Hk. apply Rmult_le_pos; [|apply Rlt_le; apply Hb; exact Hk]. apply (infer_loop_nonneg K V eps edir draw Hd He HK) with (3 := E'); [|intros; lra | exact Hk]. eapply Forall_impl; [|exact F]. intros d [_ D]. split; [exact D|]. intros k0 w0 Hk0 _. apply Hb. exact Hk0.
  - destruct (infer_loop_stats K V eps edir draw Hd He HK p chunk r (fun _ _ => 0) gs') with (2 := E') (w := w) as (x & X1 & X2 & X3).
    + eapply Forall_impl; [|exact F]. intros d [D1 D2]. split; [exact D1|]. split; [exact D2|]. intros k0 w0 Hk0 _. apply Hb. exact Hk0.
    + assert (Z : sumn K (fun k => 0 * p_beta p k w) = 0) by (transitivity (sumn K (fun _ => 0)); [apply sumn_ext; intros; ring | apply sumn_zero]). rewrite X1, Z, Rplus_0_l. split; [exact X2 | exact X3].
Qed.
Print Assumptions statistics_mass.
Example statistics_mass_ex : exists gs, inference 2 2 0 (fun _ _ _ => 1) (fun _ _ => 1) (model_params start) 0 [d1; d3; d2] = Ok gs /\ sumn 2 (fun k => snd gs k 1%nat) = 3.
Proof.
  eexists. split; [reflexivity|]. match goal with |- sumn 2 (fun k => snd ?g k 1%nat) = 3 => destruct (statistics_mass 2 2 0 (fun _ _ _ => 1) (fun _ _ => 1) (model_params start) 0 [d1; d3; d2] g) with (w := 1%nat) as (_ & _ & H) end.
  - lia.
  - lra.
  - intros; lra.
  - intros; cbn; lra.
  - repeat constructor; cbn; try lra; intuition lia.
  - reflexivity.
  - rewrite (H eq_refl). unfold occurrences. cbn. lra.
Qed.
(** If a document lists a word twice, numpy's [sstats[:, ids] += ...] counts it once: two occurrences, one in the statistics. *)
Theorem statistics_repeated_refuted : exists gs, inference 1 1 0 (fun _ _ _ => 1) (fun _ _ => 1) (model_params start) 0 [[(0%nat, 1); (0%nat, 1)]] = Ok gs /\
  sumn 1 (fun k => snd gs k 0%nat) = 1 /\ occurrences 0 [[(0%nat, 1); (0%nat, 1)]] = 2.
Proof.
  eexists. split; [reflexivity|]. cbn [snd]. split; [|unfold occurrences; cbn; lra]. unfold sumn at 1. cbn [seq map Rsum fold_right].
  set (th := snd (infer_doc _ _ _ _ _ _)). assert (Et : th = fun _ => 1). { unfold th, infer_doc. rewrite iterate_theta. reflexivity. } rewrite Et. cbn [scatter last_count Nat.eqb model_params p_beta start m_beta]. unfold phinorm, sumn. cbn. field.
Qed.
Print Assumptions statistics_repeated_refuted.

(** ** The statistics stay non-negative *)
(** From a model with positive priors and non-negative statistics, with an offset of at least 1, training keeps lambda positive: every topic
    stays a distribution with positive probabilities. *)
Theorem update_positive : forall K V eps edir draw na ne a corpus len m m', (0 < K)%nat -> (0 < V)%nat -> 0 <= eps -> (forall n v i, 0 < edir n v i) ->
  1 <= a_offset a -> 0 <= a_decay a -> (0 < a_chunksize a)%nat -> Forall (Forall (fun wc => 0 <= snd wc)) corpus ->
  (forall k w, (k < K)%nat -> 0 <= stats (m_state m) k w /\ 0 < m_state_eta m k w /\ 0 < m_beta m k w) -> (forall k, (k < K)%nat -> 0 < m_alpha m k) ->
  update K V eps edir draw na ne a corpus len m = Ok m' ->
  (forall k w, (k < K)%nat -> 0 < lambda (m_state_eta m') (m_state m') k w /\ 0 < topics V m' k w) /\ (forall k, (k < K)%nat -> sumn V (topics V m' k) = 1) /\ (forall k, (k < K)%nat -> 0 < m_alpha m' k).
Proof.
  intros K V eps edir draw na ne a corpus len m m' HK HV He Hd Ho Hdc Hn F Hm Ha E.
  assert (G : Good K m) by (constructor; [intros k w Hk; apply Hm; exact Hk | intros k w Hk; apply Hm; exact Hk | intros k w Hk; apply Hm; exact Hk | exact Ha]).
  destruct (update_good K V eps edir draw na ne Hd He HK a corpus len m m' Ho Hdc Hn F G E) as [G1 G2 G3 G4].
  assert (L : forall k w, (k < K)%nat -> 0 < lambda (m_state_eta m') (m_state m') k w) by (intros k w Hk; unfold lambda; specialize (G1 k w Hk); specialize (G2 k w Hk); lra).
  assert (P : forall k, (k < K)%nat -> 0 < sumn V (lambda (m_state_eta m') (m_state m') k)) by (intros k Hk; apply sumn_pos; [exact HV | intros w _; apply L; exact Hk]).
  split; [|split; [|exact G4]].
  - intros k w Hk. split; [apply L; exact Hk|]. unfold topics. apply Rdiv_lt_0_compat; [apply L; exact Hk | apply P; exact Hk].
  - intros k Hk. specialize (P k Hk). transitivity (sumn V (fun w => / sumn V (lambda (m_state_eta m') (m_state m') k) * lambda (m_state_eta m') (m_state m') k w)); [apply sumn_ext; intros w _; unfold topics, Rdiv; ring|]. rewrite sumn_scal. apply Rinv_l. lra.
Qed.
Print Assumptions update_positive.
Example update_positive_ex : exists m, update 2 2 0 (fun _ _ _ => 1) (fun _ _ => 1) (fun a _ => a) (fun e _ => e) (setting 2 2 1) [d1; d2; d3] 3 start = Ok m /\ sumn 2 (topics 2 m 1) = 1.
Proof.
  destruct (update_batches 2 2 0 (fun _ _ _ => 1) (fun _ _ => 1) (fun a _ => a) (fun e _ => e) (setting 2 2 1) [d1; d2; d3] start) as (m & _ & E & _); [cbn; lia | discriminate | reflexivity|]. exists m. split; [exact E|].
  destruct (update_positive 2 2 0 (fun _ _ _ => 1) (fun _ _ => 1) (fun a _ => a) (fun e _ => e) (setting 2 2 1) [d1; d2; d3] 3 start m) as (_ & H & _).
  - lia.
  - lia.
  - lra.
  - intros; lra.
  - cbn. lra.
  - cbn. lra.
  - cbn. lia.
  - repeat constructor; cbn; lra.
  - intros k w _. cbn. repeat split; lra.
  - intros k _. cbn. lra.
  - exact E.
  - apply H. lia.
Qed.

(** The size of the corpus in the statistics: both sides are stretched to [numdocs] documents before they are blended, so that a state
    whose statistics have one unit per document keeps that. *)
Theorem blend_mass : forall K V r s o,
  let mass st := sumn K (fun k => sumn V (stats st k)) in
  (0 < numdocs s)%nat -> (0 < numdocs o)%nat ->
  mass (blend r s o None) = (1 - r) * mass s + r * (INR (numdocs s) * (mass o / INR (numdocs o))).
Proof.
  intros K V r s o mass Hs Ho. unfold mass. assert (Is : 0 < INR (numdocs s)) by (apply lt_0_INR; exact Hs). assert (Io : 0 < INR (numdocs o)) by (apply lt_0_INR; exact Ho).
  assert (S1 : stretch (numdocs s) (numdocs s) = 1) by (unfold stretch; now rewrite Nat.eqb_refl, orb_true_r).
  assert (S2 : stretch (numdocs s) (numdocs o) = INR (numdocs s) / INR (numdocs o)). { unfold stretch. replace (numdocs o =? 0)%nat with false by lia. cbn [orb]. destruct (Nat.eqb_spec (numdocs s) (numdocs o)) as [->|D]; [field; lra | reflexivity]. }
  cbn [blend stats]. rewrite S1, S2. transitivity (sumn K (fun k => (1 - r) * sumn V (stats s k) + (r * (INR (numdocs s) / INR (numdocs o))) * sumn V (stats o k))).
  - apply sumn_ext. intros k _. transitivity (sumn V (fun w => (1 - r) * stats s k w + (r * (INR (numdocs s) / INR (numdocs o))) * stats o k w)); [apply sumn_ext; intros w _; ring|]. rewrite sumn_plus, !sumn_scal. reflexivity.
  - rewrite sumn_plus, !sumn_scal. field. lra.
Qed.
Print Assumptions blend_mass.
Example blend_mass_ex : sumn 1 (fun k => sumn 1 (stats (blend (1/2) (LState (fun _ _ => 8) 4 []) (LState (fun _ _ => 6) 2 []) None) k)) = 10.
Proof. rewrite (blend_mass 1 1 (1/2) (LState (fun _ _ => 8) 4 []) (LState (fun _ _ => 6) 2 [])) by (cbn; lia). cbn. unfold sumn. cbn. field. Qed.

(** ** Statistics of parts *)
(** The E step of a chunk is that of its parts, one after the other, merged: gammas, statistics, number of documents. *)
Lemma infer_loop_app : forall K V eps edir draw p c1 c2 r acc, infer_loop K V eps edir draw p r (c1 ++ c2) acc =
  let* g1 := infer_loop K V eps edir draw p r c1 acc in let* g2 := infer_loop K V eps edir draw p (r + length c1) c2 (snd g1) in Ok (fst g1 ++ fst g2, snd g2).
Proof.
  intros K V eps edir draw p c1 c2. induction c1 as [|d c1 IH]; intros r acc; cbn [app infer_loop length].
  - cbn [rbind fst snd]. rewrite Nat.add_0_r. destruct (infer_loop K V eps edir draw p r c2 acc) as [[g st]|e]; reflexivity.
  - destruct (in_vocab V d); [|reflexivity]. cbv zeta. rewrite IH. replace (r + S (length c1))%nat with (S r + length c1)%nat by lia.
    destruct (infer_loop K V eps edir draw p (S r) c1 _) as [[g1 st1]|e]; [|reflexivity]. cbn [rbind fst snd].
    destruct (infer_loop K V eps edir draw p (S r + length c1) c2 st1) as [[g2 st2]|e]; reflexivity.
Qed.
Lemma infer_loop_acc : forall K V eps edir draw p c r acc, match infer_loop K V eps edir draw p r c (fun _ _ => 0) with
  | Ok g => exists st, infer_loop K V eps edir draw p r c acc = Ok (fst g, st) /\ forall k w, st k w = acc k w + snd g k w
  | Err e => infer_loop K V eps edir draw p r c acc = Err e end.
Proof.
  intros K V eps edir draw p c. induction c as [|d c IH]; intros r acc; cbn [infer_loop].
  - exists acc. split; [reflexivity|]. intros. cbn. ring.
  - destruct (in_vocab V d); [|reflexivity]. cbv zeta. set (gt := infer_doc K eps edir p d (draw r)).
    pose proof (IH (S r) (scatter K eps (p_beta p) (snd gt) d (fun _ _ => 0))) as A. pose proof (IH (S r) (scatter K eps (p_beta p) (snd gt) d acc)) as B.
    destruct (infer_loop K V eps edir draw p (S r) c (fun _ _ => 0)) as [[g0 st0]|e]; [|rewrite A, B; reflexivity].
    destruct A as [sa [-> HA]]. destruct B as [sb [-> HB]]. cbn [rbind fst snd]. exists sb. split; [reflexivity|]. intros k w. cbn [fst snd] in *. rewrite HA, HB. unfold scatter. destruct (last_count d w); ring.
Qed.
Theorem estep_of_parts : forall K V eps edir draw m c1 c2 m1 g1 s1 m2 g2 s2, do_estep K V eps edir draw m c1 fresh = Ok (m1, g1, s1) -> do_estep K V eps edir draw m1 c2 fresh = Ok (m2, g2, s2) ->
  exists s, do_estep K V eps edir draw m (c1 ++ c2) fresh = Ok (m2, g1 ++ g2, s) /\ (forall k w, stats s k w = stats (merge s1 s2) k w) /\ numdocs s = numdocs (merge s1 s2) /\ seen s = seen (merge s1 s2).
Proof.
  intros K V eps edir draw m c1 c2 m1 g1 s1 m2 g2 s2 E1 E2. unfold do_estep, inference in *. rewrite infer_loop_app.
  destruct (infer_loop K V eps edir draw (model_params m) (m_draws m) c1 (fun _ _ => 0)) as [[a1 b1]|e]; [|discriminate E1]. cbn [rbind fst snd] in E1. injection E1 as <- <- <-.
  cbn [set_draws m_draws model_params m_alpha m_beta m_iterations m_threshold] in E2. cbn [rbind fst snd].
  pose proof (infer_loop_acc K V eps edir draw (model_params m) c2 (m_draws m + length c1) b1) as A.
  change (Params (m_alpha (set_draws m (m_draws m + length c1))) (m_beta (set_draws m (m_draws m + length c1))) (m_iterations (set_draws m (m_draws m + length c1))) (m_threshold (set_draws m (m_draws m + length c1)))) with (model_params m) in E2.
  change (model_params (set_draws m (m_draws m + length c1))) with (model_params m) in E2.
  destruct (infer_loop K V eps edir draw (model_params m) (m_draws m + length c1) c2 (fun _ _ => 0)) as [[a2 b2]|e]; [|discriminate E2]. cbn [rbind fst snd] in E2. injection E2 as <- <- <-.
  destruct A as [st [-> HA]]. cbn [rbind fst snd]. eexists. split; [|split; [|split]].
  - f_equal. f_equal. f_equal. unfold set_draws. cbn. f_equal. rewrite app_length. lia.
  - intros k w. cbn [stats merge fresh]. rewrite HA. cbn. ring.
  - cbn. rewrite app_length. lia.
  - reflexivity.
Qed.
Print Assumptions estep_of_parts.
(** ** The topics used for inference follow the statistics *)
Definition synced (V : nat) (edir : nat -> (nat -> R) -> nat -> R) (m : lda) : Prop := forall k, m_beta m k = edir V (lambda (m_state_eta m) (m_state m) k).
Lemma rfold_keeps : forall {A S} (f : S -> A -> result S) (P : S -> Prop), (forall s x s', P s -> f s x = Ok s' -> P s') -> forall l s s', P s -> rfold f l s = Ok s' -> P s'.
Proof.
  intros A S f P H l. induction l as [|x l IH]; intros s s' HP E; cbn [rfold] in E; [injection E as <-; exact HP|]. destruct (f s x) as [s1|e] eqn:E1; [|discriminate E]. cbn [rbind] in E. apply (IH s1 s'); [apply (H s x s1); assumption | exact E].
Qed.
Theorem update_synced : forall K V eps edir draw na ne a corpus len m m', synced V edir m -> update K V eps edir draw na ne a corpus len m = Ok m' -> synced V edir m'.
Proof.
  intros K V eps edir draw na ne a corpus len m m' H E. unfold update in E. destruct (len =? 0)%nat; [injection E as <-; exact H|].
  revert E. apply (rfold_keeps _ (synced V edir)); [|exact H]. clear m m' H. intros m pass m' H E. unfold pass_step in E.
  match type of E with context [rfold ?f ?l ?s0] => destruct (rfold f l s0) as [s|e] eqn:EF end; [|discriminate E]. cbn [rbind] in E.
  assert (HS : synced V edir (g_model s)).
  { revert EF. apply (rfold_keeps _ (fun s => synced V edir (g_model s))); [|exact H]. clear. intros s [no c] s' H E. unfold chunk_step in E.
    unfold evaluate in E. destruct (negb (a_eval_every a =? 0) && _)%bool; [destruct (forallb (in_vocab V) c); [|discriminate E]|]; cbn [rbind] in E; unfold do_estep in E;
    (match type of E with context [inference ?a ?b ?c ?d ?e ?f ?g ?h] => destruct (inference a b c d e f g h) as [gs|err] end; [|discriminate E]); cbn [rbind] in E;
    (match type of E with context [m_auto_alpha ?x] => destruct (m_auto_alpha x) end); (match type of E with context [if (?b && ?c)%bool then _ else _] => destruct (b && c)%bool end); injection E as <-; try exact H; intros k; reflexivity. }
  destruct (negb (g_reallen s =? len)); [discriminate E|]. destruct (g_dirty s); injection E as <-; [intros k; reflexivity | exact HS].
Qed.
Print Assumptions update_synced.
Example update_synced_ex : synced 2 (fun _ _ _ => 1) start.
Proof. intros k. reflexivity. Qed.

(** With an offset below 1 the first weight is above 1, and lambda can become negative. *)
Theorem offset_below_one_refuted : exists a m m', 0 < a_offset a < 1 /\ (forall k w, 0 < lambda (m_state_eta m) (m_state m) k w) /\
  update 1 2 0 (fun _ _ _ => 1) (fun _ _ => 1) (fun a _ => a) (fun e _ => e) a [d1] 1 m = Ok m' /\ lambda (m_state_eta m') (m_state m') 0%nat 1%nat < 0.
Proof.
  exists (Settings 1 1 (1/4) 1 1 0 5 0), (Lda (LState (fun _ _ => 1) 0 []) (fun _ _ => 1) (fun _ => 1) (fun _ _ => 1) (fun _ _ => 1) 0 0 false false 0 0 []). eexists. split; [cbn; lra|]. split; [intros; cbn; unfold lambda; cbn; lra|]. split; [reflexivity|].
  cbv - [Rplus Rmult Rdiv Rinv Ropp Rminus Rpower Rlt IZR]. replace (1 / 4 + 0 + 0 / 1) with (/ 4) by field. replace (Rpower (/ 4) (- (1))) with 4; [|rewrite Rpower_Ropp, Rpower_1 by lra; field].
  lra.
Qed.
Print Assumptions offset_below_one_refuted.

(** ** Arguments without effect *)
(** [update] has arguments [iterations] and [gamma_threshold]; inference uses the values the model was made with. *)
Theorem iterations_ignored : forall K V eps edir draw na ne a it th corpus len m,
  update K V eps edir draw na ne (Settings (a_chunksize a) (a_decay a) (a_offset a) (a_passes a) (a_update_every a) (a_eval_every a) it th) corpus len m = update K V eps edir draw na ne a corpus len m.
Proof. intros K V eps edir draw na ne [c d o p u e i t] it th corpus len m. reflexivity. Qed.
Print Assumptions iterations_ignored.

(** With eta = 'auto' the model learns a prior for the words, but its state keeps the prior it was made with, and that is the one added to the
    statistics: the topics, the statistics and everything else are those of a model that learns no prior. *)
Definition alike (m1 m2 : lda) : Prop :=
  m_state m1 = m_state m2 /\ m_beta m1 = m_beta m2 /\ m_alpha m1 = m_alpha m2 /\ m_state_eta m1 = m_state_eta m2 /\ m_updates m1 = m_updates m2 /\ m_draws m1 = m_draws m2 /\
  m_auto_alpha m1 = m_auto_alpha m2 /\ m_iterations m1 = m_iterations m2 /\ m_threshold m1 = m_threshold m2 /\ m_steps m1 = m_steps m2.
Definition alike_r {A} (P : A -> A -> Prop) (r1 r2 : result A) : Prop := match r1, r2 with Ok x, Ok y => P x y | Err e, Err e' => e = e' | _, _ => False end.
Lemma alike_fold : forall A B (P : A -> A -> Prop) (f : A -> B -> result A) l, (forall x y b, In b l -> P x y -> alike_r P (f x b) (f y b)) -> forall x y, P x y -> alike_r P (rfold f l x) (rfold f l y).
Proof.
  intros A B P f. induction l as [|b l IH]; intros H x y Hxy; cbn [rfold]; [exact Hxy|]. assert (Hb := H x y b (or_introl eq_refl) Hxy). destruct (f x b) as [x'|], (f y b) as [y'|]; cbn [alike_r rbind] in *; try contradiction; [|exact Hb]. apply IH; [|exact Hb]. intros u v c Hc. apply H. right. exact Hc.
Qed.
Theorem learned_eta_unused : forall K V eps edir draw na ne a corpus len m1 m2, alike m1 m2 -> alike_r alike (update K V eps edir draw na ne a corpus len m1) (update K V eps edir draw na ne a corpus len m2).
Proof.
  intros K V eps edir draw na ne a corpus len m1 m2 H. unfold update. destruct (len =? 0)%nat; [exact H|]. apply alike_fold.
  2: { destruct H as (H1 & H2 & H3 & H4 & H5 & H6 & H7 & H8 & H9 & H10). unfold add_docs, alike. cbn. rewrite H1. repeat split; assumption. }
  clear H m1 m2. intros m1 m2 p _ H. unfold pass_step.
  assert (Ms : forall x1 x2 pass r o b, alike x1 x2 -> alike (do_mstep V edir ne x1 pass r o b) (do_mstep V edir ne x2 pass r o b)).
  { intros x1 x2 pass r o b (H1 & H2 & H3 & H4 & H5 & H6 & H7 & H8 & H9 & H10). unfold do_mstep, alike. cbn. rewrite H1, H4, H5, H10. repeat split; assumption. }
  assert (Rh : forall x1 x2, alike x1 x2 -> rho a x1 p = rho a x2 p) by (intros x1 x2 X; unfold rho; destruct X as (_ & _ & _ & _ & -> & _); reflexivity).
  set (P := fun s1 s2 : progress => alike (g_model s1) (g_model s2) /\ g_other s1 = g_other s2 /\ g_dirty s1 = g_dirty s2 /\ g_reallen s1 = g_reallen s2).
  match goal with |- alike_r _ (rbind (rfold ?f ?l ?x) _) (rbind (rfold ?f ?l ?y) _) => assert (X : alike_r P (rfold f l x) (rfold f l y)) end.
  { apply alike_fold; [|split; [exact H | repeat split]]. intros s1 s2 [i chunk] _ (Q1 & Q2 & Q3 & Q4). unfold chunk_step, evaluate. rewrite Q4.
    destruct s1 as [x1 o1 t1 l1], s2 as [x2 o2 t2 l2]. cbn [g_model g_other g_dirty g_reallen] in *. subst o2.
    assert (C : forall x1 x2, alike x1 x2 -> alike_r P
      (let* mgo := do_estep K V eps edir draw x1 chunk o1 in let '(m, gammas, other) := mgo in let m := if m_auto_alpha m then update_alpha K na m gammas (rho a m p) else m in
        if (negb (a_update_every a =? 0) && ((i + 1) mod a_update_every a =? 0))%nat%bool then Ok (Progress (do_mstep V edir ne m p (rho a m p) other (0 <? p)%nat) fresh false (l2 + length chunk)) else Ok (Progress m other true (l2 + length chunk)))
      (let* mgo := do_estep K V eps edir draw x2 chunk o1 in let '(m, gammas, other) := mgo in let m := if m_auto_alpha m then update_alpha K na m gammas (rho a m p) else m in
        if (negb (a_update_every a =? 0) && ((i + 1) mod a_update_every a =? 0))%nat%bool then Ok (Progress (do_mstep V edir ne m p (rho a m p) other (0 <? p)%nat) fresh false (l2 + length chunk)) else Ok (Progress m other true (l2 + length chunk)))).
    { clear Q1. intros y1 y2 Y. assert (Y' := Y). destruct Y' as (H1 & H2 & H3 & H4 & H5 & H6 & H7 & H8 & H9 & H10). unfold do_estep. assert (Ep : model_params y1 = model_params y2) by (unfold model_params; rewrite H2, H3, H8, H9; reflexivity). rewrite Ep, H6.
      destruct (inference K V eps edir draw (model_params y2) (m_draws y2) chunk) as [gs|e]; cbn [rbind]; [|reflexivity]. cbn [m_auto_alpha set_draws]. rewrite H7.
      set (z1 := if m_auto_alpha y2 then _ else set_draws y1 _). set (z2 := if m_auto_alpha y2 then _ else set_draws y2 _).
      assert (Zz : alike z1 z2). { unfold z1, z2. destruct (m_auto_alpha y2) eqn:A2; unfold update_alpha, set_alpha, set_draws, alike; cbn [m_state m_beta m_alpha m_state_eta m_updates m_draws m_auto_alpha m_iterations m_threshold m_steps]; unfold rho; cbn [m_updates]; rewrite ?H3, ?H5; repeat split; congruence. }
      clearbody z1 z2. rewrite (Rh _ _ Zz). destruct (_ && _)%bool; cbn [alike_r]; (split; [|repeat split]); cbn [g_model]; [apply Ms; exact Zz | exact Zz]. }
    destruct (negb (a_eval_every a =? 0) && ((l2 + length chunk =? len) || ((i + 1) mod a_eval_every a =? 0)))%nat%bool; [destruct (forallb (in_vocab V) chunk)|]; cbn [rbind]; [| exact eq_refl |].
    - apply C. destruct Q1 as (H1 & H2 & H3 & H4 & H5 & H6 & H7 & H8 & H9 & H10). unfold set_draws, alike. cbn. rewrite H6. repeat split; assumption.
    - apply C. exact Q1. }
  destruct (rfold _ _ _) as [s1|e1], (rfold _ _ _) as [s2|e2]; cbn [alike_r rbind] in *; try contradiction; [|exact X]. destruct X as (Q1 & Q2 & Q3 & Q4). rewrite Q2, Q3, Q4. destruct (negb _); [reflexivity|]. destruct (g_dirty s2); cbn [alike_r]; [rewrite (Rh _ _ Q1); apply Ms; exact Q1 | exact Q1].
Qed.
Print Assumptions learned_eta_unused.
Example learned_eta_unused_ex : alike start (Lda fresh (fun _ _ => 1) (fun _ => 1) (fun k w => INR (k + w)) (fun _ _ => 1) 0 0 false true 5 (1/1000) []).
Proof. repeat split. Qed.

(** ** Logging the perplexity *)
(** It uses up random numbers, so that a model that is evaluated while it is trained turns out different. *)
Theorem evaluation_changes_training_refuted : exists edir draw m m1 m2, (forall n v i, 0 < edir n v i) /\
  update 1 1 1 edir draw (fun a _ => a) (fun e _ => e) (Settings 1 1 1 1 1 0 0 0) [d1] 1 m = Ok m1 /\ update 1 1 1 edir draw (fun a _ => a) (fun e _ => e) (Settings 1 1 1 1 1 1 0 0) [d1] 1 m = Ok m2 /\
  stats (m_state m1) 0%nat 0%nat <> stats (m_state m2) 0%nat 0%nat.
Proof.
  exists (fun _ v i => 1 + Rabs (v i)), (fun r _ => INR r), (Lda fresh (fun _ _ => 1) (fun _ => 1) (fun _ _ => 1) (fun _ _ => 1) 0 0 false false 0 0 []). eexists; eexists.
  split; [intros n v i; assert (X := Rabs_pos (v i)); lra|]. split; [reflexivity|]. split; [reflexivity|].
  cbv - [Rplus Rmult Rdiv Rinv Ropp Rminus Rpower Rabs IZR]. replace (1 + 0 + 0 / 1) with 1 by field. assert (E : Rpower 1 (- (1)) = 1) by (unfold Rpower; rewrite ln_1, Rmult_0_r; apply exp_0). rewrite E, Rabs_R0, Rabs_R1. lra.
Qed.
Print Assumptions evaluation_changes_training_refuted.

(** ** Topics of documents and words *)
(** The topics of a document: positive probabilities that add up to 1, of which those below the minimum are left out. *)
Theorem document_topics_spec : forall K V eps edir draw m d minimum l, (0 < K)%nat -> 0 <= eps -> (forall n v i, 0 < edir n v i) -> (0 < m_iterations m)%nat ->
  (forall k w, (k < K)%nat -> 0 < m_beta m k w) -> (forall k, (k < K)%nat -> 0 < m_alpha m k) -> Forall (fun wc => 0 <= snd wc) d ->
  document_topics K V eps edir draw m d minimum = Ok l ->
  exists q, (forall k, (k < K)%nat -> 0 < q k) /\ sumn K q = 1 /\ (forall k x, In (k, x) l <-> (k < K)%nat /\ x = q k /\ minimum <= x /\ 1 / 100000000 <= x) /\ Sorted.StronglySorted lt (map fst l).
Proof.
  intros K V eps edir draw m d minimum l HK He Hd Hi Hb Ha Hc E. unfold document_topics, inference in E. cbn [infer_loop] in E. destruct (in_vocab V d); [|discriminate E]. cbn [rbind fst] in E.
  destruct (gamma_mass K eps edir (model_params m) d (draw (m_draws m)) HK He Hd Hi Hc (fun k w Hk _ => Hb k w Hk)) as (G1 & _ & _). set (g := fst (infer_doc K eps edir (model_params m) d (draw (m_draws m)))) in *. clearbody g.
  assert (Gp : forall k, (k < K)%nat -> 0 < g k) by (intros k Hk; specialize (G1 k Hk); specialize (Ha k Hk); cbn [model_params p_alpha] in G1; lra). assert (Sp : 0 < sumn K g) by (apply sumn_pos; assumption).
  injection E as <-. exists (fun k => g k / sumn K g). split; [intros k Hk; apply Rdiv_lt_0_compat; [apply Gp; exact Hk | exact Sp]|]. split; [|split].
  - transitivity (sumn K (fun k => / sumn K g * g k)); [apply sumn_ext; intros; unfold Rdiv; ring|]. rewrite sumn_scal. apply Rinv_l. lra.
  - intros k x. rewrite filter_In, in_map_iff. cbn [snd]. split.
    + intros [(k' & X & Hk) Hm]. injection X as -> <-. apply in_seq in Hk. destruct (Rle_dec _ _) as [L|]; [|discriminate Hm]. assert (M1 := Rmax_l minimum (1 / 100000000)). assert (M2 := Rmax_r minimum (1 / 100000000)). repeat split; [lia | lra | lra].
    + intros (Hk & -> & M1 & M2). split; [exists k; split; [reflexivity | apply in_seq; lia]|]. destruct (Rle_dec _ _) as [L|L]; [reflexivity|]. exfalso. apply L. apply Rmax_lub; assumption.
  - clear. generalize (sumn K g). intros sg. generalize (Rmax minimum (1 / 100000000)). intros mn. generalize 0%nat. intros i. revert i. induction K as [|n IH]; intros i; [constructor|]. cbn [seq map filter]. destruct (if Rle_dec _ _ then true else false); [|apply IH]. cbn [map]. constructor; [apply IH|].
    rewrite Forall_forall. intros y Hy. apply in_map_iff in Hy. destruct Hy as ([y' z] & <- & Hy). apply filter_In in Hy. destruct Hy as [Hy _]. apply in_map_iff in Hy. destruct Hy as (k & X & Hk). injection X as <- _. apply in_seq in Hk. cbn. lia.
Qed.
Print Assumptions document_topics_spec.
Example document_topics_spec_ex : exists l, document_topics 2 2 0 (fun _ _ _ => 1) (fun _ _ => 1) start d3 0 = Ok l.
Proof. eexists. reflexivity. Qed.

(** The topics of a word come in the order of the topics, not of their relevance. *)
Theorem term_topics_sorted_refuted : exists m w x y, term_topics 2 m w (1/100) = [(0%nat, x); (1%nat, y)] /\ x < y.
Proof.
  exists (Lda fresh (fun k _ => INR (k + 1)) (fun _ => 1) (fun _ _ => 1) (fun _ _ => 1) 0 0 false false 0 0 []), 0%nat, 1, (1 + 1). split; [|lra].
  assert (M : Rmax (1 / 100) (1 / 100000000) = 1 / 100) by (apply Rmax_left; lra). unfold term_topics. cbn [seq map m_beta INR Nat.add filter snd fst]. rewrite M.
  destruct (Rle_dec (1 / 100) 1) as [_|X]; [|exfalso; apply X; lra]. destruct (Rle_dec (1 / 100) (1 + 1)) as [_|X]; [reflexivity | exfalso; apply X; lra].
Qed.
Print Assumptions term_topics_sorted_refuted.

(** [show_topics] shows as many topics as asked for, none of them twice. *)
Theorem chosen_topics_count : forall K num order, Permutation order (seq 0 K) -> (num <> 0)%Z ->
  NoDup (chosen_topics K num order) /\ incl (chosen_topics K num order) (seq 0 K) /\
  length (chosen_topics K num order) = if (num <? 0)%Z then K else Nat.min (Z.to_nat num) K.
Proof.
  intros K num order P Hn. assert (L : length order = K) by (rewrite (Permutation_length P), seq_length; reflexivity). assert (ND : NoDup order) by (apply (Permutation_NoDup (Permutation_sym P)); apply seq_NoDup).
  unfold chosen_topics. destruct (Z.ltb_spec num 0) as [A|A]; cbn [orb].
  - split; [apply seq_NoDup|]. split; [intros x Hx; exact Hx | apply seq_length].
  - destruct (Z.leb_spec (Z.of_nat K) num) as [B|B].
    + split; [apply seq_NoDup|]. split; [intros x Hx; exact Hx|]. rewrite seq_length. lia.
    + rewrite Z.min_l by lia. assert (Q : (- num / 2 = - (num - num / 2))%Z). { assert (X := Z.div_mod num 2 ltac:(lia)). assert (Y := Z.mod_pos_bound num 2 ltac:(lia)). assert (X2 := Z.div_mod (- num) 2 ltac:(lia)). assert (Y2 := Z.mod_pos_bound (- num) 2 ltac:(lia)). lia. }
      rewrite Q. assert (X := Z.div_mod num 2 ltac:(lia)). assert (Y := Z.mod_pos_bound num 2 ltac:(lia)). set (h := (num / 2)%Z) in *. destruct (Z.ltb_spec (- (num - h)) 0) as [C|C]; [|lia]. rewrite L.
      set (j := Z.to_nat (Z.of_nat K + - (num - h))). assert (Hj : (Z.to_nat h <= j)%nat) by (unfold j; lia).
      assert (Sub : forall (l : list nat) i j, (i <= j)%nat -> NoDup l -> NoDup (firstn i l ++ skipn j l)).
      { clear. induction l as [|x l IH]; intros i j Hij H; [rewrite firstn_nil, skipn_nil; constructor|]. inversion H as [|? ? H1 H2]; subst. destruct i as [|i]; destruct j as [|j]; cbn [firstn skipn app]; try lia; [exact H | |].
        - assert (W := IH 0%nat j ltac:(lia) H2). exact W.
        - constructor; [|apply IH; [lia | exact H2]]. intros W. apply in_app_or in W. destruct W as [W|W]; [apply H1; rewrite <- (firstn_skipn i l); apply in_or_app; left; exact W | apply H1; rewrite <- (firstn_skipn j l); apply in_or_app; right; exact W]. }
      split; [apply Sub; assumption|]. split.
      * intros x Hx. apply (Permutation_in _ P). apply in_app_or in Hx. destruct Hx as [Hx|Hx]; [rewrite <- (firstn_skipn (Z.to_nat h) order); apply in_or_app; left; exact Hx | rewrite <- (firstn_skipn j order); apply in_or_app; right; exact Hx].
      * rewrite app_length, firstn_length, skipn_length, L. unfold j. lia.
Qed.
Print Assumptions chosen_topics_count.
Example chosen_topics_ex : chosen_topics 5 3 [4; 2; 0; 1; 3]%nat = [4; 1; 3]%nat.
Proof. vm_compute. reflexivity. Qed.
(** If none are asked for, all are shown. *)
Theorem no_topics_refuted : exists K order, Permutation order (seq 0 K) /\ length (chosen_topics K 0 order) = 3%nat.
Proof. exists 3%nat, [0; 1; 2]%nat. split; [apply Permutation_refl | vm_compute; reflexivity]. Qed.
Print Assumptions no_topics_refuted.
