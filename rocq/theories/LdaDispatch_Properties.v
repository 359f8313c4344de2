(** C48: distributed LDA merges every job exactly once. *)

From Coq Require Import List Arith Bool Permutation Lia.
From Verif Require Import LdaDispatch_Model LdaDispatch_Spec LdaDispatch_Proofs.
Import ListNotations.

(** ** Safety, for every interleaving, number of workers, queue bound *)

Theorem getstate_exactly_once : forall maxsize bad W s acc,
  reach maxsize bad false W s ->
  s_phase s = Returned acc ->
  exactly_once acc (s_put s).
Proof.
  intros maxsize bad W s acc Hr Hp. apply inv_reach in Hr.
  destruct Hr as (_ & _ & _ & H). rewrite Hp in H. destruct H as (_ & Hc & _).
  apply cnt_perm. exact Hc.
Qed.
Print Assumptions getstate_exactly_once.

(** When the wait is over nothing is queued, held or unreported, and the
    workers hold between them exactly the jobs put. *)
Theorem wait_over_all_done : forall maxsize bad W s s',
  reach maxsize bad false W s ->
  s_phase s = Waiting ->
  step maxsize bad false s s' ->
  s_phase s' <> Waiting ->
  s_queue s' = [] /\ s_hold s' = [] /\ s_pend s' = []
  /\ exactly_once (gathered (s_states s')) (s_put s').
Proof.
  intros maxsize bad W s s' Hr Hp Hst Hn. pose proof Hr as Hr0.
  assert (Hr' : reach maxsize bad false W s') by (eapply reach_step; eassumption).
  apply inv_reach in Hr'. destruct Hr' as (_ & _ & _ & H).
  inversion Hst; subst; simpl in *; try congruence;
    try (unfold may_reset in *; rewrite Hp in *; discriminate).
  destruct H as ((Q1 & Q2 & Q3) & _ & _ & _ & Hc & _). repeat split; auto.
  apply cnt_perm. intro x. specialize (Hc x). exact Hc.
Qed.
Print Assumptions wait_over_all_done.

(** Every job is in exactly one place: waiting, held by one worker, in one
    worker's statistics, or lost to an E step that failed. *)
Theorem jobs_conserved : forall maxsize bad W s,
  reach maxsize bad false W s ->
  s_phase s = Running \/ s_phase s = Waiting ->
  exists lost,
    Permutation (s_queue s ++ map snd (s_hold s) ++ gathered (s_states s) ++ lost)
                (s_put s)
    /\ (forall x, In x lost -> bad x = true)
    /\ (forall x, In x (gathered (s_states s)) -> bad x = false)
    /\ s_done s <= length (gathered (s_states s))
    /\ length (gathered (s_states s)) <= s_recv s.
Proof.
  intros maxsize bad W s Hr Hp. apply inv_reach in Hr.
  destruct Hr as (_ & _ & _ & H).
  assert (A : active bad s /\ putting (s_phase s) = []).
  { destruct Hp as [Hp|Hp]; rewrite Hp in *; auto. }
  destruct A as ((A1 & A2 & (lost & Hc & Hb & Hk) & A4 & A5 & A6) & Hpp).
  rewrite Hpp in Hc.
  pose proof (active_len _ _ _ _ _ _ Hc) as Hl. simpl in Hl.
  exists lost. repeat split; auto; try lia.
  apply cnt_perm. intro x. specialize (Hc x). rewrite !cnt_app. rewrite cnt_nil in Hc. lia.
Qed.
Print Assumptions jobs_conserved.

(** ** A failing E step *)

(** [getstate] never returns in an epoch with a job whose E step fails... *)
Theorem failed_job_never_returned : forall maxsize bad W s acc j,
  reach maxsize bad false W s ->
  s_phase s = Returned acc ->
  In j (s_put s) -> bad j = false.
Proof.
  intros maxsize bad W s acc j Hr Hp Hj. apply inv_reach in Hr.
  destruct Hr as (_ & _ & _ & H). rewrite Hp in H. destruct H as (_ & _ & Hb).
  apply Hb. exact Hj.
Qed.
Print Assumptions failed_job_never_returned.

Lemma wait_blocked : forall bad W s j,
  inv bad W s -> s_phase s = Waiting -> In j (s_put s) -> bad j = true ->
  s_done s < s_recv s.
Proof.
  intros bad W s j (_ & _ & _ & H) Hp Hj Hb. rewrite Hp in H.
  destruct H as (A1 & A2 & (lost & Hc & Hbl & Hk) & A4 & A5 & A6). rewrite Hp in Hc.
  simpl in Hc. pose proof (active_len _ _ _ _ _ _ Hc) as Hl. simpl in Hl.
  rewrite A5. apply cnt_In in Hj. specialize (Hc j). rewrite cnt_nil in Hc.
  assert (cnt (gathered (s_states s)) j = 0).
  { destruct (cnt (gathered (s_states s)) j) eqn:E; auto. exfalso.
    assert (In j (gathered (s_states s))) by (apply cnt_In; lia).
    apply A4 in H. congruence. }
  assert (cnt (s_queue s) j <= length (s_queue s)) by (unfold cnt; apply count_occ_bound).
  assert (cnt (map snd (s_hold s)) j <= length (s_hold s)).
  { rewrite <- (map_length snd (s_hold s)). unfold cnt; apply count_occ_bound. }
  assert (cnt lost j <= length lost) by (unfold cnt; apply count_occ_bound).
  lia.
Qed.

(** ... it waits for ever: whatever happens next, it is still waiting. *)
Theorem failed_job_hangs : forall maxsize bad W s s' j,
  reach maxsize bad false W s ->
  s_phase s = Waiting -> In j (s_put s) -> bad j = true ->
  steps maxsize bad false s s' ->
  s_phase s' = Waiting.
Proof.
  intros maxsize bad W s s' j Hr Hp Hj Hb Hs.
  assert (G : inv bad W s' /\ s_phase s' = Waiting /\ In j (s_put s')); [|tauto].
  induction Hs as [s|s s' s'' Hs IH Hst].
  - split; auto. eapply inv_reach; eassumption.
  - destruct (IH Hr Hp Hj) as (Hi & Hp' & Hj'). clear IH.
    split; [eapply inv_step; eassumption|].
    pose proof (wait_blocked _ _ _ _ Hi Hp' Hj' Hb) as Hlt.
    inversion Hst; subst; simpl in *; try (split; [auto|assumption]); try congruence.
    + unfold may_reset in *. rewrite Hp' in *. discriminate.
    + lia.
Qed.
Print Assumptions failed_job_hangs.

(** ** Without failing jobs the calls return *)

Definition all_good (bad : job -> bool) (s : state) : Prop :=
  forall x, In x (s_put s) -> bad x = false.

Lemma lost_nil : forall (bad : job -> bool) (lost pt : list job),
  (forall x, In x lost -> bad x = true) ->
  (forall x, In x pt -> bad x = false) ->
  (forall x, cnt lost x <= cnt pt x) -> lost = [].
Proof.
  intros bad lost pt H1 H2 H3. destruct lost as [|y t]; auto. exfalso.
  assert (In y pt).
  { apply cnt_In. specialize (H3 y). rewrite cnt_cons in H3.
    assert (cnt [y] y = 1) by (unfold cnt; simpl; destruct (Nat.eq_dec y y); congruence). lia. }
  specialize (H2 y H). specialize (H1 y (or_introl eq_refl)). congruence.
Qed.

(** [getstate] cannot get stuck, and every action while it runs brings its
    return nearer: it returns after at most [work_left] actions, whatever
    the interleaving. *)
Theorem getstate_returns : forall maxsize bad W s,
  reach maxsize bad false W s ->
  0 < W -> all_good bad s ->
  (s_phase s = Waiting \/ exists k acc, s_phase s = Merging k acc) ->
  (exists s', step maxsize bad false s s')
  /\ (forall s', step maxsize bad false s s' ->
        work_left s' < work_left s /\ s_put s' = s_put s
        /\ (s_phase s' = Waiting \/ (exists k acc, s_phase s' = Merging k acc)
            \/ exists acc, s_phase s' = Returned acc)).
Proof.
  intros maxsize bad W s Hr HW Hg Hp. apply inv_reach in Hr.
  destruct Hr as (HL & HF & HT & H).
  destruct s as [ph q dn rc ask hold pend sts fin pt].
  unfold all_good, tok in *. simpl in *.
  destruct Hp as [Hp|(k & acc & Hp)]; subst ph.
  - destruct H as (A1 & A2 & (lost & Hc & Hb & Hk) & A4 & A5 & A6). simpl in *.
    assert (Hlo : lost = []).
    { apply (lost_nil bad lost pt); auto. intro x. specialize (Hc x). lia. }
    specialize (Hk Hlo). subst lost. split.
    + (* not stuck *)
      destruct hold as [|(w, j) hold'].
      2:{ assert (Hw : w < W) by (apply HT; simpl; auto).
          destruct (nth_error sts w) as [o|] eqn:E.
          2:{ apply nth_error_None in E. lia. }
          destruct (A1 _ _ E) as (l & ->).
          eexists. apply (st_process _ _ _ _ [] w j hold' l); simpl; auto.
          apply Hg. apply cnt_In. specialize (Hc j). simpl in Hc. rewrite cnt_cons in Hc.
          assert (cnt [j] j = 1) by (unfold cnt; simpl; destruct (Nat.eq_dec j j); congruence).
          lia. }
      destruct pend as [|w pend'].
      2:{ eexists. apply (st_done _ _ _ _ [] w pend'); reflexivity. }
      destruct q as [|j q'].
      2:{ destruct (Hk 0) as [Hin|[[]|[]]]; [lia|]. simpl in Hin.
          apply in_split in Hin. destruct Hin as (a & b & ->).
          eexists. eapply st_get; simpl; reflexivity. }
      pose proof (active_len _ _ _ _ _ _ Hc) as Hl. simpl in Hl.
      eexists. apply st_wait; simpl; auto. simpl in *. lia.
    + (* progress *)
      intros s' Hst. inversion Hst; subst; clear Hst; simpl in *; try discriminate;
        unfold work_left; simpl; subst.
      * split; [lia|]. split; auto. right; left; eauto.
      * split; [rewrite !app_length; simpl; lia|]. split; auto.
      * specialize (A2 _ _ H0). discriminate.
      * rewrite length_set_nth. split; [rewrite !app_length; simpl; lia|]. split; auto.
      * split; [rewrite !app_length; simpl; lia|]. split; auto.
      * split; [rewrite !app_length; simpl; lia|]. split; auto.
  - destruct H as ((Q1 & Q2 & Q3) & Hk & Hn & Hs & Hc & Hb). simpl in *. subst q hold pend.
    split.
    + destruct (Nat.eq_dec k W) as [->|Hne].
      * eexists. apply (st_return _ _ _ _ acc); simpl; congruence.
      * destruct (nth_error sts k) as [o|] eqn:E.
        2:{ apply nth_error_None in E. lia. }
        destruct (Hs _ _ E (le_n _)) as (l & ->).
        eexists. eapply st_merge; simpl; eauto.
    + intros s' Hst. inversion Hst; subst; clear Hst; simpl in *; try discriminate;
        unfold work_left; simpl; subst;
        try (match goal with H : [] = _ ++ _ :: _ |- _ => destruct (nil_mid _ _ _ H) end).
      * injection H as -> ->. rewrite length_set_nth.
        pose proof (nth_len _ _ _ H0). split; [lia|]. split; auto. right; left; eauto.
      * injection H as -> ->. split; [lia|]. split; auto. right; right; eauto.
      * split; [rewrite !app_length; simpl; lia|]. split; auto. right; left; eauto.
Qed.
Print Assumptions getstate_returns.

(** [putjob] does not block for ever on the bounded queue. *)
Theorem putjob_returns : forall maxsize bad W s j,
  reach maxsize bad false W s ->
  0 < W -> all_good bad s ->
  s_phase s = Putting j ->
  (exists s', step maxsize bad false s s')
  /\ (forall s', step maxsize bad false s s' ->
        s_put s' = s_put s
        /\ (s_phase s' = Running \/ (s_phase s' = Putting j /\ work_left s' < work_left s))).
Proof.
  intros maxsize bad W s j0 Hr HW Hg Hp. apply inv_reach in Hr.
  destruct Hr as (HL & HF & HT & H).
  destruct s as [ph q dn rc ask hold pend sts fin pt].
  unfold all_good, tok in *. simpl in *. subst ph.
  destruct H as (A1 & A2 & (lost & Hc & Hb & Hk) & A4 & A5 & A6). simpl in *.
  assert (Hlo : lost = []).
  { apply (lost_nil bad lost pt); auto. intro x. specialize (Hc x). lia. }
  specialize (Hk Hlo). subst lost. split.
  - destruct (room maxsize q) eqn:R.
    { eexists. eapply st_put_end; simpl; eauto. }
    destruct hold as [|(w, j) hold'].
    2:{ assert (Hw : w < W) by (apply HT; simpl; auto).
        destruct (nth_error sts w) as [o|] eqn:E.
        2:{ apply nth_error_None in E. lia. }
        destruct (A1 _ _ E) as (l & ->).
        eexists. apply (st_process _ _ _ _ [] w j hold' l); simpl; auto.
        apply Hg. apply cnt_In. specialize (Hc j). simpl in Hc.
        rewrite (cnt_cons j (map snd hold')) in Hc.
        assert (cnt [j] j = 1) by (unfold cnt; simpl; destruct (Nat.eq_dec j j); congruence).
        lia. }
    destruct pend as [|w pend'].
    2:{ eexists. apply (st_done _ _ _ _ [] w pend'); reflexivity. }
    destruct q as [|j q'].
    2:{ destruct (Hk 0) as [Hin|[[]|[]]]; [lia|]. simpl in Hin.
        apply in_split in Hin. destruct Hin as (a & b & ->).
        eexists. eapply st_get; simpl; reflexivity. }
    unfold room in R. simpl in R. destruct maxsize; discriminate.
  - intros s' Hst. inversion Hst; subst; clear Hst; simpl in *; try discriminate;
      unfold work_left; simpl; subst.
    + split; auto.
    + split; auto. right. split; [auto|]. rewrite !app_length; simpl; lia.
    + specialize (A2 _ _ H0). discriminate.
    + split; auto. right. split; [auto|]. rewrite !app_length; simpl; lia.
    + split; auto. right. split; [auto|]. rewrite !app_length; simpl; lia.
    + split; auto. right. split; [auto|]. rewrite !app_length; simpl; lia.
Qed.
Print Assumptions putjob_returns.

(** ** The client keeps to the discipline *)

Theorem reset_discipline : forall s,
  may_reset false s = true <->
  exists c, client_state s = Some c /\ call_next c CReset <> None.
Proof.
  intros s. unfold may_reset, client_state.
  destruct (s_phase s); simpl; split; intro H; try discriminate; auto;
    try (destruct H as (c & Hc & _); discriminate);
    try (eexists; split; [reflexivity|discriminate]).
  - destruct (s_put s); [|discriminate]. eexists; split; [reflexivity|discriminate].
  - destruct H as (c & Hc & Hn). destruct (s_put s); auto.
    injection Hc as <-. simpl in Hn. congruence.
Qed.
Print Assumptions reset_discipline.

Lemma calls_app : forall a b c,
  calls_from c (a ++ b)
  = match calls_from c a with Some c' => calls_from c' b | None => None end.
Proof.
  induction a as [|k t IH]; intros b c; simpl; auto.
  destruct (call_next c k); auto.
Qed.

Lemma pass_loop_calls : forall (every : nat) (chunks : list job) (chunk_no : nat) (dirty : bool),
  exists c, calls_from (if dirty then OpenDirty else OpenClean)
                       (pass_loop every chunk_no dirty chunks) = Some c
            /\ c <> OpenDirty.
Proof.
  induction chunks as [|x t IH]; intros chunk_no dirty; simpl.
  - destruct dirty; simpl; eexists; split; try reflexivity; discriminate.
  - destruct (negb (every =? 0) && (S chunk_no mod every =? 0)).
    + destruct (IH (S chunk_no) false) as (c & Hc & Hn).
      exists c. split; auto. destruct dirty; simpl; exact Hc.
    + destruct (IH (S chunk_no) true) as (c & Hc & Hn).
      exists c. split; auto. destruct dirty; simpl; exact Hc.
Qed.

Lemma puts_app : forall a b, puts (a ++ b) = puts a ++ puts b.
Proof. intros. unfold puts. apply flat_map_app. Qed.

Lemma pass_loop_puts : forall (every : nat) (chunks : list job) (chunk_no : nat) (dirty : bool),
  puts (pass_loop every chunk_no dirty chunks) = chunks.
Proof.
  induction chunks as [|x t IH]; intros chunk_no dirty; simpl.
  - destruct dirty; reflexivity.
  - destruct (negb (every =? 0) && (S chunk_no mod every =? 0)); simpl; rewrite IH; reflexivity.
Qed.

(** Any number of passes, any update interval, one [update] after another:
    the calls obey the discipline, every chunk is put once per pass, in
    order, and no epoch is left with unmerged chunks. *)
Theorem update_keeps_discipline : forall every passes c,
  c <> OpenDirty ->
  puts (update_calls every passes) = concat passes
  /\ exists c', calls_from c (update_calls every passes) = Some c' /\ c' <> OpenDirty.
Proof.
  intros every passes. induction passes as [|p t IH]; intros c Hc; simpl.
  - split; auto. exists c. auto.
  - destruct (pass_loop_calls every p 0 false) as (c1 & Hc1 & Hn1).
    destruct (IH c1 Hn1) as (Hp & c2 & Hc2 & Hn2).
    split.
    + rewrite puts_app, pass_loop_puts. f_equal. exact Hp.
    + exists c2. split; auto.
      assert (E : call_next c CReset = Some OpenClean) by (destruct c; auto; congruence).
      rewrite E. rewrite calls_app. simpl in Hc1. rewrite Hc1. exact Hc2.
Qed.
Print Assumptions update_keeps_discipline.

(** ** Computed executions *)

Lemma take1_ok : forall w l a b, take1 w l = Some (a, b) -> l = a ++ w :: b.
Proof.
  induction l as [|x t IH]; intros a b H; simpl in H; [discriminate|].
  destruct (Nat.eqb_spec x w) as [->|Hn].
  - injection H as <- <-. reflexivity.
  - destruct (take1 w t) as [[a' b']|]; [|discriminate].
    injection H as <- <-. simpl. f_equal. apply IH. reflexivity.
Qed.

Lemma take2_ok : forall w l a j b, take2 w l = Some (a, j, b) -> l = a ++ (w, j) :: b.
Proof.
  induction l as [|(x, i) t IH]; intros a j b H; simpl in H; [discriminate|].
  destruct (Nat.eqb_spec x w) as [->|Hn].
  - injection H as <- <- <-. reflexivity.
  - destruct (take2 w t) as [[[a' j'] b']|]; [|discriminate].
    injection H as <- <- <-. simpl. f_equal. apply IH. reflexivity.
Qed.

Lemma exec1_step : forall maxsize bad aborts s a s',
  exec1 maxsize bad aborts s a = Some s' -> step maxsize bad aborts s s'.
Proof.
  intros maxsize bad aborts s a s' H.
  destruct a; simpl in H.
  - destruct (may_reset aborts s) eqn:E; [|discriminate]. injection H as <-.
    apply st_reset; auto.
  - destruct (s_phase s) eqn:E; try discriminate.
    destruct (Nat.ltb_spec k (length (s_states s))); [|discriminate]. injection H as <-.
    eapply st_reset_worker; eauto.
  - destruct (s_phase s) eqn:E; try discriminate.
    destruct (Nat.eqb_spec k (length (s_states s))); [|discriminate]. injection H as <-.
    apply st_reset_end. congruence.
  - destruct (s_phase s) eqn:E; try discriminate. injection H as <-. apply st_put; auto.
  - destruct (s_phase s) eqn:E; try discriminate.
    destruct (room maxsize (s_queue s)) eqn:R; [|discriminate]. injection H as <-.
    eapply st_put_end; eauto.
  - destruct (s_phase s) eqn:E; try discriminate. injection H as <-. apply st_getstate; auto.
  - destruct (s_phase s) eqn:E; try discriminate.
    destruct (Nat.leb_spec (s_recv s) (s_done s)); [|discriminate]. injection H as <-.
    apply st_wait; auto.
  - destruct (s_phase s) eqn:E; try discriminate.
    destruct (nth_error (s_states s) k) as [[l|]|] eqn:E2; try discriminate.
    injection H as <-. eapply st_merge; eauto.
  - destruct (s_phase s) eqn:E; try discriminate.
    destruct (Nat.eqb_spec k (length (s_states s))); [|discriminate]. injection H as <-.
    eapply st_return. rewrite E. congruence.
  - destruct (take1 w (s_ask s)) as [[a b]|] eqn:E; [|discriminate].
    destruct (s_queue s) as [|j q] eqn:Q; [discriminate|]. injection H as <-.
    eapply st_get; eauto. apply take1_ok; eauto.
  - destruct (take1 w (s_ask s)) as [[a b]|] eqn:E; [|discriminate].
    destruct (nth_error (s_fin s) w) as [[|]|] eqn:F; try discriminate. injection H as <-.
    eapply st_stop; eauto. apply take1_ok; eauto.
  - destruct (take2 w (s_hold s)) as [[[a j] b]|] eqn:E; [|discriminate].
    apply take2_ok in E. destruct (bad j) eqn:B.
    + injection H as <-. eapply st_crash; eauto.
    + destruct (nth_error (s_states s) w) as [[l|]|] eqn:F; try discriminate;
        injection H as <-; [eapply st_process|eapply st_crash]; eauto.
  - destruct (take1 w (s_pend s)) as [[a b]|] eqn:E; [|discriminate]. injection H as <-.
    eapply st_done; eauto. apply take1_ok; eauto.
Qed.

Lemma exec_reach : forall maxsize bad aborts W l s s',
  reach maxsize bad aborts W s ->
  exec maxsize bad aborts s l = Some s' -> reach maxsize bad aborts W s'.
Proof.
  induction l as [|a t IH]; intros s s' Hr H; simpl in H.
  - congruence.
  - destruct (exec1 maxsize bad aborts s a) as [s1|] eqn:E; [|discriminate].
    apply (IH s1); auto. eapply reach_step; eauto. eapply exec1_step; eauto.
Qed.

Definition no_bad : job -> bool := fun _ => false.

(** Two workers, three jobs, a queue of one: worker 1 takes jobs 7 and 9,
    worker 0 job 8; the merged state has all three.  Then a second epoch, in
    which a [requestjob] of worker 1 that never noticed the end of the first
    one still asks (so worker 1 asks twice): still exactly once. *)
Definition run1 : list act :=
  [AReset; AResetW; AResetW; AResetEnd;
   APut 7; APutEnd; AGet 1; APut 8; APutEnd; AProc 1; AGet 0; APut 9; ADone 1;
   APutEnd; AGet 1; AGetstate; AProc 0; AProc 1; ADone 1; ADone 0;
   AWait; AMerge; AMerge; AReturn].
Definition run2 : list act :=
  [AStop 0; AReset; AResetW; AResetW; AResetEnd; APut 5; APutEnd; AGet 1;
   APut 6; APutEnd; AGet 1; AGetstate; AProc 1; ADone 1; AProc 1; ADone 1;
   AWait; AMerge; AMerge; AReturn].

Example two_epochs :
  option_map (fun s => (s_phase s, s_put s)) (exec 1 no_bad false (init 2) run1)
    = Some (Returned [8; 7; 9], [7; 8; 9])
  /\ option_map (fun s => (s_phase s, s_put s, s_ask s))
       (exec 1 no_bad false (init 2) (run1 ++ run2))
    = Some (Returned [6; 5], [5; 6], [1; 1; 0])
  /\ exec 1 no_bad false (init 2)
       [AReset; AResetW; AResetW; AResetEnd; APut 7; APutEnd; AGetstate; AGet 1; AWait] = None.
Proof. vm_compute. auto. Qed.

(** A job whose E step fails: every possible continuation still waits. *)
Definition bad8 : job -> bool := fun j => j =? 8.

Example failing_job :
  exists s, reach 10 bad8 false 2 s /\ s_phase s = Waiting /\ In 8 (s_put s)
    /\ s_queue s = [] /\ s_hold s = [] /\ s_pend s = [] /\ s_done s = 1 /\ s_recv s = 2.
Proof.
  destruct (exec 10 bad8 false (init 2)
    [AReset; AResetW; AResetW; AResetEnd; APut 7; APutEnd; APut 8; APutEnd;
     AGet 0; AGet 1; AProc 1; AProc 0; ADone 0; AGetstate]) as [s|] eqn:E;
    [|vm_compute in E; discriminate].
  exists s. split.
  - eapply exec_reach; [apply reach_init|exact E].
  - vm_compute in E. injection E as <-. simpl. repeat split; auto.
Qed.

(** An epoch the client gives up (an exception between [putjob] and
    [getstate], then a new [update]) spoils the next one: the leftover job is
    counted and merged instead of the new one. *)
Theorem abandoned_epoch_refuted :
  exists s acc, reach 10 no_bad true 2 s /\ s_phase s = Returned acc
    /\ s_put s = [2] /\ acc = [1] /\ s_queue s = [2]
    /\ ~ exactly_once acc (s_put s).
Proof.
  destruct (exec 10 no_bad true (init 2)
    [AReset; AResetW; AResetW; AResetEnd; APut 1; APutEnd;
     AReset; AResetW; AResetW; AResetEnd; APut 2; APutEnd; AGet 0; AProc 0; ADone 0;
     AGetstate; AWait; AMerge; AMerge; AReturn]) as [s|] eqn:E;
    [|vm_compute in E; discriminate].
  exists s, [1]. split.
  - eapply exec_reach; [apply reach_init|exact E].
  - vm_compute in E. injection E as <-. simpl. repeat split; auto.
    intro H. apply Permutation_length_1 in H. discriminate.
Qed.
Print Assumptions abandoned_epoch_refuted.

Example update_example :
  update_calls 2 [[1; 2; 3]; [1; 2]]
  = [CReset; CPut 1; CPut 2; CGetstate; CReset; CPut 3; CGetstate;
     CReset; CPut 1; CPut 2; CGetstate; CReset]
  /\ calls_from Closed (update_calls 2 [[1; 2; 3]; [1; 2]]) = Some OpenClean
  /\ calls_from Closed [CReset; CPut 1; CReset] = None.
Proof. vm_compute. auto. Qed.
