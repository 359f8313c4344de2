(** * Proofs about the parallel occurrence accumulator. *)
From Coq Require Import List Bool Arith Lia ZifyBool Permutation.
From Verif Require Import Base Str Utils_Model Utils_Properties CohAccum_Model CohAccum_Spec CohAccum_Proofs.

Lemma set_worker_split ws i x y : nth_error ws i = Some x ->
  exists l1 l2, ws = l1 ++ x :: l2 /\ set_worker ws i y = l1 ++ y :: l2.
Proof.
  intros E. apply nth_error_split in E. destruct E as (l1 & l2 & -> & <-). exists l1, l2. split; [reflexivity|].
  unfold set_worker. rewrite firstn_app, Nat.sub_diag, firstn_all, firstn_O, app_nil_r. f_equal. f_equal.
  replace (S (length l1)) with (length (l1 ++ [x])) by (rewrite app_length; cbn; lia).
  change (l1 ++ x :: l2) with (l1 ++ [x] ++ l2). rewrite app_assoc, skipn_app, skipn_all, Nat.sub_diag. reflexivity.
Qed.

Definition ended (w : worker) : bool := match w with Ended => true | _ => false end.
Definition alive (ws : list worker) : nat := length (filter (fun w => negb (ended w)) ws).

Lemma alive_app l1 l2 : alive (l1 ++ l2) = alive l1 + alive l2.
Proof. unfold alive. now rewrite filter_app, app_length. Qed.
Lemma alive_cons x l : alive (x :: l) = (if ended x then 0 else 1) + alive l.
Proof. unfold alive. cbn [filter]. destruct (ended x); reflexivity. Qed.

Lemma alive_le ws : alive ws <= length ws.
Proof. unfold alive. induction ws as [|x ws IH]; cbn; [lia|]. destruct (negb (ended x)); cbn; lia. Qed.

Lemma alive_ex ws : alive ws <> 0 -> exists i, (exists a, nth_error ws i = Some (Waiting a)) \/ (exists a b, nth_error ws i = Some (Working a b)).
Proof.
  induction ws as [|x ws IH]; [cbn; lia|]. rewrite alive_cons. destruct x as [a|a b|]; cbn [ended].
  - intros _. exists 0. left. exists a. reflexivity.
  - intros _. exists 0. right. exists a, b. reflexivity.
  - intros H. destruct IH as [i Hi]; [lia|]. exists (S i). exact Hi.
Qed.

Section Par.
  Variable v w n : nat.
  Hypothesis Hw : 1 <= w.
  Hypothesis Hn : 1 <= n.

  Definition good_batch (b : list (list nat)) : Prop := Forall (good_text v) b.

  Definition wf_worker (x : worker) : Prop :=
    match x with Waiting a => wf v a | Working a b => wf v a /\ good_batch b | Ended => True end.

  Section Val.
    Variable val : occ_state -> nat.
    Variable cost : list (list nat) -> nat.
    Hypothesis Hval : forall s b s', wf v s -> good_batch b -> partial_accumulate s b w = Ok s' -> val s' = val s + cost b.
    Hypothesis Hinit : val (occ_init v) = 0.
    Hypothesis Hmerge : forall a b, wf v a -> wf v b -> val (merge a b) = val a + val b.

    Definition wval (x : worker) : nat :=
      match x with Waiting a => val a | Working a b => val a + cost b | Ended => 0 end.

    Definition sumf {A} (f : A -> nat) (l : list A) : nat := list_sum_nat (map f l).
    Lemma sumf_app {A} (f : A -> nat) l l' : sumf f (l ++ l') = sumf f l + sumf f l'.
    Proof. unfold sumf. rewrite map_app. apply list_sum_nat_app. Qed.
    Lemma sumf_cons {A} (f : A -> nat) x l : sumf f (x :: l) = f x + sumf f l.
    Proof. reflexivity. Qed.

    Variable all : nat.

    Record inv (s : par_state) : Prop := INV {
      inv_msgs : exists bs, input_q s ++ todo s = map Some bs ++ repeat None (alive (workers s)) /\
         Forall good_batch bs /\ (alive (workers s) < n -> bs = []) /\
         sumf wval (workers s) + sumf val (output_q s) + sumf cost bs = all;
      inv_len : length (workers s) = n;
      inv_out : length (output_q s) + alive (workers s) = n;
      inv_wf : Forall wf_worker (workers s);
      inv_owf : Forall (wf v) (output_q s)
    }.

    Lemma wf_init : wf v (occ_init v).
    Proof. split; cbn [occ_init occ uniq]; rewrite repeat_length; reflexivity. Qed.

    Lemma init_inv bs : Forall good_batch bs -> sumf cost bs = all -> inv (par_init n v bs).
    Proof.
      intros HF HS. unfold par_init.
      assert (AL : alive (repeat (Waiting (occ_init v)) n) = n).
      { clear. induction n; [reflexivity|]. cbn [repeat]. rewrite alive_cons, IHn0. reflexivity. }
      constructor; cbn [todo input_q workers output_q].
      - exists bs. rewrite AL. split; [reflexivity|]. split; [exact HF|]. split; [lia|].
        rewrite <- HS. unfold sumf at 2. cbn [map list_sum_nat fold_right].
        enough (sumf wval (repeat (Waiting (occ_init v)) n) = 0) by lia.
        clear - Hinit. induction n; [reflexivity|]. cbn [repeat]. rewrite sumf_cons, IHn0. cbn [wval]. lia.
      - now rewrite repeat_length.
      - rewrite AL. reflexivity.
      - apply Forall_forall. intros x HI. apply repeat_spec in HI. subst x. apply wf_init.
      - constructor.
    Qed.

    Lemma step_inv s s' : inv s -> par_step n w s s' -> inv s'.
    Proof.
      intros HI HS. destruct HI as [(bs & M1 & M2 & M3 & M4) L O WF OW]. inversion HS; subst; cbn [todo input_q workers output_q] in *.
      - (* put *) constructor; cbn [todo input_q workers output_q]; auto. exists bs. rewrite <- app_assoc. auto.
      - (* get *)
        destruct (set_worker_split ws i _ (Working a b) H) as (l1 & l2 & E1 & E2). rewrite E2. subst ws.
        rewrite !alive_app, !alive_cons in *. cbn [ended] in *.
        destruct bs as [|b' bs].
        { exfalso. cbn [map app] in M1. rewrite Nat.add_succ_r in M1. cbn [repeat] in M1. discriminate M1. }
        cbn [map app] in M1. injection M1 as Eb M1. subst b'. inversion M2; subst.
        assert (AL : ~ alive l1 + (1 + alive l2) < n) by (intros C; specialize (M3 C); discriminate).
        apply Forall_app in WF. destruct WF as [WF1 WF2]. inversion WF2; subst.
        constructor; cbn [todo input_q workers output_q]; rewrite ?alive_app, ?alive_cons; cbn [ended]; auto.
        + exists bs. split; [exact M1|]. split; [assumption|]. split; [lia|].
          rewrite sumf_app, sumf_cons in *. cbn [wval] in *. rewrite sumf_cons in M4. lia.
        + rewrite app_length in *. cbn [length] in *. lia.
        + apply Forall_app. split; [exact WF1|]. constructor; [|assumption]. split; assumption.
      - (* work *)
        destruct (set_worker_split ws i _ (Waiting a') H) as (l1 & l2 & E1 & E2). rewrite E2. subst ws.
        rewrite !alive_app, !alive_cons in *. cbn [ended] in *.
        apply Forall_app in WF. destruct WF as [WF1 WF2]. inversion WF2 as [|? ? WFab WF3]; subst. destruct WFab as [WFa WFb].
        destruct (partial_ok v w Hw a b WFa WFb) as (a2 & Q & WFa' & _). rewrite Q in H0. injection H0 as ->.
        constructor; cbn [todo input_q workers output_q]; rewrite ?alive_app, ?alive_cons; cbn [ended]; auto.
        + exists bs. split; [exact M1|]. split; [assumption|]. split; [exact M3|].
          rewrite sumf_app, sumf_cons in *. cbn [wval] in *. rewrite (Hval a b a') by assumption. lia.
        + rewrite app_length in *. cbn [length] in *. lia.
        + apply Forall_app. split; [exact WF1|]. constructor; [|assumption]. exact WFa'.
      - (* fail *) exfalso.
        assert (WFi : wf_worker (Working a b)). { rewrite Forall_forall in WF. apply WF. eapply nth_error_In; eauto. }
        destruct WFi as [WFa WFb]. destruct (partial_ok v w Hw a b WFa WFb) as (a2 & Q & _). congruence.
      - (* end *)
        destruct (set_worker_split ws i _ Ended H) as (l1 & l2 & E1 & E2). rewrite E2. subst ws.
        rewrite !alive_app, !alive_cons in *. cbn [ended] in *.
        destruct bs as [|b' bs]; [|discriminate M1].
        cbn [map app] in M1. rewrite Nat.add_succ_r in M1. cbn [repeat] in M1. injection M1 as M1.
        apply Forall_app in WF. destruct WF as [WF1 WF2]. inversion WF2; subst.
        constructor; cbn [todo input_q workers output_q]; rewrite ?alive_app, ?alive_cons; cbn [ended]; auto.
        + exists []. split; [exact M1|]. split; [constructor|]. split; [reflexivity|].
          rewrite !sumf_app, !sumf_cons in *. cbn [wval] in *. unfold sumf in *. cbn [map list_sum_nat fold_right] in *. lia.
        + rewrite app_length in *. cbn [length] in *. lia.
        + rewrite app_length in *. cbn [length] in *. lia.
        + apply Forall_app. split; [exact WF1|]. constructor; [exact I|assumption].
        + apply Forall_app. split; [exact OW|]. constructor; [assumption|constructor].
    Qed.

    Lemma steps_inv s s' : inv s -> steps (par_step n w) s s' -> inv s'.
    Proof. intros HI HS. induction HS; [exact HI|]. eauto using step_inv. Qed.

    Lemma merge_wf a b : wf v a -> wf v b -> wf v (merge a b).
    Proof.
      intros [A1 A2] [B1 B2]. split; cbn [merge occ uniq]; [|exact A2]. rewrite map_length, combine_length. lia.
    Qed.

    Lemma fold_merge : forall l a, wf v a -> Forall (wf v) l ->
      wf v (fold_left merge l a) /\ val (fold_left merge l a) = val a + sumf val l.
    Proof.
      induction l as [|b l IH]; intros a HA HF; cbn [fold_left].
      - split; [exact HA|]. unfold sumf. cbn. lia.
      - inversion HF; subst. destruct (IH (merge a b)) as [I1 I2]; [now apply merge_wf|assumption|].
        split; [exact I1|]. rewrite I2, Hmerge by assumption. rewrite sumf_cons. lia.
    Qed.

    Lemma done_val s : inv s -> par_done s -> wf v (fold_left merge (output_q s) (occ_init v)) /\
      val (fold_left merge (output_q s) (occ_init v)) = all.
    Proof.
      intros HI [D1 D2]. destruct HI as [(bs & M1 & M2 & M3 & M4) L O WF OW].
      assert (A0 : alive (workers s) = 0) by lia.
      destruct (fold_merge (output_q s) (occ_init v) wf_init OW) as [F1 F2]. split; [exact F1|].
      rewrite F2, Hinit. rewrite M3 in M4 by lia.
      assert (W0 : sumf wval (workers s) = 0).
      { clear - A0. induction (workers s) as [|x ws IH]; [reflexivity|]. rewrite alive_cons in A0. rewrite sumf_cons.
        destruct x; cbn [ended] in A0; try lia. rewrite IH by lia. reflexivity. }
      rewrite W0 in M4. unfold sumf at 2 in M4. cbn in M4. lia.
    Qed.

    Lemma inv_progress s : inv s -> ~ par_done s -> exists s', par_step n w s s'.
    Proof.
      intros HI HD. destruct HI as [(bs & M1 & M2 & M3 & M4) L O WF OW]. destruct s as [t q ws o]. cbn [todo input_q workers output_q] in *.
      destruct (Nat.eq_dec (alive ws) 0) as [A0|A0].
      - exfalso. apply HD. rewrite (M3 ltac:(lia)), A0 in M1. cbn in M1. apply app_eq_nil in M1. destruct M1; subst.
        split; cbn [todo output_q workers]; [reflexivity|lia].
      - destruct (alive_ex ws A0) as [i [[a E]|(a & b & E)]].
        + destruct q as [|[b|] q].
          * destruct t as [|m t].
            { exfalso. cbn in M1. destruct (alive ws); [lia|]. destruct bs; discriminate M1. }
            eexists. apply step_put. cbn. lia.
          * eexists. eapply step_get; eauto.
          * eexists. eapply step_end; eauto.
        + destruct (partial_accumulate a b w) as [a'|e] eqn:Q.
          * eexists. eapply step_work; eauto.
          * eexists. eapply step_fail; eauto.
    Qed.
  End Val.

End Par.

  (** Every step makes this smaller. *)
  Definition busy (x : worker) : nat := match x with Working _ _ => 1 | _ => 0 end.
  Definition work_left (s : par_state) : nat :=
    3 * length (todo s) + 2 * length (input_q s) + sumf busy (workers s).

  Lemma step_less n w s s' : par_step n w s s' -> work_left s' < work_left s.
  Proof.
    intros HS. unfold work_left. inversion HS; subst; cbn [todo input_q workers output_q].
    - rewrite app_length. cbn [length]. lia.
    - destruct (set_worker_split ws i _ (Working a b) H) as (l1 & l2 & E1 & E2). rewrite E2. subst ws.
      rewrite !sumf_app, !sumf_cons. cbn [busy length]. lia.
    - destruct (set_worker_split ws i _ (Waiting a') H) as (l1 & l2 & E1 & E2). rewrite E2. subst ws.
      rewrite !sumf_app, !sumf_cons. cbn [busy]. lia.
    - destruct (set_worker_split ws i _ Ended H) as (l1 & l2 & E1 & E2). rewrite E2. subst ws.
      rewrite !sumf_app, !sumf_cons. cbn [busy]. lia.
    - destruct (set_worker_split ws i _ Ended H) as (l1 & l2 & E1 & E2). rewrite E2. subst ws.
      rewrite !sumf_app, !sumf_cons. cbn [busy length]. lia.
  Qed.

Lemma batches_concat {A} (bsz : nat) : forall (ts b : list A), concat (yield_batches_from bsz b ts) = b ++ ts.
Proof.
  induction ts as [|t ts IH]; intros b; cbn [yield_batches_from].
  - destruct b; cbn; rewrite ?app_nil_r; reflexivity.
  - destruct (length (b ++ [t]) =? bsz).
    + cbn [concat]. rewrite IH. cbn [app]. now rewrite <- app_assoc.
    + rewrite IH. now rewrite <- app_assoc.
Qed.
