(** Invariants of the distributed LDA protocol. *)

From Coq Require Import List Arith Bool Permutation Lia.
From Verif Require Import LdaDispatch_Model LdaDispatch_Spec.
Import ListNotations.

Definition cnt (l : list job) (x : job) : nat := count_occ Nat.eq_dec l x.
Arguments cnt : simpl never.

Lemma cnt_app : forall a b x, cnt (a ++ b) x = cnt a x + cnt b x.
Proof. intros. unfold cnt. apply count_occ_app. Qed.

Lemma cnt_cons : forall y b x, cnt (y :: b) x = cnt [y] x + cnt b x.
Proof. intros. change (y :: b) with ([y] ++ b). apply cnt_app. Qed.

Lemma cnt_nil : forall x, cnt [] x = 0.
Proof. reflexivity. Qed.

Lemma cnt_perm : forall a b, (forall x, cnt a x = cnt b x) -> Permutation a b.
Proof. intros a b H. apply (Permutation_count_occ Nat.eq_dec). exact H. Qed.

Lemma cnt_In : forall a x, In x a <-> cnt a x > 0.
Proof. intros. unfold cnt. apply count_occ_In. Qed.

Lemma length_set_nth : forall {A} (l : list A) k x,
  length (set_nth l k x) = length l.
Proof.
  intros A l; induction l as [|h t IH]; intros k x; simpl; auto.
  destruct k; simpl; auto.
Qed.

Lemma nth_set_nth_same : forall {A} (l : list A) k x,
  k < length l -> nth_error (set_nth l k x) k = Some x.
Proof.
  intros A l; induction l as [|h t IH]; intros k x H; simpl in *; [lia|].
  destruct k; simpl; auto. apply IH; lia.
Qed.

Lemma nth_set_nth_other : forall {A} (l : list A) k i x,
  i <> k -> nth_error (set_nth l k x) i = nth_error l i.
Proof.
  intros A l; induction l as [|h t IH]; intros k i x H; simpl; auto.
  destruct k; destruct i; simpl; auto; try lia.
Qed.

Lemma gathered_set : forall l w x y,
  nth_error l w = Some (Some x) ->
  forall z, cnt (gathered (set_nth l w (Some y))) z + cnt x z
            = cnt (gathered l) z + cnt y z.
Proof.
  induction l as [|h t IH]; intros w x y H z; destruct w; simpl in *; try discriminate.
  - injection H as ->. rewrite !cnt_app. lia.
  - destruct h; rewrite ?cnt_app; specialize (IH w x y H z); lia.
Qed.

Lemma gathered_clear : forall l w x,
  nth_error l w = Some (Some x) ->
  forall z, cnt (gathered (set_nth l w None)) z + cnt x z = cnt (gathered l) z.
Proof.
  induction l as [|h t IH]; intros w x H z; destruct w; simpl in *; try discriminate.
  - injection H as ->. rewrite !cnt_app. lia.
  - destruct h; rewrite ?cnt_app; specialize (IH w x H z); lia.
Qed.

Lemma gathered_len_set : forall l w x y,
  nth_error l w = Some (Some x) ->
  length (gathered (set_nth l w (Some y))) + length x
  = length (gathered l) + length y.
Proof.
  induction l as [|h t IH]; intros w x y H; destruct w; simpl in *; try discriminate.
  - injection H as ->. rewrite !app_length. lia.
  - destruct h; rewrite ?app_length; specialize (IH w x y H); lia.
Qed.

Lemma gathered_empty : forall l,
  (forall i o, nth_error l i = Some o -> o = Some []) -> gathered l = [].
Proof.
  induction l as [|h t IH]; intros H; simpl; auto.
  rewrite (H 0 h eq_refl). simpl. apply IH. intros i o Hi. apply (H (S i) o Hi).
Qed.

Lemma gathered_none : forall l,
  (forall i o, nth_error l i = Some o -> o = None) -> gathered l = [].
Proof.
  induction l as [|h t IH]; intros H; simpl; auto.
  rewrite (H 0 h eq_refl). simpl. apply IH. intros i o Hi. apply (H (S i) o Hi).
Qed.

(** ** The invariant *)

Definition quiet (s : state) : Prop :=
  s_queue s = [] /\ s_hold s = [] /\ s_pend s = [].

Definition tok (s : state) (i : nat) : Prop :=
  In i (s_ask s) \/ In i (map fst (s_hold s)) \/ In i (s_pend s).

Definition putting (p : phase) : list job :=
  match p with Putting j => [j] | _ => [] end.

(** While jobs are put and waited for. *)
Definition active (bad : job -> bool) (s : state) : Prop :=
  (forall i o, nth_error (s_states s) i = Some o -> exists l, o = Some l)
  /\ (forall i b, nth_error (s_fin s) i = Some b -> b = false)
  /\ (exists lost,
        (forall x, cnt (s_queue s) x + cnt (map snd (s_hold s)) x
                   + cnt (gathered (s_states s)) x + cnt lost x
                   + cnt (putting (s_phase s)) x = cnt (s_put s) x)
        /\ (forall x, In x lost -> bad x = true)
        /\ (lost = [] -> forall i, i < length (s_states s) -> tok s i))
  /\ (forall x, In x (gathered (s_states s)) -> bad x = false)
  /\ s_recv s = length (s_put s)
  /\ s_done s + length (s_pend s) = length (gathered (s_states s)).

Definition inv (bad : job -> bool) (W : nat) (s : state) : Prop :=
  length (s_states s) = W
  /\ length (s_fin s) = W
  /\ (forall i, tok s i -> i < W)
  /\ match s_phase s with
     | Fresh => quiet s
     | Resetting k => quiet s /\ k <= W
         /\ (forall i, i < k -> nth_error (s_states s) i = Some (Some [])
                             /\ nth_error (s_fin s) i = Some false
                             /\ In i (s_ask s))
     | Running | Putting _ | Waiting => active bad s
     | Merging k acc => quiet s /\ k <= W
         /\ (forall i o, nth_error (s_states s) i = Some o -> i < k -> o = None)
         /\ (forall i o, nth_error (s_states s) i = Some o -> k <= i ->
              exists l, o = Some l)
         /\ (forall x, cnt acc x + cnt (gathered (s_states s)) x = cnt (s_put s) x)
         /\ (forall x, In x (s_put s) -> bad x = false)
     | Returned acc => quiet s
         /\ (forall x, cnt acc x = cnt (s_put s) x)
         /\ (forall x, In x (s_put s) -> bad x = false)
     end.

Lemma cnt_len : forall a b, (forall x, cnt a x = cnt b x) -> length a = length b.
Proof. intros a b H. apply Permutation_length. apply cnt_perm. exact H. Qed.

Lemma active_len : forall (q : list job) (hold : list (nat * job)) (g lost p pt : list job),
  (forall x, cnt q x + cnt (map snd hold) x + cnt g x + cnt lost x + cnt p x = cnt pt x) ->
  length q + length hold + length g + length lost + length p = length pt.
Proof.
  intros q hold g lost p pt H.
  rewrite <- (map_length snd hold), <- !app_length. apply cnt_len.
  intro x. rewrite !cnt_app. apply H.
Qed.

Lemma nth_repeat_inv : forall {A} (x y : A) n i,
  nth_error (repeat x n) i = Some y -> y = x.
Proof.
  intros A x y n i H. apply nth_error_In in H. symmetry.
  apply repeat_spec in H. auto.
Qed.

Lemma inv_init : forall bad W, inv bad W (init W).
Proof.
  intros bad W. unfold inv, init, quiet, tok; simpl.
  rewrite !repeat_length. repeat split; auto.
  intros i [[]|[[]|[]]].
Qed.

Lemma in_app_mid : forall {A} (a : list A) x b y,
  In y (a ++ x :: b) <-> y = x \/ In y (a ++ b).
Proof.
  intros A a x b y. rewrite !in_app_iff. simpl. intuition.
Qed.

Lemma nil_mid : forall {A} (a : list A) x b, [] = a ++ x :: b -> False.
Proof. intros A a x b H. destruct a; discriminate. Qed.

Lemma len0 : forall {A} (l : list A), length l = 0 -> l = [].
Proof. intros A l; destruct l; simpl; intros; auto; discriminate. Qed.

Lemma nth_len : forall {A} (l : list A) i x, nth_error l i = Some x -> i < length l.
Proof. intros A l i x H. apply nth_error_Some. rewrite H. discriminate. Qed.

(** Every state is a list of statistics: clearing nothing is merging all. *)
Lemma inv_step : forall maxsize bad W s s',
  inv bad W s -> step maxsize bad false s s' -> inv bad W s'.
Proof.
  intros maxsize bad W s s' (HW & HF & HT & HP) Hst.
  destruct s as [ph q dn rc ask hold pend sts fin pt].
  unfold inv, quiet, tok in *. simpl in *.
  inversion Hst; subst; clear Hst; simpl in *; subst; simpl in *.
  - (* reset *)
    repeat split; auto.
    + destruct ph; simpl in *; try discriminate; try tauto.
      destruct HP as (_ & _ & (lost & Hc & Hb & _) & _). unfold may_reset in H; simpl in *.
      destruct pt; [|discriminate].
      pose proof (active_len q hold (gathered sts) lost [] _ Hc) as Hl. simpl in Hl. apply len0. lia.
    + destruct ph; simpl in *; try discriminate; try tauto.
      destruct HP as (_ & _ & (lost & Hc & Hb & _) & _). unfold may_reset in H; simpl in *.
      destruct pt; [|discriminate].
      pose proof (active_len q hold (gathered sts) lost [] _ Hc) as Hl. simpl in Hl. apply len0. lia.
    + destruct ph; simpl in *; try discriminate; try tauto.
      destruct HP as (_ & _ & (lost & Hc & Hb & _) & _ & Hr & Hd). unfold may_reset in H; simpl in *.
      destruct pt; [|discriminate].
      pose proof (active_len q hold (gathered sts) lost [] _ Hc) as Hl. simpl in Hl. apply len0. lia.
    + lia.
    + lia.
    + lia.
    + lia.
  - (* reset one worker *)
    destruct HP as ((Q1 & Q2 & Q3) & Hk & Hpre). rewrite !length_set_nth.
    repeat split; auto.
    + intros i [[->|Hi]|Hi]; auto.
    + destruct (Nat.eq_dec i k) as [->|Hn].
      * apply nth_set_nth_same. lia.
      * rewrite nth_set_nth_other by auto. apply Hpre. lia.
    + destruct (Nat.eq_dec i k) as [->|Hn].
      * apply nth_set_nth_same. lia.
      * rewrite nth_set_nth_other by auto. apply Hpre. lia.
    + destruct (Nat.eq_dec i k) as [->|Hn]; auto. right. apply Hpre. lia.
  - (* reset ends *)
    destruct HP as ((Q1 & Q2 & Q3) & Hk & Hpre). subst q hold pend.
    split; [auto|]. split; [auto|]. split; [auto|].
    assert (Hg : gathered sts = []).
    { apply gathered_empty. intros i o Hi. pose proof (nth_len _ _ _ Hi) as Hl.
      destruct (Hpre i Hl) as [Hs _]. congruence. }
    unfold active; simpl. rewrite Hg. simpl. repeat split; auto.
    + intros i o Hi. pose proof (nth_len _ _ _ Hi) as Hl.
      destruct (Hpre i Hl) as [Hs _]. exists []. congruence.
    + intros i b Hi. pose proof (nth_len _ _ _ Hi) as Hl. rewrite HF in Hl.
      destruct (Hpre i Hl) as (_ & Hs & _). congruence.
    + exists []. simpl. repeat split; auto.
      intros _ i Hi. left. simpl. apply Hpre. auto.
    + intros x [].
  - (* putjob: count *)
    destruct HP as (A1 & A2 & (lost & Hc & Hb & Hk) & A4 & A5 & A6).
    split; [auto|]. split; [auto|]. split; [auto|].
    unfold active; simpl in *. repeat split; auto.
    + exists lost. repeat split; auto. intro x. specialize (Hc x).
      rewrite cnt_app. rewrite ?cnt_nil in *. lia.
    + rewrite app_length. simpl. lia.
  - (* putjob: enqueue *)
    destruct HP as (A1 & A2 & (lost & Hc & Hb & Hk) & A4 & A5 & A6).
    split; [auto|]. split; [auto|]. split; [auto|].
    unfold active; simpl in *. repeat split; auto.
    exists lost. repeat split; auto. intro x. specialize (Hc x).
    rewrite cnt_app. rewrite ?cnt_nil in *. lia.
  - (* getstate *)
    destruct HP as (A1 & A2 & (lost & Hc & Hb & Hk) & A4 & A5 & A6).
    split; [auto|]. split; [auto|]. split; [auto|].
    unfold active; simpl in *. repeat split; auto.
    exists lost. repeat split; auto.
  - (* the wait is over *)
    destruct HP as (A1 & A2 & (lost & Hc & Hb & Hk) & A4 & A5 & A6).
    simpl in *. pose proof (active_len q hold (gathered sts) lost [] _ Hc) as Hl. simpl in Hl.
    assert (q = []) by (apply len0; lia). assert (hold = []) by (apply len0; lia).
    assert (pend = []) by (apply len0; lia). assert (lost = []) by (apply len0; lia).
    subst q hold pend lost. simpl in *.
    split; [auto|]. split; [auto|]. split; [auto|]. repeat split; auto.
    + lia.
    + intros; lia.
    + intros i o Hi _. apply (A1 i o Hi).
    + intro x. specialize (Hc x). rewrite ?cnt_nil in *. lia.
    + intros x Hx. apply A4. apply cnt_In. apply cnt_In in Hx. specialize (Hc x).
      rewrite ?cnt_nil in *. lia.
  - (* merge one worker *)
    destruct HP as ((Q1 & Q2 & Q3) & Hk & Hn & Hs & Hc & Hb). rewrite !length_set_nth.
    pose proof (nth_len _ _ _ H0) as Hl.
    repeat split; auto.
    + intros i o Hi Hik. destruct (Nat.eq_dec i k) as [->|Hne].
      * rewrite nth_set_nth_same in Hi by auto. congruence.
      * rewrite nth_set_nth_other in Hi by auto. apply (Hn i o Hi). lia.
    + intros i o Hi Hik. rewrite nth_set_nth_other in Hi by lia.
      apply (Hs i o Hi). lia.
    + intro x. rewrite cnt_app. pose proof (gathered_clear _ _ _ H0 x). specialize (Hc x). lia.
  - (* getstate returns *)
    destruct HP as ((Q1 & Q2 & Q3) & Hk & Hn & Hs & Hc & Hb).
    repeat split; auto.
    intro x. specialize (Hc x).
    rewrite gathered_none in Hc; [rewrite cnt_nil in Hc; lia|].
    intros i o Hi. apply (Hn i o Hi). apply (nth_len _ _ _ Hi).
  - (* a worker takes a job *)
    assert (HTn : forall i, In i (a ++ b) \/ (w = i \/ In i (map fst hold)) \/ In i pend ->
                            i < length sts).
    { intros i Hi. apply HT. rewrite in_app_mid. intuition. }
    split; [auto|]. split; [auto|]. split; [exact HTn|].
    destruct ph; try (destruct HP as ((Q1 & Q2 & Q3) & _); discriminate);
      try (destruct HP as (Q1 & Q2 & Q3); discriminate);
      destruct HP as (A1 & A2 & (lost & Hc & Hb & Hk) & A4 & A5 & A6);
      unfold active; simpl in *; (repeat split; auto);
      exists lost; (split; [|split; auto]);
      try (intro x; specialize (Hc x); rewrite (cnt_cons j q0) in Hc;
           rewrite (cnt_cons j (map snd hold)); lia);
      intros Hlo i Hi; specialize (Hk Hlo i Hi); unfold tok in *; simpl in *;
      rewrite in_app_mid in Hk; intuition.
  - (* a worker stops *)
    assert (HTn : forall i, In i (a ++ b) \/ In i (map fst hold) \/ In i pend ->
                            i < length sts).
    { intros i Hi. apply HT. rewrite in_app_mid. intuition. }
    split; [auto|]. split; [auto|]. split; [exact HTn|].
    destruct ph; auto.
    + destruct HP as ((Q1 & Q2 & Q3) & Hk & Hpre). repeat split; auto;
        try (apply Hpre; assumption).
      destruct (Hpre i H) as (_ & Hfi & Hin). apply in_app_mid in Hin.
      destruct Hin as [->|Hin]; auto. congruence.
    + destruct HP as (A1 & A2 & _). specialize (A2 w true H0). discriminate.
    + destruct HP as (A1 & A2 & _). specialize (A2 w true H0). discriminate.
    + destruct HP as (A1 & A2 & _). specialize (A2 w true H0). discriminate.
  - (* a job is processed *)
    assert (HTn : forall i, In i ask \/ In i (map fst (a ++ b)) \/ w = i \/ In i pend ->
                            i < length sts).
    { intros i Hi. apply HT. rewrite map_app in *. simpl. rewrite in_app_mid. intuition. }
    rewrite !length_set_nth. split; [auto|]. split; [auto|]. split; [exact HTn|].
    destruct ph; try (destruct HP as ((Q1 & Q2 & Q3) & _); exfalso; destruct a; discriminate);
      try (destruct HP as (Q1 & Q2 & Q3); exfalso; destruct a; discriminate);
      destruct HP as (A1 & A2 & (lost & Hc & Hb & Hk) & A4 & A5 & A6);
      unfold active; simpl in *; (repeat split; auto).
    all: try (intros i o Hi; destruct (Nat.eq_dec i w) as [->|Hne];
              [ rewrite nth_set_nth_same in Hi by (apply (nth_len _ _ _ H1));
                injection Hi as <-; eexists; reflexivity
              | rewrite nth_set_nth_other in Hi by auto; apply (A1 i o Hi) ]).
    all: try (exists lost; split; [|split; auto];
      [ intro x; specialize (Hc x); pose proof (gathered_set _ _ _ (l ++ [j]) H1 x) as Hg;
        rewrite map_app in Hc |- *; simpl in Hc; rewrite !cnt_app in *;
        rewrite (cnt_cons j (map snd b)) in Hc; lia
      | intros Hlo i Hi; rewrite length_set_nth in Hi; specialize (Hk Hlo i Hi);
        unfold tok in *; simpl in *; rewrite map_app in Hk |- *; simpl in Hk;
        rewrite in_app_mid in Hk; intuition ]).
    all: try (intros x Hx; apply cnt_In in Hx;
              pose proof (gathered_set _ _ _ (l ++ [j]) H1 x) as Hg; rewrite cnt_app in Hg;
              destruct (Nat.eq_dec x j) as [->|Hne]; [auto|];
              apply A4; apply cnt_In;
              assert (cnt [j] x = 0) by
                (unfold cnt; simpl; destruct (Nat.eq_dec j x); [congruence|auto]); lia).
    all: try (pose proof (gathered_len_set _ _ _ (l ++ [j]) H1) as Hg;
              rewrite app_length in Hg; simpl in Hg; lia).
  - (* an E step fails *)
    assert (HTn : forall i, In i ask \/ In i (map fst (a ++ b)) \/ In i pend ->
                            i < length sts).
    { intros i Hi. apply HT. rewrite map_app in *. simpl. rewrite in_app_mid. intuition. }
    split; [auto|]. split; [auto|]. split; [exact HTn|].
    destruct ph; try (destruct HP as ((Q1 & Q2 & Q3) & _); exfalso; destruct a; discriminate);
      try (destruct HP as (Q1 & Q2 & Q3); exfalso; destruct a; discriminate);
      destruct HP as (A1 & A2 & (lost & Hc & Hb & Hk) & A4 & A5 & A6);
      (destruct H0 as [H0|H0]; [|destruct (A1 _ _ H0); discriminate]);
      unfold active; simpl in *; (repeat split; auto);
      exists (j :: lost); (split; [|split; [|discriminate]]);
      try (intro x; specialize (Hc x); rewrite (cnt_cons j lost);
           rewrite map_app in Hc |- *; simpl in Hc; rewrite !cnt_app in *;
           rewrite (cnt_cons j (map snd b)) in Hc; lia);
      intros x [<-|Hx]; auto.
  - (* jobdone *)
    assert (HTn : forall i, (w = i \/ In i ask) \/ In i (map fst hold) \/ In i (a ++ b) ->
                            i < length sts).
    { intros i Hi. apply HT. rewrite in_app_mid. intuition. }
    split; [auto|]. split; [auto|]. split; [exact HTn|].
    destruct ph; try (destruct HP as ((Q1 & Q2 & Q3) & _); exfalso; destruct a; discriminate);
      try (destruct HP as (Q1 & Q2 & Q3); exfalso; destruct a; discriminate);
      destruct HP as (A1 & A2 & (lost & Hc & Hb & Hk) & A4 & A5 & A6);
      unfold active; simpl in *; (repeat split; auto);
      try (rewrite !app_length in *; simpl in *; lia);
      exists lost; (split; [|split; auto]);
      try (intro x; specialize (Hc x); lia);
      intros Hlo i Hi; specialize (Hk Hlo i Hi); unfold tok in *; simpl in *;
      rewrite in_app_mid in Hk; intuition.
Qed.

Lemma inv_reach : forall maxsize bad W s,
  reach maxsize bad false W s -> inv bad W s.
Proof.
  intros maxsize bad W s H. induction H.
  - apply inv_init.
  - eapply inv_step; eassumption.
Qed.
