(** C85: scheduling of the multicore LDA. *)
From Verif Require Import Base LdaMulti_Model.
From Coq Require Import Permutation Relations ZifyBool ZifyNat.
Local Open Scope nat_scope.

Section Multi.
Context {A : Type}.
Notation chunk := (list A).
Variables workers update_after : nat.
Notation step := (@step A workers update_after).
Notation fail_step := (@fail_step A workers update_after).
Notation runs := (@runs A workers update_after).
Notation fail_runs := (@fail_runs A workers update_after).

Definition current (p : place) : list chunk := match p with Putting c => [c] | Clearing _ _ (Again c) => [c] | _ => [] end.
Definition everywhere (s : ms) : list chunk := todo s ++ current (pc s) ++ jobq s ++ busy s ++ transit s ++ resq s ++ other s ++ concat (m_steps s) ++ lost s.

(** Chunks as multisets: how often a chunk occurs, by a decision for one chunk. *)
Lemma perm_move : forall (c : chunk) l l1 l2, l = l1 ++ c :: l2 -> Permutation (c :: l1 ++ l2) l.
Proof. intros c l l1 l2 ->. apply Permutation_middle. Qed.
Lemma next_current : forall k, current (next k) = current (Clearing true true k).
Proof. intros [c| |]; reflexivity. Qed.
Ltac perms := repeat rewrite <- app_assoc; cbn [app]; repeat (rewrite <- !Permutation_middle || rewrite app_nil_r).
Lemma step_everywhere : forall s s', fail_step s s' -> Permutation (everywhere s) (everywhere s').
Proof.
  intros s s' H. destruct H as [s s' H | t j b1 c b2 x r o q m l p]; [destruct H|]; unfold everywhere; cbn [todo pc jobq busy transit resq other m_steps lost current app].
  - rewrite <- Permutation_middle. apply Permutation_refl.
  - apply Permutation_refl.
  - apply Permutation_app_head. rewrite <- !app_assoc. cbn [app]. rewrite <- Permutation_middle. apply Permutation_refl.
  - apply Permutation_refl.
  - do 5 apply Permutation_app_head. cbn [app]. rewrite <- app_assoc. cbn [app]. rewrite <- !Permutation_middle. apply Permutation_refl.
  - replace (match k with Again c => [c] | NextChunk | WaitMore => [] end) with (current (next k)) by (destruct k; reflexivity). destruct (_ || _); cbn [todo pc jobq busy transit resq other m_steps lost app]; [|apply Permutation_refl]. do 5 apply Permutation_app_head. rewrite concat_app. cbn [concat]. rewrite app_nil_r. rewrite !app_assoc. apply Permutation_app_tail. apply Permutation_app_comm.
  - apply Permutation_refl.
  - apply Permutation_refl.
  - do 2 apply Permutation_app_head. cbn [app]. rewrite <- app_assoc. cbn [app]. rewrite Permutation_middle. rewrite <- (Permutation_middle b), <- Permutation_middle. apply Permutation_refl.
  - do 3 apply Permutation_app_head. rewrite <- !app_assoc. cbn [app]. rewrite <- (Permutation_middle x). rewrite <- Permutation_middle. rewrite <- Permutation_middle. rewrite <- Permutation_middle. apply Permutation_refl.
  - do 4 apply Permutation_app_head. rewrite <- !app_assoc. cbn [app]. rewrite <- (Permutation_middle r). rewrite <- !Permutation_middle. apply Permutation_refl.
  - do 3 apply Permutation_app_head. rewrite <- !app_assoc. cbn [app]. rewrite (app_assoc (concat m) l). rewrite <- (Permutation_middle b1).
    apply Permutation_trans with (b1 ++ b2 ++ x ++ r ++ o ++ (concat m ++ l) ++ [c]); [|rewrite <- app_assoc; apply Permutation_refl].
    rewrite !app_assoc. rewrite <- Permutation_cons_append. apply Permutation_refl.
Qed.

Definition big (b : list chunk) : Prop := update_after <= docs b.
Definition draining (p : @place A) : Prop := match p with Waiting | Finished | Clearing _ _ WaitMore => True | _ => False end.
Record Inv (s : @ms A) : Prop := {
  I_size : queue_size s = Z.of_nat (length (jobq s) + length (busy s) + length (transit s) + length (resq s) + length (lost s));
  I_drain : draining (pc s) -> todo s = [];
  I_force : forall n k, pc s = Clearing true n k -> k = WaitMore;
  I_merged : forall f k, pc s = Clearing f true k -> other s <> [];
  I_other : (forall f k, pc s <> Clearing f true k) -> docs (other s) < update_after;
  I_steps : Forall (fun b => b <> []) (m_steps s);
  I_big : Forall big (m_steps s) \/ (queue_size s = 0%Z /\ other s = [] /\ (pc s = Waiting \/ pc s = Finished) /\ exists l b, m_steps s = l ++ [b] /\ Forall big l);
  I_done : pc s = Finished -> queue_size s = 0%Z
}.
Lemma inv_start : forall chunks : list chunk, 0 < update_after -> Inv (start chunks).
Proof. intros chunks H. constructor; cbn; try (intros; discriminate || contradiction || reflexivity); try (intros; exact H); [constructor | left; constructor]. Qed.
Lemma docs_nil : forall o : list chunk, 0 < docs o -> o <> [].
Proof. intros o H ->. cbn in H. lia. Qed.
Lemma inv_step : forall s s', 0 < update_after -> Inv s -> fail_step s s' -> Inv s'.
Proof.
  intros s s' U [S1 S2 S3 S4 S5 S6 S7 S8] H. destruct H as [s s' H | t j b1 c b2 x r o q m l p]; [destruct H|]; cbn [todo jobq busy transit resq other queue_size m_steps lost pc] in *.
  - constructor; cbn [todo jobq busy transit resq other queue_size m_steps lost pc draining]; try (intros; discriminate); try contradiction; try assumption; [intros; apply S5; discriminate|]. left. destruct S7 as [S7|(_ & _ & [X|X] & _)]; [exact S7 | discriminate X | discriminate X].
  - constructor; cbn [todo jobq busy transit resq other queue_size m_steps lost pc draining]; try (intros; discriminate); try assumption; try reflexivity; [intros; apply S5; discriminate|]. left. destruct S7 as [S7|(_ & _ & [X|X] & _)]; [exact S7 | discriminate X | discriminate X].
  - constructor; cbn [todo jobq busy transit resq other queue_size m_steps lost pc draining]; try (intros; discriminate); try assumption; try contradiction; [rewrite S1, app_length; cbn [length]; lia | intros; apply S5; discriminate |]. left. destruct S7 as [S7|(_ & _ & [X|X] & _)]; [exact S7 | discriminate X | discriminate X].
  - constructor; cbn [todo jobq busy transit resq other queue_size m_steps lost pc draining]; try (intros; discriminate); try assumption; try contradiction; [intros; apply S5; discriminate|]. left. destruct S7 as [S7|(_ & _ & [X|X] & _)]; [exact S7 | discriminate X | discriminate X].
  - constructor; cbn [todo jobq busy transit resq other queue_size m_steps lost pc draining] in *; try (intros; discriminate); try assumption.
    + rewrite S1. cbn [length]. lia.
    + intros n' k' E. injection E as -> _ <-. eapply S3. reflexivity.
    + intros f' k' _ X. apply app_eq_nil in X. destruct X as [_ X]. discriminate X.
    + intros X. exfalso. apply (X f k). reflexivity.
    + left. destruct S7 as [S7|(_ & _ & [X|X] & _)]; [exact S7 | discriminate X | discriminate X].
  - assert (B : Forall big m) by (destruct S7 as [S7|(_ & _ & [X|X] & _)]; [exact S7 | discriminate X | discriminate X]).
    destruct ((f && n && (q =? 0)%Z) || (update_after <=? docs o)) eqn:C.
    + assert (No : o <> []). { apply orb_true_iff in C. destruct C as [C|C]; [|apply docs_nil; lia]. apply andb_true_iff in C. destruct C as [C _]. apply andb_true_iff in C. destruct C as [-> ->]. eapply S4. reflexivity. }
      constructor; cbn [todo jobq busy transit resq other queue_size m_steps lost pc] in *; try assumption.
      * intros D. apply S2. destruct k; [contradiction | contradiction | exact I].
      * intros n' k' E. destruct k; discriminate E.
      * intros f' k' E. destruct k; discriminate E.
      * intros _. exact U.
      * apply Forall_app. split; [exact S6 | constructor; [exact No | constructor]].
      * destruct (Nat.leb_spec update_after (docs o)) as [L|L]; [left; apply Forall_app; split; [exact B | constructor; [exact L | constructor]]|].
        rewrite orb_false_r in C. apply andb_true_iff in C. destruct C as [C1 C2]. apply andb_true_iff in C1. destruct C1 as [-> ->]. right. split; [lia|]. split; [reflexivity|]. split; [|exists m, o; split; [reflexivity | exact B]]. assert (E := S3 true k eq_refl). subst k. left. reflexivity.
      * intros E. destruct k; discriminate E.
    + constructor; cbn [todo jobq busy transit resq other queue_size m_steps lost pc] in *; try assumption.
      * intros D. apply S2. destruct k; [contradiction | contradiction | exact I].
      * intros n' k' E. destruct k; discriminate E.
      * intros f' k' E. destruct k; discriminate E.
      * intros _. apply orb_false_iff in C. destruct C as [_ C]. lia.
      * left. exact B.
      * intros E. destruct k; discriminate E.
  - constructor; cbn [todo jobq busy transit resq other queue_size m_steps lost pc draining] in *; try (intros; discriminate); try assumption.
    + intros n k E. injection E as _ <-. reflexivity.
    + intros _. apply S5. intros; discriminate.
    + left. destruct S7 as [S7|(X & _)]; [exact S7 | lia].
  - constructor; cbn [todo jobq busy transit resq other queue_size m_steps lost pc draining] in *; try (intros; discriminate); try assumption.
    + intros _. apply S5. intros; discriminate.
    + destruct S7 as [S7|(X & Y & _ & Z')]; [left; exact S7 | right; split; [exact X|]; split; [exact Y|]; split; [right; reflexivity | exact Z']].
    + intros _. lia.
  - constructor; cbn [todo jobq busy transit resq other queue_size m_steps lost pc] in *; try assumption. rewrite S1, app_length. cbn [length]. lia.
  - constructor; cbn [todo jobq busy transit resq other queue_size m_steps lost pc] in *; try assumption. rewrite S1, !app_length. cbn [length]. lia.
  - constructor; cbn [todo jobq busy transit resq other queue_size m_steps lost pc] in *; try assumption. rewrite S1, !app_length. cbn [length]. lia.
  - constructor; cbn [todo jobq busy transit resq other queue_size m_steps lost pc] in *; try assumption. rewrite S1, !app_length. cbn [length]. lia.
Qed.
Lemma fail_runs_inv : forall s s', 0 < update_after -> fail_runs s s' -> Inv s -> Inv s' /\ Permutation (everywhere s) (everywhere s').
Proof.
  intros s s' U H. induction H as [s|s s1 s2 H1 H2 IH]; intros HI; [split; [exact HI | apply Permutation_refl]|]. destruct (IH (inv_step _ _ U HI H1)) as [A1 A2]. split; [exact A1|]. eapply Permutation_trans; [apply step_everywhere; exact H1 | exact A2].
Qed.
Lemma runs_fail : forall s s', runs s s' -> fail_runs s s'.
Proof. intros s s' H. induction H as [|s s1 s2 H1 H2 IH]; [constructor|]. econstructor; [apply normal; exact H1 | exact IH]. Qed.
Lemma lost_grows : forall s s', fail_runs s s' -> exists l, lost s' = lost s ++ l.
Proof.
  intros s s' H. induction H as [s|s s1 s2 H1 H2 (l & IH)]; [exists []; now rewrite app_nil_r|].
  assert (G : exists l1, lost s1 = lost s ++ l1). { destruct H1 as [s s1 H1 | t j b1 c b2 x r o q m ls p]; [|exists [c]; reflexivity]. exists []. rewrite app_nil_r. destruct H1; try reflexivity. destruct (_ || _); reflexivity. }
  destruct G as (l1 & G). exists (l1 ++ l). rewrite IH, G, app_assoc. reflexivity.
Qed.
Lemma lost_none : forall s s', runs s s' -> lost s' = lost s.
Proof. intros s s' H. induction H as [|s s1 s2 H1 H2 IH]; [reflexivity|]. rewrite IH. destruct H1; try reflexivity. destruct (_ || _); reflexivity. Qed.
Lemma nil_sum : forall (a b c d e : list chunk), 0%Z = Z.of_nat (length a + length b + length c + length d + length e) -> a = [] /\ b = [] /\ c = [] /\ d = [] /\ e = [].
Proof. intros [|] [|] [|] [|] [|] H; cbn [length] in H; try lia. repeat split. Qed.
Lemma docs_perm : forall a b : list chunk, Permutation a b -> docs a = docs b.
Proof. intros a b H. unfold docs. apply Permutation_length. induction H; cbn [concat]; [constructor | apply Permutation_app_head; assumption | rewrite !app_assoc; apply Permutation_app_tail; apply Permutation_app_comm | eapply Permutation_trans; eassumption]. Qed.
Lemma docs_app : forall a b : list chunk, docs (a ++ b) = docs a + docs b.
Proof. intros a b. unfold docs. rewrite concat_app, app_length. reflexivity. Qed.
Lemma docs_pos : forall b : list chunk, b <> [] -> Forall (fun c => c <> []) b -> 0 < docs b.
Proof. intros [|c b] H F; [contradiction|]. inversion F as [|? ? F1 _]; subst. unfold docs. cbn [concat]. rewrite app_length. destruct c; [contradiction | cbn; lia]. Qed.

(** ** What a pass does *)
(** In every state, the chunks of the pass are where they are exactly once, and the counter is the number of chunks on the way. *)
Theorem multicore_conserves : forall chunks s, 0 < update_after -> fail_runs (start chunks) s ->
  Permutation (todo s ++ current (pc s) ++ jobq s ++ busy s ++ transit s ++ resq s ++ other s ++ concat (m_steps s) ++ lost s) chunks /\
  queue_size s = Z.of_nat (length (jobq s ++ busy s ++ transit s ++ resq s ++ lost s)).
Proof.
  intros chunks s U H. destruct (fail_runs_inv _ _ U H (inv_start chunks U)) as [I1 I2]. split.
  - apply Permutation_sym. unfold everywhere in I2. cbn [start todo pc jobq busy transit resq other m_steps lost current app concat] in I2. rewrite app_nil_r in I2. exact I2.
  - rewrite (I_size _ I1), !app_length. f_equal. lia.
Qed.
(** The queue of jobs never has more than twice as many chunks as there are workers, and no more chunks are worked on than there are workers. *)
Theorem multicore_bounded : forall chunks s, fail_runs (start chunks) s -> length (jobq s) <= 2 * workers /\ length (busy s) <= workers.
Proof.
  intros chunks s H. assert (G : forall s s', fail_runs s s' -> length (jobq s) <= 2 * workers /\ length (busy s) <= workers -> length (jobq s') <= 2 * workers /\ length (busy s') <= workers).
  { clear. intros s s' H. induction H as [|s s1 s2 H1 _ IH]; [auto|]. intros B. apply IH. clear IH s2. destruct H1 as [s s' H | t j b1 c b2 x r o q m l p]; [destruct H|];
    try destruct (_ || _); cbn [jobq busy] in *; rewrite ?app_length in *; cbn [length] in *; lia. }
  apply (G _ _ H). cbn. lia.
Qed.
(** At the end of a pass no chunk is on the way.  Every chunk has entered one M step, except for fewer than [update_after] documents; every M
    step has [update_after] documents or more, except perhaps the last. *)
Theorem multicore_pass : forall chunks s, 0 < update_after -> fail_runs (start chunks) s -> pc s = Finished ->
  todo s = [] /\ jobq s = [] /\ busy s = [] /\ transit s = [] /\ resq s = [] /\ lost s = [] /\
  Permutation (concat (m_steps s) ++ other s) chunks /\ docs (other s) < update_after /\
  (forall l1 b l2, m_steps s = l1 ++ b :: l2 -> l2 <> [] -> update_after <= docs b).
Proof.
  intros chunks s U H F. destruct (fail_runs_inv _ _ U H (inv_start chunks U)) as [HI HP]. destruct HI as [S1 S2 S3 S4 S5 S6 S7 S8].
  assert (T : todo s = []) by (apply S2; rewrite F; exact I). rewrite (S8 F) in S1. destruct (nil_sum _ _ _ _ _ S1) as (E1 & E2 & E3 & E4 & E5). repeat (split; [assumption|]). split; [|split].
  - unfold everywhere in HP. rewrite T, F, E1, E2, E3, E4, E5 in HP. cbn [start todo pc jobq busy transit resq other m_steps lost current app concat] in HP. rewrite !app_nil_r in HP. apply Permutation_sym. eapply Permutation_trans; [exact HP | apply Permutation_app_comm].
  - apply S5. intros f k X. congruence.
  - intros l1 b l2 E N. destruct S7 as [S7|(_ & _ & _ & l & b' & E' & B)].
    + rewrite E in S7. apply Forall_app in S7. destruct S7 as [_ S7]. inversion S7; assumption.
    + rewrite E in E'. destruct (exists_last N) as (l2' & y & ->). rewrite app_comm_cons, app_assoc in E'. apply app_inj_tail in E'. destruct E' as [E' _]. rewrite <- E' in B. apply Forall_app in B. destruct B as [_ B]. inversion B; assumption.
Qed.
(** In batch mode ([update_after] is the size of the corpus) a pass is one M step with all chunks. *)
Theorem multicore_batch : forall chunks s, chunks <> [] -> Forall (fun c => c <> []) chunks -> update_after = docs chunks -> fail_runs (start chunks) s -> pc s = Finished ->
  other s = [] /\ exists b, m_steps s = [b] /\ Permutation b chunks.
Proof.
  intros chunks s NE F UA H Fin. assert (U : 0 < update_after) by (rewrite UA; apply docs_pos; assumption). destruct (multicore_pass chunks s U H Fin) as (_ & _ & _ & _ & _ & _ & P & L & B). destruct (fail_runs_inv _ _ U H (inv_start chunks U)) as [HI _].
  assert (D := docs_perm _ _ P). rewrite docs_app in D.
  assert (Fa : Forall (fun c => c <> []) (concat (m_steps s) ++ other s)) by (eapply Permutation_Forall; [apply Permutation_sym; exact P | exact F]). apply Forall_app in Fa. destruct Fa as [Fa1 Fa2].
  assert (S6 := I_steps _ HI). destruct (m_steps s) as [|b [|b' l]] eqn:Em.
  - exfalso. cbn [concat] in D. change (docs (@nil (list A))) with 0 in D. lia.
  - cbn [concat] in *. rewrite app_nil_r in *. assert (Oe : other s = []).
    { destruct (I_big _ HI) as [S7|(_ & Oe & _)]; [|exact Oe]. rewrite Em in S7. inversion S7 as [|? ? S71 _]; subst. unfold big in S71. destruct (other s) as [|c o] eqn:Eo; [reflexivity|]. exfalso. assert (0 < docs (c :: o)) by (apply docs_pos; [discriminate | exact Fa2]). lia. }
    split; [exact Oe|]. exists b. split; [reflexivity|]. rewrite Oe, app_nil_r in P. exact P.
  - exfalso. assert (B1 := B [] b (b' :: l) eq_refl ltac:(discriminate)). cbn [concat] in D, Fa1. rewrite !docs_app in D. apply Forall_app in Fa1. destruct Fa1 as [_ Fa1]. apply Forall_app in Fa1. destruct Fa1 as [Fa1 _]. inversion S6 as [|? ? _ S62]; subst. inversion S62 as [|? ? S63 _]; subst. assert (0 < docs b') by (apply docs_pos; assumption). lia.
Qed.

(** ** Termination *)
(** Work left: a chunk moves on through the queues. *)
Definition work (s : @ms A) : nat := 6 * length (todo s) + 5 * length (current (pc s)) + 4 * length (jobq s) + 3 * length (busy s) + 2 * length (transit s) + length (resq s).
(** A step does not add work; a step that leaves it as it is, is a step of the master that moves no chunk. *)
Lemma work_step : forall s s', fail_step s s' -> work s' < work s \/ (work s' = work s /\ todo s' = todo s /\ jobq s' = jobq s /\ busy s' = busy s /\ transit s' = transit s /\ resq s' = resq s).
Proof.
  intros s s' H. destruct H as [s s' H | t j b1 c b2 x r o q m l p]; [destruct H|]; unfold work; cbn [todo pc jobq busy transit resq current length]; try (rewrite !app_length; cbn [length]; left; lia); try (right; repeat split; lia).
  - left; lia.
  - destruct k; cbn [length]; left; lia.
  - right. destruct (_ || _); cbn [todo pc jobq busy transit resq]; (split; [destruct k; reflexivity | repeat split]).
Qed.
(** No run makes progress for ever: sooner or later a pass is over or the master polls an empty result queue. *)
Theorem multicore_settles : forall run : nat -> @ms A, (forall i, fail_step (run i) (run (S i))) -> ~ (forall n, exists i, n <= i /\ work (run (S i)) < work (run i)).
Proof.
  intros run R H. assert (M : forall i j, i <= j -> work (run j) <= work (run i)). { intros i j Hij. induction Hij as [|j Hij IH]; [lia|]. destruct (work_step _ _ (R j)) as [W|[W _]]; lia. }
  assert (D : forall k, exists i, work (run i) + k <= work (run 0)). { induction k as [|k (i & IH)]; [exists 0; lia|]. destruct (H i) as (j & Hj & W). exists (S j). assert (X := M i j Hj). lia. }
  destruct (D (S (work (run 0)))) as (i & Hi). lia.
Qed.
Lemma fail_trans : forall a b c, runs a b -> runs b c -> runs a c.
Proof. intros a b c H1 H2. induction H1 as [|a a1 a2 H H1 IH]; [exact H2|]. econstructor; [exact H | exact (IH H2)]. Qed.
Lemma one : forall a b, step a b -> runs a b.
Proof. intros a b H. econstructor; [exact H | constructor]. Qed.
(** And there is no deadlock: as long as no worker fails, every state leads to the end of the pass. *)
Theorem multicore_can_finish : forall chunks s, 0 < update_after -> 0 < workers -> runs (start chunks) s -> exists s', runs s s' /\ pc s' = Finished.
Proof.
  intros chunks s U W H. assert (HI := proj1 (fail_runs_inv _ _ U (runs_fail _ _ H) (inv_start chunks U))). assert (HL := lost_none _ _ H). cbn [start lost] in HL. clear H chunks.
  assert (G : forall n s, work s < n -> Inv s -> lost s = [] -> exists s', runs s s' /\ pc s' = Finished).
  { clear s HI HL. induction n as [|n IH]; intros s Hw HI HL; [lia|].
    assert (Go : forall s1, runs s s1 -> work s1 < work s -> exists s', runs s s' /\ pc s' = Finished).
    { intros s1 R L. destruct (IH s1) as (s' & R' & F); [lia | exact (proj1 (fail_runs_inv _ _ U (runs_fail _ _ R) HI)) | rewrite (lost_none _ _ R); exact HL |]. exists s'. split; [eapply fail_trans; eassumption | exact F]. }
    destruct s as [t j b x r o q m l p]. cbn [lost] in HL. subst l. assert (Q := I_size _ HI). cbn [queue_size jobq busy transit resq lost length] in Q.
    destruct x as [|c x]; [|eapply Go; [apply one; apply (arrive _ _ t j b [] c x) | unfold work; cbn [app todo pc jobq busy transit resq]; rewrite app_length; cbn [length]; lia]].
    destruct b as [|c b]; [|eapply Go; [apply one; apply (reply _ _ t j [] c b) | unfold work; cbn [app todo pc jobq busy transit resq]; cbn [length]; lia]].
    destruct j as [|c j]; [|eapply Go; [apply one; apply take; exact W | unfold work; cbn [app todo pc jobq busy transit resq]; cbn [length]; lia]].
    cbn [length] in Q.
    (* nothing is on the way *)
    assert (Wait : forall p0, r = [] -> runs (MS t [] [] [] r o q m [] p) p0 -> pc p0 = Waiting -> queue_size p0 = 0%Z -> exists s', runs (MS t [] [] [] r o q m [] p) s' /\ pc s' = Finished).
    { intros p0 _ R Ep Eq. destruct p0 as [t0 j0 b0 x0 r0 o0 q0 m0 l0 pc0]. cbn [pc queue_size] in *. subst. eexists. split; [eapply fail_trans; [exact R | apply one; apply finish; lia] | reflexivity]. }
    assert (PutC : forall t0 r0 o0 q0 m0 c, runs (MS t [] [] [] r o q m [] p) (MS t0 [] [] [] r0 o0 q0 m0 [] (Putting c)) -> work (MS t0 [] [] [] r0 o0 q0 m0 [] (Putting c)) <= work (MS t [] [] [] r o q m [] p) -> exists s', runs (MS t [] [] [] r o q m [] p) s' /\ pc s' = Finished).
    { intros t0 r0 o0 q0 m0 c R Lw. eapply Go; [eapply fail_trans; [exact R | apply one; apply put; cbn; lia]|]. revert Lw. unfold work. cbn [todo pc jobq busy transit resq current length app]. lia. }
    destruct p as [|c|f n0 k| |].
    - destruct t as [|c t]; [|eapply Go; [apply one; apply read | unfold work; cbn [todo pc jobq busy transit resq current length]; lia]]. destruct r as [|c r].
      + eapply Wait; [reflexivity | apply one; apply read_end | reflexivity | cbn [queue_size]; cbn [length] in Q; lia].
      + eapply Go; [eapply fail_trans; [apply one; apply read_end|]; eapply fail_trans; [apply one; apply wait; cbn [length] in Q; lia|]; apply one; apply get | unfold work; cbn [todo pc jobq busy transit resq current length]; lia].
    - eapply PutC; [constructor | lia].
    - destruct r as [|c r]; [|eapply Go; [apply one; apply get | unfold work; cbn [todo pc jobq busy transit resq current]; destruct k; cbn [length]; lia]].
      cbn [length] in Q. assert (Eq : q = 0%Z) by lia. assert (C := cleared workers update_after t [] [] [] o q m [] f n0 k).
      assert (Ex : exists o1 m1, step (MS t [] [] [] [] o q m [] (Clearing f n0 k)) (MS t [] [] [] [] o1 q m1 [] (next k))) by (destruct (_ || _) in C; eauto). destruct Ex as (o1 & m1 & C1). destruct k as [c| |]; cbn [next] in C1.
      + eapply PutC; [apply one; exact C1 | unfold work; cbn [todo pc jobq busy transit resq current length]; lia].
      + destruct t as [|c t].
        * eapply Wait; [reflexivity | eapply fail_trans; [apply one; exact C1 | apply one; apply read_end] | reflexivity | exact Eq].
        * eapply PutC; [eapply fail_trans; [apply one; exact C1 | apply one; apply read] | unfold work; cbn [todo pc jobq busy transit resq current length]; lia].
      + eapply Wait; [reflexivity | apply one; exact C1 | reflexivity | exact Eq].
    - destruct r as [|c r].
      + eapply Wait; [reflexivity | constructor | reflexivity | cbn [queue_size]; cbn [length] in Q; lia].
      + eapply Go; [eapply fail_trans; [apply one; apply wait; cbn [length] in Q; lia|]; apply one; apply get | unfold work; cbn [todo pc jobq busy transit resq current length]; lia].
    - eexists. split; [constructor | reflexivity]. }
  apply (G (S (work s))); [lia | exact HI | exact HL].
Qed.
(** If a worker fails on a chunk, the pass never ends: the master waits for a result that does not come. *)
Theorem multicore_failure_hangs : forall chunks s s', 0 < update_after -> fail_runs (start chunks) s -> lost s <> [] -> fail_runs s s' -> pc s' <> Finished.
Proof.
  intros chunks s s' U H N R F. assert (HI := proj1 (fail_runs_inv _ _ U H (inv_start chunks U))). assert (HI' := proj1 (fail_runs_inv _ _ U R HI)). destruct (lost_grows _ _ R) as (l & E). assert (Q := I_size _ HI'). rewrite (I_done _ HI' F) in Q. destruct (nil_sum _ _ _ _ _ Q) as (_ & _ & _ & _ & X). rewrite E in X. apply app_eq_nil in X. destruct X as [X _]. contradiction.
Qed.
End Multi.
Print Assumptions multicore_bounded.
Print Assumptions multicore_conserves.
Print Assumptions multicore_pass.
Print Assumptions multicore_batch.
Print Assumptions multicore_settles.
Print Assumptions multicore_can_finish.
Print Assumptions multicore_failure_hangs.

Ltac go H := eapply Relation_Operators.rt1n_trans; [H|].
(** A pass over three documents in two chunks, two workers, M step after four documents: both chunks go into the forced M step. *)
Example multicore_ex : exists s, @runs nat 2 4 (start [[1; 2]; [3]]) s /\ pc s = Finished /\ m_steps s = [[[3]; [1; 2]]] /\ other s = [].
Proof.
  eexists. split.
  - unfold start. go ltac:(apply read). go ltac:(apply put; cbn; lia). go ltac:(apply cleared). cbn [next docs concat length app andb orb Nat.leb]. go ltac:(apply read). go ltac:(apply put; cbn; lia). go ltac:(apply cleared). cbn [next docs concat length app andb orb Nat.leb].
    go ltac:(apply take; cbn; lia). go ltac:(apply take; cbn; lia). cbn [app]. go ltac:(apply (reply _ _ _ _ [[1; 2]] [3] [])). go ltac:(apply (reply _ _ _ _ [] [1; 2] [])). cbn [app].
    go ltac:(apply (arrive _ _ _ _ _ [] [3] [[1; 2]])). go ltac:(apply (arrive _ _ _ _ _ [] [1; 2] [])). cbn [app].
    go ltac:(apply read_end). go ltac:(apply wait; cbn; lia). go ltac:(apply get). go ltac:(apply get). go ltac:(apply cleared). cbn. go ltac:(apply finish; lia). apply rt1n_refl.
  - repeat split.
Qed.
(** The same pass with fast workers: the last result is merged by the call of [process_result_queue] that follows the last [put], the counter is 0, and the
    loop that would force the last M step is not entered: the pass ends, nothing has been learned from the corpus. *)
Theorem multicore_loses_refuted : exists s, @runs nat 2 4 (start [[1; 2]; [3]]) s /\ pc s = Finished /\ m_steps s = [] /\ other s = [[1; 2]; [3]].
Proof.
  eexists. split.
  - unfold start. go ltac:(apply read). go ltac:(apply put; cbn; lia). go ltac:(apply cleared). cbn [next docs concat length app andb orb Nat.leb]. go ltac:(apply read). go ltac:(apply put; cbn; lia).
    go ltac:(apply take; cbn; lia). go ltac:(apply take; cbn; lia). cbn [app]. go ltac:(apply (reply _ _ _ _ [] [1; 2] [[3]])). go ltac:(apply (reply _ _ _ _ [] [3] [])). cbn [app].
    go ltac:(apply (arrive _ _ _ _ _ [] [1; 2] [[3]])). go ltac:(apply (arrive _ _ _ _ _ [] [3] [])). cbn [app].
    go ltac:(apply get). go ltac:(apply get). go ltac:(apply cleared). cbn [next docs concat length app andb orb Nat.leb]. go ltac:(apply read_end). go ltac:(apply finish; cbn; lia). apply rt1n_refl.
  - repeat split.
Qed.
Print Assumptions multicore_loses_refuted.
(** A failed worker, from a start that exists. *)
Example multicore_failure_ex : exists s, @fail_runs nat 1 1 (start [[1]]) s /\ lost s = [[1]].
Proof.
  eexists. split.
  - unfold start. go ltac:(apply normal; apply read). go ltac:(apply normal; apply put; cbn; lia). cbn [app]. go ltac:(apply normal; apply take; cbn; lia). cbn [app]. go ltac:(apply (fail _ _ _ _ [] [1] [])). apply rt1n_refl.
  - reflexivity.
Qed.
