(** Distributed latent semantic indexing learns every job once. *)
From Coq Require Import Permutation Wf_nat.
From Verif Require Import Base LsiDispatch_Model.

Section P.
Context {J : Type}.
Notation world := (world J).
Notation worker := (worker J).
(** ** Spec *)
(** [LsiModel.add_documents], again and again: a reset, jobs, and the states of the workers; the workers act at any time *)
Inductive phase : Type := Fresh | Feeding (jobs : list J) | Collected.
Inductive history : phase -> world -> Prop :=
| H_start n w : initialize n = Ok w -> history Fresh w
| H_work p w w' : history p w -> step w w' -> history p w'
| H_reset p w : history p w -> (p = Fresh \/ p = Collected) -> history (Feeding []) (reset w)
| H_put js w j : history (Feeding js) w -> history (Feeding (js ++ [j])) (putjob w j)
| H_get js w sts w' : history (Feeding js) w -> getstate w = Some (sts, w') -> history Collected w'.

Definition all_learned (ws : list worker) : list J := concat (map (@learned J) ws).
Definition all_busy (ws : list worker) : list J := concat (map (@busy J) ws).
Definition all_told (ws : list worker) : nat := list_sum (map (@told J) ws).
(** every job is waiting, being processed, or learned; every learned job is counted or about to be *)
Definition Inv (js : list J) (w : world) : Prop :=
  workers w <> [] /\ received w = length js /\ Permutation (all_learned (workers w) ++ all_busy (workers w) ++ queue w) js /\ length (all_learned (workers w)) = done w + all_told (workers w).
Definition Live (x : worker) : Prop := finished x = false /\ 0 < loops x + length (busy x) + told x + asked x.
Lemma parts : forall (l1 : list worker) x l2, all_learned (l1 ++ x :: l2) = all_learned l1 ++ learned x ++ all_learned l2 /\ all_busy (l1 ++ x :: l2) = all_busy l1 ++ busy x ++ all_busy l2 /\ all_told (l1 ++ x :: l2) = all_told l1 + (told x + all_told l2).
Proof. intros. unfold all_learned, all_busy, all_told. rewrite !map_app, !concat_app, list_sum_app. cbn. auto. Qed.
Lemma step_Inv : forall js w w', Inv js w -> step w w' -> Inv js w'.
Proof.
  intros js w w' (NE & R & P & C) S. destruct S as [q r d l1 x l2 q' d' x' A]. cbn [workers received queue done] in *. destruct (parts l1 x l2) as (E1 & E2 & E3). destruct (parts l1 x' l2) as (F1 & F2 & F3). rewrite E1, E2 in P. rewrite E1, E3 in C. rewrite !app_length in C.
  split; [cbn; intros X; apply app_eq_nil in X; destruct X; discriminate|]. split; [exact R|]. cbn [workers received queue done]. rewrite F1, F2, F3, !app_length.
  inversion A; subst; cbn [learned busy told] in *; (split; [|try (rewrite app_length in *; cbn [length] in * ); lia]).
  - eapply perm_trans; [|exact P]. apply Permutation_app_head. rewrite <- !app_assoc. apply Permutation_app_head. cbn [app]. rewrite !app_assoc. apply Permutation_middle.
  - exact P.
  - eapply perm_trans; [|exact P]. rewrite <- !app_assoc. apply Permutation_app_head. apply Permutation_app_head. cbn [app].
    rewrite !(app_assoc (all_learned l2)), !(app_assoc (all_learned l2 ++ all_busy l1)). apply Permutation_middle.
  - exact P.
  - exact P.
Qed.
Lemma history_Inv : forall p w, history p w ->
  match p with
  | Fresh => Inv [] w /\ Forall (fun x => busy x = [] /\ told x = 0 /\ asked x = 0 /\ loops x = 0 /\ finished x = false) (workers w)
  | Feeding js => Inv js w /\ Forall Live (workers w)
  | Collected => workers w <> [] /\ queue w = [] /\ all_busy (workers w) = [] /\ all_told (workers w) = 0
  end.
Proof.
  assert (QS : forall w w', workers w <> [] /\ queue w = [] /\ all_busy (workers w) = [] /\ all_told (workers w) = 0 -> step w w' -> workers w' <> [] /\ queue w' = [] /\ all_busy (workers w') = [] /\ all_told (workers w') = 0).
  { intros w w' (NE & Q & B & T) S. destruct S as [q r d l1 x l2 q' d' x' A]. cbn [workers received queue done] in *. destruct (parts l1 x l2) as (_ & E2 & E3). destruct (parts l1 x' l2) as (_ & F2 & F3). rewrite E2 in B. rewrite E3 in T. rewrite F2, F3.
    split; [intros X; apply app_eq_nil in X; destruct X; discriminate|]. apply app_eq_nil in B. destruct B as [B1 B]. apply app_eq_nil in B. destruct B as [B2 B3]. rewrite B1, B3.
    inversion A; subst; cbn [busy told] in *; try discriminate; try (exfalso; lia); try (exfalso; apply app_eq_nil in B2; destruct B2; discriminate); rewrite B2; (split; [reflexivity || assumption | split; [reflexivity | lia]]). }
  intros p w H. induction H as [n w E|p w w' H IH S|p w H IH Hp|js w j H IH|js w sts w' H IH G].
  - unfold initialize in E. destruct n as [|n]; [discriminate E|]. injection E as <-. cbn [workers]. change (worker0 :: repeat worker0 n) with (repeat (@worker0 J) (S n)). split.
    + split; [discriminate|]. split; [reflexivity|]. cbn [workers queue done]. assert (X : all_learned (repeat worker0 (S n)) = [] /\ all_busy (repeat worker0 (S n)) = [] /\ all_told (repeat worker0 (S n)) = 0) by (generalize (S n) as m; induction m as [|m IHm]; [auto | exact IHm]). destruct X as (-> & -> & ->). split; constructor.
    + apply Forall_forall. intros x I. apply repeat_spec in I. subst x. auto 6.
  - destruct p as [|js|].
    + destruct IH as [I F]. split; [apply (step_Inv [] w w' I S)|]. destruct S as [q r d l1 x l2 q' d' x' A]. cbn [workers] in *. apply Forall_app in F. destruct F as [F1 F2]. inversion F2 as [|? ? (Fb & Ft & Fa & Fl & Ff) F3]; subst. exfalso.
      inversion A; subst; cbn in *; try discriminate. apply app_eq_nil in Fb. destruct Fb; discriminate.
    + destruct IH as [I F]. split; [apply (step_Inv js w w' I S)|]. destruct S as [q r d l1 x l2 q' d' x' A]. cbn [workers] in *. apply Forall_app in F. destruct F as [F1 F2]. inversion F2 as [|? ? [Ff Fl] F3]; subst. apply Forall_app. split; [exact F1|]. constructor; [|exact F3].
      inversion A; subst; unfold Live; cbn [finished loops busy told asked length] in *; try discriminate; (split; [assumption|]); lia.
    + apply (QS w w' IH S).
  - assert (X : workers w <> [] /\ queue w = [] /\ all_busy (workers w) = [] /\ all_told (workers w) = 0).
    { destruct Hp as [-> | ->]; [|exact IH]. destruct IH as [(NE & R & P & C) F]. apply Permutation_sym, Permutation_nil in P. apply app_eq_nil in P. destruct P as [P1 P]. apply app_eq_nil in P. destruct P as [P2 P3]. rewrite P1 in C. cbn in C. repeat split; auto. lia. }
    destruct X as (NE & Q & B & T). split.
    + unfold Inv, reset. cbn [workers received queue done]. split; [destruct (workers w); [congruence | discriminate]|]. split; [reflexivity|].
      assert (L : all_learned (map reset_worker (workers w)) = []) by (unfold all_learned; rewrite map_map; induction (workers w) as [|x ws IHx]; [reflexivity | cbn; clear IH; destruct ws; [reflexivity|]; clear; induction (w0 :: ws) as [|y l IHl]; [reflexivity | exact IHl]]).
      assert (B' : all_busy (map reset_worker (workers w)) = []) by (unfold all_busy in *; rewrite map_map; exact B).
      assert (T' : all_told (map reset_worker (workers w)) = 0) by (unfold all_told in *; rewrite map_map; exact T).
      rewrite L, B', T', Q. split; constructor.
    + cbn [reset workers]. apply Forall_forall. intros x I. apply in_map_iff in I. destruct I as (y & <- & _). split; [reflexivity|]. cbn. lia.
  - destruct IH as [(NE & R & P & C) F]. split; [|exact F]. split; [exact NE|]. cbn [putjob received queue workers done]. split; [rewrite R, app_length; cbn; lia|]. split; [|exact C]. rewrite !app_assoc. rewrite !app_assoc in P. apply Permutation_app_tail. exact P.
  - destruct IH as [(NE & R & P & C) F]. unfold getstate in G. destruct (done w <? received w) eqn:D; [discriminate G|]. apply Nat.ltb_ge in D. injection G as <- <-. cbn [workers queue].
    apply Permutation_length in P. rewrite !app_length in P. assert (Q : queue w = []) by (destruct (queue w); [reflexivity | cbn in P; lia]). assert (B : all_busy (workers w) = []) by (destruct (all_busy (workers w)); [reflexivity | cbn in P; lia]). assert (T : all_told (workers w) = 0) by lia.
    split; [destruct (workers w); [congruence | discriminate]|]. split; [exact Q|]. unfold all_busy, all_told in *. rewrite !map_map. split; [exact B | exact T].
Qed.
(** When the states are collected, every job since the last reset has been learned just once, by one worker, and nothing is left from it. *)
Theorem states_exact : forall js w sts w', history (Feeding js) w -> getstate w = Some (sts, w') -> Permutation (concat sts) js /\ queue w' = [] /\ done w = received w.
Proof.
  intros js w sts w' H G. destruct (history_Inv _ _ H) as [(NE & R & P & C) F]. pose proof (history_Inv _ _ (H_get js w sts w' H G)) as (_ & Q & B & T). unfold getstate in G. destruct (done w <? received w) eqn:D; [discriminate G|]. apply Nat.ltb_ge in D. injection G as <- <-. cbn [workers queue] in *.
  unfold all_busy, all_told in B, T. rewrite map_map in B, T. change (all_busy (workers w) = []) in B. change (all_told (workers w) = 0) in T. rewrite B, Q, !app_nil_r in P. split; [exact P|]. split; [exact Q|]. apply Permutation_length in P. rewrite T in C. lia.
Qed.
(** While the model waits for its jobs some worker can act; *)
Theorem never_stuck : forall js w, history (Feeding js) w -> done w < received w -> exists w', step w w'.
Proof.
  intros js w H L. destruct (history_Inv _ _ H) as [(NE & R & P & C) F]. destruct w as [q r d ws]. cbn [workers queue done received] in *.
  assert (One : forall x, In x ws -> (exists q' d' x', acts (q, d, x) (q', d', x')) -> exists w', step (World q r d ws) w').
  { intros x I (q' & d' & x' & A). apply in_split in I. destruct I as (l1 & l2 & ->). eexists. apply (Act q r d l1 x l2 q' d' x' A). }
  assert (T1 : all_told ws <> 0 -> exists x, In x ws /\ told x <> 0).
  { clear. unfold all_told. induction ws as [|x ws IH]; cbn; intros N; [congruence|]. destruct (told x) eqn:E; [|exists x; split; [auto | congruence]]. destruct IH as (y & I & Y); [exact N|]. exists y. auto. }
  assert (B1 : all_busy ws <> [] -> exists x, In x ws /\ busy x <> []).
  { clear. unfold all_busy. induction ws as [|x ws IH]; cbn; intros N; [congruence|]. destruct (busy x) eqn:E; [|exists x; split; [auto | congruence]]. destruct IH as (y & I & Y); [exact N|]. exists y. auto. }
  destruct (Nat.eq_dec (all_told ws) 0) as [T0|T0].
  - destruct (all_busy ws) as [|j0 bs] eqn:B0.
    + destruct q as [|j q]; [apply Permutation_length in P; rewrite !app_length in P; cbn in P; lia|]. destruct ws as [|x ws]; [congruence|]. inversion F as [|? ? [Ff Fl] F']; subst. apply (One x); [left; reflexivity|].
      destruct x as [l f n b t a]. cbn in *. destruct n as [|n]; [|eexists _, _, _; apply Fetch]. destruct a as [|a]; [|eexists _, _, _; apply Request]. destruct t as [|t]; [|eexists _, _, _; apply JobDone]. destruct b as [|j1 b]; [cbn in Fl; lia|]. eexists _, _, _. apply (Process _ _ l f 0 [] j1 b).
    + destruct B1 as (x & I & N); [discriminate|]. apply (One x I). destruct x as [l f n b t a]. cbn in N. destruct b as [|j1 b]; [congruence|]. eexists _, _, _. apply (Process _ _ l f n [] j1 b).
  - destruct (T1 T0) as (x & I & N). apply (One x I). destruct x as [l f n b t a]. cbn in N. destruct t as [|t]; [congruence|]. eexists _, _, _. apply JobDone.
Qed.
(** and the workers do not act for ever: so the waiting ends. *)
Definition weight (x : worker) : nat := loops x + 2 * asked x + 3 * told x + 4 * length (busy x).
Definition measure (w : world) : nat := 5 * length (queue w) + list_sum (map weight (workers w)).
Theorem acts_end : forall w : world, Acc (fun a b => step b a) w.
Proof.
  apply (well_founded_lt_compat _ measure). intros a b S. destruct S as [q r d l1 x l2 q' d' x' A]. unfold measure. cbn [queue workers]. rewrite !map_app, !list_sum_app. cbn [map list_sum fold_right].
  inversion A; subst; unfold weight; cbn [loops asked told busy length]; rewrite ?app_length; cbn [length]; lia.
Qed.
Theorem waiting_ends : forall js w, history (Feeding js) w -> exists w' sts w'', history (Feeding js) w' /\ getstate w' = Some (sts, w'') /\ Permutation (concat sts) js.
Proof.
  intros js w H. induction (acts_end w) as [w _ IH]. destruct (Nat.lt_ge_cases (done w) (received w)) as [L|G].
  - destruct (never_stuck js w H L) as [w' S]. apply (IH w' S). apply (H_work _ w w' H S).
  - destruct (getstate w) as [[sts w'']|] eqn:E.
    + exists w, sts, w''. split; [exact H|]. split; [exact E|]. apply (states_exact js w sts w'' H E).
    + unfold getstate in E. apply Nat.ltb_ge in G. rewrite G in E. discriminate E.
Qed.
End P.
Print Assumptions states_exact.
Print Assumptions never_stuck.
Print Assumptions acts_end.
Print Assumptions waiting_ends.

(** ** Examples *)
(** Two workers: the second gets two of three jobs, one of them before the first worker asks for its own. *)
Definition first_end : world nat := World [] 3 3 [Worker [11] false 0 [] 0 1; Worker [10; 12] false 0 [] 0 1].
Example feeding_example : history (Feeding [10; 11; 12]) first_end /\ getstate first_end = Some ([[11]; [10; 12]], World [] 3 3 [Worker [11] true 0 [] 0 1; Worker [10; 12] true 0 [] 0 1]).
Proof.
  split; [|reflexivity]. unfold first_end.
  assert (S : history (Feeding []) (World [] 0 0 [Worker [] false 0 [] 0 1; Worker [] false 0 [] 0 1])) by (apply (H_reset Fresh (World [] 0 0 [worker0; @worker0 nat])); [apply (H_start 2); reflexivity | auto]).
  apply (H_put _ _ 10) in S. apply (H_put _ _ 11) in S. apply (H_put _ _ 12) in S. cbn in S. pose (a := Worker (@nil nat) false 0 [] 0 1).
  apply (fun h => H_work _ _ _ h (Act _ _ _ [a] _ [] _ _ _ (Request _ _ _ _ _ _ _ _))) in S. cbn in S.
  apply (fun h => H_work _ _ _ h (Act _ _ _ [a] _ [] _ _ _ (Fetch _ _ _ _ _ _ _ _ _))) in S. cbn in S.
  apply (fun h => H_work _ _ _ h (Act _ _ _ [] _ _ _ _ _ (Request _ _ _ _ _ _ _ _))) in S. cbn in S.
  apply (fun h => H_work _ _ _ h (Act _ _ _ [] _ _ _ _ _ (Fetch _ _ _ _ _ _ _ _ _))) in S. cbn in S.
  apply (fun h => H_work _ _ _ h (Act _ _ _ [] _ _ _ _ _ (Process _ _ _ _ _ [] _ _ _ _))) in S. cbn in S.
  apply (fun h => H_work _ _ _ h (Act _ _ _ [] _ _ _ _ _ (JobDone _ _ _ _ _ _ _ _))) in S. cbn in S. set (b := Worker [11] false 0 [] 0 1) in S.
  apply (fun h => H_work _ _ _ h (Act _ _ _ [b] _ [] _ _ _ (Process _ _ _ _ _ [] _ _ _ _))) in S. cbn in S.
  apply (fun h => H_work _ _ _ h (Act _ _ _ [b] _ [] _ _ _ (JobDone _ _ _ _ _ _ _ _))) in S. cbn in S.
  apply (fun h => H_work _ _ _ h (Act _ _ _ [b] _ [] _ _ _ (Request _ _ _ _ _ _ _ _))) in S. cbn in S.
  apply (fun h => H_work _ _ _ h (Act _ _ _ [b] _ [] _ _ _ (Fetch _ _ _ _ _ _ _ _ _))) in S. cbn in S.
  apply (fun h => H_work _ _ _ h (Act _ _ _ [b] _ [] _ _ _ (Process _ _ _ _ _ [] _ _ _ _))) in S. cbn in S.
  apply (fun h => H_work _ _ _ h (Act _ _ _ [b] _ [] _ _ _ (JobDone _ _ _ _ _ _ _ _))) in S. exact S.
Qed.
Lemma one_worker : forall (w w' : world nat) x, step w w' -> workers w = [x] -> exists q' d' x', acts (queue w, done w, x) (q', d', x').
Proof. intros w w' x S E. destruct S as [q r d l1 y l2 q' d' y' A]. cbn in *. destruct l1 as [|z l1]; cbn in E; [|injection E as _ E; destruct l1; discriminate E]. injection E as -> _. eauto. Qed.
(** Violation, were the reset left out: workers that have not been asked, or that have given their states and stopped, never take a job, and the waiting does not end. *)
Theorem no_reset_refuted : exists w w2 : world nat, history Fresh w /\ history Collected w2 /\
  (getstate (putjob w 10) = None /\ forall w', ~ step (putjob w 10) w') /\ (getstate (putjob w2 10) = None /\ forall w', ~ step (putjob w2 10) w').
Proof.
  exists (World [] 0 0 [worker0]), (World [] 0 0 [Worker [] true 0 [] 0 0]). split; [apply (H_start 1); reflexivity|]. split.
  - assert (S : history (Feeding []) (World [] 0 0 [Worker (@nil nat) false 0 [] 0 1])) by (apply (H_reset Fresh (World [] 0 0 [@worker0 nat])); [apply (H_start 1); reflexivity | auto]).
    eapply H_get in S; [|reflexivity]. cbn in S.
    apply (fun h => H_work _ _ _ h (Act _ _ _ [] _ [] _ _ _ (Request _ _ _ _ _ _ _ _))) in S. cbn in S.
    apply (fun h => H_work _ _ _ h (Act _ _ _ [] _ [] _ _ _ (Stop _ _ _ _ _ _ _))) in S. exact S.
  - split.
    all: split; [reflexivity|].
    all: intros w' S; destruct (one_worker _ w' _ S eq_refl) as (q' & d' & x' & A); inversion A; match goal with H : ?b1 ++ _ :: _ = _ |- _ => destruct b1; discriminate H | H : _ = ?b1 ++ _ :: _ |- _ => destruct b1; discriminate H end.
Qed.
Print Assumptions no_reset_refuted.
