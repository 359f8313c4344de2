(** Theorems about [Word2Vec.score] with its threads (property C82). *)
From Verif Require Import Base TrainSched_Model Utils_Model Utils_Proofs Utils_Properties ScoreSched_Model.
From Coq Require Import ZifyNat ZifyBool.
Local Open Scope nat_scope.

Section Score.
Context {T F : Type}.
Variable f0 : F.
Variable score : T -> F.
Variable job_cap progress_cap : option nat.
Variable nworkers chunksize total : nat.
Notation job := (@job T).
Notation sworker := (@sworker T).
Notation sstate := (@sstate T F).
Notation scored := (@scored T F score total).
Notation in_range := (@in_range T total).
Notation sstep := (@sstep T F score job_cap progress_cap nworkers chunksize total).
Notation ssteps := (@ssteps T F score job_cap progress_cap nworkers chunksize total).
Notation score_init := (@score_init T F nworkers chunksize).

Fixpoint tot {A} (f : A -> nat) (l : list A) : nat := match l with [] => 0 | x :: l' => f x + tot f l' end.
Lemma tot_app : forall {A} (f : A -> nat) l l', tot f (l ++ l') = tot f l + tot f l'.
Proof. intros A f l l'. induction l as [|x l IH]; cbn; [reflexivity|]. rewrite IH. lia. Qed.
Lemma tot_zero : forall {A} (f : A -> nat) l, tot f l = 0 -> forall x, In x l -> f x = 0.
Proof. intros A f l. induction l as [|y l IH]; cbn; intros H x [].
  - subst. lia. - apply IH; [lia | assumption]. Qed.

(** A job in a worker or in the queue. *)
Definition w_busy (w : sworker) : nat := match w with SHave _ | SPut _ => 1 | _ => 0 end.
Definition w_num (w : sworker) : nat := match w with SHave j => length (scored j) | SPut x => x | _ => 0 end.
Definition w_done (w : sworker) : nat := match w with SDone => 1 | _ => 0 end.
Definition outstanding (s : sstate) (js : list job) : nat := length (s_progress s) + tot w_busy (s_workers s) + length js.
Definition pushing (m : smain) : bool := match m with MNext | MDrain => true | _ => false end.
Definition holds_back (m : smain) : bool := match m with MNext | MNone _ => true | _ => false end.
Definition to_put (m : smain) : nat := match m with MNone k => k | MNext | MDrain | MError => nworkers | _ => 0 end.

Variable jobs : list job.
Record Inv (pushed js : list job) (m : nat) (s : sstate) : Prop := {
  I_queue : s_jobs s = map Some js ++ repeat None m;
  I_workers : length (s_workers s) = nworkers;
  I_none : m + tot w_done (s_workers s) + to_put (s_main s) = nworkers;
  I_done : tot w_done (s_workers s) <> 0 -> js = [];
  I_error : s_main s = MError -> jobs = [];
  I_final : s_main s = MOver -> length pushed <= s_done s;
  I_pushing : pushing (s_main s) = true -> jobs = pushed ++ s_todo s /\ s_next s = length pushed;
  I_pushed : pushing (s_main s) = false -> s_main s <> MError -> pushed <> [] /\ (jobs = pushed \/ exists j todo, jobs = pushed ++ j :: todo /\ cut chunksize total (length pushed) = true);
  I_jobno : s_jobno s = match pushed with [] => None | _ => Some (length pushed - 1) end;
  I_count : s_done s + outstanding s js = length pushed;
  I_sum : s_count s + tot (fun x => x) (s_progress s) + tot w_num (s_workers s) + tot (fun j => length (scored j)) js = tot (fun j => length (scored j)) pushed;
  I_written : forall j, In j pushed -> In j js \/ In (SHave j) (s_workers s) \/ incl (scored j) (s_writes s);
  I_writes : forall e, In e (s_writes s) -> exists j, In j pushed /\ In e (scored j);
  I_held : forall j, In (SHave j) (s_workers s) -> In j pushed;
  I_queued : forall j, In j js -> In j pushed;
  I_cap : forall c, job_cap = Some c -> length (s_jobs s) <= c;
  I_room : forall c, holds_back (s_main s) = true -> job_cap = Some c -> outstanding s js <= c + nworkers
}.
Lemma queue_some : forall (j : job) q js m, Some j :: q = map Some js ++ repeat None m -> exists js', js = j :: js' /\ q = map Some js' ++ repeat None m.
Proof. intros j q [|j' js] m E; [destruct m; discriminate|]. cbn in E. injection E as <- E. exists js. auto. Qed.
Lemma queue_none : forall (q : list (option job)) js m, None :: q = map Some js ++ repeat None m -> js = [] /\ exists m', m = S m' /\ q = repeat None m'.
Proof. intros q [|j' js] m E; [|discriminate]. split; [reflexivity|]. destruct m as [|m]; [discriminate|]. cbn in E. injection E as E. exists m. auto. Qed.
Lemma busy_le : forall ws : list sworker, tot w_busy ws + tot w_done ws <= length ws.
Proof. induction ws as [|w ws IH]; cbn; [lia|]. destruct w; cbn; lia. Qed.
Lemma room_lt : forall {A} c (q : list A), room (Some c) q = true -> length q < c.
Proof. intros A c q H. unfold room in H. lia. Qed.
Lemma repeat_snoc : forall {A} (x : A) n, repeat x n ++ [x] = repeat x (S n).
Proof. intros A x n. induction n as [|n IH]; [reflexivity|]. cbn [repeat app]. now rewrite IH. Qed.

Lemma Inv_step : forall pushed js m s s', Inv pushed js m s -> sstep s s' -> exists pushed' js' m', Inv pushed' js' m' s'.
Proof.
  intros pushed js m s s' V H. destruct V. destruct H; unfold outstanding in *; cbn [s_todo s_next s_jobno s_main s_jobs s_workers s_progress s_count s_done s_writes pushing holds_back to_put] in *.
  - (* push *)
    destruct (I_pushing0 eq_refl) as [Ej En]. assert (m = 0) by lia. subst m. cbn in I_queue0. rewrite app_nil_r in I_queue0. subst q.
    exists (pushed ++ [j]), (js ++ [j]), 0. constructor; unfold outstanding; cbn [s_todo s_next s_jobno s_main s_jobs s_workers s_progress s_count s_done s_writes pushing holds_back to_put]; rewrite ?app_length, ?tot_app; cbn [length tot]; try lia; try discriminate.
    + cbn. rewrite map_app, app_nil_r. reflexivity.
    + split; [rewrite <- app_assoc; exact Ej | lia].
    + destruct pushed; cbn [app length] in *; f_equal; lia.
    + intros j0 Hj. rewrite in_app_iff in *. destruct Hj as [Hj|Hj]; [destruct (I_written0 _ Hj) as [X|[X|X]]; auto | auto].
    + intros e He. destruct (I_writes0 e He) as (k & A & B). exists k. rewrite in_app_iff. auto.
    + intros k Hk. rewrite in_app_iff. auto.
    + intros k Hk. rewrite in_app_iff in *. destruct Hk; auto.
    + intros c0 Hc. pose proof (I_cap0 _ Hc). rewrite Hc in H0. apply room_lt in H0. lia.
  - (* cut *)
    destruct (I_pushing0 eq_refl) as [Ej En]. exists pushed, js, m. constructor; unfold outstanding; cbn [s_todo s_next s_jobno s_main s_jobs s_workers s_progress s_count s_done s_writes pushing holds_back to_put]; try assumption; try discriminate; try lia; auto.
    + intros _ _. destruct pushed as [|p pushed]; [exfalso; unfold cut in H; cbn in En; subst n; lia|]. split; [discriminate|]. right. exists j, todo. rewrite <- En. auto.
    + destruct pushed; [|f_equal; lia]. exfalso; unfold cut in H; cbn in En; subst n; lia.
  - (* end *)
    destruct (I_pushing0 eq_refl) as [Ej En]. exists pushed, js, m. constructor; unfold outstanding; cbn [s_todo s_next s_jobno s_main s_jobs s_workers s_progress s_count s_done s_writes pushing holds_back to_put]; try assumption; try discriminate; try lia; auto.
    intros _ _. rewrite app_nil_r in Ej. split; [destruct pushed; [discriminate|discriminate] | auto].
  - (* unbound *)
    destruct (I_pushing0 eq_refl) as [Ej En]. assert (pushed = []) by (destruct pushed; [reflexivity | discriminate]). subst pushed.
    exists [], js, m. constructor; unfold outstanding; cbn [s_todo s_next s_jobno s_main s_jobs s_workers s_progress s_count s_done s_writes pushing holds_back to_put]; try assumption; try discriminate; try lia; auto.
  - (* none *)
    exists pushed, js, (S m). constructor; unfold outstanding; cbn [s_todo s_next s_jobno s_main s_jobs s_workers s_progress s_count s_done s_writes pushing holds_back to_put]; try assumption; try discriminate; try lia; auto.
    + rewrite I_queue0, <- app_assoc, repeat_snoc. reflexivity.
    + intros _ _. apply I_pushed0; [reflexivity | discriminate].
    + intros c0 Hc. pose proof (I_cap0 _ Hc). rewrite Hc in H. apply room_lt in H. rewrite app_length. cbn. lia.
  - (* pushed *)
    exists pushed, js, m. constructor; unfold outstanding; cbn [s_todo s_next s_jobno s_main s_jobs s_workers s_progress s_count s_done s_writes pushing holds_back to_put]; try assumption; try discriminate; try lia; auto.
    intros _ _. apply I_pushed0; [reflexivity | discriminate].
  - (* drain *)
    exists pushed, js, m. constructor; unfold outstanding; cbn [s_todo s_next s_jobno s_main s_jobs s_workers s_progress s_count s_done s_writes pushing holds_back to_put tot length] in *; try assumption; try discriminate; try lia; auto.
  - (* empty *)
    exists pushed, js, m. constructor; unfold outstanding; cbn [s_todo s_next s_jobno s_main s_jobs s_workers s_progress s_count s_done s_writes pushing holds_back to_put tot length] in *; try assumption; try discriminate; try lia; auto.
    intros c0 _ Hc. pose proof (I_cap0 _ Hc) as X. rewrite I_queue0, app_length, map_length in X. pose proof (busy_le ws). lia.
  - (* wait *)
    exists pushed, js, m. constructor; unfold outstanding; cbn [s_todo s_next s_jobno s_main s_jobs s_workers s_progress s_count s_done s_writes pushing holds_back to_put tot length] in *; try assumption; try discriminate; try lia; auto.
  - (* over *)
    exists pushed, js, m. constructor; unfold outstanding; cbn [s_todo s_next s_jobno s_main s_jobs s_workers s_progress s_count s_done s_writes pushing holds_back to_put tot length] in *; try assumption; try discriminate; try lia; auto.
    + intros _. destruct pushed; [discriminate|]. injection I_jobno0 as E. cbn [length] in *. lia.
    + intros _ _. apply I_pushed0; [reflexivity | discriminate].
  - (* take_job *)
    apply queue_some in I_queue0. destruct I_queue0 as (js' & -> & ->).
    exists pushed, js', m. constructor; unfold outstanding; cbn [s_todo s_next s_jobno s_main s_jobs s_workers s_progress s_count s_done s_writes pushing holds_back to_put tot length] in *; rewrite ?app_length, ?tot_app in *; cbn [tot length w_busy w_done w_num] in *; try assumption; try lia; auto.
    + intros X. exfalso. assert (Y : j :: js' = []) by (apply I_done0; lia). discriminate.
    + intros k Hk. destruct (I_written0 k Hk) as [[<-|X]|[X|X]]; auto; right; left; rewrite in_app_iff in *; cbn in *; [auto|]. destruct X as [X|[X|X]]; [auto|discriminate|auto].
    + intros k Hk. apply in_app_or in Hk. destruct Hk as [Hk|[Hk|Hk]]; [apply I_held0, in_or_app; auto | injection Hk as <-; apply I_queued0; left; reflexivity | apply I_held0, in_or_app; right; right; exact Hk].
    + intros k Hk. apply I_queued0. right. exact Hk.
    + intros c0 Hc. specialize (I_cap0 _ Hc). rewrite ?app_length in *. lia.
    + intros c0 Hm Hc. specialize (I_room0 _ Hm Hc). lia.
  - (* take_none *)
    apply queue_none in I_queue0. destruct I_queue0 as (-> & m' & -> & ->).
    exists pushed, [], m'. constructor; unfold outstanding; cbn [s_todo s_next s_jobno s_main s_jobs s_workers s_progress s_count s_done s_writes pushing holds_back to_put tot length] in *; rewrite ?app_length, ?tot_app in *; cbn [tot length w_busy w_done w_num] in *; try assumption; try lia; auto.
    + intros k Hk. destruct (I_written0 k Hk) as [[]|[X|X]]; auto. right; left; rewrite in_app_iff in *; cbn in *. destruct X as [X|[X|X]]; [auto|discriminate|auto].
    + intros k Hk. apply in_app_or in Hk. destruct Hk as [Hk|[Hk|Hk]]; [apply I_held0, in_or_app; auto | discriminate | apply I_held0, in_or_app; right; right; exact Hk].
    + intros c0 Hc. specialize (I_cap0 _ Hc). lia.
  - (* score *)
    exists pushed, js, m. constructor; unfold outstanding; cbn [s_todo s_next s_jobno s_main s_jobs s_workers s_progress s_count s_done s_writes pushing holds_back to_put tot length] in *; rewrite ?app_length, ?tot_app in *; cbn [tot length w_busy w_done w_num] in *; try assumption; try lia; auto.
    + intros k Hk. destruct (I_written0 k Hk) as [X|[X|X]]; [auto | |do 2 right; intros e He; apply in_or_app; left; apply X; exact He].
      apply in_app_or in X. destruct X as [X|[X|X]]; [right; left; apply in_or_app; auto | injection X as ->; do 2 right; intros e He; apply in_or_app; auto | right; left; apply in_or_app; right; right; exact X].
    + intros e He. apply in_app_or in He. destruct He as [He|He]; [auto|]. exists j. split; [|exact He]. apply I_held0, in_elt.
    + intros k Hk. apply in_app_or in Hk. destruct Hk as [Hk|[Hk|Hk]]; [apply I_held0, in_or_app; auto | discriminate | apply I_held0, in_or_app; right; right; exact Hk].
  - (* report *)
    exists pushed, js, m. constructor; unfold outstanding; cbn [s_todo s_next s_jobno s_main s_jobs s_workers s_progress s_count s_done s_writes pushing holds_back to_put tot length] in *; rewrite ?app_length, ?tot_app in *; cbn [tot length w_busy w_done w_num] in *; try assumption; try lia; auto.
    + intros k Hk. destruct (I_written0 k Hk) as [X|[X|X]]; auto. right; left; rewrite in_app_iff in *; cbn in *. destruct X as [X|[X|X]]; [auto|discriminate|auto].
    + intros k Hk. apply in_app_or in Hk. destruct Hk as [Hk|[Hk|Hk]]; [apply I_held0, in_or_app; auto | discriminate | apply I_held0, in_or_app; right; right; exact Hk].
    + intros c0 Hm Hc. specialize (I_room0 _ Hm Hc). lia.
Qed.
Lemma tot_repeat : forall {A} (f : A -> nat) x n, f x = 0 -> tot f (repeat x n) = 0.
Proof. intros A f x n H. induction n as [|n IH]; cbn; [reflexivity|]. lia. Qed.
Lemma Inv_init : forall sentences, jobs = chunkize_serial (combine (seq 0 (length sentences)) sentences) chunksize -> Inv [] [] 0 (score_init sentences).
Proof.
  intros sentences E. unfold score_init. constructor; unfold outstanding; cbn [s_todo s_next s_jobno s_main s_jobs s_workers s_progress s_count s_done s_writes pushing holds_back to_put tot length]; rewrite ?tot_repeat by reflexivity; try discriminate; auto; try lia.
  - apply repeat_length.
  - intros e [].
  - intros j Hj. apply repeat_spec in Hj. discriminate.
Qed.
Lemma Inv_steps : forall sentences n s, jobs = chunkize_serial (combine (seq 0 (length sentences)) sentences) chunksize -> ssteps n (score_init sentences) s -> exists pushed js m, Inv pushed js m s.
Proof.
  intros sentences n s E H. remember (score_init sentences) as s0. induction H as [|n s s' s'' _ IH St]; [subst; do 3 eexists; apply Inv_init; exact E|].
  destruct (IH Heqs0) as (p & j & m & V). eapply Inv_step; eauto.
Qed.
End Score.

(** ** The result *)
Section Result.
Context {T F : Type}.
Variable f0 : F.
Variable score : T -> F.
Variable nworkers chunksize total : nat.

Lemma enum_split : forall (l : list T) j rest a, j ++ rest = combine (seq a (length l)) l ->
  j = combine (seq a (length j)) (firstn (length j) l) /\ rest = combine (seq (a + length j) (length (skipn (length j) l))) (skipn (length j) l).
Proof.
  intros l j. revert l. induction j as [|[i x] j IH]; intros l rest a E; cbn [length firstn skipn seq combine app] in *.
  - rewrite Nat.add_0_r. auto.
  - destruct l as [|y l]; [discriminate|]. cbn [length seq combine firstn skipn] in *. injection E as -> -> E. destruct (IH _ _ _ E) as [A B]. split; [f_equal; exact A|].
    replace (a + S (length j)) with (S a + length j) by lia. exact B.
Qed.
Lemma in_range_enum : forall (l : list T) a, in_range total (combine (seq a (length l)) l) = firstn (total - a) (combine (seq a (length l)) l).
Proof.
  induction l as [|x l IH]; intros a; cbn [length seq combine in_range]; [now rewrite firstn_nil|]. destruct (Nat.leb_spec total a) as [H|H].
  - replace (total - a) with 0 by lia. reflexivity.
  - replace (total - a) with (S (total - S a)) by lia. cbn [firstn]. f_equal. apply IH.
Qed.
Lemma in_range_jobs : forall (js : list (list (nat * T))) (l : list T) a, concat js = combine (seq a (length l)) l -> concat (map (in_range total) js) = firstn (total - a) (combine (seq a (length l)) l).
Proof.
  induction js as [|j js IH]; intros l a E; cbn [concat map] in *; [rewrite <- E; now rewrite firstn_nil|].
  destruct (enum_split _ _ _ _ E) as [A B]. rewrite <- E. rewrite firstn_app. f_equal.
  - assert (L : length (firstn (length j) l) = length j). { apply (f_equal (@length _)) in E. rewrite app_length, combine_length, seq_length, Nat.min_id in E. rewrite firstn_length. lia. }
    rewrite A at 1. rewrite <- L at 1. rewrite in_range_enum. rewrite L, <- A. reflexivity.
  - rewrite (IH _ _ B), <- B. f_equal. lia.
Qed.
Lemma enum_nth : forall (l : list T) a i x, nth_error l i = Some x -> nth_error (combine (seq a (length l)) l) i = Some (a + i, x).
Proof.
  induction l as [|y l IH]; intros a [|i] x H; cbn in *; try discriminate; [injection H as ->; f_equal; f_equal; lia|]. rewrite (IH (S a) i x H). f_equal. f_equal. lia.
Qed.
Lemma enum_in : forall (l : list T) a e, In e (combine (seq a (length l)) l) -> nth_error l (fst e - a) = Some (snd e) /\ a <= fst e.
Proof.
  induction l as [|y l IH]; intros a e H; [destruct H|]. cbn [length seq combine] in H. destruct H as [<-|H]; [cbn; rewrite Nat.sub_diag; split; [reflexivity | lia]|].
  destruct (IH _ _ H) as [A B]. replace (fst e - a) with (S (fst e - S a)) by lia. split; [exact A | lia].
Qed.

Definition write (a : list F) (p : nat * F) : list F := firstn (fst p) a ++ snd p :: skipn (S (fst p)) a.
Lemma write_length : forall a p, fst p < length a -> length (write a p) = length a.
Proof. intros a [i v] H. unfold write. cbn [fst snd] in *. rewrite app_length, firstn_length. cbn [length]. rewrite skipn_length. lia. Qed.
Lemma write_nth : forall a p i, fst p < length a -> nth_error (write a p) i = if i =? fst p then Some (snd p) else nth_error a i.
Proof.
  intros a [k v] i H. cbn [fst snd] in *. revert k i H. induction a as [|x a IH]; intros k i H; [cbn in H; lia|]. destruct k as [|k]; [destruct i; reflexivity|]. cbn in H.
  unfold write in *. cbn [fst snd] in *. destruct i as [|i]; [reflexivity|]. cbn [firstn app skipn nth_error Nat.eqb]. apply IH. lia.
Qed.
Lemma writes_nth : forall ws a i v, (forall p, In p ws -> fst p < length a) -> (forall p, In p ws -> fst p = i -> snd p = v) ->
  (nth_error a i = Some v \/ exists p, In p ws /\ fst p = i) -> length (fold_left write ws a) = length a /\ nth_error (fold_left write ws a) i = Some v.
Proof.
  induction ws as [|p ws IH]; intros a i v L V E; cbn [fold_left]; [split; [reflexivity|]; destruct E as [E|(p & [] & _)]; exact E|].
  pose proof (L p (or_introl eq_refl)) as Lp. destruct (IH (write a p) i v) as [A B].
  - intros q Hq. rewrite write_length by exact Lp. apply L. right. exact Hq.
  - intros q Hq. apply V. right. exact Hq.
  - rewrite write_nth by exact Lp. destruct (Nat.eqb_spec i (fst p)) as [->|Ne]; [left; f_equal; apply V; [left; reflexivity | reflexivity]|].
    destruct E as [E|(q & [<-|Hq] & Eq)]; [left; exact E | congruence | right; eauto].
  - rewrite A, write_length by exact Lp. auto.
Qed.
Lemma writes_length : forall ws a, (forall p, In p ws -> fst p < length a) -> length (fold_left write ws a) = length a.
Proof. induction ws as [|p ws IH]; intros a L; cbn [fold_left]; [reflexivity|]. pose proof (L p (or_introl eq_refl)). rewrite IH; rewrite write_length by assumption; [reflexivity|]. intros q Hq. apply L. right. exact Hq. Qed.

Lemma concat_len : forall (l : list (list (nat * T))) n, (forall x, In x l -> length x = n) -> length (concat l) = length l * n.
Proof. induction l as [|x l IH]; intros n H; cbn; [reflexivity|]. rewrite app_length, (H x (or_introl eq_refl)), (IH n); [lia|]. intros; apply H; right; assumption. Qed.
(** All sentences that the pushed jobs score. *)
Lemma pushed_scores : forall (sentences : list T) pushed, 1 <= chunksize -> let jobs := chunkize_serial (combine (seq 0 (length sentences)) sentences) chunksize in
  (jobs = pushed \/ exists j todo, jobs = pushed ++ j :: todo /\ cut chunksize total (length pushed) = true) ->
  concat (map (scored score total) pushed) = map (fun p => (fst p, score (snd p))) (firstn total (combine (seq 0 (length sentences)) sentences)).
Proof.
  intros sentences pushed Hc jobs H. unfold scored. destruct (chunkize_serial_exact (combine (seq 0 (length sentences)) sentences) chunksize Hc) as (C1 & C2 & C3). fold jobs in C1, C2, C3.
  assert (X : concat (map (in_range total) pushed) = firstn total (combine (seq 0 (length sentences)) sentences)).
  { destruct H as [<-|(j & todo & Ej & Hcut)].
    - rewrite (in_range_jobs _ _ _ C1). f_equal. lia.
    - assert (Lp : length (concat pushed) = length pushed * chunksize).
      { apply concat_len. intros x Hx. apply in_split in Hx. destruct Hx as (l1 & l2 & ->). apply (C3 l1 x (l2 ++ j :: todo)); [rewrite Ej, <- app_assoc; reflexivity | destruct l2; discriminate]. }
      rewrite Ej, concat_app in C1. destruct (enum_split _ _ _ _ C1) as [A _].
      assert (L : length (firstn (length (concat pushed)) sentences) = length (concat pushed)). { apply (f_equal (@length _)) in C1. rewrite app_length, combine_length, seq_length, Nat.min_id in C1. rewrite firstn_length. lia. }
      rewrite (in_range_jobs pushed (firstn (length (concat pushed)) sentences) 0); [|rewrite L; exact A]. rewrite L, <- A, Nat.sub_0_r, <- C1.
      rewrite firstn_app. unfold cut in Hcut. replace (total - length (concat pushed)) with 0 by nia. cbn. now rewrite app_nil_r. }
  rewrite <- X, concat_map, map_map. reflexivity.
Qed.
Lemma tot_concat : forall {A B} (f : A -> list B) l, tot (fun x => length (f x)) l = length (concat (map f l)).
Proof. intros A B f l. induction l as [|x l IH]; cbn; [reflexivity|]. rewrite app_length, IH. reflexivity. Qed.

Lemma enum_firstn : forall n (l : list T) a, firstn n (combine (seq a (length l)) l) = combine (seq a (length (firstn n l))) (firstn n l).
Proof. induction n as [|n IH]; intros [|x l] a; cbn; try reflexivity. f_equal. apply IH. Qed.
Lemma list_ext : forall {A} (l l' : list A), length l = length l' -> (forall i x, nth_error l' i = Some x -> nth_error l i = Some x) -> l = l'.
Proof.
  intros A l. induction l as [|a l IH]; intros [|b l'] L H; try discriminate; [reflexivity|]. injection L as L. pose proof (H 0 b eq_refl) as E. injection E as ->. f_equal. apply IH; [exact L|]. intros i x Hx. exact (H (S i) x Hx).
Qed.
Lemma firstn_nth : forall {A} n (l : list A) i, i < n -> nth_error (firstn n l) i = nth_error l i.
Proof. induction n as [|n IH]; intros [|x l] i H; try lia; [reflexivity|]. destruct i as [|i]; [reflexivity|]. cbn [firstn nth_error]. apply IH. lia. Qed.
(** Whatever the number of workers, the sizes of the queues and the schedule: [score] returns the score of each of the
    first [total] sentences, in order. *)
Theorem score_complete : forall job_cap progress_cap sentences n s, 1 <= chunksize ->
  ssteps score job_cap progress_cap nworkers chunksize total n (score_init nworkers chunksize sentences) s -> s_main s = MOver ->
  score_result f0 total s = map score (firstn total sentences) /\ s_progress s = [] /\ Forall (fun w => w = SGet \/ w = SDone) (s_workers s).
Proof.
  intros job_cap progress_cap sentences n s Hc H Hm. set (jobs := chunkize_serial (combine (seq 0 (length sentences)) sentences) chunksize).
  destruct (Inv_steps score job_cap progress_cap nworkers chunksize total jobs sentences n s eq_refl H) as (pushed & js & m & V). destruct V.
  rewrite Hm in *. specialize (I_final0 eq_refl). unfold outstanding in I_count0. assert (js = []) by (destruct js; [reflexivity | cbn in I_count0; lia]). subst js.
  assert (Ep : s_progress s = []) by (destruct (s_progress s); [reflexivity | cbn in I_count0; lia]). rewrite Ep in *. cbn [length tot] in *.
  assert (Bz : tot (@w_busy T) (s_workers s) = 0) by lia. pose proof (tot_zero _ _ Bz) as Bw.
  assert (Nz : tot (w_num score total) (s_workers s) = 0).
  { clear - Bw. induction (s_workers s) as [|w ws IH]; [reflexivity|]. cbn [tot]. rewrite IH by (intros; apply Bw; right; assumption). pose proof (Bw w (or_introl eq_refl)). destruct w; try discriminate; reflexivity. }
  split; [|split; [reflexivity|]].
  2:{ apply Forall_forall. intros w Hw. specialize (Bw w Hw). destruct w; try discriminate; auto. }
  destruct (I_pushed0 eq_refl ltac:(discriminate)) as [_ Hp]. pose proof (pushed_scores sentences pushed Hc Hp) as Sc.
  rewrite enum_firstn in Sc. set (R := firstn total sentences) in *.
  assert (Cn : s_count s = length R). { rewrite tot_concat, Sc, map_length, combine_length, seq_length in I_sum0. lia. }
  assert (Lr : length R <= total) by (unfold R; rewrite firstn_length; lia).
  assert (Wr : forall p, In p (s_writes s) -> exists x, nth_error R (fst p) = Some x /\ snd p = score x).
  { intros p Hi. destruct (I_writes0 p Hi) as (j & Hj & Hk). assert (X : In p (concat (map (scored score total) pushed))) by (apply in_concat; exists (scored score total j); split; [apply in_map; exact Hj | exact Hk]).
    rewrite Sc in X. apply in_map_iff in X. destruct X as ([i x] & <- & X). cbn [fst snd]. apply enum_in in X. cbn [fst snd] in X. rewrite Nat.sub_0_r in X. destruct X as [X _]. eauto. }
  assert (Wt : forall p, In p (s_writes s) -> fst p < length (repeat f0 total)).
  { intros p Hi. rewrite repeat_length. destruct (Wr p Hi) as (x & X & _). assert (fst p < length R) by (apply nth_error_Some; congruence). lia. }
  unfold score_result, score_array. rewrite Cn. fold write. change (fun (a : list F) (p : nat * F) => firstn (fst p) a ++ snd p :: skipn (S (fst p)) a) with write.
  assert (La : length (fold_left write (s_writes s) (repeat f0 total)) = total). { rewrite writes_length by exact Wt. apply repeat_length. }
  apply list_ext; [rewrite firstn_length, map_length; lia|]. intros i v Hv. rewrite nth_error_map in Hv. destruct (nth_error R i) as [x|] eqn:Ex; [|discriminate]. injection Hv as <-.
  assert (Hi : i < length R) by (apply nth_error_Some; congruence). rewrite firstn_nth by exact Hi. apply writes_nth; [exact Wt| |].
  - intros p Hp' <-. destruct (Wr p Hp') as (y & Y & ->). congruence.
  - right. pose proof (enum_nth _ 0 _ _ Ex) as X. cbn [Nat.add] in X. apply nth_error_In in X. apply (in_map (fun p => (fst p, score (snd p)))) in X. rewrite <- Sc in X. cbn [fst snd] in X.
    apply in_concat in X. destruct X as (l & Hl & X). apply in_map_iff in Hl. destruct Hl as (j & <- & Hj). destruct (I_written0 j Hj) as [[]|[Y|Y]]; [specialize (Bw _ Y); discriminate|].
    exists (i, score x). split; [apply Y; exact X | reflexivity].
Qed.

(** ** Progress and termination *)
(** As long as it is not over some thread can move; the queues of [score] satisfy [room]: one item for the job queue, and a place
    in the progress queue for each place in the job queue and each worker. *)
Theorem score_progresses : forall job_cap progress_cap sentences n s, 1 <= chunksize -> 1 <= nworkers ->
  job_cap <> Some 0 -> progress_cap <> Some 0 -> (forall c p, job_cap = Some c -> progress_cap = Some p -> c + nworkers <= p) ->
  ssteps score job_cap progress_cap nworkers chunksize total n (score_init nworkers chunksize sentences) s -> s_main s <> MOver -> s_main s <> MError ->
  exists s', sstep score job_cap progress_cap nworkers chunksize total s s'.
Proof.
  intros job_cap progress_cap sentences n s Hc Hw J0 P0 Hcap H No Ne. set (jobs := chunkize_serial (combine (seq 0 (length sentences)) sentences) chunksize).
  destruct (Inv_steps score job_cap progress_cap nworkers chunksize total jobs sentences n s eq_refl H) as (pushed & js & m & V). destruct V. clear H.
  destruct s as [todo nx b mn q ws pq c d w]. unfold outstanding in *. cbn [s_todo s_next s_jobno s_main s_jobs s_workers s_progress s_count s_done s_writes] in *.
  assert (Wc : (exists a x e, ws = a ++ SHave x :: e) \/ (exists a x e, ws = a ++ SPut x :: e) \/ (exists a e, ws = a ++ SGet :: e) \/ tot (@w_done T) ws = length ws).
  { clear. induction ws as [|x ws IH]; [do 3 right; reflexivity|]. destruct x.
    - right. right. left. exists [], ws. reflexivity.
    - left. exists [], j, ws. reflexivity.
    - right. left. exists [], ns, ws. reflexivity.
    - destruct IH as [(a & x & e & ->)|[(a & x & e & ->)|[(a & e & ->)|E]]]; [left; exists (SDone :: a), x, e; reflexivity | right; left; exists (SDone :: a), x, e; reflexivity | right; right; left; exists (SDone :: a), e; reflexivity|].
      do 3 right. cbn. lia. }
  assert (Full : forall {A} (l : list A), room job_cap l = false -> l <> []) by (intros A l Hr ->; destruct job_cap as [[|]|]; cbn in Hr; congruence).
  assert (Blocked : holds_back mn = true -> room job_cap q = false -> tot (@w_done T) ws < length ws ->
     exists s', sstep score job_cap progress_cap nworkers chunksize total (mkS todo nx b mn q ws pq c d w) s').
  { intros Hb Hr Hd. destruct Wc as [(a & x & e & ->)|[(a & x & e & ->)|[(a & e & ->)|E]]]; [| | |lia].
    - eexists. apply ss_score.
    - eexists. apply ss_report. destruct job_cap as [jc|]; [|discriminate]. specialize (I_room0 jc Hb eq_refl). rewrite tot_app in I_room0. cbn [tot w_busy] in I_room0.
      destruct progress_cap as [pc|]; [|reflexivity]. specialize (Hcap jc pc eq_refl eq_refl). unfold room. lia.
    - destruct q as [|[x|] q]; [exfalso; exact (Full _ _ Hr eq_refl) | eexists; apply ss_take_job | eexists; apply ss_take_none]. }
  destruct mn as [|k| | | |]; [| | | |congruence|congruence].
  - destruct todo as [|j todo]; [destruct b; eexists; [apply ss_end | apply ss_unbound]|]. destruct (cut chunksize total nx) eqn:Ec; [eexists; apply ss_cut; exact Ec|].
    destruct (room job_cap q) eqn:Er; [eexists; apply ss_push; assumption|]. apply Blocked; [reflexivity | reflexivity|]. cbn [to_put] in I_none0. lia.
  - destruct k as [|k]; [eexists; apply ss_pushed|]. destruct (room job_cap q) eqn:Er; [eexists; apply ss_none; exact Er|]. apply Blocked; [reflexivity | reflexivity|]. cbn [to_put] in I_none0. lia.
  - destruct pq; eexists; [apply ss_empty | apply ss_drain].
  - destruct (I_pushed0 eq_refl ltac:(discriminate)) as [Pn _]. destruct pushed as [|p0 pushed]; [congruence|]. rewrite I_jobno0. cbn [length] in *.
    destruct (Nat.le_gt_cases (S (length pushed) - 1 + 1) d) as [L|L]; [eexists; apply ss_over; exact L|].
    destruct pq as [|x pq]; [|eexists; apply ss_wait; lia].
    destruct Wc as [(a & x & e & ->)|[(a & x & e & ->)|[(a & e & ->)|E]]].
    + eexists. apply ss_score.
    + eexists. apply ss_report. destruct progress_cap as [[|]|]; [congruence | reflexivity | reflexivity].
    + destruct q as [|[x|] q]; [|eexists; apply ss_take_job | eexists; apply ss_take_none]. exfalso. symmetry in I_queue0. apply app_eq_nil in I_queue0. destruct I_queue0 as [Q1 Q2]. destruct js; [|discriminate].
      assert (m = 0) by (destruct m; [reflexivity | discriminate]). subst m. cbn [length to_put] in *. pose proof (busy_le (a ++ SGet :: e)) as X. rewrite ?tot_app, ?app_length in *. cbn [tot length w_busy w_done] in *. lia.
    + exfalso. pose proof (busy_le ws). assert (js = []) by (apply I_done0; lia). subst js. cbn [length] in *. lia.
Qed.
Definition w_weight (w : @sworker T) : nat := match w with SHave _ => 3 | SPut _ => 2 | _ => 0 end.
Definition q_weight (x : option (@job T)) : nat := match x with Some _ => 4 | None => 1 end.
Definition m_weight (m : smain) : nat := match m with MNext => 2 * nworkers + 3 | MDrain => 2 * nworkers + 4 | MNone k => 2 * k + 2 | MWait => 1 | _ => 0 end.
Definition measure (s : @sstate T F) : nat := 6 * length (s_todo s) + m_weight (s_main s) + tot q_weight (s_jobs s) + tot w_weight (s_workers s) + length (s_progress s).
(** Every schedule is finite. *)
Theorem score_terminates : forall job_cap progress_cap sentences n s,
  ssteps score job_cap progress_cap nworkers chunksize total n (score_init nworkers chunksize sentences) s -> n <= 6 * length (chunkize_serial (combine (seq 0 (length sentences)) sentences) chunksize) + 2 * nworkers + 3.
Proof.
  intros job_cap progress_cap sentences n s H. assert (X : n + measure s <= measure (score_init nworkers chunksize sentences)).
  { remember (score_init nworkers chunksize sentences) as s0. induction H as [|n s s' s'' _ IH St]; [lia|]. specialize (IH Heqs0). enough (measure s'' < measure s') by lia.
    clear - St. destruct St; unfold measure; cbn [s_todo s_main s_jobs s_workers s_progress]; rewrite ?tot_app, ?app_length; cbn [tot q_weight w_weight m_weight length]; lia. }
  unfold measure in X at 2. unfold score_init in X. cbn [s_todo s_main s_jobs s_workers s_progress m_weight tot length] in X. rewrite (tot_repeat w_weight) in X by reflexivity. unfold ScoreSched_Model.job in X. lia.
Qed.
(** Only an empty stream fails: the name [job_no] is not bound then. *)
Theorem score_error : forall job_cap progress_cap sentences n s, 1 <= chunksize ->
  ssteps score job_cap progress_cap nworkers chunksize total n (score_init nworkers chunksize sentences) s ->
  (s_main s = MError -> sentences = []) /\ (sentences = [] -> s_main s <> MOver).
Proof.
  intros job_cap progress_cap sentences n s Hc H. set (jobs := chunkize_serial (combine (seq 0 (length sentences)) sentences) chunksize).
  destruct (Inv_steps score job_cap progress_cap nworkers chunksize total jobs sentences n s eq_refl H) as (pushed & js & m & V). destruct V. clear H.
  destruct (chunkize_serial_exact (combine (seq 0 (length sentences)) sentences) chunksize Hc) as (C1 & C2 & _). fold jobs in C1, C2. split.
  - intros E. specialize (I_error0 E). rewrite I_error0 in C1. destruct sentences; [reflexivity | discriminate].
  - intros -> E. rewrite E in I_pushed0. assert (Ej : jobs = []). { destruct jobs as [|[|] ?]; [reflexivity | inversion C2; tauto | discriminate]. }
    rewrite Ej in I_pushed0. destruct (I_pushed0 eq_refl ltac:(discriminate)) as [P0 [P1|(j & todo & P1 & _)]]; [apply P0; symmetry; exact P1|]. destruct pushed; discriminate.
Qed.
(** From every reachable state the scores are reached. *)
Theorem score_ends : forall job_cap progress_cap sentences n s, 1 <= chunksize -> 1 <= nworkers ->
  job_cap <> Some 0 -> progress_cap <> Some 0 -> (forall c p, job_cap = Some c -> progress_cap = Some p -> c + nworkers <= p) -> sentences <> [] ->
  ssteps score job_cap progress_cap nworkers chunksize total n (score_init nworkers chunksize sentences) s ->
  exists n' s', ssteps score job_cap progress_cap nworkers chunksize total n' s s' /\ s_main s' = MOver /\ score_result f0 total s' = map score (firstn total sentences).
Proof.
  intros job_cap progress_cap sentences n s Hc Hw J0 P0 Hcap Hs H.
  set (B := 6 * length (chunkize_serial (combine (seq 0 (length sentences)) sentences) chunksize) + 2 * nworkers + 3).
  assert (X : forall k n s, B - n <= k -> ssteps score job_cap progress_cap nworkers chunksize total n (score_init nworkers chunksize sentences) s ->
    exists n' s', ssteps score job_cap progress_cap nworkers chunksize total n' s s' /\ s_main s' = MOver /\ score_result f0 total s' = map score (firstn total sentences)).
  { clear n s H. induction k as [|k IH]; intros n s Hk H.
    all: destruct (score_error job_cap progress_cap sentences n s Hc H) as [Er _].
    all: assert (Dec : s_main s = MOver \/ s_main s <> MOver) by (destruct (s_main s); auto; right; discriminate).
    all: destruct Dec as [E|E]; [exists 0, s; split; [constructor|]; split; [exact E|]; apply (score_complete job_cap progress_cap sentences n s Hc H E)|].
    all: destruct (score_progresses job_cap progress_cap sentences n s Hc Hw J0 P0 Hcap H E ltac:(intros Y; exact (Hs (Er Y)))) as [s' St].
    all: pose proof (score_terminates job_cap progress_cap sentences _ _ (sss_step _ _ _ _ _ _ _ _ _ _ H St)) as Tm; fold B in Tm.
    - lia.
    - destruct (IH (S n) s' ltac:(lia) (sss_step _ _ _ _ _ _ _ _ _ _ H St)) as (n' & s2 & A & C). exists (S n'), s2. split; [|exact C].
      clear - A St. induction A as [|m a b c A IH St']; [eapply sss_step; [constructor | exact St]|]. eapply sss_step; [apply IH; exact St | exact St']. }
  exact (X _ n s (Nat.le_refl _) H).
Qed.
End Result.
Print Assumptions score_ends.
Print Assumptions score_complete.
Print Assumptions score_progresses.
Print Assumptions score_terminates.
Print Assumptions score_error.

(** The queues of [score] have room, for every positive number of workers. *)
Theorem score_queues : forall queue_factor workers, 1 <= workers ->
  job_bound queue_factor workers <> Some 0 /\ progress_bound queue_factor workers <> Some 0 /\
  forall c p, job_bound queue_factor workers = Some c -> progress_bound queue_factor workers = Some p -> c + workers <= p.
Proof.
  intros qf w Hw. unfold job_bound, progress_bound, queue_bound. destruct (qf * w) as [|x] eqn:E1; destruct ((qf + 1) * w) as [|y] eqn:E2; try lia.
  - split; [discriminate|]. split; [discriminate|]. discriminate.
  - split; [discriminate|]. split; [discriminate|]. intros c p Ec Ep. injection Ec as <-. injection Ep as <-. nia.
Qed.
Print Assumptions score_queues.

(** With an empty stream it ends in an exception. *)
Theorem score_empty_refuted : exists s, ssteps (T := nat) (F := nat) S (job_bound 2 1) (progress_bound 2 1) 1 100 10 1 (score_init 1 100 []) s /\ s_main s = MError.
Proof. eexists. split; [eapply sss_step; [apply sss_refl|]; apply ss_unbound | reflexivity]. Qed.
Print Assumptions score_empty_refuted.

(** Three sentences of which two are asked for, in jobs of one sentence, with two workers. *)
Example score_ex : exists n s, ssteps (T := nat) (F := nat) S (job_bound 2 2) (progress_bound 2 2) 2 1 2 n (score_init 2 1 [10; 20; 30]) s /\ s_main s = MOver /\ score_result 0 2 s = [11; 21].
Proof.
  destruct (score_queues 2 2 ltac:(lia)) as (A & B & C).
  apply (score_ends 0 S 2 1 2 (job_bound 2 2) (progress_bound 2 2) [10; 20; 30] 0); auto; [discriminate | constructor].
Qed.
