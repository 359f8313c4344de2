(** Theorems about one training epoch with threads (property C43). *)

From Coq Require Import Permutation.
From Verif Require Import Base TrainSched_Model.
From Coq Require Import ZifyNat ZifyBool.
Local Open Scope nat_scope.

Section Epoch.
Context {J Rep : Type}.
Variable train_job : J -> option Rep.
Variable job_cap progress_cap : option nat.
Notation estep := (estep train_job job_cap progress_cap).
Notation esteps := (esteps train_job job_cap progress_cap).
Notation epoch := (epoch J Rep).
Notation worker := (worker J Rep).

Definition is_done (w : worker) : bool := match w with WDone => true | _ => false end.
Definition is_putnone (w : worker) : bool := match w with WPut None => true | _ => false end.
Definition is_none {A} (x : option A) : bool := match x with None => true | _ => false end.
Definition is_some {A} (x : option A) : bool := match x with None => false | _ => true end.
Definition cnt {A} (f : A -> bool) (l : list A) : nat := length (filter f l).
Definition in_worker (w : worker) : list (option Rep) :=
  match w with WHave j => [train_job j] | WPut (Some r) => [Some r] | WDead _ => [None] | _ => [] end.
Definition in_queue (x : option J) : list (option Rep) := match x with Some j => [train_job j] | None => [] end.
(** The outcomes of all jobs, wherever they are. *)
Definition outcomes (s : epoch) : list (option Rep) :=
  map Some (e_reports s) ++ filter is_some (e_progress s) ++ flat_map in_worker (e_workers s) ++ flat_map in_queue (e_jobs s ++ e_todo s).

Record Good (W : nat) (jobs : list J) (s : epoch) : Prop := {
  G_len : length (e_workers s) = W;
  G_pend : exists js n, e_jobs s ++ e_todo s = map Some js ++ repeat None n /\ (js <> [] -> n = W) /\ n + cnt is_putnone (e_workers s) + cnt is_done (e_workers s) = W;
  G_none : cnt is_none (e_progress s) + W = cnt is_done (e_workers s) + e_unfinished s;
  G_last : (forall w, In w (e_workers s) -> w = WDone) -> e_progress s = [] \/ exists l, e_progress s = l ++ [None];
  G_out : Permutation (outcomes s) (map train_job jobs)
}.

Lemma cnt_app : forall {A} (f : A -> bool) l l', cnt f (l ++ l') = cnt f l + cnt f l'.
Proof. intros. unfold cnt. rewrite filter_app, app_length. reflexivity. Qed.
Lemma cnt_cons : forall {A} (f : A -> bool) x l, cnt f (x :: l) = (if f x then 1 else 0) + cnt f l.
Proof. intros. unfold cnt. cbn. destruct (f x); reflexivity. Qed.
Lemma cnt_nil : forall {A} (f : A -> bool), cnt f [] = 0.
Proof. reflexivity. Qed.
Lemma cnt_le : forall {A} (f : A -> bool) l, cnt f l <= length l.
Proof. intros. unfold cnt. induction l as [|x l IH]; cbn; [lia|]. destruct (f x); cbn; lia. Qed.
Lemma cnt_all : forall {A} (f : A -> bool) l, cnt f l = length l -> forall x, In x l -> f x = true.
Proof.
  induction l as [|y l IH]; intros H x Hx; [destruct Hx|]. rewrite cnt_cons in H. cbn in H. pose proof (cnt_le f l). destruct (f y) eqn:E; [|lia]. destruct Hx as [<-|Hx]; [exact E|]. apply IH; [lia | exact Hx].
Qed.
Lemma cnt_zero : forall {A} (f : A -> bool) l, cnt f l = 0 -> forall x, In x l -> f x = false.
Proof. induction l as [|y l IH]; intros H x Hx; [destruct Hx|]. rewrite cnt_cons in H. destruct (f y) eqn:E; [lia|]. destruct Hx as [<-|Hx]; [exact E|]. apply IH; [lia | exact Hx]. Qed.
Lemma pend_head_some : forall (j : J) q js n, Some j :: q = map Some js ++ repeat None n -> exists js', js = j :: js' /\ q = map Some js' ++ repeat None n.
Proof. intros j q [|j' js] n E; [destruct n; discriminate|]. cbn in E. injection E as <- E. exists js. auto. Qed.
Lemma pend_head_none : forall (q : list (option J)) js n, None :: q = map Some js ++ repeat None n -> js = [] /\ exists n', n = S n' /\ q = repeat None n'.
Proof. intros q [|j' js] n E; [|discriminate]. split; [reflexivity|]. destruct n as [|n]; [discriminate|]. cbn in E. injection E as E. exists n. auto. Qed.

Lemma outcomes_step : forall s s', estep s s' -> Permutation (outcomes s') (outcomes s).
Proof.
  intros s s' H. destruct H; unfold outcomes; cbn [e_reports e_progress e_workers e_jobs e_todo]; rewrite ?map_app, ?filter_app, ?flat_map_app; cbn [map filter flat_map is_some in_worker in_queue app]; rewrite ?app_nil_r.
  - rewrite <- !app_assoc. reflexivity.
  - rewrite <- !app_assoc. do 3 apply Permutation_app_head. cbn. apply Permutation_middle.
  - rewrite <- !app_assoc. reflexivity.
  - rewrite H. reflexivity.
  - rewrite H. reflexivity.
  - rewrite <- !app_assoc. do 2 apply Permutation_app_head. cbn. rewrite <- ?app_assoc. apply (Permutation_middle (flat_map in_worker ws1)).
  - rewrite <- !app_assoc. reflexivity.
  - rewrite <- !app_assoc. reflexivity.
  - reflexivity.
Qed.

Lemma Good_step : forall W jobs s s', Good W jobs s -> estep s s' -> Good W jobs s'.
Proof.
  intros W jobs s s' [L (js & n & P1 & P2 & P3) N La O] H. pose proof (outcomes_step s s' H) as O'.
  destruct H; cbn [e_todo e_jobs e_workers e_progress e_unfinished e_reports] in *;
    constructor; cbn [e_todo e_jobs e_workers e_progress e_unfinished e_reports];
    rewrite ?cnt_app, ?cnt_cons, ?cnt_nil, ?app_length in *; cbn [is_putnone is_done is_none length app] in *; try lia; try (etransitivity; [exact O' | exact O]).
  all: try (intros X; exfalso; first [ specialize (X _ (in_elt _ _ _)); discriminate ]).
  - exists js, n. rewrite <- app_assoc. cbn. auto.
  - exact La.
  - apply pend_head_some in P1. destruct P1 as (js' & -> & P1). exists js', n. rewrite P1, ?cnt_app, ?cnt_cons. cbn [is_putnone is_done]. split; [reflexivity|]. split; [intros _; apply P2; discriminate | lia].
  - apply pend_head_none in P1. destruct P1 as (-> & n' & -> & P1). exists [], n'. rewrite P1, ?cnt_app, ?cnt_cons. cbn [is_putnone is_done]. split; [reflexivity|]. split; [congruence | lia].
  - exists js, n. rewrite ?cnt_app, ?cnt_cons. cbn [is_putnone is_done]. auto with arith.
  - exists js, n. rewrite ?cnt_app, ?cnt_cons. cbn [is_putnone is_done]. auto with arith.
  - exists js, n. rewrite ?cnt_app, ?cnt_cons. cbn [is_putnone is_done]. auto with arith.
  - exists js, n. rewrite ?cnt_app, ?cnt_cons. cbn [is_putnone is_done]. split; [exact P1|]. split; [exact P2 | lia].
  - intros _. right. eauto.
  - exists js, n. auto.
  - intros X. destruct (La X) as [E|(l & E)]; [discriminate|]. destruct l as [|x l]; [discriminate|]. cbn in E. injection E as _ ->. right. eauto.
  - exists js, n. auto.
  - intros X. destruct (La X) as [E|(l & E)]; [discriminate|]. destruct l as [|x l]; cbn in E; injection E as E; [left; exact E|]. right. exists l. congruence.
Qed.
Lemma Good_init : forall W jobs, Good W jobs (epoch_init W jobs false).
Proof.
  intros W jobs. assert (Z : forall (f : worker -> bool) n, f WGet = false -> cnt f (repeat WGet n) = 0). { intros f n E. induction n as [|n IH]; [reflexivity|]. cbn [repeat]. rewrite cnt_cons, E, IH. reflexivity. }
  unfold epoch_init. constructor; cbn [e_todo e_jobs e_workers e_progress e_unfinished e_reports app].
  - apply repeat_length.
  - exists jobs, W. rewrite !Z by reflexivity. split; [reflexivity|]. split; [reflexivity | lia].
  - rewrite !Z by reflexivity. reflexivity.
  - auto.
  - unfold outcomes. cbn. assert (F : forall n, flat_map in_worker (repeat WGet n) = []) by (induction n as [|n IH]; [reflexivity | exact IH]). rewrite F. cbn. rewrite flat_map_app.
    assert (F2 : forall n, flat_map in_queue (repeat None n) = []) by (induction n as [|n IH]; [reflexivity | exact IH]). rewrite F2, app_nil_r.
    clear. induction jobs as [|j jobs IH]; [constructor|]. cbn. constructor. exact IH.
Qed.
Lemma Good_steps : forall W jobs s, esteps (epoch_init W jobs false) s -> Good W jobs s.
Proof. intros W jobs s H. remember (epoch_init W jobs false) as s0. induction H; [subst; apply Good_init | eapply Good_step; eauto]. Qed.

(** ** Safety: when the epoch is over every job has been processed exactly once *)
Theorem epoch_complete : forall W jobs s, 0 < W -> esteps (epoch_init W jobs false) s -> epoch_over s ->
  Permutation (map Some (e_reports s)) (map train_job jobs) /\ e_jobs s = [] /\ e_todo s = [] /\ e_progress s = [] /\ Forall (fun w => w = WDone) (e_workers s).
Proof.
  intros W jobs s Wp H Ov. apply Good_steps in H. destruct H as [L (js & n & P1 & P2 & P3) N La O]. unfold epoch_over in Ov. rewrite Ov in N. pose proof (cnt_le is_done (e_workers s)) as C.
  assert (D : forall w, In w (e_workers s) -> w = WDone).
  { intros w Hw. assert (X : is_done w = true) by (apply (cnt_all is_done (e_workers s)); [lia | exact Hw]). destruct w as [| | [?|] | |]; try discriminate. reflexivity. }
  assert (n = 0) by lia. subst n. assert (js = []) by (destruct js; [reflexivity | specialize (P2 ltac:(discriminate)); lia]). subst js. cbn in P1. apply app_eq_nil in P1. destruct P1 as [P1 P1'].
  assert (Pq : e_progress s = []).
  { destruct (La D) as [E|(l & E)]; [exact E|]. rewrite E, cnt_app, cnt_cons in N. cbn in N. lia. }
  unfold outcomes in O. rewrite P1, P1', Pq in O. cbn in O. assert (F : flat_map in_worker (e_workers s) = []).
  { clear - D. induction (e_workers s) as [|w ws IH]; [reflexivity|]. cbn. rewrite (D w (or_introl eq_refl)). cbn. apply IH. intros; apply D; right; assumption. }
  rewrite F in O. cbn in O. rewrite !app_nil_r in O. split; [exact O|]. rewrite Forall_forall. auto.
Qed.
(** If training some job raises the epoch never ends. *)
Theorem epoch_failing_never_ends : forall W jobs s, 0 < W -> (exists j, In j jobs /\ train_job j = None) -> esteps (epoch_init W jobs false) s -> ~ epoch_over s.
Proof.
  intros W jobs s Wp (j & Hj & Ej) H Ov. destruct (epoch_complete W jobs s Wp H Ov) as [P _].
  assert (X : In None (map train_job jobs)) by (rewrite <- Ej; apply in_map; exact Hj). apply (Permutation_in _ (Permutation_sym P)) in X. apply in_map_iff in X. destruct X as (? & E & _). discriminate.
Qed.
(** If the corpus iterator raises the epoch never ends either. *)
Theorem epoch_raising_never_ends : forall W jobs s, 0 < W -> esteps (epoch_init W jobs true) s -> ~ epoch_over s.
Proof.
  intros W jobs s Wp H. assert (X : (forall x, In x (e_jobs s ++ e_todo s) -> x <> None) /\ (forall w, In w (e_workers s) -> w <> WPut None) /\ (forall x, In x (e_progress s) -> x <> None) /\ e_unfinished s = W).
  { remember (epoch_init W jobs true) as s0. induction H as [|s s' s'' _ IH St].
    - subst. cbn. rewrite app_nil_r. split; [intros x Hx; apply in_map_iff in Hx; destruct Hx as (? & <- & _); discriminate|]. split; [intros w Hw; apply repeat_spec in Hw; subst; discriminate|]. split; [intros ? []|reflexivity].
    - specialize (IH Heqs0). destruct IH as (A & B & C & E). destruct St; cbn [e_todo e_jobs e_workers e_progress e_unfinished e_reports] in *.
      all: repeat split; auto; try (intros x0 Hx0).
      all: try (apply A; rewrite <- app_assoc in Hx0; exact Hx0).
      all: try (apply A; right; exact Hx0).
      all: try (apply C; right; exact Hx0).
      all: try (apply in_app_or in Hx0; destruct Hx0 as [Hx0|[<-|Hx0]]; [apply B, in_or_app; left; exact Hx0 | discriminate | apply B, in_or_app; right; right; exact Hx0]).
      all: try (apply in_app_or in Hx0; destruct Hx0 as [Hx0|[<-|[]]]; [apply C; exact Hx0 | discriminate]).
      all: exfalso; first [ apply (A None); [left; reflexivity | reflexivity] | apply (B (WPut None)); [apply in_elt | reflexivity] | apply (C None); [left; reflexivity | reflexivity] ]. }
  destruct X as (_ & _ & _ & X). unfold epoch_over. lia.
Qed.

(** ** Progress: as long as it is not over some thread can move *)
Hypothesis job_room : job_cap <> Some 0.
Hypothesis progress_room : progress_cap <> Some 0.
Lemma room_empty : forall {A} cap, cap <> Some 0 -> @room A cap [] = true.
Proof. intros A [[|c]|] H; cbn; auto. Qed.
Lemma worker_cases : forall ws : list worker, (exists ws1 j ws2, ws = ws1 ++ WHave j :: ws2) \/ (exists ws1 r ws2, ws = ws1 ++ WPut r :: ws2) \/ (exists ws1 ws2, ws = ws1 ++ WGet :: ws2) \/
  (exists ws1 j ws2, ws = ws1 ++ WDead j :: ws2) \/ (forall w, In w ws -> w = WDone).
Proof.
  induction ws as [|w ws IH]; [do 4 right; intros ? []|]. destruct w as [|j|r| |j].
  - do 2 right. left. exists [], ws. reflexivity.
  - left. exists [], j, ws. reflexivity.
  - right. left. exists [], r, ws. reflexivity.
  - destruct IH as [(a & b & c & ->)|[(a & b & c & ->)|[(a & b & ->)|[(a & b & c & ->)|IH]]]].
    + left. exists (WDone :: a), b, c. reflexivity.
    + right. left. exists (WDone :: a), b, c. reflexivity.
    + do 2 right. left. exists (WDone :: a), b. reflexivity.
    + do 3 right. left. exists (WDone :: a), b, c. reflexivity.
    + do 4 right. intros w [<-|Hw]; auto.
  - do 3 right. left. exists [], j, ws. reflexivity.
Qed.
Theorem epoch_progresses : forall W jobs s, (forall j, In j jobs -> train_job j <> None) -> esteps (epoch_init W jobs false) s -> ~ epoch_over s -> exists s', estep s s'.
Proof.
  intros W jobs s Tr H Ov. pose proof (Good_steps W jobs s H) as [L (js & n & P1 & P2 & P3) N La O]. destruct s as [todo q ws pq u got]. unfold epoch_over in Ov. cbn [e_todo e_jobs e_workers e_progress e_unfinished e_reports] in *.
  destruct u as [|u]; [congruence|]. destruct pq as [|[r|] pq]; [|eexists; apply s_count | eexists; apply s_worker_end].
  destruct (worker_cases ws) as [(a & j & b & ->)|[(a & r & b & ->)|[(a & b & ->)|[(a & j & b & ->)|D]]]].
  - destruct (train_job j) as [r|] eqn:E; eexists; [apply s_train | apply s_die]; exact E.
  - destruct r as [r|]; eexists; [apply s_report | apply s_finish]; apply room_empty, progress_room.
  - destruct q as [|[j|] q]; [|eexists; apply s_take_job | eexists; apply s_take_none]. destruct todo as [|x todo]; [|eexists; apply s_produce, room_empty, job_room].
    exfalso. cbn in P1. symmetry in P1. apply app_eq_nil in P1. destruct P1 as [_ P1]. assert (n = 0) by (destruct n; [reflexivity | discriminate]). subst n.
    rewrite ?cnt_app, ?cnt_cons, ?app_length in *. cbn [length is_putnone is_done] in *.
    assert (X : forall l : list worker, cnt is_putnone l + cnt is_done l <= length l) by (induction l as [|w l IH]; [cbn; lia|]; rewrite !cnt_cons; cbn [length]; destruct w as [| |[?|]| |]; cbn [is_putnone is_done]; lia).
    pose proof (X a). pose proof (X b). lia.
  - exfalso. unfold outcomes in O. cbn [e_todo e_jobs e_workers e_progress e_unfinished e_reports] in O. rewrite flat_map_app in O. cbn [flat_map in_worker] in O.
    assert (X : In None (map train_job jobs)) by (eapply Permutation_in; [exact O|]; rewrite !in_app_iff; cbn; auto 10). apply in_map_iff in X. destruct X as (k & Ek & Hk). exact (Tr k Hk Ek).
  - exfalso. assert (X : cnt is_done ws = length ws). { clear - D. induction ws as [|w ws IH]; [reflexivity|]. rewrite cnt_cons, (D w (or_introl eq_refl)). cbn. f_equal. apply IH. intros; apply D; right; assumption. }
    cbn in N. lia.
Qed.

(** ** Termination: every schedule is finite *)
Definition w_weight (w : worker) : nat := match w with WHave _ => 3 | WPut _ => 2 | _ => 0 end.
Definition measure (s : epoch) : nat := 5 * length (e_todo s) + 4 * length (e_jobs s) + list_sum (map w_weight (e_workers s)) + length (e_progress s).
Lemma measure_step : forall s s', estep s s' -> measure s' < measure s.
Proof.
  intros s s' H. destruct H; unfold measure; cbn [e_todo e_jobs e_workers e_progress e_unfinished e_reports]; rewrite ?map_app, ?list_sum_app, ?app_length; cbn [map list_sum fold_right w_weight length]; lia.
Qed.
Inductive esteps_n : nat -> epoch -> epoch -> Prop :=
| en_refl : forall s, esteps_n 0 s s
| en_step : forall n s s' s'', esteps_n n s s' -> estep s' s'' -> esteps_n (S n) s s''.
Theorem epoch_terminates : forall W jobs raised n s, esteps_n n (epoch_init W jobs raised) s -> n <= 5 * (length jobs + W).
Proof.
  intros W jobs raised n s H. assert (X : n + measure s <= measure (epoch_init W jobs raised)). { remember (epoch_init W jobs raised) as s0. induction H as [|n s s' s'' _ IH St]; [lia|]. specialize (IH Heqs0). pose proof (measure_step _ _ St). lia. }
  unfold measure in X at 2. unfold epoch_init in X. cbn [e_todo e_jobs e_workers e_progress] in X. rewrite app_length, map_length in X.
  assert (Z : list_sum (map w_weight (repeat WGet W)) = 0) by (clear; induction W as [|W IH]; [reflexivity | exact IH]). rewrite Z in X. cbn in X. destruct raised; cbn in X; rewrite ?repeat_length in X; lia.
Qed.

(** Together: from any reachable state some schedule ends the epoch, and no schedule can avoid it. *)
Theorem epoch_can_end : forall W jobs s, (forall j, In j jobs -> train_job j <> None) -> esteps (epoch_init W jobs false) s -> exists s', esteps s s' /\ epoch_over s'.
Proof.
  intros W jobs s Tr. remember (measure s) as m eqn:Em. revert s Em. induction m as [m IH] using lt_wf_ind. intros s Em H.
  destruct (Nat.eq_dec (e_unfinished s) 0) as [E|E]; [exists s; split; [constructor | exact E]|].
  destruct (epoch_progresses W jobs s Tr H E) as [s1 St]. destruct (IH (measure s1) ltac:(subst; apply measure_step; exact St) s1 eq_refl ltac:(econstructor; eassumption)) as (s2 & H2 & O2).
  exists s2. split; [|exact O2]. clear - St H2. induction H2 as [|? ? ? ? IH S2]; [econstructor; [constructor | exact St]|]. econstructor; [apply IH; exact St | exact S2].
Qed.
End Epoch.
Print Assumptions epoch_complete. Print Assumptions epoch_failing_never_ends. Print Assumptions epoch_raising_never_ends. Print Assumptions epoch_progresses.
Print Assumptions epoch_terminates. Print Assumptions epoch_can_end.

(** The totals the epoch reports (1265-1270, 1285) are the sums over the jobs, whatever the schedule. *)
Definition tally (reports : list (nat * nat * nat)) : nat * nat * nat * nat :=
  fold_left (fun '(e, t, r, n) '(e', t', r') => (e + e', t + t', r + r', n + 1)) reports (0, 0, 0, 0).
Lemma tally_perm : forall l l', Permutation l l' -> tally l = tally l'.
Proof.
  unfold tally. intros l l' H. generalize (0, 0, 0, 0) as a. induction H as [| [[x y] z] l l' _ IH | [[x y] z] [[x' y'] z'] l | l l' l'' _ IH1 _ IH2]; intros a; [reflexivity | apply IH | | rewrite IH1; apply IH2].
  cbn [fold_left]. destruct a as [[[a b] c] d]. f_equal. repeat (f_equal; try lia).
Qed.
Theorem epoch_totals : forall {J} (train : J -> nat * nat * nat) jc pc W jobs s, 0 < W -> esteps (fun j => Some (train j)) jc pc (epoch_init W jobs false) s -> epoch_over s ->
  tally (e_reports s) = tally (map train jobs).
Proof.
  intros J train jc pc W jobs s Wp H Ov. destruct (epoch_complete (fun j => Some (train j)) jc pc W jobs s Wp H Ov) as [P _]. apply tally_perm.
  rewrite <- (map_map train Some) in P. apply Permutation_map_inv in P. destruct P as (l & E & P). assert (X : forall a b : list (nat * nat * nat), map Some a = map Some b -> a = b) by (induction a as [|x a IH]; intros [|y b] E'; try discriminate; [reflexivity|]; cbn in E'; injection E' as -> E'; f_equal; apply IH; exact E').
  apply X in E. rewrite E. symmetry. exact P.
Qed.
Print Assumptions epoch_totals.

(** The queue bounds of the code leave room. *)
Theorem bounds_ok : forall queue_factor workers, job_bound queue_factor workers <> Some 0 /\ progress_bound queue_factor workers <> Some 0.
Proof. intros. unfold job_bound, progress_bound, queue_bound. destruct (queue_factor * workers); destruct ((queue_factor + 1) * workers); split; discriminate. Qed.
(** Without workers the epoch is over at once and nothing is trained. *)
Theorem no_workers_refuted : exists (jobs : list nat), jobs <> [] /\ epoch_over (epoch_init (Rep := nat) 0 jobs false) /\ e_reports (epoch_init (Rep := nat) 0 jobs false) = [].
Proof. exists [1]. split; [discriminate|]. split; reflexivity. Qed.

(** Two workers, three jobs, and the queue bounds of the code; and the same with a job that raises. *)
Example epoch_ex : exists s, esteps (fun j : nat => Some (j, 2 * j, 3 * j)) (job_bound 1 2) (progress_bound 1 2) (epoch_init 2 [5; 6; 7] false) s /\ epoch_over s /\ tally (e_reports s) = (18, 36, 54, 3).
Proof.
  destruct (bounds_ok 1 2) as [B1 B2]. destruct (epoch_can_end (fun j : nat => Some (j, 2 * j, 3 * j)) (job_bound 1 2) (progress_bound 1 2) B1 B2 2 [5; 6; 7] (epoch_init 2 [5; 6; 7] false)) as (s & H & O);
    [intros; discriminate | constructor|]. exists s. split; [exact H|]. split; [exact O|]. rewrite (epoch_totals _ _ _ 2 [5; 6; 7] s ltac:(lia) H O). reflexivity.
Qed.
Example epoch_failing_ex : forall s, esteps (fun j : nat => if j =? 6 then None else Some j) (job_bound 1 2) (progress_bound 1 2) (epoch_init 2 [5; 6; 7] false) s -> ~ epoch_over s.
Proof. intros s H. apply (epoch_failing_never_ends (fun j : nat => if j =? 6 then None else Some j) (job_bound 1 2) (progress_bound 1 2) 2 [5; 6; 7] s); [lia | exists 6; split; [right; left; reflexivity | reflexivity] | exact H]. Qed.
