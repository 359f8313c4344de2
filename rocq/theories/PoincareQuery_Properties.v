(** Queries and evaluations of Poincaré embeddings (property C89). *)
From Coq Require Import QArith Qabs Lqa ZifyBool ZifyNat.
From Verif Require Import Base Str Matutils_Model Matutils_Proofs2 Matutils_Properties PoincareQuery_Model.
Local Close Scope Q_scope.
Local Open Scope nat_scope.

Lemma qlt_true : forall a b, qlt a b = true <-> (a < b)%Q.
Proof. intros a b. unfold qlt. rewrite negb_true_iff. split; intros H; [apply Qnot_le_lt; intros Q; apply Qle_bool_iff in Q; congruence|]. destruct (Qle_bool b a) eqn:E; [|reflexivity]. apply Qle_bool_iff in E. apply Qlt_not_le in H. contradiction. Qed.
Lemma qlt_false : forall a b, qlt a b = false <-> (b <= a)%Q.
Proof. intros a b. unfold qlt. rewrite negb_false_iff. apply Qle_bool_iff. Qed.

Section Query.
Context {V : Type} (dist : V -> V -> Q) (vnorm : V -> Q) (scalar : Z -> V).

(** An embedding has one vector for each of its different names. *)
Definition proper (m : emb V) : Prop := NoDup (keys m) /\ length (keys m) = length (vecs m).
Definition node_at (m : emb V) (name : pystr) (i : nat) (v : V) : Prop := nth_error (keys m) i = Some name /\ nth_error (vecs m) i = Some v.

Lemma position_iff : forall ks name i, NoDup ks -> (position name ks = Some i <-> nth_error ks i = Some name).
Proof.
  induction ks as [|k ks IH]; intros name i N; [destruct i; split; discriminate|]. inversion N as [|? ? N1 N2]; subst. cbn [position]. destruct (eqb k name) eqn:E.
  - rewrite eqb_true in E. subst. split; [intros H; injection H as <-; reflexivity|]. destruct i; [reflexivity|]. cbn. intros H. apply nth_error_In in H. contradiction.
  - rewrite eqb_false in E. destruct i as [|i].
    + cbn [nth_error]. split; [destruct (position name ks); discriminate | congruence].
    + cbn [nth_error]. rewrite <- (IH name i N2). destruct (position name ks); cbn [option_map]; split; congruence.
Qed.
Lemma get_index_name : forall m name i v, proper m -> node_at m name i v -> get_index m (NName name) = Ok i /\ input_vector scalar m (NName name) = Ok v.
Proof. intros m name i v [N L] [H1 H2]. unfold input_vector, get_index. rewrite (proj2 (position_iff _ _ _ N) H1). cbn [of_option rbind]. rewrite H2. split; reflexivity. Qed.
Lemma node_exists : forall m i, proper m -> i < length (keys m) -> exists name v, node_at m name i v.
Proof.
  intros m i [N L] H. destruct (nth_error (keys m) i) as [k|] eqn:E1; [|apply nth_error_None in E1; lia]. destruct (nth_error (vecs m) i) as [v|] eqn:E2; [|apply nth_error_None in E2; lia]. exists k, v. split; assumption.
Qed.
Lemma argmin_spec : forall l p, argmin l = Some p -> exists l1 l2, l = l1 ++ p :: l2 /\ Forall (fun q => snd p < snd q)%Q l1 /\ Forall (fun q => snd p <= snd q)%Q l2.
Proof.
  induction l as [|[i d] l IH]; intros p H; [discriminate|]. cbn [argmin] in H. destruct (argmin l) as [[j e]|] eqn:A.
  - destruct (IH (j, e) eq_refl) as (l1 & l2 & -> & F1 & F2). cbn [snd] in *. destruct (qlt e d) eqn:C.
    + injection H as <-. apply qlt_true in C. exists ((i, d) :: l1), l2. split; [reflexivity|]. split; [constructor; assumption | exact F2].
    + injection H as <-. apply qlt_false in C. exists [], (l1 ++ (j, e) :: l2). split; [reflexivity|]. split; [constructor|]. cbn [snd]. apply Forall_app. split; [eapply Forall_impl; [|exact F1]; cbv beta; intros; lra|]. constructor; [exact C|]. eapply Forall_impl; [|exact F2]; cbv beta; intros; lra.
  - destruct l as [|[j e] l]; [|cbn [argmin] in A; destruct (argmin l) as [[? ?]|]; [destruct (qlt _ _)|]; discriminate]. injection H as <-. exists [], []. repeat split; constructor.
Qed.
Lemma argmin_none : forall l, argmin l = None <-> l = [].
Proof. intros [|[i d] l]; [split; reflexivity|]. split; [|discriminate]. cbn [argmin]. destruct (argmin l) as [[j e]|]; [destruct (qlt e d)|]; discriminate. Qed.
Lemma combine_seq_in : forall {A} (l : list A) a k x, In (k, x) (combine (seq a (length l)) l) <-> a <= k /\ nth_error l (k - a) = Some x.
Proof.
  induction l as [|y l IH]; intros a k x; [cbn; split; [tauto|]; intros [_ H]; destruct (k - a); discriminate|]. cbn [length seq combine In]. rewrite IH. split.
  - intros [H|[H1 H2]]; [injection H as <- <-; rewrite Nat.sub_diag; auto|]. split; [lia|]. replace (k - a) with (S (k - S a)) by lia. exact H2.
  - intros [H1 H2]. destruct (Nat.eq_dec k a) as [->|N]; [left; rewrite Nat.sub_diag in H2; cbn in H2; congruence|]. right. split; [lia|]. replace (k - a) with (S (k - S a)) in H2 by lia. exact H2.
Qed.
Lemma combine_seq_sorted : forall {A} (l : list A) a, StronglySorted (fun p q => fst p < fst q) (combine (seq a (length l)) l).
Proof.
  induction l as [|y l IH]; intros a; [constructor|]. cbn [length seq combine]. constructor; [apply IH|]. apply Forall_forall. intros [k x] H. apply combine_seq_in in H. cbn. lia.
Qed.
Lemma sorted_filter : forall {A} (R : A -> A -> Prop) (f : A -> bool) l, StronglySorted R l -> StronglySorted R (filter f l).
Proof. intros A R f l. induction 1 as [|x l S1 IH F]; [constructor|]. cbn [filter]. destruct (f x); [|exact IH]. constructor; [exact IH|]. apply Forall_forall. intros y Hy. apply filter_In in Hy. rewrite Forall_forall in F. apply F, Hy. Qed.

Definition lower (below : bool) (v w : V) : Prop := if below then (vnorm v < vnorm w)%Q else (vnorm w < vnorm v)%Q.
Lemma closest_exact : forall below m name i v, proper m -> node_at m name i v -> exists r, closest dist vnorm scalar below m (NName name) = Ok r /\
  match r with
  | None => forall k w, nth_error (vecs m) k = Some w -> ~ lower below v w
  | Some c => exists j w, node_at m c j w /\ lower below v w /\
      forall k u, nth_error (vecs m) k = Some u -> lower below v u -> (dist v w <= dist v u)%Q /\ (k < j -> (dist v w < dist v u)%Q)
  end.
Proof.
  intros below m name i v P H. destruct (get_index_name m name i v P H) as [G1 G2]. unfold closest, distances. rewrite G2. cbn [rbind]. rewrite G1. cbn [rbind]. assert (X : nth_error (map vnorm (vecs m)) i = Some (vnorm v)) by (apply map_nth_error, H). rewrite X. cbn [of_option rbind].
  set (free := filter _ _).
  assert (Fi : forall k d, In (k, d) free <-> exists u, nth_error (vecs m) k = Some u /\ d = dist v u /\ lower below v u).
  { intros k d. unfold free. rewrite filter_In, map_length, <- (map_length (dist v) (vecs m)), combine_seq_in, Nat.sub_0_r. cbn [fst].
    assert (Q : forall u, nth_error (vecs m) k = Some u -> nth k (map vnorm (vecs m)) 0%Q = vnorm u) by (intros u Hu; apply nth_error_nth, map_nth_error, Hu).
    assert (Q2 : forall u, (if below then qlt (vnorm v) (vnorm u) else qlt (vnorm u) (vnorm v)) = true <-> lower below v u) by (intros u; unfold lower; destruct below; apply qlt_true).
    split.
    - intros [[_ Hn] Hl]. destruct (nth_error (vecs m) k) as [u|] eqn:Hu; [|rewrite nth_error_map, Hu in Hn; discriminate]. rewrite nth_error_map, Hu in Hn. cbn in Hn. injection Hn as <-. exists u. rewrite (Q u eq_refl) in Hl. split; [reflexivity|]. split; [reflexivity|]. now apply Q2.
    - intros (u & Hu & -> & Hl). split; [split; [lia | now apply map_nth_error]|]. rewrite (Q u Hu). now apply Q2. }
  destruct (argmin free) as [[j d]|] eqn:A.
  - destruct (argmin_spec free _ A) as (l1 & l2 & El & F1 & F2). assert (Hj : In (j, d) free) by (rewrite El; apply in_app_iff; right; left; reflexivity). apply Fi in Hj. destruct Hj as (w & Hw & -> & Lw).
    assert (Lj : j < length (keys m)) by (destruct P as [_ L]; rewrite L; apply nth_error_Some; congruence). destruct (nth_error (keys m) j) as [c|] eqn:Hc; [|apply nth_error_None in Hc; lia]. cbn [of_option rmap]. eexists. split; [reflexivity|].
    exists j, w. split; [split; assumption|]. split; [exact Lw|]. intros k u Hu Lu. assert (Hk : In (k, dist v u) free) by (apply Fi; exists u; auto).
    assert (Ss : StronglySorted (fun p q : nat * Q => fst p < fst q) free) by (apply sorted_filter, combine_seq_sorted). rewrite El in Hk, Ss. apply in_app_iff in Hk. cbn [snd] in F1, F2. rewrite Forall_forall in F1, F2. destruct Hk as [Hk|[Hk|Hk]].
    + specialize (F1 _ Hk). cbn in F1. split; [lra | auto].
    + injection Hk as -> E2. rewrite E2. split; [lra | lia].
    + specialize (F2 _ Hk). cbn in F2. split; [exact F2|]. intros Lt. exfalso. apply StronglySorted_app_inv in Ss. destruct Ss as (_ & Ss & _). inversion Ss as [|? ? _ Fs]; subst. rewrite Forall_forall in Fs. specialize (Fs _ Hk). cbn in Fs. lia.
  - eexists. split; [reflexivity|]. cbv iota. apply argmin_none in A. intros k w Hw Lw. assert (Q : In (k, dist v w) free) by (apply Fi; exists w; auto). rewrite A in Q. destruct Q.
Qed.
(** The closest child: the nearest of the nodes with a larger norm, the first such if several; None exactly if there is none. *)
Theorem closest_child_exact : forall m name i v, proper m -> node_at m name i v -> exists r, closest_child dist vnorm scalar m (NName name) = Ok r /\
  match r with
  | None => forall k w, nth_error (vecs m) k = Some w -> (vnorm w <= vnorm v)%Q
  | Some c => exists j w, node_at m c j w /\ (vnorm v < vnorm w)%Q /\
      forall k u, nth_error (vecs m) k = Some u -> (vnorm v < vnorm u)%Q -> (dist v w <= dist v u)%Q /\ (k < j -> (dist v w < dist v u)%Q)
  end.
Proof.
  intros m name i v P H. destruct (closest_exact true m name i v P H) as (r & E & S0). exists r. split; [exact E|]. destruct r; [exact S0|]. intros k w Hw. apply Qnot_lt_le. exact (S0 k w Hw).
Qed.
Theorem closest_parent_exact : forall m name i v, proper m -> node_at m name i v -> exists r, closest_parent dist vnorm scalar m (NName name) = Ok r /\
  match r with
  | None => forall k w, nth_error (vecs m) k = Some w -> (vnorm v <= vnorm w)%Q
  | Some c => exists j w, node_at m c j w /\ (vnorm w < vnorm v)%Q /\
      forall k u, nth_error (vecs m) k = Some u -> (vnorm u < vnorm v)%Q -> (dist v w <= dist v u)%Q /\ (k < j -> (dist v w < dist v u)%Q)
  end.
Proof.
  intros m name i v P H. destruct (closest_exact false m name i v P H) as (r & E & S0). exists r. split; [exact E|]. destruct r; [exact S0|]. intros k w Hw. apply Qnot_lt_le. exact (S0 k w Hw).
Qed.

(** The ancestors: from parent to parent up to a node without one; the loop ends, and no node occurs twice. *)
Fixpoint parents_of (m : emb V) (name : pystr) (l : list pystr) : Prop :=
  closest_parent dist vnorm scalar m (NName name) = Ok (match l with [] => None | p :: _ => Some p end) /\
  match l with [] => True | p :: l' => parents_of m p l' end.
Definition above (m : emb V) (v : V) : nat := length (filter (fun w => qlt (vnorm w) (vnorm v)) (vecs m)).
Lemma above_less : forall m v w j, nth_error (vecs m) j = Some w -> (vnorm w < vnorm v)%Q -> above m w < above m v.
Proof.
  intros m v w j Hw L. unfold above. apply nth_error_In in Hw. induction (vecs m) as [|u l IH]; [destruct Hw|].
  assert (Q : length (filter (fun x => qlt (vnorm x) (vnorm w)) l) <= length (filter (fun x => qlt (vnorm x) (vnorm v)) l)).
  { clear - L. induction l as [|x l IH]; [cbn; lia|]. cbn [filter]. destruct (qlt (vnorm x) (vnorm w)) eqn:A.
    - apply qlt_true in A. assert (Q : qlt (vnorm x) (vnorm v) = true) by (apply qlt_true; lra). rewrite Q. cbn. lia.
    - destruct (qlt (vnorm x) (vnorm v)); cbn; lia. }
  cbn [filter]. destruct Hw as [->|Hw].
  - assert (A : qlt (vnorm w) (vnorm w) = false) by (apply qlt_false; lra). assert (B : qlt (vnorm w) (vnorm v) = true) by (apply qlt_true; exact L). rewrite A, B. cbn. lia.
  - specialize (IH Hw). destruct (qlt (vnorm u) (vnorm w)) eqn:A; [apply qlt_true in A; assert (B : qlt (vnorm u) (vnorm v) = true) by (apply qlt_true; lra); rewrite B; cbn; lia|]. destruct (qlt (vnorm u) (vnorm v)); cbn; lia.
Qed.
Theorem ancestors_exact : forall m name i v fuel, proper m -> node_at m name i v -> length (keys m) < fuel ->
  exists l, ancestors dist vnorm scalar fuel m (NName name) = Ok (Some l) /\ parents_of m name l /\ NoDup (name :: l) /\ length l < length (keys m) /\
    Forall (fun p => exists j w, node_at m p j w /\ (vnorm w < vnorm v)%Q) l.
Proof.
  intros m name i v fuel P H Hf.
  assert (Q : forall n name i v fuel, above m v = n -> node_at m name i v -> n < fuel -> exists l, ancestors dist vnorm scalar fuel m (NName name) = Ok (Some l) /\ parents_of m name l /\ NoDup (name :: l) /\ length l <= n /\
    Forall (fun p => exists j w, node_at m p j w /\ (vnorm w < vnorm v)%Q) l).
  { clear name i v fuel H Hf. induction n as [n IH] using lt_wf_ind. intros name i v fuel Hn H Hf. destruct fuel as [|f]; [lia|]. cbn [ancestors]. destruct (closest_parent_exact m name i v P H) as (r & E & S0). rewrite E. cbn [rbind]. destruct r as [c|].
    - destruct S0 as (j & w & Hc & Lw & _). pose proof (above_less m v w j (proj2 Hc) Lw) as La. destruct (IH (above m w) ltac:(lia) c j w f eq_refl Hc ltac:(lia)) as (l & El & Pl & Nl & Ll & Fl). rewrite El. cbn [rbind option_map]. exists (c :: l).
      assert (F' : Forall (fun p => exists j w, node_at m p j w /\ (vnorm w < vnorm v)%Q) (c :: l)).
      { constructor; [exists j, w; auto|]. eapply Forall_impl; [|exact Fl]. intros p (j' & w' & A & B). exists j', w'. split; [exact A | lra]. }
      split; [reflexivity|]. split; [split; [exact E | exact Pl]|]. split; [|split; [cbn; lia | exact F']]. constructor; [|exact Nl]. intros Hin. rewrite Forall_forall in F'. destruct (F' name Hin) as (j' & w' & [A1 A2] & B). destruct H as [H1 H2].
      assert (j' = i) by (destruct P as [N _]; apply (proj1 (NoDup_nth_error _) N); [apply nth_error_Some; congruence | congruence]). subst j'. rewrite A2 in H2. injection H2 as ->. lra.
    - exists []. cbn. repeat split; [assumption | repeat constructor; cbn; tauto | lia | constructor]. }
  assert (La : above m v < length (keys m)).
  { destruct P as [_ L]. rewrite L. unfold above. destruct H as [_ H]. apply nth_error_In in H. clear - H. assert (Q : forall l : list V, length (filter (fun w => qlt (vnorm w) (vnorm v)) l) <= length l) by (induction l as [|x l IH]; cbn; [lia|]; destruct (qlt _ _); cbn; lia).
    induction (vecs m) as [|u l IH]; [destruct H|]. cbn [filter length]. destruct H as [->|H]; [assert (A : qlt (vnorm v) (vnorm v) = false) by (apply qlt_false; lra); rewrite A; specialize (Q l); lia|]. specialize (IH H). destruct (qlt (vnorm u) (vnorm v)); cbn; lia. }
  destruct (Q (above m v) name i v fuel eq_refl H ltac:(lia)) as (l & E & Pl & Nl & Ll & Fl). exists l. repeat split; try assumption. lia.
Qed.
(** The descendants: child after child; when a node without children comes before the depth is reached, a None ends the list or,
    with more depth left, raises a TypeError. *)
Fixpoint children_of (m : emb V) (name : pystr) (l : list pystr) : Prop :=
  match l with [] => True | c :: l' => closest_child dist vnorm scalar m (NName name) = Ok (Some c) /\ children_of m c l' end.
Lemma last_cons : forall {A} (l : list A) a d, last (a :: l) d = last l a.
Proof. induction l as [|x l IH]; intros a d; [reflexivity|]. change (last (a :: x :: l) d) with (last (x :: l) d). rewrite (IH x d), (IH x a). reflexivity. Qed.
Theorem descendants_exact : forall m d name l, children_of m name l -> length l <= d ->
  let last_node := last l name in
  descendants dist vnorm scalar d m (NName name) = (let* rest := descendants dist vnorm scalar (d - length l) m (NName last_node) in Ok (map Some l ++ rest)) /\
  (closest_child dist vnorm scalar m (NName last_node) = Ok None ->
     (d = length l -> descendants dist vnorm scalar d m (NName name) = Ok (map Some l)) /\
     (d = S (length l) -> descendants dist vnorm scalar d m (NName name) = Ok (map Some l ++ [None])) /\
     (S (length l) < d -> descendants dist vnorm scalar d m (NName name) = Err TypeError)).
Proof.
  intros m d name l C L.
  assert (E : descendants dist vnorm scalar d m (NName name) = (let* rest := descendants dist vnorm scalar (d - length l) m (NName (last l name)) in Ok (map Some l ++ rest))).
  { revert d name C L. induction l as [|c l IH]; intros d name C L.
    - cbn [length last map app]. rewrite Nat.sub_0_r. destruct (descendants dist vnorm scalar d m (NName name)); reflexivity.
    - destruct d as [|d]; [cbn in L; lia|]. destruct C as [C1 C2]. cbn [descendants length Nat.sub]. rewrite C1. cbn [rbind as_node]. rewrite (IH d c C2) by (cbn in L; lia). rewrite last_cons.
      destruct (descendants dist vnorm scalar (d - length l) m (NName (last l c))); reflexivity. }
  cbv zeta. split; [exact E|]. intros N. rewrite E. split; [|split].
  - intros ->. rewrite Nat.sub_diag. cbn [descendants rbind]. rewrite app_nil_r. reflexivity.
  - intros ->. replace (S (length l) - length l) with 1 by lia. cbn [descendants]. rewrite N. reflexivity.
  - intros H. destruct (d - length l) as [|[|k]] eqn:Ek; [lia | lia|]. cbn [descendants]. rewrite N. reflexivity.
Qed.

(** ** Nearest nodes *)
Context (np_argsort : list Q -> list nat) (np_argpartition : list Q -> nat -> list nat).
Context (Ha : argsort_contract np_argsort) (Hp : argpartition_contract np_argpartition).
Definition nearest (ds : list Q) (allowed : nat -> Prop) (k : nat) (l : list nat) : Prop :=
  NoDup l /\ (forall j, In j l -> j < length ds /\ allowed j) /\ StronglySorted (fun a b => nth a ds 0 <= nth b ds 0)%Q l /\
  (forall j k, In j l -> k < length ds -> allowed k -> ~ In k l -> (nth j ds 0 <= nth k ds 0)%Q) /\ length l <= k /\ (length l < k -> forall j, j < length ds -> allowed j -> In j l).
Lemma nearest_argsort : forall ds t, (0 <= t)%Z -> nearest ds (fun _ => True) (Z.to_nat t) (argsort np_argsort np_argpartition ds (Some t) false) /\ length (argsort np_argsort np_argpartition ds (Some t) false) = Nat.min (Z.to_nat t) (length ds).
Proof.
  intros ds t Ht. destruct (argsort_is_topn np_argsort np_argpartition Ha Hp ds (Some t) false) as (L & N & B & S0 & O). cbv beta iota zeta in *. set (r := argsort np_argsort np_argpartition ds (Some t) false) in *. split; [|exact L].
  repeat split; try assumption; auto; [lia|]. intros Lt j Hj _. destruct (in_dec Nat.eq_dec j r) as [Hi|Hi]; [exact Hi|]. exfalso.
  assert (Q : length (j :: r) <= length (seq 0 (length ds))) by (apply NoDup_incl_length; [constructor; assumption|]; intros x [<-|Hx]; apply in_seq; [lia | specialize (B x Hx); lia]). rewrite seq_length in Q. cbn in Q. lia.
Qed.
Lemma nearest_firstn : forall ds (P : nat -> Prop) k l, NoDup l -> (forall j, In j l -> j < length ds /\ P j) -> StronglySorted (fun a b => nth a ds 0 <= nth b ds 0)%Q l ->
  (forall j k, In j l -> k < length ds -> P k -> ~ In k l -> (nth j ds 0 <= nth k ds 0)%Q) -> (length l < k -> forall j, j < length ds -> P j -> In j l) -> nearest ds P k (firstn k l).
Proof.
  intros ds P k l N B S0 O A. assert (F : forall x, In x (firstn k l) -> In x l) by (intros x; apply In_firstn). split; [now apply NoDup_firstn|]. split; [intros j Hj; apply B; auto|]. split; [now apply StronglySorted_firstn|]. split; [|split].
  - intros j x Hj Hx Px Nx. destruct (in_dec Nat.eq_dec x l) as [Hi|Hi]; [|apply O; auto]. rewrite <- (firstn_skipn k l) in S0, Hi. apply in_app_iff in Hi. destruct Hi as [Hi|Hi]; [contradiction|]. apply StronglySorted_app_inv in S0. destruct S0 as (_ & _ & S0). exact (S0 j x Hj Hi).
  - rewrite firstn_length. lia.
  - intros Lt j Hj Pj. rewrite firstn_length in Lt. rewrite firstn_all2 by lia. apply A; [lia | exact Hj | exact Pj].
Qed.
Lemma filter_without : forall i (l : list nat), NoDup l -> length l <= S (length (filter (fun j => negb (j =? i)) l)).
Proof.
  induction l as [|x l IH]; intros N; [cbn; lia|]. inversion N as [|? ? N1 N2]; subst. cbn [filter]. destruct (Nat.eqb_spec x i) as [->|Ne]; cbn [negb length]; [|specialize (IH N2); lia].
  replace (filter (fun j => negb (j =? i)) l) with l; [lia|]. clear - N1. induction l as [|y l IH]; [reflexivity|]. cbn [filter]. destruct (Nat.eqb_spec y i) as [->|Ne]; [exfalso; apply N1; left; reflexivity|]. cbn [negb]. f_equal. apply IH. intros H. apply N1. right. exact H.
Qed.
Lemma nearest_without : forall ds i k l, nearest ds (fun _ => True) (S k) l -> nearest ds (fun j => j <> i) k (firstn k (filter (fun j => negb (j =? i)) l)).
Proof.
  intros ds i k l (N & B & S0 & O & L & A).
  assert (F : forall j, In j (filter (fun j => negb (j =? i)) l) <-> In j l /\ j <> i) by (intros j; rewrite filter_In, negb_true_iff, Nat.eqb_neq; reflexivity).
  apply nearest_firstn.
  - now apply NoDup_filter.
  - intros j Hj. apply F in Hj. split; [apply B, Hj | apply Hj].
  - now apply sorted_filter.
  - intros j x Hj Hx Px Nx. apply F in Hj. apply O; auto; [apply Hj|]. intros Hi. apply Nx, F. auto.
  - intros Lt j Hj Pj. apply F. split; [|exact Pj]. apply A; auto. pose proof (filter_without i l N). lia.
Qed.

(** The nodes most similar to a node that is not the first one: the nearest other nodes, with their distances, nearest first. *)
Theorem most_similar_exact : forall m name i v t, proper m -> node_at m name i v -> i <> 0 -> (0 <= t)%Z ->
  exists l, nearest (map (dist v) (vecs m)) (fun j => j <> i) (Z.to_nat t) l /\
    most_similar dist scalar np_argsort np_argpartition m (NName name) (Some t) None = Ok (map (fun j => (nth j (keys m) [], nth j (map (dist v) (vecs m)) 0%Q)) l).
Proof.
  intros m name i v t P H Hi Ht. set (ds := map (dist v) (vecs m)). destruct (get_index_name m name i v P H) as [G1 G2].
  destruct (nearest_argsort ds (1 + t) ltac:(lia)) as [Nr _]. replace (Z.to_nat (1 + t)) with (S (Z.to_nat t)) in Nr by lia. pose proof (nearest_without ds i _ _ Nr) as Nw.
  eexists. split; [exact Nw|]. unfold most_similar. destruct (Z.ltb_spec t 1) as [L|L].
  - replace (Z.to_nat t) with 0 by lia. reflexivity.
  - unfold distances. rewrite G2. cbn [rbind]. rewrite G1. cbn [rmap rbind option_map]. fold ds. set (best := argsort np_argsort np_argpartition ds (Some (1 + t)%Z) false) in *.
    replace (filter (fun i0 : nat => match i with 0 => true | S _ => negb (i0 =? i) end) best) with (filter (fun j => negb (j =? i)) best) by (destruct i; [contradiction|]; reflexivity).
    assert (B : forall j, In j (filter (fun j => negb (j =? i)) best) -> j < length (keys m)).
    { intros j Hj. apply filter_In in Hj. destruct Nr as (_ & B & _). destruct (B j (proj1 Hj)) as [B1 _]. unfold ds in B1. rewrite map_length in B1. destruct P as [_ L2]. lia. }
    rewrite <- firstn_map. revert B. generalize (filter (fun j => negb (j =? i)) best). clear - L. intros l B.
    assert (E : rmapM (fun i0 : nat => let* k := of_option IndexError (nth_error (keys m) i0) in Ok (k, nth i0 ds 0%Q)) l = Ok (map (fun j => (nth j (keys m) [], nth j ds 0%Q)) l)).
    { induction l as [|j l IH]; [reflexivity|]. cbn [rmapM map]. rewrite (nth_error_nth' (keys m) []) by (apply B; left; reflexivity). cbn [of_option rbind]. rewrite IH by (intros x Hx; apply B; right; exact Hx). reflexivity. }
    rewrite E. reflexivity.
Qed.

Theorem difference_antisymmetric : forall m a b x y, difference_in_hierarchy vnorm scalar m a b = Ok x -> difference_in_hierarchy vnorm scalar m b a = Ok y -> (x == - y)%Q.
Proof. intros m a b x y H1 H2. unfold difference_in_hierarchy in *. destruct (norm vnorm scalar m b) as [p|]; [|discriminate]. destruct (norm vnorm scalar m a) as [q|]; [|discriminate]. cbn [rbind] in *. injection H1 as <-. injection H2 as <-. lra. Qed.
End Query.
Print Assumptions closest_child_exact.
Print Assumptions closest_parent_exact.
Print Assumptions ancestors_exact.
Print Assumptions descendants_exact.
Print Assumptions most_similar_exact.
Print Assumptions difference_antisymmetric.

(** ** Examples: vectors on a line *)
Definition line_dist (a b : Q) : Q := Qabs (a - b).
Definition whole (k : Z) : Q := inject_Z k.
Definition tree : emb Q := mkEmb [str "b"; str "root"; str "c"; str "d"] [1 # 4; 1 # 8; 1 # 2; 7 # 8]%Q.
Lemma tree_proper : proper tree.
Proof. split; [|reflexivity]. repeat constructor; cbn; intros H; repeat destruct H as [H|H]; try discriminate H; destruct H. Qed.
Example tree_ex :
  node_at tree (str "root") 1 (1 # 8)%Q /\
  closest_child line_dist Qabs whole tree (NName (str "root")) = Ok (Some (str "b")) /\
  closest_parent line_dist Qabs whole tree (NName (str "d")) = Ok (Some (str "c")) /\
  closest_parent line_dist Qabs whole tree (NName (str "root")) = Ok None /\
  closest_child line_dist Qabs whole tree (NName (str "d")) = Ok None /\
  ancestors line_dist Qabs whole 5 tree (NName (str "d")) = Ok (Some [str "c"; str "b"; str "root"]) /\
  descendants line_dist Qabs whole 2 tree (NName (str "root")) = Ok [Some (str "b"); Some (str "c")] /\
  rmap (map fst) (most_similar line_dist whole ref_argsort ref_argpartition tree (NName (str "c")) (Some 2%Z) None) = Ok [str "b"; str "root"] /\
  rmap Qred (difference_in_hierarchy Qabs whole tree (NName (str "root")) (NName (str "c"))) = Ok (3 # 8)%Q /\
  rmap Qred (difference_in_hierarchy Qabs whole tree (NName (str "c")) (NName (str "root"))) = Ok (-3 # 8)%Q.
Proof. repeat split; vm_compute; reflexivity. Qed.

(** Ties are decided by the order of the nodes. *)
Example tie_ex : closest_child line_dist Qabs whole (mkEmb [str "x"; str "y"; str "o"] [-1 # 2; 1 # 2; 0]%Q) (NName (str "o")) = Ok (Some (str "x")).
Proof. vm_compute. reflexivity. Qed.

(** The descendants of a node whose chain ends before the depth asked for: not the shorter chain, but a None at its end, or a
    TypeError. *)
Theorem descendants_refuted : exists (m : emb Q) name, proper m /\
  descendants line_dist Qabs whole 2 m (NName name) = Ok [Some (str "d"); None] /\
  descendants line_dist Qabs whole 5 m (NName name) = Err TypeError.
Proof. exists tree, (str "c"). split; [exact tree_proper|]. split; vm_compute; reflexivity. Qed.
Print Assumptions descendants_refuted.

(** The first node is its own most similar node, and takes the place of another one. *)
Theorem most_similar_first_refuted : exists (m : emb Q) name, proper m /\ nth_error (keys m) 0 = Some name /\
  rmap (map fst) (most_similar line_dist whole ref_argsort ref_argpartition m (NName name) (Some 2%Z) None) = Ok [name; str "root"].
Proof. exists tree, (str "b"). split; [exact tree_proper|]. split; vm_compute; reflexivity. Qed.
Print Assumptions most_similar_first_refuted.

(** A node given by its number is accepted, but its distances are those of the number, not of the node. *)
Theorem int_node_refuted : exists (m : emb Q) name i, proper m /\ get_index m (NName name) = get_index m (NInt i) /\
  closest_child line_dist Qabs whole m (NName name) = Ok (Some (str "b")) /\
  closest_child line_dist Qabs whole m (NInt i) = Ok (Some (str "d")).
Proof. exists tree, (str "root"), 1%Z. split; [exact tree_proper|]. split; [|split]; vm_compute; reflexivity. Qed.
Print Assumptions int_node_refuted.
