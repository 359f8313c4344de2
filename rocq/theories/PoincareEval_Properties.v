(** Evaluations of Poincaré embeddings (property C89). *)
From Coq Require Import QArith Qabs Lqa ZifyBool ZifyNat.
From Verif Require Import Base Str Matutils_Model PoincareQuery_Model PoincareQuery_Properties.
Local Close Scope Q_scope.
Local Open Scope nat_scope.

(** ** Average precision: over the related nodes, the mean of the share of related ones among the nodes that are as near. *)
Definition count {A} (f : A -> bool) (l : list A) : nat := length (filter f l).
Definition qn (n : nat) : Q := inject_Z (Z.of_nat n).
Definition related_within (ds : list Q) (asked : list nat) (p : nat) : nat := count (fun q => Qle_bool (nth q ds 0%Q) (nth p ds 0%Q)) asked.
Definition unrelated_within (ds : list Q) (asked hidden : list nat) (p : nat) : nat :=
  count (fun k => negb (memb k asked) && negb (memb k hidden) && qlt (nth k ds 0%Q) (nth p ds 0%Q)) (seq 0 (length ds)).
Definition precision (ds : list Q) (asked hidden : list nat) (p : nat) : Q :=
  let r := related_within ds asked p in (qn r / qn (r + unrelated_within ds asked hidden p))%Q.

Lemma count_perm : forall {A} (f : A -> bool) l l', Permutation l l' -> count f l = count f l'.
Proof. unfold count. induction 1 as [|x l l' P IH|x y l|l l' l'' P1 IH1 P2 IH2]; cbn [filter]; [reflexivity | destruct (f x); cbn; congruence | destruct (f x), (f y); reflexivity | congruence]. Qed.
Lemma qsum_perm : forall l l', Permutation l l' -> (qsum l == qsum l')%Q.
Proof. induction 1 as [|x l l' P IH|x y l|l l' l'' P1 IH1 P2 IH2]; cbn [qsum fold_right] in *; [reflexivity | unfold qsum in IH; rewrite IH; reflexivity | ring | rewrite IH1; exact IH2]. Qed.
Lemma mean_perm : forall l l', Permutation l l' -> (mean l == mean l')%Q.
Proof. intros l l' P. unfold mean. rewrite (qsum_perm l l' P), (Permutation_length P). reflexivity. Qed.
Lemma leb_total : forall x y, Nat.leb x y = true \/ Nat.leb y x = true.
Proof. intros x y. lia. Qed.
Lemma leb_trans : forall x y z, Nat.leb x y = true -> Nat.leb y z = true -> Nat.leb x z = true.
Proof. intros x y z. lia. Qed.
Lemma nat_sort_perm : forall l, Permutation l (nat_sort l).
Proof. intros l. apply Permutation_isort. Qed.
Lemma nat_sort_sorted : forall l, StronglySorted (fun x y => Nat.leb x y = true) (nat_sort l).
Proof. intros l. apply isort_StronglySorted; [exact leb_total | exact leb_trans]. Qed.
Lemma nat_sort_id : forall l, StronglySorted (fun x y => Nat.leb x y = true) l -> nat_sort l = l.
Proof. intros l. apply isort_sorted_id. Qed.

Definition arange_from (a : nat) (l : list nat) : list nat := map (fun p => fst p + snd p) (combine l (seq a (length l))).
Lemma arange_in : forall l a x, In x (arange_from a l) -> exists y, In y l /\ y + a <= x.
Proof.
  induction l as [|y l IH]; intros a x H; [destruct H|]. cbn [arange_from length seq combine map] in H. destruct H as [<-|H]; [exists y; cbn; split; [auto | lia]|]. destruct (IH (S a) x H) as (z & Hz & L). exists z. split; [right; exact Hz | lia].
Qed.
Lemma arange_sorted : forall l a, StronglySorted (fun x y => Nat.leb x y = true) l -> StronglySorted (fun x y => Nat.leb x y = true) (arange_from a l).
Proof.
  induction l as [|x l IH]; intros a H; [constructor|]. inversion H as [|? ? H1 H2]; subst. cbn [arange_from length seq combine map fst snd]. constructor; [apply (IH (S a) H1)|]. apply Forall_forall. intros z Hz. destruct (arange_in l (S a) z Hz) as (y & Hy & L). rewrite Forall_forall in H2. specialize (H2 y Hy). lia.
Qed.
Definition precisions_from (a : nat) (rs : list nat) : list Q :=
  map (fun p => (qn (S (fst p)) / qn (snd p))%Q) (combine (seq a (length rs)) (arange_from a rs)).
Lemma arange_length : forall a l, length (arange_from a l) = length l.
Proof. intros a l. unfold arange_from. rewrite map_length, combine_length, seq_length. lia. Qed.
Lemma avg_precision_form : forall rs, avg_precision rs = mean (precisions_from 0 (nat_sort rs)).
Proof.
  intros rs. unfold avg_precision, precisions_from. change (add_arange (nat_sort rs)) with (arange_from 0 (nat_sort rs)). rewrite (nat_sort_id (arange_from 0 (nat_sort rs))) by (apply arange_sorted, nat_sort_sorted). rewrite arange_length. reflexivity.
Qed.
Lemma precisions_cons : forall a x l, precisions_from a (x :: l) = (qn (S a) / qn (x + a))%Q :: precisions_from (S a) l.
Proof. reflexivity. Qed.

Lemma map_sorted : forall {A B} (f : A -> B) (R : A -> A -> Prop) (R' : B -> B -> Prop) l, (forall x y, R x y -> R' (f x) (f y)) -> StronglySorted R l -> StronglySorted R' (map f l).
Proof. intros A B f R R' l M. induction 1 as [|x l H1 IH F]; [constructor|]. cbn [map]. constructor; [exact IH|]. apply Forall_map. eapply Forall_impl; [|exact F]. intros y. apply M. Qed.
Lemma count_le : forall {A} (f g : A -> bool) l, (forall x, f x = true -> g x = true) -> count f l <= count g l.
Proof. intros A f g l M. unfold count. induction l as [|x l IH]; [cbn; lia|]. cbn [filter]. destruct (f x) eqn:E; [rewrite (M x E); cbn; lia|]. destruct (g x); cbn; lia. Qed.

Theorem avg_precision_exact : forall ds asked hidden, NoDup asked ->
  (forall p q, In p asked -> In q asked -> (nth p ds 0 == nth q ds 0)%Q -> p = q) ->
  (avg_precision (ranks ds asked hidden) == mean (map (precision ds asked hidden) asked))%Q.
Proof.
  intros ds asked hidden ND D. set (le := fun p q => Qle_bool (nth p ds 0%Q) (nth q ds 0%Q)). set (l := isort le asked).
  assert (P : Permutation asked l) by apply Permutation_isort.
  assert (So : StronglySorted (fun p q => le p q = true) l).
  { apply isort_StronglySorted; unfold le; intros; rewrite !Qle_bool_iff in *; lra. }
  set (rk := rank ds asked hidden).
  assert (E : nat_sort (ranks ds asked hidden) = map rk l).
  { apply (sorted_perm_unique Nat.leb).
    - intros x y _ _. lia.
    - apply nat_sort_sorted.
    - eapply map_sorted; [|exact So]. intros p q Hpq. unfold le in Hpq. rewrite Qle_bool_iff in Hpq. apply Nat.leb_le. unfold rk, rank. apply le_n_S, count_le. intros k Hk. apply andb_true_iff in Hk. destruct Hk as [H1 H2]. rewrite H1. apply qlt_true in H2. cbn. apply qlt_true. lra.
    - eapply perm_trans; [apply Permutation_sym, nat_sort_perm|]. unfold ranks. apply Permutation_map, P. }
  rewrite avg_precision_form, E. rewrite (mean_perm _ _ (Permutation_map (precision ds asked hidden) P)).
  assert (Q : forall l1 l2, l = l1 ++ l2 -> precisions_from (length l1) (map rk l2) = map (precision ds asked hidden) l2).
  { intros l1 l2. revert l1. induction l2 as [|p l2 IH]; intros l1 El; [reflexivity|]. cbn [map]. rewrite precisions_cons. f_equal.
    - unfold precision. assert (C : related_within ds asked p = S (length l1)).
      { unfold related_within. rewrite (count_perm _ _ _ P), El. unfold count. rewrite filter_app, app_length. cbn [filter]. assert (Hp : Qle_bool (nth p ds 0%Q) (nth p ds 0%Q) = true) by (apply Qle_bool_iff; lra). rewrite Hp. cbn [length].
        rewrite El in So. apply StronglySorted_app_inv in So. destruct So as (_ & S2 & S3). inversion S2 as [|? ? _ F2]; subst.
        assert (A1 : filter (fun q => Qle_bool (nth q ds 0%Q) (nth p ds 0%Q)) l1 = l1).
        { assert (X : forall q, In q l1 -> Qle_bool (nth q ds 0%Q) (nth p ds 0%Q) = true) by (intros q Hq; apply (S3 q p Hq); left; reflexivity). clear - X. induction l1 as [|y l1 IH]; [reflexivity|]. cbn [filter]. rewrite (X y) by (left; reflexivity). f_equal. apply IH. intros q Hq. apply X. right. exact Hq. }
        assert (A2 : filter (fun q => Qle_bool (nth q ds 0%Q) (nth p ds 0%Q)) l2 = []).
        { assert (Nl : NoDup l) by (eapply Permutation_NoDup; [exact P | exact ND]). rewrite El in Nl. apply NoDup_remove_2 in Nl.
          assert (X : forall q, In q l2 -> Qle_bool (nth q ds 0%Q) (nth p ds 0%Q) = false).
          { intros q Hq. rewrite Forall_forall in F2. specialize (F2 q Hq). unfold le in F2. apply Qle_bool_iff in F2. destruct (Qle_bool (nth q ds 0%Q) (nth p ds 0%Q)) eqn:B; [|reflexivity]. apply Qle_bool_iff in B. exfalso. assert (In q asked) by (eapply Permutation_in; [apply Permutation_sym, P|]; rewrite El; apply in_app_iff; right; right; exact Hq). assert (In p asked) by (eapply Permutation_in; [apply Permutation_sym, P|]; rewrite El; apply in_app_iff; right; left; reflexivity).
            assert (p = q) by (apply D; auto; lra). subst q. apply Nl, in_app_iff. right. exact Hq. }
          clear - X. induction l2 as [|y l2 IH]; [reflexivity|]. cbn [filter]. rewrite (X y) by (left; reflexivity). apply IH. intros q Hq. apply X. right. exact Hq. }
        rewrite A1, A2. cbn [length]. lia. }
      rewrite C. cbv zeta. f_equal. f_equal. unfold rk, rank. unfold unrelated_within, count. assert (W : forall (f g : nat -> bool) s, (forall x, f x = g x) -> length (filter f s) = length (filter g s)) by (intros f g s M; f_equal; apply filter_ext, M).
      rewrite (W _ (fun k => negb (memb k asked) && negb (memb k hidden) && qlt (nth k ds 0%Q) (nth p ds 0%Q))); [lia|]. intros x. rewrite negb_orb. reflexivity.
    - specialize (IH (l1 ++ [p])). rewrite app_length in IH. cbn [length] in IH. rewrite Nat.add_1_r in IH. apply IH. rewrite <- app_assoc. exact El. }
  specialize (Q [] l eq_refl). cbn [length] in Q. rewrite Q. reflexivity.
Qed.
Print Assumptions avg_precision_exact.

(** It lies between 0 and 1, and is 1 exactly if all ranks are 1. *)
Lemma qn_pos : forall n, 0 < n -> (0 < qn n)%Q.
Proof. intros n H. unfold qn. change 0%Q with (inject_Z 0). rewrite <- Zlt_Qlt. lia. Qed.
Lemma qn_le : forall a b, a <= b -> (qn a <= qn b)%Q.
Proof. intros a b H. unfold qn. rewrite <- Zle_Qle. lia. Qed.
Lemma frac_le : forall a b, 0 < a -> a <= b -> (0 < qn a / qn b /\ qn a / qn b <= 1)%Q.
Proof.
  intros a b Ha Hb. pose proof (qn_pos a Ha). pose proof (qn_pos b ltac:(lia)). split; [apply Qlt_shift_div_l; lra|]. apply Qle_shift_div_r; [lra|]. rewrite Qmult_1_l. now apply qn_le.
Qed.
Lemma frac_lt : forall a b, 0 < a -> a < b -> (qn a / qn b < 1)%Q.
Proof.
  intros a b Ha Hb. pose proof (qn_pos b ltac:(lia)). apply Qlt_shift_div_r; [lra|]. rewrite Qmult_1_l. unfold qn. rewrite <- Zlt_Qlt. lia.
Qed.
Lemma precisions_sum : forall l a, Forall (fun r => 1 <= r) l ->
  (0 <= qsum (precisions_from a l) /\ qsum (precisions_from a l) <= qn (length l))%Q /\ (l <> [] -> (0 < qsum (precisions_from a l))%Q) /\
  ((qsum (precisions_from a l) == qn (length l))%Q <-> Forall (fun r => r = 1) l).
Proof.
  induction l as [|x l IH]; intros a F.
  - split; [split; vm_compute; discriminate|]. split; [congruence|]. split; [constructor | reflexivity].
  - inversion F as [|? ? F1 F2]; subst. destruct (IH (S a) F2) as ((I1 & I2) & _ & I4). rewrite precisions_cons. cbn [qsum fold_right length]. fold (qsum (precisions_from (S a) l)). destruct (frac_le (S a) (x + a) ltac:(lia) ltac:(lia)) as [A1 A2].
    assert (L : (qn (S (length l)) == 1 + qn (length l))%Q) by (unfold qn; rewrite Nat2Z.inj_succ, <- Z.add_1_l, inject_Z_plus; reflexivity). rewrite L. split; [lra|]. split; [lra|]. split.
    + intros H. assert (X : x = 1) by (destruct (Nat.eq_dec x 1) as [E|E]; [exact E|]; pose proof (frac_lt (S a) (x + a) ltac:(lia) ltac:(lia)); lra). constructor; [exact X|]. apply I4. lra.
    + intros H. inversion H as [|? ? H1 H2]; subst. apply I4 in H2. rewrite H2. cbn [Nat.add]. assert (Q : (qn (S a) / qn (S a) == 1)%Q) by (pose proof (qn_pos (S a) ltac:(lia)); field; lra). rewrite Q. lra.
Qed.
Theorem avg_precision_bounds : forall rs, rs <> [] -> Forall (fun r => 1 <= r) rs ->
  (0 < avg_precision rs <= 1)%Q /\ ((avg_precision rs == 1)%Q <-> Forall (fun r => r = 1) rs).
Proof.
  intros rs N F. rewrite avg_precision_form. pose proof (nat_sort_perm rs) as P. set (l := nat_sort rs) in *. clearbody l.
  assert (F' : forall Q : nat -> Prop, Forall Q rs <-> Forall Q l) by (intros Q; rewrite !Forall_forall; split; intros H x Hx; apply H; [eapply Permutation_in; [apply Permutation_sym, P | exact Hx] | eapply Permutation_in; [exact P | exact Hx]]).
  rewrite F'. apply F' in F. assert (Nl : l <> []) by (intros ->; apply Permutation_sym, Permutation_nil in P; contradiction).
  destruct (precisions_sum l 0 F) as ((I1 & I2) & I3 & I4). specialize (I3 Nl). unfold mean. assert (L : length (precisions_from 0 l) = length l) by (unfold precisions_from; rewrite map_length, combine_length, seq_length, arange_length; lia). rewrite L. fold (qn (length l)).
  assert (Lp : (0 < qn (length l))%Q) by (apply qn_pos; destruct l; [contradiction | cbn; lia]). split.
  - split; [apply Qlt_shift_div_l; lra|]. apply Qle_shift_div_r; lra.
  - rewrite <- I4. split; intros H.
    + assert (Q : (qsum (precisions_from 0 l) == qsum (precisions_from 0 l) / qn (length l) * qn (length l))%Q) by (field; lra). rewrite H in Q. lra.
    + rewrite H. field. lra.
Qed.
Print Assumptions avg_precision_bounds.

(** The node itself counts among the unrelated ones: unless it is related to itself, no rank is 1 and the precision is below 1. *)
Theorem self_counts : forall ds asked hidden x, x < length ds -> ~ In x asked -> ~ In x hidden -> (nth x ds 0 == 0)%Q ->
  Forall (fun p => (0 < nth p ds 0)%Q) asked ->
  Forall (fun r => 2 <= r) (ranks ds asked hidden) /\ (asked <> [] -> (avg_precision (ranks ds asked hidden) < 1)%Q).
Proof.
  intros ds asked hidden x Hx Na Nh Dx F.
  assert (R : Forall (fun r => 2 <= r) (ranks ds asked hidden)).
  { unfold ranks. apply Forall_map. eapply Forall_impl; [|exact F]. cbv beta. intros p Hp. unfold rank. apply le_n_S.
    set (f := fun k => _). assert (Hf : In x (filter f (seq 0 (length ds)))).
    { apply filter_In. split; [apply in_seq; lia|]. unfold f. rewrite <- memb_false in Na. rewrite <- memb_false in Nh. rewrite Na, Nh. cbn. apply qlt_true. lra. }
    destruct (filter f (seq 0 (length ds))); [destruct Hf | cbn; lia]. }
  split; [exact R|]. intros N. destruct (avg_precision_bounds (ranks ds asked hidden)) as [[_ B] C].
  - destruct asked; [contradiction | discriminate].
  - eapply Forall_impl; [|exact R]. cbv beta. intros; lia.
  - apply Qle_lteq in B. destruct B as [B|B]; [exact B|]. apply C in B. exfalso. destruct asked as [|p asked]; [contradiction|]. inversion B as [|? ? B1 _]; subst. inversion R as [|? ? R1 _]; subst. lia.
Qed.
Print Assumptions self_counts.

Example ranks_ex :   (* nodes at distances 0 (the item), 1, 2, 3, 4, 5; related: those at 1, 3 and 4 *)
  ranks [0; 1; 2; 3; 4; 5]%Q [4; 1; 3] [] = [3; 2; 3] /\
  Qred (avg_precision (ranks [0; 1; 2; 3; 4; 5]%Q [4; 1; 3] [])) = (8 # 15)%Q /\
  Qred (mean (map (precision [0; 1; 2; 3; 4; 5]%Q [4; 1; 3] []) [4; 1; 3])) = (8 # 15)%Q /\
  ranks [0; 1; 2; 3; 4; 5]%Q [4] [1; 0] = [3] /\
  Qred (avg_precision [1; 1; 1]) = 1%Q.
Proof. repeat split; vm_compute; reflexivity. Qed.

(** Even where all related nodes are nearer than all others, the mean rank is 2 and the precision below 1. *)
Theorem perfect_refuted : exists ds asked, NoDup asked /\ (forall p k, In p asked -> In k (seq 1 5) -> ~ In k asked -> (nth p ds 0 < nth k ds 0)%Q) /\
  (nth 0 ds 0 == 0)%Q /\ ranks ds asked [] = [2; 2] /\ Qred (fst (evaluate None [0] (fun _ => ds) (fun _ => asked) (fun _ => []))) = 2%Q /\
  Qred (snd (evaluate None [0] (fun _ => ds) (fun _ => asked) (fun _ => []))) = (7 # 12)%Q.
Proof.
  exists [0; 1; 2; 3; 4; 5]%Q, [1; 2]. split; [repeat constructor; cbn; lia|]. split; [|repeat split; vm_compute; reflexivity].
  intros p k Hp Hk Nk. cbn in Hp, Hk, Nk. destruct Hp as [<-|[<-|[]]]; destruct Hk as [<-|[<-|[<-|[<-|[<-|[]]]]]]; try tauto; vm_compute; reflexivity.
Qed.
Print Assumptions perfect_refuted.

(** ** Which items are evaluated *)
Definition has_relations (relations : nat -> list nat) (x : nat) : bool := match relations x with [] => false | _ => true end.
Theorem evaluated_all : forall items i relations, evaluated None i items relations = filter (has_relations relations) items.
Proof. induction items as [|x items IH]; intros i relations; [reflexivity|]. cbn [evaluated filter]. unfold has_relations at 1. destruct (relations x); cbn; rewrite IH; reflexivity. Qed.
(** With a bound [n]: those of the first [n] items, and one more. *)
Theorem evaluated_bound : forall items n relations, (0 <= n)%Z ->
  evaluated (Some n) 1 items relations = filter (has_relations relations) (firstn (Z.to_nat n) items) ++ firstn 1 (filter (has_relations relations) (skipn (Z.to_nat n) items)).
Proof.
  intros items n relations Hn.
  assert (Q : forall items i, (0 < i)%Z -> evaluated (Some n) i items relations = filter (has_relations relations) (firstn (Z.to_nat (n + 1 - i)) items) ++ firstn 1 (filter (has_relations relations) (skipn (Z.to_nat (n + 1 - i)) items))).
  { clear items. induction items as [|x items IH]; intros i Hi; [cbn; rewrite firstn_nil, skipn_nil; reflexivity|]. cbn [evaluated]. destruct (Z.ltb_spec n i) as [L|L].
    - replace (Z.to_nat (n + 1 - i)) with 0 by lia. cbn [firstn skipn filter app]. unfold has_relations at 1. destruct (relations x) as [|r rs] eqn:E; [|cbn; reflexivity]. rewrite IH by lia. replace (Z.to_nat (n + 1 - (i + 1))) with 0 by lia. reflexivity.
    - replace (Z.to_nat (n + 1 - i)) with (S (Z.to_nat (n + 1 - (i + 1)))) by lia. cbn [firstn skipn filter]. unfold has_relations at 1. destruct (relations x) as [|r rs] eqn:E; rewrite IH by lia; reflexivity. }
  rewrite (Q items 1%Z) by lia. replace (n + 1 - 1)%Z with n by lia. reflexivity.
Qed.
Print Assumptions evaluated_all.
Print Assumptions evaluated_bound.
Example evaluated_ex : evaluated (Some 2%Z) 1 [5; 6; 7; 8] (fun x => if x =? 6 then [] else [1]) = [5; 7] /\ evaluated None 1 [5; 6; 7; 8] (fun x => if x =? 6 then [] else [1]) = [5; 7; 8].
Proof. split; vm_compute; reflexivity. Qed.
(** "At most [max_n]": one more, and of items, not of relations. *)
Theorem max_n_refuted : exists items relations, length (evaluated (Some 1%Z) 1 items relations) = 2 /\ length (concat (map relations (evaluated (Some 1%Z) 1 items relations))) = 6.
Proof. exists [0; 1; 2], (fun _ => [3; 4; 5]). split; vm_compute; reflexivity. Qed.
Print Assumptions max_n_refuted.

(** ** Lexical entailment *)
(** The terms of a word: those of its meanings, "word.…". *)
Definition term_of (ks : list pystr) (word t : pystr) : Prop := In t ks /\ exists rest, t = word ++ [46%N] ++ rest.
Lemma starts_with_iff : forall p s, starts_with p s = true <-> exists rest, s = p ++ rest.
Proof.
  intros p s. unfold starts_with. rewrite eqb_true. split.
  - intros E. exists (skipn (length p) s). rewrite <- E at 1. symmetry. apply firstn_skipn.
  - intros (rest & ->). rewrite firstn_app, Nat.sub_diag, firstn_all. cbn. apply app_nil_r.
Qed.
Lemma matching_iff : forall ks word t, In t (filter (starts_with (word ++ [46%N])) ks) <-> term_of ks word t.
Proof.
  intros ks word t. rewrite filter_In, starts_with_iff. unfold term_of. split; intros [H (rest & E)]; (split; [exact H|]); exists rest; [rewrite app_assoc | rewrite <- app_assoc]; exact E.
Qed.
Lemma nearest_pair_spec : forall d l p e, nearest_pair d l = Some (p, e) -> In p l /\ e = d (fst p) (snd p) /\ forall q, In q l -> (e <= d (fst q) (snd q))%Q.
Proof.
  intros d l. unfold nearest_pair. set (f := fun best p => _).
  assert (Q : forall l s, fold_left f l s = None -> s = None /\ l = []).
  { clear l. induction l as [|x l IH]; intros s H; [auto|]. cbn [fold_left] in H. destruct (IH _ H) as [H1 _]. unfold f in H1. destruct s as [[? ?]|]; [destruct (qlt _ _)|]; discriminate. }
  assert (R : forall l s p e, fold_left f l s = Some (p, e) -> match s with None => True | Some (p0, e0) => e0 = d (fst p0) (snd p0) end ->
    (In p l \/ s = Some (p, e)) /\ e = d (fst p) (snd p) /\ (forall q, In q l -> (e <= d (fst q) (snd q))%Q) /\ match s with None => True | Some (_, e0) => (e <= e0)%Q end).
  { clear l. induction l as [|x l IH]; intros s p e H Hs.
    - cbn in H. subst s. repeat split; auto; [intros q []|]. lra.
    - cbn [fold_left] in H. assert (Hs' : match f s x with None => True | Some (p0, e0) => e0 = d (fst p0) (snd p0) end) by (unfold f; destruct s as [[p0 e0]|]; [destruct (qlt _ _); auto | reflexivity]).
      destruct (IH (f s x) p e H Hs') as (A & B & C & D). unfold f in A, D. destruct s as [[p0 e0]|].
      + destruct (qlt (d (fst x) (snd x)) e0) eqn:X.
        * apply qlt_true in X. split; [destruct A as [A|A]; [left; right; exact A | injection A as <- <-; left; left; reflexivity]|]. split; [exact B|]. split; [|lra]. intros q [<-|Hq]; [exact D | apply C, Hq].
        * apply qlt_false in X. split; [destruct A as [A|A]; [left; right; exact A | right; exact A]|]. split; [exact B|]. split; [|exact D]. intros q [<-|Hq]; [lra | apply C, Hq].
      + split; [destruct A as [A|A]; [left; right; exact A | injection A as <- <-; left; left; reflexivity]|]. split; [exact B|]. split; [|trivial]. intros q [<-|Hq]; [exact D | apply C, Hq]. }
  intros p e H. destruct (R l None p e H Logic.I) as ([A|A] & B & C & _); [auto | discriminate].
Qed.
Lemma nearest_pair_none : forall d l, nearest_pair d l = None -> l = [].
Proof.
  intros d l. unfold nearest_pair. set (f := fun best p => _).
  assert (Q : forall l s, fold_left f l s = None -> s = None /\ l = []).
  { clear l. induction l as [|x l IH]; intros s H; [auto|]. cbn [fold_left] in H. destruct (IH _ H) as [H1 _]. unfold f in H1. destruct s as [[? ?]|]; [destruct (qlt _ _)|]; discriminate. }
  intros H. apply (Q l None H).
Qed.
Theorem score_function_exact : forall ks d nrm w1 w2,
  (score_function ks d nrm w1 w2 = Err ValueError /\ ((forall t, ~ term_of ks w1 t) \/ (forall t, ~ term_of ks w2 t))) \/
  exists a b, term_of ks w1 a /\ term_of ks w2 b /\ (forall a' b', term_of ks w1 a' -> term_of ks w2 b' -> (d a b <= d a' b')%Q) /\
    score_function ks d nrm w1 w2 = Ok (- ((1 + 1000 * (nrm b - nrm a)) * d a b))%Q.
Proof.
  intros ks d nrm w1 w2. unfold score_function, matching.
  pose proof (matching_iff ks w1) as M1. pose proof (matching_iff ks w2) as M2.
  destruct (filter (starts_with (w1 ++ [46%N])) ks) as [|x1 l1]; [left; split; [reflexivity|]; left; intros t Ht; apply M1 in Ht; destruct Ht|].
  destruct (filter (starts_with (w2 ++ [46%N])) ks) as [|x2 l2]; [left; split; [reflexivity|]; right; intros t Ht; apply M2 in Ht; destruct Ht|].
  right. destruct (nearest_pair d (list_prod (x1 :: l1) (x2 :: l2))) as [[[a b] e]|] eqn:Np.
  - destruct (nearest_pair_spec _ _ _ _ Np) as (A & B & C). cbn [fst snd] in B. apply in_prod_iff in A. exists a, b. split; [apply M1, A|]. split; [apply M2, A|]. split; [|rewrite B; reflexivity].
    intros a' b' Ha Hb. apply M1 in Ha. apply M2 in Hb. rewrite <- B. apply (C (a', b')). apply in_prod_iff. auto.
  - apply nearest_pair_none in Np. discriminate.
Qed.
Print Assumptions score_function_exact.
Example score_ex :
  let ks := [str "dog.n.01"; str "animal.n.01"; str "dog.v.01"; str "dogma.n.01"] in
  let pos := fun t => if eqb t (str "dog.n.01") then (3 # 4)%Q else if eqb t (str "animal.n.01") then (1 # 2)%Q else 0%Q in
  rmap Qred (score_function ks (fun a b => Qabs (pos a - pos b)) pos (str "dog") (str "animal")) = Ok (249 # 4)%Q /\
  score_function ks (fun a b => Qabs (pos a - pos b)) pos (str "do") (str "animal") = Err ValueError.
Proof. split; vm_compute; reflexivity. Qed.
