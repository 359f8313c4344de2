(** Vocabulary, negative samples and schedule of Poincaré training (property C88). *)
From Coq Require Import ZifyBool ZifyNat.
From Verif Require Import Base Str KeyedVectors_Model KeyedVectors_Proofs PoincareGeo_Model PoincareVocab_Model PoincareVocab_Proofs.

(** ** Vocabulary *)
(** Relations of two items each: the nodes are numbered in the order of their first occurrence after those known before; the count
    of a node grows by its occurrences on either side; the relations are appended with the numbers of their nodes; the old
    vectors are kept (update) or all are drawn anew. *)
Theorem build_vocab_exact : forall {K V} `{EqDec K} (g : nat -> V) update rs (s : model K V),
  wf s -> Forall (fun r => length r = 2) rs -> rs <> [] \/ counts s <> None ->
  exists s' cs ps, build_vocab g update rs s = (Ok tt, s') /\ wf s' /\
    keys s' = fold_left (fun ks x => if memb x ks then ks else ks ++ [x]) (concat rs) (keys s) /\
    (forall x, count_of s' x = (count_of s x + Z.of_nat (count_occ eq_dec (concat rs) x))%Z) /\
    rels s' = rels s ++ ps /\ Forall2 (fun r p => exists a b, r = [a; b] /\ nth_error (keys s') (fst p) = Some a /\ nth_error (keys s') (snd p) = Some b) rs ps /\
    counts s' = Some cs /\ cumsum s' = prefix_sums 0 cs /\
    vectors s' = (if update then vectors s ++ map g (seq 0 (length (keys s') - length (keys s))) else map g (seq 0 (length (keys s')))) /\
    (update = false \/ length (vectors s) = length (keys s) -> length (vectors s') = length (keys s')).
Proof.
  intros K V E g update rs s W F N. destruct (add_relations_ok rs s W F) as (s1 & ps & A & W1 & C1 & C2 & K1 & R1 & P1 & V1 & O1). unfold build_vocab. rewrite A.
  assert (C : counts s1 <> None) by (destruct N; auto). destruct (counts s1) as [cs|] eqn:Cs; [|congruence]. eexists. exists cs, ps. split; [reflexivity|]. cbn [keys index counts vectors rels nrels cumsum].
  assert (Q : exists new, keys s1 = keys s ++ new).
  { rewrite K1. clear. generalize (keys s). induction (concat rs) as [|x l IH]; intros ks; [exists []; symmetry; apply app_nil_r|]. cbn [fold_left]. destruct (IH (note ks x)) as [new Hn]. rewrite Hn. unfold note. destruct (memb x ks); [exists new; reflexivity|]. exists ([x] ++ new). now rewrite app_assoc. }
  split; [destruct W1 as [X1 X2 X3 X0 X4 X5 X6]; split; cbn [keys index counts vectors rels nrels cumsum]; try assumption; rewrite Cs in *; assumption|].
  split; [exact K1|]. split; [intros x; unfold count_of at 1; cbn [index counts]; specialize (O1 x); unfold count_of at 1 in O1; rewrite Cs in O1; exact O1|]. split; [exact R1|]. split; [exact P1|]. split; [reflexivity|]. split; [reflexivity|]. rewrite V1. split; [reflexivity|].
  intros [-> | L]; [rewrite map_length, seq_length; reflexivity|]. destruct Q as [new Qn]. destruct update; [|rewrite map_length, seq_length; reflexivity]. rewrite app_length, map_length, seq_length, Qn, app_length, L. lia.
Qed.
Print Assumptions build_vocab_exact.
Theorem new_model_wf : forall K V `{EqDec K}, wf (new_model K V).
Proof. intros K V E. split; cbn; try constructor; try discriminate; try tauto. destruct i; discriminate. Qed.
Print Assumptions new_model_wf.
Notation zoo := [[str "kangaroo"; str "marsupial"]; [str "kangaroo"; str "mammal"]; [str "gib"; str "cat"]].
Example build_ex : exists s, build_vocab (fun k => k) false zoo (new_model pystr nat) = (Ok tt, s) /\ keys s = [str "kangaroo"; str "marsupial"; str "mammal"; str "gib"; str "cat"] /\
  counts s = Some [2; 1; 1; 1; 1]%Z /\ rels s = [(0, 1); (0, 2); (3, 4)] /\ nrels s = [(0, [1; 2]); (3, [4])] /\ cumsum s = [2; 3; 4; 5; 6]%Z /\ vectors s = [0; 1; 2; 3; 4].
Proof. eexists. split; [vm_compute; reflexivity|]. repeat split; reflexivity. Qed.
(** A relation that is no pair raises a ValueError, but the relations before it stay. *)
Theorem bad_relation : forall {K V} `{EqDec K} (g : nat -> V) update rs r rs' (s : model K V), wf s -> Forall (fun r => length r = 2) rs -> length r <> 2 ->
  exists s', build_vocab g update (rs ++ r :: rs') s = (Err ValueError, s') /\ keys s' = fold_left (fun ks x => if memb x ks then ks else ks ++ [x]) (concat rs) (keys s) /\ vectors s' = vectors s.
Proof.
  intros K V E g update rs r rs' s W F L. destruct (add_relations_ok rs s W F) as (s1 & ps & A & _ & _ & _ & K1 & _ & _ & V1 & _). exists s1. split; [|split; assumption]. unfold build_vocab.
  assert (Q : add_relations s (rs ++ r :: rs') = (s1, Some ValueError)).
  { clear W F K1 V1 ps. revert s A. induction rs as [|x rs IH]; intros s A.
    - injection A as ->. cbn [app add_relations]. unfold add_relation. destruct r as [|a [|b [|c r]]]; try reflexivity. exfalso. apply L. reflexivity.
    - cbn [app add_relations] in *. destruct (add_relation s x) as [s2 [e|]]; [discriminate|]. now apply IH. }
  rewrite Q. reflexivity.
Qed.
Print Assumptions bad_relation.
(** So after a failed update and a further one, the vectors no longer belong to the nodes: here two of six nodes have no vector, and
    node 4 got the vector drawn for node 4 of the second update only by position. *)
Theorem failed_update_refuted : exists s1 s2 s3, build_vocab (fun k => (1, k)) false [[str "a"; str "b"]] (new_model pystr (nat * nat)) = (Ok tt, s1) /\
  build_vocab (fun k => (2, k)) true [[str "c"; str "d"]; [str "e"]] s1 = (Err ValueError, s2) /\
  build_vocab (fun k => (3, k)) true [[str "f"; str "g"]] s2 = (Ok tt, s3) /\
  keys s3 = [str "a"; str "b"; str "c"; str "d"; str "f"; str "g"] /\ vectors s3 = [(1, 0); (1, 1); (3, 0); (3, 1)].
Proof. do 3 eexists. do 3 (split; [vm_compute; reflexivity|]). split; reflexivity. Qed.
Print Assumptions failed_update_refuted.
(** No relations at all: the missing counts raise a KeyError. *)
Theorem no_relations_refuted : forall K V `{EqDec K} (g : nat -> V) update, fst (build_vocab g update [] (new_model K V)) = Err KeyError.
Proof. reflexivity. Qed.
Print Assumptions no_relations_refuted.

(** ** Draws *)
(** Of the numbers from 1 to the total count, exactly [count] many select each node: nodes are drawn in proportion to their counts. *)
Theorem draw_shares : forall cs i, Forall (fun c => 0 <= c)%Z cs -> i < length cs ->
  length (filter (fun r => searchsorted (prefix_sums 0 cs) r =? i) (map (fun k => Z.of_nat (S k)) (seq 0 (Z.to_nat (fold_right Z.add 0%Z cs))))) = Z.to_nat (nth i cs 0%Z).
Proof.
  intros cs i F Hi. rewrite <- (ss_count cs 0%Z i F Hi). unfold after, zsum. do 2 f_equal. apply map_ext. intros k. lia.
Qed.
Print Assumptions draw_shares.
Example draw_ex : map (searchsorted (prefix_sums 0 [2; 1; 3]%Z)) [1; 2; 3; 4; 5; 6]%Z = [0; 0; 1; 2; 2; 2].
Proof. reflexivity. Qed.

(** ** Negative samples *)
Definition draws_ok (bufsize : nat) (cs : list Z) (draws : list (list Z)) : Prop := Forall (fun d => length d = bufsize /\ Forall (fun r => 1 <= r <= fold_right Z.add 0 cs)%Z d) draws.
Definition choice_ok (choice : list nat -> nat -> list nat) : Prop := forall valid k, NoDup valid -> k <= length valid -> NoDup (choice valid k) /\ incl (choice valid k) valid /\ length (choice valid k) = k.
Lemma candidates_ok : forall bufsize neg n cs b draws l b' ds, length cs = n -> draws_ok bufsize cs draws -> Forall (fun i => i < n) (fst b) -> candidates neg (prefix_sums 0 cs) b draws = Some (l, b', ds) ->
  Forall (fun i => i < n) l /\ Forall (fun i => i < n) (fst b') /\ draws_ok bufsize cs ds /\ (neg <= bufsize -> length l = neg).
Proof.
  intros bufsize neg n cs b draws l b' ds L D B H. unfold candidates in H. destruct (Nat.ltb_spec (num_items b) neg) as [Hn|Hn].
  - destruct draws as [|d ds']; [discriminate|]. inversion D as [|? ? [Ld Fd] D']; subst. unfold get_items in H. cbn [fst snd skipn] in H. injection H as <- <- <-. cbn [fst].
    assert (F : Forall (fun i => i < length cs) (map (searchsorted (prefix_sums 0 cs)) d)).
    { apply Forall_forall. intros i Hi. apply in_map_iff in Hi. destruct Hi as (r & <- & Hr). rewrite Forall_forall in Fd. specialize (Fd r Hr). apply ss_bound; unfold zsum; lia. }
    split; [apply Forall_forall; intros i Hi; rewrite Forall_forall in F; apply F; eapply In_firstn; exact Hi|]. split; [exact F|]. split; [exact D'|]. intros Hb. rewrite firstn_length, map_length. lia.
  - injection H as <- <- <-. cbn [fst]. split; [apply Forall_forall; intros i Hi; rewrite Forall_forall in B; apply B; eapply In_skipn, In_firstn; exact Hi|]. split; [exact B|]. split; [exact D|]. intros _. rewrite firstn_length, skipn_length. unfold num_items in Hn. lia.
Qed.
Lemma resample_ok : forall bufsize neg n cs related fuel b draws l b' ds, length cs = n -> draws_ok bufsize cs draws -> Forall (fun i => i < n) (fst b) -> resample fuel neg (prefix_sums 0 cs) related b draws = Some (l, b', ds) ->
  NoDup l /\ (forall i, In i l -> i < n /\ ~ In i related) /\ Forall (fun i => i < n) (fst b') /\ draws_ok bufsize cs ds /\ (neg <= bufsize -> length l = neg).
Proof.
  intros bufsize neg n cs related. induction fuel as [|f IH]; intros b draws l b' ds L D B H; [discriminate|]. cbn [resample] in H. destruct (candidates neg (prefix_sums 0 cs) b draws) as [[[l1 b1] ds1]|] eqn:C; [|discriminate].
  destruct (candidates_ok bufsize neg n cs b draws l1 b1 ds1 L D B C) as (F1 & F2 & D1 & L1). destruct (acceptable related l1) eqn:A.
  - injection H as -> -> ->. apply acceptable_iff in A. destruct A as [A1 A2]. split; [exact A1|]. split; [|auto]. intros i Hi. rewrite Forall_forall in F1. auto.
  - now apply (IH b1 ds1).
Qed.
(** The negative samples of a node are [negative] different nodes, none of them related to it (but see below: possibly itself).  It
    raises a ValueError exactly if there are not that many. *)
Theorem negatives_valid : forall {K V} `{EqDec K} choice bufsize fuel neg (s : model K V) cs b draws node r, wf s -> counts s = Some cs -> cumsum s = prefix_sums 0 cs ->
  choice_ok choice -> draws_ok bufsize cs draws -> Forall (fun i => i < length (keys s)) (fst b) ->
  sample_negatives choice fuel neg s b draws node = r ->
  (r = Err ValueError <-> length (keys s) < length (dget_or (nrels s) node []) + neg) /\
  match r with
  | Ok (Some (l, b', ds)) =>
    NoDup l /\ (forall i, In i l -> i < length (keys s) /\ ~ In (node, i) (rels s)) /\ (neg <= bufsize -> length l = neg) /\
    Forall (fun i => i < length (keys s)) (fst b') /\ draws_ok bufsize cs ds
  | Ok None => True
  | Err e => e = ValueError
  end.
Proof.
  intros K V E choice bufsize fuel neg s cs b draws node r W C Cu Ch D B H. pose proof (w_counts s W) as Lc. rewrite C in Lc. unfold sample_negatives in H. set (related := dget_or (nrels s) node []) in *.
  destruct (Z.ltb_spec (Z.of_nat (length (keys s)) - Z.of_nat (length related)) (Z.of_nat neg)) as [Hn|Hn]; [subst r; split; [split; [lia | reflexivity] | reflexivity]|].
  destruct (Nat.ltb_spec (100 * length related) (length (keys s))) as [Hf|Hf].
  - subst r. split; [split; [discriminate | lia]|]. rewrite Cu. destruct (resample fuel neg (prefix_sums 0 cs) related b draws) as [[[l b'] ds]|] eqn:R0; [|trivial].
    destruct (resample_ok bufsize neg (length (keys s)) cs related fuel b draws l b' ds Lc D B R0) as (N1 & N2 & N3 & N4 & N5). repeat split; try assumption; [apply N2; assumption|]. intros Q. apply (N2 _ H). apply (w_nrels s W). exact Q.
  - subst r. split; [split; [discriminate | lia]|]. set (valid := filter (fun i => negb (memb i related)) (seq 0 (length (keys s)))).
    assert (Nv : NoDup valid) by (apply NoDup_filter, seq_NoDup).
    assert (Lv : neg <= length valid).
    { assert (Q : length (seq 0 (length (keys s))) = length valid + length (filter (fun i => memb i related) (seq 0 (length (keys s))))).
      { unfold valid. generalize (seq 0 (length (keys s))). intros l. clear. induction l as [|x l IH]; [reflexivity|]. cbn [filter length]. destruct (memb x related); cbn [negb length]; lia. }
      assert (Q2 : length (filter (fun i => memb i related) (seq 0 (length (keys s)))) <= length related).
      { apply NoDup_incl_length; [apply NoDup_filter, seq_NoDup|]. intros i Hi. apply filter_In in Hi. destruct Hi as [_ Hi]. now apply memb_true. }
      rewrite seq_length in Q. lia. }
    destruct (Ch valid neg Nv Lv) as (C1 & C2 & C3). split; [exact C1|]. split; [|auto]. intros i Hi. apply C2 in Hi. apply filter_In in Hi. destruct Hi as [Hi Hr]. apply in_seq in Hi. split; [lia|]. intros Q. apply (w_nrels s W) in Q. apply negb_true_iff, memb_false in Hr. contradiction.
Qed.
Print Assumptions negatives_valid.
(** Sampling does not get stuck: whatever is left in the buffer, some draws lead to an end. *)
Lemma draws_for : forall cs good, Forall (fun c => 1 <= c)%Z cs -> Forall (fun i => i < length cs) good -> exists d, Forall (fun r => 1 <= r <= fold_right Z.add 0 cs)%Z d /\ map (searchsorted (prefix_sums 0 cs)) d = good.
Proof.
  intros cs good F. induction 1 as [|i good Hi Hg IH]; [exists []; split; [constructor | reflexivity]|]. destruct IH as (d & D1 & D2). destruct (ss_hit cs 0%Z i F Hi) as (r & Hr & Er). exists (r :: d). split; [constructor; [unfold zsum in Hr; lia | exact D1]|]. cbn [map]. rewrite Er, D2. reflexivity.
Qed.
Theorem negatives_reachable : forall bufsize neg cs related b, 0 < neg <= bufsize -> Forall (fun c => 1 <= c)%Z cs -> NoDup related -> length related + neg <= length cs ->
  exists fuel draws r, draws_ok bufsize cs draws /\ resample fuel neg (prefix_sums 0 cs) related b draws = Some r.
Proof.
  intros bufsize neg cs related b Hn F Nr L.
  (* enough unrelated nodes *)
  set (valid := filter (fun i => negb (memb i related)) (seq 0 (length cs))). set (good := firstn neg valid).
  assert (Lv : neg <= length valid).
  { assert (Q : length (seq 0 (length cs)) = length valid + length (filter (fun i => memb i related) (seq 0 (length cs)))).
    { unfold valid. generalize (seq 0 (length cs)). intros l. clear. induction l as [|x l IH]; [reflexivity|]. cbn [filter length]. destruct (memb x related); cbn [negb length]; lia. }
    assert (Q2 : length (filter (fun i => memb i related) (seq 0 (length cs))) <= length related).
    { apply NoDup_incl_length; [apply NoDup_filter, seq_NoDup|]. intros i Hi. apply filter_In in Hi. destruct Hi as [_ Hi]. now apply memb_true. }
    rewrite seq_length in Q. lia. }
  assert (Hg : forall i, In i good -> i < length cs /\ ~ In i related).
  { intros i Hi. apply In_firstn, filter_In in Hi. destruct Hi as [Hi Hr]. apply in_seq in Hi. split; [lia|]. now apply negb_true_iff, memb_false in Hr. }
  assert (Ng : NoDup good) by (apply NoDup_firstn, NoDup_filter, seq_NoDup). assert (Lg : length good = neg) by (unfold good; rewrite firstn_length; lia).
  destruct (draws_for cs (good ++ repeat (hd 0 good) (bufsize - neg)) F) as (d & D1 & D2).
  { apply Forall_app. split; [apply Forall_forall; intros i Hi; now apply Hg|]. apply Forall_forall. intros i Hi. apply repeat_spec in Hi. subst i. apply Hg. destruct good as [|x good']; [cbn in Lg; lia | left; reflexivity]. }
  assert (Ld : length d = bufsize) by (rewrite <- (map_length (searchsorted (prefix_sums 0 cs))), D2, app_length, repeat_length, Lg; lia).
  assert (Dk : draws_ok bufsize cs [d]) by (constructor; [split; assumption | constructor]).
  remember (num_items b) as m eqn:Em. revert b Em. induction m as [m IH] using lt_wf_ind. intros b Em. destruct (Nat.lt_ge_cases m neg) as [Hm|Hm].
  - exists 1, [d]. eexists. split; [exact Dk|]. cbn [resample]. unfold candidates. rewrite (proj2 (Nat.ltb_lt _ _)) by lia. unfold get_items. cbn [fst snd skipn]. rewrite D2. rewrite firstn_app, firstn_all2, Lg, Nat.sub_diag, firstn_O, app_nil_r by lia.
    rewrite (proj2 (acceptable_iff related good)); [reflexivity|]. split; [exact Ng|]. intros i Hi. now apply Hg.
  - destruct (acceptable related (firstn neg (skipn (snd b) (fst b)))) eqn:A.
    + exists 1, []. eexists. split; [constructor|]. cbn [resample]. unfold candidates. rewrite (proj2 (Nat.ltb_ge _ _)) by lia. unfold get_items. rewrite A. reflexivity.
    + destruct (IH (m - neg) ltac:(lia) (fst b, snd b + neg)) as (fuel & draws & r & Dk' & R0); [unfold num_items in *; cbn [fst snd]; lia|].
      exists (S fuel), draws, r. split; [exact Dk'|]. cbn [resample]. unfold candidates. rewrite (proj2 (Nat.ltb_ge _ _)) by lia. unfold get_items. rewrite A. exact R0.
Qed.
Print Assumptions negatives_reachable.
(** More negative samples than the buffer holds (2000): there are always too few, and the batch cannot be put together. *)
Theorem few_negatives : forall bufsize neg cs related fuel b draws l b' ds, length (fst b) <= bufsize -> bufsize < neg -> draws_ok bufsize cs draws -> resample fuel neg (prefix_sums 0 cs) related b draws = Some (l, b', ds) ->
  length l <= bufsize.
Proof.
  intros bufsize neg cs related. induction fuel as [|f IH]; intros b draws l b' ds B Hn D H; [discriminate|]. cbn [resample] in H. unfold candidates in H. destruct (Nat.ltb_spec (num_items b) neg) as [Hm|Hm].
  - destruct draws as [|d ds0]; [discriminate|]. inversion D as [|? ? [Ld _] D']; subst. unfold get_items in H. cbn [fst snd skipn] in H. destruct (acceptable related _) eqn:A in H.
    + injection H as <- <- <-. rewrite firstn_length, map_length. lia.
    + apply (IH (map (searchsorted (prefix_sums 0 cs)) d, 0 + neg) ds0 l b' ds); try assumption. cbn [fst]. rewrite map_length. lia.
  - unfold num_items in Hm. lia.
Qed.
Print Assumptions few_negatives.
(** The batch: every relation with its negative samples, all of them nodes; and a ValueError if there are too few. *)
Theorem prepare_exact : forall neg relations negatives, length negatives = length relations -> Forall (fun l => length l <= neg) negatives ->
  (Forall (fun l => length l = neg) negatives -> exists ex, prepare neg relations negatives = Ok ex /\ map fst ex = map fst relations /\ Forall2 (fun e p => snd e = snd (fst p) :: snd p) ex (combine relations negatives)) /\
  ((exists l, In l negatives /\ length l < neg) -> prepare neg relations negatives = Err ValueError).
Proof.
  intros neg relations negatives L F. unfold prepare.
  assert (Q : forall rs ns, length ns = length rs -> Forall (fun l : list nat => length l <= neg) ns ->
    let t := length (concat (map (fun p : nat * nat * list nat => snd (fst p) :: snd p) (combine rs ns))) in t <= length rs * (1 + neg) /\ (Forall (fun l => length l = neg) ns -> t = length rs * (1 + neg)) /\ ((exists l, In l ns /\ length l < neg) -> t < length rs * (1 + neg))).
  { clear. induction rs as [|r rs IH]; intros [|n ns] L F; try discriminate; [cbn; split; [lia|]; split; [lia|]; intros (l & [] & _)|]. inversion F as [|? ? Hn F']; subst. destruct (IH ns ltac:(cbn in L; congruence) F') as (A & B & C). cbn [combine map concat length fst snd]. cbn zeta. rewrite app_length. cbn [length].
    split; [nia|]. split.
    - intros G. inversion G as [|? ? G1 G2]; subst. specialize (B G2). nia.
    - intros (l & [<-|Hl] & Hs); [nia|]. specialize (C (ex_intro _ l (conj Hl Hs))). nia. }
  destruct (Q relations negatives L F) as (_ & A & B). split.
  - intros G. rewrite (A G), Nat.eqb_refl. eexists. split; [reflexivity|]. rewrite map_map. cbn [fst]. split.
    + clear - L. revert negatives L. induction relations as [|r rs IH]; intros [|n ns] L; try discriminate; [reflexivity|]. cbn [combine map fst]. f_equal. apply IH. cbn in L. congruence.
    + clear. induction (combine relations negatives) as [|p l IH]; constructor; [reflexivity | exact IH].
  - intros H. specialize (B H). rewrite (proj2 (Nat.eqb_neq _ _)) by lia. reflexivity.
Qed.
Print Assumptions prepare_exact.
(** The node itself can be its negative sample: with one relation between two nodes and one negative sample, it always is. *)
Theorem self_negative_refuted : exists s, build_vocab (fun k => k) false [[str "a"; str "b"]] (new_model pystr nat) = (Ok tt, s) /\
  forall choice fuel b draws, choice_ok choice -> sample_negatives choice fuel 1 s b draws 0 = Ok (Some ([0], b, draws)).
Proof.
  eexists. split; [vm_compute; reflexivity|]. intros choice fuel b draws C. unfold sample_negatives. cbn. destruct (C [0] 1) as (_ & I0 & L); [repeat constructor; cbn; tauto | cbn; lia|]. destruct (choice [0] 1) as [|x [|y l]]; try discriminate. destruct (I0 x) as [<-|[]]; [left; reflexivity | reflexivity].
Qed.
Print Assumptions self_negative_refuted.

(** ** The schedule *)
Lemma slices_spec : forall {A} bs fuel (l : list A), 0 < bs -> length l <= fuel -> concat (slices fuel bs l) = l /\ Forall (fun b => 0 < length b <= bs) (slices fuel bs l) /\ Forall (fun b => length b = bs) (removelast (slices fuel bs l)).
Proof.
  intros A bs. induction fuel as [|f IH]; intros l Hb Hl; [destruct l; [repeat split; constructor | cbn in Hl; lia]|]. destruct l as [|x l]; [repeat split; constructor|]. cbn [slices]. set (l0 := x :: l) in *. assert (0 < length l0) by (unfold l0; cbn; lia).
  destruct (IH (skipn bs l0) Hb) as (A1 & A2 & A3); [rewrite skipn_length; lia|]. split; [cbn [concat]; rewrite A1; apply firstn_skipn|]. split; [constructor; [rewrite firstn_length; lia | exact A2]|].
  cbn [removelast]. destruct (slices f bs (skipn bs l0)) as [|b rest] eqn:R0; [constructor|]. constructor; [|exact A3]. rewrite firstn_length. destruct (Nat.le_gt_cases bs (length l0)); [lia|]. exfalso. rewrite skipn_all2 in R0 by lia. destruct f; discriminate.
Qed.
(** The batches of an epoch: together the whole list in order, all but the last of the given size. *)
Theorem poincare_batches_exact : forall {A} bs (l : list A), 0 < bs -> concat (batches bs l) = l /\ Forall (fun b => 0 < length b <= bs) (batches bs l) /\ Forall (fun b => length b = bs) (removelast (batches bs l)).
Proof. intros A bs l H. apply slices_spec; [exact H | apply Nat.le_refl]. Qed.
Print Assumptions poincare_batches_exact.

Section Schedule.
Context {A : Type} (fails : list (A * list (nat * nat)) -> list (nat * nat) -> option exn).
Lemma train_batches_run : forall pe bs (t : trainer A), exists k, let r := train_batches fails pe bs t in
  rate (snd r) = rate t /\ burnt (snd r) = burnt t /\ trained (snd r) = trained t ++ map (pair (rate t)) (firstn k bs) /\ (fst r = Ok tt -> firstn k bs = bs).
Proof.
  intros pe. induction bs as [|b bs IH]; intros t; [exists 0; cbn; rewrite app_nil_r; auto|]. cbn [train_batches]. destruct (pe =? 0)%Z; [exists 0; cbn; rewrite app_nil_r; repeat split; discriminate|].
  destruct (fails (trained t) b) as [e|]; [exists 0; cbn; rewrite app_nil_r; repeat split; discriminate|]. destruct (IH (mkTrainer (rate t) (burnt t) (trained t ++ [(rate t, b)]))) as (k & Q1 & Q2 & Q3 & Q4). exists (S k). cbn [rate burnt trained firstn map] in *.
  repeat split; try assumption; [rewrite Q3, <- app_assoc; reflexivity|]. intros H. rewrite (Q4 H). reflexivity.
Qed.
(** One epoch over [relations]: every relation exactly once, in batches of the given size. *)
Definition epoch (bs : nat) (relations : list (nat * nat)) (e : list (list (nat * nat))) : Prop := Permutation (concat e) relations /\ Forall (fun b => 0 < length b <= bs) e /\ Forall (fun b => length b = bs) (removelast e).
Lemma map_nth_seq : forall (l : list (nat * nat)), map (fun i => nth i l (0, 0)) (seq 0 (length l)) = l.
Proof. intros l. apply (nth_ext _ _ (0, 0) (0, 0)); rewrite map_length, seq_length; [reflexivity|]. intros k Hk. rewrite (nth_indep _ (0, 0) (nth 0 l (0, 0))) by (rewrite map_length, seq_length; exact Hk). rewrite (map_nth (fun i => nth i l (0, 0))), seq_nth by exact Hk. reflexivity. Qed.
Lemma epoch_of_shuffle : forall bs relations sh, 0 < bs -> Permutation sh (seq 0 (length relations)) -> epoch bs relations (map (map (fun i => nth i relations (0, 0))) (batches bs sh)).
Proof.
  intros bs relations sh Hb P. destruct (poincare_batches_exact bs sh Hb) as (B1 & B2 & B3). split; [|split].
  - rewrite <- concat_map, B1. rewrite P, map_nth_seq. reflexivity.
  - apply Forall_forall. intros b Hin. apply in_map_iff in Hin. destruct Hin as (c & <- & Hc). rewrite map_length. rewrite Forall_forall in B2. auto.
  - assert (Q : forall (f : list nat -> list (nat * nat)) l, removelast (map f l) = map f (removelast l)) by (clear; intros f l; induction l as [|x [|y l] IH]; [reflexivity | reflexivity|]; cbn [map removelast] in *; rewrite IH; reflexivity).
    rewrite Q. apply Forall_forall. intros b Hin. apply in_map_iff in Hin. destruct Hin as (c & <- & Hc). rewrite map_length. rewrite Forall_forall in B3. auto.
Qed.
Lemma train_epochs_run : forall relations bs pe shs (t : trainer A), exists more, let r := train_epochs fails relations bs pe shs t in
  rate (snd r) = rate t /\ burnt (snd r) = burnt t /\ trained (snd r) = trained t ++ map (pair (rate t)) more /\
  (fst r = Ok tt -> (0 < bs)%Z -> Forall (fun sh => Permutation sh (seq 0 (length relations))) shs -> exists es, more = concat es /\ length es = length shs /\ Forall (epoch (Z.to_nat bs) relations) es).
Proof.
  intros relations bs pe. induction shs as [|sh shs IH]; intros t; [exists []; cbn; rewrite app_nil_r; repeat split; intros; exists []; repeat split; constructor|]. cbn [train_epochs].
  destruct (bs =? 0)%Z eqn:Z0; [exists []; cbn; rewrite app_nil_r; repeat split; discriminate|]. set (bl := map _ _). destruct (train_batches_run pe bl t) as (k & Q1 & Q2 & Q3 & Q4). destruct (train_batches fails pe bl t) as [[[]|e] t1] eqn:T1; cbn [fst snd] in *.
  - destruct (IH t1) as (more & P1 & P2 & P3 & P4). exists (bl ++ more). rewrite P1, P2, P3, Q1, Q2, Q3, (Q4 eq_refl). repeat split; [rewrite map_app, <- app_assoc; reflexivity|].
    intros Ok0 Hb F. inversion F as [|? ? F1 F2]; subst. destruct (P4 Ok0 Hb F2) as (es & -> & Le & Fe). exists (bl :: es). split; [reflexivity|]. split; [cbn; congruence|]. constructor; [|exact Fe]. unfold bl. rewrite (proj2 (Z.ltb_ge _ _)) by lia. apply epoch_of_shuffle; [lia | exact F1].
  - exists (firstn k bl). repeat split; try assumption. discriminate.
Qed.
(** A training call that ends well: burn-in first if there was none, then the epochs; each epoch trains every relation once; the
    learning rate is back to the one for training. *)
Theorem poincare_train_ok : forall workers ta ba relations bs pe bsh sh (t t' : trainer A), (0 < bs)%Z -> Forall (fun s => Permutation s (seq 0 (length relations))) (bsh ++ sh) ->
  train fails workers ta ba relations bs pe bsh sh t = (Ok tt, t') ->
  exists eb et, trained t' = trained t ++ map (pair ba) (concat eb) ++ map (pair ta) (concat et) /\ Forall (epoch (Z.to_nat bs) relations) (eb ++ et) /\
    length eb = (if burnt t then 0 else length bsh) /\ length et = length sh /\ rate t' = ta /\ burnt t' = burnt t || negb (length bsh =? 0).
Proof.
  intros workers ta ba relations bs pe bsh sh t t' Hb F H. apply Forall_app in F. destruct F as [F1 F2]. unfold train in H. destruct (1 <? workers); [discriminate|].
  destruct (negb (length bsh =? 0) && negb (burnt t)) eqn:C.
  - apply andb_true_iff in C. destruct C as [C1 C2]. apply negb_true_iff in C2. destruct (train_epochs_run relations bs pe bsh (mkTrainer ba (burnt t) (trained t))) as (m1 & P1 & P2 & P3 & P4).
    destruct (train_epochs fails relations bs pe bsh (mkTrainer ba (burnt t) (trained t))) as [[[]|e] t1] eqn:T1; [|discriminate]. cbn [fst snd rate burnt trained] in *.
    destruct (P4 eq_refl Hb F1) as (eb & -> & Lb & Eb). destruct (train_epochs_run relations bs pe sh (mkTrainer ta true (trained t1))) as (m2 & R1 & R2 & R3 & R4). rewrite H in *. cbn [fst snd rate burnt trained] in *.
    destruct (R4 eq_refl Hb F2) as (et & -> & Lt & Et). exists eb, et. rewrite R3, P3, <- app_assoc, C2. repeat split; try assumption; [apply Forall_app; split; assumption|]. rewrite R2, C1. reflexivity.
  - destruct (train_epochs_run relations bs pe sh (mkTrainer ta (burnt t) (trained t))) as (m2 & R1 & R2 & R3 & R4). rewrite H in *. cbn [fst snd rate burnt trained] in *. destruct (R4 eq_refl Hb F2) as (et & -> & Lt & Et).
    exists [], et. cbn [concat map app]. rewrite R3. repeat split; try assumption.
    + destruct (burnt t); [reflexivity|]. cbn [negb] in C. rewrite andb_true_r in C. apply negb_false_iff, Nat.eqb_eq in C. rewrite C. reflexivity.
    + rewrite R2. destruct (burnt t); [reflexivity|]. cbn [negb] in C. rewrite andb_true_r in C. rewrite C. reflexivity.
Qed.
(** After the burn-in, no call ever uses its learning rate again, whether it fails or not. *)
Theorem burn_in_once : forall workers ta ba relations bs pe bsh sh (t : trainer A), burnt t = true ->
  let t' := snd (train fails workers ta ba relations bs pe bsh sh t) in burnt t' = true /\ exists more, trained t' = trained t ++ map (pair ta) more.
Proof.
  intros workers ta ba relations bs pe bsh sh t Hb. unfold train. destruct (1 <? workers); [split; [exact Hb | exists []; symmetry; apply app_nil_r]|]. rewrite Hb. cbn [negb]. rewrite andb_false_r.
  destruct (train_epochs_run relations bs pe sh (mkTrainer ta (burnt t) (trained t))) as (m2 & R1 & R2 & R3 & _). rewrite Hb in *. cbn [rate burnt trained] in *. split; [exact R2 | exists m2; exact R3].
Qed.
(** The burn-in counts as done only if all its epochs were trained. *)
Theorem burn_in_complete : forall workers ta ba relations bs pe bsh sh (t : trainer A), burnt t = false -> (0 < bs)%Z -> Forall (fun s => Permutation s (seq 0 (length relations))) bsh ->
  let t' := snd (train fails workers ta ba relations bs pe bsh sh t) in
  burnt t' = true -> exists eb more, trained t' = trained t ++ map (pair ba) (concat eb) ++ map (pair ta) more /\ length eb = length bsh /\ Forall (epoch (Z.to_nat bs) relations) eb.
Proof.
  intros workers ta ba relations bs pe bsh sh t Hb Hz F t' B. subst t'. unfold train in *. destruct (1 <? workers); [cbn [snd] in B; congruence|]. rewrite Hb in *. cbn [negb] in *. rewrite andb_true_r in *. destruct (negb (length bsh =? 0)) eqn:C.
  - destruct (train_epochs_run relations bs pe bsh (mkTrainer ba false (trained t))) as (m1 & P1 & P2 & P3 & P4). destruct (train_epochs fails relations bs pe bsh (mkTrainer ba false (trained t))) as [[[]|e] t1] eqn:T1; cbn [fst snd rate burnt trained] in *; [|congruence].
    destruct (P4 eq_refl Hz F) as (eb & -> & Lb & Eb). destruct (train_epochs_run relations bs pe sh (mkTrainer ta true (trained t1))) as (m2 & R1 & R2 & R3 & _). cbn [rate burnt trained] in *. exists eb, m2. rewrite R3, P3, <- app_assoc. repeat split; assumption.
  - destruct (train_epochs_run relations bs pe sh (mkTrainer ta (burnt t) (trained t))) as (m2 & R1 & R2 & R3 & _). rewrite Hb in *. cbn [burnt] in *. congruence.
Qed.
End Schedule.
Print Assumptions poincare_train_ok.
Print Assumptions burn_in_once.
Print Assumptions burn_in_complete.
(** Two relations, batches of one, one burn-in epoch (rate 1), two training epochs (rate 10). *)
Example train_ex : exists t, train (fun _ _ => None) 1 10 1 [(0, 1); (0, 2)] 1 1000 [[1; 0]] [[0; 1]; [1; 0]] (mkTrainer 10 false []) = (Ok tt, t) /\
  trained t = [(1, [(0, 2)]); (1, [(0, 1)]); (10, [(0, 1)]); (10, [(0, 2)]); (10, [(0, 2)]); (10, [(0, 1)])] /\ rate t = 10 /\ burnt t = true.
Proof. eexists. split; [vm_compute; reflexivity|]. repeat split; reflexivity. Qed.
(** A failure during the burn-in: the learning rate stays, and the next call trains the first batch of the burn-in again. *)
Theorem failed_burn_in_refuted : exists t1 t2, let fails := fun (l : list (nat * list (nat * nat))) _ => if length l =? 1 then Some ValueError else None in
  train fails 1 10 1 [(0, 1); (0, 2)] 1 1000 [[0; 1]] [[0; 1]] (mkTrainer 10 false []) = (Err ValueError, t1) /\ rate t1 = 1 /\
  train (fun _ _ => None) 1 10 1 [(0, 1); (0, 2)] 1 1000 [[0; 1]] [] t1 = (Ok tt, t2) /\ trained t2 = [(1, [(0, 1)]); (1, [(0, 1)]); (1, [(0, 2)])].
Proof. do 2 eexists. split; [vm_compute; reflexivity|]. split; [reflexivity|]. split; [vm_compute; reflexivity | reflexivity]. Qed.
Print Assumptions failed_burn_in_refuted.
(** A negative batch size trains nothing, without an error. *)
Theorem negative_batch_refuted : exists bs t, (bs < 0)%Z /\ train (fun _ _ => None) 1 10 1 [(0, 1); (0, 2)] bs 1000 [] [[0; 1]; [1; 0]] (mkTrainer 10 false []) = (Ok tt, t) /\ trained t = [].
Proof. exists (-1)%Z. eexists. split; [reflexivity|]. split; [vm_compute; reflexivity | reflexivity]. Qed.
Print Assumptions negative_batch_refuted.
