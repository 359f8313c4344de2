(** Theorems about Huffman codes (property C41), for every implementation of the heap. *)

From Coq Require Import Permutation.
From Verif Require Import Base SortFacts Huffman_Model Huffman_Spec Huffman_Proofs Huffman_Proofs2.
From Coq Require Import ZifyBool ZifyNat.
Local Open Scope nat_scope.

(** ** The tree behind the codes *)
Lemma huffman_tree : forall Q counts, heap_contract Q -> counts <> [] -> exists root D,
  assign_binary_codes Q counts = Ok D /\ wf counts root /\ Permutation (ids root) (seq 0 (length counts - 1 + length counts)) /\
  (2 <= length counts -> index root = length counts - 2 + length counts) /\
  (forall ps, Permutation (map fst ps) counts -> feasible ps -> tcost root <= weight_cost ps) /\
  (forall i code pts, dget D i = Some (code, pts) <-> (exists cnt, subtree root code = Some (Leaf cnt i)) /\
     pts = map (fun k => match subtree root (firstn k code) with Some x => index x - length counts | None => 0 end) (seq 0 (length code))).
Proof.
  intros Q counts (ok & Heap & Push & Pop) Ne.
  set (n := length counts). set (h0 := map (fun p => Leaf (snd p) (fst p)) (combine (seq 0 n) counts)).
  destruct (Heap h0) as [O P].
  assert (Ln : n <> 0) by (unfold n; destruct counts; [congruence | discriminate]).
  assert (Lh : length h0 = n) by (unfold h0; rewrite map_length, combine_length, seq_length; fold n; lia).
  assert (Wh : Forall (wf counts) h0).
  { apply Forall_forall. intros t Ht. apply in_map_iff in Ht. destruct Ht as ([i c] & <- & Hc). cbn [fst snd wf].
    apply In_nth_error in Hc. destruct Hc as [k Hk].
    assert (G : forall (l : list nat) s k, nth_error (combine (seq s (length l)) l) k = Some (i, c) -> i = s + k /\ nth_error l k = Some c).
    { clear. induction l as [|x l IH]; intros s k H; [destruct k; discriminate|]. cbn [length seq combine] in H. destruct k as [|k]; cbn in H; [injection H as -> ->; split; [lia | reflexivity]|].
      destruct (IH (S s) k H) as [-> E]. split; [lia | exact E]. }
    destruct (G counts 0 k Hk) as [-> E]. cbn [Nat.add]. split; [apply nth_error_Some; congruence | exact E]. }
  assert (Ih : fids h0 = seq 0 n).
  { unfold fids, h0. rewrite flat_map_concat_map, map_map. cbn [ids fst snd].
    assert (G : forall s l, concat (map (fun p : nat * nat => [fst p]) (combine (seq s (length l)) l)) = seq s (length l)).
    { intros s l. revert s. induction l as [|x l IH]; intros s; [reflexivity|]. cbn [length seq combine map concat app]. f_equal. apply IH. }
    exact (G 0 counts). }
  assert (Ch : map count h0 = counts).
  { unfold h0. rewrite map_map. cbn [count]. clear. unfold n. generalize 0. induction counts as [|x l IH]; intros s; [reflexivity|]. cbn [length seq combine map snd]. f_equal. apply IH. }
  destruct (rounds_ok counts Q ok Push Pop (n - 1) 0 (heapify Q h0) O) as (root & R1 & R2 & R3 & R4 & R5).
  - rewrite (Permutation_length P), Lh. lia.
  - eapply Permutation_Forall; [symmetry; exact P | exact Wh].
  - rewrite (fids_perm _ _ P), Ih. reflexivity.
  - fold n in R1, R3, R4. cbn [Nat.add] in R3, R4.
    assert (Nd : NoDup (ids root)) by (eapply Permutation_NoDup; [symmetry; exact R3 | apply seq_NoDup]).
    exists root, (dsets (entries counts root [] []) []). split; [|split; [exact R2|split; [exact R3|split; [|split]]]].
    + unfold assign_binary_codes, build_heap. fold n. fold h0. rewrite R1. cbn [rbind]. unfold n. rewrite (walk_ok counts).
      * cbn [flat_map fst snd]. rewrite app_nil_r. reflexivity.
      * repeat constructor. exact R2.
      * cbn [map sum fst]. rewrite (entries_size counts) by assumption. rewrite (Permutation_length R3), seq_length. fold n. lia.
    + intros L2. rewrite R4 by lia. lia.
    + intros ps Pp F. etransitivity; [apply (R5 ps)|]; [|exact F|].
      * rewrite Pp, P. rewrite Ch. reflexivity.
      * rewrite (sum_perm _ _ (Permutation_map tcost P)). assert (Z : sum (map tcost h0) = 0); [|rewrite Z; lia].
        unfold h0. rewrite map_map. clear. induction (combine _ _) as [|x l IH]; [reflexivity|]. cbn. rewrite Nat.mul_0_r. exact IH.
    + intros i code pts. rewrite dsets_get.
      * cbn [dget]. rewrite entries_spec. cbn [app]. split.
        -- intros [(cnt & p & E & -> & ->)|[_ X]]; [|discriminate]. split; [exists cnt; exact E | reflexivity].
        -- intros [(cnt & E) ->]. left. exists cnt, code. auto.
      * eapply Permutation_NoDup; [symmetry; apply entries_fst | apply leaves_fst_nodup; exact Nd].
Qed.

Section Codes.
Variables (Q : heapq) (counts : list nat) (D : dict nat (list bool * list nat)).
Hypothesis HQ : heap_contract Q.
Hypothesis HD : assign_binary_codes Q counts = Ok D.
Hypothesis Ne : counts <> [].
Notation n := (length counts).
Notation codes := (codes_of D n).
Notation lengths := (map (@length bool) codes).

Lemma tree_of : exists root, wf counts root /\ Permutation (ids root) (seq 0 (n - 1 + n)) /\ (2 <= n -> index root = n - 2 + n) /\
  (forall ps, Permutation (map fst ps) counts -> feasible ps -> tcost root <= weight_cost ps) /\
  (forall i code pts, dget D i = Some (code, pts) <-> (exists cnt, subtree root code = Some (Leaf cnt i)) /\
     pts = map (fun k => match subtree root (firstn k code) with Some x => index x - n | None => 0 end) (seq 0 (length code))) /\
  (forall i c, nth_error codes i = Some c <-> i < n /\ subtree root c = Some (Leaf (nth i counts 0) i)).
Proof.
  destruct (huffman_tree Q counts HQ Ne) as (root & D' & E & W & P & R & O & G). assert (D' = D) by congruence. subst D'.
  exists root. repeat (split; [assumption|]).
  assert (Nd : NoDup (ids root)) by (eapply Permutation_NoDup; [symmetry; exact P | apply seq_NoDup]).
  intros i c. unfold codes_of. destruct (Nat.lt_ge_cases i n) as [L|L].
  - rewrite nth_error_map. rewrite (nth_error_nth' _ 0) by (rewrite seq_length; exact L). rewrite seq_nth by exact L. cbn [option_map Nat.add].
    assert (Hi : In i (ids root)) by (eapply Permutation_in; [symmetry; exact P | apply in_seq; lia]).
    destruct (ids_subtree root i Hi) as (p & x & Ex & Ei). pose proof (subtree_wf counts p root x W Ex) as Wx.
    destruct x as [cnt j|cnt k l r]; cbn in Ei; [|exfalso; destruct Wx as (_ & Wk & _); lia]. subst j. destruct Wx as [_ Wx].
    assert (Ec : nth i counts 0 = cnt) by (apply nth_error_nth; exact Wx).
    assert (Gi : dget D i = Some (p, map (fun k => match subtree root (firstn k p) with Some x => index x - n | None => 0 end) (seq 0 (length p)))).
    { apply G. split; [exists cnt; exact Ex | reflexivity]. }
    rewrite Gi. rewrite Ec. split; [intros H; injection H as <-; auto|]. intros [_ H]. f_equal. apply (subtree_inj root Nd p c _ _ Ex H). reflexivity.
  - split; [intros H; exfalso; assert (i < length (map (fun i => match dget D i with Some (c0, _) => c0 | None => [] end) (seq 0 n))) by (apply nth_error_Some; congruence); rewrite map_length, seq_length in *; lia | lia].
Qed.

Lemma codes_length : length codes = n.
Proof. unfold codes_of. rewrite map_length, seq_length. reflexivity. Qed.

(** Leaves, in the order of the words. *)
Lemma leaves_perm : forall root, wf counts root -> Permutation (ids root) (seq 0 (n - 1 + n)) ->
  (forall i c, nth_error codes i = Some c <-> i < n /\ subtree root c = Some (Leaf (nth i counts 0) i)) ->
  Permutation (leaves root) (map (fun i => (i, (nth i counts 0, nth i codes []))) (seq 0 n)).
Proof.
  intros root W P C. assert (Nd : NoDup (ids root)) by (eapply Permutation_NoDup; [symmetry; exact P | apply seq_NoDup]).
  apply NoDup_Permutation.
  - eapply NoDup_map_inv. apply leaves_fst_nodup. exact Nd.
  - apply (NoDup_map_inv fst). rewrite map_map. cbn [fst]. rewrite map_id. apply seq_NoDup.
  - intros (i & c & p). rewrite leaves_subtree, in_map_iff. split.
    + intros E. pose proof (subtree_wf counts p root _ W E) as [Wi Wc]. exists i. rewrite in_seq. split; [|lia].
      rewrite (nth_error_nth counts i 0 Wc). rewrite (nth_error_nth codes i [] (x := p)); [reflexivity|]. apply C. split; [exact Wi|]. rewrite (nth_error_nth counts i 0 Wc). exact E.
    + intros (j & E & Hj). injection E as <- <- <-. apply in_seq in Hj. apply C. apply nth_error_nth'. rewrite codes_length. lia.
Qed.
Lemma map_nth_seq : forall {X} (d : X) l, map (fun i => nth i l d) (seq 0 (length l)) = l.
Proof.
  intros X d l. induction l as [|x l IH]; [reflexivity|]. cbn [length seq map nth]. f_equal. rewrite <- seq_shift, map_map. exact IH.
Qed.
Lemma combine_map_seq : forall (l : list nat) (l' : list (list bool)), length l' = length l ->
  combine l (map (@length bool) l') = map (fun i => (nth i l 0, length (nth i l' []))) (seq 0 (length l)).
Proof.
  induction l as [|x l IH]; intros [|y l'] E; try discriminate; [reflexivity|]. cbn [length seq map combine nth]. f_equal.
  rewrite <- seq_shift, map_map. apply IH. cbn in E. lia.
Qed.

Lemma codes_prefix_free_ : prefix_free codes.
Proof.
  destruct tree_of as (root & W & P & _ & _ & _ & C). intros i j c c' Hi Hj [s ->]. apply C in Hi. apply C in Hj. destruct Hi as [Li Hi], Hj as [Lj Hj].
  rewrite subtree_app, Hi in Hj. destruct s; cbn in Hj; [congruence | discriminate].
Qed.
Lemma codes_complete_ : forall M, Forall (fun l => l <= M) lengths -> kraft M lengths = 2 ^ M.
Proof.
  intros M H. destruct tree_of as (root & W & P & _ & _ & _ & C). pose proof (leaves_perm root W P C) as L.
  assert (E : Permutation (map (fun e => length (snd (snd e))) (leaves root)) lengths).
  { rewrite L, map_map. cbn [snd]. rewrite <- (map_map (fun i => nth i codes []) (@length bool)). rewrite <- codes_length at 1. rewrite map_nth_seq. reflexivity. }
  rewrite <- (kraft_perm M _ _ E). apply leaves_kraft. eapply Permutation_Forall; [symmetry; exact E | exact H].
Qed.
Lemma tcost_codes : forall root, Permutation (leaves root) (map (fun i => (i, (nth i counts 0, nth i codes []))) (seq 0 n)) -> tcost root = weight_cost (combine counts lengths).
Proof.
  intros root L. unfold tcost. rewrite (sum_perm _ _ (Permutation_map _ L)), map_map. cbn [fst snd]. unfold weight_cost.
  rewrite (combine_map_seq counts codes codes_length), map_map. reflexivity.
Qed.
Lemma map_fst_combine : forall {X Y} (l : list X) (l' : list Y), length l' = length l -> map fst (combine l l') = l.
Proof. induction l as [|x l IH]; intros [|y l'] E; try discriminate; [reflexivity|]. cbn. f_equal. apply IH. cbn in E. lia. Qed.
Lemma map_snd_combine : forall {X Y} (l : list X) (l' : list Y), length l' = length l -> map snd (combine l l') = l'.
Proof. induction l as [|x l IH]; intros [|y l'] E; try discriminate; [reflexivity|]. cbn. f_equal. apply IH. cbn in E. lia. Qed.

Lemma codes_optimal_lengths : forall ps, Permutation (map fst ps) counts -> feasible ps -> cost counts lengths <= weight_cost ps.
Proof.
  intros ps Pp F. destruct tree_of as (root & W & P & _ & O & _ & C). pose proof (leaves_perm root W P C) as L.
  unfold cost. fold (weight_cost (combine counts lengths)). rewrite <- (tcost_codes root L). apply O; assumption.
Qed.
Lemma feasible_codes : forall cs : list (list bool), length cs = n -> prefix_free cs -> feasible (combine counts (map (@length bool) cs)).
Proof.
  intros cs L P. set (M := fold_right Nat.max 0 (map (@length bool) cs)).
  assert (HM : Forall (fun c => length c <= M) cs).
  { unfold M. clear. induction cs as [|c cs IH]; [constructor|]. cbn [map fold_right]. constructor; [lia|]. eapply Forall_impl; [|exact IH]. cbv beta. intros; lia. }
  exists M. split.
  - rewrite snd_le, map_snd_combine by (rewrite map_length; exact L). intros l Hl. apply in_map_iff in Hl. destruct Hl as (c & <- & Hc). rewrite Forall_forall in HM. auto.
  - rewrite map_snd_combine by (rewrite map_length; exact L). apply kraft_le; [apply prefix_free_pfree; exact P | exact HM].
Qed.
Lemma codes_optimal_ : forall cs : list (list bool), length cs = n -> prefix_free cs -> cost counts lengths <= cost counts (map (@length bool) cs).
Proof.
  intros cs L P. apply (codes_optimal_lengths (combine counts (map (@length bool) cs))); [|apply feasible_codes; assumption].
  rewrite map_fst_combine by (rewrite map_length; exact L). reflexivity.
Qed.

Lemma codes_frequent_ : forall i j c c', nth_error codes i = Some c -> nth_error codes j = Some c' -> nth j counts 0 < nth i counts 0 -> length c <= length c'.
Proof.
  intros i j c c' Hi Hj Lt.
  assert (Li : i < n) by (rewrite <- codes_length; apply nth_error_Some; congruence).
  assert (Lj : j < n) by (rewrite <- codes_length; apply nth_error_Some; congruence).
  assert (Nij : i <> j) by (intros ->; lia).
  assert (Ps : exists rest, Permutation (seq 0 n) (i :: j :: rest)).
  { destruct (In_perm i (seq 0 n)) as [r1 P1]; [apply in_seq; lia|]. destruct (In_perm j r1) as [r2 P2].
    - assert (X : In j (i :: r1)) by (eapply Permutation_in; [exact P1 | apply in_seq; lia]). destruct X; [congruence | assumption].
    - exists r2. rewrite P1, P2. reflexivity. }
  destruct Ps as [rest Ps]. set (e := fun k => (nth k counts 0, length (nth k codes []))).
  assert (Pe : Permutation (combine counts lengths) (e i :: e j :: map e rest)).
  { rewrite (combine_map_seq counts codes codes_length). rewrite Ps. reflexivity. }
  set (ps := (fst (e i), snd (e j)) :: (fst (e j), snd (e i)) :: map e rest).
  assert (X : cost counts lengths <= weight_cost ps).
  { apply codes_optimal_lengths.
    - transitivity (map fst (combine counts lengths)); [rewrite Pe; reflexivity|]. rewrite map_fst_combine by (rewrite map_length; apply codes_length). reflexivity.
    - apply (feasible_lengths (combine counts lengths)); [rewrite Pe; cbn [map snd ps]; apply perm_swap|]. apply feasible_codes; [apply codes_length | apply codes_prefix_free_]. }
  unfold cost in X. fold (weight_cost (combine counts lengths)) in X. rewrite (weight_cost_perm _ _ Pe) in X.
  unfold weight_cost, ps in X. cbn [map sum fst snd e] in X.
  rewrite (nth_error_nth codes i [] Hi), (nth_error_nth codes j [] Hj) in X. nia.
Qed.

Lemma codes_points_ : exists node : list bool -> nat,
  (forall i c pts, dget D i = Some (c, pts) -> pts = map (fun k => node (firstn k c)) (seq 0 (length c))) /\
  (forall p, inner_path codes p -> node p < n - 1) /\
  (forall p q, inner_path codes p -> inner_path codes q -> node p = node q -> p = q) /\
  (forall v, v < n - 1 -> exists p, inner_path codes p /\ node p = v) /\
  (forall p b, inner_path codes (p ++ [b]) -> node (p ++ [b]) < node p) /\
  (2 <= n -> inner_path codes [] /\ node [] = n - 2).
Proof.
  destruct tree_of as (root & W & P & R & _ & G & C). assert (Nd : NoDup (ids root)) by (eapply Permutation_NoDup; [symmetry; exact P | apply seq_NoDup]).
  exists (fun p => match subtree root p with Some x => index x - n | None => 0 end).
  assert (Inn : forall p, inner_path codes p <-> exists c k l r, subtree root p = Some (Node c k l r)).
  { intros p. split.
    - intros (c & b & s & Hc & ->). apply In_nth_error in Hc. destruct Hc as [i Hi]. apply C in Hi. destruct Hi as [_ Hi]. rewrite subtree_app in Hi.
      destruct (subtree root p) as [x|] eqn:E; [|discriminate]. destruct x as [|c k l r]; [discriminate|]. eauto.
    - intros (c & k & l & r & E).
      assert (Lf : forall t, exists q cnt i, subtree t q = Some (Leaf cnt i)).
      { clear. induction t as [c i|c k l IHl r IHr]; [exists [], c, i; reflexivity|]. destruct IHl as (q & cnt & i & E). exists (false :: q), cnt, i. exact E. }
      destruct (Lf l) as (q & cnt & i & El). assert (Ef : subtree root (p ++ false :: q) = Some (Leaf cnt i)) by (rewrite subtree_app, E; exact El).
      pose proof (subtree_wf counts _ root _ W Ef) as [Wi Wc]. exists (p ++ false :: q), false, q. split; [|reflexivity].
      apply (nth_error_In _ i). apply C. split; [exact Wi|]. rewrite (nth_error_nth counts i 0 Wc). exact Ef. }
  split; [|split; [|split; [|split; [|split]]]].
  - intros i c pts H. apply G in H. apply (proj2 H).
  - intros p Hp. apply Inn in Hp. destruct Hp as (c & k & l & r & E). rewrite E. cbn [index].
    pose proof (subtree_wf counts _ root _ W E) as (_ & Wk & _).
    assert (Hk : In k (ids root)) by (apply (subtree_ids _ _ _ E); left; reflexivity). eapply Permutation_in in Hk; [|exact P]. apply in_seq in Hk. lia.
  - intros p q Hp Hq. apply Inn in Hp, Hq. destruct Hp as (c & k & l & r & E), Hq as (c' & k' & l' & r' & E'). rewrite E, E'. cbn [index]. intros Eq.
    pose proof (subtree_wf counts _ root _ W E) as (_ & Wk & _). pose proof (subtree_wf counts _ root _ W E') as (_ & Wk' & _).
    apply (subtree_inj root Nd p q _ _ E E'). cbn. lia.
  - intros v Hv. assert (Hi : In (v + n) (ids root)) by (eapply Permutation_in; [symmetry; exact P | apply in_seq; lia]).
    destruct (ids_subtree root _ Hi) as (p & x & E & Ex). pose proof (subtree_wf counts p root x W E) as Wx.
    destruct x as [c i|c k l r]; [exfalso; destruct Wx as [Wx _]; cbn in Ex; lia|]. exists p. rewrite Inn, E. split; [eauto|]. rewrite Ex. lia.
  - intros p b Hp. apply Inn in Hp. destruct Hp as (c & k & l & r & E). rewrite E. pose proof (subtree_wf counts _ root _ W E) as (_ & Wk & _).
    rewrite subtree_app in E. destruct (subtree root p) as [x|] eqn:Ep; [|discriminate]. destruct x as [|c' k' l' r']; [discriminate|].
    pose proof (subtree_wf counts _ root _ W Ep) as (_ & _ & Wl & Wr & _). cbn in E. cbn [index] in *.
    destruct b; rewrite subtree_nil in E; injection E as ->; cbn [index] in *; lia.
  - intros L. specialize (R L). rewrite Inn, subtree_nil. split; [|lia].
    destruct root as [c i|c k l r]; [exfalso; destruct W as [W _]; cbn in R; lia|]. eauto.
Qed.
End Codes.

(** ** Theorems *)

(** Every word gets a code. *)
Theorem huffman_total : forall Q counts, heap_contract Q ->
  exists D, assign_binary_codes Q counts = Ok D /\ forall i, dget D i <> None <-> i < length counts.
Proof.
  intros Q counts H. destruct counts as [|c0 cs] eqn:Ec.
  - destruct H as (ok & Heap & _). destruct (Heap []) as [_ P]. apply Permutation_sym, Permutation_nil in P.
    exists []. unfold assign_binary_codes, build_heap. cbn [length seq combine map Nat.sub merge_rounds]. rewrite P. cbn. split; [reflexivity|]. intros i. split; [congruence | lia].
  - assert (Ne : c0 :: cs <> []) by discriminate. destruct (huffman_tree Q (c0 :: cs) H Ne) as (root & D & E & W & P & _ & _ & G). exists D. split; [exact E|].
    intros i. split.
    + intros X. destruct (dget D i) as [[c pts]|] eqn:Ed; [|congruence]. apply G in Ed. destruct Ed as [(cnt & Es) _]. apply (subtree_wf _ _ _ _ W Es).
    + intros L. assert (Hi : In i (ids root)) by (eapply Permutation_in; [symmetry; exact P | apply in_seq; lia]).
      destruct (ids_subtree root i Hi) as (p & x & Ex & Ei). pose proof (subtree_wf _ p root x W Ex) as Wx.
      destruct x as [cnt j|cnt k l r]; cbn in Ei; [|exfalso; destruct Wx as (_ & Wk & _); lia]. subst j.
      assert (Gi := proj2 (G i p _) (conj (ex_intro _ cnt Ex) eq_refl)). rewrite Gi. discriminate.
Qed.
Print Assumptions huffman_total.

(** The codes are prefix-free, complete (the Kraft sum is exactly 1) and no prefix code is shorter on the whole. *)
Theorem huffman_codes : forall Q counts D, heap_contract Q -> assign_binary_codes Q counts = Ok D -> counts <> [] ->
  let codes := codes_of D (length counts) in let lengths := map (@length bool) codes in
  prefix_free codes /\
  (forall M, Forall (fun l => l <= M) lengths -> kraft M lengths = 2 ^ M) /\
  (forall codes', length codes' = length counts -> prefix_free codes' -> cost counts lengths <= cost counts (map (@length bool) codes')).
Proof.
  intros Q counts D H E Ne codes lengths. split; [apply (codes_prefix_free_ Q counts D H E Ne)|].
  split; [apply (codes_complete_ Q counts D H E Ne) | apply (codes_optimal_ Q counts D H E Ne)].
Qed.
Print Assumptions huffman_codes.

(** A more frequent word has no longer code. *)
Theorem huffman_frequent : forall Q counts D, heap_contract Q -> assign_binary_codes Q counts = Ok D ->
  forall i j c c', nth_error (codes_of D (length counts)) i = Some c -> nth_error (codes_of D (length counts)) j = Some c' ->
  nth j counts 0 < nth i counts 0 -> length c <= length c'.
Proof.
  intros Q counts D H E i j c c' Hi Hj L. apply (codes_frequent_ Q counts D H E) with (i := i) (j := j); try assumption.
  intros ->. destruct i; discriminate.
Qed.
Print Assumptions huffman_frequent.

(** Points: there is one number below [n - 1] for each inner node of the code tree; the points of a word are the numbers of
    the nodes on its path, from the root, which has number [n - 2], in decreasing order. *)
Theorem huffman_points : forall Q counts D, heap_contract Q -> assign_binary_codes Q counts = Ok D -> counts <> [] ->
  let n := length counts in let codes := codes_of D n in
  exists node : list bool -> nat,
  (forall i c pts, dget D i = Some (c, pts) -> pts = map (fun k => node (firstn k c)) (seq 0 (length c))) /\
  (forall p, inner_path codes p -> node p < n - 1) /\
  (forall p q, inner_path codes p -> inner_path codes q -> node p = node q -> p = q) /\
  (forall v, v < n - 1 -> exists p, inner_path codes p /\ node p = v) /\
  (forall p b, inner_path codes (p ++ [b]) -> node (p ++ [b]) < node p) /\
  (2 <= n -> inner_path codes [] /\ node [] = n - 2).
Proof. intros Q counts D H E Ne. apply (codes_points_ Q counts D H E Ne). Qed.
Print Assumptions huffman_points.

(** ** Example: heaps as sorted lists *)
Definition item_le (x y : item) : bool := count x <=? count y.
Definition sorted_heap : heapq := {|
  heapify := isort item_le;
  heappop := fun h => match h with [] => Err IndexError | x :: r => Ok (x, r) end;
  heappush := fun h x => isort item_le (x :: h)
|}.
Theorem sorted_heap_ok : heap_contract sorted_heap.
Proof.
  exists (fun h => StronglySorted (fun x y => count x <= count y) h). cbn.
  assert (S : forall l, StronglySorted (fun x y => count x <= count y) (isort item_le l)).
  { intros l. assert (X : StronglySorted (fun x y => item_le x y = true) (isort item_le l)).
    { apply isort_StronglySorted; unfold item_le; intros; lia. }
    induction X; constructor; [assumption|]. eapply Forall_impl; [|eassumption]. unfold item_le. cbv beta. intros; lia. }
  split; [|split].
  - intros l. split; [apply S | symmetry; apply Permutation_isort].
  - intros h x _. split; [apply (S (x :: h)) | symmetry; apply (Permutation_isort item_le (x :: h))].
  - intros h O Ne. destruct h as [|x r]; [congruence|]. exists x, r. inversion O; subst. auto.
Qed.
Definition ex_counts := [5; 2; 1; 1; 3; 2].
Example huffman_one : assign_binary_codes sorted_heap [7] = Ok [(0, ([], []))] /\ assign_binary_codes sorted_heap [] = Ok [].
Proof. vm_compute. auto. Qed.
Example huffman_ex : exists D, assign_binary_codes sorted_heap ex_counts = Ok D /\
  map (@length bool) (codes_of D 6) = [1; 3; 4; 4; 3; 3] /\
  dget D 2 = Some ([true; false; false; false], [4; 3; 1; 0]) /\ cost ex_counts [1; 3; 4; 4; 3; 3] = 34 /\ kraft 4 [1; 3; 4; 4; 3; 3] = 16.
Proof. eexists. split; [vm_compute; reflexivity|]. vm_compute. auto. Qed.
