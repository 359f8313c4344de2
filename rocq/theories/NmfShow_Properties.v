(** The topics that a non-negative matrix factorization shows. *)
From Coq Require Import QArith Lqa.
From Verif Require Import Base Str SortFacts Matutils_Model Matutils_Proofs2 Matutils_Properties ShardedCorpus_Model LdaTrain_Model ShowTopics_Model ShowTopics_Properties NmfShow_Model.
Close Scope Q_scope.
Local Open Scope nat_scope.

(** ** Spec *)
(** the share of words without weight *)
Definition without_weight (topic : list Q) : Q := (inject_Z (Z.of_nat (length (filter (fun x => Qeq_bool x 0%Q) topic))) / inject_Z (Z.of_nat (length topic)))%Q.
Definition less_sparse (wt : list (list Q)) (i j : nat) : Prop := (without_weight (nth i wt []) <= without_weight (nth j wt []))%Q.
(** the words of topic [t], heaviest first, with their weights or shares *)
Definition best_words (name : nat -> pystr) (normalize : bool) (row : list Q) (num_words : Z) (l : list (pystr * Q)) : Prop :=
  exists ids, greatest (weight row) (length row) (Z.to_nat num_words) ids /\
  Forall2 (fun i wv => fst wv = name i /\ (snd wv == if normalize then weight row i / total row else weight row i)%Q) ids l.

(** ** Proofs *)
Lemma length_normal : forall b t, length (normal b t) = length t.
Proof. intros [|] t; [apply map_length | reflexivity]. Qed.
Lemma weight_normal : forall b row i, i < length row -> (weight (normal b row) i == if b then weight row i / total row else weight row i)%Q.
Proof. intros [|] row i H; [|reflexivity]. unfold normal. rewrite weight_map by exact H. rewrite (qsum_total row). reflexivity. Qed.
Lemma listed_best : forall f g id2word name b row num_words, argsort_contract f -> argpartition_contract g -> named id2word name (length row) -> (0 < total row)%Q ->
  exists l, listed f g id2word (normal b row) num_words = Ok l /\ best_words name b row num_words l.
Proof.
  intros f g id2word name b row num_words Hf Hg Hn Hp. pose proof (argsort_greatest f g Hf Hg (normal b row) num_words) as G. rewrite length_normal in G. destruct G as (G1 & G2 & G3 & G4 & G5).
  eexists. split.
  - unfold listed. apply (named_rmapM id2word name (length row) _ (fun i w => (w, nth i (normal b row) 0%Q)) Hn G3).
  - exists (argsort f g (normal b row) (Some num_words) true). split.
    + apply (greatest_ext (weight (normal b row))); [|split; [exact G1|]; split; [exact G2|]; split; [exact G3|]; split; assumption].
      intros i j Hi Hj. rewrite (weight_normal b row i Hi), (weight_normal b row j Hj). destruct b; [|auto]. intros HL. apply (Qmult_le_r _ _ (/ total row)); [apply Qinv_lt_0_compat; exact Hp | exact HL].
    + revert G3. clear - Hp. generalize (argsort f g (normal b row) (Some num_words) true). induction l as [|i l IH]; intros B; constructor; [|apply IH; intros; apply B; right; assumption].
      split; [reflexivity|]. cbn [snd]. apply weight_normal, B. left; reflexivity.
Qed.
Lemma rmapM_shown {A B} : forall (h : A -> result B) l, (forall x, In x l -> exists y, h x = Ok y) -> exists ys, rmapM h l = Ok ys /\ Forall2 (fun x y => h x = Ok y) l ys.
Proof.
  induction l as [|x l IH]; intros H; [exists []; split; [reflexivity | constructor]|]. destruct (H x (or_introl eq_refl)) as [y E]. destruct IH as (ys & E2 & F); [intros; apply H; right; assumption|].
  exists (y :: ys). split; [cbn; rewrite E; cbn; rewrite E2; reflexivity | constructor; assumption].
Qed.
Definition all_named (id2word : dict nat pystr) (name : nat -> pystr) (wt : list (list Q)) : Prop := forall t, In t wt -> named id2word name (length t) /\ (0 < total t)%Q.
(** Whatever the chosen topics, what is listed for them. *)
Lemma show_entries : forall f g id2word name self wt num_topics num_words normalize, argsort_contract f -> argpartition_contract g -> all_named id2word name wt ->
  (forall i, In i (chosen_topics (length wt) num_topics (argsort f g (map sparsity wt) None false)) -> i < length wt) ->
  exists shown, nmf_show_topics f g id2word self wt num_topics num_words normalize = Ok shown /\
  map fst shown = chosen_topics (length wt) num_topics (argsort f g (map sparsity wt) None false) /\
  forall i l, In (i, l) shown -> exists row, nth_error wt i = Some row /\ best_words name (match normalize with None => self | Some b => b end) row num_words l.
Proof.
  intros f g id2word name self wt num_topics num_words normalize Hf Hg Hn Hc. unfold nmf_show_topics. set (b := match normalize with None => self | Some b => b end). set (ch := chosen_topics _ _ _) in *.
  set (h := fun i => let* topic := of_option IndexError (nth_error (map (normal b) wt) i) in let* l := listed f g id2word topic num_words in Ok (i, l)).
  assert (E : forall i, In i ch -> exists row l, nth_error wt i = Some row /\ h i = Ok (i, l) /\ best_words name b row num_words l).
  { intros i Hi. destruct (nth_error wt i) as [row|] eqn:N; [|apply nth_error_None in N; specialize (Hc i Hi); lia]. destruct (Hn row (nth_error_In _ _ N)) as [N1 N2].
    destruct (listed_best f g id2word name b row num_words Hf Hg N1 N2) as (l & A & B). exists row, l. split; [reflexivity|]. split; [|exact B]. unfold h. rewrite nth_error_map, N. cbn [option_map of_option rbind]. rewrite A. reflexivity. }
  destruct (rmapM_shown h ch) as (shown & A & F); [intros i Hi; destruct (E i Hi) as (row & l & _ & X & _); eauto|]. exists shown. split; [exact A|].
  clear A. revert E. generalize ch F. clear. intros ch F. induction F as [|i y ch shown H F IH]; intros E; [split; [reflexivity | intros i l []]|].
  destruct IH as [I1 I2]; [intros j Hj; apply E; right; exact Hj|]. destruct (E i (or_introl eq_refl)) as (row & l & N & X & B). rewrite H in X. injection X as ->. split; [cbn [map fst]; f_equal; exact I1|].
  intros j l' [Y|Hj]; [injection Y as <- <-; eauto | apply I2, Hj].
Qed.
(** All topics, in their order. *)
Theorem nmf_show_all : forall f g id2word name self wt num_topics num_words normalize, argsort_contract f -> argpartition_contract g -> all_named id2word name wt ->
  (num_topics < 0 \/ Z.of_nat (length wt) <= num_topics)%Z ->
  exists shown, nmf_show_topics f g id2word self wt num_topics num_words normalize = Ok shown /\ map fst shown = seq 0 (length wt) /\
  forall i l, In (i, l) shown -> exists row, nth_error wt i = Some row /\ best_words name (match normalize with None => self | Some b => b end) row num_words l.
Proof.
  intros f g id2word name self wt num_topics num_words normalize Hf Hg Hn Hk.
  assert (C : chosen_topics (length wt) num_topics (argsort f g (map sparsity wt) None false) = seq 0 (length wt)).
  { unfold chosen_topics. destruct (Z.ltb_spec num_topics 0); [reflexivity|]. destruct (Z.leb_spec (Z.of_nat (length wt)) num_topics); [reflexivity | lia]. }
  destruct (show_entries f g id2word name self wt num_topics num_words normalize Hf Hg Hn) as (shown & A & B & D); [rewrite C; intros i Hi; apply in_seq in Hi; lia|]. exists shown. rewrite C in B. auto.
Qed.
Print Assumptions nmf_show_all.
Lemma skipn_more {A} : forall (l : list A) a b, skipn a (skipn b l) = skipn (a + b) l.
Proof. induction l as [|x l IH]; intros a b; [rewrite !skipn_nil; reflexivity|]. destruct b as [|b]; [rewrite Nat.add_0_r; reflexivity|]. rewrite Nat.add_succ_r. cbn [skipn]. apply IH. Qed.
Lemma NoDup_right {A} : forall (l l' : list A), NoDup (l ++ l') -> NoDup l'.
Proof. induction l as [|x l IH]; intros l' H; [exact H|]. inversion H; subst. apply IH. assumption. Qed.
Lemma sorted_app {A} : forall (R : A -> A -> Prop) l l', StronglySorted R l -> StronglySorted R l' -> (forall x y, In x l -> In y l' -> R x y) -> StronglySorted R (l ++ l').
Proof.
  intros R. induction l as [|x l IH]; intros l' H H' C; [exact H'|]. inversion H as [|? ? H1 H2]; subst. cbn [app]. constructor; [apply IH; [assumption | assumption | intros a b Ha Hb; apply C; [right|]; assumption]|].
  apply Forall_app. split; [exact H2|]. apply Forall_forall. intros y Hy. apply C; [left; reflexivity | exact Hy].
Qed.
(** Some topics: half of them the least sparse, half the sparsest, as many as asked for and none of them twice. *)
Theorem nmf_show_some : forall f g id2word name self wt n num_words normalize, argsort_contract f -> argpartition_contract g -> all_named id2word name wt -> 0 < n < length wt ->
  exists shown low high, nmf_show_topics f g id2word self wt (Z.of_nat n) num_words normalize = Ok shown /\ map fst shown = low ++ high /\
  length low = Nat.div n 2 /\ length low + length high = n /\ NoDup (low ++ high) /\ (forall i, In i (low ++ high) -> i < length wt) /\ StronglySorted (less_sparse wt) (low ++ high) /\
  (forall i j, In i low -> j < length wt -> ~ In j (low ++ high) -> less_sparse wt i j) /\ (forall i j, In i high -> j < length wt -> ~ In j (low ++ high) -> less_sparse wt j i) /\
  forall i l, In (i, l) shown -> exists row, nth_error wt i = Some row /\ best_words name (match normalize with None => self | Some b => b end) row num_words l.
Proof.
  intros f g id2word name self wt n num_words normalize Hf Hg Hn Hk. set (order := argsort f g (map sparsity wt) None false).
  destruct (argsort_is_topn f g Hf Hg (map sparsity wt) None false) as (L & ND & Bd & So & _). fold order in L, ND, Bd, So. cbv beta iota in So. rewrite map_length in L, Bd. rewrite Nat.min_id in L.
  assert (S2 : StronglySorted (less_sparse wt) order).
  { refine (StronglySorted_impl_in _ _ _ _ So). intros a b Ha Hb X. unfold less_sparse. assert (V : forall k, k < length wt -> nth k (map sparsity wt) 0%Q = without_weight (nth k wt [])).
    { intros k Hk'. rewrite (nth_indep _ 0%Q (sparsity [])) by (rewrite map_length; exact Hk'). rewrite map_nth. reflexivity. }
    rewrite <- (V a (Bd a Ha)), <- (V b (Bd b Hb)). exact X. }
  set (h := Nat.div n 2). set (m := length wt - (n - h)). assert (Hh : h <= n) by (unfold h; apply Nat.div_le_upper_bound; lia).
  assert (C : chosen_topics (length wt) (Z.of_nat n) order = firstn h order ++ skipn m order).
  { unfold chosen_topics. destruct (Z.ltb_spec (Z.of_nat n) 0); [lia|]. destruct (Z.leb_spec (Z.of_nat (length wt)) (Z.of_nat n)); [lia|]. cbn [orb]. rewrite Z.min_l by lia.
    assert (D1 : (Z.of_nat n / 2 = Z.of_nat h)%Z) by (unfold h; rewrite Nat2Z.inj_div; reflexivity). assert (D2 : (- Z.of_nat n / 2 = - (Z.of_nat n - Z.of_nat h))%Z).
    { rewrite <- D1. pose proof (Z.div_mod (Z.of_nat n) 2 ltac:(lia)). pose proof (Z.mod_pos_bound (Z.of_nat n) 2 ltac:(lia)). pose proof (Z.div_mod (- Z.of_nat n) 2 ltac:(lia)). pose proof (Z.mod_pos_bound (- Z.of_nat n) 2 ltac:(lia)). lia. }
    rewrite D1, D2, Nat2Z.id. assert (h < n) by (unfold h; apply Nat.div_lt; lia). destruct (Z.ltb_spec (- (Z.of_nat n - Z.of_nat h)) 0); [|lia]. f_equal. f_equal. rewrite L. unfold m. lia. }
  assert (Hm : h <= m) by (unfold m; lia). set (low := firstn h order). set (high := skipn m order). set (mid := firstn (m - h) (skipn h order)).
  assert (Sp : order = low ++ mid ++ high). { unfold low, mid, high. rewrite <- (firstn_skipn h order) at 1. f_equal. rewrite <- (firstn_skipn (m - h) (skipn h order)) at 1. f_equal. rewrite skipn_more. f_equal. lia. }
  assert (P : Permutation order (mid ++ low ++ high)) by (rewrite Sp, !app_assoc; apply Permutation_app_tail, Permutation_app_comm).
  assert (InA : forall i, In i (low ++ high) -> In i order) by (intros i Hi; apply (Permutation_in i (Permutation_sym P)), in_or_app; right; exact Hi).
  destruct (show_entries f g id2word name self wt (Z.of_nat n) num_words normalize Hf Hg Hn) as (shown & A & B & D); [fold order; rewrite C; intros i Hi; apply Bd, InA, Hi|].
  fold order in B. rewrite C in B. exists shown, low, high. split; [exact A|]. split; [exact B|]. split; [unfold low; rewrite firstn_length, L; lia|]. split; [unfold low, high; rewrite firstn_length, skipn_length, L; unfold m; lia|].
  assert (N2 : NoDup (mid ++ low ++ high)) by (apply (Permutation_NoDup P), ND). split; [apply NoDup_right in N2; exact N2|].
  split; [intros i Hi; apply Bd, InA, Hi|]. rewrite Sp in S2. apply StronglySorted_app_inv in S2. destruct S2 as (Sl & Sr & X1). apply StronglySorted_app_inv in Sr. destruct Sr as (Sm & Sh & X2).
  assert (Mid : forall j, j < length wt -> ~ In j (low ++ high) -> In j mid).
  { intros j Hj Nj. assert (Ij : In j order). { apply (NoDup_length_incl ND (l' := seq 0 (length wt))); [rewrite seq_length; lia | intros k Hk'; apply in_seq; specialize (Bd k Hk'); lia | apply in_seq; lia]. }
    apply (Permutation_in j P) in Ij. apply in_app_or in Ij. destruct Ij as [Ij|Ij]; [exact Ij | contradiction]. }
  split; [apply sorted_app; [exact Sl | exact Sh | intros x y Hx Hy; apply X1; [exact Hx | apply in_or_app; right; exact Hy]]|].
  split; [intros i j Hi Hj Nj; apply X1; [exact Hi | apply in_or_app; left; apply Mid; assumption]|].
  split; [intros i j Hi Hj Nj; apply X2; [apply Mid; assumption | exact Hi] | exact D].
Qed.
Print Assumptions nmf_show_some.
(** One topic: what is listed for it among all topics, and the topic in the model becomes what was listed. *)
Theorem nmf_show_one : forall f g id2word name self wt t row topn normalize, argsort_contract f -> argpartition_contract g -> all_named id2word name wt -> nth_error wt t = Some row ->
  exists wt' l shown, nmf_show_topic f g id2word self wt t topn normalize = (wt', Ok l) /\ best_words name (match normalize with None => self | Some b => b end) row topn l /\
  nmf_show_topics f g id2word self wt (-1) topn normalize = Ok shown /\ nth_error shown t = Some (t, l) /\
  length wt' = length wt /\ (forall k, k <> t -> nth_error wt' k = nth_error wt k) /\
  exists row', nth_error wt' t = Some row' /\ length row' = length row /\
    forall i, i < length row -> (weight row' i == if match normalize with None => self | Some b => b end then weight row i / total row else weight row i)%Q.
Proof.
  intros f g id2word name self wt t row topn normalize Hf Hg Hn N. set (b := match normalize with None => self | Some b => b end). destruct (Hn row (nth_error_In _ _ N)) as [N1 N2].
  destruct (listed_best f g id2word name b row topn Hf Hg N1 N2) as (l & A & B). destruct (nmf_show_all f g id2word name self wt (-1) topn normalize Hf Hg Hn) as (shown & C & D & _); [left; lia|].
  exists (list_set wt t (normal b row)), l, shown. assert (G : forall i, In i (argsort f g (normal b row) (Some topn) true) -> i < length row).
  { destruct (argsort_greatest f g Hf Hg (normal b row) topn) as (_ & _ & G3 & _). rewrite length_normal in G3. exact G3. }
  split; [|split; [exact B|]; split; [exact C|]; split; [|split; [|split]]].
  - unfold nmf_show_topic, nmf_topic_terms. fold b. rewrite N. cbv iota. f_equal. cbn [rbind]. rewrite <- A. unfold listed.
    revert G. generalize (argsort f g (normal b row) (Some topn) true). induction l0 as [|i l0 IH]; intros G; [reflexivity|]. cbn [map rmapM fst snd]. rewrite IH by (intros; apply G; right; assumption). reflexivity.
  - unfold nmf_show_topics in C. fold b in C. assert (CH : chosen_topics (length wt) (-1) (argsort f g (map sparsity wt) None false) = seq 0 (length wt)) by reflexivity. rewrite CH in C.
    assert (Lt : t < length wt) by (apply nth_error_Some; congruence).
    assert (R : forall (h : nat -> result (nat * list (pystr * Q))) l ys k x, rmapM h l = Ok ys -> nth_error l k = Some x -> exists y, nth_error ys k = Some y /\ h x = Ok y).
    { clear. induction l as [|x0 l IH]; intros ys k x H K; [destruct k; discriminate K|]. cbn [rmapM] in H. destruct (h x0) as [y0|] eqn:E0; [|discriminate H]. cbn [rbind] in H. destruct (rmapM h l) as [ys0|] eqn:E1; [|discriminate H]. cbn [rbind] in H. injection H as <-.
      destruct k as [|k]; [cbn [nth_error] in K; injection K as <-; exists y0; split; [reflexivity | exact E0] | apply (IH ys0 k x eq_refl K)]. }
    destruct (R _ _ _ t t C) as (y & Y1 & Y2); [rewrite nth_error_nth' with (d := 0) by (rewrite seq_length; exact Lt); rewrite seq_nth by exact Lt; reflexivity|].
    cbv beta in Y2. rewrite nth_error_map, N in Y2. cbn [option_map of_option rbind] in Y2. rewrite A in Y2. cbn [rbind] in Y2. injection Y2 as <-. exact Y1.
  - clear. revert t. induction wt as [|x wt IH]; intros [|t]; cbn [list_set length]; [reflexivity | reflexivity | reflexivity | f_equal; apply IH].
  - clear. revert t. induction wt as [|x wt IH]; intros [|t] [|k] H; cbn [list_set nth_error]; try reflexivity; [congruence | apply IH; congruence].
  - exists (normal b row). split; [revert t N; clear; induction wt as [|x wt IH]; intros [|t] N; cbn [list_set nth_error] in *; [discriminate | discriminate | reflexivity | apply IH, N]|].
    split; [apply length_normal | intros i Hi; apply weight_normal, Hi].
Qed.
Print Assumptions nmf_show_one.

(** ** Violations and examples *)
Definition ex_id2word : dict nat pystr := [(0, str "a"); (1, str "b"); (2, str "c")].
Definition ex_wt : list (list Q) := [[1; 2; 1]; [0; 0; 4]; [0; 3; 1]]%Q.
Definition ex_show := nmf_show_topics ref_argsort ref_argpartition ex_id2word.
(** No topics asked for: all are shown. *)
Theorem nmf_show_none_refuted : exists wt shown, ex_show true wt 0 1 None = Ok shown /\ 0 < length wt /\ length shown = length wt.
Proof. exists ex_wt. eexists. split; [vm_compute; reflexivity|]. split; [cbn; lia | reflexivity]. Qed.
Print Assumptions nmf_show_none_refuted.
(** Showing one topic changes what the model shows without shares. *)
Theorem nmf_show_changes_refuted : exists wt wt' l before after, ex_show true wt 3 1 (Some false) = Ok before /\
  nmf_show_topic ref_argsort ref_argpartition ex_id2word true wt 1 1 None = (wt', Ok l) /\ ex_show true wt' 3 1 (Some false) = Ok after /\
  nth_error before 1 = Some (1, [(str "c", 4%Q)]) /\ exists v, nth_error after 1 = Some (1, [(str "c", v)]) /\ (v == 1)%Q.
Proof. exists ex_wt. do 4 eexists. split; [vm_compute; reflexivity|]. split; [vm_compute; reflexivity|]. split; [vm_compute; reflexivity|]. split; [reflexivity|]. eexists. split; [reflexivity|]. reflexivity. Qed.
Print Assumptions nmf_show_changes_refuted.
Example nmf_show_ex : rmap (map (fun s => (fst s, map fst (snd s)))) (ex_show true ex_wt 2 2 None) = Ok [(0, [str "b"; str "a"]); (1, [str "c"; str "a"])] /\
  rmap (map fst) (ex_show false ex_wt 1 1 None) = Ok [1].
Proof. vm_compute. split; reflexivity. Qed.
