(** C131: the words listed for a topic. *)
From Coq Require Import QArith Qabs Lia Lqa.
From Verif Require Import Base Str Dictionary_Spec SortFacts Matutils_Model Matutils_Proofs2 Matutils_Properties ShardedCorpus_Model ShowTopics_Model.

(** ** Specification *)

(** [ids] are the [k] ids below [n] with the greatest keys, greatest first. *)
Definition greatest (key : nat -> Q) (n k : nat) (ids : list nat) : Prop :=
  length ids = Nat.min k n /\ NoDup ids /\ (forall i, In i ids -> i < n) /\
  StronglySorted (fun i j => (key j <= key i)%Q) ids /\
  (forall i j, In i ids -> j < n -> ~ In j ids -> (key j <= key i)%Q).

(** every id below [n] has the name [name] *)
Definition named (id2word : dict nat pystr) (name : nat -> pystr) (n : nat) : Prop := forall i, i < n -> dget id2word i = Some (name i).

Definition weight (row : list Q) (i : nat) : Q := nth i row 0%Q.

(** ** Lemmas *)

Lemma rmapM_map {A B} (f : A -> result B) (g : A -> B) l : (forall x, In x l -> f x = Ok (g x)) -> rmapM f l = Ok (map g l).
Proof.
  induction l as [|x l IH]; intros H; [reflexivity|]. cbn [rmapM map]. rewrite (H x) by (left; reflexivity). cbn [rbind].
  rewrite IH by (intros; apply H; right; assumption). reflexivity.
Qed.

Lemma argsort_greatest : forall f g, argsort_contract f -> argpartition_contract g -> forall x topn,
  greatest (weight x) (length x) (Z.to_nat topn) (argsort f g x (Some topn) true).
Proof. intros f g Hf Hg x topn. exact (argsort_is_topn f g Hf Hg x (Some topn) true). Qed.

Lemma greatest_ext : forall k1 k2 n k ids, (forall i j, i < n -> j < n -> (k1 i <= k1 j)%Q -> (k2 i <= k2 j)%Q) -> greatest k1 n k ids -> greatest k2 n k ids.
Proof.
  intros k1 k2 n k ids H (A & B & C & D & E). split; [exact A|]. split; [exact B|]. split; [exact C|]. split.
  - refine (StronglySorted_impl_in _ _ _ _ D). intros a b Ha Hb. cbv beta. apply H; auto.
  - intros i j Hi Hj N. apply H; auto.
Qed.

Lemma weight_map : forall h row i, i < length row -> weight (map h row) i = h (weight row i).
Proof. intros h row i Hi. unfold weight. rewrite (nth_indep _ 0%Q (h 0%Q)) by (rewrite map_length; exact Hi). apply map_nth. Qed.

Lemma py_get_nat : forall {A} (l : list A) (t : nat) c, nth_error l t = Some c -> py_get l (Z.of_nat t) = Ok c.
Proof.
  intros A l t c H. assert (t < length l) by (apply nth_error_Some; congruence). unfold py_get, np_index.
  destruct (Z.ltb_spec (Z.of_nat t) 0); [lia|]. destruct (Z.leb_spec (Z.of_nat (length l)) (Z.of_nat t)); [lia|].
  cbn [rbind]. rewrite Nat2Z.id, H. reflexivity.
Qed.

(** the sum of a row *)
Definition total (l : list Q) : Q := fold_right Qplus 0%Q l.

Lemma qsum_total : forall l, (qsum l == total l)%Q.
Proof.
  assert (G : forall l a, (fold_left Qplus l a == a + total l)%Q).
  { induction l as [|x l IH]; intros a; cbn [fold_left total fold_right]; [lra|]. rewrite IH. unfold total. lra. }
  intros l. unfold qsum. rewrite G. lra.
Qed.

Lemma total_div : forall s l, ~ (s == 0)%Q -> (total (map (fun x => x / s)%Q l) == total l / s)%Q.
Proof.
  intros s l Hs. induction l as [|x l IH]; cbn [map total fold_right]; [field; exact Hs|].
  unfold total in IH. rewrite IH. field. exact Hs.
Qed.

Lemma total_app : forall a b, (total (a ++ b) == total a + total b)%Q.
Proof. unfold total. induction a as [|x a IH]; intros b; cbn [app fold_right]; [lra|]. rewrite IH. lra. Qed.

Lemma total_perm : forall a b, Permutation a b -> (total a == total b)%Q.
Proof.
  induction 1; cbn [total fold_right]; unfold total in *; try lra.
Qed.

Lemma total_nonneg : forall l, (forall x, In x l -> (0 <= x)%Q) -> (0 <= total l)%Q.
Proof.
  induction l as [|x l IH]; intros H; cbn [total fold_right]; [lra|].
  assert (0 <= x)%Q by (apply H; left; reflexivity). assert (0 <= total l)%Q by (apply IH; intros; apply H; right; assumption). unfold total in *. lra.
Qed.

Lemma weights_all : forall row, map (weight row) (seq 0 (length row)) = row.
Proof.
  intros row. induction row as [|x row IH]; [reflexivity|]. cbn [length seq map]. f_equal. rewrite <- seq_shift, map_map. exact IH.
Qed.

Lemma NoDup_split_seq : forall n ids, NoDup ids -> (forall i, In i ids -> i < n) -> exists rest, Permutation (seq 0 n) (ids ++ rest).
Proof.
  intros n ids N B. assert (D : forall l l' : list nat, NoDup l -> NoDup l' -> (forall x, In x l -> In x l' -> False) -> NoDup (l ++ l')).
  { induction l as [|a l IH]; intros l' H H' X; [exact H'|]. inversion H as [|? ? Q1 Q2]; subst. cbn [app]. constructor.
    - intros HI. apply in_app_iff in HI. destruct HI as [HI|HI]; [exact (Q1 HI)|]. exact (X a (or_introl eq_refl) HI).
    - apply IH; [exact Q2|exact H'|]. intros x Hx Hx'. exact (X x (or_intror Hx) Hx'). }
  exists (filter (fun i => negb (memb i ids)) (seq 0 n)). apply NoDup_Permutation.
  - apply seq_NoDup.
  - apply D; [exact N|apply NoDup_filter, seq_NoDup|]. intros x Hx Hf. apply filter_In in Hf. destruct Hf as [_ Hf].
    destruct (memb x ids) eqn:M; [discriminate|]. apply memb_false in M. exact (M Hx).
  - intros x. rewrite in_app_iff, filter_In, in_seq. split.
    + intros Hx. destruct (memb x ids) eqn:M; [left; apply memb_true; exact M|right; split; [exact Hx|reflexivity]].
    + intros [Hx|[Hx _]]; [apply B in Hx; lia|exact Hx].
Qed.

Lemma named_rmapM {B} : forall id2word name n (ids : list nat) (h : nat -> pystr -> B), named id2word name n -> (forall i, In i ids -> i < n) ->
  rmapM (fun i => let* w := word_of id2word i in Ok (h i w)) ids = Ok (map (fun i => h i (name i)) ids).
Proof. intros id2word name n ids h Hn Hb. apply rmapM_map. intros i Hi. unfold word_of. rewrite (Hn i (Hb i Hi)). reflexivity. Qed.

(** sorting entries by a key, greatest first *)
Definition by_key (key : nat -> Q) (t u : nat) : bool := Qle_bool (key u) (key t).

Lemma isort_entries {B} : forall (entry : nat -> B) (val : B -> Q) (l : list nat),
  isort (fun a b => Qle_bool (val b) (val a)) (map entry l) = map entry (isort (by_key (fun t => val (entry t))) l).
Proof.
  intros entry val.
  assert (I : forall x l, insert (fun a b => Qle_bool (val b) (val a)) (entry x) (map entry l) = map entry (insert (by_key (fun t => val (entry t))) x l)).
  { intros x. induction l as [|y l IH]; [reflexivity|]. cbn [map insert].
    change (Qle_bool (val (entry y)) (val (entry x))) with (by_key (fun t => val (entry t)) x y).
    destruct (by_key (fun t => val (entry t)) x y); [reflexivity|]. cbn [map]. f_equal. exact IH. }
  induction l as [|x l IH]; [reflexivity|]. cbn [map isort]. rewrite IH. apply I.
Qed.

(** greatest key first, equal keys in the order of their numbers *)
Definition ranked (key : nat -> Q) (t u : nat) : Prop := (key u < key t)%Q \/ (key u == key t)%Q /\ t < u.

Lemma isort_ranked : forall key n, StronglySorted (ranked key) (isort (by_key key) (seq 0 n)).
Proof.
  intros key n.
  assert (T : forall x y, by_key key x y = true \/ by_key key y x = true).
  { intros x y. unfold by_key. rewrite !Qle_bool_iff. destruct (Qlt_le_dec (key x) (key y)); [right; apply Qlt_le_weak|left]; assumption. }
  assert (TR : forall x y z, by_key key x y = true -> by_key key y z = true -> by_key key x z = true).
  { intros x y z A B. unfold by_key in *. rewrite Qle_bool_iff in *. eapply Qle_trans; eassumption. }
  refine (StronglySorted_impl_in _ _ _ _ (isort_stable (by_key key) T TR (seq 0 n))). intros t u _ _ [A B]. unfold by_key in *. rewrite Qle_bool_iff in A.
  destruct (Qlt_le_dec (key u) (key t)) as [Q1|Q1]; [left; exact Q1|]. right. split; [apply Qle_antisym; assumption|].
  destruct B as [B|B].
  - apply Qle_bool_iff in Q1. congruence.
  - destruct B as (l1 & l2 & l3 & B). assert (SQ : StronglySorted lt (seq 0 n)).
    { clear. generalize 0. induction n as [|n IH]; intros s; cbn [seq]; constructor; [apply IH|].
      apply Forall_forall. intros y Hy. apply in_seq in Hy. lia. }
    rewrite B in SQ. apply StronglySorted_app_inv in SQ. destruct SQ as (_ & SQ & _). inversion SQ as [|? ? _ FA]; subst.
    rewrite Forall_forall in FA. apply FA. apply in_app_iff. right. left. reflexivity.
Qed.

(** ** LSI *)

(** The words shown for a topic are those whose weights in the topic have the greatest absolute values, greatest first, each with its own word and
    with its weight divided by the length of the topic. *)
Theorem lsi_show_topic_best : forall f g sqrt id2word name ut (t : nat) c topn, argsort_contract f -> argpartition_contract g ->
  nth_error ut t = Some c -> named id2word name (length c) ->
  exists ids, greatest (fun i => Qabs (weight c i)) (length c) (Z.to_nat topn) ids /\
    lsi_show_topic f g sqrt id2word ut (Z.of_nat t) topn =
      Ok (Terms (map (fun i => (name i, 1 * weight c i / sqrt (qsum (map (fun x => x * x) c)))%Q) ids)).
Proof.
  intros f g sqrt id2word name ut t c topn Hf Hg Ht Hn. pose proof (argsort_greatest f g Hf Hg (map Qabs c) topn) as G. rewrite map_length in G.
  eexists. split.
  - apply (greatest_ext (weight (map Qabs c))); [|exact G]. intros i j Hi Hj. rewrite !weight_map by assumption. auto.
  - assert (t < length ut) by (apply nth_error_Some; congruence). unfold lsi_show_topic.
    destruct (Z.leb_spec (Z.of_nat (length ut)) (Z.of_nat t)); [lia|]. rewrite (py_get_nat ut t c Ht). cbn [rbind].
    rewrite (named_rmapM id2word name (length c) _ (fun i w => (w, 1 * nth i c 0 / norm sqrt c)%Q) Hn) by (intros i Hi; apply G; exact Hi).
    reflexivity.
Qed.
Print Assumptions lsi_show_topic_best.

(** The row of `get_topics` has the same numbers. *)
Theorem lsi_topics_agree : forall f g sqrt id2word name ut (t : nat) c topn r l, argsort_contract f -> argpartition_contract g ->
  nth_error ut t = Some c -> named id2word name (length c) -> nth_error (lsi_get_topics sqrt ut) t = Some r ->
  lsi_show_topic f g sqrt id2word ut (Z.of_nat t) topn = Ok (Terms l) ->
  forall w v, In (w, v) l -> exists i, i < length c /\ w = name i /\ nth_error r i = Some v.
Proof.
  intros f g sqrt id2word name ut t c topn r l Hf Hg Ht Hn Hr Hl w v HI.
  destruct (lsi_show_topic_best f g sqrt id2word name ut t c topn Hf Hg Ht Hn) as (ids & G & E). rewrite E in Hl. injection Hl as <-.
  apply in_map_iff in HI. destruct HI as (i & Ei & HI). injection Ei as <- <-. exists i. destruct G as (_ & _ & B & _). specialize (B i HI).
  split; [exact B|]. split; [reflexivity|]. unfold lsi_get_topics in Hr. rewrite nth_error_map, Ht in Hr. injection Hr as <-.
  rewrite nth_error_map. unfold weight. rewrite (nth_error_nth' c 0%Q B). reflexivity.
Qed.
Print Assumptions lsi_topics_agree.

(** A topic that does not exist: an empty string for a number that is too great, an error for one that is too small; negative numbers count from
    the last topic. *)
Theorem lsi_show_topic_missing : forall f g sqrt id2word ut topicno topn,
  ((Z.of_nat (length ut) <= topicno)%Z -> lsi_show_topic f g sqrt id2word ut topicno topn = Ok EmptyString_) /\
  ((topicno < - Z.of_nat (length ut))%Z -> lsi_show_topic f g sqrt id2word ut topicno topn = Err IndexError) /\
  (forall k, k < length ut -> lsi_show_topic f g sqrt id2word ut (- Z.of_nat (S k)) topn = lsi_show_topic f g sqrt id2word ut (Z.of_nat (length ut - S k)) topn).
Proof.
  intros f g sqrt id2word ut topicno topn. unfold lsi_show_topic. split; [|split].
  - intros H. destruct (Z.leb_spec (Z.of_nat (length ut)) topicno); [reflexivity|lia].
  - intros H. destruct (Z.leb_spec (Z.of_nat (length ut)) topicno); [lia|]. unfold py_get, np_index.
    destruct (Z.ltb_spec topicno 0); [|lia]. destruct (Z.ltb_spec (topicno + Z.of_nat (length ut)) 0); [reflexivity|lia].
  - intros k Hk. destruct (Z.leb_spec (Z.of_nat (length ut)) (- Z.of_nat (S k))); [lia|].
    destruct (Z.leb_spec (Z.of_nat (length ut)) (Z.of_nat (length ut - S k))); [lia|].
    replace (py_get ut (- Z.of_nat (S k))) with (py_get ut (Z.of_nat (length ut - S k))); [reflexivity|]. unfold py_get, np_index.
    destruct (Z.ltb_spec (- Z.of_nat (S k)) 0); [|lia]. destruct (Z.ltb_spec (- Z.of_nat (S k) + Z.of_nat (length ut)) 0); [lia|].
    destruct (Z.ltb_spec (Z.of_nat (length ut - S k)) 0); [lia|]. destruct (Z.leb_spec (Z.of_nat (length ut)) (Z.of_nat (length ut - S k))); [lia|].
    replace (- Z.of_nat (S k) + Z.of_nat (length ut))%Z with (Z.of_nat (length ut - S k)) by lia. reflexivity.
Qed.
Print Assumptions lsi_show_topic_missing.

(** `show_topics` lists the first topics in order, all that were computed if the number is negative, and no others. *)
Theorem lsi_show_topics_list : forall f g sqrt id2word name K ut W num_topics num_words, argsort_contract f -> argpartition_contract g ->
  Forall (fun c => length c = W) ut -> named id2word name W ->
  exists shown, lsi_show_topics f g sqrt id2word K (length ut) ut num_topics num_words = Ok shown /\
    map fst shown = seq 0 (Nat.min (length ut) (if (num_topics <? 0)%Z then K else Nat.min (Z.to_nat num_topics) K)) /\
    forall i topic, In (i, topic) shown -> lsi_show_topic f g sqrt id2word ut (Z.of_nat i) num_words = Ok topic.
Proof.
  intros f g sqrt id2word name K ut W num_topics num_words Hf Hg HW Hn. unfold lsi_show_topics.
  set (n := Nat.min (Z.to_nat (if (num_topics <? 0)%Z then Z.of_nat K else num_topics)) K).
  replace (if (num_topics <? 0)%Z then K else Nat.min (Z.to_nat num_topics) K) with n
    by (unfold n; destruct (num_topics <? 0)%Z; [rewrite Nat2Z.id; lia|reflexivity]). clearbody n.
  assert (T : forall i, i < length ut -> exists topic, lsi_show_topic f g sqrt id2word ut (Z.of_nat i) num_words = Ok topic).
  { intros i Hi. destruct (nth_error ut i) as [c|] eqn:E; [|apply nth_error_None in E; lia].
    destruct (lsi_show_topic_best f g sqrt id2word name ut i c num_words Hf Hg E) as (ids & _ & R); [|eexists; exact R].
    rewrite Forall_forall in HW. rewrite (HW c) by (eapply nth_error_In; exact E). exact Hn. }
  induction n as [|n IH].
  - exists []. split; [reflexivity|]. split; [rewrite Nat.min_0_r; reflexivity|]. intros ? ? [].
  - destruct IH as (shown & E & Hs & Ht). rewrite seq_S.
    assert (RA : forall {A S} (h : S -> A -> result S) l1 l2 s, rfold h (l1 ++ l2) s = let* s' := rfold h l1 s in rfold h l2 s').
    { intros A S h. induction l1 as [|a l1 IH1]; intros l2 s; [reflexivity|]. cbn [app rfold]. destruct (h s a); cbn [rbind]; [apply IH1|reflexivity]. }
    rewrite RA, E. cbn [rbind rfold Nat.add]. destruct (Nat.ltb_spec n (length ut)) as [L|L].
    + destruct (T n L) as (topic & Et). rewrite Et. cbn [rbind]. exists (shown ++ [(n, topic)]). split; [reflexivity|]. split.
      * rewrite map_app, Hs. rewrite !Nat.min_r by lia. cbn [map fst]. rewrite seq_S. reflexivity.
      * intros i topic' HI. apply in_app_iff in HI. destruct HI as [HI|[HI|[]]]; [exact (Ht i topic' HI)|]. injection HI as <- <-. exact Et.
    + exists shown. split; [reflexivity|]. split; [|exact Ht]. rewrite Hs. rewrite !Nat.min_l by lia. reflexivity.
Qed.
Print Assumptions lsi_show_topics_list.

(** ** LDA *)

(** The terms of a topic are the ids with the greatest weights, greatest first, each with its share of the sum of the row. *)
Theorem lda_terms_best : forall f g lam (t : nat) row topn, argsort_contract f -> argpartition_contract g ->
  nth_error lam t = Some row -> (0 < total row)%Q ->
  exists terms, get_topic_terms f g lam (Z.of_nat t) topn = Ok terms /\
    greatest (weight row) (length row) (Z.to_nat topn) (map fst terms) /\
    (forall i v, In (i, v) terms -> (v == weight row i / total row)%Q).
Proof.
  intros f g lam t row topn Hf Hg Ht Hs.
  set (r1 := map (fun x => x / qsum row)%Q row). set (r2 := map (fun x => x / qsum r1)%Q r1).
  assert (L1 : length r1 = length row) by apply map_length. assert (L2 : length r2 = length row) by (unfold r2; rewrite map_length; exact L1).
  assert (Q0 : (qsum row == total row)%Q) by apply qsum_total.
  assert (Q1 : (qsum r1 == 1)%Q).
  { rewrite qsum_total. unfold r1. rewrite total_div by (rewrite Q0; lra). rewrite Q0. field. lra. }
  assert (V : forall i, i < length row -> (weight r2 i == weight row i / total row)%Q).
  { intros i Hi. unfold r2. rewrite weight_map by lia. unfold r1 at 1. rewrite weight_map by exact Hi. rewrite Q1, Q0. field. lra. }
  pose proof (argsort_greatest f g Hf Hg r2 topn) as G. rewrite L2 in G.
  eexists. split.
  - unfold get_topic_terms. rewrite (py_get_nat (lda_get_topics lam) t r1) by (unfold lda_get_topics; rewrite nth_error_map, Ht; reflexivity).
    cbn [rbind]. reflexivity.
  - fold r2. rewrite map_map. cbn [fst]. rewrite map_id. split.
    + apply (greatest_ext (weight r2)); [|exact G]. intros i j Hi Hj. rewrite (V i Hi), (V j Hj). intros HL.
      apply (Qmult_le_r _ _ (/ total row)); [apply Qinv_lt_0_compat; exact Hs|exact HL].
    + intros i v HI. apply in_map_iff in HI. destruct HI as (i' & E & HI). injection E as <- <-.
      destruct G as (_ & _ & B & _). exact (V i' (B i' HI)).
Qed.
Print Assumptions lda_terms_best.

(** The listed shares are never negative and sum to at most one, and to one if all words are asked for. *)
Theorem lda_terms_share : forall f g lam (t : nat) row topn terms, argsort_contract f -> argpartition_contract g ->
  nth_error lam t = Some row -> (0 < total row)%Q -> (forall x, In x row -> (0 <= x)%Q) -> get_topic_terms f g lam (Z.of_nat t) topn = Ok terms ->
  (forall v, In v (map snd terms) -> (0 <= v)%Q) /\ (total (map snd terms) <= 1)%Q /\
  ((Z.of_nat (length row) <= topn)%Z -> (total (map snd terms) == 1)%Q).
Proof.
  intros f g lam t row topn terms Hf Hg Ht Hs Hp E.
  destruct (lda_terms_best f g lam t row topn Hf Hg Ht Hs) as (terms' & E' & (Hl & N & B & _) & V). rewrite E in E'. injection E' as <-.
  assert (P : forall i, i < length row -> (0 <= weight row i / total row)%Q).
  { intros i Hi. apply Qle_shift_div_l; [exact Hs|]. setoid_replace (0 * total row)%Q with 0%Q by ring. apply Hp. apply nth_In. exact Hi. }
  assert (S : (total (map snd terms) == total (map (fun i => weight row i / total row)%Q (map fst terms)))%Q).
  { clear - V. induction terms as [|[i v] terms IH]; [reflexivity|]. cbn [map fst snd total fold_right]. unfold total at 1 2 in IH.
    rewrite (V i v) by (left; reflexivity). rewrite IH by (intros; apply V; right; assumption). reflexivity. }
  assert (A : (total (map (fun i => weight row i / total row)%Q (seq 0 (length row))) == 1)%Q).
  { rewrite <- (map_map (weight row) (fun x => x / total row)%Q), weights_all, total_div by lra. field. lra. }
  split; [|split].
  - intros v HI. apply in_map_iff in HI. destruct HI as ([i v'] & <- & HI). cbn [snd]. rewrite (V i v' HI). apply P. apply B.
    apply in_map_iff. exists (i, v'). split; [reflexivity|exact HI].
  - destruct (NoDup_split_seq (length row) (map fst terms) N B) as (rest & PM). rewrite S.
    rewrite (total_perm _ _ (Permutation_map _ PM)), map_app, total_app in A.
    assert (0 <= total (map (fun i => weight row i / total row)%Q rest))%Q.
    { apply total_nonneg. intros x HI. apply in_map_iff in HI. destruct HI as (i & <- & HI). apply P.
      assert (In i (seq 0 (length row))) by (eapply Permutation_in; [apply Permutation_sym; exact PM|apply in_app_iff; right; exact HI]).
      apply in_seq in H. lia. }
    lra.
  - intros Hk. rewrite S, <- A. apply total_perm. apply Permutation_map. apply Permutation_sym. apply NoDup_Permutation_bis.
    + apply seq_NoDup.
    + rewrite seq_length, Hl. lia.
    + intros i Hi. destruct (NoDup_split_seq (length row) (map fst terms) N B) as (rest & PM).
      assert (LR : length rest = 0) by (apply Permutation_length in PM; rewrite seq_length, app_length, Hl in PM; lia).
      destruct rest; [|discriminate]. rewrite app_nil_r in PM. eapply Permutation_in; [exact PM|exact Hi].
Qed.
Print Assumptions lda_terms_share.

(** `show_topic` is the same list with words for ids. *)
Theorem lda_show_topic_words : forall f g id2word name lam (t : nat) row topn terms, argsort_contract f -> argpartition_contract g ->
  nth_error lam t = Some row -> (0 < total row)%Q -> named id2word name (length row) -> get_topic_terms f g lam (Z.of_nat t) topn = Ok terms ->
  lda_show_topic f g id2word lam (Z.of_nat t) topn = Ok (map (fun p => (name (fst p), snd p)) terms).
Proof.
  intros f g id2word name lam t row topn terms Hf Hg Ht Hs Hn E.
  destruct (lda_terms_best f g lam t row topn Hf Hg Ht Hs) as (terms' & E' & (_ & _ & B & _) & _). rewrite E in E'. injection E' as <-.
  unfold lda_show_topic. rewrite E. cbn [rbind]. apply rmapM_map. intros p Hp. unfold word_of. rewrite (Hn (fst p)); [reflexivity|].
  apply B. apply in_map. exact Hp.
Qed.
Print Assumptions lda_show_topic_words.

(** `top_topics`: every topic once, with its own score and its own words; the best score first, topics with equal scores in the order of their
    numbers. *)
Theorem top_topics_sorted : forall f g id2word name topics scores W topn, argsort_contract f -> argpartition_contract g ->
  Forall (fun c => length c = W) topics -> named id2word name W -> length scores = length topics ->
  exists ids tops (order : list nat), top_topics f g id2word topics scores topn = Ok tops /\
    (forall t, t < length topics -> greatest (weight (nth t topics [])) W (Z.to_nat topn) (ids t)) /\
    tops = map (fun t => (map (fun i => (weight (nth t topics []) i, name i)) (ids t), nth t scores 0%Q)) order /\
    Permutation (seq 0 (length topics)) order /\
    StronglySorted (fun t u => (nth u scores 0 < nth t scores 0)%Q \/ (nth u scores 0 == nth t scores 0)%Q /\ t < u) order.
Proof.
  intros f g id2word name topics scores W topn Hf Hg HW Hn HL.
  set (ids := fun t : nat => argsort f g (nth t topics []) (Some topn) true).
  set (entry := fun t : nat => (map (fun i => (weight (nth t topics []) i, name i)) (ids t), nth t scores 0%Q)).
  set (le := fun t u : nat => Qle_bool (nth u scores 0%Q) (nth t scores 0%Q)).
  assert (G : forall t, t < length topics -> greatest (weight (nth t topics [])) W (Z.to_nat topn) (ids t)).
  { intros t Ht. rewrite Forall_forall in HW. pose proof (argsort_greatest f g Hf Hg (nth t topics []) topn) as G0.
    rewrite (HW (nth t topics [])) in G0 by (apply nth_In; exact Ht). exact G0. }
  exists ids, (map entry (isort le (seq 0 (length topics)))), (isort le (seq 0 (length topics))).
  split; [|split; [exact G|split; [reflexivity|split]]].
  - unfold top_topics.
    rewrite (rmapM_map _ (fun topic => map (fun i => (weight topic i, name i)) (argsort f g topic (Some topn) true))).
    2: { intros topic HI. rewrite (named_rmapM id2word name W _ (fun i w => (nth i topic 0%Q, w)) Hn); [reflexivity|].
         intros i Hi. destruct (argsort_greatest f g Hf Hg topic topn) as (_ & _ & B & _). rewrite Forall_forall in HW. rewrite <- (HW topic HI).
         apply B. exact Hi. }
    cbn [rbind]. f_equal.
    assert (C : combine (map (fun topic => map (fun i => (weight topic i, name i)) (argsort f g topic (Some topn) true)) topics) scores = map entry (seq 0 (length topics))).
    { clear - HL. subst entry ids. revert scores HL. induction topics as [|c topics IH]; intros scores HL; destruct scores as [|x scores]; try discriminate; [reflexivity|].
      cbn [length seq map combine nth]. f_equal. rewrite <- seq_shift, map_map. rewrite (IH scores) by (cbn in HL; lia). reflexivity. }
    rewrite C. exact (isort_entries entry snd (seq 0 (length topics))).
  - apply Permutation_isort.
  - apply isort_ranked.
Qed.
Print Assumptions top_topics_sorted.

(** ** HDP *)

(** The words of a topic of the formatter: greatest share first, equal shares in the order of the ids; as many as asked for, all for None. *)
Theorem hdp_show_topic_best : forall id2word name data (t : nat) row num_words, nth_error data t = Some row -> (0 < total row)%Q ->
  named id2word name (length row) -> match num_words with None => True | Some k => (0 <= k)%Z end ->
  exists ids terms, hdp_show_topic id2word data (Z.of_nat t) num_words = Ok terms /\
    greatest (weight row) (length row) (match num_words with None => length row | Some k => Z.to_nat k end) ids /\
    StronglySorted (ranked (weight row)) ids /\
    map fst terms = map name ids /\ Forall2 (fun i v => (v == weight row i / total row)%Q) ids (map snd terms).
Proof.
  intros id2word name data t row num_words Ht Hs Hn Hk.
  set (key := fun i : nat => weight (map (fun x => x / qsum row)%Q row) i). set (n := match num_words with None => length row | Some k => Z.to_nat k end).
  assert (V : forall i, i < length row -> (key i == weight row i / total row)%Q).
  { intros i Hi. unfold key. rewrite weight_map by exact Hi. rewrite qsum_total. reflexivity. }
  assert (LE : forall i j, i < length row -> j < length row -> (key i < key j <-> weight row i < weight row j)%Q).
  { intros i j Hi Hj. rewrite (V i Hi), (V j Hj). apply (Qmult_lt_r (weight row i) (weight row j) (/ total row)). apply Qinv_lt_0_compat. exact Hs. }
  assert (SS := isort_ranked key (length row)).
  assert (IN : forall i, In i (isort (by_key key) (seq 0 (length row))) <-> i < length row) by (intros i; rewrite In_isort, in_seq; lia).
  assert (SR : StronglySorted (ranked (weight row)) (isort (by_key key) (seq 0 (length row)))).
  { refine (StronglySorted_impl_in _ _ _ _ SS). intros i j Hi Hj. apply IN in Hi, Hj. unfold ranked. intros [A|[A B]].
    - left. apply LE; assumption.
    - right. split; [|exact B]. apply Qle_antisym; apply Qnot_lt_le; intros C; apply LE in C; try assumption; rewrite A in C; exact (Qlt_irrefl _ C). }
  assert (ND : NoDup (isort (by_key key) (seq 0 (length row)))) by (eapply Permutation_NoDup; [apply Permutation_isort|apply seq_NoDup]).
  assert (LEN : length (isort (by_key key) (seq 0 (length row))) = length row) by (rewrite length_isort, seq_length; reflexivity).
  exists (firstn n (isort (by_key key) (seq 0 (length row)))), (map (fun i => (name i, key i)) (firstn n (isort (by_key key) (seq 0 (length row))))).
  split; [|split; [|split; [|split]]].
  - unfold hdp_show_topic. rewrite (py_get_nat data t row Ht). cbn [rbind]. rewrite map_length.
    assert (C : combine (map (fun x => x / qsum row)%Q row) (seq 0 (length row)) = map (fun i => (key i, i)) (seq 0 (length row))).
    { pose proof (weights_all (map (fun x => x / qsum row)%Q row)) as WA. rewrite map_length in WA. rewrite <- WA at 1. fold key.
      generalize (seq 0 (length row)) as l. clear. induction l as [|i l IH]; [reflexivity|]. cbn [map combine]. f_equal. exact IH. }
    rewrite C, (isort_entries (fun i => (key i, i)) fst). cbn [fst]. fold (by_key key).
    change (by_key (fun t0 => key t0)) with (by_key key).
    assert (P : (match num_words with None => map (fun i => (key i, i)) (isort (by_key key) (seq 0 (length row)))
      | Some k => py_prefix k (map (fun i => (key i, i)) (isort (by_key key) (seq 0 (length row)))) end)
      = map (fun i => (key i, i)) (firstn n (isort (by_key key) (seq 0 (length row))))).
    { unfold n. destruct num_words as [k|].
      - unfold py_prefix. destruct (Z.ltb_spec k 0); [lia|]. apply firstn_map.
      - rewrite firstn_all2 by lia. reflexivity. }
    rewrite P. rewrite (rmapM_map _ (fun p : Q * nat => (name (snd p), fst p))).
    + rewrite map_map. reflexivity.
    + intros p Hp. apply in_map_iff in Hp. destruct Hp as (i & <- & Hi). unfold word_of. cbn [snd fst].
      rewrite (Hn i); [reflexivity|]. apply IN. rewrite <- (firstn_skipn n). apply in_app_iff. left. exact Hi.
  - split; [rewrite firstn_length, LEN; reflexivity|]. split; [apply NoDup_firstn; exact ND|]. split; [|split].
    + intros i Hi. apply IN. rewrite <- (firstn_skipn n). apply in_app_iff. left. exact Hi.
    + rewrite <- (firstn_skipn n) in SR. apply StronglySorted_app_inv in SR. destruct SR as (SR & _ & _).
      refine (StronglySorted_impl_in _ _ _ _ SR). intros a b _ _ [A|[A _]]; [apply Qlt_le_weak; exact A|rewrite A; apply Qle_refl].
    + intros i j Hi Hj NI. rewrite <- (firstn_skipn n) in SR. apply StronglySorted_app_inv in SR. destruct SR as (_ & _ & SR).
      apply IN in Hj. rewrite <- (firstn_skipn n) in Hj. apply in_app_iff in Hj. destruct Hj as [Hj|Hj]; [contradiction|].
      destruct (SR i j Hi Hj) as [A|[A _]]; [apply Qlt_le_weak; exact A|rewrite A; apply Qle_refl].
  - rewrite <- (firstn_skipn n) in SR. apply StronglySorted_app_inv in SR. exact (proj1 SR).
  - rewrite map_map. reflexivity.
  - rewrite map_map. cbn [snd].
    assert (B : forall i, In i (firstn n (isort (by_key key) (seq 0 (length row)))) -> i < length row).
    { intros i Hi. apply IN. rewrite <- (firstn_skipn n). apply in_app_iff. left. exact Hi. }
    revert B. generalize (firstn n (isort (by_key key) (seq 0 (length row)))) as l. clear - V.
    induction l as [|i l IH]; intros B; cbn [map]; constructor; [apply V, B; left; reflexivity|apply IH; intros; apply B; right; assumption].
Qed.
Print Assumptions hdp_show_topic_best.

(** A negative number of words shows nothing for LDA, but for HDP all words except the last ones. *)
Theorem hdp_negative_refuted : exists id2word data, exists terms, hdp_show_topic id2word data 0 (Some (-1)%Z) = Ok terms /\ length terms = 2 /\
  forall f g, lda_show_topic f g id2word data 0 (-1) = Ok [].
Proof.
  exists [(0, str "a"); (1, str "b"); (2, str "c")], [[1%Q; 2%Q; 1%Q]]. eexists. split; [vm_compute; reflexivity|]. split; [reflexivity|].
  intros f g. reflexivity.
Qed.
Print Assumptions hdp_negative_refuted.

(** ** Examples *)

Definition ex_words : dict nat pystr := [(0, str "cat"); (1, str "dog"); (2, str "fish")].
Definition ex_norm (q : Q) : Q := if Qeq_bool q 25 then 5%Q else 1%Q.

Example lsi_ex : lsi_show_topic ref_argsort ref_argpartition ex_norm ex_words [[3%Q; ((-4)#1)%Q; 0%Q]; [1%Q; 0%Q; 0%Q]] 0 2 = Ok (Terms [(str "dog", ((-4)#5)%Q); (str "cat", (3#5)%Q)]) /\
  lsi_show_topic ref_argsort ref_argpartition ex_norm ex_words [[3%Q; ((-4)#1)%Q; 0%Q]; [1%Q; 0%Q; 0%Q]] 2 2 = Ok EmptyString_ /\
  lsi_show_topic ref_argsort ref_argpartition ex_norm ex_words [[3%Q; ((-4)#1)%Q; 0%Q]; [1%Q; 0%Q; 0%Q]] (-3) 2 = Err IndexError /\
  lsi_show_topics ref_argsort ref_argpartition ex_norm ex_words 5 2 [[3%Q; ((-4)#1)%Q; 0%Q]; [1%Q; 0%Q; 0%Q]] (-1) 1 =
    Ok [(0, Terms [(str "dog", ((-4)#5)%Q)]); (1, Terms [(str "cat", 1%Q)])].
Proof. vm_compute. repeat split. Qed.

Example lda_ex : exists l, lda_show_topic ref_argsort ref_argpartition ex_words [[1%Q; 3%Q; 2%Q]] 0 2 = Ok l /\ map fst l = [str "dog"; str "fish"].
Proof. eexists. split; [vm_compute; reflexivity|reflexivity]. Qed.

Example top_ex : top_topics ref_argsort ref_argpartition ex_words [[(1#2)%Q; (1#4)%Q; (1#4)%Q]; [0%Q; (1#3)%Q; (2#3)%Q]; [0%Q; 1%Q; 0%Q]] [((-2)#1)%Q; ((-1)#1)%Q; ((-2)#1)%Q] 1 =
  Ok [([((2#3)%Q, str "fish")], ((-1)#1)%Q); ([((1#2)%Q, str "cat")], ((-2)#1)%Q); ([(1%Q, str "dog")], ((-2)#1)%Q)].
Proof. vm_compute. reflexivity. Qed.

Example hdp_ex : exists l, hdp_show_topic ex_words [[1%Q; 2%Q; 1%Q]] 0 (Some 2%Z) = Ok l /\ map fst l = [str "dog"; str "cat"].
Proof. eexists. split; [vm_compute; reflexivity|reflexivity]. Qed.
