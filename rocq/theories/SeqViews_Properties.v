(** Theorems about the views of a dynamic topic model (property C140). *)
From Coq Require Import QArith.
From Verif Require Import Base Str Matutils_Model Matutils_Proofs Matutils_Proofs2 Matutils_Properties ShardedCorpus_Model SeqViews_Model.
From Coq Require Import ZifyBool ZifyNat Lqa.
Close Scope Q_scope.
Local Open Scope nat_scope.

(** What a trained model is: positive numbers for all topics, slices and words, and words for all ids. *)
Record trained (m : seqmodel) : Prop := {
  t_topics : length (q_chains m) = q_topics m;
  t_some : 0 < q_topics m;
  t_chains : forall chain, In chain (q_chains m) -> length chain = q_slices m /\
    forall row, In row chain -> length row = length (q_id2word m) /\ forall x, In x row -> (0 < x)%Q;
  t_gammas : forall g, In g (q_gammas m) -> length g = q_topics m /\ forall x, In x g -> (0 < x)%Q;
  t_words : forall i, i < length (q_id2word m) -> dget (q_id2word m) i <> None }.
Definition weights (m : seqmodel) (k t : nat) : list Q := nth t (nth k (q_chains m) []) [].
Definition prob (m : seqmodel) (k t i : nat) : Q := (nth i (weights m k t) 0 / total (weights m k t))%Q.
Definition word (m : seqmodel) (i : nat) : pystr := match dget (q_id2word m) i with Some w => w | None => [] end.
(** Position [i] of [n], counted from the front or from the end. *)
Definition position (n i : nat) (z : Z) : Prop := i < n /\ (z = Z.of_nat i \/ z = Z.of_nat i - Z.of_nat n)%Z.
Definition distribution (x : list Q) : Prop := (forall v, In v x -> 0 <= v)%Q /\ (total x == 1)%Q.

Lemma np_pos : forall n i z, position n i z -> np_index n z = Ok i.
Proof.
  intros n i z (L & [->| ->]); unfold np_index.
  - destruct (Z.ltb_spec (Z.of_nat i) 0); [lia|]. destruct (Z.leb_spec (Z.of_nat n) (Z.of_nat i)); [lia|]. rewrite Nat2Z.id. reflexivity.
  - destruct (Z.ltb_spec (Z.of_nat i - Z.of_nat n) 0); [|lia]. destruct (Z.ltb_spec (Z.of_nat i - Z.of_nat n + Z.of_nat n) 0); [lia|]. f_equal. lia.
Qed.
Lemma np_none : forall n z, (forall i, ~ position n i z) -> np_index n z = Err IndexError.
Proof.
  intros n z H. unfold np_index. destruct (Z.ltb_spec z 0).
  - destruct (Z.ltb_spec (z + Z.of_nat n) 0); [reflexivity|]. exfalso. apply (H (Z.to_nat (z + Z.of_nat n))). split; lia.
  - destruct (Z.leb_spec (Z.of_nat n) z); [reflexivity|]. exfalso. apply (H (Z.to_nat z)). split; lia.
Qed.
Lemma get_pos : forall {A} (l : list A) i z d, position (length l) i z -> py_get l z = Ok (nth i l d).
Proof.
  intros A l i z d P. unfold py_get. rewrite (np_pos _ _ _ P). cbn [rbind]. rewrite (nth_error_nth' l d) by apply P. reflexivity.
Qed.
Lemma mapM_ok : forall {A B} (f : A -> result B) (g : A -> B) l, (forall x, In x l -> f x = Ok (g x)) -> rmapM f l = Ok (map g l).
Proof.
  induction l as [|x l IH]; intros H; cbn; [reflexivity|]. rewrite (H x) by (left; reflexivity). cbn [rbind].
  rewrite IH by (intros; apply H; right; assumption). reflexivity.
Qed.
Lemma nth_normalize : forall x i, nth i (normalize x) 0%Q = if i <? length x then (nth i x 0 / total x)%Q else 0%Q.
Proof.
  intros x i. unfold normalize. destruct (Nat.ltb_spec i (length x)) as [L|L].
  - rewrite nth_indep with (d' := (fun v => v / total x)%Q 0%Q) by (rewrite map_length; exact L). rewrite (map_nth (fun v => v / total x)%Q). reflexivity.
  - apply nth_overflow. rewrite map_length. exact L.
Qed.
Lemma total_pos : forall x, x <> [] -> (forall v, In v x -> 0 < v)%Q -> (0 < total x)%Q.
Proof.
  induction x as [|a x IH]; intros N H; [congruence|]. cbn [total fold_right]. pose proof (H a (or_introl eq_refl)). destruct x as [|b x]; [cbn; lra|].
  assert (0 < total (b :: x))%Q by (apply IH; [discriminate | intros v Hv; apply H; right; exact Hv]). unfold total in *. lra.
Qed.
Lemma normalize_dist : forall x, x <> [] -> (forall v, In v x -> 0 < v)%Q -> distribution (normalize x).
Proof.
  intros x N H. pose proof (total_pos x N H) as P. split.
  - intros v Hv. apply in_map_iff in Hv. destruct Hv as (u & <- & Hu). pose proof (H u Hu). apply Qle_shift_div_l; [exact P | lra].
  - unfold normalize. assert (G : forall l, (total (map (fun v => v / total x) l) == total l / total x)%Q).
    { induction l as [|a l IH]; cbn [map total fold_right]; [field; lra|]. unfold total in *. rewrite IH. field. intros E. lra. }
    rewrite G. field. intros E. lra.
Qed.

(** The most probable words of a topic in a time slice, best first, each with its probability in that slice. *)
Theorem seq_print_topic : forall np_argsort np_argpartition, argsort_contract np_argsort -> argpartition_contract np_argpartition ->
  forall m, trained m -> forall k t topic time top, position (q_topics m) k topic -> position (q_slices m) t time ->
  exists idxs, print_topic np_argsort np_argpartition m topic time top = Ok (map (fun i => (word m i, prob m k t i)) idxs) /\
    is_topn (fun i j => prob m k t j <= prob m k t i)%Q (length (q_id2word m)) (Z.to_nat top) idxs.
Proof.
  intros f g Hf Hg m T k t topic time top Pk Pt.
  assert (Hc : In (nth k (q_chains m) []) (q_chains m)) by (apply nth_In; rewrite (t_topics m T); apply Pk).
  destruct (t_chains m T _ Hc) as [Lc Hr].
  assert (Hw : In (weights m k t) (nth k (q_chains m) [])) by (apply nth_In; rewrite Lc; apply Pt). destruct (Hr _ Hw) as [Lw _].
  pose proof (argsort_is_topn f g Hf Hg (normalize (weights m k t)) (Some top) true) as X. cbv zeta in X.
  assert (Ln : length (normalize (weights m k t)) = length (q_id2word m)) by (unfold normalize; rewrite map_length; exact Lw). rewrite Ln in X.
  set (idxs := argsort f g (normalize (weights m k t)) (Some top) true) in *. exists idxs. destruct X as (X1 & X2 & X3 & X4 & X5).
  assert (Pr : forall i, i < length (q_id2word m) -> nth i (normalize (weights m k t)) 0%Q = prob m k t i).
  { intros i Li. rewrite nth_normalize, Lw. destruct (Nat.ltb_spec i (length (q_id2word m))); [reflexivity | lia]. }
  split.
  - unfold print_topic. rewrite (get_pos (q_chains m) k topic []) by (rewrite (t_topics m T); exact Pk). cbn [rbind].
    rewrite (get_pos (nth k (q_chains m) []) t time []) by (rewrite Lc; exact Pt). cbn [rbind]. fold (weights m k t). fold idxs.
    apply mapM_ok. intros i Hi. specialize (X3 i Hi). unfold word. pose proof (t_words m T i X3) as Wi. destruct (dget (q_id2word m) i) as [w|]; [|congruence].
    cbn [of_option rbind]. rewrite (nth_error_nth' (normalize (weights m k t)) 0%Q) by (rewrite Ln; exact X3). cbn [of_option rbind]. rewrite Pr by exact X3. reflexivity.
  - split; [exact X1|]. split; [exact X2|]. split; [exact X3|]. split.
    + clear - X3 X4 Pr. induction X4 as [|i l S IH F]; constructor.
      * apply IH. intros j Hj. apply X3. right. exact Hj.
      * rewrite Forall_forall in *. intros j Hj. rewrite <- !Pr; [apply F; exact Hj | apply X3; left; reflexivity | apply X3; right; exact Hj].
    + intros i j Hi Lj Nj. rewrite <- !Pr; [apply X5; assumption | apply X3; exact Hi | exact Lj].
Qed.
Print Assumptions seq_print_topic.

(** Topics and slices that do not exist raise an IndexError. *)
Theorem seq_outside : forall np_argsort np_argpartition m topic time top, trained m ->
  (forall k, ~ position (q_topics m) k topic) \/ (forall t, ~ position (q_slices m) t time) ->
  print_topic np_argsort np_argpartition m topic time top = Err IndexError.
Proof.
  intros f g m topic time top T [H|H]; unfold print_topic.
  - unfold py_get. rewrite (t_topics m T), (np_none _ _ H). reflexivity.
  - destruct (py_get (q_chains m) topic) as [chain|e] eqn:E; cbn [rbind].
    + unfold py_get in E. destruct (np_index (length (q_chains m)) topic) as [n|]; [|discriminate]. cbn [rbind] in E. destruct (nth_error (q_chains m) n) as [c|] eqn:Ec; [|discriminate].
      injection E as ->. apply nth_error_In in Ec. destruct (t_chains m T _ Ec) as [Lc _]. unfold py_get. rewrite Lc, (np_none _ _ H). reflexivity.
    + unfold py_get, np_index in E. destruct (Z.ltb topic 0).
      * destruct (Z.ltb _ 0); [cbn in E; congruence|]. cbn [rbind] in E. destruct (nth_error _ _); [discriminate|cbn in E; congruence].
      * destruct (Z.leb _ topic); [cbn in E; congruence|]. cbn [rbind] in E. destruct (nth_error _ _); [discriminate|cbn in E; congruence].
Qed.
Print Assumptions seq_outside.

Lemma mapM_get : forall {A B} (f : A -> result B) l, (forall x, In x l -> exists y, f x = Ok y) ->
  exists r, rmapM f l = Ok r /\ length r = length l /\ forall i x, nth_error l i = Some x -> exists y, nth_error r i = Some y /\ f x = Ok y.
Proof.
  induction l as [|a l IH]; intros H; [exists []; split; [reflexivity|]; split; [reflexivity|]; intros [|i] x E; discriminate|].
  destruct (H a (or_introl eq_refl)) as (y & Ey). destruct IH as (r & Er & Lr & G); [intros x Hx; apply H; right; exact Hx|].
  exists (y :: r). cbn [rmapM]. rewrite Ey. cbn [rbind]. rewrite Er. split; [reflexivity|]. split; [cbn; congruence|].
  intros [|i] x E; cbn in *; [injection E as <-; exists y; split; [reflexivity | exact Ey] | apply G; exact E].
Qed.
(** [print_topic_times] goes through all slices of one topic, [print_topics] through all topics of one slice, in order. *)
Theorem seq_lists : forall np_argsort np_argpartition, argsort_contract np_argsort -> argpartition_contract np_argpartition ->
  forall m, trained m -> forall top,
  (forall k topic, position (q_topics m) k topic -> exists l, print_topic_times np_argsort np_argpartition m topic top = Ok l /\ length l = q_slices m /\
     forall t, t < q_slices m -> exists p, nth_error l t = Some p /\ print_topic np_argsort np_argpartition m (Z.of_nat k) (Z.of_nat t) top = Ok p) /\
  (forall t time, position (q_slices m) t time -> exists l, print_topics np_argsort np_argpartition m time top = Ok l /\ length l = q_topics m /\
     forall k, k < q_topics m -> exists p, nth_error l k = Some p /\ print_topic np_argsort np_argpartition m (Z.of_nat k) (Z.of_nat t) top = Ok p).
Proof.
  intros f g Hf Hg m T top. split.
  - intros k topic P. assert (Same : forall t, print_topic f g m topic t top = print_topic f g m (Z.of_nat k) t top).
    { intros t. unfold print_topic. rewrite (get_pos (q_chains m) k topic []) by (rewrite (t_topics m T); exact P).
      rewrite (get_pos (q_chains m) k (Z.of_nat k) []); [reflexivity|]. rewrite (t_topics m T). split; [apply P | left; reflexivity]. }
    destruct (mapM_get (fun time => print_topic f g m topic (Z.of_nat time) top) (seq 0 (q_slices m))) as (l & E & L & G).
    { intros t Ht. apply in_seq in Ht. destruct (seq_print_topic f g Hf Hg m T k t topic (Z.of_nat t) top P) as (idxs & E & _); [split; [lia | left; reflexivity]|]. eexists; exact E. }
    exists l. split; [exact E|]. rewrite seq_length in L. split; [exact L|]. intros t Lt. destruct (G t t) as (p & E1 & E2).
    { rewrite nth_error_nth' with (d := 0) by (rewrite seq_length; exact Lt). rewrite seq_nth by exact Lt. reflexivity. }
    exists p. split; [exact E1|]. rewrite <- Same. exact E2.
  - intros t time P. assert (Same : forall k, k < q_topics m -> print_topic f g m (Z.of_nat k) time top = print_topic f g m (Z.of_nat k) (Z.of_nat t) top).
    { intros k Lk. unfold print_topic. rewrite (get_pos (q_chains m) k (Z.of_nat k) []) by (rewrite (t_topics m T); split; [exact Lk | left; reflexivity]). cbn [rbind].
      assert (Hc : In (nth k (q_chains m) []) (q_chains m)) by (apply nth_In; rewrite (t_topics m T); exact Lk). destruct (t_chains m T _ Hc) as [Lc _].
      rewrite (get_pos (nth k (q_chains m) []) t time []) by (rewrite Lc; exact P). rewrite (get_pos (nth k (q_chains m) []) t (Z.of_nat t) []); [reflexivity|]. rewrite Lc. split; [apply P | left; reflexivity]. }
    destruct (mapM_get (fun topic => print_topic f g m (Z.of_nat topic) time top) (seq 0 (q_topics m))) as (l & E & L & G).
    { intros k Hk. apply in_seq in Hk. destruct (seq_print_topic f g Hf Hg m T k t (Z.of_nat k) time top) as (idxs & E & _); [split; [lia | left; reflexivity] | exact P |]. eexists; exact E. }
    exists l. split; [exact E|]. rewrite seq_length in L. split; [exact L|]. intros k Lk. destruct (G k k) as (p & E1 & E2).
    { rewrite nth_error_nth' with (d := 0) by (rewrite seq_length; exact Lk). rewrite seq_nth by exact Lk. reflexivity. }
    exists p. split; [exact E1|]. rewrite <- Same by exact Lk. exact E2.
Qed.
Print Assumptions seq_lists.

(** The topics for the coherence: the (at most) twenty most probable words of every topic in the slice, best first. *)
Theorem seq_coherence : forall np_argsort np_argpartition, argsort_contract np_argsort -> argpartition_contract np_argpartition ->
  forall m, trained m -> forall t time, position (q_slices m) t time ->
  exists l, dtm_coherence np_argsort np_argpartition m time = Ok l /\ length l = q_topics m /\
    forall k, k < q_topics m -> exists idxs, nth_error l k = Some (map (word m) idxs) /\
      is_topn (fun i j => prob m k t j <= prob m k t i)%Q (length (q_id2word m)) 20 idxs.
Proof.
  intros f g Hf Hg m T t time P. destruct (seq_lists f g Hf Hg m T 20) as [_ S]. destruct (S t time P) as (l & E & L & G). unfold dtm_coherence. rewrite E. cbn [rbind].
  exists (map (map fst) l). split; [reflexivity|]. rewrite map_length. split; [exact L|]. intros k Lk. destruct (G k Lk) as (p & E1 & E2).
  destruct (seq_print_topic f g Hf Hg m T k t (Z.of_nat k) (Z.of_nat t) 20) as (idxs & E3 & N); [split; [exact Lk | left; reflexivity] | split; [apply P | left; reflexivity] |].
  rewrite E2 in E3. injection E3 as ->. exists idxs. split; [|exact N]. rewrite nth_error_map, E1. cbn [option_map]. rewrite map_map. reflexivity.
Qed.
Print Assumptions seq_coherence.

(** The total of a term in the corpus. *)
Definition occurrences (corpus : list (list (Z * Q))) (w : nat) : Q := total (map snd (filter (fun tf => (fst tf =? Z.of_nat w)%Z) (concat corpus))).
Definition in_vocabulary (m : seqmodel) (corpus : list (list (Z * Q))) : Prop := forall tf, In tf (concat corpus) -> (0 <= fst tf < Z.of_nat (length (q_id2word m)))%Z.
Lemma total_app : forall x y, (total (x ++ y) == total x + total y)%Q.
Proof. induction x as [|a x IH]; intros y; cbn [app total fold_right]; [unfold total; lra|]. unfold total in *. rewrite IH. lra. Qed.
Lemma rfold_concat : forall {A S} (f : S -> A -> result S) (ls : list (list A)) s, rfold (fun s l => rfold f l s) ls s = rfold f (concat ls) s.
Proof.
  intros A S f ls. induction ls as [|l ls IH]; intros s; [reflexivity|]. cbn [rfold concat].
  assert (Ap : forall l1 l2 s, rfold f (l1 ++ l2) s = rbind (rfold f l1 s) (rfold f l2)).
  { induction l1 as [|x l1 IH1]; intros l2 s'; [reflexivity|]. cbn [app rfold]. destruct (f s' x); cbn [rbind]; [apply IH1 | reflexivity]. }
  rewrite Ap. destruct (rfold f l s); cbn [rbind]; [apply IH | reflexivity].
Qed.
Lemma count_ok : forall l freqs, (forall tf, In tf l -> (0 <= fst tf < Z.of_nat (length freqs))%Z) ->
  exists r, rfold count_term l freqs = Ok r /\ length r = length freqs /\
    forall w, w < length freqs -> (nth w r 0 == nth w freqs 0 + total (map snd (filter (fun tf => (fst tf =? Z.of_nat w)%Z) l)))%Q.
Proof.
  induction l as [|[z q] l IH]; intros freqs H; [exists freqs; split; [reflexivity|]; split; [reflexivity|]; intros w _; cbn; lra|].
  pose proof (H (z, q) (or_introl eq_refl)) as Hz. cbn [fst] in Hz. cbn [rfold]. unfold count_term at 1. cbn [fst snd].
  rewrite (np_pos (length freqs) (Z.to_nat z) z) by (split; lia). cbn [rbind].
  destruct (IH (list_set freqs (Z.to_nat z) (nth (Z.to_nat z) freqs 0 + q)%Q)) as (r & E & L & G); [rewrite length_list_set; intros tf Ht; apply H; right; exact Ht|].
  rewrite length_list_set in *. exists r. split; [exact E|]. split; [exact L|]. intros w Lw. rewrite (G w Lw), nth_list_set by lia. cbn [filter fst].
  destruct (Nat.eqb_spec (Z.to_nat z) w) as [Ew|Nw].
  - subst w. replace (z =? Z.of_nat (Z.to_nat z))%Z with true by lia. cbn [map snd total fold_right]. unfold total. lra.
  - replace (z =? Z.of_nat w)%Z with false by lia. lra.
Qed.
(** What [dtm_vis] hands to pyLDAvis: distributions over topics for every document and over words for every topic, the words in the
    order of their ids and the total of every word in the corpus; the lengths count the entries of the documents. *)
Theorem seq_vis : forall m, trained m -> 0 < length (q_id2word m) -> forall t time corpus, position (q_slices m) t time -> in_vocabulary m corpus ->
  exists v, dtm_vis m time corpus = Ok v /\
    (length (v_doc_topic v) = length (q_gammas m) /\ forall x, In x (v_doc_topic v) -> length x = q_topics m /\ distribution x) /\
    (length (v_topic_term v) = q_topics m /\ (forall x, In x (v_topic_term v) -> distribution x) /\
       forall k i, k < q_topics m -> i < length (q_id2word m) -> nth i (nth k (v_topic_term v) []) 0%Q = prob m k t i) /\
    v_vocab v = map (word m) (seq 0 (length (q_id2word m))) /\
    (length (v_term_frequency v) = length (q_id2word m) /\ forall w, w < length (q_id2word m) -> (nth w (v_term_frequency v) 0 == occurrences corpus w)%Q) /\
    v_doc_lengths v = map (@length (Z * Q)) corpus.
Proof.
  intros m T NW t time corpus P V. unfold dtm_vis.
  assert (E1 : rmapM (fun chain => let* row := py_get chain time in Ok (normalize row)) (q_chains m) = Ok (map (fun chain => normalize (nth t chain [])) (q_chains m))).
  { apply mapM_ok. intros chain Hc. destruct (t_chains m T _ Hc) as [Lc _]. rewrite (get_pos chain t time []) by (rewrite Lc; exact P). reflexivity. }
  rewrite E1. cbn [rbind]. rewrite rfold_concat.
  destruct (count_ok (concat corpus) (repeat 0%Q (length (q_id2word m)))) as (r & E2 & L2 & G2); [rewrite repeat_length; exact V|].
  rewrite E2. cbn [rbind]. rewrite repeat_length in L2, G2. rewrite (mapM_ok _ (word m)).
  2:{ intros i Hi. apply in_seq in Hi. pose proof (t_words m T i) as Wi. unfold word. destruct (dget (q_id2word m) i); [reflexivity|]. exfalso. apply Wi; [lia | reflexivity]. }
  cbn [rbind]. eexists. split; [reflexivity|]. cbn [v_doc_topic v_topic_term v_vocab v_term_frequency v_doc_lengths]. rewrite !map_length.
  assert (Row : forall chain, In chain (q_chains m) -> length (nth t chain []) = length (q_id2word m) /\ forall x, In x (nth t chain []) -> (0 < x)%Q).
  { intros chain Hc. destruct (t_chains m T _ Hc) as [Lc Hr]. apply Hr. apply nth_In. rewrite Lc. apply P. }
  split; [split; [reflexivity|]|split; [split; [apply (t_topics m T)|split]|split; [reflexivity|split; [split; [exact L2|]|reflexivity]]]].
  - intros x Hx. apply in_map_iff in Hx. destruct Hx as (g & <- & Hg). destruct (t_gammas m T g Hg) as [Lg Pg]. split; [unfold normalize; rewrite map_length; exact Lg|].
    apply normalize_dist; [|exact Pg]. intros ->. pose proof (t_some m T). cbn in Lg. lia.
  - intros x Hx. apply in_map_iff in Hx. destruct Hx as (chain & <- & Hc). destruct (Row chain Hc) as [L Po]. apply normalize_dist; [|exact Po]. intros E. rewrite E in L. cbn in L. lia.
  - intros k i Lk Li. rewrite <- (t_topics m T) in Lk. rewrite nth_indep with (d' := (fun chain => normalize (nth t chain [])) []) by (rewrite map_length; exact Lk).
    rewrite (map_nth (fun chain => normalize (nth t chain []))). rewrite nth_normalize. destruct (Row (nth k (q_chains m) []) (nth_In _ _ Lk)) as [L _]. rewrite L.
    destruct (Nat.ltb_spec i (length (q_id2word m))); [reflexivity | lia].
  - intros w Lw. rewrite (G2 w Lw). rewrite nth_repeat. unfold occurrences. lra.
Qed.
Print Assumptions seq_vis.

(** [doc_topics] is the mixture of the document, from the front or from the end. *)
Theorem seq_mixture : forall m, trained m -> forall d z, position (length (q_gammas m)) d z ->
  exists x, mixture m z = Ok x /\ distribution x /\ length x = q_topics m /\
    forall k, k < q_topics m -> (nth k x 0 * total (nth d (q_gammas m) []) == nth k (nth d (q_gammas m) []) 0)%Q.
Proof.
  intros m T d z P. unfold mixture. rewrite (get_pos (map normalize (q_gammas m)) d z (normalize [])) by (rewrite map_length; exact P). rewrite map_nth.
  destruct (t_gammas m T (nth d (q_gammas m) [])) as [L Po]; [apply nth_In; apply P|].
  assert (N : nth d (q_gammas m) [] <> []) by (intros E; rewrite E in L; pose proof (t_some m T); cbn in L; lia).
  eexists. split; [reflexivity|]. split; [apply normalize_dist; assumption|]. split; [unfold normalize; rewrite map_length; exact L|].
  intros k Lk. rewrite nth_normalize, L. destruct (Nat.ltb_spec k (q_topics m)); [|lia]. pose proof (total_pos _ N Po). field. intros E. lra.
Qed.
Print Assumptions seq_mixture.

(** ** Examples and violations *)
Definition ex_seq : seqmodel := mkSeq [[[1; 2; 1]; [3; 2; 5]]; [[2; 4; 2]; [1; 1; 8]]]%Q [[1; 3]; [2; 2]]%Q [(0, str "a"); (2, str "c"); (1, str "b")] 2 2.
Definition ex_print := print_topic ref_argsort ref_argpartition ex_seq.
Lemma ex_trained : trained ex_seq.
Proof.
  split; [reflexivity | cbn; lia | | |].
  - intros chain [<-|[<-|[]]]; (split; [reflexivity|]); intros row [<-|[<-|[]]]; (split; [reflexivity|]); intros x [<-|[<-|[<-|[]]]]; reflexivity.
  - intros g [<-|[<-|[]]]; (split; [reflexivity|]); intros x [<-|[<-|[]]]; reflexivity.
  - intros [|[|[|i]]] L; cbn in *; try discriminate; lia.
Qed.
Example seq_views_ex :
  ex_print 0 0 1 = Ok [(str "b", 2#4)]%Q /\ ex_print (-1) (-1) 2 = Ok [(str "c", 8#10); (str "a", 1#10)]%Q /\ ex_print 2 0 2 = Err IndexError /\ ex_print 0 (-3) 2 = Err IndexError /\
  dtm_coherence ref_argsort ref_argpartition ex_seq 1 = Ok [[str "c"; str "a"; str "b"]; [str "c"; str "a"; str "b"]].
Proof. vm_compute. repeat split. Qed.
Example seq_vis_ex : exists v, dtm_vis ex_seq 0 [[(0%Z, 1%Q); (2%Z, 3%Q)]; [(2%Z, (1#2)%Q)]] = Ok v /\ Forall2 Qeq (v_term_frequency v) [1; 0; 7#2]%Q /\ v_vocab v = [str "a"; str "b"; str "c"].
Proof. eexists. split; [vm_compute; reflexivity|]. split; [repeat constructor | reflexivity]. Qed.

(** The lengths of the documents are not the numbers of their words: they need not add up to the total of the words. *)
Theorem seq_lengths_refuted : exists m corpus v, trained m /\ in_vocabulary m corpus /\ dtm_vis m 0 corpus = Ok v /\
  v_doc_lengths v = [2] /\ (total (map snd (concat corpus)) == 4)%Q /\ (total (v_term_frequency v) == 4)%Q.
Proof.
  exists ex_seq, [[(0%Z, 1%Q); (2%Z, 3%Q)]]. eexists. split; [apply ex_trained|]. split; [intros tf [<-|[<-|[]]]; cbn; lia|].
  split; [vm_compute; reflexivity|]. split; [reflexivity|]. split; vm_compute; reflexivity.
Qed.
(** A gap in the ids: the topics can be printed or not depending on what is asked for, the visualisation always fails. *)
Theorem seq_gap_refuted : exists m, length (q_chains m) = q_topics m /\ NoDup (dkeys (q_id2word m)) /\
  print_topic ref_argsort ref_argpartition m 0 0 1 = Ok [(str "a", 5#8)]%Q /\ print_topic ref_argsort ref_argpartition m 0 0 2 = Err KeyError /\
  dtm_vis m 0 [] = Err KeyError /\ dtm_vis m 0 [[(2%Z, 1%Q)]] = Err IndexError.
Proof.
  exists (mkSeq [[[5; 3]]]%Q [[1]]%Q [(0, str "a"); (2, str "c")] 1 1). split; [reflexivity|]. split; [repeat constructor; cbn; intuition discriminate|].
  vm_compute. repeat split.
Qed.
