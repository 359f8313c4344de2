(** Which weights a Doc2Vec document changes, in training and in inference (property C78). *)
From Verif Require Import Base KeyedVectors_Model KeyedVectors_Proofs TrainJobs_Model W2vStep_Model.
From Coq Require Import QArith Qabs.
Close Scope Q_scope.
Local Open Scope nat_scope.

Lemma fold_inv : forall {A B} (P : A -> Prop) (f : A -> B -> A) l a, P a -> (forall a b, In b l -> P a -> P (f a b)) -> P (fold_left f l a).
Proof.
  intros A B P f l. induction l as [|b l IH]; intros a H Hs; [exact H|]. cbn [fold_left]. apply IH; [apply Hs; [now left | exact H]|].
  intros a' b' Hb. apply Hs. now right.
Qed.
Lemma row_set : forall {F} (X : list (list F)) c v i, i <> c -> row (set_nth X c v) i = row X i.
Proof.
  intros F X. unfold row. induction X as [|x X IH]; intros [|c] v [|i] N; cbn; try reflexivity; try congruence. apply IH. congruence.
Qed.
Lemma row_set_same : forall {F} (X : list (list F)) c, set_nth X c (row X c) = X.
Proof. intros F X. unfold row. induction X as [|x X IH]; intros [|c]; cbn; [reflexivity | reflexivity | reflexivity|]. now rewrite IH. Qed.
Lemma window_in : forall window reduced start stop i j, In j (window_of window reduced start stop i) -> j < stop.
Proof. intros window reduced start stop i j H. unfold window_of in H. apply filter_In in H. destruct H as [H _]. apply in_seq in H. lia. Qed.

Section Train.
Context {F S : Type}.
Variables (f0 f1 junk : F) (fadd fsub fmul : F -> F -> F) (fneg : F -> F) (finv : nat -> F) (skip : F -> bool) (act logact : F -> F) (draw : S -> nat * S).
Notation mat := (list (list F)).
Notation OUT := (out_pass f0 f1 fadd fsub fmul fneg skip act logact).
Notation STEP := (out_step f0 f1 fadd fsub fmul fneg skip act logact).
Notation weights := (@weights F S).
Notation config := (@config F).

Lemma out_step_rows : forall hs cl lh alpha h work W loss t, exists work' W' loss',
  STEP hs cl lh alpha h (work, W, loss) t = (work', W', loss') /\ (lh = false -> W' = W) /\ (forall r, r <> fst t -> row W' r = row W r).
Proof.
  intros hs cl lh alpha h work W loss [r b]. unfold out_step.
  destruct (skip (dot f0 fadd fmul h (row W r))); [do 3 eexists; split; [reflexivity|]; auto|].
  destruct (cl && skip (loss_arg fneg hs b (dot f0 fadd fmul h (row W r)))); [do 3 eexists; split; [reflexivity|]; auto|].
  do 3 eexists. split; [reflexivity|]. split; [intros ->; reflexivity|]. intros r' N. destruct lh; [|reflexivity]. now apply row_set.
Qed.
Lemma out_pass_rows : forall hs cl lh alpha h ts work W loss, exists work' W' loss',
  OUT hs cl lh alpha h ts (work, W, loss) = (work', W', loss') /\ (lh = false -> W' = W) /\ (forall r, ~ In r (map fst ts) -> row W' r = row W r).
Proof.
  intros hs cl lh alpha h ts. unfold out_pass. induction ts as [|t ts IH]; intros work W loss; [do 3 eexists; split; [reflexivity|]; auto|].
  cbn [fold_left]. destruct (out_step_rows hs cl lh alpha h work W loss t) as (w1 & W1 & l1 & -> & A & B).
  destruct (IH w1 W1 l1) as (w2 & W2 & l2 & -> & C & D). do 3 eexists. split; [reflexivity|]. split; [intros E; rewrite C, A; auto|].
  intros r N. cbn [map] in N. rewrite D, B; [reflexivity | |]; intros HI; apply N; [left; auto | right; auto].
Qed.
Lemma dbow_update_rows : forall hs cl lc lh alpha lf size X c ts W loss, exists X' W' loss',
  dbow_update f0 f1 fadd fsub fmul fneg skip act logact hs cl lc lh alpha lf size X c ts W loss = (X', W', loss') /\
  (lc = false -> X' = X) /\ (forall i, i <> c -> row X' i = row X i) /\ length X' = length X /\
  (lh = false -> W' = W) /\ (forall r, ~ In r (map fst ts) -> row W' r = row W r).
Proof.
  intros hs cl lc lh alpha lf size X c ts W loss. unfold dbow_update. destruct (out_pass_rows hs cl lh alpha (row X c) ts (repeat f0 size) W loss) as (w & W' & l & -> & A & B).
  do 3 eexists. split; [reflexivity|]. split; [intros ->; reflexivity|]. split; [intros i N; destruct lc; [now apply row_set | reflexivity]|].
  split; [destruct lc; [apply set_nth_length | reflexivity]|]. auto.
Qed.
Lemma spread_rows : forall lf work is (X : mat), let X' := spread fadd fmul lf work X is in
  (forall i, ~ In i is -> row X' i = row X i) /\ length X' = length X.
Proof.
  intros lf work is. unfold spread. induction is as [|j is IH]; intros X; [split; auto|]. cbn [fold_left]. cbn zeta in *.
  destruct (IH (set_nth X j (saxpy fadd fmul (lf j) work (row X j)))) as [A B]. split; [|rewrite B; apply set_nth_length].
  intros i N. rewrite A, row_set; [reflexivity | |]; intros E; apply N; [left; congruence | now right].
Qed.
Lemma spread_pieces_rows : forall lf v off work is (X : mat), let X' := spread_pieces fadd fmul lf v off work X is in
  (forall i, ~ In i is -> row X' i = row X i) /\ length X' = length X.
Proof.
  intros lf v off work is X. cbn zeta. unfold spread_pieces. 
  assert (G : forall ps (X : mat), let X' := fold_left (fun X p => set_nth X (snd p) (saxpy fadd fmul (lf (snd p)) (piece v (off + fst p) work) (row X (snd p)))) ps X in
    (forall i, ~ In i (map snd ps) -> row X' i = row X i) /\ length X' = length X).
  { induction ps as [|p ps IH]; intros Y; [split; auto|]. cbn [fold_left]. cbn zeta in *.
    destruct (IH (set_nth Y (snd p) (saxpy fadd fmul (lf (snd p)) (piece v (off + fst p) work) (row Y (snd p))))) as [A B]. split; [|rewrite B; apply set_nth_length].
    intros i N. cbn [map] in N. rewrite A, row_set; [reflexivity | |]; intros E; apply N; [left; congruence | now right]. }
  destruct (G (combine (seq 0 (length is)) is) X) as [A B]. split; [|exact B]. intros i N. apply A. intros HI. apply N.
  apply in_map_iff in HI. destruct HI as ([a b] & <- & HI). eapply in_combine_r; eauto.
Qed.

(** ** Training *)
(** [m'] differs from [m] at most in the rows [ws] of the words, [ts] of the tags, and in the hidden layer only if [lh]; of
    the nodes of the Huffman tree only [nodes] change. *)
Definition touched (ws ts nodes : list nat) (lw lt lh : bool) (m m' : weights) : Prop :=
  (lw = false -> w_words m' = w_words m) /\ (forall i, ~ In i ws -> row (w_words m') i = row (w_words m) i) /\
  (lt = false -> w_tags m' = w_tags m) /\ (forall i, ~ In i ts -> row (w_tags m') i = row (w_tags m) i) /\
  (lh = false -> w_syn1 m' = w_syn1 m /\ w_neg m' = w_neg m) /\ (forall r, ~ In r nodes -> row (w_syn1 m') r = row (w_syn1 m) r) /\
  length (w_words m') = length (w_words m) /\ length (w_tags m') = length (w_tags m).
Lemma touched_refl : forall ws ts nodes lw lt lh m, touched ws ts nodes lw lt lh m m.
Proof. intros. repeat split; auto. Qed.
Lemma touched_trans : forall ws ts nodes lw lt lh m1 m2 m3, touched ws ts nodes lw lt lh m1 m2 -> touched ws ts nodes lw lt lh m2 m3 -> touched ws ts nodes lw lt lh m1 m3.
Proof.
  intros ws ts nodes lw lt lh m1 m2 m3 (A1 & A2 & A3 & A4 & A5 & A6 & A7 & A8) (B1 & B2 & B3 & B4 & B5 & B6 & B7 & B8). unfold touched.
  split; [intros; rewrite B1, A1; auto|]. split; [intros; rewrite B2, A2; auto|]. split; [intros; rewrite B3, A3; auto|]. split; [intros; rewrite B4, A4; auto|].
  split; [intros H; destruct (A5 H), (B5 H); split; congruence|]. split; [intros; rewrite B6, A6; auto|]. split; congruence.
Qed.
Definition nodes_of (c : config) (idx : list nat) : list nat := flat_map (fun w => map fst (c_path c w)) idx.
Lemma hs_nodes : forall c idx w r, In w idx -> ~ In r (nodes_of c idx) -> ~ In r (map fst (hs_targets (c_path c w))).
Proof.
  intros c idx w r Hw N HI. apply N. unfold nodes_of. apply in_flat_map. exists w. split; [exact Hw|]. unfold hs_targets in HI. rewrite map_map in HI. cbn in HI. exact HI.
Qed.

Lemma dbow_words_touched : forall c l m w ctx idx ts, In w idx -> In ctx idx ->
  touched idx ts (nodes_of c idx) (l_words l) (l_tags l) (l_hidden l) m (dbow_words f0 f1 junk fadd fsub fmul fneg skip act logact draw c l m w ctx).
Proof.
  intros c l m w ctx idx ts Hw Hc. unfold dbow_words. set (lf := lock _ _ _ _).
  assert (H1 : touched idx ts (nodes_of c idx) (l_words l) (l_tags l) (l_hidden l) m
     (if c_hs c then let '(X, W, _) := dbow_update f0 f1 fadd fsub fmul fneg skip act logact true false (l_words l) (l_hidden l) (c_alpha c) lf (c_size c) (w_words m) ctx (hs_targets (c_path c w)) (w_syn1 m) f0 in
      Weights X (w_tags m) W (w_neg m) (w_rnd m) else m)).
  { destruct (c_hs c); [|apply touched_refl].
    destruct (dbow_update_rows true false (l_words l) (l_hidden l) (c_alpha c) lf (c_size c) (w_words m) ctx (hs_targets (c_path c w)) (w_syn1 m) f0) as (X & W & lo & -> & A & B & C & D & E).
    unfold touched. cbn. repeat split; auto. intros i N. apply B. congruence. intros r N. apply E. eapply hs_nodes; eauto. }
  set (m1 := if c_hs c then _ else m) in *. clearbody m1. destruct (c_negative c =? 0); [exact H1|]. destruct (draws draw (c_negative c) (w_rnd m1)) as [ds s].
  destruct (dbow_update_rows false false (l_words l) (l_hidden l) (c_alpha c) lf (c_size c) (w_words m1) ctx (neg_targets w ds) (w_neg m1) f0) as (X & W & lo & -> & A & B & C & D & E).
  eapply touched_trans; [exact H1|]. unfold touched. cbn. repeat split; auto. intros i N. apply B. congruence.
Qed.
Lemma dbow_tags_touched : forall c l m w tag idx ws ts, In w idx -> In tag ts ->
  touched ws ts (nodes_of c idx) (l_words l) (l_tags l) (l_hidden l) m (dbow_tags f0 f1 junk fadd fsub fmul fneg skip act logact draw c l m w tag) /\
  w_words (dbow_tags f0 f1 junk fadd fsub fmul fneg skip act logact draw c l m w tag) = w_words m.
Proof.
  intros c l m w tag idx ws ts Hw Hc. unfold dbow_tags. set (lf := lock _ _ _ _).
  assert (H1 : touched ws ts (nodes_of c idx) (l_words l) (l_tags l) (l_hidden l) m
     (if c_hs c then let '(T, W, _) := dbow_update f0 f1 fadd fsub fmul fneg skip act logact true false (l_tags l) (l_hidden l) (c_alpha c) lf (c_size c) (w_tags m) tag (hs_targets (c_path c w)) (w_syn1 m) f0 in
      Weights (w_words m) T W (w_neg m) (w_rnd m) else m) /\ w_words (if c_hs c then let '(T, W, _) := dbow_update f0 f1 fadd fsub fmul fneg skip act logact true false (l_tags l) (l_hidden l) (c_alpha c) lf (c_size c) (w_tags m) tag (hs_targets (c_path c w)) (w_syn1 m) f0 in
      Weights (w_words m) T W (w_neg m) (w_rnd m) else m) = w_words m).
  { destruct (c_hs c); [|split; [apply touched_refl | reflexivity]].
    destruct (dbow_update_rows true false (l_tags l) (l_hidden l) (c_alpha c) lf (c_size c) (w_tags m) tag (hs_targets (c_path c w)) (w_syn1 m) f0) as (X & W & lo & -> & A & B & C & D & E).
    unfold touched. cbn. repeat split; auto. intros i N. apply B. congruence. intros r N. apply E. eapply hs_nodes; eauto. }
  set (m1 := if c_hs c then _ else m) in *. destruct H1 as [H1 H2]. destruct (c_negative c =? 0); [split; assumption|]. destruct (draws draw (c_negative c) (w_rnd m1)) as [ds s].
  destruct (dbow_update_rows false false (l_tags l) (l_hidden l) (c_alpha c) lf (c_size c) (w_tags m1) tag (neg_targets w ds) (w_neg m1) f0) as (X & W & lo & -> & A & B & C & D & E).
  cbn. split; [|exact H2]. eapply touched_trans; [exact H1|]. unfold touched. cbn. repeat split; auto. intros i N. apply B. congruence.
Qed.

(** Training a document changes only the vectors of its tags and of its words, and of those only what it may. *)
Theorem dbow_touches : forall c l idx reduced tags m, let m' := fst (train_dbow f0 f1 junk fadd fsub fmul fneg skip act logact draw c l idx reduced tags m) in
  touched idx tags (nodes_of c idx) (l_words l) (l_tags l) (l_hidden l) m m' /\ (c_train_words c = false -> w_words m' = w_words m).
Proof.
  intros c l idx reduced tags m. cbn zeta. unfold train_dbow. cbn [fst].
  apply (fold_inv (fun m' => touched idx tags (nodes_of c idx) (l_words l) (l_tags l) (l_hidden l) m m' /\ (c_train_words c = false -> w_words m' = w_words m)));
    [split; [apply touched_refl | reflexivity]|].
  intros m1 i Hi [H1 H2]. apply in_seq in Hi. unfold dbow_position. set (w := nth i idx 0). assert (Hw : In w idx) by (apply nth_In; lia).
  set (m2 := if c_train_words c then _ else m1).
  assert (H3 : touched idx tags (nodes_of c idx) (l_words l) (l_tags l) (l_hidden l) m m2 /\ (c_train_words c = false -> w_words m2 = w_words m)).
  { unfold m2. destruct (c_train_words c); [|split; assumption]. split; [|discriminate]. apply fold_inv; [exact H1|]. intros m3 j Hj H3. eapply touched_trans; [exact H3|].
    apply dbow_words_touched; [exact Hw|]. apply nth_In. apply window_in in Hj. exact Hj. }
  destruct H3 as [H3 H4].
  apply (fold_inv (fun m' => touched idx tags (nodes_of c idx) (l_words l) (l_tags l) (l_hidden l) m m' /\ (c_train_words c = false -> w_words m' = w_words m))); [split; assumption|].
  intros m4 t Ht [H5 H6]. destruct (dbow_tags_touched c l m4 w t idx idx tags Hw Ht) as [H7 H8]. split; [eapply touched_trans; eauto|]. intros E. rewrite H8. auto.
Qed.
Theorem dm_touches : forall c l idx reduced tags m, 
  touched idx tags (nodes_of c idx) (l_words l) (l_tags l) (l_hidden l) m (fst (train_dm f0 f1 junk fadd fsub fmul fneg finv skip act logact draw c l idx reduced tags m)).
Proof.
  intros c l idx reduced tags m. unfold train_dm. cbn [fst].
  apply (fold_inv (fun m' => touched idx tags (nodes_of c idx) (l_words l) (l_tags l) (l_hidden l) m m')); [apply touched_refl|].
  intros m1 i Hi H1. apply in_seq in Hi. eapply touched_trans; [exact H1|]. unfold dm_position. set (w := nth i idx 0). assert (Hw : In w idx) by (apply nth_In; lia).
  set (ws := map _ (window_of _ _ _ _ _)). set (path := if c_hs c then _ else _).
  destruct (if c_negative c =? 0 then ([], w_rnd m1) else draws draw (c_negative c) (w_rnd m1)) as [ds s]. set (negs := if c_negative c =? 0 then _ else _).
  unfold ctx_step. set (h := compose _ _ _ _ _ _ _ _ _ _ _).
  destruct (out_pass_rows true false (l_hidden l) (c_alpha c) h path (repeat f0 (c_size c)) (w_syn1 m1) f0) as (k1 & W1 & l1 & -> & A & B).
  destruct (out_pass_rows false false (l_hidden l) (c_alpha c) h negs k1 (w_neg m1) l1) as (k2 & W2 & l2 & -> & C & D).
  set (work := if c_mean c then _ else _). set (lw := lock junk (c_words_lockf c) _). set (lt := lock junk (c_tags_lockf c) _).
  destruct (spread_rows lw work ws (w_words m1)) as [E1 E2]. destruct (spread_rows lt work tags (w_tags m1)) as [G1 G2]. cbn zeta in *.
  assert (Sub : forall j, In j ws -> In j idx) by (intros j Hj; apply in_map_iff in Hj; destruct Hj as (p & <- & Hp); apply nth_In; apply window_in in Hp; exact Hp).
  unfold touched. cbn. split; [intros ->; reflexivity|]. split; [destruct (l_words l); [intros j N; apply E1; auto | auto]|].
  split; [intros ->; reflexivity|]. split; [destruct (l_tags l); auto|]. split; [auto|]. split.
  { intros r N. apply B. unfold path. destruct (c_hs c); [eapply hs_nodes; eauto | intros []]. }
  split; [destruct (l_words l); auto | destruct (l_tags l); auto].
Qed.
(** In concatenation mode the null word changes as well; a document with another number of tags changes nothing. *)
Theorem concat_touches : forall c l idx tags m, let r := train_concat f0 f1 junk fadd fsub fmul fneg skip act logact draw c l idx tags m in
  touched (c_null c :: idx) tags (nodes_of c idx) (l_words l) (l_tags l) (l_hidden l) m (fst r) /\ (length tags <> c_tag_count c -> r = (m, 0)).
Proof.
  intros c l idx tags m. cbn zeta. unfold train_concat. destruct (Nat.eqb_spec (length tags) (c_tag_count c)) as [E|E]; cbn [negb fst]; [|split; [apply touched_refl | reflexivity]].
  split; [|congruence]. apply (fold_inv (fun m' => touched (c_null c :: idx) tags (nodes_of c idx) (l_words l) (l_tags l) (l_hidden l) m m')); [apply touched_refl|].
  intros m1 i Hi H1. apply in_seq in Hi. eapply touched_trans; [exact H1|]. unfold concat_position. set (w := nth i idx 0). assert (Hw : In w idx) by (apply nth_In; lia).
  set (win := concat_window c idx i). set (h := concat _).
  assert (Sub : forall j, In j win -> In j (c_null c :: idx)).
  { intros j Hj. unfold win, concat_window in Hj. apply in_map_iff in Hj. destruct Hj as (z & <- & _).
    destruct (Z.ltb_spec z 0); cbn [orb]; [now left|]. destruct (Z.leb_spec (Z.of_nat (length idx)) z); [now left|]. right. apply nth_In. lia. }
  destruct (if c_hs c then OUT true false (l_hidden l) (c_alpha c) h (hs_targets (c_path c w)) (repeat f0 (c_size c), w_syn1 m1, f0) else (repeat f0 (c_size c), w_syn1 m1, f0)) as [[k1 W1] l1] eqn:E1.
  destruct (if c_negative c =? 0 then ([], w_rnd m1) else draws draw (c_negative c) (w_rnd m1)) as [ds s].
  destruct (if c_negative c =? 0 then (k1, w_neg m1, f0) else OUT false false (l_hidden l) (c_alpha c) h (neg_targets w ds) (k1, w_neg m1, f0)) as [[k2 W2] l2] eqn:E2.
  assert (A : (l_hidden l = false -> W1 = w_syn1 m1) /\ (forall r, ~ In r (nodes_of c idx) -> row W1 r = row (w_syn1 m1) r)).
  { destruct (c_hs c); [|injection E1 as <- <- <-; auto].
    destruct (out_pass_rows true false (l_hidden l) (c_alpha c) h (hs_targets (c_path c w)) (repeat f0 (c_size c)) (w_syn1 m1) f0) as (a & b & d & E3 & A & B). rewrite E3 in E1. injection E1 as <- <- <-.
    split; [exact A|]. intros r N. apply B. eapply hs_nodes; eauto. }
  assert (B : l_hidden l = false -> W2 = w_neg m1).
  { destruct (c_negative c =? 0); [injection E2 as <- <- <-; auto|].
    destruct (out_pass_rows false false (l_hidden l) (c_alpha c) h (neg_targets w ds) k1 (w_neg m1) f0) as (a & b & d & E3 & B & _). rewrite E3 in E2. injection E2 as <- <- <-. exact B. }
  set (lw := lock junk (c_words_lockf c) _). set (lt := lock junk (c_tags_lockf c) _).
  destruct (spread_pieces_rows lw (c_vector_size c) (length tags) k2 win (w_words m1)) as [G1 G2]. destruct (spread_pieces_rows lt (c_vector_size c) 0 k2 tags (w_tags m1)) as [K1 K2]. cbn zeta in *.
  destruct A as [A1 A2]. unfold touched. cbn [w_words w_tags w_syn1 w_neg]. split; [intros ->; reflexivity|]. split; [destruct (l_words l); [intros j N; apply G1; auto | auto]|].
  split; [intros ->; reflexivity|]. split; [destruct (l_tags l); auto|]. split; [auto|]. split; [exact A2|].
  split; [destruct (l_words l); auto | destruct (l_tags l); auto].
Qed.

(** ** Inference *)
Notation INFER := (infer_vector f0 f1 junk fadd fsub fmul fneg finv skip act logact draw).
Theorem infer_untouched : forall md c start kept reduced alphas epochs m v m', INFER md c start kept reduced alphas epochs m = (v, m') ->
  w_words m' = w_words m /\ w_tags m' = w_tags m /\ w_syn1 m' = w_syn1 m /\ w_neg m' = w_neg m.
Proof.
  intros md c start kept reduced alphas epochs m v m' H. unfold infer_vector in H. injection H as _ <-. cbn [w_words w_tags w_syn1 w_neg].
  set (P := fun x : weights => w_words x = w_words m /\ w_syn1 x = w_syn1 m /\ w_neg x = w_neg m).
  assert (X : P (fold_left (infer_epoch f0 f1 junk fadd fsub fmul fneg finv skip act logact draw md c kept reduced alphas) (seq 0 epochs) (Weights (w_words m) [start] (w_syn1 m) (w_neg m) (w_rnd m)))).
  { apply fold_inv; [unfold P; auto|]. intros x e _ (X1 & X2 & X3). unfold infer_epoch.
    assert (T : forall ws ts nodes y, touched ws ts nodes false true false x y -> P y).
    { intros ws ts nodes y (T1 & _ & _ & _ & T5 & _). destruct (T5 eq_refl). unfold P. rewrite T1 by reflexivity. intuition congruence. }
    destruct md.
    - eapply T. exact (proj1 (dbow_touches (set_alpha f1 c (alphas e)) infer_only (kept e) (reduced e) [0] x)).
    - eapply T. exact (dm_touches (set_alpha f1 c (alphas e)) infer_only (kept e) (reduced e) [0] x).
    - eapply T. exact (proj1 (concat_touches (set_alpha f1 c (alphas e)) infer_only (kept e) [0] x)). }
  destruct X as (X1 & X2 & X3). auto.
Qed.
(** In concatenation mode with [dm_tag_count] other than 1 nothing is inferred. *)
Theorem infer_concat_tags : forall c start kept reduced alphas epochs m, c_tag_count c <> 1 -> fst (INFER DmConcat c start kept reduced alphas epochs m) = start.
Proof.
  intros c start kept reduced alphas epochs m N. unfold infer_vector. cbn [fst].
  assert (X : w_tags (fold_left (infer_epoch f0 f1 junk fadd fsub fmul fneg finv skip act logact draw DmConcat c kept reduced alphas) (seq 0 epochs) (Weights (w_words m) [start] (w_syn1 m) (w_neg m) (w_rnd m))) = [start]).
  { apply (fold_inv (fun x : weights => w_tags x = [start])); [reflexivity|]. intros x e _ Hx. unfold infer_epoch.
    destruct (concat_touches (set_alpha f1 c (alphas e)) infer_only (kept e) [0] x) as [_ Hc]. rewrite Hc; [exact Hx|]. cbn. congruence. }
  rewrite X. reflexivity.
Qed.
(** A document without known words changes nothing, but its tags are counted as words. *)
Theorem no_words_nothing : forall c l reduced tags m,
  train_dbow f0 f1 junk fadd fsub fmul fneg skip act logact draw c l [] reduced tags m = (m, length tags) /\
  train_dm f0 f1 junk fadd fsub fmul fneg finv skip act logact draw c l [] reduced tags m = (m, length tags).
Proof. intros. split; reflexivity. Qed.

(** ** Lock factors *)
Hypothesis zero_lock : forall x y, fadd (fmul f0 x) y = y.
Lemma saxpy_zero : forall x y, saxpy fadd fmul f0 x y = y.
Proof. intros x. induction x as [|a x IH]; intros [|b y]; cbn; [reflexivity | reflexivity | reflexivity|]. now rewrite zero_lock, IH. Qed.
Lemma dbow_update_locked : forall hs cl lc lh alpha lf size X c ts W loss i, (i = c -> lf = f0) ->
  row (fst (fst (dbow_update f0 f1 fadd fsub fmul fneg skip act logact hs cl lc lh alpha lf size X c ts W loss))) i = row X i.
Proof.
  intros hs cl lc lh alpha lf size X c ts W loss i H. unfold dbow_update. destruct (out_pass _ _ _ _ _ _ _ _ _ _ _ _ _ _ _ _) as [[work W'] l']. cbn [fst].
  destruct lc; [|reflexivity]. destruct (Nat.eq_dec i c) as [E|E]; [|now apply row_set]. rewrite (H E), saxpy_zero, row_set_same. reflexivity.
Qed.
Lemma spread_locked : forall lf work is (X : mat) i, lf i = f0 -> row (spread fadd fmul lf work X is) i = row X i.
Proof.
  intros lf work is. unfold spread. induction is as [|j is IH]; intros X i H; [reflexivity|]. cbn [fold_left]. rewrite IH by exact H.
  destruct (Nat.eq_dec i j) as [->|E]; [|now apply row_set]. rewrite H, saxpy_zero, row_set_same. reflexivity.
Qed.
Lemma spread_pieces_locked : forall lf v off work is (X : mat) i, lf i = f0 -> row (spread_pieces fadd fmul lf v off work X is) i = row X i.
Proof.
  intros lf v off work is X i H. unfold spread_pieces. revert X. induction (combine (seq 0 (length is)) is) as [|p ps IH]; intros X; [reflexivity|]. cbn [fold_left]. rewrite IH.
  destruct (Nat.eq_dec i (snd p)) as [->|E]; [|now apply row_set]. rewrite H, saxpy_zero, row_set_same. reflexivity.
Qed.
Lemma dbow_words_locked : forall c l m w ctx i, (i = ctx -> lock junk (c_words_lockf c) (length (c_words_lockf c)) ctx = f0) ->
  row (w_words (dbow_words f0 f1 junk fadd fsub fmul fneg skip act logact draw c l m w ctx)) i = row (w_words m) i.
Proof.
  intros c l m w ctx i H. unfold dbow_words. set (lf := lock _ _ _ _) in *.
  assert (H1 : row (w_words (if c_hs c then let '(X, W, _) := dbow_update f0 f1 fadd fsub fmul fneg skip act logact true false (l_words l) (l_hidden l) (c_alpha c) lf (c_size c) (w_words m) ctx (hs_targets (c_path c w)) (w_syn1 m) f0 in
      Weights X (w_tags m) W (w_neg m) (w_rnd m) else m)) i = row (w_words m) i).
  { destruct (c_hs c); [|reflexivity].
    pose proof (dbow_update_locked true false (l_words l) (l_hidden l) (c_alpha c) lf (c_size c) (w_words m) ctx (hs_targets (c_path c w)) (w_syn1 m) f0 i H) as X.
    destruct (dbow_update _ _ _ _ _ _ _ _ _ _ _ _ _ _ _ _ _ _ _ _ _) as [[Y W] lo]. exact X. }
  set (m1 := if c_hs c then _ else m) in *. clearbody m1. destruct (c_negative c =? 0); [exact H1|]. destruct (draws draw (c_negative c) (w_rnd m1)) as [ds s].
  pose proof (dbow_update_locked false false (l_words l) (l_hidden l) (c_alpha c) lf (c_size c) (w_words m1) ctx (neg_targets w ds) (w_neg m1) f0 i H) as X.
  destruct (dbow_update _ _ _ _ _ _ _ _ _ _ _ _ _ _ _ _ _ _ _ _ _) as [[Y W] lo]. cbn [fst w_words w_tags] in *. rewrite X. exact H1.
Qed.
Lemma dbow_tags_locked : forall c l m w tag i, (i = tag -> lock junk (c_tags_lockf c) (length (c_tags_lockf c)) tag = f0) ->
  row (w_tags (dbow_tags f0 f1 junk fadd fsub fmul fneg skip act logact draw c l m w tag)) i = row (w_tags m) i.
Proof.
  intros c l m w tag i H. unfold dbow_tags. set (lf := lock _ _ _ _) in *.
  assert (H1 : row (w_tags (if c_hs c then let '(T, W, _) := dbow_update f0 f1 fadd fsub fmul fneg skip act logact true false (l_tags l) (l_hidden l) (c_alpha c) lf (c_size c) (w_tags m) tag (hs_targets (c_path c w)) (w_syn1 m) f0 in
      Weights (w_words m) T W (w_neg m) (w_rnd m) else m)) i = row (w_tags m) i).
  { destruct (c_hs c); [|reflexivity].
    pose proof (dbow_update_locked true false (l_tags l) (l_hidden l) (c_alpha c) lf (c_size c) (w_tags m) tag (hs_targets (c_path c w)) (w_syn1 m) f0 i H) as X.
    destruct (dbow_update _ _ _ _ _ _ _ _ _ _ _ _ _ _ _ _ _ _ _ _ _) as [[Y W] lo]. exact X. }
  set (m1 := if c_hs c then _ else m) in *. clearbody m1. destruct (c_negative c =? 0); [exact H1|]. destruct (draws draw (c_negative c) (w_rnd m1)) as [ds s].
  pose proof (dbow_update_locked false false (l_tags l) (l_hidden l) (c_alpha c) lf (c_size c) (w_tags m1) tag (neg_targets w ds) (w_neg m1) f0 i H) as X.
  destruct (dbow_update _ _ _ _ _ _ _ _ _ _ _ _ _ _ _ _ _ _ _ _ _) as [[Y W] lo]. cbn [fst w_words w_tags] in *. rewrite X. exact H1.
Qed.
Lemma dbow_words_tags : forall c l m w ctx, w_tags (dbow_words f0 f1 junk fadd fsub fmul fneg skip act logact draw c l m w ctx) = w_tags m.
Proof.
  intros c l m w ctx. unfold dbow_words. destruct (c_hs c).
  - destruct (dbow_update _ _ _ _ _ _ _ _ _ _ _ _ _ _ _ _ _ _ _ _ _) as [[Y W] lo]. destruct (c_negative c =? 0); [reflexivity|]. destruct (draws draw _ _) as [ds s].
    destruct (dbow_update _ _ _ _ _ _ _ _ _ _ _ _ _ _ _ _ _ _ _ _ _) as [[Y' W'] lo']. reflexivity.
  - destruct (c_negative c =? 0); [reflexivity|]. destruct (draws draw _ _) as [ds s].
    destruct (dbow_update _ _ _ _ _ _ _ _ _ _ _ _ _ _ _ _ _ _ _ _ _) as [[Y' W'] lo']. reflexivity.
Qed.

(** A tag whose lock factor is 0 never changes, in any mode; *)
Theorem locked_tag : forall c l idx reduced tags m i, lock junk (c_tags_lockf c) (length (c_tags_lockf c)) i = f0 ->
  row (w_tags (fst (train_dbow f0 f1 junk fadd fsub fmul fneg skip act logact draw c l idx reduced tags m))) i = row (w_tags m) i /\
  row (w_tags (fst (train_dm f0 f1 junk fadd fsub fmul fneg finv skip act logact draw c l idx reduced tags m))) i = row (w_tags m) i /\
  row (w_tags (fst (train_concat f0 f1 junk fadd fsub fmul fneg skip act logact draw c l idx tags m))) i = row (w_tags m) i.
Proof.
  intros c l idx reduced tags m i H. split; [|split].
  - unfold train_dbow. cbn [fst]. apply (fold_inv (fun m' => row (w_tags m') i = row (w_tags m) i)); [reflexivity|]. intros m1 p _ H1. unfold dbow_position.
    apply (fold_inv (fun m' => row (w_tags m') i = row (w_tags m) i)).
    + destruct (c_train_words c); [|exact H1]. apply (fold_inv (fun m' => row (w_tags m') i = row (w_tags m) i)); [exact H1|]. intros m2 j _ H2. rewrite dbow_words_tags. exact H2.
    + intros m2 t _ H2. rewrite dbow_tags_locked; [exact H2|]. intros <-. exact H.
  - unfold train_dm. cbn [fst]. apply (fold_inv (fun m' => row (w_tags m') i = row (w_tags m) i)); [reflexivity|]. intros m1 p _ H1. unfold dm_position, ctx_step.
    destruct (if c_negative c =? 0 then _ else _) as [ds s].
    destruct (out_pass _ _ _ _ _ _ _ _ _ true _ _ _ _ _ _) as [[k1 W1] l1]. destruct (out_pass _ _ _ _ _ _ _ _ _ false _ _ _ _ _ _) as [[k2 W2] l2]. cbn [w_tags].
    destruct (l_tags l); [|exact H1]. rewrite spread_locked; [exact H1 | exact H].
  - unfold train_concat. destruct (negb _); [reflexivity|]. cbn [fst]. apply (fold_inv (fun m' => row (w_tags m') i = row (w_tags m) i)); [reflexivity|]. intros m1 p _ H1. unfold concat_position.
    destruct (if c_hs c then _ else _) as [[k1 W1] l1]. destruct (if c_negative c =? 0 then _ else _) as [ds s]. destruct (if c_negative c =? 0 then _ else _) as [[k2 W2] l2]. cbn [w_tags].
    destruct (l_tags l); [|exact H1]. rewrite spread_pieces_locked; [exact H1 | exact H].
Qed.
(** likewise a word in dbow and concatenation mode. In dm mode this needs the two arrays of lock factors to be equally long. *)
Theorem locked_word : forall c l idx reduced tags m i, lock junk (c_words_lockf c) (length (c_words_lockf c)) i = f0 ->
  row (w_words (fst (train_dbow f0 f1 junk fadd fsub fmul fneg skip act logact draw c l idx reduced tags m))) i = row (w_words m) i /\
  (length (c_words_lockf c) = length (c_tags_lockf c) ->
   row (w_words (fst (train_dm f0 f1 junk fadd fsub fmul fneg finv skip act logact draw c l idx reduced tags m))) i = row (w_words m) i) /\
  row (w_words (fst (train_concat f0 f1 junk fadd fsub fmul fneg skip act logact draw c l idx tags m))) i = row (w_words m) i.
Proof.
  intros c l idx reduced tags m i H. split; [|split].
  - unfold train_dbow. cbn [fst]. apply (fold_inv (fun m' => row (w_words m') i = row (w_words m) i)); [reflexivity|]. intros m1 p Hp H1. apply in_seq in Hp. unfold dbow_position.
    apply (fold_inv (fun m' => row (w_words m') i = row (w_words m) i)).
    + destruct (c_train_words c); [|exact H1]. apply (fold_inv (fun m' => row (w_words m') i = row (w_words m) i)); [exact H1|]. intros m2 j _ H2. rewrite dbow_words_locked; [exact H2|]. intros <-. exact H.
    + intros m2 t Ht H2. assert (Hw : In (nth p idx 0) idx) by (apply nth_In; lia). destruct (dbow_tags_touched c l m2 (nth p idx 0) t idx idx tags Hw Ht) as [_ E]. rewrite E. exact H2.
  - intros L. unfold train_dm. cbn [fst]. apply (fold_inv (fun m' => row (w_words m') i = row (w_words m) i)); [reflexivity|]. intros m1 p _ H1. unfold dm_position, ctx_step.
    destruct (if c_negative c =? 0 then _ else _) as [ds s].
    destruct (out_pass _ _ _ _ _ _ _ _ _ true _ _ _ _ _ _) as [[k1 W1] l1]. destruct (out_pass _ _ _ _ _ _ _ _ _ false _ _ _ _ _ _) as [[k2 W2] l2]. cbn [w_words].
    destruct (l_words l); [|exact H1]. rewrite spread_locked; [exact H1|]. rewrite <- L. exact H.
  - unfold train_concat. destruct (negb _); [reflexivity|]. cbn [fst]. apply (fold_inv (fun m' => row (w_words m') i = row (w_words m) i)); [reflexivity|]. intros m1 p _ H1. unfold concat_position.
    destruct (if c_hs c then _ else _) as [[k1 W1] l1]. destruct (if c_negative c =? 0 then _ else _) as [ds s]. destruct (if c_negative c =? 0 then _ else _) as [[k2 W2] l2]. cbn [w_words].
    destruct (l_words l); [|exact H1]. rewrite spread_pieces_locked; [exact H1 | exact H].
Qed.
End Train.
Print Assumptions dbow_touches.
Print Assumptions dm_touches.
Print Assumptions concat_touches.
Print Assumptions infer_untouched.
Print Assumptions infer_concat_tags.
Print Assumptions no_words_nothing.
Print Assumptions locked_tag.
Print Assumptions locked_word.


(** ** The learning rates of [infer_vector], over the real numbers *)
From Coq Require Import Reals Lra.
Section Rates.
Local Open Scope R_scope.
Lemma infer_alpha_closed : forall alpha delta e, infer_alpha Rminus alpha delta e = alpha - INR e * delta.
Proof. intros alpha delta e. induction e as [|e IH]; [cbn; lra|]. cbn [infer_alpha]. rewrite IH, S_INR. lra. Qed.
(** They fall in equal steps, from [alpha] in the first to [min_alpha] in the last epoch, unless there is only one. *)
Theorem infer_alpha_linear : forall alpha min_alpha epochs e, (2 <= epochs)%nat ->
  let delta := infer_delta Rminus Rmult (fun n => / INR n) alpha min_alpha epochs in
  infer_alpha Rminus alpha delta 0 = alpha /\
  infer_alpha Rminus alpha delta (epochs - 1) = min_alpha /\
  infer_alpha Rminus alpha delta (S e) - infer_alpha Rminus alpha delta e = (min_alpha - alpha) / INR (epochs - 1) /\
  (min_alpha <= alpha -> (e <= epochs - 1)%nat -> min_alpha <= infer_alpha Rminus alpha delta e <= alpha).
Proof.
  intros alpha min_alpha epochs e H delta. assert (P : (0 < epochs - 1)%nat) by lia. pose proof (lt_0_INR _ P) as Q.
  assert (D : delta = (alpha - min_alpha) / INR (epochs - 1)). { unfold delta, infer_delta. rewrite Nat.max_l by lia. reflexivity. }
  rewrite !infer_alpha_closed, D, S_INR. split; [cbn; field; lra|]. split; [field; lra|]. split; [field; lra|].
  intros L E. apply le_INR in E. pose proof (pos_INR e) as E0. set (n := INR (epochs - 1)) in *. set (x := INR e) in *.
  assert (K : 0 <= x / n <= 1).
  { split; [unfold Rdiv; apply Rmult_le_pos; [exact E0 | left; now apply Rinv_0_lt_compat]|].
    apply (Rmult_le_reg_r n); [exact Q|]. unfold Rdiv. rewrite Rmult_assoc, Rinv_l by lra. lra. }
  replace (x * ((alpha - min_alpha) / n)) with (x / n * (alpha - min_alpha)) by (field; lra). split; nra.
Qed.
Example infer_alpha_ex : infer_alpha Rminus 1 (infer_delta Rminus Rmult (fun n => / INR n) 1 0 5) 2 = 1 / 2.
Proof. rewrite infer_alpha_closed. unfold infer_delta. cbn. lra. Qed.
(** A learning rate of 0 cannot be asked for: *)
Theorem infer_zero_alpha_refuted : exists (given : option nat) own, given = Some 0%nat /\ or_else (Nat.eqb 0) given own <> 0%nat.
Proof. exists (Some 0%nat), 1%nat. split; [reflexivity | discriminate]. Qed.
End Rates.
Print Assumptions infer_alpha_linear.
Print Assumptions infer_zero_alpha_refuted.

(** ** Examples and violations, with rational scalars *)
From Coq Require Import QArith.
Local Open Scope nat_scope.
Definition qact (f : Q) : Q := Qred ((1#2) + f * (1#8))%Q.
Definition qskip (f : Q) : bool := negb (Qle_bool f (6#1) && Qle_bool ((-6)#1) f).
Definition qadd (x y : Q) : Q := Qred (x + y)%Q.
Definition qsub (x y : Q) : Q := Qred (x - y)%Q.
Definition qmul (x y : Q) : Q := Qred (x * y)%Q.
Definition qinv (n : nat) : Q := 1 # Pos.of_nat n.
Definition qdraw (s : nat) : nat * nat := ((s + 1) mod 3, s + 1).
Definition ex_cfg (mean : bool) (wl tl : list Q) (tag_count : nat) : config :=
  Config false 1 mean 1%Q 1 2 wl tl (fun _ => []) true tag_count 0 1.
Definition ex_weights : weights := Weights [[1%Q]; [2%Q]; [3%Q]] [[1%Q]; [2%Q]] [] [[0%Q]; [1%Q]; [1%Q]] 0.
Notation QDM := (train_dm 0%Q 1%Q (99#1) qadd qsub qmul Qopp qinv qskip qact (fun x => x) qdraw).
Notation QDBOW := (train_dbow 0%Q 1%Q (99#1) qadd qsub qmul Qopp qskip qact (fun x => x) qdraw).
Notation QINFER := (infer_vector 0%Q 1%Q (99#1) qadd qsub qmul Qopp qinv qskip qact (fun x => x) qdraw).
Definition all_ : learn := Learn true true true.

Example dm_ex : (let m := fst (QDM (ex_cfg true [1%Q] [1%Q] 1) all_ [0; 1] (fun _ => 0) [1] ex_weights) in
  row (w_tags m) 0 = [1%Q] /\ row (w_words m) 2 = [3%Q] /\ row (w_tags m) 1 <> [2%Q] /\ row (w_words m) 0 <> [1%Q]).
Proof. vm_compute. repeat split; try reflexivity; intros H; discriminate. Qed.
Example infer_ex : (let r := QINFER Dm (ex_cfg true [1%Q] [1%Q] 1) [0%Q] (fun _ => [0; 1]) (fun _ _ => 0) (fun _ => 1%Q) 2 ex_weights in
  fst r <> [0%Q] /\ w_words (snd r) = w_words ex_weights /\ w_rnd (snd r) = 4).
Proof. vm_compute. repeat split; try reflexivity; intros H; discriminate. Qed.

(** In dm mode a word with lock factor 0 is changed, if the tags have their single default lock factor: *)
Theorem dm_word_lock_refuted : exists wl tl idx tags, lock (99#1)%Q wl (length wl) 1 = 0%Q /\ length wl = 3 /\ length tl = 1 /\
  row (w_words (fst (QDM (ex_cfg true wl tl 1) all_ idx (fun _ => 0) tags ex_weights))) 1 <> row (w_words ex_weights) 1.
Proof. exists [1%Q; 0%Q; 0%Q], [1%Q], [0; 1], [0]. vm_compute. repeat split; try reflexivity. intros H; discriminate. Qed.
(** if the tags have more lock factors than the words, it is read outside the array. *)
Theorem dm_word_lock_outside_refuted : exists wl tl idx tags, length wl = 1 /\ length tl = 3 /\
  lock (99#1)%Q wl (length tl) 1 = (99#1)%Q /\ nth 0 wl 0%Q = 0%Q /\
  row (w_words (fst (QDM (ex_cfg true wl tl 1) all_ idx (fun _ => 0) tags ex_weights))) 1 <> row (w_words ex_weights) 1.
Proof. exists [0%Q], [1%Q; 1%Q; 1%Q], [0; 1], [0]. vm_compute. repeat split; try reflexivity. intros H; discriminate. Qed.
Print Assumptions dm_word_lock_refuted.
Print Assumptions dm_word_lock_outside_refuted.
