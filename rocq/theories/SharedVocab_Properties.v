(** Models that share a vocabulary after reset_from. *)
From Verif Require Import Base Str Matutils_Model SharedVocab_Model.

(** ** Lists *)
Lemma set_same : forall {A} (l : list A) i x, i < length l -> nth_error (list_set l i x) i = Some x.
Proof. induction l as [|y l IH]; intros [|i] x H; cbn in *; [lia | lia | reflexivity | apply IH; lia]. Qed.
Lemma set_other : forall {A} (l : list A) i j x, i <> j -> nth_error (list_set l i x) j = nth_error l j.
Proof. induction l as [|y l IH]; intros [|i] [|j] x H; cbn; try reflexivity; [congruence | apply IH; congruence]. Qed.
Lemma set_length : forall {A} (l : list A) i x, length (list_set l i x) = length l.
Proof. induction l as [|y l IH]; intros [|i] x; cbn; [reflexivity | reflexivity | reflexivity | f_equal; apply IH]. Qed.
Lemma nth_of : forall {A} (l : list A) i d, nth i l d = match nth_error l i with Some x => x | None => d end.
Proof. induction l as [|y l IH]; intros [|i] d; cbn; [reflexivity | reflexivity | reflexivity | apply IH]. Qed.
(** ** Words *)
Definition good (v : vocab) : Prop := NoDup (i2k v) /\ forall x i, dget (k2i v) x = Some i <-> nth_error (i2k v) i = Some x.
Lemma good_none : good no_words.
Proof. split; [constructor|]. intros x [|i]; cbn; split; discriminate. Qed.
Lemma good_push : forall v w, good v -> ~ In w (i2k v) -> good (push v w).
Proof.
  intros v w [N G] H. split; cbn [push i2k k2i]; [apply NoDup_app_one; assumption|]. intros x i. rewrite dget_dset. destruct (eq_dec w x) as [->|Nx].
  - split.
    + intros E. injection E as <-. rewrite nth_error_app2, Nat.sub_diag by lia. reflexivity.
    + intros E. destruct (Nat.lt_ge_cases i (length (i2k v))) as [L|L]; [rewrite nth_error_app1 in E by exact L; apply nth_error_In in E; contradiction|].
      rewrite nth_error_app2 in E by exact L. destruct (i - length (i2k v)) as [|k] eqn:D; [f_equal; lia | cbn in E; destruct k; discriminate E].
  - rewrite G. split; intros E.
    + rewrite nth_error_app1; [exact E | apply nth_error_Some; congruence].
    + destruct (Nat.lt_ge_cases i (length (i2k v))) as [L|L]; [rewrite nth_error_app1 in E by exact L; exact E|]. rewrite nth_error_app2 in E by exact L. destruct (i - length (i2k v)) as [|k]; [cbn in E; congruence | cbn in E; destruct k; discriminate E].
Qed.
Lemma good_pushes : forall l v, good v -> NoDup l -> (forall x, In x l -> ~ In x (i2k v)) -> good (fold_left push l v) /\ i2k (fold_left push l v) = i2k v ++ l.
Proof.
  induction l as [|x l IH]; intros v G N D; [split; [exact G | cbn; rewrite app_nil_r; reflexivity]|]. inversion N as [|? ? N1 N2]; subst. cbn [fold_left].
  destruct (IH (push v x)) as [A B]; [apply good_push; [exact G | apply D; left; reflexivity] | exact N2 | |].
  - intros y Hy H. cbn [push i2k] in H. apply in_app_or in H. destruct H as [H|[<-|[]]]; [apply (D y (or_intror Hy) H) | contradiction].
  - split; [exact A|]. rewrite B. cbn [push i2k]. rewrite <- app_assoc. reflexivity.
Qed.
Lemma good_push_new : forall l v, good v -> good (fold_left push_new l v).
Proof.
  induction l as [|x l IH]; intros v G; [exact G|]. cbn [fold_left]. apply IH. unfold push_new. destruct (dmem (k2i v) x) eqn:E; [exact G|]. apply good_push; [exact G|].
  intros H. apply dmem_false in E. apply In_nth_error in H. destruct H as [i H]. apply (proj2 G) in H. apply E. apply dget_Some_key. eauto.
Qed.
Lemma kept_NoDup : forall k raw, NoDup (map fst (kept k raw)).
Proof. intros k raw. apply (NoDup_dkeys_filter (fun wc => k <=? snd wc)). apply NoDup_dict_of. Qed.

Section P.
Context {V : Type}.
Variable fresh : nat -> V.
Variable zero : V.
Notation world := (world V).
Notation w2v := (w2v V).
Notation op := (op V).

(** ** Spec *)
(** the words and the rows a model shows, and its counts *)
Definition words (w : world) (m : w2v) : list pystr := i2k (the_voc (w_heap V w) (voc V m)).
Definition places (w : world) (m : w2v) : dict pystr nat := k2i (the_voc (w_heap V w) (voc V m)).
Definition shows (w : world) (a : nat) : option (list pystr * dict pystr nat * list V * list V) :=
  option_map (fun m => (words w m, places w m, vectors V m, syn1 V m)) (nth_error (w_models V w) a).
(** every word has a place of its own, and there is a row for every word and no other *)
Definition consistent (w : world) (a : nat) : Prop :=
  exists ws ps vs ss, shows w a = Some (ws, ps, vs, ss) /\ NoDup ws /\ (forall x i, dget ps x = Some i <-> nth_error ws i = Some x) /\ length vs = length ws /\ length ss = length ws.
(** a vocabulary is expanded only while no other model has it *)
Definition alone (w : world) (a : nat) : Prop :=
  forall b m m', b <> a -> nth_error (w_models V w) a = Some m -> nth_error (w_models V w) b = Some m' -> voc V m' <> voc V m.
Definition careful (w : world) (o : op) : Prop := match o with Expand a _ _ => alone w a | _ => True end.
Inductive history : world -> Prop :=
| H_start : history (start V)
| H_op w o w' : history w -> careful w o -> do_op V fresh zero w o = Ok w' -> history w'.
(** the model a call is about *)
Definition subject (w : world) (o : op) : nat := match o with New => length (w_models V w) | Build a _ _ | Expand a _ _ | Reset _ a _ | Train a _ _ _ => a end.

Lemma prep_length : forall prior n rows, prep V fresh prior n = Ok rows -> length rows = n.
Proof.
  intros prior n rows H. unfold prep in H. destruct (n <? length prior) eqn:E; cbn [andb] in H.
  - destruct (length prior =? 1) eqn:E1; cbn [negb] in H; [|discriminate H]. injection H as <-. apply Nat.ltb_lt in E. apply Nat.eqb_eq in E1. rewrite app_length, firstn_length, map_length, seq_length. lia.
  - injection H as <-. apply Nat.ltb_ge in E. rewrite app_length, firstn_length, map_length, seq_length. lia.
Qed.

(** ** Invariant *)
Definition ok_model (h : heap) (m : w2v) : Prop :=
  voc V m < length (h_voc h) /\ cnt V m < length (h_cnt h) /\ good (the_voc h (voc V m)) /\ length (vectors V m) = length (i2k (the_voc h (voc V m))) /\ length (syn1 V m) = length (i2k (the_voc h (voc V m))).
Definition Inv (w : world) : Prop := forall a m, nth_error (w_models V w) a = Some m -> ok_model (w_heap V w) m.
Lemma Inv_consistent : forall w a, Inv w -> a < length (w_models V w) -> consistent w a.
Proof.
  intros w a I L. destruct (nth_error (w_models V w) a) as [m|] eqn:E; [|apply nth_error_None in E; lia]. destruct (I a m E) as (_ & _ & [G1 G2] & L1 & L2).
  exists (words w m), (places w m), (vectors V m), (syn1 V m). unfold shows. rewrite E. split; [reflexivity|]. auto.
Qed.
(** a call changes one model, and the heap around it *)
Lemma on_model_ok : forall w a f w', on_model V w a f = Ok w' -> exists m h' m', nth_error (w_models V w) a = Some m /\ f (w_heap V w) m = Ok (h', m') /\ w_heap V w' = h' /\ w_models V w' = list_set (w_models V w) a m'.
Proof.
  intros w a f w' H. unfold on_model in H. destruct (nth_error (w_models V w) a) as [m|] eqn:E; [|discriminate H]. destruct (f (w_heap V w) m) as [[h' m']|e] eqn:F; [|discriminate H]. cbn in H. injection H as <-. exists m, h', m'. auto.
Qed.
Definition grows (h h' : heap) (safe : nat -> Prop) : Prop :=
  length (h_voc h) <= length (h_voc h') /\ length (h_cnt h') = length (h_cnt h) /\ forall r, r < length (h_voc h) -> safe r -> the_voc h' r = the_voc h r.
Lemma ok_grows : forall h h' safe m, grows h h' safe -> safe (voc V m) -> ok_model h m -> ok_model h' m.
Proof. intros h h' safe m (G1 & G2 & G3) S (A & B & C & D & E). specialize (G3 _ A S). unfold ok_model. rewrite G3, G2. split; [lia|]. auto. Qed.
(** what each call does to the heap and its model *)
Lemma call_effect : forall w o w', Inv w -> o <> New V -> do_op V fresh zero w o = Ok w' ->
  exists m m' safe, nth_error (w_models V w) (subject w o) = Some m /\ w_models V w' = list_set (w_models V w) (subject w o) m' /\ grows (w_heap V w) (w_heap V w') safe /\ ok_model (w_heap V w') m' /\
  (forall r, match o with Expand _ _ _ => r <> voc V m | _ => True end -> safe r).
Proof.
  intros w o w' I NN H. destruct o as [|a k raw|a k raw|d a b|a i x y]; [congruence| | | |]; cbn [do_op subject] in *.
  - apply on_model_ok in H. destruct H as (m & h' & m' & E & F & Hh & Hm). unfold build in F. destruct (prep V fresh (vectors V m) (length (kept k raw))) as [rows|] eqn:P; [|discriminate F]. cbn [rbind] in F. injection F as <- <-.
    destruct (good_pushes (map fst (kept k raw)) no_words good_none (kept_NoDup k raw)) as [G1 G2]; [intros x _ []|]. destruct (I a m E) as (A & B & _). exists m. eexists. exists (fun _ => True). split; [exact E|]. split; [exact Hm|]. rewrite Hh.
    assert (T : the_voc (with_cnt (Heap (h_voc (w_heap V w) ++ [fold_left push (map fst (kept k raw)) no_words]) (h_cnt (w_heap V w))) (cnt V m) (allocate false (length (kept k raw))
      (fold_left (fun c ix => set_count (length (kept k raw)) (fst ix) (snd ix) c) (combine (seq 0 (length (kept k raw))) (map snd (kept k raw))) (the_cnt (w_heap V w) (cnt V m))))) (length (h_voc (w_heap V w))) = fold_left push (map fst (kept k raw)) no_words).
    { unfold the_voc, with_cnt. cbn [h_voc]. rewrite app_nth2, Nat.sub_diag by lia. reflexivity. }
    split; [|split; [|auto]].
    + split; [cbn; rewrite app_length; lia|]. split; [cbn; apply set_length|]. intros r L _. unfold the_voc, with_cnt. cbn [h_voc]. apply app_nth1, L.
    + unfold ok_model. cbn [voc cnt vectors syn1]. rewrite T, G2. cbn [app no_words i2k]. rewrite map_length. split; [cbn; rewrite app_length; cbn; lia|]. split; [cbn; rewrite set_length; exact B|]. split; [exact G1|]. split; [apply (prep_length _ _ _ P) | apply repeat_length].
  - apply on_model_ok in H. destruct H as (m & h' & m' & E & F & Hh & Hm). unfold expand in F. destruct (I a m E) as (A & B & C & D & D2). set (v := fold_left push_new (map fst (kept k raw)) (the_voc (w_heap V w) (voc V m))) in *.
    assert (Gv : good v) by (apply good_push_new, C). destruct (vectors V m) as [|v0 vs] eqn:EV; [discriminate F|]. destruct (prep V fresh (v0 :: vs) (length (i2k v))) as [rows|] eqn:P; [|discriminate F]. cbn [rbind] in F. injection F as <- <-.
    exists m. eexists. exists (fun r => r <> voc V m). split; [exact E|]. split; [exact Hm|]. rewrite Hh. split; [|split; [|auto]].
    + split; [cbn; rewrite set_length; lia|]. split; [cbn; apply set_length|]. intros r L N. unfold the_voc, with_cnt. cbn [h_voc]. rewrite !nth_of, set_other by congruence. reflexivity.
    + unfold ok_model. cbn [voc cnt vectors syn1]. assert (T : forall c, the_voc (with_cnt (Heap (list_set (h_voc (w_heap V w)) (voc V m) v) (h_cnt (w_heap V w))) (cnt V m) c) (voc V m) = v).
      { intros c. unfold the_voc, with_cnt. cbn [h_voc]. rewrite nth_of, set_same by exact A. reflexivity. }
      rewrite T. split; [cbn; rewrite set_length; exact A|]. split; [cbn; rewrite set_length; exact B|]. split; [exact Gv|]. pose proof (prep_length _ _ _ P) as PL. split; [exact PL|].
      rewrite app_length, repeat_length, D2, <- D, PL. assert (Le : length (v0 :: vs) <= length (i2k v)); [|cbn [length] in *; lia].
      rewrite D. unfold v. clear. generalize (the_voc (w_heap V w) (voc V m)) as u. induction (map fst (kept k raw)) as [|x l IH]; intros u; [cbn; lia|]. cbn [fold_left]. etransitivity; [|apply IH]. unfold push_new. destruct (dmem (k2i u) x); [lia|]. cbn [push i2k]. rewrite app_length. lia.
  - destruct (nth_error (w_models V w) b) as [other|] eqn:Eb; [|discriminate H]. apply on_model_ok in H. destruct H as (m & h' & m' & E & F & Hh & Hm). unfold reset_from in F. destruct (I b other Eb) as (A & B & C & D & D2).
    destruct (prep V fresh (if d then vectors V m else []) (length (i2k (the_voc (w_heap V w) (voc V other))))) as [rows|] eqn:P; [|discriminate F]. cbn [rbind] in F. injection F as <- <-.
    exists m. eexists. exists (fun _ => True). split; [exact E|]. split; [exact Hm|]. rewrite Hh. split; [|split; [|auto]].
    + split; [cbn; lia|]. split; [cbn; apply set_length|]. intros r L _. reflexivity.
    + unfold ok_model. cbn [voc cnt vectors syn1]. split; [exact A|]. split; [cbn; rewrite set_length; exact B|]. split; [exact C|]. split; [apply (prep_length _ _ _ P) | apply repeat_length].
  - apply on_model_ok in H. destruct H as (m & h' & m' & E & F & Hh & Hm). injection F as <- <-. destruct (I a m E) as (A & B & C & D & D2). exists m. eexists. exists (fun _ => True). split; [exact E|]. split; [exact Hm|]. rewrite Hh. split; [|split; [|auto]].
    + split; [lia|]. split; [reflexivity | reflexivity].
    + unfold ok_model. cbn [voc cnt vectors syn1]. rewrite !set_length. auto.
Qed.
Lemma step_Inv : forall w o w', Inv w -> careful w o -> do_op V fresh zero w o = Ok w' -> Inv w'.
Proof.
  intros w o w' I C H. assert (D : o = New V \/ o <> New V) by (destruct o; [left; reflexivity | right; discriminate | right; discriminate | right; discriminate | right; discriminate]). destruct D as [->|N].
  - injection H as <-. intros a m E. cbn [new_model w_models w_heap] in *. destruct (Nat.lt_ge_cases a (length (w_models V w))) as [L|L].
    + rewrite nth_error_app1 in E by exact L. destruct (I a m E) as (A & B & G & D & D2). unfold ok_model. cbn [h_voc h_cnt]. rewrite !app_length. assert (T : the_voc (Heap (h_voc (w_heap V w) ++ [no_words]) (h_cnt (w_heap V w) ++ [None])) (voc V m) = the_voc (w_heap V w) (voc V m)) by (apply app_nth1, A).
      rewrite T. split; [lia|]. split; [lia|]. auto.
    + rewrite nth_error_app2 in E by exact L. destruct (a - length (w_models V w)) as [|k]; [|destruct k; discriminate E]. injection E as <-. unfold ok_model. cbn [voc cnt vectors syn1 h_voc h_cnt]. rewrite !app_length.
      assert (T : the_voc (Heap (h_voc (w_heap V w) ++ [no_words]) (h_cnt (w_heap V w) ++ [None])) (length (h_voc (w_heap V w))) = no_words) by (unfold the_voc; cbn [h_voc]; rewrite app_nth2, Nat.sub_diag by lia; reflexivity).
      rewrite T. cbn [length]. split; [lia|]. split; [lia|]. split; [apply good_none|]. split; reflexivity.
  - destruct (call_effect w o w' I N H) as (m & m' & safe & E & Hm & G & O & S). intros b mb Eb. rewrite Hm in Eb. destruct (Nat.eq_dec (subject w o) b) as [<-|Nb].
    + rewrite set_same in Eb by (apply nth_error_Some; congruence). injection Eb as <-. exact O.
    + rewrite set_other in Eb by exact Nb. apply (ok_grows _ _ safe _ G); [|apply (I b mb Eb)]. apply S. destruct o; try exact Logic.I. cbn [careful subject] in C, E, Nb. apply (C b m mb); auto.
Qed.
Lemma history_Inv : forall w, history w -> Inv w.
Proof. intros w H. induction H as [|w o w' H IH C D]; [intros [|a] m E; discriminate E | apply (step_Inv w o w' IH C D)]. Qed.
(** ** Results *)
(** Whatever the calls, while no shared vocabulary is expanded, every model is consistent. *)
Theorem shared_consistent : forall w a, history w -> a < length (w_models V w) -> consistent w a.
Proof.
  intros w a H L. apply Inv_consistent; [apply history_Inv, H | exact L].
Qed.
(** And the words and rows of every other model stay as they are. *)
Theorem shared_others : forall w o w' b, history w -> careful w o -> do_op V fresh zero w o = Ok w' -> b <> subject w o -> shows w' b = shows w b.
Proof.
  intros w o w' b H C D N. pose proof (history_Inv w H) as I.
  assert (X : o = New V \/ o <> New V) by (destruct o; [left; reflexivity | right; discriminate | right; discriminate | right; discriminate | right; discriminate]). destruct X as [->|N2].
  - injection D as <-. unfold shows. cbn [new_model w_models w_heap]. cbn [subject] in N. destruct (Nat.lt_ge_cases b (length (w_models V w))) as [L|L].
    + rewrite nth_error_app1 by exact L. destruct (nth_error (w_models V w) b) as [m|] eqn:E; [|reflexivity]. cbn [option_map]. destruct (I b m E) as (A & _). unfold words, places. cbn [w_heap].
      assert (T : the_voc (w_heap V (new_model V w)) (voc V m) = the_voc (w_heap V w) (voc V m)) by (apply app_nth1, A). rewrite T. reflexivity.
    + rewrite nth_error_app2 by exact L. replace (nth_error (w_models V w) b) with (@None w2v) by (symmetry; apply nth_error_None; exact L). destruct (b - length (w_models V w)) as [|k] eqn:D; [lia|]. destruct k; reflexivity.
  - destruct (call_effect w o w' I N2 D) as (m & m' & safe & E & Hm & (G1 & G2 & G3) & O & S). unfold shows. rewrite Hm, set_other by congruence. destruct (nth_error (w_models V w) b) as [mb|] eqn:Eb; [|reflexivity]. cbn [option_map].
    destruct (I b mb Eb) as (A & _). unfold words, places. rewrite (G3 (voc V mb) A); [reflexivity|]. apply S. destruct o; try exact Logic.I. cbn [careful subject] in C, E, N. apply (C b m mb); auto.
Qed.
(** A model that was reset has the words, the places and the counts of the other, and rows of its own that are random; the other stays. *)
Theorem reset_exact : forall w a b w' ma mb, history w -> a <> b -> nth_error (w_models V w) a = Some ma -> nth_error (w_models V w) b = Some mb -> do_op V fresh zero w (Reset V false a b) = Ok w' ->
  let n := length (words w mb) in
  shows w' a = Some (words w mb, places w mb, map fresh (seq 0 n), repeat zero n) /\ shows w' b = shows w b /\ forall x, word_count V w' a x = word_count V w' b x.
Proof.
  intros w a b w' ma mb H N Ea Eb D n. pose proof (shared_others w (Reset V false a b) w' b H Logic.I D) as So. cbn [subject] in So. specialize (So (not_eq_sym N)).
  cbn [do_op] in D. rewrite Eb in D. apply on_model_ok in D. destruct D as (m & h' & m' & E & F & Hh & Hm). rewrite Ea in E. injection E as <-. unfold reset_from in F. cbn [prep length] in F. unfold prep in F. cbn [length] in F. rewrite Nat.sub_0_r, firstn_nil in F.
  change (length (i2k (the_voc (w_heap V w) (voc V mb)))) with n in F. destruct ((n <? 0) && negb (0 =? 1)) eqn:Z; [destruct (Nat.ltb_spec n 0); [lia | discriminate Z]|]. cbn [rbind app] in F. injection F as <- <-.
  assert (La : a < length (w_models V w)) by (apply nth_error_Some; congruence). assert (E2 : nth_error (w_models V w') b = Some mb) by (rewrite Hm, set_other by exact N; exact Eb).
  assert (E1 : nth_error (w_models V w') a = Some (W2V V (voc V mb) (cnt V mb) (map fresh (seq 0 n)) (repeat zero n))) by (rewrite Hm; apply set_same, La).
  split; [|split; [exact So|]].
  - unfold shows. rewrite E1. cbn [option_map vectors syn1]. unfold words, places. rewrite Hh. reflexivity.
  - intros x. unfold word_count. rewrite E1, E2. cbn [voc cnt]. reflexivity.
Qed.
(** The counts of a model change only with those of a model that has the same object for them. *)
Theorem shared_counts : forall w o w' b x, history w -> careful w o -> do_op V fresh zero w o = Ok w' -> b <> subject w o -> b < length (w_models V w) -> (forall d a c, o <> Reset V d a c) ->
  (forall ma mb, nth_error (w_models V w) (subject w o) = Some ma -> nth_error (w_models V w) b = Some mb -> cnt V ma <> cnt V mb) ->
  word_count V w' b x = word_count V w b x.
Proof.
  intros w o w' b x H C D N L NR NC. pose proof (shared_others w o w' b H C D N) as S. pose proof (history_Inv w H) as I. destruct (nth_error (w_models V w) b) as [mb|] eqn:Eb; [|apply nth_error_None in Eb; lia]. destruct (I b mb Eb) as (_ & B & _).
  assert (K : nth_error (w_models V w') b = Some mb /\ the_cnt (w_heap V w') (cnt V mb) = the_cnt (w_heap V w) (cnt V mb)).
  { destruct o as [|a k raw|a k raw|d a c|a i y z]; cbn [do_op subject] in *.
    - injection D as <-. cbn [new_model w_models w_heap]. split; [rewrite nth_error_app1 by exact L; exact Eb | apply app_nth1, B].
    - apply on_model_ok in D. destruct D as (m & h' & m' & E & F & Hh & Hm). specialize (NC m mb E eq_refl). rewrite Hm, Hh, set_other by congruence. split; [exact Eb|]. unfold build in F. destruct (prep V fresh (vectors V m) (length (kept k raw))); [|discriminate F]. cbn [rbind] in F. injection F as <- <-.
      unfold the_cnt, with_cnt. cbn [h_cnt]. rewrite !nth_of, set_other by exact NC. reflexivity.
    - apply on_model_ok in D. destruct D as (m & h' & m' & E & F & Hh & Hm). specialize (NC m mb E eq_refl). rewrite Hm, Hh, set_other by congruence. split; [exact Eb|]. unfold expand in F. destruct (vectors V m) as [|v0 vs]; [discriminate F|]. match type of F with context [prep V fresh ?p ?n] => destruct (prep V fresh p n) end; [|discriminate F]. cbn [rbind] in F. injection F as <- <-.
      unfold the_cnt, with_cnt. cbn [h_cnt]. rewrite !nth_of, set_other by exact NC. reflexivity.
    - exfalso. apply (NR d a c). reflexivity.
    - apply on_model_ok in D. destruct D as (m & h' & m' & E & F & Hh & Hm). injection F as <- <-. rewrite Hm, Hh, set_other by congruence. split; [exact Eb | reflexivity]. }
  destruct K as [K1 K2]. unfold word_count. rewrite K1, Eb, K2. unfold shows in S. rewrite K1, Eb in S. cbn [option_map] in S. injection S as _ S. unfold places in S. rewrite S. reflexivity.
Qed.
End P.
Print Assumptions shared_counts.
Print Assumptions shared_consistent.
Print Assumptions shared_others.
Print Assumptions reset_exact.

(** ** Examples *)
Local Open Scope nat_scope.
Definition dogs : list (pystr * nat) := [(str "dog", 5); (str "cat", 3); (str "rare", 1)].
Definition more : list (pystr * nat) := [(str "fox", 4); (str "dog", 2)].
Definition run (os : list (op nat)) : result (world nat) := rfold (do_op nat (fun i => 100 + i) 0) os (start nat).
Definition after (os : list (op nat)) : world nat := match run os with Ok w => w | Err _ => start nat end.
Definition two : list (op nat) := [New nat; Build nat 0 2 dogs; Train nat 0 0 7 8; New nat; Reset nat false 1 0].
Example shared_example :
  (let* w := run two in Ok (shows w 0, shows w 1, word_count nat w 1 (str "cat")))
  = Ok (Some ([str "dog"; str "cat"], [(str "dog", 0); (str "cat", 1)], [7; 101], [8; 0]), Some ([str "dog"; str "cat"], [(str "dog", 0); (str "cat", 1)], [100; 101], [0; 0]), Ok 3).
Proof. reflexivity. Qed.
(** a vocabulary of one's own may be expanded *)
Example shared_expand_example :
  (let* w := run [New nat; Build nat 0 2 dogs; New nat; Expand nat 0 1 more] in Ok (shows w 0, word_count nat w 0 (str "dog"), word_count nat w 0 (str "fox"), shows w 1))
  = Ok (Some ([str "dog"; str "cat"; str "fox"], [(str "dog", 0); (str "cat", 1); (str "fox", 2)], [100; 101; 102], [0; 0; 0]), Ok 7, Ok 4, Some ([], [], [], [])).
Proof. reflexivity. Qed.
(** Violation: expanding the vocabulary of one model leaves the other with words without rows. *)
Theorem shared_expand_refuted : exists os w, run os = Ok w /\ word_vec nat w 1 (str "fox") = Ok 102 /\ (exists m, nth_error (w_models nat w) 0 = Some m /\ In (str "fox") (words w m)) /\ word_vec nat w 0 (str "fox") = Err IndexError /\ ~ consistent w 0.
Proof.
  exists (two ++ [Expand nat 1 1 more]), (after (two ++ [Expand nat 1 1 more])). split; [vm_compute; reflexivity|]. split; [vm_compute; reflexivity|]. split; [eexists; split; [vm_compute; reflexivity | vm_compute; auto]|]. split; [vm_compute; reflexivity|].
  intros (ws & ps & vs & ss & E & _ & _ & L & _). vm_compute in E. injection E as <- <- <- <-. discriminate L.
Qed.
(** Violation: building the vocabulary of one model again changes the counts of the other. *)
Theorem shared_build_refuted : exists os w w', run os = Ok w /\ run (os ++ [Build nat 1 1 [(str "fox", 4); (str "owl", 9)]]) = Ok w' /\ shows w' 0 = shows w 0 /\
  word_count nat w 0 (str "dog") = Ok 5 /\ word_count nat w 0 (str "cat") = Ok 3 /\ word_count nat w' 0 (str "dog") = Ok 4 /\ word_count nat w' 0 (str "cat") = Ok 9.
Proof.
  exists two, (after two), (after (two ++ [Build nat 1 1 [(str "fox", 4); (str "owl", 9)]])). split; [vm_compute; reflexivity|]. split; [vm_compute; reflexivity|]. vm_compute. auto.
Qed.
(** Violation: the words of a document model that is reset keep the rows it had, now under other words. *)
Theorem shared_doc2vec_refuted : exists os w, run os = Ok w /\ word_vec nat w 1 (str "dog") = Ok 55 /\ word_vec nat w 0 (str "dog") = Ok 100.
Proof. exists [New nat; Build nat 0 2 dogs; New nat; Build nat 1 1 [(str "fox", 4)]; Train nat 1 0 55 0; Reset nat true 1 0]. match goal with |- exists w, run ?os = _ /\ _ => exists (after os) end. split; [vm_compute; reflexivity|]. vm_compute. auto. Qed.
Print Assumptions shared_expand_refuted.
Print Assumptions shared_build_refuted.
Print Assumptions shared_doc2vec_refuted.
