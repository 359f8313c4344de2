(** Counts of words after a vocabulary was built or expanded (property C145). *)
From Verif Require Import Base Str Matutils_Model SharedVocab_Model SharedVocab_Properties.

Section P.
Context {V : Type}.
Variable fresh : nat -> V.
Variable zero : V.
Notation world := (world V).
Notation history := (history fresh zero).
Notation do_op := (do_op V fresh zero).
Notation word_count := (word_count V).

(** the counts a model refers to *)
Definition counts (w : world) (a : nat) : list nat := match nth_error (w_models V w) a with Some m => counts_of (the_cnt (w_heap V w) (cnt V m)) | None => [] end.
Definition size (w : world) (a : nat) : nat := match nth_error (w_models V w) a with Some m => length (words w m) | None => 0 end.

Lemma allocate_length : forall r n l, exists l', allocate r n (Some l) = Some l' /\ length l' = n.
Proof. intros r n l. eexists. split; [reflexivity|]. rewrite app_length, firstn_length, repeat_length. lia. Qed.
Lemma set_count_some : forall n i x c, exists l, set_count n i x c = Some (list_set l i x) /\ length l = n /\ forall l0, c = Some l0 -> length l0 = n -> l = l0.
Proof.
  intros n i x [l0|]; unfold set_count.
  - destruct (allocate_length true n l0) as (l & E & L). rewrite E. exists l. split; [reflexivity|]. split; [exact L|]. intros l1 E1 L1. injection E1 as <-. cbn in E. injection E as <-. rewrite firstn_all2 by lia. replace (n - length l0) with 0 by lia. apply app_nil_r.
  - exists (repeat 0 n). split; [reflexivity|]. split; [apply repeat_length | discriminate].
Qed.
Lemma set_counts : forall n cs j l, length l = n -> j + length cs <= n -> exists l', fold_left (fun c ix => set_count n (fst ix) (snd ix) c) (combine (seq j (length cs)) cs) (Some l) = Some l' /\ length l' = n /\
  (forall i, i < j -> nth_error l' i = nth_error l i) /\ forall i, i < length cs -> nth_error l' (j + i) = nth_error cs i.
Proof.
  intros n cs. induction cs as [|x cs IH]; intros j l L B; [exists l; split; [reflexivity|]; split; [exact L|]; split; [reflexivity | cbn; lia]|]. cbn [length seq combine fold_left fst snd] in *.
  destruct (set_count_some n j x (Some l)) as (l1 & E & L1 & Sm). rewrite (Sm l eq_refl L) in E. rewrite E. destruct (IH (S j) (list_set l j x)) as (l' & F & L' & P & Q); [rewrite set_length; exact L | lia|].
  exists l'. split; [exact F|]. split; [exact L'|]. split.
  - intros i Hi. rewrite P by lia. apply set_other. lia.
  - intros [|i] Hi; [rewrite Nat.add_0_r, P by lia; apply set_same; lia | replace (j + S i) with (S j + i) by lia; apply Q; cbn in Hi; lia].
Qed.
Lemma build_counts : forall n cs c, length cs = n -> n <> 0 -> allocate false n (fold_left (fun c ix => set_count n (fst ix) (snd ix) c) (combine (seq 0 n) cs) c) = Some cs.
Proof.
  intros n [|x cs] c L N; [cbn in L; lia|]. subst n. cbn [length seq combine fold_left fst snd]. destruct (set_count_some (S (length cs)) 0 x c) as (l & E & Ll & _). rewrite E.
  destruct (set_counts (S (length cs)) cs 1 (list_set l 0 x)) as (l' & F & L' & P & Q); [rewrite set_length; exact Ll | lia|]. rewrite F. unfold allocate. rewrite firstn_all2 by lia. replace (S (length cs) - length l') with 0 by lia. cbn [repeat]. rewrite app_nil_r. f_equal.
  apply nth_ext with (d := 0) (d' := 0); [exact L'|]. intros i Hi. rewrite !nth_of. destruct i as [|i].
  - rewrite (P 0) by lia. rewrite set_same by lia. reflexivity.
  - change (S i) with (1 + i). rewrite Q by lia. reflexivity.
Qed.
Lemma nth_combine : forall {A B} (l : list A) (l' : list B) i x y, nth_error l i = Some x -> nth_error l' i = Some y -> nth_error (combine l l') i = Some (x, y).
Proof. induction l as [|a l IH]; intros [|b l'] [|i] x y E F; cbn in *; try discriminate; [congruence | apply IH; assumption]. Qed.
Lemma nth_seq0 : forall n i, i < n -> nth_error (seq 0 n) i = Some i.
Proof. intros n i L. rewrite (nth_error_nth' (seq 0 n) 0) by (rewrite seq_length; exact L). rewrite seq_nth by exact L. reflexivity. Qed.

(** After building a vocabulary, the model has the words that are frequent enough, in their order, each with its count. *)
Theorem shared_build_exact : forall w a k raw w', history w -> do_op w (Build V a k raw) = Ok w' ->
  exists m, nth_error (w_models V w') a = Some m /\ words w' m = map fst (kept k raw) /\ forall x c, word_count w' a x = Ok c <-> dget (dict_of raw) x = Some c /\ k <= c.
Proof.
  intros w a k raw w' H D. pose proof (history_Inv fresh zero w H) as I. assert (H' : history w') by (apply (H_op fresh zero w (Build V a k raw) w' H Logic.I D)). pose proof (history_Inv fresh zero w' H') as I'.
  cbn [SharedVocab_Model.do_op] in D. apply on_model_ok in D. destruct D as (m & h' & m' & E & F & Hh & Hm). unfold build in F. destruct (prep V fresh (vectors V m) (length (kept k raw))) as [rows|]; [|discriminate F]. cbn [rbind] in F. injection F as Fh Fm.
  assert (La : a < length (w_models V w)) by (apply nth_error_Some; congruence). assert (E' : nth_error (w_models V w') a = Some m') by (rewrite Hm; apply set_same, La). exists m'. split; [exact E'|].
  destruct (good_pushes (map fst (kept k raw)) no_words good_none (kept_NoDup k raw)) as [G1 G2]; [intros x _ []|]. cbn [i2k no_words app] in G2. destruct (I a m E) as (A & B & _).
  assert (T : the_voc (w_heap V w') (voc V m') = fold_left push (map fst (kept k raw)) no_words).
  { rewrite Hh, <- Fh, <- Fm. unfold the_voc, with_cnt. cbn [h_voc voc]. rewrite app_nth2, Nat.sub_diag by lia. reflexivity. }
  split; [unfold words; rewrite T; exact G2|]. intros x c. unfold SharedVocab_Model.word_count. rewrite E', T.
  assert (K : In (x, c) (kept k raw) <-> dget (dict_of raw) x = Some c /\ k <= c).
  { unfold kept. rewrite filter_In. cbn [snd]. rewrite Nat.leb_le. split; intros [P Q]; (split; [|exact Q]); [apply In_dget; [apply NoDup_dict_of | exact P] | apply dget_In, P]. }
  rewrite <- K. clear K. set (kr := kept k raw) in *.
  assert (C : kr <> [] -> the_cnt (w_heap V w') (cnt V m') = Some (map snd kr)).
  { intros NE. rewrite Hh, <- Fh, <- Fm. unfold the_cnt, with_cnt. cbn [h_cnt cnt]. rewrite nth_of, set_same by exact B. fold kr. apply build_counts; [apply map_length | destruct kr; [congruence | discriminate]]. }
  assert (ND : NoDup (map fst kr)) by apply kept_NoDup. split.
  - intros W. destruct (dget (k2i (fold_left push (map fst kr) no_words)) x) as [i|] eqn:Ei; [|discriminate W]. apply (proj2 G1) in Ei. rewrite G2 in Ei. cbn [of_option rbind] in W. rewrite C in W by (intros Z; rewrite Z in Ei; destruct i; discriminate Ei). cbn [of_option rbind] in W.
    rewrite nth_error_map in Ei, W. destruct (nth_error kr i) as [[x' c']|] eqn:Ek; [|discriminate Ei]. cbn in Ei, W. injection Ei as ->. injection W as ->. apply (nth_error_In kr i Ek).
  - intros P. destruct (In_nth_error _ _ P) as [i Ek]. assert (Ei : dget (k2i (fold_left push (map fst kr) no_words)) x = Some i) by (apply (proj2 G1); rewrite G2, nth_error_map, Ek; reflexivity). rewrite Ei. cbn [of_option rbind]. rewrite C by (intros Z; rewrite Z in P; destruct P). cbn [of_option rbind]. rewrite nth_error_map, Ek. reflexivity.
Qed.
(** After expanding it, the words are the old ones and then the new ones, and the count of each is the old one, if any, and the new one together. *)
Lemma push_new_prefix : forall l v, exists r, i2k (fold_left push_new l v) = i2k v ++ r.
Proof.
  induction l as [|x l IH]; intros v; [exists []; symmetry; apply app_nil_r|]. cbn [fold_left]. destruct (IH (push_new v x)) as [r E]. rewrite E. unfold push_new. destruct (dmem (k2i v) x); [exists r; reflexivity|]. exists (x :: r). cbn [push i2k]. rewrite <- app_assoc. reflexivity.
Qed.
Lemma push_new_words : forall l v, good v -> forall x, In x (i2k (fold_left push_new l v)) <-> In x (i2k v) \/ In x l.
Proof.
  induction l as [|y l IH]; intros v G x; [cbn; tauto|]. cbn [fold_left]. rewrite IH by (apply (good_push_new [y] v G)). unfold push_new. destruct (dmem (k2i v) y) eqn:E.
  - assert (In y (i2k v)); [|cbn [In]; split; [tauto|]; intros [P|[<-|P]]; auto]. apply dmem_true in E. apply dget_Some_key in E. destruct E as [i E]. apply (proj2 G) in E. apply (nth_error_In _ _ E).
  - cbn [push i2k In]. rewrite in_app_iff. cbn [In]. tauto.
Qed.
Theorem shared_expand_exact : forall w a k raw w', history w -> alone w a -> length (counts w a) <= size w a -> do_op w (Expand V a k raw) = Ok w' ->
  exists m m' r, nth_error (w_models V w) a = Some m /\ nth_error (w_models V w') a = Some m' /\ words w' m' = words w m ++ r /\
    (forall x, In x (words w' m') <-> In x (words w m) \/ exists c, dget (dict_of raw) x = Some c /\ k <= c) /\
    forall x, In x (words w' m') -> word_count w' a x = Ok (match word_count w a x with Ok c => c | Err _ => 0 end + dget_or (dict_of raw) x 0).
Proof.
  intros w a k raw w' H Al LC D. pose proof (history_Inv fresh zero w H) as I. cbn [SharedVocab_Model.do_op] in D. apply on_model_ok in D. destruct D as (m & h' & m' & E & F & Hh & Hm). unfold expand in F. destruct (I a m E) as (A & B & G & D1 & D2).
  set (v := fold_left push_new (map fst (kept k raw)) (the_voc (w_heap V w) (voc V m))) in *. destruct (vectors V m) as [|v0 vs]; [discriminate F|]. destruct (prep V fresh (v0 :: vs) (length (i2k v))) as [rows|]; [|discriminate F]. cbn [rbind] in F. injection F as Fh Fm.
  assert (La : a < length (w_models V w)) by (apply nth_error_Some; congruence). assert (E' : nth_error (w_models V w') a = Some m') by (rewrite Hm; apply set_same, La).
  assert (T : the_voc (w_heap V w') (voc V m') = v) by (rewrite Hh, <- Fh, <- Fm; unfold the_voc, with_cnt; cbn [h_voc voc]; rewrite nth_of, set_same by exact A; reflexivity).
  destruct (push_new_prefix (map fst (kept k raw)) (the_voc (w_heap V w) (voc V m))) as [r Er]. fold v in Er. exists m, m', r. split; [exact E|]. split; [exact E'|]. unfold words. rewrite T. split; [exact Er|]. assert (Gv : good v) by (apply good_push_new, G). split.
  - intros x. unfold v. rewrite (push_new_words _ _ G x). split; (intros [P|P]; [left; exact P | right]).
    + apply in_map_iff in P. destruct P as ([y c] & <- & P). cbn [fst]. unfold kept in P. apply filter_In in P. destruct P as [P Q]. exists c. split; [apply In_dget; [apply NoDup_dict_of | exact P] | apply Nat.leb_le, Q].
    + destruct P as (c & P & Q). apply in_map_iff. exists (x, c). split; [reflexivity|]. unfold kept. apply filter_In. split; [apply dget_In, P | apply Nat.leb_le, Q].
  - intros x P. destruct (In_nth_error _ _ P) as [i Ei]. assert (Li : i < length (i2k v)) by (apply nth_error_Some; congruence). unfold SharedVocab_Model.word_count. rewrite E', E, T, (proj2 (proj2 Gv x i) Ei). cbn [of_option rbind].
    assert (C : the_cnt (w_heap V w') (cnt V m') = Some (map (fun iw => nth (fst iw) (counts_of (allocate true (length (i2k v)) (the_cnt (w_heap V w) (cnt V m)))) 0 + dget_or (dict_of raw) (snd iw) 0) (combine (seq 0 (length (i2k v))) (i2k v)))).
    { rewrite Hh, <- Fh, <- Fm. unfold the_cnt, with_cnt. cbn [h_cnt cnt]. rewrite nth_of, set_same by exact B. reflexivity. }
    rewrite C. cbn [of_option rbind]. rewrite nth_error_map, (nth_combine _ _ i i x (nth_seq0 _ _ Li) Ei). cbn [option_map of_option fst snd]. f_equal. f_equal.
    unfold counts, size in LC. rewrite E in LC. unfold words in LC.
    assert (N0 : nth i (counts_of (allocate true (length (i2k v)) (the_cnt (w_heap V w) (cnt V m)))) 0 = nth i (counts_of (the_cnt (w_heap V w) (cnt V m))) 0).
    { destruct (the_cnt (w_heap V w) (cnt V m)) as [l|]; cbn [allocate counts_of] in *.
      - rewrite Er, app_length. rewrite firstn_all2 by lia. destruct (Nat.lt_ge_cases i (length l)) as [L|L]; [apply app_nth1, L|]. rewrite app_nth2, nth_repeat by exact L. symmetry. apply nth_overflow, L.
      - rewrite nth_repeat. destruct i; reflexivity. }
    rewrite N0. destruct (dget (k2i (the_voc (w_heap V w) (voc V m))) x) as [j|] eqn:Ej; cbn [of_option rbind].
    + apply (proj2 G) in Ej. assert (j = i).
      { assert (Ej' : nth_error (i2k v) j = Some x) by (rewrite Er, nth_error_app1; [exact Ej | apply nth_error_Some; congruence]). apply (proj1 (NoDup_nth_error (i2k v)) (proj1 Gv) j i); [apply nth_error_Some; congruence | congruence]. }
      subst j. destruct (the_cnt (w_heap V w) (cnt V m)) as [l|]; cbn [of_option rbind counts_of]; [|destruct i; reflexivity]. rewrite nth_of. destruct (nth_error l i); reflexivity.
    + apply nth_overflow. assert (Li2 : length (i2k (the_voc (w_heap V w) (voc V m))) <= i); [|lia]. destruct (Nat.lt_ge_cases i (length (i2k (the_voc (w_heap V w) (voc V m))))) as [L|L]; [|exact L]. exfalso. rewrite Er, nth_error_app1 in Ei by exact L. apply (proj2 G) in Ei. congruence.
Qed.
End P.
Print Assumptions shared_build_exact.
Print Assumptions shared_expand_exact.
(** Violation: counts left by another vocabulary are added to new words. *)
Theorem expand_counts_refuted : exists os w w', run os = Ok w /\ alone w 0 /\ run (os ++ [Expand nat 0 1 more]) = Ok w' /\ word_count nat w 0 (str "fox") = Err KeyError /\ dget (dict_of more) (str "fox") = Some 4 /\ word_count nat w' 0 (str "fox") = Ok 34.
Proof.
  exists (two ++ [Build nat 1 1 [(str "a", 10); (str "b", 20); (str "c", 30)]]). match goal with |- exists w w', run ?os = _ /\ _ => exists (after os), (after (os ++ [Expand nat 0 1 more])) end. split; [vm_compute; reflexivity|]. split.
  - intros b m m' N E F. destruct b as [|[|b]]; [congruence | vm_compute in E, F; injection E as <-; injection F as <-; cbn; lia | vm_compute in F; destruct b; discriminate F].
  - vm_compute. auto.
Qed.
Print Assumptions expand_counts_refuted.
Example build_example : (let* w := run [New nat; Build nat 0 2 dogs] in Ok (map (word_count nat w 0) [str "dog"; str "cat"; str "rare"])) = Ok [Ok 5; Ok 3; Err KeyError].
Proof. vm_compute. reflexivity. Qed.
Example expand_example : (let* w := run [New nat; Build nat 0 2 dogs; Expand nat 0 3 more] in Ok (map (word_count nat w 0) [str "dog"; str "cat"; str "fox"], size w 0)) = Ok ([Ok 7; Ok 3; Ok 4], 3).
Proof. vm_compute. reflexivity. Qed.
