(** Theorems about translation matrices. *)
From Coq Require Import Reals Lra Psatz Lia Permutation.
From Verif Require Import Base Str LdaTrain_Model LdaTrain_Proofs2 SoftCosine_Model Lsi_Linear Trans_Model Trans_Spec Trans_Proofs Trans_Proofs2 Trans_Proofs3.
Local Open Scope R_scope.

(** ** C111: training *)
(** Whatever order the sets have and however often a word occurs, the rows handed to the least squares solver are the unit vectors of the pairs, in the order of the pairs. *)
Theorem train_exact : forall d1 d2 order lstsq src tgt pairs W, set_order order ->
  (train d1 d2 order lstsq src tgt pairs = Ok W <->
   pairs <> [] /\ (forall s t, In (s, t) pairs -> In s (dkeys src) /\ In t (dkeys tgt)) /\
   W = lstsq (map (fun p => hat d1 (vector src (fst p))) pairs) (map (fun p => hat d2 (vector tgt (snd p))) pairs)).
Proof.
  intros d1 d2 order lstsq src tgt pairs W HO. split.
  - intros H. destruct (train_inv _ _ _ HO _ _ _ _ _ H) as [NE KN]. split; [exact NE|]. split; [intros s t I; apply (KN (s, t) I)|]. rewrite (train_ok _ _ _ HO) in H by assumption. injection H as <-. reflexivity.
  - intros (NE & KN & ->). apply (train_ok _ _ _ HO); [exact NE|]. intros [s t] I. now apply KN.
Qed.
Print Assumptions train_exact.
(** The matrix has the least sum of squared distances between the images of the unit source vectors and the unit target vectors. *)
Theorem train_least : forall d1 d2 order lstsq src tgt pairs W, set_order order -> train d1 d2 order lstsq src tgt pairs = Ok W ->
  (forall m1 m2, length m1 = length pairs -> length m2 = length pairs -> least_misfit d1 d2 m1 m2 (lstsq m1 m2)) ->
  forall W', fold_right Rplus 0 (map (fun p => misfit d1 d2 W (hat d1 (vector src (fst p)), hat d2 (vector tgt (snd p)))) pairs)
          <= fold_right Rplus 0 (map (fun p => misfit d1 d2 W' (hat d1 (vector src (fst p)), hat d2 (vector tgt (snd p)))) pairs).
Proof.
  intros d1 d2 order lstsq src tgt pairs W HO H LS W'. apply train_exact in H; [|exact HO]. destruct H as (_ & _ & ->). set (m1 := map (fun p : pystr * pystr => hat d1 (vector src (fst p))) pairs). set (m2 := map (fun p : pystr * pystr => hat d2 (vector tgt (snd p))) pairs).
  specialize (LS m1 m2 ltac:(unfold m1; apply map_length) ltac:(unfold m2; apply map_length) W'). unfold total_misfit in LS. assert (C : combine m1 m2 = map (fun p => (hat d1 (vector src (fst p)), hat d2 (vector tgt (snd p)))) pairs) by (unfold m1, m2; apply combine_maps).
  rewrite C, !map_map in LS. exact LS.
Qed.
Print Assumptions train_least.
(** If some linear map sends every unit source vector to the unit vector of its translation, the trained one does too, and the first translation of every word of the dictionary
    has the direction of the word's partner. *)
Theorem exact_dictionary : forall d1 d2 order argsort lstsq src tgt pairs W A words topn res, set_order order -> sorts argsort -> NoDup (dkeys tgt) ->
  (forall m1 m2, length m1 = length pairs -> length m2 = length pairs -> least_misfit d1 d2 m1 m2 (lstsq m1 m2)) ->
  (forall t, In t (dkeys tgt) -> len d2 (vector tgt t) <> 0) ->
  (forall s t, In (s, t) pairs -> forall j, (j < d2)%nat -> image d1 A (hat d1 (vector src s)) j = hat d2 (vector tgt t) j) ->
  train d1 d2 order lstsq src tgt pairs = Ok W ->
  translate d1 d2 order argsort W src tgt words topn false None (fun _ => 0%nat) = Ok res -> (1 <= topn)%nat ->
  forall s t, In (s, t) pairs ->
    (forall j, (j < d2)%nat -> image d1 W (hat d1 (vector src s)) j = hat d2 (vector tgt t) j) /\
    (In s words -> exists first rest, dget res s = Some (first :: rest) /\ forall j, (j < d2)%nat -> hat d2 (vector tgt first) j = hat d2 (vector tgt t) j).
Proof.
  intros d1 d2 order argsort lstsq src tgt pairs W A words topn res HO HA ND LS NZ EX TR TL HN s t I.
  pose proof (train_least d1 d2 order lstsq src tgt pairs W HO TR LS A) as LE.
  assert (Z0 : fold_right Rplus 0 (map (fun p => misfit d1 d2 A (hat d1 (vector src (fst p)), hat d2 (vector tgt (snd p)))) pairs) = 0).
  { clear - EX. induction pairs as [|[a b] pairs IH]; [reflexivity|]. cbn [map fold_right fst snd]. rewrite IH by (intros x y J; apply EX; now right). rewrite (proj2 (misfit_zero _ _ _ _ _)); [lra|]. apply EX. now left. }
  rewrite Z0 in LE. assert (LE' : fold_right Rplus 0 (map (misfit d1 d2 W) (map (fun p => (hat d1 (vector src (fst p)), hat d2 (vector tgt (snd p)))) pairs)) <= 0) by (rewrite map_map; exact LE).
  assert (FIT : forall j, (j < d2)%nat -> image d1 W (hat d1 (vector src s)) j = hat d2 (vector tgt t) j).
  { apply misfit_zero. apply (total_zero _ _ _ _ LE'). apply in_map_iff. exists (s, t). auto. }
  split; [exact FIT|]. intros IW. destruct (translate_inv d1 d2 order argsort HA _ _ _ _ _ _ _ _ _ TL) as (lex & EL & NL & NT & KS & _ & LT & G).
  destruct (G s IW) as [c [Ec E]]. assert (TK : In t (dkeys tgt)) by (apply train_exact in TR; [|exact HO]; destruct TR as (_ & KN & _); now apply (KN s t)).
  assert (LT' : (topn <= length (dkeys tgt))%nat) by (unfold dkeys; rewrite map_length; apply LT; intros X; subst words; contradiction).
  pose proof (top_words argsort HA (badness d1 d2 argsort false W src tgt lex c s) (dkeys tgt) topn ND LT') as (L & NDW & IN & S1 & S2).
  set (ws := map _ (firstn topn _)) in *. clearbody ws. destruct ws as [|first rest]; [cbn in L; lia|]. exists first, rest. split; [exact E|].
  assert (FK : In first (dkeys tgt)) by (apply IN; now left). unfold badness, sc in S1, S2.
  assert (SC : forall x, score d1 d2 W (vector src s) (vector tgt x) = dot d2 (hat d2 (vector tgt x)) (hat d2 (vector tgt t))) by (intros x; unfold score; apply dot_ext; [reflexivity | exact FIT]).
  apply hat_same; [apply hat_unit, NZ, FK | apply hat_unit, NZ, TK|]. rewrite <- SC. rewrite <- (hat_unit d2 (vector tgt t) (NZ t TK)). rewrite <- SC. apply Rle_ge.
  destruct (in_dec eq_dec t (first :: rest)) as [J|J].
  - apply (In_nth (A:=pystr) _ _ []) in J. destruct J as [i [Hi Ei]]. destruct i as [|i]; [cbn in Ei; subst first; lra|]. specialize (S1 0%nat (S i) ltac:(lia)). rewrite Ei in S1. cbn [nth] in S1. lra.
  - specialize (S2 first t (or_introl eq_refl) TK J). lra.
Qed.
Print Assumptions exact_dictionary.
(** Nothing to train on, or a word without vector *)
Theorem train_fails : forall d1 d2 order lstsq src tgt, set_order order ->
  train d1 d2 order lstsq src tgt [] = Err ValueError /\
  forall pairs s t, In (s, t) pairs -> ~ (In s (dkeys src) /\ In t (dkeys tgt)) -> train d1 d2 order lstsq src tgt pairs = Err KeyError.
Proof.
  intros d1 d2 order lstsq src tgt HO. split; [reflexivity|]. intros pairs s t I N. unfold train. destruct pairs as [|p0 pairs']; [contradiction|]. set (pairs := p0 :: pairs') in *.
  assert (B : forall (kv : vectors) (l : list pystr), (exists w, In w l /\ ~ In w (dkeys kv)) -> build kv (Some l) = Err KeyError).
  { intros kv l [w [Iw Nw]]. unfold build. rewrite (rmapM_at _ _ w KeyError); [reflexivity| |exact Iw|now apply vector_missing]. intros y _. unfold vector_of. destruct (dget kv y) as [v|]; [exists v; now left | exists (fun _ => 0); now right]. }
  destruct (build src (Some (order (map fst pairs)))) as [sp|e] eqn:Es.
  - cbn [rbind]. rewrite (B tgt); [reflexivity|]. exists t. split; [apply (order_in _ HO), in_map_iff; exists (s, t); auto|]. intros K. apply N. split; [|exact K]. apply build_inv in Es. apply Es. apply (order_in _ HO), in_map_iff. exists (s, t); auto.
  - cbn [rbind]. unfold build in Es. destruct (rmapM (vector_of src) (order (map fst pairs))) as [r|e'] eqn:Er; [discriminate|]. cbn in Es. injection Es as <-. f_equal.
    clear - Er. revert e' Er. generalize (order (map fst pairs)). intros l. induction l as [|w l IH]; intros e' Er; [discriminate|]. cbn [rmapM] in Er. unfold vector_of at 1 in Er.
    destruct (dget src w) as [v|]; [|cbn in Er; now injection Er as <-]. cbn [rbind] in Er. destruct (rmapM (vector_of src) l) as [q|e2]; [discriminate|]. cbn in Er. injection Er as <-. now apply IH.
Qed.
Print Assumptions train_fails.

(** ** C112: translating *)
(** The translations are the [topn] target words whose vectors have the largest cosine with the image of the source word, the largest first. *)
Theorem translate_nearest : forall d1 d2 order argsort W src tgt words topn sample_num draw, sorts argsort -> NoDup (dkeys tgt) ->
  ((exists res, translate d1 d2 order argsort W src tgt words topn false sample_num draw = Ok res) <-> words <> [] /\ tgt <> [] /\ (forall w, In w words -> In w (dkeys src)) /\ (topn <= length tgt)%nat) /\
  forall res, translate d1 d2 order argsort W src tgt words topn false sample_num draw = Ok res ->
    (forall k, In k (dkeys res) <-> In k words) /\
    forall w, In w words -> exists ts, dget res w = Some ts /\
      best_first (fun t => score d1 d2 W (vector src w) (vector tgt t)) (dkeys tgt) topn ts /\
      (len d1 (vector src w) <> 0 -> len d2 (image d1 W (vector src w)) <> 0 -> (forall t, In t (dkeys tgt) -> len d2 (vector tgt t) <> 0) ->
       best_first (fun t => cosine d2 (image d1 W (vector src w)) (vector tgt t)) (dkeys tgt) topn ts).
Proof.
  intros d1 d2 order argsort W src tgt words topn sample_num draw HA ND. split.
  - split.
    + intros [res H]. destruct (translate_inv d1 d2 order argsort HA _ _ _ _ _ _ _ _ _ H) as (lex & EL & NL & NT & KS & _ & LT & _). injection EL as <-. auto.
    + intros (NW & NT & KS & L). apply (translate_ok d1 d2 order argsort HA) with (lex := words); auto.
  - intros res H. destruct (translate_inv d1 d2 order argsort HA _ _ _ _ _ _ _ _ _ H) as (lex & EL & NL & NT & KS & DK & LT & G). injection EL as <-. split; [exact DK|].
    intros w I. destruct (G w I) as [c [Ec E]]. eexists. split; [exact E|].
    assert (LT' : (topn <= length (dkeys tgt))%nat) by (unfold dkeys; rewrite map_length; auto).
    pose proof (top_words argsort HA (badness d1 d2 argsort false W src tgt words c w) (dkeys tgt) topn ND LT') as B. assert (B' : best_first (fun t => score d1 d2 W (vector src w) (vector tgt t)) (dkeys tgt) topn (map (fun i => nth i (dkeys tgt) []) (firstn topn (argsort (map (badness d1 d2 argsort false W src tgt words c w) (dkeys tgt)))))).
    { revert B. apply best_first_ext. intros x y _ _. unfold badness, sc. lra. }
    split; [exact B'|]. intros H1 H2 H3. revert B'. apply best_first_ext. intros x y Hx Hy. rewrite !score_cosine by auto. apply len_pos in H1, H2. assert (P : 0 < len d2 (image d1 W (vector src w)) / len d1 (vector src w)) by (apply Rdiv_lt_0_compat; assumption).
    intros LE. now apply (Rmult_le_reg_r _ _ _ P).
Qed.
Print Assumptions translate_nearest.
(** Without the corrected retrieval the result does not depend on the length of the images: scaling the matrix, or the words' vectors, changes nothing. *)
Theorem translate_scale : forall d1 d2 order argsort W k src tgt words topn sample_num draw res res', sorts argsort -> NoDup (dkeys tgt) -> 0 < k ->
  translate d1 d2 order argsort W src tgt words topn false sample_num draw = Ok res ->
  translate d1 d2 order argsort (fun i j => k * W i j) src tgt words topn false sample_num draw = Ok res' ->
  forall w, In w words -> (forall t t', In t (dkeys tgt) -> In t' (dkeys tgt) -> score d1 d2 W (vector src w) (vector tgt t) = score d1 d2 W (vector src w) (vector tgt t') -> t = t') -> dget res w = dget res' w.
Proof.
  intros d1 d2 order argsort W k src tgt words topn sample_num draw res res' HA ND Hk H H' w I INJ.
  destruct (proj2 (translate_nearest d1 d2 order argsort W src tgt words topn sample_num draw HA ND) res H) as [_ G]. destruct (G w I) as [ts [E [(L & N1 & I1 & S1 & S2) _]]].
  destruct (proj2 (translate_nearest d1 d2 order argsort (fun i j => k * W i j) src tgt words topn sample_num draw HA ND) res' H') as [_ G']. destruct (G' w I) as [ts' [E' [(L' & N1' & I1' & S1' & S2') _]]].
  rewrite E, E'. f_equal. set (f := fun t => score d1 d2 W (vector src w) (vector tgt t)) in *.
  assert (SC : forall t, score d1 d2 (fun i j => k * W i j) (vector src w) (vector tgt t) = k * f t).
  { intros t. unfold f, score, dot. rewrite <- sumn_scal. apply sumn_ext. intros j _. unfold image. rewrite <- Rmult_assoc, (Rmult_comm k), Rmult_assoc. f_equal. rewrite <- sumn_scal. apply sumn_ext. intros i _. ring. }
  assert (S1k : forall i j, (i < j < topn)%nat -> f (nth j ts' []) <= f (nth i ts' [])) by (intros i j Hij; specialize (S1' i j Hij); cbv beta in S1'; rewrite !SC in S1'; now apply (Rmult_le_reg_l k)).
  assert (S2k : forall x y, In x ts' -> In y (dkeys tgt) -> ~ In y ts' -> f y <= f x) by (intros x y A B C; specialize (S2' x y A B C); cbv beta in S2'; rewrite !SC in S2'; now apply (Rmult_le_reg_l k)). clear S1' S2' SC.
  assert (UNI : forall n a b, (n <= topn)%nat -> length a = topn -> length b = topn -> NoDup a -> NoDup b -> incl a (dkeys tgt) -> incl b (dkeys tgt) ->
     (forall i j, (i < j < topn)%nat -> f (nth j a []) <= f (nth i a [])) -> (forall i j, (i < j < topn)%nat -> f (nth j b []) <= f (nth i b [])) ->
     (forall x y, In x a -> In y (dkeys tgt) -> ~ In y a -> f y <= f x) -> (forall x y, In x b -> In y (dkeys tgt) -> ~ In y b -> f y <= f x) -> forall i, (i < n)%nat -> nth i a [] = nth i b []).
  { clear - INJ. intros n a b Hn La Lb Na Nb Ia Ib Sa Sb Ta Tb. induction n as [|n IH]; intros i Hi; [lia|]. destruct (Nat.eq_dec i n) as [->|NE]; [|apply IH; lia]. specialize (IH ltac:(lia)).
    assert (HALF : forall a b, length a = topn -> length b = topn -> NoDup a -> NoDup b -> incl a (dkeys tgt) -> incl b (dkeys tgt) -> (forall i j, (i < j < topn)%nat -> f (nth j a []) <= f (nth i a [])) -> (forall x y, In x a -> In y (dkeys tgt) -> ~ In y a -> f y <= f x) ->
       (forall i, (i < n)%nat -> nth i a [] = nth i b []) -> f (nth n b []) <= f (nth n a [])).
    { clear - Hn. intros a b La Lb Na Nb Ia Ib Sa Ta IH. assert (Kb : In (nth n b []) (dkeys tgt)) by (apply Ib, nth_In; lia). destruct (in_dec eq_dec (nth n b []) a) as [J|J]; [|apply Ta; [apply nth_In; lia | exact Kb | exact J]].
      apply (In_nth (A:=pystr) _ _ []) in J. destruct J as [m [Hm Em]]. destruct (lt_eq_lt_dec m n) as [[L| ->]|L].
      - exfalso. rewrite IH in Em by exact L. apply (proj1 (NoDup_nth (A:=pystr) b []) Nb) in Em; lia.
      - rewrite Em. lra.
      - rewrite <- Em. apply Sa. lia. }
    apply INJ; [apply Ia, nth_In; lia | apply Ib, nth_In; lia|]. apply Rle_antisym; [apply (HALF b a) | apply (HALF a b)]; auto. intros i Hi'. symmetry. now apply IH. }
  apply nth_ext with (d := []) (d' := []); [congruence|]. intros i Hi. apply (UNI topn ts ts'); auto; lia.
Qed.
Print Assumptions translate_scale.
