(** Evaluation on analogies and word pairs. *)

From Coq Require Import QArith Sorted.
From Verif Require Import Base Str Matutils_Model Matutils_Proofs Matutils_Proofs2 Matutils_Properties MmCorpus_Proofs KeyedVectors_Spec KeyedVectors_Properties KvEval_Model KvEval_Spec.
From Coq Require Import ZifyBool ZifyNat.
Close Scope Q_scope.
Local Open Scope nat_scope.

Lemma window_firstn : forall {A} rv (l : list A), prefix_opt rv l = firstn (window rv (length l)) l.
Proof.
  intros A [z|] l; unfold prefix_opt, window, py_prefix; [|symmetry; apply firstn_all].
  destruct (z <? 0)%Z eqn:E; [reflexivity|].
  destruct (Nat.le_ge_cases (length l) (Z.to_nat z)) as [L|L].
  - rewrite Nat.min_l by exact L. rewrite firstn_all, firstn_all2 by exact L. reflexivity.
  - rewrite Nat.min_r by exact L. reflexivity.
Qed.
Lemma window_le : forall rv n, window rv n <= n.
Proof. intros [z|] n; cbn [window]; [|lia]. destruct (z <? 0)%Z eqn:E; lia. Qed.

Lemma nth_error_firstn_lt : forall {A} n (l : list A) i, i < n -> nth_error (firstn n l) i = nth_error l i.
Proof.
  induction n as [|n IH]; intros l i H; [lia|]. destruct l as [|x l]; [destruct i; reflexivity|].
  destruct i as [|i]; [reflexivity|]. cbn. apply IH. lia.
Qed.

Lemma NoDup_app_intro : forall {A} (l l' : list A), NoDup l -> NoDup l' -> (forall x, In x l -> In x l' -> False) -> NoDup (l ++ l').
Proof.
  intros A l. induction l as [|x l IH]; intros l' N1 N2 D; [exact N2|]. inversion N1; subst. cbn. constructor.
  - intros I. apply in_app_or in I. destruct I as [I|I]; [contradiction | exact (D x (or_introl eq_refl) I)].
  - apply IH; auto. intros y I1 I2. exact (D y (or_intror I1) I2).
Qed.
Lemma filter_map_length : forall {A B} (f : A -> B) (g : B -> bool) l, length (filter g (map f l)) = length (filter (fun x => g (f x)) l).
Proof. intros A B f g l. induction l as [|x l IH]; cbn; [reflexivity|]. destruct (g (f x)); cbn; auto. Qed.

Section P.
Variable upper : pystr -> pystr.
Variable offset_score : nat -> nat -> nat -> nat -> Q.
Variable cosine : nat -> nat -> Q.
Variable parse_float : pystr -> option Q.
Variable np_argsort : list Q -> list nat.
Variable np_argpartition : list Q -> nat -> list nat.
Hypothesis Ha : argsort_contract np_argsort.
Hypothesis Hp : argpartition_contract np_argpartition.

(** ** The restricted vocabulary *)
Lemma ok_vocab_fold : forall (m : kvm) (g : pystr -> pystr) l, (forall k, In k l -> exists i, dget (key_to_index m) k = Some i) ->
  exists d, rfold (fun d k => let* i := get_index m k in Ok (dset d (g k) i)) (rev l) [] = Ok d /\
    forall u, dget d u = match find (fun k => eqb (g k) u) l with Some k => dget (key_to_index m) k | None => None end.
Proof.
  intros m g l. induction l as [|x l IH]; intros H; [exists []; split; reflexivity|].
  destruct IH as (d & E & D); [intros k I; apply H; right; exact I|].
  destruct (H x) as (i & Ei); [left; reflexivity|].
  cbn [rev]. rewrite rfold_app, E. cbn [rfold rbind]. unfold get_index. rewrite Ei. cbn [of_option rbind].
  exists (dset d (g x) i). split; [reflexivity|]. intros u. rewrite dget_dset. cbn [find]. unfold eqb at 1.
  destruct (eq_dec (g x) u); [congruence | apply D].
Qed.

Lemma find_first : forall {A} (f : A -> bool) l, match find f l with
  | Some x => exists i, nth_error l i = Some x /\ f x = true /\ forall j y, j < i -> nth_error l j = Some y -> f y = false
  | None => forall x, In x l -> f x = false
  end.
Proof.
  intros A f l. induction l as [|x l IH]; cbn [find]; [intros x []|].
  destruct (f x) eqn:E.
  - exists 0. split; [reflexivity|]. split; [exact E|]. intros j y L. lia.
  - destruct (find f l) as [z|].
    + destruct IH as (i & I1 & I2 & I3). exists (S i). split; [exact I1|]. split; [exact I2|].
      intros [|j] y L Ey; [cbn in Ey; congruence|]. apply (I3 j y); [lia | exact Ey].
    + intros y [<-|I]; auto.
Qed.

Notation NORM := (fold_case upper).
Notation WIN m rv := (window rv (length (index_to_key m))).

Theorem ok_vocab_first : forall m rv ci, proper m -> exists ok, ok_vocab upper m rv ci = Ok ok /\
  forall w i, dget ok w = Some i <-> first_row (NORM ci) m (WIN m rv) w i.
Proof.
  intros m rv ci (ND & K). unfold ok_vocab. rewrite window_firstn. set (n := WIN m rv).
  destruct (ok_vocab_fold m (NORM ci) (firstn n (index_to_key m))) as (d & E & D).
  { intros k I. apply In_firstn in I. apply In_nth_error in I. destruct I as (i & I). exists i. apply K. exact I. }
  exists d. split; [exact E|]. intros w i. rewrite D.
  pose proof (find_first (fun k => eqb (NORM ci k) w) (firstn n (index_to_key m))) as F.
  destruct (find _ _) as [k|].
  - destruct F as (j & F1 & F2 & F3). rewrite eqb_true in F2.
    assert (Lj : j < n). { assert (j < length (firstn n (index_to_key m))) by (apply nth_error_Some; congruence). rewrite firstn_length in H. lia. }
    rewrite nth_error_firstn_lt in F1 by exact Lj.
    assert (FR : first_row (NORM ci) m n w j).
    { split; [split; [exact Lj | exists k; auto]|]. intros j' L (L' & k' & E1 & E2).
      rewrite <- (nth_error_firstn_lt n) in E1 by exact L'. specialize (F3 j' k' L E1). rewrite eqb_false in F3. auto. }
    assert (Ek : dget (key_to_index m) k = Some j) by (apply K; exact F1). rewrite Ek. split; [intros X; injection X as <-; exact FR|].
    intros ((L & k' & E1 & E2) & M). f_equal. destruct (Nat.lt_trichotomy i j) as [X|[X|X]]; [|congruence|].
    + exfalso. apply (proj2 FR i X). split; [exact L | exists k'; auto].
    + exfalso. apply (M j X). exact (proj1 FR).
  - split; [discriminate|]. intros ((L & k & E1 & E2) & _). exfalso.
    rewrite <- (nth_error_firstn_lt n) in E1 by exact L. apply nth_error_In in E1. specialize (F k E1). rewrite eqb_false in F. auto.
Qed.

Section Fixed.
Variables (m : kvm) (rv : option Z) (ci dummy : bool) (ok : dict pystr nat).
Hypothesis PR : proper m.
Hypothesis OK : forall w i, dget ok w = Some i <-> first_row (NORM ci) m (WIN m rv) w i.
Let n := WIN m rv.

Lemma first_exists : forall w i, reads (NORM ci) m n w i -> exists j, j <= i /\ first_row (NORM ci) m n w j.
Proof.
  intros w i. induction i as [i IH] using lt_wf_ind. intros R.
  destruct (dget ok w) as [j|] eqn:E.
  - apply OK in E. exists j. split; [|exact E]. destruct (Nat.le_gt_cases j i) as [L|L]; [exact L|]. exfalso. exact (proj2 E i L R).
  - destruct (Nat.eq_dec i 0) as [->|Ni]; [exists 0; split; [lia|]; split; [exact R | intros; lia]|].
    destruct (existsb (fun j => match nth_error (index_to_key m) j with Some k => eqb (NORM ci k) w | None => false end) (seq 0 i)) eqn:EX.
    + apply existsb_exists in EX. destruct EX as (j & Ij & B). apply in_seq in Ij. destruct (nth_error (index_to_key m) j) as [k|] eqn:Ek; [|discriminate].
      rewrite eqb_true in B. destruct (IH j ltac:(lia)) as (j' & L & F).
      { split; [destruct R; lia | exists k; auto]. } exists j'. split; [lia | exact F].
    + exists i. split; [lia|]. split; [exact R|]. intros j L (Lj & k & E1 & E2).
      assert (X : existsb (fun j => match nth_error (index_to_key m) j with Some k => eqb (NORM ci k) w | None => false end) (seq 0 i) = true).
      { apply existsb_exists. exists j. split; [apply in_seq; lia|]. rewrite E1. apply eqb_true. exact E2. }
      congruence.
Qed.
Lemma known_dmem : forall w, dmem ok w = true <-> known (NORM ci) m n w.
Proof.
  intros w. unfold dmem. split.
  - destruct (dget ok w) as [i|] eqn:E; [|discriminate]. intros _. apply OK in E. exists i. apply E.
  - intros (i & R). destruct (first_exists w i R) as (j & _ & F). apply OK in F. rewrite F. reflexivity.
Qed.

Lemma reads_inj : forall w w' i, reads (NORM ci) m n w i -> reads (NORM ci) m n w' i -> w = w'.
Proof. intros w w' i (_ & k & E & <-) (_ & k' & E' & <-). congruence. Qed.
Lemma first_inj : forall w i j, first_row (NORM ci) m n w i -> first_row (NORM ci) m n w j -> i = j.
Proof. intros w i j F G. apply OK in F. apply OK in G. congruence. Qed.
Lemma reads_row : forall i, i < n -> exists k, nth_error (index_to_key m) i = Some k /\ reads (NORM ci) m n (NORM ci k) i.
Proof.
  intros i L. destruct (nth_error (index_to_key m) i) as [k|] eqn:E.
  - exists k. split; [reflexivity|]. split; [exact L | exists k; auto].
  - apply nth_error_None in E. unfold n in L. pose proof (window_le rv (length (index_to_key m))). lia.
Qed.

(** The search: the five best rows other than the three first ones. *)
Lemma search_ok : forall a b c ia ib ic, dget ok a = Some ia -> dget ok b = Some ib -> dget ok c = Some ic ->
  exists idxs, most_similar5 offset_score np_argsort np_argpartition (set_k2i m ok) a b c rv = Ok (map (fun i => nth i (index_to_key m) []) idxs) /\
    top_of (offset_score ia ib ic) (fun i => i < n /\ ~ In i [ib; ic; ia]) 5 idxs.
Proof.
  intros a b c ia ib ic Ea Eb Ec. unfold most_similar5, get_index. cbn [key_to_index set_k2i index_to_key]. rewrite Ea, Eb, Ec. cbn [of_option rbind].
  set (K := set_of [ib; ic; ia]). set (len := length (index_to_key m)) in *.
  assert (NZ : 0 < n). { apply OK in Ea. destruct Ea as ((L & _) & _). fold n in L. lia. }
  assert (R : match rv with Some 0%Z => seq 0 len | _ => prefix_opt rv (seq 0 len) end = seq 0 n).
  { assert (P : prefix_opt rv (seq 0 len) = seq 0 n).
    { rewrite window_firstn, seq_length. unfold n. fold len. pose proof (window_le rv len) as L.
      replace len with (window rv len + (len - window rv len)) at 2 by lia. rewrite seq_app, firstn_app, seq_length, Nat.sub_diag. cbn [firstn].
      rewrite app_nil_r. rewrite <- (seq_length (window rv len) 0) at 1. apply firstn_all. }
    destruct rv as [[| |]|]; try exact P. exfalso. unfold n, window in NZ. cbn in NZ. lia. }
  rewrite R. set (ds := map (offset_score ia ib ic) (seq 0 n)).
  assert (Ld : length ds = n) by (unfold ds; rewrite map_length, seq_length; reflexivity).
  assert (Dn : forall i, i < n -> nth i ds 0%Q = offset_score ia ib ic i).
  { intros i L. unfold ds. rewrite (nth_indep _ 0%Q (offset_score ia ib ic 0)) by (rewrite map_length, seq_length; exact L).
    rewrite map_nth, seq_nth by exact L. reflexivity. }
  pose proof (best_without np_argsort np_argpartition Ha Hp ds 0 K 5 ltac:(lia)) as B. cbv zeta in B.
  set (best := argsort np_argsort np_argpartition ds (Some (5 + Z.of_nat (length K))%Z) true) in *.
  assert (EF : filter (fun i => negb (memb (i + 0) K)) best = filter (fun i => negb (memb i K)) best).
  { apply filter_ext. intros i. rewrite Nat.add_0_r. reflexivity. }
  rewrite EF in B. change (Z.to_nat 5) with 5 in B.
  assert (IB : forall i, In i best -> i < n).
  { intros i I. destruct (argsort_is_topn np_argsort np_argpartition Ha Hp ds (Some (5 + Z.of_nat (length K))%Z) true) as (_ & _ & Rg & _).
    fold best in Rg. rewrite <- Ld. apply Rg. exact I. }
  assert (RM : rmapM (fun i => of_option IndexError (nth_error (index_to_key m) i)) (filter (fun i => negb (memb i K)) best)
               = Ok (map (fun i => nth i (index_to_key m) []) (filter (fun i => negb (memb i K)) best))).
  { generalize (fun i (H : In i (filter (fun i => negb (memb i K)) best)) => IB i (proj1 (proj1 (filter_In _ _ _) H))).
    generalize (filter (fun i => negb (memb i K)) best). intros l Hl. induction l as [|x l IHl]; [reflexivity|].
    cbn [rmapM map]. rewrite (nth_error_nth' (index_to_key m) ([] : pystr)).
    - cbn [of_option rbind]. rewrite IHl by (intros; apply Hl; right; assumption). reflexivity.
    - specialize (Hl x (or_introl eq_refl)). pose proof (window_le rv len). unfold n in Hl. fold len in Hl. fold len. lia. }
  rewrite RM. cbn [rbind]. rewrite firstn_map. eexists. split; [reflexivity|].
  destruct B as (B1 & B2 & B3 & B4 & B5 & B6).
  assert (EK : forall i, In i K <-> In i [ib; ic; ia]) by (intros; unfold K, set_of; apply nodup_In).
  assert (EL : forall i, (i < length ds /\ ~ In (i + 0) K) <-> (i < n /\ ~ In i [ib; ic; ia])) by (intros i; rewrite Nat.add_0_r, EK, Ld; tauto).
  split; [exact B1|]. split; [intros i I; apply EL; auto|]. split; [|split; [exact B4|split]].
  - revert B2 B3. set (res := firstn 5 _). clearbody res. clear - Dn EL. intros B2 B3. induction B3 as [|x l S IH F]; constructor.
    + apply IH. intros i I. apply B2. right. exact I.
    + rewrite Forall_forall in *. intros y Iy. specialize (F y Iy). rewrite !Dn in F by (apply EL, B2; cbn; auto). exact F.
  - destruct B5 as [B5|B5]; [left; exact B5 | right]. intros j J. apply B5. apply EL. exact J.
  - intros i j I J NJ. specialize (B6 i j I (proj2 (EL j) J) NJ). cbv beta in B6. rewrite (Dn j), (Dn i) in B6; [exact B6 | apply (EL i); apply B2; exact I | apply J].
Qed.

Lemma predict_first : forall ignore idxs p0, (forall i, In i idxs -> i < n) ->
  (exists i, In i idxs /\ ~ In (NORM ci (nth i (index_to_key m) [])) ignore) ->
  exists pre j post, idxs = pre ++ j :: post /\ predict upper ci ok ignore (map (fun i => nth i (index_to_key m) []) idxs) p0 = Some (NORM ci (nth j (index_to_key m) [])) /\
    ~ In (NORM ci (nth j (index_to_key m) [])) ignore /\ forall i, In i pre -> In (NORM ci (nth i (index_to_key m) [])) ignore.
Proof.
  intros ignore idxs. induction idxs as [|x idxs IH]; intros p0 L (i & I & NI); [destruct I|].
  cbn [map predict].
  assert (DM : dmem ok (NORM ci (nth x (index_to_key m) [])) = true).
  { apply known_dmem. destruct (reads_row x) as (k & E & R); [apply L; left; reflexivity|].
    rewrite (nth_error_nth (index_to_key m) _ ([] : pystr) E). exists x. exact R. }
  rewrite DM. cbn [andb]. destruct (memb (NORM ci (nth x (index_to_key m) [])) ignore) eqn:EM; cbn [negb].
  - apply memb_true in EM. destruct I as [->|I]; [contradiction|].
    destruct (IH (Some (NORM ci (nth x (index_to_key m) [])))) as (pre & j & post & E1 & E2 & E3 & E4); [intros; apply L; right; assumption | exists i; auto |].
    exists (x :: pre), j, post. rewrite E1. split; [reflexivity|]. rewrite <- E1. split; [exact E2|]. split; [exact E3|].
    intros y [<-|Iy]; auto.
  - apply memb_false in EM. exists [], x, idxs. repeat split; auto. intros y [].
Qed.

Definition answer_of (q : quad) : option pystr :=
  let '(a, b, c, _) := q in
  match most_similar5 offset_score np_argsort np_argpartition (set_k2i m ok) a b c rv with
  | Ok sims => predict upper ci ok [a; b; c] sims None
  | Err _ => None
  end.

Lemma variants_count : forall a b c ia ib ic idxs, first_row (NORM ci) m n a ia -> first_row (NORM ci) m n b ib -> first_row (NORM ci) m n c ic ->
  NoDup idxs -> (forall i, In i idxs -> i < n /\ ~ In i [ib; ic; ia] /\ In (NORM ci (nth i (index_to_key m) [])) [a; b; c]) ->
  length idxs + length (nodup eq_dec [a; b; c]) <= length (filter (fun k => memb (NORM ci k) [a; b; c]) (firstn n (index_to_key m))).
Proof.
  intros a b c ia ib ic idxs Fa Fb Fc ND H.
  set (row := fun w => match dget ok w with Some i => i | None => 0 end).
  set (all := idxs ++ map row (nodup eq_dec [a; b; c])).
  assert (RW : forall w, In w [a; b; c] -> first_row (NORM ci) m n w (row w)).
  { intros w I. unfold row. destruct I as [<-|[<-|[<-|[]]]].
    - rewrite (proj2 (OK a ia) Fa). exact Fa.
    - rewrite (proj2 (OK b ib) Fb). exact Fb.
    - rewrite (proj2 (OK c ic) Fc). exact Fc. }
  assert (NDa : NoDup all).
  { apply NoDup_app_intro; [exact ND | |].
    - assert (X : forall l, NoDup l -> (forall w, In w l -> In w [a; b; c]) -> NoDup (map row l)).
      { induction l as [|w l IHl]; intros Nl Sl; constructor.
        - intro I. apply in_map_iff in I. destruct I as (w' & E & I'). inversion Nl; subst. apply H2.
          assert (w = w'); [|congruence]. pose proof (RW w (Sl w (or_introl eq_refl))) as (R1 & _). pose proof (RW w' (Sl w' (or_intror I'))) as (R2 & _).
          rewrite E in R2. exact (reads_inj _ _ _ R1 R2).
        - inversion Nl; subst. apply IHl; [assumption | intros; apply Sl; right; assumption]. }
      apply X; [apply NoDup_nodup | intros w I; apply nodup_In in I; exact I].
    - intros i I I'. apply in_map_iff in I'. destruct I' as (w & E & Iw). apply nodup_In in Iw. destruct (H i I) as (_ & N & _). apply N.
      assert (RI : In (row w) [ib; ic; ia]).
      { destruct Iw as [<-|[<-|[<-|[]]]]; [right; right; left | left | right; left]; symmetry.
        - apply (first_inj a); [apply RW; cbn; auto | exact Fa].
        - apply (first_inj b); [apply RW; cbn; auto | exact Fb].
        - apply (first_inj c); [apply RW; cbn; auto | exact Fc]. }
      rewrite <- E. exact RI. }
  replace (length idxs + length (nodup eq_dec [a; b; c])) with (length all) by (unfold all; rewrite app_length, map_length; reflexivity).
  transitivity (length (filter (fun i => memb (NORM ci (nth i (index_to_key m) [])) [a; b; c]) (seq 0 n))).
  - apply NoDup_incl_length; [exact NDa|]. intros i I. apply in_app_or in I. apply filter_In. rewrite memb_true. destruct I as [I|I].
    + destruct (H i I) as (L & _ & M). split; [apply in_seq; lia | exact M].
    + apply in_map_iff in I. destruct I as (w & <- & Iw). apply nodup_In in Iw. destruct (RW w Iw) as ((L & k & E & Ek) & _).
      split; [apply in_seq; lia|]. rewrite (nth_error_nth (index_to_key m) _ ([] : pystr) E), Ek. exact Iw.
  - assert (EQ : firstn n (index_to_key m) = map (fun i => nth i (index_to_key m) []) (seq 0 n)).
    { apply (nth_ext _ _ [] (nth 0 (index_to_key m) [])).
      - rewrite firstn_length, map_length, seq_length. unfold n. pose proof (window_le rv (length (index_to_key m))). lia.
      - intros i Li. rewrite firstn_length in Li. rewrite (map_nth (fun i => nth i (index_to_key m) [])). rewrite seq_nth by lia. cbn [Nat.add].
        assert (L : i < n) by lia. assert (E : nth_error (firstn n (index_to_key m)) i = nth_error (index_to_key m) i) by (apply nth_error_firstn_lt; exact L).
        rewrite (nth_error_nth' (index_to_key m) ([] : pystr)) in E by lia. rewrite (nth_error_nth _ _ _ E). reflexivity. }
    rewrite EQ. rewrite (filter_map_length (fun i => nth i (index_to_key m) []) (fun k => memb (NORM ci k) [a; b; c])). apply Nat.le_refl.
Qed.

Lemma answer_best : forall q, known_quad (NORM ci) m n q -> answerable (NORM ci) m n q ->
  exists w, answer_of q = Some w /\ best_word (NORM ci) offset_score m n q w.
Proof.
  intros (((a, b), c), e) (Ka & Kb & Kc & _) (CNT & w0 & (i0 & R0) & N0). cbn [answer_of].
  destruct Ka as (xa & Ra). destruct (first_exists a xa Ra) as (ia & _ & Fa).
  destruct Kb as (xb & Rb). destruct (first_exists b xb Rb) as (ib & _ & Fb).
  destruct Kc as (xc & Rc). destruct (first_exists c xc Rc) as (ic & _ & Fc).
  destruct (search_ok a b c ia ib ic) as (idxs & E & (T1 & T2 & T3 & T4 & T5 & T6)); [apply OK; exact Fa | apply OK; exact Fb | apply OK; exact Fc |].
  rewrite E.
  assert (notin : forall i w, reads (NORM ci) m n w i -> ~ In w [a; b; c] -> ~ In i [ib; ic; ia]).
  { intros i w R N I. apply N. destruct I as [<-|[<-|[<-|[]]]].
    - right. left. exact (reads_inj _ _ _ (proj1 Fb) R).
    - right. right. left. exact (reads_inj _ _ _ (proj1 Fc) R).
    - left. exact (reads_inj _ _ _ (proj1 Fa) R). }
  assert (EX : exists i, In i idxs /\ ~ In (NORM ci (nth i (index_to_key m) [])) [a; b; c]).
  { destruct T5 as [T5|T5].
    - destruct (forallb (fun i => memb (NORM ci (nth i (index_to_key m) [])) [a; b; c]) idxs) eqn:FB.
      + exfalso. rewrite forallb_forall in FB.
        pose proof (variants_count a b c ia ib ic idxs Fa Fb Fc T1) as VC.
        assert (5 + length (nodup eq_dec [a; b; c]) <= length (filter (fun k => memb (NORM ci k) [a; b; c]) (firstn n (index_to_key m)))); [|lia].
        rewrite <- T5. apply VC. intros i I. split; [apply T2; exact I|]. split; [apply T2; exact I|]. apply memb_true. apply FB. exact I.
      + assert (X : exists i, In i idxs /\ memb (NORM ci (nth i (index_to_key m) [])) [a; b; c] = false).
        { clear - FB. induction idxs as [|x l IH]; [discriminate|]. cbn [forallb] in FB. destruct (memb (NORM ci (nth x (index_to_key m) [])) [a; b; c]) eqn:EM.
          - destruct IH as (i & I & M); [exact FB|]. exists i. split; [right; exact I | exact M].
          - exists x. split; [left; reflexivity | exact EM]. }
        destruct X as (i & I & M). exists i. split; [exact I|]. apply memb_false. exact M.
    - exists i0. split.
      + apply T5. split; [apply R0 | apply (notin i0 w0); assumption].
      + destruct R0 as (_ & k & Ek & <-). rewrite (nth_error_nth (index_to_key m) _ ([] : pystr) Ek). exact N0. }
  destruct (predict_first [a; b; c] idxs None) as (pre & j & post & P1 & P2 & P3 & P4); [intros i I; apply T2; exact I | exact EX |].
  exists (NORM ci (nth j (index_to_key m) [])). split; [exact P2|].
  exists ia, ib, ic, j. repeat (split; [assumption|]).
  assert (Lj : j < n) by (apply T2; rewrite P1; apply in_or_app; right; left; reflexivity).
  split; [destruct (reads_row j Lj) as (k & Ek & R); rewrite (nth_error_nth (index_to_key m) _ ([] : pystr) Ek); exact R|].
  split; [exact P3|]. intros j' w' R' N'.
  assert (Rj' : NORM ci (nth j' (index_to_key m) []) = w') by (destruct R' as (_ & k & Ek & <-); rewrite (nth_error_nth (index_to_key m) _ ([] : pystr) Ek); reflexivity).
  destruct (in_dec Nat.eq_dec j' idxs) as [I|NI].
  - rewrite P1 in I. apply in_app_or in I. destruct I as [I|[<-|I]].
    + exfalso. apply N'. rewrite <- Rj'. apply P4. exact I.
    + apply Qle_refl.
    + rewrite P1 in T3. apply StronglySorted_app_inv in T3. destruct T3 as (_ & T3 & _). inversion T3; subst. rewrite Forall_forall in *. auto.
  - apply (T6 j j'); [rewrite P1; apply in_or_app; right; left; reflexivity | | exact NI].
    split; [apply R' | apply (notin j' w'); assumption].
Qed.

(** ** The lines *)
Definition kq (q : quad) : bool := let '(a, b, c, e) := q in dmem ok a && dmem ok b && dmem ok c && dmem ok e.
Definition last_word (q : quad) : pystr := snd q.
Definition good (q : quad) : bool := kq q && eqb (answer_of q) (Some (last_word q)).
Definition bad (q : quad) : bool := if kq q then negb (eqb (answer_of q) (Some (last_word q))) else dummy.

Lemma kq_known : forall q, kq q = true <-> known_quad (NORM ci) m n q.
Proof. intros (((a, b), c), e). cbn [kq known_quad]. rewrite !andb_true_iff, !known_dmem. tauto. Qed.

Lemma header_title : forall l, is_header l = true <-> title_line l.
Proof.
  intros l. split.
  - destruct l as [|x [|y r]]; try discriminate.
    + cbn. destruct x as [|x]; [discriminate|]. repeat (destruct x as [x|x|]; try discriminate).
    + intros H. exists r. cbn in H. change (str ": ") with [58%N; 32%N]. cbn [app].
      assert (x = 58%N /\ y = 32%N); [|destruct H0; congruence].
      destruct x as [|x]; [discriminate|]. repeat (destruct x as [x|x|]; try discriminate).
      destruct y as [|y]; [discriminate|]. repeat (destruct y as [y|y|]; try discriminate). auto.
  - intros (r & ->). reflexivity.
Qed.

Notation STEP := (analogy_line upper offset_score np_argsort np_argpartition rv ci dummy ok).
Notation LINES := (analogy_lines upper offset_score np_argsort np_argpartition rv ci dummy ok).

Lemma search_known : forall a b c, dmem ok a = true -> dmem ok b = true -> dmem ok c = true ->
  exists sims, most_similar5 offset_score np_argsort np_argpartition (set_k2i m ok) a b c rv = Ok sims.
Proof.
  intros a b c A B C. unfold dmem in *. destruct (dget ok a) as [ia|] eqn:Ea; [|discriminate]. destruct (dget ok b) as [ib|] eqn:Eb; [|discriminate].
  destruct (dget ok c) as [ic|] eqn:Ec; [|discriminate]. destruct (search_ok a b c ia ib ic Ea Eb Ec) as (idxs & E & _). eauto.
Qed.
Lemma restore : set_k2i (set_k2i m ok) (key_to_index m) = m.
Proof. generalize m. intros []. reflexivity. Qed.

Lemma step_state : forall s l, snd (STEP m s l) = m.
Proof.
  intros s [l|]; [|reflexivity]. cbn [analogy_line]. destruct (is_header l); [reflexivity|]. destruct (st_section s) as [x|]; [|reflexivity].
  destruct (map (NORM ci) (words is_space l)) as [|a [|b [|c [|e [|]]]]]; try reflexivity.
  destruct (dmem ok a) eqn:A; [|reflexivity]. destruct (dmem ok b) eqn:B; [|reflexivity]. destruct (dmem ok c) eqn:C; [|reflexivity].
  destruct (dmem ok e) eqn:D; [|reflexivity]. cbn [negb orb]. destruct (search_known a b c A B C) as (sims & E). rewrite E. cbn [snd]. apply restore.
Qed.
Lemma lines_state : forall ls s, snd (LINES m s ls) = m.
Proof.
  induction ls as [|l ls IH]; intros s; [reflexivity|]. cbn [analogy_lines]. pose proof (step_state s l) as E.
  destruct (STEP m s l) as ([s1|e], m1); cbn [snd] in E; subst m1; [apply IH | reflexivity].
Qed.

Lemma body_run : forall body s x, Forall (fun l => ~ title_line l) body -> st_section s = Some x ->
  let qs := quads_of (NORM ci) ([], body) in
  exists s', LINES m s (map Some body) = (Ok s', m) /\ st_sections s' = st_sections s /\
    st_section s' = Some (mkSection (s_name x) (s_correct x ++ filter good qs) (s_incorrect x ++ filter bad qs)) /\ st_quads s' = st_quads s + length qs.
Proof.
  induction body as [|l body IH]; intros s x F Sx qs.
  - exists s. cbn. rewrite !app_nil_r. destruct x. repeat split; auto.
  - inversion F as [|? ? NT F']; subst. cbn [map analogy_lines].
    assert (NH : is_header l = false) by (destruct (is_header l) eqn:E; [apply header_title in E; contradiction | reflexivity]).
    assert (ST : exists s1, STEP m s (Some l) = (Ok s1, m) /\ st_sections s1 = st_sections s /\
      let q1 := quads_of (NORM ci) ([], [l]) in
      st_section s1 = Some (mkSection (s_name x) (s_correct x ++ filter good q1) (s_incorrect x ++ filter bad q1)) /\ st_quads s1 = st_quads s + length q1).
    { cbn [analogy_line]. rewrite NH, Sx. unfold quads_of. cbn [snd flat_map].
      destruct (words is_space l) as [|a [|b [|c [|e [|f r]]]]] eqn:EW; cbn [map app length filter];
        try (exists s; rewrite !app_nil_r; destruct x; cbn; rewrite Sx; repeat split; lia).
      set (a' := NORM ci a). set (b' := NORM ci b). set (c' := NORM ci c). set (e' := NORM ci e).
      unfold good at 1, bad at 1. cbn [kq last_word snd].
      destruct (dmem ok a' && dmem ok b' && dmem ok c' && dmem ok e') eqn:K.
      - apply andb_true_iff in K. destruct K as (K & Ke). apply andb_true_iff in K. destruct K as (K & Kc). apply andb_true_iff in K. destruct K as (Ka & Kb).
        rewrite Ka, Kb, Kc, Ke. cbn [negb orb andb]. cbn [answer_of].
        destruct (search_known a' b' c' Ka Kb Kc) as (sims & E). rewrite E. rewrite restore.
        eexists. split; [reflexivity|]. cbn [st_sections st_section st_quads]. split; [reflexivity|]. split; [|lia].
        destruct (eqb (predict upper ci ok [a'; b'; c'] sims None) (Some e')); cbn [negb]; unfold add_correct, add_incorrect; rewrite app_nil_r; reflexivity.
      - assert (O : negb (dmem ok a') || negb (dmem ok b') || negb (dmem ok c') || negb (dmem ok e') = true).
        { destruct (dmem ok a'), (dmem ok b'), (dmem ok c'), (dmem ok e'); try reflexivity; discriminate. }
        rewrite O. cbn [andb]. eexists. split; [reflexivity|]. cbn [st_sections st_section st_quads]. split; [reflexivity|]. split; [|lia].
        destruct dummy; unfold add_incorrect; rewrite ?app_nil_r; [reflexivity | destruct x; reflexivity]. }
    destruct ST as (s1 & E1 & E2 & E3 & E4). cbv zeta in E3. rewrite E1.
    destruct (IH s1 _ F' E3) as (s' & G1 & G2 & G3 & G4). exists s'. split; [exact G1|]. split; [congruence|].
    assert (EQ : qs = quads_of (NORM ci) ([], [l]) ++ quads_of (NORM ci) ([], body)).
    { unfold qs, quads_of. cbn [snd flat_map]. rewrite app_nil_r. reflexivity. }
    rewrite EQ, !filter_app, !app_length. cbn [s_name s_correct s_incorrect] in G3. rewrite <- !app_assoc in G3. split; [exact G3 | lia].
Qed.

Definition section_of (b : block) : section := mkSection (header_name (fst b)) (filter good (quads_of (NORM ci) b)) (filter bad (quads_of (NORM ci) b)).

Lemma blocks_run : forall bs s, Forall well_formed bs ->
  exists s', LINES m s (map Some (file_of bs)) = (Ok s', m) /\ store s' = store s ++ map section_of bs /\
    st_quads s' = st_quads s + length (flat_map (quads_of (NORM ci)) bs).
Proof.
  induction bs as [|(h, body) bs IH]; intros s F.
  - exists s. cbn. rewrite app_nil_r. repeat split; auto.
  - inversion F as [|? ? (T & B) F']; subst. cbn [fst snd] in *. cbn [file_of flat_map fst snd app map analogy_lines].
    apply header_title in T. cbn [analogy_line]. rewrite T.
    set (s0 := mkSt (store s) (Some (mkSection (header_name h) [] [])) (st_oov s) (st_quads s)).
    assert (LA : forall l1 l2 s, LINES m s (l1 ++ l2) = match LINES m s l1 with (Ok s1, m1) => LINES m1 s1 l2 | (Err e, m1) => (Err e, m1) end).
    { induction l1 as [|y l1 IHl]; intros l2 s2; [reflexivity|]. cbn [app analogy_lines]. pose proof (step_state s2 y) as SS.
      destruct (STEP m s2 y) as ([s3|e], m3); cbn [snd] in SS; subst m3; [apply IHl | reflexivity]. }
    rewrite map_app, LA. destruct (body_run body s0 _ B eq_refl) as (s1 & E1 & E2 & E3 & E4). rewrite E1.
    destruct (IH s1 F') as (s' & G1 & G2 & G3). exists s'. split; [exact G1|]. split.
    + rewrite G2. unfold store at 1. rewrite E3, E2. unfold s0. cbn [st_sections s_name s_correct s_incorrect app map]. rewrite <- app_assoc. reflexivity.
    + rewrite G3, E4. unfold s0. cbn [st_quads]. rewrite app_length. unfold quads_of at 2 4. cbn [snd]. unfold quads_of. cbn [snd]. lia.
Qed.
End Fixed.

Notation ANALOGIES := (evaluate_word_analogies upper offset_score np_argsort np_argpartition).
Notation PAIRS := (evaluate_word_pairs upper cosine parse_float).

(** ** C92: analogies *)

(** The result lists, section by section and in the order of the file, which quadruplets were answered correctly and which not;
    the last section and the score are the totals; the model is as before. *)
Theorem analogies_sections : forall m blocks rv ci dummy, proper m -> Forall well_formed blocks ->
  let nrm := fold_case upper ci in let n := window rv (length (index_to_key m)) in
  flat_map (quads_of nrm) blocks <> [] ->
  exists (answer : quad -> option pystr) (right wrong : quad -> bool) score,
    (forall q, known_quad nrm m n q -> answerable nrm m n q -> exists w, answer q = Some w /\ best_word nrm offset_score m n q w) /\
    (forall q, right q = true <-> known_quad nrm m n q /\ answer q = Some (snd q)) /\
    (forall q, wrong q = true <-> (known_quad nrm m n q /\ answer q <> Some (snd q)) \/ (~ known_quad nrm m n q /\ dummy = true)) /\
    ANALOGIES m (map Some (file_of blocks)) rv ci dummy =
      (Ok (score, map (fun b => mkSection (header_name (fst b)) (filter right (quads_of nrm b)) (filter wrong (quads_of nrm b))) blocks ++
                  [mkSection (str "Total accuracy") (filter right (flat_map (quads_of nrm) blocks)) (filter wrong (flat_map (quads_of nrm) blocks))]), m) /\
    (let c := length (filter right (flat_map (quads_of nrm) blocks)) in let i := length (filter wrong (flat_map (quads_of nrm) blocks)) in
     (c + i = 0 -> score = None) /\ (0 < c + i -> exists v, score = Some v /\ (v * inject_Z (Z.of_nat (c + i)) == inject_Z (Z.of_nat c))%Q)).
Proof.
  intros m blocks rv ci dummy PR WF nrm n NE. unfold evaluate_word_analogies.
  destruct (ok_vocab_first m rv ci PR) as (ok & E & OK). rewrite E.
  destruct (blocks_run m rv ci dummy ok OK blocks (mkSt [] None 0 0) WF) as (s & R & St & Qn). rewrite R.
  set (G := good m rv ci ok). set (B := bad m rv ci dummy ok).
  assert (FM : forall (f : quad -> bool) (g : section -> list quad), (forall b, g (section_of m rv ci dummy ok b) = filter f (quads_of nrm b)) ->
                 flat_map g (map (section_of m rv ci dummy ok) blocks) = filter f (flat_map (quads_of nrm) blocks)).
  { intros f g H. clear - H. induction blocks as [|b bs IH]; [reflexivity|]. cbn [map flat_map]. rewrite filter_app, IH, H. reflexivity. }
  assert (NZ : (st_quads s =? 0) = false).
  { rewrite Qn. cbn [st_quads]. fold nrm. destruct (flat_map (quads_of nrm) blocks) eqn:X; [congruence|]. reflexivity. }
  rewrite NZ. rewrite St. cbn [store st_section st_sections app].
  exists (answer_of m rv ci ok), G, B.
  eexists. split; [|split; [|split; [|split]]].
  - intros q K A. apply (answer_best m rv ci ok OK q K A).
  - intros q. unfold G, good. rewrite andb_true_iff, eqb_true. rewrite (kq_known m rv ci ok OK q). reflexivity.
  - intros q. unfold B, bad. pose proof (kq_known m rv ci ok OK q) as K. fold n nrm in K. destruct (kq ok q).
    + rewrite negb_true_iff, eqb_false. assert (K' : known_quad nrm m n q) by (apply K; reflexivity). tauto.
    + assert (K' : ~ known_quad nrm m n q) by (intro X; apply K in X; discriminate). tauto.
  - f_equal. f_equal. f_equal.
    rewrite (FM G s_correct) by reflexivity. rewrite (FM B s_incorrect) by reflexivity. reflexivity.
  - rewrite (FM G s_correct) by reflexivity. rewrite (FM B s_incorrect) by reflexivity. unfold section_score. cbn [s_correct s_incorrect].
    set (c := length (filter G _)). set (w := length (filter B _)). split.
    + intros Z0. replace (0 <? c + w) with false by lia. reflexivity.
    + intros P0. replace (0 <? c + w) with true by lia. eexists. split; [reflexivity|]. field.
      intro X. assert (Y : inject_Z (Z.of_nat (c + w)) = 0%Q \/ True) by auto. unfold Qeq, inject_Z in X. cbn in X. lia.
Qed.

(** Case sensitive evaluation only needs a fourth word. *)
Theorem answerable_case_sensitive : forall m n a b c e, proper m ->
  (exists w, known (fun k => k) m n w /\ ~ In w [a; b; c]) -> answerable (fun k => k) m n (a, b, c, e).
Proof.
  intros m n a b c e (ND & _) X. split; [|exact X].
  assert (LE : length (filter (fun k => memb k [a; b; c]) (firstn n (index_to_key m))) <= length (nodup eq_dec [a; b; c])); [|lia].
  apply NoDup_incl_length; [apply NoDup_filter, NoDup_firstn; exact ND|].
  intros k I. apply filter_In in I. apply nodup_In. apply memb_true. tauto.
Qed.

(** The name of a section is the title line without the mark and the blanks around it. *)
Theorem section_name : forall w blanks, (forall c r, w = c :: r -> c <> 58%N /\ is_space c = false) -> strip is_space w = w ->
  forallb is_space blanks = true -> header_name (str ": " ++ w ++ blanks) = w.
Proof.
  intros w blanks H St B. assert (FB : Forall (fun c => is_space c = true) blanks) by (apply Forall_forall, forallb_forall; exact B).
  unfold header_name. change (str ": ") with [58%N; 32%N]. cbn [app]. set (f := fun c : N => (c =? 58)%N || (c =? 32)%N).
  change (lstrip f (58%N :: 32%N :: w ++ blanks)) with (lstrip f (w ++ blanks)).
  destruct w as [|c r].
  - cbn [app]. assert (A : Forall (fun c => is_space c = true) (lstrip f blanks)).
    { clear -FB. induction FB as [|c b Hc FB IH]; cbn [lstrip]; [constructor|]. destruct (f c); [exact IH | constructor; assumption]. }
    unfold strip. rewrite lstrip_all by exact A. reflexivity.
  - destruct (H c r eq_refl) as (N1 & N2).
    assert (Fc : f c = false). { unfold f. apply orb_false_iff. split; apply N.eqb_neq; [exact N1 | intros ->; discriminate]. }
    cbn [app]. rewrite lstrip_id by exact Fc. unfold strip in *. rewrite lstrip_id in * by exact N2.
    change (c :: r ++ blanks) with ((c :: r) ++ blanks). rewrite rstrip_app_sp by exact FB. exact St.
Qed.
Print Assumptions section_name.

(** Whatever the file, the model is as before, also after an error. *)
Theorem analogies_state : forall m lines rv ci dummy, proper m -> snd (ANALOGIES m lines rv ci dummy) = m.
Proof.
  intros m lines rv ci dummy PR. unfold evaluate_word_analogies. destruct (ok_vocab_first m rv ci PR) as (ok & E & OK). rewrite E.
  pose proof (lines_state m rv ci dummy ok OK lines (mkSt [] None 0 0)) as L. destruct (analogy_lines _ _ _ _ _ _ _ _ _ _ _) as ([s|e], m1); cbn [snd] in L; subst m1;
    [destruct (st_quads s =? 0)|]; reflexivity.
Qed.

(** Errors: no quadruplet at all, a line before the first title, an undecodable line. *)
Theorem analogies_errors : forall m rv ci dummy, proper m ->
  (forall blocks, Forall well_formed blocks -> flat_map (quads_of (fold_case upper ci)) blocks = [] ->
     fst (ANALOGIES m (map Some (file_of blocks)) rv ci dummy) = Err ZeroDivErr) /\
  (forall l rest, ~ title_line l -> fst (ANALOGIES m (Some l :: rest) rv ci dummy) = Err ValueError) /\
  (forall blocks rest, Forall well_formed blocks -> fst (ANALOGIES m (map Some (file_of blocks) ++ None :: rest) rv ci dummy) = Err UnicodeErr).
Proof.
  intros m rv ci dummy PR. destruct (ok_vocab_first m rv ci PR) as (ok & E & OK). split; [|split].
  - intros blocks WF N. unfold evaluate_word_analogies. rewrite E.
    destruct (blocks_run m rv ci dummy ok OK blocks (mkSt [] None 0 0) WF) as (s & R & St & Qn). rewrite R, Qn, N. reflexivity.
  - intros l rest NT. unfold evaluate_word_analogies. rewrite E. cbn [analogy_lines analogy_line st_section].
    destruct (is_header l) eqn:H; [apply header_title in H; contradiction|]. reflexivity.
  - intros blocks rest WF. unfold evaluate_word_analogies. rewrite E.
    destruct (blocks_run m rv ci dummy ok OK blocks (mkSt [] None 0 0) WF) as (s & R & _ & _).
    assert (LA : forall l1 l2 s1 m1 s0 m0, analogy_lines upper offset_score np_argsort np_argpartition rv ci dummy ok m0 s0 l1 = (Ok s1, m1) ->
       analogy_lines upper offset_score np_argsort np_argpartition rv ci dummy ok m0 s0 (l1 ++ l2) = analogy_lines upper offset_score np_argsort np_argpartition rv ci dummy ok m1 s1 l2).
    { induction l1 as [|y l1 IHl]; intros l2 s1 m1 s0 m0 H; [cbn in H; injection H as <- <-; reflexivity|]. cbn [app analogy_lines] in *.
      destruct (analogy_line _ _ _ _ _ _ _ _ m0 s0 y) as ([s3|e], m3); [eapply IHl; exact H | discriminate]. }
    rewrite (LA _ (None :: rest) _ _ _ _ R). reflexivity.
Qed.

(** ** C92: word pairs *)

(** The gold values and those of the model, aligned and in the order of the file, the share of pairs with unknown words
    (the same for both settings of dummy4unknown), and the model as before. *)
Theorem pairs_exact : forall m ls d rv ci (dummy : bool), proper m ->
  let nrm := fold_case upper ci in let n := window rv (length (index_to_key m)) in
  exists (kn : pystr -> bool) (value : pystr -> pystr -> Q),
    (forall w, kn w = true <-> known nrm m n w) /\
    (forall a b ia ib, first_row nrm m n a ia -> first_row nrm m n b ib -> value a b = cosine ia ib) /\
    let js := judgments nrm parse_float d ls in
    let good_pair := fun j : pystr * pystr * Q => kn (fst (fst j)) && kn (snd (fst j)) in
    let used := if dummy then js else filter good_pair js in
    if length used <? 2 then PAIRS m (map Some ls) d rv ci dummy = (Err ValueError, m)
    else exists ratio : Q,
      PAIRS m (map Some ls) d rv ci dummy =
        (Ok (map snd used, map (fun j => if good_pair j then value (fst (fst j)) (snd (fst j)) else 0%Q) used, ratio), m) /\
      (ratio * inject_Z (Z.of_nat (length js)) == 100 * inject_Z (Z.of_nat (length (filter (fun j => negb (good_pair j)) js))))%Q.
Proof.
  intros m ls d rv ci dummy PR nrm n. destruct (ok_vocab_first m rv ci PR) as (ok & E & OK).
  set (value := fun a b => match dget ok a, dget ok b with Some i, Some j => cosine i j | _, _ => 0%Q end).
  exists (dmem ok), value. split; [intros w; apply (known_dmem m rv ci ok OK)|].
  split; [intros a b ia ib Fa Fb; apply OK in Fa; apply OK in Fb; unfold value; rewrite Fa, Fb; reflexivity|].
  intros js gp used.
  assert (RUN : forall ls gold model oov,
    let js := judgments nrm parse_float d ls in let used := if dummy then js else filter gp js in
    pair_lines upper cosine parse_float (set_k2i m ok) d ci dummy ok gold model oov (map Some ls) =
      Ok (gold ++ map snd used, model ++ map (fun j => if gp j then value (fst (fst j)) (snd (fst j)) else 0%Q) used, oov + length (filter (fun j => negb (gp j)) js))).
  { clear ls js used. induction ls as [|l ls IH]; intros gold model oov js used.
    - unfold used, js. cbn. destruct dummy; cbn; rewrite !app_nil_r, Nat.add_0_r; reflexivity.
    - cbn [map pair_lines].
      assert (J : js = judgments nrm parse_float d [l] ++ judgments nrm parse_float d ls).
      { unfold js, judgments. cbn [flat_map]. rewrite app_nil_r. reflexivity. }
      assert (SKIP : judgments nrm parse_float d [l] = [] -> pair_lines upper cosine parse_float (set_k2i m ok) d ci dummy ok gold model oov (map Some ls) =
         Ok (gold ++ map snd used, model ++ map (fun j => if gp j then value (fst (fst j)) (snd (fst j)) else 0%Q) used, oov + length (filter (fun j => negb (gp j)) js))).
      { intros X. rewrite IH. unfold used. rewrite J, X. reflexivity. }
      assert (MAIN : eqb (firstn 1 l) (str "#") = false ->
        match map (fold_case upper ci) (split_on d l) with
        | [a; b; sim] =>
          match parse_float sim with
          | None => pair_lines upper cosine parse_float (set_k2i m ok) d ci dummy ok gold model oov (map Some ls)
          | Some g =>
            if negb (dmem ok a) || negb (dmem ok b) then
              if dummy then pair_lines upper cosine parse_float (set_k2i m ok) d ci dummy ok (gold ++ [g]) (model ++ [0%Q]) (S oov) (map Some ls)
              else pair_lines upper cosine parse_float (set_k2i m ok) d ci dummy ok gold model (S oov) (map Some ls)
            else
              let* ia := get_index (set_k2i m ok) a in
              let* ib := get_index (set_k2i m ok) b in
              pair_lines upper cosine parse_float (set_k2i m ok) d ci dummy ok (gold ++ [g]) (model ++ [cosine ia ib]) oov (map Some ls)
          end
        | _ => pair_lines upper cosine parse_float (set_k2i m ok) d ci dummy ok gold model oov (map Some ls)
        end = Ok (gold ++ map snd used, model ++ map (fun j => if gp j then value (fst (fst j)) (snd (fst j)) else 0%Q) used, oov + length (filter (fun j => negb (gp j)) js))).
      { intros NC. unfold judgments in J, SKIP. cbn [flat_map] in J, SKIP. rewrite NC in J, SKIP. fold (judgments nrm parse_float d ls) in J. fold nrm.
        destruct (split_on d l) as [|a [|b [|sm [|]]]]; cbn [map]; try (apply SKIP; reflexivity).
        destruct (parse_float (nrm sm)) as [g|]; [|apply SKIP; reflexivity]. cbn [app] in J.
        assert (GP : gp (nrm a, nrm b, g) = dmem ok (nrm a) && dmem ok (nrm b)) by reflexivity.
        unfold used. rewrite J. clearbody gp.
        destruct (dmem ok (nrm a)) eqn:Ka; destruct (dmem ok (nrm b)) eqn:Kb; cbn [negb orb andb] in *.
        2,3,4: destruct dummy; rewrite IH; cbn [filter map length fst snd]; rewrite !GP; cbn [negb length map fst snd]; rewrite ?GP, <- ?app_assoc, ?Nat.add_succ_r; reflexivity.
        unfold get_index. cbn [key_to_index set_k2i].
        unfold dmem in Ka, Kb. destruct (dget ok (nrm a)) as [ia|] eqn:Ea; [|discriminate]. destruct (dget ok (nrm b)) as [ib|] eqn:Eb; [|discriminate].
        cbn [of_option rbind]. rewrite IH. assert (V : value (nrm a) (nrm b) = cosine ia ib) by (unfold value; rewrite Ea, Eb; reflexivity).
        destruct dummy; cbn [filter map length fst snd]; rewrite !GP; cbn [negb length map fst snd]; rewrite ?GP, V, <- !app_assoc; reflexivity. }
      destruct l as [|x r]; [apply MAIN; reflexivity|].
      destruct (N.eq_dec x 35) as [->|Nx].
      + apply SKIP. unfold judgments. cbn [flat_map firstn]. change (eqb [35%N] (str "#")) with true. reflexivity.
      + assert (NC : eqb (firstn 1 (x :: r)) (str "#") = false) by (apply eqb_false; cbn; intro X; injection X as ->; congruence).
        rewrite <- (MAIN NC). destruct x as [|x]; [reflexivity|]. repeat (destruct x as [x|x|]; try reflexivity). congruence. }
  unfold evaluate_word_pairs. rewrite E, RUN. fold js used. cbn [app].
  assert (RS : set_k2i (set_k2i m ok) (key_to_index m) = m) by (destruct m; reflexivity). rewrite RS, map_length.
  destruct (length used <? 2) eqn:L; [reflexivity|]. eexists. split; [reflexivity|].
  set (o := length (filter (fun j => negb (gp j)) js)). cbn [Nat.add].
  assert (LJ : (if dummy then length used else length used + o) = length js).
  { unfold used. destruct dummy; [reflexivity|]. unfold o. clear. induction js as [|j js IH]; [reflexivity|]. cbn [filter]. destruct (gp j); cbn [negb length]; lia. }
  rewrite LJ. assert (NZ : length js <> 0) by (destruct dummy; lia).
  field. intro X. unfold Qeq, inject_Z in X. cbn in X. lia.
Qed.

(** An undecodable line ends the evaluation with an error and leaves the restricted, upper-cased index in the model. *)
Theorem pairs_undecodable : forall m ls rest d rv ci dummy, proper m -> exists ok, ok_vocab upper m rv ci = Ok ok /\
  PAIRS m (map Some ls ++ None :: rest) d rv ci dummy = (Err UnicodeErr, set_k2i m ok).
Proof.
  intros m ls rest d rv ci dummy PR. destruct (ok_vocab_first m rv ci PR) as (ok & E & OK). exists ok. split; [exact E|].
  unfold evaluate_word_pairs. rewrite E.
  assert (RUN : forall ls gold model oov, pair_lines upper cosine parse_float (set_k2i m ok) d ci dummy ok gold model oov (map Some ls ++ None :: rest) = Err UnicodeErr).
  { clear ls. induction ls as [|l ls IH]; intros gold model oov; [reflexivity|]. cbn [map app pair_lines].
    assert (MAIN : match map (fold_case upper ci) (split_on d l) with
        | [a; b; sim] =>
          match parse_float sim with
          | None => pair_lines upper cosine parse_float (set_k2i m ok) d ci dummy ok gold model oov (map Some ls ++ None :: rest)
          | Some g =>
            if negb (dmem ok a) || negb (dmem ok b) then
              if dummy then pair_lines upper cosine parse_float (set_k2i m ok) d ci dummy ok (gold ++ [g]) (model ++ [0%Q]) (S oov) (map Some ls ++ None :: rest)
              else pair_lines upper cosine parse_float (set_k2i m ok) d ci dummy ok gold model (S oov) (map Some ls ++ None :: rest)
            else
              let* ia := get_index (set_k2i m ok) a in
              let* ib := get_index (set_k2i m ok) b in
              pair_lines upper cosine parse_float (set_k2i m ok) d ci dummy ok (gold ++ [g]) (model ++ [cosine ia ib]) oov (map Some ls ++ None :: rest)
          end
        | _ => pair_lines upper cosine parse_float (set_k2i m ok) d ci dummy ok gold model oov (map Some ls ++ None :: rest)
        end = Err UnicodeErr).
    { destruct (map (fold_case upper ci) (split_on d l)) as [|a [|b [|sm [|]]]]; try apply IH. destruct (parse_float sm); [|apply IH].
      unfold get_index, dmem. cbn [key_to_index set_k2i].
      destruct (dget ok a) as [ia|] eqn:Ea; destruct (dget ok b) as [ib|] eqn:Eb; cbn [negb orb of_option rbind]; try (destruct dummy); apply IH. }
    destruct l as [|x r]; [exact MAIN|]. destruct x as [|x]; [exact MAIN|]. repeat (destruct x as [x|x|]; try exact MAIN). apply IH. }
  rewrite RUN. reflexivity.
Qed.
End P.
Print Assumptions ok_vocab_first.
Print Assumptions analogies_sections.
Print Assumptions answerable_case_sensitive.
Print Assumptions analogies_state.
Print Assumptions analogies_errors.
Print Assumptions pairs_exact.
Print Assumptions pairs_undecodable.

(** ** Examples *)
Definition up (w : pystr) : pystr := map (fun c => if ((97 <=? c) && (c <=? 122))%N then (c - 32)%N else c) w.
Definition model_of (ks : list pystr) : kvm := mkKvm ks (combine ks (seq 0 (length ks))).
Definition falling (_ _ _ j : nat) : Q := inject_Z (- Z.of_nat j).
Definition analogies (ks : list pystr) (lines : list pystr) (rv : option Z) (ci dummy : bool) :=
  fst (evaluate_word_analogies up falling ref_argsort ref_argpartition (model_of ks) (map Some lines) rv ci dummy).
Lemma model_proper : forall ks, NoDup ks -> proper (model_of ks).
Proof.
  intros ks ND. split; [exact ND|]. intros k i. unfold model_of. cbn [key_to_index index_to_key].
  assert (X : forall l a, NoDup l -> (dget (combine l (seq a (length l))) k = Some i <-> exists j, i = a + j /\ nth_error l j = Some k)).
  { induction l as [|x l IH]; intros a N; cbn [length seq combine dget].
    - split; [discriminate|]. intros ([|j] & _ & E); discriminate.
    - inversion N; subst. destruct (eq_dec x k) as [->|Nx].
      + split.
        * intros E. injection E as <-. exists 0. split; [lia | reflexivity].
        * intros (j & -> & E). destruct j as [|j]; [f_equal; lia|]. cbn in E. exfalso. apply H1. eapply nth_error_In. exact E.
      + rewrite (IH (S a) H2). split.
        * intros (j & -> & E). exists (S j). split; [lia | exact E].
        * intros (j & -> & E). destruct j as [|j]; [cbn in E; congruence|]. exists j. split; [lia | exact E]. }
  rewrite (X ks 0 ND). split; [intros (j & -> & E); exact E | intros E; exists i; auto].
Qed.

Definition five : list pystr := [str "x"; str "y"; str "z"; str "w"; str "v"].
Example analogies_ex :
  analogies five [str ": one"; str "x y z w"; str "x y z v"; str "not a line"; str ": two"; str "x y w z"; str "x y z q"] (Some 300%Z) true false
  = Ok (Some (2 # 3)%Q,
        [mkSection (str "one") [(str "X", str "Y", str "Z", str "W")] [(str "X", str "Y", str "Z", str "V")];
         mkSection (str "two") [(str "X", str "Y", str "W", str "Z")] [];
         mkSection (str "Total accuracy") [(str "X", str "Y", str "Z", str "W"); (str "X", str "Y", str "W", str "Z")] [(str "X", str "Y", str "Z", str "V")]])
  /\ analogies five [str ": one"; str "x y z q"] (Some 300%Z) true false
     = Ok (None, [mkSection (str "one") [] []; mkSection (str "Total accuracy") [] []])
  /\ analogies five [str ": one"; str "x y z q"] (Some 300%Z) true true
     = Ok (Some 0%Q, [mkSection (str "one") [] [(str "X", str "Y", str "Z", str "Q")]; mkSection (str "Total accuracy") [] [(str "X", str "Y", str "Z", str "Q")]])
  /\ analogies five [str ": one"; str "x y z w"] (Some 3%Z) true false
     = Ok (None, [mkSection (str "one") [] []; mkSection (str "Total accuracy") [] []])
  /\ analogies five [str ": one"; str ""] (Some 300%Z) true false = Err ZeroDivErr
  /\ analogies five [str ""; str ": one"; str "x y z w"] (Some 300%Z) true false = Err ValueError.
Proof. vm_compute. repeat split. Qed.

Definition as_float (s : pystr) : option Q := option_map (fun z => inject_Z z) (parse_Z (strip is_space s)).
Definition closeness (i j : nat) : Q := inject_Z (Z.of_nat (10 * i + j)).
Definition tab (a b c : pystr) : option pystr := Some (a ++ [9%N] ++ b ++ [9%N] ++ c ++ [10%N]).
Example pairs_ex : forall dummy,
  evaluate_word_pairs up closeness as_float (model_of five)
    [Some (str "# comment"); tab (str "x") (str "y") (str "7"); tab (str "w") (str "q") (str "3"); Some (str "x y 3"); tab (str "v") (str "z") (str "5"); tab (str "v") (str "z") (str "?")]
    9 (Some 300%Z) true dummy
  = (Ok (if dummy then ([7; 3; 5], [1; 0; 42], (100 # 3))%Q else ([7; 5], [1; 42], (100 # 3))%Q), model_of five).
Proof. intros []; vm_compute; reflexivity. Qed.

(** ** Violations *)

(** "Input words to be ignored": with a case variant of an input word as the only row left, the input word itself is the prediction and
    is counted as correct. *)
Theorem analogies_input_refuted : exists ks q, NoDup ks /\ In (snd q) [fst (fst (fst q)); snd (fst (fst q)); snd (fst q)] /\
  exists s, analogies ks [str ": s"; str "x y z y"] (Some 300%Z) true false = Ok (Some 1%Q, s) /\ In q (flat_map s_correct s).
Proof.
  exists [str "x"; str "y"; str "z"; str "Y"], (str "X", str "Y", str "Z", str "Y"). split; [|split].
  - repeat constructor; cbn; intuition discriminate.
  - cbn. auto.
  - eexists. split; [vm_compute; reflexivity|]. vm_compute. auto.
Qed.
Print Assumptions analogies_input_refuted.

(** Five case variants of the input words among the best rows hide the answer: the only other word of the vocabulary is the best answer and
    is counted as incorrect. *)
Theorem analogies_variants_refuted : exists ks q, NoDup ks /\ best_word up falling (model_of ks) (length ks) q (snd q) /\
  exists s, analogies ks [str ": s"; str "x bcd z q"] (Some 300%Z) true false = Ok (Some 0%Q, s) /\ In q (flat_map s_incorrect s).
Proof.
  exists [str "x"; str "bcd"; str "z"; str "Bcd"; str "bCd"; str "bcD"; str "BCd"; str "bCD"; str "q"], (str "X", str "BCD", str "Z", str "Q").
  split; [repeat constructor; cbn; intuition discriminate|]. split.
  - exists 0, 1, 2, 8. unfold first_row, reads. cbn [length].
    split; [split; [split; [lia | exists (str "x"); split; reflexivity] | intros; lia]|].
    split; [split; [split; [lia | exists (str "bcd"); split; reflexivity]|]|].
    { intros j L (_ & k & E & U). destruct j as [|j]; [|lia]. cbn in E. injection E as <-. discriminate. }
    split; [split; [split; [lia | exists (str "z"); split; reflexivity]|]|].
    { intros j L (_ & k & E & U). destruct j as [|[|j]]; [| |lia]; cbn in E; injection E as <-; discriminate. }
    split; [split; [lia | exists (str "q"); split; reflexivity]|]. split; [cbn; intuition discriminate|].
    intros j' w' (L & k & E & U) N. do 9 (destruct j' as [|j']; [cbn in E; injection E as <-; subst w'; first [exfalso; apply N; vm_compute; tauto | vm_compute; discriminate]|]).
    lia.
  - eexists. split; [vm_compute; reflexivity|]. vm_compute. auto.
Qed.
Print Assumptions analogies_variants_refuted.

(** After a file with an undecodable line the words of the model are no longer found. *)
Theorem pairs_state_refuted : exists lines,
  let r := evaluate_word_pairs up closeness as_float (model_of five) lines 9 (Some 300%Z) true false in
  fst r = Err UnicodeErr /\ get_index (model_of five) (str "y") = Ok 1 /\ get_index (snd r) (str "y") = Err KeyError /\ get_index (snd r) (str "Y") = Ok 1.
Proof. exists [tab (str "x") (str "y") (str "7"); None]. vm_compute. auto. Qed.
Print Assumptions pairs_state_refuted.
