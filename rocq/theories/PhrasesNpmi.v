(** NPMI scores of candidates lie in [-1, 1] and are always defined (models/phrases.py 124-167).
    The scorer is modelled over the reals; floating point rounding is not modelled. *)
From Coq Require Import List Arith Lia Bool ZArith NArith QArith Reals Lra String.
From Verif Require Import Base Str Utils_Model Utils_Proofs Phrases_Model Phrases_Spec Phrases_Proofs Phrases_Properties.
Import ListNotations.
Close Scope Q_scope. Close Scope string_scope. Close Scope R_scope.
Local Open Scope nat_scope.

(** ** Bounds on true counts *)
Section Bounds.
  Variable cw : list pystr.
  Variable d : pystr.

  Lemma state_exists : forall pre, exists start mid, at_state cw pre start mid /\ (start = None -> mid = []) /\
    (Forall (clean d) pre -> (forall a, start = Some a -> clean d a) /\ Forall (clean d) mid).
  Proof.
    induction pre as [|w pre IH] using rev_ind.
    - exists None, []. simpl. repeat split; auto. discriminate.
    - destruct IH as (start & mid & A & B & C). destruct (in_dec eq_dec w cw) as [I|I].
      + destruct start as [a|].
        * destruct A as (p0 & -> & Na & Fm). exists (Some a), (mid ++ [w]). split.
          { exists p0. rewrite <- app_assoc. repeat split; auto. apply Forall_app; auto. }
          split; [discriminate|]. intros F. apply Forall_app in F. destruct F as [F1 F2]. destruct (C F1) as [C1 C2]. split; auto. apply Forall_app; auto.
        * exists None, []. split; [simpl in *; apply Forall_app; auto|]. split; [auto|]. intros _. split; [discriminate|constructor].
      + exists (Some w), []. split; [exists pre; auto|]. split; [auto|]. intros F. apply Forall_app in F. destruct F as [_ F]. inversion F; subst.
        split; [intros a E; injection E as <-; auto|constructor].
  Qed.

  Lemma gain_le s key j : Forall (clean d) s -> j < List.length s -> gain cw d s key j <= 1.
  Proof.
    intros F L. destruct (nth_error s j) as [w|] eqn:E; [|apply nth_error_None in E; lia].
    apply nth_error_split in E. destruct E as (pre & rest & -> & <-).
    destruct (in_dec eq_dec w cw) as [I|I]; [rewrite gain_conn by auto; lia|].
    destruct (state_exists pre) as (start & mid & A & B & C). rewrite (gain_normal cw d pre start mid w rest key A I).
    apply Forall_app in F. destruct F as [F1 F2]. inversion F2; subst. destruct (C F1) as [C1 C2].
    destruct start as [a|]; unfold b2n, eqb; [|destruct (eq_dec _ _); lia].
    destruct (eq_dec w key) as [<-|]; [|destruct (eq_dec _ _); lia]. destruct (eq_dec _ w) as [X|]; [|lia].
    exfalso. apply (f_equal (parts d)) in X. rewrite compound_join in X by auto. rewrite parts_word in X by auto. injection X as _ X. destruct mid; discriminate.
  Qed.
  Lemma gain_first s a b key : Forall (clean d) s -> compound d key a b -> gain cw d s key 0 = 0.
  Proof.
    intros F K. destruct s as [|w rest].
    - unfold gain, word_hit, is_normal. reflexivity.
    - inversion F; subst. destruct (in_dec eq_dec w cw) as [I|I]; [apply (gain_conn cw d [] w rest key I)|].
      rewrite (gain_normal cw d [] None [] w rest key (Forall_nil _) I : gain cw d (w :: rest) key 0 = _). unfold b2n, eqb.
      destruct (eq_dec w key) as [<-|]; [|reflexivity]. exfalso. exact (word_not_compound _ _ _ _ H1 K).
  Qed.

  Lemma sum_le_length l (f : nat -> nat) : (forall i, In i l -> f i <= 1) -> list_sum_nat (map f l) <= List.length l.
  Proof. induction l as [|x l IH]; intros H; [simpl; lia|]. simpl. specialize (IH (fun i Hi => H i (or_intror Hi))). pose proof (H x (or_introl eq_refl)). lia. Qed.

  Lemma true_count_le s key : Forall (clean d) s -> true_count cw d s key <= List.length s.
  Proof.
    intros F. unfold true_count, sum_to at 1. rewrite <- (seq_length (List.length s) 0) at 2. apply sum_le_length.
    intros j Hj. apply in_seq in Hj. apply (gain_le s key j F). lia.
  Qed.
  Lemma true_count_compound s key a b : Forall (clean d) s -> compound d key a b -> true_count cw d s key <= List.length s - 1.
  Proof.
    intros F K. unfold true_count, sum_to at 1. destruct s as [|w s]; [simpl; lia|].
    cbn [List.length seq map list_sum_nat fold_right]. change (fold_right Nat.add 0) with list_sum_nat.
    change (b2n (word_hit cw (w :: s) key 0) + sum_to 0 (fun i => b2n (cand_hit cw d (w :: s) key i 0))) with (gain cw d (w :: s) key 0).
    rewrite (gain_first (w :: s) a b key F K). rewrite Nat.add_0_l. replace (S (List.length s) - 1) with (List.length s) by lia.
    rewrite <- (seq_length (List.length s) 1) at 2. apply sum_le_length. intros j Hj. apply in_seq in Hj. apply (gain_le (w :: s) key j F). cbn [List.length]. lia.
  Qed.

  Lemma corpus_count_le ss key : Forall (Forall (clean d)) ss -> corpus_count cw d ss key <= total ss.
  Proof.
    unfold corpus_count, total. induction 1 as [|s ss Hs F IH]; simpl; [lia|]. pose proof (true_count_le s key Hs). lia.
  Qed.
  Lemma corpus_count_compound ss key a b : Forall (Forall (clean d)) ss -> compound d key a b ->
    1 <= corpus_count cw d ss key -> corpus_count cw d ss key < total ss.
  Proof.
    intros F K. assert (G : corpus_count cw d ss key <= total ss /\ (corpus_count cw d ss key = total ss -> total ss = 0)).
    { unfold corpus_count, total. induction F as [|s ss Hs F IH]; simpl; [lia|].
      pose proof (true_count_compound s key a b Hs K). pose proof (true_count_le s key Hs). destruct IH as [I1 I2]. lia. }
    lia.
  Qed.
End Bounds.

(** ** The scorer, phrases.py 124-167, over the reals. [None] is minus infinity; the partial operations raise:
    division by zero ZeroDivisionError, logarithm of a non-positive number ValueError (caught). *)
Local Open Scope R_scope.
Definition py_div (x y : R) : result R := if Req_EM_T y 0 then Err ZeroDivErr else Ok (x / y).
Definition py_log (x : R) : result R := if Rlt_dec 0 x then Ok (ln x) else Err ValueError.
Definition npmi_scorer (worda_count wordb_count bigram_count : nat) (min_count : R) (corpus_word_count : nat) : result (option R) :=
  if Rge_dec (INR bigram_count) min_count then
    let n := INR corpus_word_count in
    let* pa := py_div (INR worda_count) n in
    let* pb := py_div (INR wordb_count) n in
    let* pab := py_div (INR bigram_count) n in
    match (let* q := py_div pab (pa * pb) in let* l1 := py_log q in let* l2 := py_log pab in py_div l1 (- l2)) with
    | Ok r => Ok (Some r)
    | Err ValueError => Ok None
    | Err e => Err e
    end
  else Ok None.

Lemma ln_le_mono x y : 0 < x -> x <= y -> ln x <= ln y.
Proof. intros Hx [H| ->]; [left; apply ln_increasing; auto|right; reflexivity]. Qed.

Lemma npmi_bounds a b ab mc n : (1 <= ab)%nat -> (ab <= a)%nat -> (ab <= b)%nat -> (a <= n)%nat -> (b <= n)%nat -> (ab < n)%nat ->
  exists r, npmi_scorer a b ab mc n = Ok r /\ forall x, r = Some x -> -1 <= x <= 1.
Proof.
  intros H1 H2 H3 H4 H5 H6. unfold npmi_scorer. destruct (Rge_dec _ _); [|exists None; split; [reflexivity|discriminate]].
  assert (Rab : 1 <= INR ab) by (apply (le_INR 1 ab) in H1; exact H1).
  apply le_INR in H2, H3, H4, H5. apply lt_INR in H6.
  set (A := INR a) in *. set (B := INR b) in *. set (C := INR ab) in *. set (N := INR n) in *.
  assert (NP : 0 < N) by lra.
  unfold py_div at 1. destruct (Req_EM_T N 0); [lra|]. cbn [rbind].
  unfold py_div at 1. destruct (Req_EM_T N 0); [lra|]. cbn [rbind].
  unfold py_div at 1. destruct (Req_EM_T N 0); [lra|]. cbn [rbind].
  assert (IN : 0 < / N) by (apply Rinv_0_lt_compat; lra).
  set (pa := A / N). set (pb := B / N). set (pab := C / N).
  assert (Ppa : 0 < pa <= 1).
  { unfold pa, Rdiv. split; [apply Rmult_lt_0_compat; lra|]. rewrite <- (Rinv_r N) by lra. apply Rmult_le_compat_r; lra. }
  assert (Ppb : 0 < pb <= 1).
  { unfold pb, Rdiv. split; [apply Rmult_lt_0_compat; lra|]. rewrite <- (Rinv_r N) by lra. apply Rmult_le_compat_r; lra. }
  assert (Ppab : 0 < pab < 1).
  { unfold pab, Rdiv. split; [apply Rmult_lt_0_compat; lra|]. rewrite <- (Rinv_r N) by lra. apply Rmult_lt_compat_r; lra. }
  assert (La : pab <= pa) by (unfold pab, pa, Rdiv; apply Rmult_le_compat_r; lra).
  assert (Lb : pab <= pb) by (unfold pab, pb, Rdiv; apply Rmult_le_compat_r; lra).
  assert (Pp : 0 < pa * pb) by (apply Rmult_lt_0_compat; lra).
  unfold py_div at 1. destruct (Req_EM_T (pa * pb) 0); [lra|]. cbn [rbind].
  assert (Pq : 0 < pab / (pa * pb)) by (apply Rdiv_lt_0_compat; lra).
  unfold py_log at 1. destruct (Rlt_dec 0 (pab / (pa * pb))); [|lra]. cbn [rbind].
  unfold py_log at 1. destruct (Rlt_dec 0 pab); [|lra]. cbn [rbind].
  assert (Ln : ln pab < 0) by (rewrite <- ln_1; apply ln_increasing; lra).
  unfold py_div. destruct (Req_EM_T (- ln pab) 0); [lra|].
  eexists. split; [reflexivity|]. intros x Ex. injection Ex as <-.
  assert (U : ln (pab / (pa * pb)) <= - ln pab).
  { rewrite <- ln_Rinv by lra. apply ln_le_mono; auto. apply (Rmult_le_reg_r (pab * (pa * pb))); [apply Rmult_lt_0_compat; lra|].
    replace (pab / (pa * pb) * (pab * (pa * pb))) with (pab * pab) by (field; lra).
    replace (/ pab * (pab * (pa * pb))) with (pa * pb) by (field; lra). apply Rmult_le_compat; lra. }
  assert (Lo : ln pab <= ln (pab / (pa * pb))).
  { apply ln_le_mono; [lra|]. apply (Rmult_le_reg_r (pa * pb)); [lra|].
    replace (pab / (pa * pb) * (pa * pb)) with pab by (field; lra).
    rewrite <- (Rmult_1_r pab) at 2. apply Rmult_le_compat_l; [lra|]. rewrite <- (Rmult_1_r 1). apply Rmult_le_compat; lra. }
  set (t := ln (pab / (pa * pb))) in *. set (m := - ln pab) in *. assert (0 < m) by (unfold m; lra).
  assert (Im : 0 < / m) by (apply Rinv_0_lt_compat; lra).
  split; unfold Rdiv.
  - replace (-1) with (- m * / m) by (field; lra). apply Rmult_le_compat_r; [lra|]. unfold m. lra.
  - rewrite <- (Rinv_r m) by lra. apply Rmult_le_compat_r; lra.
Qed.
Local Close Scope R_scope.

(** In every state reached by training and transforming over delimiter-free tokens, scoring a candidate whose
    counts are all positive (the only ones [score_candidate] scores) never raises and lies in [-1, 1]. *)
Theorem npmi_in_range : forall p0 ops mc, p_vocab p0 = [] -> p_words p0 = 0 -> p_delim p0 <> [] -> Forall (clean_op (p_delim p0)) ops ->
  exists p, prun ops p0 = Ok p /\
    forall a b mid, clean (p_delim p0) a -> clean (p_delim p0) b -> Forall (clean (p_delim p0)) mid ->
      let c := fun k => dget_or (p_vocab p) k 0 in
      let ph := join (p_delim p0) (a :: mid ++ [b]) in
      1 <= c ph ->
      exists r, npmi_scorer (c a) (c b) (c ph) mc (p_words p) = Ok r /\ (forall x, r = Some x -> (-1 <= x <= 1)%R).
Proof.
  intros p0 ops mc H0 H1 D F. destruct (prun_ok p0 ops H0 H1 D F) as (p & E & I). exists p. split; [exact E|].
  intros a b mid Ca Cb Cm c ph Hp. pose proof (pi_v _ _ _ I) as (ND & HV & _).
  assert (Ip : In ph (dkeys (p_vocab p))).
  { destruct (in_dec eq_dec ph (dkeys (p_vocab p))) as [i|i]; auto. apply cnt_notin in i. unfold cnt in i. unfold c in Hp. lia. }
  assert (K : compound (p_delim p0) ph a b) by (exists mid; apply compound_join; auto).
  destruct (HV ph a b Ip K) as (_ & _ & L1 & L2). cbn [pend] in L2. unfold cnt in L1, L2. fold (c ph) in L1, L2. fold (c a) in L2. fold (c b) in L1.
  assert (CS : Forall (Forall (clean (p_delim p0))) (padded ops)).
  { clear -F. unfold padded. induction F as [|o ops Ho F IH]; [constructor|]. cbn [map concat]. apply Forall_app. split; [|exact IH]. destruct o; auto; constructor. }
  pose proof (pi_le _ _ _ I) as LE. rewrite (pi_words _ _ _ I).
  pose proof (corpus_count_le (p_connectors p0) (p_delim p0) (padded ops) a CS).
  pose proof (corpus_count_le (p_connectors p0) (p_delim p0) (padded ops) b CS).
  pose proof (corpus_count_compound (p_connectors p0) (p_delim p0) (padded ops) ph a b CS K).
  pose proof (LE a) as La. pose proof (LE b) as Lb. pose proof (LE ph) as Lp. unfold cnt in La, Lb, Lp. fold (c a) in La. fold (c b) in Lb. fold (c ph) in Lp.
  apply npmi_bounds; lia.
Qed.
Print Assumptions npmi_in_range.

(** A concrete reached state with a positive phrase count. *)
Example npmi_in_range_ex : let p := trained original_scorer half 1 [["a"; "of"; "b"; "c"]; ["a"; "of"; "b"]]%string in
  dget_or (p_vocab p) (join us (str "a" :: [str "of"] ++ [str "b"])) 0 = 2 /\ p_words p = 7.
Proof. vm_compute. auto. Qed.
