(** Properties of predicting the word of a context. *)
From Coq Require Import Reals Lra Permutation.
From Verif Require Import Base Str MatReal_Model MatReal_Proofs LdaTrain_Model LdaTrain_Proofs2 Lsi_Spec KvSim_Model KvSim_Spec Predict_Model.
Local Open Scope R_scope.

(** ** Specification *)

(** The contract of sorting: the [n] best positions, best first *)
Definition best_ok (best : list R -> nat -> list nat) : Prop := forall xs n,
  NoDup (best xs n) /\ length (best xs n) = Nat.min n (length xs) /\ (forall i, In i (best xs n) -> (i < length xs)%nat) /\
  StronglySorted (fun i j => nth j xs 0 <= nth i xs 0) (best xs n) /\ forall i j, In i (best xs n) -> (j < length xs)%nat -> ~ In j (best xs n) -> nth j xs 0 <= nth i xs 0.
(** The hidden layer for the known words of the context *)
Definition layer (cbow_mean : bool) (vs : list vec) (h : vec) : Prop := forall c, h c = Rsum (map (fun v : vec => v c) vs) * (if cbow_mean then / INR (length vs) else 1).
(** The probability of a word *)
Definition score (d : nat) (m : kvs) (out : list vec) (h : vec) (w : pystr) (s : R) : Prop := exists i u, nth_error (ks_keys m) i = Some w /\ nth_error out i = Some u /\ s = dotv d h u.
Definition total (d : nat) (out : list vec) (h : vec) : R := Rsum (map (fun u => exp (dotv d h u)) out).

(** ** Proofs *)
Section Proofs.
Variable d : nat.
Variable best : list R -> nat -> list nat.
Hypothesis B : best_ok best.
Lemma rmapM_is : forall {X Y} (f : X -> result Y) (g : X -> Y) l, (forall x, In x l -> f x = Ok (g x)) -> rmapM f l = Ok (map g l).
Proof. intros X Y f g l. induction l as [|x l IH]; intros H; [reflexivity|]. cbn [rmapM map]. rewrite (H x (or_introl eq_refl)). cbn [rbind]. rewrite IH by (intros y Hy; apply H; right; exact Hy). reflexivity. Qed.
Lemma Rsum_exp_pos : forall l, l <> [] -> 0 < Rsum (map exp l).
Proof.
  intros [|x l] H; [congruence|]. cbn [map]. rewrite Rsum_cons. pose proof (exp_pos x). assert (0 <= Rsum (map exp l)); [|lra]. apply Rsum_nonneg. intros y Hy. apply in_map_iff in Hy. destruct Hy as (z & <- & _). left. apply exp_pos.
Qed.
Lemma softmax_sum : forall l, l <> [] -> Rsum (softmax l) = 1.
Proof.
  intros l H. pose proof (Rsum_exp_pos l H) as P. unfold softmax. set (t := Rsum (map exp l)) in *. assert (E : Rsum (map (fun s => exp s / t) l) = / t * t); [|rewrite E; field; lra]. unfold t at 3. rewrite <- (Rsum_scal exp (/ t) l). apply Rsum_ext. intros x _. unfold Rdiv. ring.
Qed.
Lemma softmax_len : forall l, length (softmax l) = length l.
Proof. intros. apply map_length. Qed.
Lemma rows_of : forall m ws vs, one_row_each m -> Forall2 (row_of m) ws vs -> exists idx, rmapM (get_index m) ws = Ok idx /\ rmapM (fun i => of_option IndexError (nth_error (ks_rows m) i)) idx = Ok vs.
Proof.
  intros m ws vs (_ & _ & I) F. induction F as [|w v ws vs (i & Hk & Hr) F (idx & E1 & E2)]; [exists []; split; reflexivity|]. exists (i :: idx). split.
  - cbn [rmapM]. unfold get_index at 1. apply I in Hk. rewrite Hk. cbn [of_option rbind]. rewrite E1. reflexivity.
  - cbn [rmapM]. rewrite Hr. cbn [of_option rbind]. rewrite E2. reflexivity.
Qed.
Lemma nth_error_nth_ : forall {A} (l : list A) i x0, (i < length l)%nat -> nth_error l i = Some (nth i l x0).
Proof. induction l; intros [|i] x0 H; cbn in *; try lia; auto. apply IHl. lia. Qed.
Lemma NoDup_app_ : forall {A} (l l' : list A), NoDup l -> NoDup l' -> (forall x, In x l -> In x l' -> False) -> NoDup (l ++ l').
Proof.
  intros A l l'. induction l as [|x l IH]; intros N N' H; [exact N'|]. inversion N; subst. cbn [app]. constructor.
  - rewrite in_app_iff. intros [H1|H1]; [contradiction|]. apply (H x); [left; reflexivity|exact H1].
  - apply IH; [assumption|exact N'|]. intros y Hy. apply H. right. exact Hy.
Qed.
Lemma incl_sum : forall (xs : list R) (idx : list nat), NoDup idx -> (forall i, In i idx -> (i < length xs)%nat) -> (forall x, In x xs -> 0 <= x) ->
  Rsum (map (fun i => nth i xs 0) idx) <= Rsum xs /\ (length idx = length xs -> Rsum (map (fun i => nth i xs 0) idx) = Rsum xs).
Proof.
  intros xs idx ND Hi P.
  assert (S : Rsum (map (fun i => nth i xs 0) (seq 0 (length xs))) = Rsum xs).
  { f_equal. clear. induction xs as [|x xs IH]; [reflexivity|]. cbn [length seq map]. f_equal. rewrite <- seq_shift, map_map. exact IH. }
  set (rest := filter (fun i => negb (memb i idx)) (seq 0 (length xs))).
  assert (PM : Permutation (idx ++ rest) (seq 0 (length xs))).
  { apply NoDup_Permutation; [|apply seq_NoDup|].
    - apply NoDup_app_; [exact ND|apply NoDup_filter; apply seq_NoDup|]. intros j Hj Hr. apply filter_In in Hr. destruct Hr as (_ & Hr). apply negb_true_iff, memb_false in Hr. contradiction.
    - intros i. rewrite in_app_iff, in_seq. split.
      + intros [H|H]; [specialize (Hi i H); lia|]. apply filter_In in H. rewrite in_seq in H. lia.
      + intros H. destruct (memb i idx) eqn:E; [left; apply memb_true; exact E|right; apply filter_In; split; [rewrite in_seq; lia|rewrite E; reflexivity]]. }
  assert (SP : Rsum (map (fun i => nth i xs 0) idx) + Rsum (map (fun i => nth i xs 0) rest) = Rsum xs).
  { rewrite <- Rsum_app, <- map_app, <- S. apply Rsum_perm. apply Permutation_map. exact PM. }
  assert (0 <= Rsum (map (fun i => nth i xs 0) rest)).
  { apply Rsum_nonneg. intros x Hx. apply in_map_iff in Hx. destruct Hx as (i & <- & Hr). apply filter_In in Hr. rewrite in_seq in Hr. apply P. apply nth_In. lia. }
  split; [lra|]. intros Hl. apply Permutation_length in PM. rewrite app_length, seq_length in PM. destruct rest; [cbn in SP; lra|cbn in PM; lia].
Qed.

(** ** Theorems *)

(** The words with the highest probabilities, best first.  The probabilities are those of a softmax over the scores of all words with the sum (mean) of the known context words. *)
Theorem predict_exact : forall m out cbow_mean context topn vs, one_row_each m -> length out = length (ks_keys m) -> Forall2 (row_of m) (filter (in_index m) context) vs -> vs <> [] ->
  exists l h, predict d best in_index m (Some out) cbow_mean context topn = Ok (Some l) /\ layer cbow_mean vs h /\ length l = Nat.min topn (length (ks_keys m)) /\ NoDup (map fst l) /\
    Forall (fun wp => exists s, score d m out h (fst wp) s /\ snd wp = exp s / total d out h /\ 0 < snd wp <= 1) l /\
    StronglySorted (fun wp wp' => snd wp' <= snd wp) l /\
    (forall w s, score d m out h w s -> ~ In w (map fst l) -> Forall (fun wp => exp s / total d out h <= snd wp) l) /\
    Rsum (map snd l) <= 1 /\ ((length (ks_keys m) <= topn)%nat -> Rsum (map snd l) = 1).
Proof.
  intros m out cbow_mean context topn vs OR Lo F NE. destruct (rows_of m _ _ OR F) as (idx & E1 & E2). pose proof OR as (NDk & Lr & Ix).
  set (h := hidden cbow_mean vs). set (scores := map (fun u => dotv d h u) out). set (probs := softmax scores).
  assert (Lp : length probs = length (ks_keys m)) by (unfold probs, scores; rewrite softmax_len, map_length; exact Lo).
  assert (NEk : ks_keys m <> []).
  { intros E. destruct F as [|w v ws vs' (i & Hk & _) _]; [congruence|]. rewrite E in Hk. destruct i; discriminate. }
  assert (NEs : scores <> []) by (unfold scores; destruct out; [destruct (ks_keys m); [congruence|discriminate]|discriminate]).
  assert (T : total d out h = Rsum (map exp scores)) by (unfold total, scores; rewrite map_map; reflexivity).
  assert (Tp : 0 < total d out h) by (rewrite T; apply Rsum_exp_pos; exact NEs).
  destruct (B probs topn) as (Bn & Bl & Bi & Bs & Bo). set (ix := best probs topn) in *.
  set (pick := fun i => (nth i (ks_keys m) [], nth i probs 0)).
  assert (R : rmapM (fun i => let* w := of_option IndexError (nth_error (ks_keys m) i) in let* p := of_option IndexError (nth_error probs i) in Ok (w, p)) ix = Ok (map pick ix)).
  { apply rmapM_is. intros i Hi. specialize (Bi i Hi). rewrite (nth_error_nth_ (ks_keys m) i []) by lia. rewrite (nth_error_nth_ probs i 0) by lia. reflexivity. }
  exists (map pick ix), h.
  assert (PV : forall i w, nth_error (ks_keys m) i = Some w -> exists u, nth_error out i = Some u /\ nth i probs 0 = exp (dotv d h u) / total d out h).
  { intros i w Hk. assert (Li : (i < length out)%nat) by (rewrite Lo; apply nth_error_Some; congruence). destruct (nth_error out i) as [u|] eqn:Eu; [|apply nth_error_None in Eu; lia]. exists u. split; [reflexivity|].
    apply nth_error_nth. unfold probs, softmax. rewrite <- T. unfold scores. rewrite map_map. apply (map_nth_error (fun u => exp (dotv d h u) / total d out h)). exact Eu. }
  assert (SC : forall w s, score d m out h w s -> exists i, nth_error (ks_keys m) i = Some w /\ nth i probs 0 = exp s / total d out h).
  { intros w s (i & u & Hk & Hu & ->). exists i. split; [exact Hk|]. destruct (PV i w Hk) as (u' & Hu' & ->). rewrite Hu in Hu'. injection Hu' as <-. reflexivity. }
  assert (P0 : forall x, In x probs -> 0 <= x).
  { intros x Hx. unfold probs, softmax in Hx. apply in_map_iff in Hx. destruct Hx as (s & <- & _). rewrite <- T. left. apply Rdiv_lt_0_compat; [apply exp_pos|exact Tp]. }
  assert (S1 : Rsum probs = 1) by (apply softmax_sum; exact NEs).
  pose proof (incl_sum probs ix Bn Bi P0) as (SL & SE). assert (MS : map snd (map pick ix) = map (fun i => nth i probs 0) ix) by (rewrite map_map; reflexivity).
  split; [|split; [|split; [|split; [|split; [|split; [|split; [|split]]]]]]].
  - unfold predict. rewrite E1. cbn [rbind]. destruct idx as [|i0 idx']; [exfalso; apply NE; cbn in E2; injection E2 as E2; exact (eq_sym E2)|]. rewrite E2. cbn [rbind]. fold h. fold scores. fold probs. fold ix. rewrite R. reflexivity.
  - intros c. unfold h, hidden, Rdiv. destruct cbow_mean; [reflexivity|]. rewrite Rinv_1. reflexivity.
  - rewrite map_length, Bl, Lp. reflexivity.
  - rewrite map_map. cbn [pick fst]. clear - Bn Bi NDk Lp. induction ix as [|i ix IH]; [constructor|]. inversion Bn; subst. cbn [map]. constructor.
    + intros Hin. apply in_map_iff in Hin. destruct Hin as (j & Ej & Hj). cbn [fst] in Ej. apply H1. assert (i = j) as ->; [|exact Hj]. apply (proj1 (NoDup_nth (ks_keys m) []) NDk); [rewrite <- Lp; apply Bi; left; reflexivity|rewrite <- Lp; apply Bi; right; exact Hj|symmetry; exact Ej].
    + apply IH; [assumption|]. intros j Hj. apply Bi. right. exact Hj.
  - apply Forall_forall. intros wp Hwp. apply in_map_iff in Hwp. destruct Hwp as (i & <- & Hi). specialize (Bi i Hi). unfold pick. cbn [fst snd]. assert (Hk : nth_error (ks_keys m) i = Some (nth i (ks_keys m) [])) by (apply nth_error_nth_; lia).
    destruct (PV i _ Hk) as (u & Hu & Ep). exists (dotv d h u). split; [exists i, u; auto|]. split; [exact Ep|]. rewrite Ep. pose proof (exp_pos (dotv d h u)) as EP. split; [apply Rdiv_lt_0_compat; assumption|].
    assert (Q : In (nth i probs 0) probs) by (apply nth_In; lia). rewrite <- Ep, <- S1. clear - Q P0. induction probs as [|x xs IH]; [destruct Q|]. rewrite Rsum_cons. assert (0 <= Rsum xs) by (apply Rsum_nonneg; intros y Hy; apply P0; right; exact Hy).
    assert (0 <= x) by (apply P0; left; reflexivity). destruct Q as [Q|Q]; [rewrite <- Q; lra|]. assert (nth i (x :: xs) 0 <= Rsum xs); [|lra].
    assert (G : forall y, In y xs -> y <= Rsum xs); [|apply G; exact Q]. assert (P1 : forall x, In x xs -> 0 <= x) by (intros y Hy; apply P0; right; exact Hy). clear - P1. induction xs as [|z xs IH]; [intros y []|]. intros y Hy. rewrite Rsum_cons. assert (0 <= Rsum xs) by (apply Rsum_nonneg; intros; apply P1; right; assumption). assert (0 <= z) by (apply P1; left; reflexivity).
    destruct Hy as [<-|Hy]; [lra|]. assert (y <= Rsum xs) by (apply IH; [intros; apply P1; right; assumption|exact Hy]). lra.
  - clear - Bs. induction Bs as [|i ix Bs IH Fi]; [constructor|]. cbn [map]. constructor; [exact IH|]. apply Forall_map. exact Fi.
  - intros w s Hs Hn. destruct (SC w s Hs) as (j & Hk & <-). apply Forall_map, Forall_forall. intros i Hi. cbn [pick snd]. apply Bo; [exact Hi|rewrite Lp; apply nth_error_Some; congruence|]. intros Hj. apply Hn. rewrite map_map. apply in_map_iff. exists j. split; [|exact Hj]. cbn [pick fst]. apply nth_error_nth. exact Hk.
  - rewrite MS, <- S1. exact SL.
  - intros Ht. rewrite MS, <- S1. apply SE. rewrite Bl, Lp. lia.
Qed.
(** No known word: no prediction.  Without negative sampling: an error. *)
Theorem predict_none : forall m out cbow_mean context topn, (forall w, In w context -> dget (ks_index m) w = None) -> predict d best in_index m (Some out) cbow_mean context topn = Ok None.
Proof.
  intros m out cbow_mean context topn H. unfold predict. assert (E : filter (in_index m) context = []); [|rewrite E; reflexivity].
  induction context as [|w c IH]; [reflexivity|]. cbn [filter]. unfold in_index at 1. rewrite (H w (or_introl eq_refl)). apply IH. intros w' H'. apply H. right. exact H'.
Qed.
Theorem predict_fails : forall m cbow_mean context topn, predict d best in_index m None cbow_mean context topn = Err RuntimeErr.
Proof. reflexivity. Qed.
(** Words that are not known do not matter, nor does the order of the others *)
Lemma rmapM_perm : forall {X Y} (f : X -> result Y) l l' ys, Permutation l l' -> rmapM f l = Ok ys -> exists ys', rmapM f l' = Ok ys' /\ Permutation ys ys'.
Proof.
  intros X Y f l l' ys P. revert ys. induction P as [|x l l' P IH|x y l|l1 l2 l3 P1 IH1 P2 IH2]; intros ys H.
  - exists ys. split; [exact H|reflexivity].
  - cbn [rmapM] in *. destruct (f x) as [y|]; cbn [rbind] in *; [|discriminate]. destruct (rmapM f l) as [t|]; cbn [rbind] in *; [|discriminate]. injection H as <-. destruct (IH t eq_refl) as (t' & -> & Pt). cbn [rbind]. exists (y :: t'). split; [reflexivity|]. constructor. exact Pt.
  - cbn [rmapM] in *. destruct (f y) as [b|]; cbn [rbind] in *; [|discriminate]. destruct (f x) as [a|]; cbn [rbind] in *; [|discriminate]. destruct (rmapM f l) as [t|]; cbn [rbind] in *; [|discriminate]. injection H as <-. eexists. split; [reflexivity|]. constructor.
  - destruct (IH1 ys H) as (y2 & H2 & Q2). destruct (IH2 y2 H2) as (y3 & H3 & Q3). exists y3. split; [exact H3|]. etransitivity; eassumption.
Qed.
Lemma dotv_ext : forall x x' u, (forall c, x c = x' c) -> dotv d x u = dotv d x' u.
Proof. intros x x' u E. unfold dotv. apply sumn_ext. intros i _. rewrite E. reflexivity. Qed.
Theorem predict_order : forall m out cbow_mean context context' topn r, Permutation (filter (in_index m) context) (filter (in_index m) context') ->
  predict d best in_index m (Some out) cbow_mean context topn = Ok r -> predict d best in_index m (Some out) cbow_mean context' topn = Ok r.
Proof.
  intros m out cbow_mean context context' topn r P H. unfold predict in *. destruct (rmapM (get_index m) (filter (in_index m) context)) as [idx|] eqn:E; cbn [rbind] in H; [|discriminate].
  destruct (rmapM_perm _ _ _ _ P E) as (idx' & -> & PI). cbn [rbind]. destruct idx as [|i idx]; [apply Permutation_nil in PI; subst idx'; exact H|]. destruct idx' as [|i' idx']; [apply Permutation_sym, Permutation_nil in PI; discriminate|].
  destruct (rmapM (fun i => of_option IndexError (nth_error (ks_rows m) i)) (i :: idx)) as [rows|] eqn:ER; [|discriminate]. destruct (rmapM_perm _ _ _ _ PI ER) as (rows' & -> & PR). cbn [rbind] in H |- *.
  assert (Eh : forall u, dotv d (hidden cbow_mean rows') u = dotv d (hidden cbow_mean rows) u).
  { intros u. apply dotv_ext. intros c. unfold hidden. rewrite (Permutation_length PR). f_equal. apply Rsum_perm. apply Permutation_map. symmetry. exact PR. }
  rewrite (map_ext _ _ Eh). exact H.
Qed.
(** Violation: a FastText model claims to contain every word, so that an unknown word in the context is a KeyError *)
Theorem predict_fasttext_refuted : forall m out cbow_mean before w after topn, (forall x, In x before -> dget (ks_index m) x <> None) -> dget (ks_index m) w = None -> predict d best in_fasttext m (Some out) cbow_mean (before ++ w :: after) topn = Err KeyError.
Proof.
  intros m out cbow_mean before w after topn Hb Hw. unfold predict. assert (E : rmapM (get_index m) (filter (in_fasttext m) (before ++ w :: after)) = Err KeyError); [|rewrite E; reflexivity].
  assert (Ef : forall l, filter (in_fasttext m) l = l) by (induction l as [|x l IH]; [reflexivity|]; cbn [filter in_fasttext]; rewrite IH; reflexivity). rewrite Ef. induction before as [|x b IH]; cbn [app rmapM].
  - unfold get_index at 1. rewrite Hw. reflexivity.
  - unfold get_index at 1. destruct (dget (ks_index m) x) eqn:Ex; [|exfalso; apply (Hb x (or_introl eq_refl)); exact Ex]. cbn [of_option rbind]. rewrite IH; [reflexivity|]. intros y Hy. apply Hb. right. exact Hy.
Qed.
End Proofs.

(** A sorting that keeps the contract, and two words with known probabilities *)
Definition two : kvs := mkKvs [str "a"; str "b"] [(str "a", 0%nat); (str "b", 1%nat)] [fun _ => 1; fun _ => 3].
Definition best2 (xs : list R) (n : nat) : list nat := match xs with [x; y] => if Rle_dec y x then firstn n [0; 1]%nat else firstn n [1; 0]%nat | _ => [] end.
Example predict_x : exists p q, predict 1 best2 in_index two (Some [fun _ => ln 3; fun _ => 0]) true [str "a"; str "unknown"] 2 = Ok (Some [(str "a", p); (str "b", q)]) /\ p = 3 / 4 /\ q = 1 / 4.
Proof.
  assert (E1 : exp (dotv 1 (hidden true [fun _ => 1]) (fun _ => ln 3)) = 3) by (unfold dotv, hidden; cbn; replace ((1 + 0) / 1 * ln 3 + 0) with (ln 3) by field; apply exp_ln; lra).
  assert (E2 : exp (dotv 1 (hidden true [fun _ => 1]) (fun _ => 0)) = 1) by (unfold dotv, hidden; cbn; replace ((1 + 0) / 1 * 0 + 0) with 0 by field; apply exp_0).
  unfold predict. assert (EF : filter (in_index two) [str "a"; str "unknown"] = [str "a"]) by reflexivity. rewrite EF. assert (EI : rmapM (get_index two) [str "a"] = Ok [0%nat]) by reflexivity. rewrite EI. cbn [rbind rmapM nth_error ks_rows two of_option].
  unfold softmax. cbn [map]. unfold vec in *; rewrite E1, E2. unfold Rsum. cbn [fold_right]. unfold best2. destruct (Rle_dec (1 / (3 + (1 + 0))) (3 / (3 + (1 + 0)))) as [L|L]; [|exfalso; apply L; lra].
  do 2 eexists. split; [reflexivity|]. split; lra.
Qed.

Print Assumptions predict_exact.
Print Assumptions predict_none.
Print Assumptions predict_fails.
Print Assumptions predict_order.
Print Assumptions predict_fasttext_refuted.
