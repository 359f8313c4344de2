(** Spaces, training, sorting. *)
From Coq Require Import Reals Lra Psatz Lia Permutation.
From Verif Require Import Base Str LdaTrain_Model LdaTrain_Proofs2 SoftCosine_Model Lsi_Linear Trans_Model Trans_Spec.
Local Open Scope R_scope.

Lemma vector_get : forall (kv : vectors) w, In w (dkeys kv) -> vector_of kv w = Ok (vector kv w).
Proof.
  intros kv w. unfold vector_of, vector. induction kv as [|[k v] kv IH]; intros H; [contradiction|]. cbn [dget find fst]. unfold eqb. destruct (eq_dec k w) as [E|E]; [reflexivity|].
  apply IH. cbn in H. tauto.
Qed.
Lemma vector_missing : forall (kv : vectors) w, ~ In w (dkeys kv) -> vector_of kv w = Err KeyError.
Proof. intros kv w H. unfold vector_of. rewrite (proj2 (dget_None kv w) H). reflexivity. Qed.
Lemma rows_ok : forall (kv : vectors) l, (forall w, In w l -> In w (dkeys kv)) -> rmapM (vector_of kv) l = Ok (map (vector kv) l).
Proof.
  intros kv l. induction l as [|w l IH]; intros H; [reflexivity|]. cbn [rmapM map]. rewrite vector_get by (apply H; now left). cbn [rbind]. rewrite IH by (intros x Hx; apply H; now right). reflexivity.
Qed.
Lemma rows_inv : forall (kv : vectors) l r, rmapM (vector_of kv) l = Ok r -> (forall w, In w l -> In w (dkeys kv)) /\ r = map (vector kv) l.
Proof.
  intros kv l. induction l as [|w l IH]; intros r H; cbn [rmapM] in H; [injection H as <-; split; [intros w [] | reflexivity]|].
  destruct (in_dec eq_dec w (dkeys kv)) as [I|I]; [|rewrite vector_missing in H by exact I; discriminate]. rewrite vector_get in H by exact I. cbn [rbind] in H.
  destruct (rmapM (vector_of kv) l) as [r'|e]; [|discriminate]. cbn [rbind] in H. injection H as <-. destruct (IH r' eq_refl) as [A ->]. split; [|reflexivity]. intros x [<-|Hx]; auto.
Qed.
Lemma build_ok : forall kv l, (forall w, In w l -> In w (dkeys kv)) -> build kv (Some l) = Ok (mkSpace (map (vector kv) l) l).
Proof. intros kv l H. unfold build. now rewrite rows_ok. Qed.
Lemma build_inv : forall kv l s, build kv (Some l) = Ok s -> (forall w, In w l -> In w (dkeys kv)) /\ s = mkSpace (map (vector kv) l) l.
Proof. intros kv l s H. unfold build in H. destruct (rmapM (vector_of kv) l) as [r|e] eqn:E; [|discriminate]. cbn [rbind] in H. injection H as <-. apply rows_inv in E. destruct E as [A ->]. auto. Qed.
Lemma normalize_ok : forall d s, sp_mat s <> [] -> normalize d s = Ok (mkSpace (map (unit d) (sp_mat s)) (sp_words s)).
Proof. intros d [m ws] H. unfold normalize. cbn in *. destruct m; [congruence | reflexivity]. Qed.
Lemma normalize_inv : forall d s s', normalize d s = Ok s' -> sp_mat s <> [] /\ s' = mkSpace (map (unit d) (sp_mat s)) (sp_words s).
Proof. intros d [m ws] s' H. unfold normalize in H. cbn in *. destruct m; [discriminate|]. injection H as <-. split; [discriminate | reflexivity]. Qed.
Lemma dict_of_in : forall {K V} `{EqDec K} (l : list (K * V)) k v, dget (dict_of l) k = Some v -> In (k, v) l.
Proof.
  intros K V H l k v. unfold dict_of. assert (G : forall d, dget (fold_left (fun d kv => dset d (fst kv) (snd kv)) l d) k = Some v -> In (k, v) l \/ dget d k = Some v).
  { induction l as [|[k' v'] l IH]; intros d E; cbn [fold_left] in E; [now right|]. destruct (IH _ E) as [I|I]; [left; now right|]. cbn [fst snd] in I. rewrite dget_dset in I. destruct (eq_dec k' k) as [<-|N]; [|now right].
    injection I as <-. left. now left. }
  intros E. destruct (G [] E) as [I|I]; [exact I | discriminate].
Qed.
Lemma dict_of_get : forall {K V} `{EqDec K} (l : list (K * V)) k, In k (map fst l) -> exists v, dget (dict_of l) k = Some v /\ In (k, v) l.
Proof.
  intros K V H l k I. destruct (dget (dict_of l) k) as [v|] eqn:E; [exists v; split; [reflexivity | now apply dict_of_in]|]. exfalso. apply (proj1 (dget_None _ _) E). now apply In_dkeys_dict_of.
Qed.
Lemma index_of : forall m ws w, In w ws -> exists c, dget (word2index (mkSpace m ws)) w = Some c /\ nth_error ws c = Some w.
Proof.
  intros m ws w I. unfold word2index. cbn [sp_words]. assert (F : map fst (combine ws (seq 0 (length ws))) = ws).
  { assert (G : forall (l : list pystr) a, map fst (combine l (seq a (length l))) = l) by (intros l; induction l as [|x l IH]; intros a; [reflexivity|]; cbn; now rewrite IH). apply G. }
  destruct (dict_of_get (combine ws (seq 0 (length ws))) w ltac:(now rewrite F)) as [c [E HI]]. exists c. split; [exact E|].
  assert (G : forall (l : list pystr) a i x, In (x, i) (combine l (seq a (length l))) -> (a <= i)%nat /\ nth_error l (i - a) = Some x).
  { intros l. induction l as [|y l IH]; intros a i x Hx; [contradiction|]. cbn in Hx. destruct Hx as [Ex|Hx]; [injection Ex as <- <-; split; [lia|]; now rewrite Nat.sub_diag|]. destruct (IH _ _ _ Hx) as [L E']. split; [lia|].
    replace (i - a)%nat with (S (i - S a)) by lia. exact E'. }
  destruct (G _ _ _ _ HI) as [_ E']. now rewrite Nat.sub_0_r in E'.
Qed.
Lemma index_missing : forall m ws w, ~ In w ws -> dget (word2index (mkSpace m ws)) w = None.
Proof.
  intros m ws w N. apply dget_None. unfold word2index. rewrite In_dkeys_dict_of. intros I. apply N. apply in_map_iff in I. destruct I as [[x i] [<- I]]. now apply in_combine_l in I.
Qed.
Lemma row_of_ok : forall (f : pystr -> vec) ws w, In w ws -> row_of (mkSpace (map f ws) ws) w = Ok (f w).
Proof. intros f ws w I. unfold row_of. destruct (index_of (map f ws) ws w I) as [c [-> E]]. cbn [sp_mat]. rewrite nth_error_map, E. reflexivity. Qed.
Lemma rmapM_fun : forall {A B} (f : A -> result B) (g : A -> B) l, (forall x, In x l -> f x = Ok (g x)) -> rmapM f l = Ok (map g l).
Proof. intros A B f g l. induction l as [|x l IH]; intros H; [reflexivity|]. cbn [rmapM map]. rewrite H by now left. cbn [rbind]. rewrite IH by (intros y Hy; apply H; now right). reflexivity. Qed.
Lemma rmapM_all2 : forall {A B} (f : A -> result B) l r, rmapM f l = Ok r -> Forall2 (fun x y => f x = Ok y) l r.
Proof.
  intros A B f l. induction l as [|x l IH]; intros r H; cbn [rmapM] in H; [injection H as <-; constructor|]. destruct (f x) as [y|e] eqn:E; [|discriminate]. cbn [rbind] in H.
  destruct (rmapM f l) as [ys|e]; [|discriminate]. cbn [rbind] in H. injection H as <-. constructor; [exact E | now apply IH].
Qed.

(** ** Training *)
Section Train.
Variables d1 d2 : nat.
Variable order : list pystr -> list pystr.
Hypothesis HO : set_order order.
Lemma order_in : forall l x, In x (order l) <-> In x l.
Proof. intros l. apply HO. Qed.
Lemma order_nil : forall l, l <> [] -> order l <> [].
Proof. intros [|x l] H E; [congruence|]. assert (I : In x (order (x :: l))) by (apply order_in; now left). rewrite E in I. contradiction. Qed.
Definition known (src tgt : vectors) (pairs : list (pystr * pystr)) : Prop := forall p, In p pairs -> In (fst p) (dkeys src) /\ In (snd p) (dkeys tgt).
Lemma train_ok : forall lstsq src tgt pairs, pairs <> [] -> known src tgt pairs ->
  train d1 d2 order lstsq src tgt pairs = Ok (lstsq (map (fun p => unit d1 (vector src (fst p))) pairs) (map (fun p => unit d2 (vector tgt (snd p))) pairs)).
Proof.
  intros lstsq src tgt pairs NE KN. unfold train. destruct pairs as [|p0 pairs']; [congruence|]. set (pairs := p0 :: pairs') in *.
  assert (N1 : order (map fst pairs) <> []) by (apply order_nil; discriminate). assert (N2 : order (map snd pairs) <> []) by (apply order_nil; discriminate).
  rewrite (build_ok src) by (intros w H; apply order_in, in_map_iff in H; destruct H as [p [<- H]]; now apply KN). cbn [rbind].
  rewrite (build_ok tgt) by (intros w H; apply order_in, in_map_iff in H; destruct H as [p [<- H]]; now apply KN). cbn [rbind].
  rewrite normalize_ok by (cbn; intros E; apply map_eq_nil in E; contradiction). cbn [rbind sp_mat sp_words]. rewrite normalize_ok by (cbn; intros E; apply map_eq_nil in E; contradiction). cbn [rbind sp_mat sp_words].
  rewrite !map_map. rewrite (rmapM_fun _ (fun w => unit d1 (vector src w))) by (intros w H; apply (row_of_ok (fun w => unit d1 (vector src w))); now apply order_in). cbn [rbind].
  rewrite (rmapM_fun _ (fun w => unit d2 (vector tgt w))) by (intros w H; apply (row_of_ok (fun w => unit d2 (vector tgt w))); now apply order_in). cbn [rbind]. now rewrite !map_map.
Qed.
Lemma train_inv : forall lstsq src tgt pairs W, train d1 d2 order lstsq src tgt pairs = Ok W -> pairs <> [] /\ known src tgt pairs.
Proof.
  intros lstsq src tgt pairs W H. unfold train in H. destruct pairs as [|p0 pairs']; [discriminate|]. set (pairs := p0 :: pairs') in *. split; [discriminate|].
  destruct (build src _) as [s|e] eqn:Es; [|discriminate]. cbn [rbind] in H. destruct (build tgt _) as [t|e] eqn:Et; [|discriminate]. apply build_inv in Es, Et. intros p Hp. split.
  - apply Es. apply order_in. apply in_map_iff. eauto.
  - apply Et. apply order_in. apply in_map_iff. eauto.
Qed.
End Train.

(** ** Sorting *)
Section Sort.
Variable argsort : list R -> list nat.
Hypothesis HA : sorts argsort.
Lemma argsort_length : forall l, length (argsort l) = length l.
Proof. intros l. rewrite (Permutation_length (proj1 (HA l))). apply seq_length. Qed.
Lemma argsort_lt : forall l i, (i < length l)%nat -> (nth i (argsort l) 0 < length l)%nat.
Proof.
  intros l i Hi. assert (I : In (nth i (argsort l) 0%nat) (argsort l)) by (apply nth_In; now rewrite argsort_length). apply (Permutation_in _ (proj1 (HA l))) in I. apply in_seq in I. lia.
Qed.
Lemma argsort_nodup : forall l, NoDup (argsort l).
Proof. intros l. apply (Permutation_NoDup (Permutation_sym (proj1 (HA l)))). apply seq_NoDup. Qed.
Lemma firstn_nth : forall {A} (l : list A) n i x, (i < n)%nat -> nth i (firstn n l) x = nth i l x.
Proof. intros A l. induction l as [|y l IH]; intros [|n] [|i] x H; try reflexivity; try lia. cbn. apply IH. lia. Qed.
Lemma top_words : forall (f : pystr -> R) words n, NoDup words -> (n <= length words)%nat ->
  best_first (fun w => - f w) words n (map (fun i => nth i words []) (firstn n (argsort (map f words)))).
Proof.
  intros f words n ND Hn. set (idx := argsort (map f words)). assert (LI : length idx = length words) by (unfold idx; rewrite argsort_length; apply map_length).
  assert (LT : forall i, (i < length words)%nat -> (nth i idx 0 < length words)%nat) by (intros i Hi; pose proof (argsort_lt (map f words) i) as X; rewrite map_length in X; now apply X).
  assert (KN : forall i, (i < length words)%nat -> nth i (map f words) 0 = f (nth i words [])) by (intros i Hi; rewrite (nth_indep _ 0 (f [])) by (now rewrite map_length); apply map_nth).
  assert (SO : forall i j, (i < j < length words)%nat -> f (nth (nth i idx 0%nat) words []) <= f (nth (nth j idx 0%nat) words [])).
  { intros i j Hij. rewrite <- !KN by (apply LT; lia). apply (proj2 (HA (map f words))). now rewrite map_length. }
  fold idx. set (ws := map (fun i => nth i words []) (firstn n idx)).
  assert (NW : forall i, (i < n)%nat -> nth i ws [] = nth (nth i idx 0%nat) words []).
  { intros i Hi. unfold ws. rewrite (nth_indep _ [] (nth 0%nat words [])) by (rewrite map_length, firstn_length; lia). rewrite (map_nth (fun i => nth i words [])). now rewrite firstn_nth. }
  assert (LW : length ws = n) by (unfold ws; rewrite map_length, firstn_length; lia). clearbody ws.
  assert (FP : forall w, In w ws <-> exists i, (i < n)%nat /\ w = nth (nth i idx 0%nat) words []).
  { intros w. split.
    - intros H. apply (In_nth (A:=pystr) _ _ []) in H. destruct H as [i [Hi E]]. rewrite LW in Hi. exists i. split; [exact Hi|]. rewrite <- E. now apply NW.
    - intros [i [Hi ->]]. rewrite <- NW by exact Hi. apply nth_In. now rewrite LW. }
  split; [exact LW|]. split.
  - apply (NoDup_nth (A:=pystr) _ []). rewrite LW. intros i j Hi Hj E. rewrite !NW in E by assumption. apply (proj1 (NoDup_nth (A:=pystr) words []) ND) in E; [|apply LT; lia|apply LT; lia].
    apply (proj1 (NoDup_nth idx 0%nat) (argsort_nodup _)) in E; [exact E|lia|lia].
  - split; [|split].
    + intros w H. apply FP in H. destruct H as [i [Hi ->]]. apply nth_In. apply LT. lia.
    + intros i j Hij. rewrite !NW by lia. pose proof (SO i j ltac:(lia)). lra.
    + intros w w' H H' N. apply FP in H. destruct H as [i [Hi ->]]. apply (In_nth (A:=pystr) _ _ []) in H'. destruct H' as [k [Hk E]].
      assert (IK : In k idx) by (apply (Permutation_in _ (Permutation_sym (proj1 (HA (map f words))))); apply in_seq; rewrite map_length; lia).
      apply (In_nth _ _ 0%nat) in IK. destruct IK as [j [Hj Ej]]. rewrite LI in Hj. destruct (lt_dec j n) as [L|L].
      * exfalso. apply N. apply FP. exists j. split; [exact L|]. now rewrite Ej.
      * subst w'. rewrite <- Ej. pose proof (SO i j ltac:(lia)). lra.
Qed.
(** Sorting a permutation inverts it. *)
Lemma increasing_seq : forall l : list nat, (forall i, (i < length l)%nat -> (nth i l 0 < length l)%nat) -> (forall i j, (i < j < length l)%nat -> (nth i l 0 < nth j l 0)%nat) -> forall i, (i < length l)%nat -> nth i l 0%nat = i.
Proof.
  intros l B I. assert (LO : forall i, (i < length l)%nat -> (i <= nth i l 0)%nat).
  { intros i. induction i as [|i IH]; intros Hi; [lia|]. specialize (IH ltac:(lia)). specialize (I i (S i) ltac:(lia)). lia. }
  assert (HI : forall k i, (i + k < length l)%nat -> (nth i l 0 + k <= nth (i + k) l 0)%nat).
  { intros k. induction k as [|k IH]; intros i Hi; [rewrite !Nat.add_0_r; lia|]. specialize (IH i ltac:(lia)). specialize (I (i + k)%nat (i + S k)%nat ltac:(lia)). lia. }
  intros i Hi. specialize (LO i Hi). specialize (HI (length l - 1 - i)%nat i ltac:(lia)). specialize (B (i + (length l - 1 - i))%nat ltac:(lia)). lia.
Qed.
Lemma argsort_inverse : forall row c, (c < length row)%nat -> let p := argsort row in let q := argsort (map INR p) in (nth c q 0 < length row)%nat /\ nth (nth c q 0%nat) p 0%nat = c.
Proof.
  intros row c Hc p q. set (n := length row) in *. assert (Lp : length p = n) by apply argsort_length. assert (Lq : length q = n) by (unfold q; rewrite argsort_length, map_length; exact Lp).
  assert (Bq : forall i, (i < n)%nat -> (nth i q 0 < n)%nat) by (intros i Hi; unfold q; pose proof (argsort_lt (map INR p) i) as X; rewrite map_length, Lp in X; now apply X).
  assert (Bp : forall i, (i < n)%nat -> (nth i p 0 < n)%nat) by (intros i Hi; now apply argsort_lt). split; [now apply Bq|].
  set (l := map (fun i => nth i p 0%nat) q). assert (Ll : length l = n) by (unfold l; now rewrite map_length).
  assert (NL : forall i, (i < n)%nat -> nth i l 0%nat = nth (nth i q 0%nat) p 0%nat).
  { intros i Hi. unfold l. rewrite (nth_indep _ 0%nat (nth 0%nat p 0%nat)) by (rewrite map_length; lia). apply (map_nth (fun i => nth i p 0%nat)). }
  rewrite <- NL by exact Hc. apply increasing_seq; rewrite ?Ll; [| |exact Hc].
  - intros i Hi. rewrite NL by exact Hi. apply Bp. now apply Bq.
  - intros i j Hij. rewrite !NL by lia. pose proof (proj2 (HA (map INR p)) i j ltac:(rewrite map_length, Lp; lia)) as LE. fold q in LE.
    assert (NR : forall k, (k < n)%nat -> nth k (map INR p) 0 = INR (nth k p 0%nat)) by (intros k Hk; rewrite (nth_indep _ 0 (INR 0)) by (now rewrite map_length, Lp); apply map_nth).
    rewrite !NR in LE by (apply Bq; lia). apply INR_le in LE. destruct (Nat.eq_dec (nth (nth i q 0%nat) p 0%nat) (nth (nth j q 0%nat) p 0%nat)) as [E|E]; [|lia]. exfalso.
    apply (proj1 (NoDup_nth p 0%nat) (argsort_nodup row)) in E; [|rewrite Lp; apply Bq; lia|rewrite Lp; apply Bq; lia].
    apply (proj1 (NoDup_nth q 0%nat) (argsort_nodup (map INR p))) in E; [lia|lia|lia].
Qed.
Lemma filter_perm : forall {A} (P : A -> bool) l l', Permutation l l' -> length (filter P l) = length (filter P l').
Proof. intros A P l l' H. induction H as [|x l l' H IH|x y l|l l' l'' H1 IH1 H2 IH2]; cbn; [reflexivity| | |congruence]; [destruct (P x); cbn; congruence | destruct (P x), (P y); reflexivity]. Qed.
Lemma filter_none : forall {A} (P : A -> bool) l, (forall x, In x l -> P x = false) -> filter P l = [].
Proof. intros A P l. induction l as [|x l IH]; intros H; [reflexivity|]. cbn. rewrite H by now left. apply IH. intros y Hy. apply H. now right. Qed.
Lemma filter_all : forall {A} (P : A -> bool) l, (forall x, In x l -> P x = true) -> filter P l = l.
Proof. intros A P l. induction l as [|x l IH]; intros H; [reflexivity|]. cbn. rewrite H by now left. f_equal. apply IH. intros y Hy. apply H. now right. Qed.
Lemma filter_len : forall {A} (P : A -> bool) l, (length (filter P l) <= length l)%nat.
Proof. intros A P l. induction l as [|x l IH]; [cbn; lia|]. cbn. destruct (P x); cbn; lia. Qed.
Lemma filter_index : forall {A} (P : A -> bool) (l : list A) d, length (filter P l) = length (filter (fun i => P (nth i l d)) (seq 0 (length l))).
Proof.
  intros A P l d. induction l as [|x l IH]; [reflexivity|]. cbn [length seq filter]. rewrite <- seq_shift. cbn [nth].
  assert (M : forall (Q : nat -> bool) m, length (filter Q (map S m)) = length (filter (fun i => Q (S i)) m)) by (intros Q m; induction m as [|y m IHm]; [reflexivity|]; cbn; destruct (Q (S y)); cbn; congruence).
  destruct (P x); cbn [length]; rewrite M; cbn [nth]; rewrite IH; reflexivity.
Qed.
Lemma rank_between : forall (f : pystr -> R) words c w, nth_error words c = Some w -> let i := nth c (argsort (map INR (argsort (map (fun x => - f x) words)))) 0%nat in
  (larger f words w <= i < not_smaller f words w)%nat.
Proof.
  intros f words c w E i. assert (Hc : (c < length words)%nat) by (apply nth_error_Some; congruence). assert (W : nth c words [] = w) by (now apply nth_error_nth).
  set (row := map (fun x => - f x) words) in *. assert (Lr : length row = length words) by apply map_length.
  destruct (argsort_inverse row c ltac:(lia)) as [Bi Ei]. fold i in Bi, Ei. set (p := argsort row) in *. assert (Lp : length p = length words) by (unfold p; rewrite argsort_length; exact Lr).
  assert (RV : forall k, (k < length words)%nat -> nth k row 0 = - f (nth k words [])).
  { intros k Hk. unfold row. rewrite (nth_indep _ 0 (- f [])) by (now rewrite map_length). apply (map_nth (fun x => - f x)). }
  assert (SO : forall j k, (j < k < length words)%nat -> f (nth (nth k p 0%nat) words []) <= f (nth (nth j p 0%nat) words [])).
  { intros j k Hjk. pose proof (proj2 (HA row) j k ltac:(lia)) as LE. fold p in LE. rewrite !RV in LE by (rewrite <- Lr; apply argsort_lt; lia). lra. }
  assert (SP : p = firstn i p ++ c :: skipn (S i) p).
  { rewrite <- (firstn_skipn i p) at 1. f_equal. rewrite <- Ei. clear - Bi Lp Lr. assert (H : (i < length p)%nat) by lia. clear Bi Lp Lr. revert H. generalize i. intros k. revert k. induction p as [|x p' IH]; intros k Hk; [cbn in Hk; lia|].
    destruct k as [|k]; [reflexivity|]. cbn in *. apply IH. lia. }
  assert (PE : forall P : pystr -> bool, length (filter P words) = length (filter (fun k => P (nth k words [])) p)).
  { intros P. rewrite (filter_index P words []). apply filter_perm. rewrite <- Lr. apply Permutation_sym. apply (proj1 (HA row)). }
  split.
  - unfold larger. rewrite PE, SP, filter_app, app_length. rewrite (filter_none _ (c :: skipn (S i) p)).
    + cbn [length]. pose proof (filter_len (fun k => if Rlt_dec (f w) (f (nth k words [])) then true else false) (firstn i p)). rewrite firstn_length in H. lia.
    + intros k [<-|Hk]; [rewrite W; destruct (Rlt_dec (f w) (f w)); [lra | reflexivity]|]. apply (In_nth _ _ 0%nat) in Hk. destruct Hk as [j [Hj Ej]]. rewrite skipn_length in Hj.
      assert (X : k = nth (S i + j) p 0%nat) by (rewrite <- Ej; rewrite <- (firstn_skipn (S i) p) at 2; rewrite app_nth2; rewrite firstn_length; [f_equal; lia | lia]).
      pose proof (SO i (S i + j)%nat ltac:(lia)) as LE. rewrite Ei, W, <- X in LE. destruct (Rlt_dec _ _); [lra | reflexivity].
  - unfold not_smaller. rewrite PE, SP, filter_app, app_length. cbn [filter]. rewrite W. destruct (Rlt_dec (f w) (f w)) as [L|_]; [lra|]. cbn [length].
    rewrite (filter_all _ (firstn i p)); [rewrite firstn_length; lia|]. intros k Hk. apply (In_nth _ _ 0%nat) in Hk. destruct Hk as [j [Hj Ej]]. rewrite firstn_length in Hj.
    rewrite firstn_nth in Ej by lia. pose proof (SO j i ltac:(lia)) as LE. rewrite Ei, W, Ej in LE. destruct (Rlt_dec _ _); [lra | reflexivity].
Qed.
End Sort.
