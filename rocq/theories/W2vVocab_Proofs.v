(** Proofs about Word2Vec vocabularies. *)

From Coq Require Import Permutation.
From Verif Require Import Base Str Utils_Model Utils_Proofs Matutils_Model KeyedVectors_Model KeyedVectors_Spec KeyedVectors_Proofs KeyedVectors_Properties2
  W2vVocab_Model W2vVocab_Spec.
From Coq Require Import ZifyBool ZifyNat.
Local Open Scope nat_scope.

(** ** Scanning *)
Lemma scan_sentence_get : forall s d w, dget_or (scan_sentence d s) w 0 = dget_or d w 0 + length (filter (fun x => if eq_dec x w then true else false) s).
Proof.
  induction s as [|x s IH]; intros d w; cbn [scan_sentence fold_left filter length]; [lia|].
  change (fold_left _ s ?d') with (scan_sentence d' s). rewrite IH. unfold dget_or at 1. rewrite dget_dset.
  destruct (eq_dec x w) as [->|N]; cbn [length]; unfold dget_or; lia.
Qed.
Lemma scan_sentence_inv : forall s d, NoDup (dkeys d) -> (forall w c, dget d w = Some c -> 0 < c) ->
  NoDup (dkeys (scan_sentence d s)) /\ (forall w c, dget (scan_sentence d s) w = Some c -> 0 < c).
Proof.
  induction s as [|x s IH]; intros d N P; cbn [scan_sentence fold_left]; [auto|].
  change (fold_left _ s ?d') with (scan_sentence d' s). apply IH; [apply NoDup_dset; exact N|].
  intros w c. rewrite dget_dset. destruct (eq_dec x w); [intros E; injection E as <-; lia | apply P].
Qed.
Lemma occurrences_cons : forall s ss w, occurrences (s :: ss) w = length (filter (fun x => if eq_dec x w then true else false) s) + occurrences ss w.
Proof. intros. unfold occurrences. cbn [concat]. rewrite filter_app, app_length. reflexivity. Qed.
Lemma dget_occ : forall (d : dict pystr nat) w n, (forall w c, dget d w = Some c -> 0 < c) -> dget_or d w 0 = n -> dget d w = match n with 0 => None | _ => Some n end.
Proof. intros d w n P E. unfold dget_or in E. destruct (dget d w) as [c|] eqn:G; [specialize (P w c G); subst; destruct n; [lia | reflexivity] | subst; reflexivity]. Qed.

Lemma scan_ok : forall ss maxv rule d mr tot, NoDup (dkeys d) -> (forall w c, dget d w = Some c -> 0 < c) ->
  exists raw, scan ss maxv rule d mr tot = Ok (raw, tot + length (concat ss)) /\ NoDup (dkeys raw) /\ (forall w c, dget raw w = Some c -> 0 < c) /\
    (forall w, dget_or raw w 0 <= dget_or d w 0 + occurrences ss w) /\
    (match maxv with Some (S _) => True | _ => forall w, dget_or raw w 0 = dget_or d w 0 + occurrences ss w end).
Proof.
  induction ss as [|s ss IH]; intros maxv rule d mr tot N P.
  - exists d. cbn. rewrite Nat.add_0_r. unfold occurrences. cbn. repeat split; auto; [intros; lia | destruct maxv as [[|?]|]; auto].
  - cbn [scan]. destruct (scan_sentence_inv s d N P) as [N1 P1].
    assert (Lc : tot + length (concat (s :: ss)) = tot + length s + length (concat ss)) by (cbn [concat]; rewrite app_length; lia).
    assert (Same : forall mr', exists raw, scan ss maxv rule (scan_sentence d s) mr' (tot + length s) = Ok (raw, tot + length (concat (s :: ss))) /\
       NoDup (dkeys raw) /\ (forall w c, dget raw w = Some c -> 0 < c) /\ (forall w, dget_or raw w 0 <= dget_or d w 0 + occurrences (s :: ss) w) /\
       (match maxv with Some (S _) => True | _ => forall w, dget_or raw w 0 = dget_or d w 0 + occurrences (s :: ss) w end)).
    { intros mr'. destruct (IH maxv rule (scan_sentence d s) mr' (tot + length s) N1 P1) as (raw & E & R1 & R2 & R3 & R4). exists raw. rewrite Lc.
      repeat split; auto.
      - intros w. specialize (R3 w). rewrite scan_sentence_get in R3. rewrite occurrences_cons. lia.
      - destruct maxv as [[|?]|]; auto; intros w; rewrite R4, scan_sentence_get, occurrences_cons; lia. }
    destruct maxv as [[|m]|]; try apply Same. destruct (S m <? length (scan_sentence d s)); [|apply Same].
    rewrite prune_vocab_eq by exact N1. cbn [rbind fst]. set (d2 := filter _ (scan_sentence d s)).
    assert (G2 : forall w c, dget d2 w = Some c -> dget (scan_sentence d s) w = Some c).
    { intros w c H. apply dget_In in H. apply filter_In in H. apply In_dget; [exact N1 | apply H]. }
    destruct (IH (Some (S m)) rule d2 (mr + 1) (tot + length s)) as (raw & E & R1 & R2 & R3 & _).
    { apply NoDup_dkeys_filter. exact N1. }
    { intros w c H. apply (P1 w c), G2, H. }
    exists raw. rewrite Lc. repeat split; auto. intros w. specialize (R3 w). rewrite occurrences_cons. pose proof (scan_sentence_get s d w) as Q.
    assert (dget_or d2 w 0 <= dget_or (scan_sentence d s) w 0).
    { unfold dget_or. destruct (dget d2 w) as [c|] eqn:E2; [rewrite (G2 w c E2); lia | lia]. }
    lia.
Qed.

(** ** Keys *)
Section Keys.
Context {V R : Type}.
Notation kvs := (kv V R).

Definition keyl (ks : list pystr) : list (option key) := map (fun w => Some (KStr w)) ks.
Definition Voc (m : kvs) (ks : list pystr) : Prop :=
  index_to_key m = keyl ks /\ NoDup ks /\ (forall k i, dget (key_to_index m) k = Some i <-> exists w, k = KStr w /\ nth_error ks i = Some w).
Lemma keyl_nth : forall ks i k, nth_error (keyl ks) i = Some (Some k) <-> exists w, k = KStr w /\ nth_error ks i = Some w.
Proof.
  intros ks i k. unfold keyl. rewrite nth_error_map. destruct (nth_error ks i) as [w|]; cbn; split.
  - intros E. injection E as <-. eauto.
  - intros (w' & -> & E). injection E as <-. reflexivity.
  - discriminate.
  - intros (w' & _ & E). discriminate.
Qed.
Lemma sound_Voc : forall m, sound m <-> exists ks, Voc m ks.
Proof.
  intros m. split.
  - intros [F A]. assert (X : exists ks, index_to_key m = keyl ks).
    { clear A. induction F as [|o l [w ->] _ [ks IH]]; [exists []; reflexivity|]. exists (w :: ks). cbn. rewrite IH. reflexivity. }
    destruct X as [ks E]. exists ks. split; [exact E|]. split.
    + apply NoDup_nth_error. intros i j L Eij. destruct (nth_error ks i) as [w|] eqn:Ei; [|apply nth_error_None in Ei; lia].
      assert (H1 : dget (key_to_index m) (KStr w) = Some i) by (apply A; rewrite E; apply keyl_nth; eauto).
      assert (H2 : dget (key_to_index m) (KStr w) = Some j) by (apply A; rewrite E; apply keyl_nth; eauto). congruence.
    + intros k i. rewrite <- A, E. apply keyl_nth.
  - intros (ks & E & N & A). split.
    + rewrite E. apply Forall_forall. intros o H. apply in_map_iff in H. destruct H as (w & <- & _). eauto.
    + intros k i. rewrite A, E. apply keyl_nth.
Qed.
Definition same_data (m m' : kvs) : Prop := vectors m' = vectors m /\ norms m' = norms m /\ counts m' = counts m /\ next_index m' = next_index m.
Lemma same_data_trans : forall a b c, same_data a b -> same_data b c -> same_data a c.
Proof. unfold same_data. intuition congruence. Qed.

Lemma append_ok : forall m ks w, Voc m ks -> ~ In w ks -> Voc (append_key m w) (ks ++ [w]) /\ same_data m (append_key m w).
Proof.
  intros m ks w (E & N & A) Hw. split; [|repeat split]. split; [|split].
  - cbn. rewrite E. unfold keyl. rewrite map_app. reflexivity.
  - apply NoDup_app_one; assumption.
  - intros k i. cbn [append_key key_to_index]. rewrite dget_dset. rewrite E. unfold keyl. rewrite map_length. destruct (eq_dec (KStr w) k) as [<-|Nk].
    + split.
      * intros H. injection H as <-. exists w. split; [reflexivity|]. rewrite nth_error_app2 by lia. rewrite Nat.sub_diag. reflexivity.
      * intros (w' & Ew & H). injection Ew as <-. destruct (Nat.lt_ge_cases i (length ks)) as [L|L].
        -- rewrite nth_error_app1 in H by exact L. exfalso. apply Hw. eapply nth_error_In. exact H.
        -- rewrite nth_error_app2 in H by lia. destruct (i - length ks) as [|j] eqn:Ej; [f_equal; lia | destruct j; discriminate].
    + rewrite A. split; intros (w' & -> & H); exists w'; (split; [reflexivity|]).
      * rewrite nth_error_app1; [exact H|]. apply nth_error_Some. congruence.
      * destruct (Nat.lt_ge_cases i (length ks)) as [L|L]; [rewrite nth_error_app1 in H by exact L; exact H|].
        rewrite nth_error_app2 in H by lia. destruct (i - length ks) as [|j]; cbn in H; [congruence | destruct j; discriminate].
Qed.
Lemma append_all : forall ws m ks, Voc m ks -> NoDup (ks ++ ws) -> Voc (fold_left append_key ws m) (ks ++ ws) /\ same_data m (fold_left append_key ws m).
Proof.
  induction ws as [|w ws IH]; intros m ks H N; cbn [fold_left].
  - rewrite app_nil_r. split; [exact H | repeat split].
  - destruct (append_ok m ks w H) as [H1 S1].
    { apply NoDup_remove_2 in N. intros X. apply N. apply in_or_app. auto. }
    destruct (IH (append_key m w) (ks ++ [w]) H1) as [H2 S2]; [rewrite <- app_assoc; exact N|]. rewrite <- app_assoc in H2. split; [exact H2|]. exact (same_data_trans _ _ _ S1 S2).
Qed.
Lemma has_Voc : forall m ks w, Voc m ks -> has_index_for m (KStr w) = memb w ks.
Proof.
  intros m ks w (E & N & A). unfold has_index_for. rewrite get_index_str. destruct (dget (key_to_index m) (KStr w)) as [i|] eqn:G.
  - apply A in G. destruct G as (w' & Ew & H). injection Ew as <-. symmetry. apply memb_true. eapply nth_error_In. exact H.
  - symmetry. apply memb_false. intros H. apply In_nth_error in H. destruct H as [i H].
    assert (X : dget (key_to_index m) (KStr w) = Some i) by (apply A; eauto). congruence.
Qed.
Lemma update_keys : forall ws m ks, Voc m ks -> NoDup ws ->
  let news := filter (fun w => negb (memb w ks)) ws in
  let m' := fold_left (fun m' w => if has_index_for m' (KStr w) then m' else append_key m' w) ws m in
  Voc m' (ks ++ news) /\ same_data m m'.
Proof.
  induction ws as [|w ws IH]; intros m ks H N; cbn [fold_left filter].
  - rewrite app_nil_r. split; [exact H | repeat split].
  - inversion N as [|? ? N1 N2]; subst. rewrite (has_Voc m ks w H). destruct (memb w ks) eqn:E; cbn [negb].
    + apply IH; assumption.
    + apply memb_false in E. destruct (append_ok m ks w H E) as [H1 S1]. destruct (IH _ _ H1 N2) as [H2 S2]. split; [|exact (same_data_trans _ _ _ S1 S2)].
      assert (X : filter (fun w0 => negb (memb w0 (ks ++ [w]))) ws = filter (fun w0 => negb (memb w0 ks)) ws).
      { clear - N1. induction ws as [|x ws IH]; [reflexivity|]. cbn [filter]. rewrite IH by (intros X; apply N1; right; exact X).
        assert (x <> w) by (intros ->; apply N1; left; reflexivity).
        assert (Em : memb x (ks ++ [w]) = memb x ks).
        { destruct (memb x ks) eqn:Em; [apply memb_true; apply memb_true in Em; apply in_or_app; auto|]. apply memb_false. apply memb_false in Em. intros X. apply in_app_or in X. destruct X as [X|[X|[]]]; congruence. }
        rewrite Em. reflexivity. }
      rewrite X in H2. rewrite <- app_assoc in H2. exact H2.
Qed.

(** ** Counts *)
Lemma resize_same : forall (l : list Z) n, length l = n -> KeyedVectors_Model.resize n l = l.
Proof. intros l n <-. unfold KeyedVectors_Model.resize. rewrite firstn_all, Nat.sub_diag. cbn. apply app_nil_r. Qed.
Lemma resize_length : forall (l : list Z) n, length (KeyedVectors_Model.resize n l) = n.
Proof. intros. unfold KeyedVectors_Model.resize. rewrite app_length, firstn_length, repeat_length. lia. Qed.
Lemma set_count_Voc : forall (m : kvs) ks i w c l, Voc m ks -> nth_error ks i = Some w -> counts m = Some l -> length l = length ks ->
  set_count m (KStr w) c = Ok (set_counts m (Some (set_nth l i c))).
Proof.
  intros m ks i w c l (E & N & A) H Ec L. unfold set_count. rewrite Ec. rewrite resize_same by (unfold kv_len; rewrite E; unfold keyl; rewrite map_length; exact L).
  rewrite get_index_str. cbn [key_to_index set_counts]. rewrite (proj2 (A (KStr w) i)) by eauto. reflexivity.
Qed.
Lemma get_count_Voc : forall (m : kvs) ks i w l, Voc m ks -> nth_error ks i = Some w -> counts m = Some l -> get_count m (KStr w) = of_option IndexError (nth_error l i).
Proof.
  intros m ks i w l (E & N & A) H Ec. unfold get_count. rewrite get_index_str. rewrite (proj2 (A (KStr w) i)) by eauto. rewrite Ec. reflexivity.
Qed.
Lemma Voc_counts : forall (m : kvs) ks c, Voc m ks -> Voc (set_counts m c) ks.
Proof. intros m ks c H. exact H. Qed.

Fixpoint zip2 (g : pystr -> Z -> Z) (ws : list pystr) (l : list Z) : list Z :=
  match ws, l with w :: ws', x :: l' => g w x :: zip2 g ws' l' | _, _ => [] end.
Lemma set_nth_app : forall {A} (l1 l2 : list A) x, set_nth (l1 ++ l2) (length l1) x = l1 ++ set_nth l2 0 x.
Proof. induction l1 as [|a l1 IH]; intros; cbn; [destruct l2; reflexivity|]. rewrite IH. reflexivity. Qed.

Lemma count_loop : forall (step : kvs -> option key -> result kvs) g,
  (forall m ks i w l x, Voc m ks -> nth_error ks i = Some w -> counts m = Some l -> length l = length ks -> nth_error l i = Some x ->
     step m (Some (KStr w)) = Ok (set_counts m (Some (set_nth l i (g w x))))) ->
  forall suf pre m a b, Voc m (pre ++ suf) -> counts m = Some (a ++ b) -> length a = length pre -> length b = length suf ->
  rfold step (keyl suf) m = Ok (set_counts m (Some (a ++ zip2 g suf b))).
Proof.
  intros step g Hs. induction suf as [|w suf IH]; intros pre m a b H Ec La Lb.
  - destruct b; [|discriminate]. cbn. rewrite app_nil_r in *. destruct m; cbn in *. unfold set_counts. cbn. rewrite Ec. reflexivity.
  - destruct b as [|x b]; [discriminate|]. cbn [keyl map rfold].
    rewrite (Hs m (pre ++ w :: suf) (length pre) w (a ++ x :: b) x H).
    + rewrite <- La, set_nth_app. cbn [set_nth rbind]. fold (keyl suf).
      rewrite (IH (pre ++ [w]) _ (a ++ [g w x]) b).
      * cbn [zip2]. rewrite <- app_assoc. reflexivity.
      * rewrite <- app_assoc. exact H.
      * cbn. rewrite <- app_assoc. reflexivity.
      * rewrite !app_length. cbn. lia.
      * cbn in Lb. lia.
    + rewrite nth_error_app2 by lia. rewrite Nat.sub_diag. reflexivity.
    + exact Ec.
    + rewrite !app_length. cbn in *. lia.
    + rewrite nth_error_app2 by lia. rewrite La, Nat.sub_diag. reflexivity.
Qed.

Definition old_counts (m : kvs) : list Z := match counts m with Some l => l | None => [] end.
Lemma set_count_resized : forall (m : kvs) k c, set_count (set_counts m (Some (KeyedVectors_Model.resize (kv_len m) (old_counts m)))) k c = set_count m k c.
Proof.
  intros m k c. unfold set_count. cbn [counts set_counts]. unfold kv_len. cbn [index_to_key set_counts]. rewrite (resize_same (KeyedVectors_Model.resize _ _)) by (apply resize_length). reflexivity.
Qed.

Lemma fresh_ok : forall (m : kvs) retained raw, NoDup (dkeys retained) -> exists m',
  fresh_vocab m retained raw = Ok m' /\ Voc m' (dkeys retained) /\ vectors m' = vectors m /\ norms m' = norms m /\
  (dkeys retained <> [] -> counts m' = Some (map (fun w => Z.of_nat (dget_or raw w 0)) (dkeys retained))).
Proof.
  intros m retained raw N. unfold fresh_vocab. set (ws := dkeys retained) in *.
  assert (V0 : Voc (clear_keys m) []).
  { split; [reflexivity|]. split; [constructor|]. intros k i. cbn. split; [discriminate | intros (w & _ & H); destruct i; discriminate]. }
  destruct (append_all ws (clear_keys m) [] V0 N) as [V1 S1]. cbn [app] in V1. set (m1 := fold_left append_key ws (clear_keys m)) in *.
  destruct S1 as (S1 & S2 & S3 & S4). cbn in S1, S2, S3, S4.
  assert (E1 : index_to_key m1 = keyl ws) by apply V1. rewrite E1.
  match goal with |- context [rfold ?s _ _] => set (step := s) end.
  destruct ws as [|w0 ws0] eqn:Ew.
  - exists m1. split; [reflexivity|]. repeat split; auto; try apply V1. congruence.
  - rewrite <- Ew in *. set (m2 := set_counts m1 (Some (KeyedVectors_Model.resize (kv_len m1) (old_counts m1)))).
    assert (Er : rfold step (keyl ws) m1 = rfold step (keyl ws) m2).
    { rewrite Ew. cbn [keyl map rfold]. f_equal. unfold m2. symmetry. apply set_count_resized. }
    rewrite Er. rewrite (count_loop step (fun w _ => Z.of_nat (dget_or raw w 0))) with (pre := []) (a := []) (b := KeyedVectors_Model.resize (kv_len m1) (old_counts m1)).
    + eexists. split; [reflexivity|]. cbn [set_counts m2 counts vectors norms]. split; [exact V1|]. split; [exact S1|]. split; [exact S2|]. intros _. cbn [app].
      assert (Z2 : forall l (h : pystr -> Z), length l = length ws -> zip2 (fun w _ => h w) ws l = map h ws).
      { clear. induction ws as [|w ws IH]; intros [|x l] h L; try discriminate; [reflexivity|]. cbn. rewrite IH by (cbn in L; lia). reflexivity. }
      rewrite Z2; [reflexivity|]. rewrite resize_length. unfold kv_len. rewrite E1. apply map_length.
    + intros m3 ks i w l x H1 H2 H3 H4 _. unfold step. apply (set_count_Voc m3 ks i w _ l); assumption.
    + exact V1.
    + reflexivity.
    + reflexivity.
    + rewrite resize_length. unfold kv_len. rewrite E1. apply map_length.
Qed.

Lemma update_ok : forall (m : kvs) ks cs retained raw, Voc m ks -> counts m = Some cs -> length cs = length ks -> NoDup (dkeys retained) ->
  let news := filter (fun w => negb (memb w ks)) (dkeys retained) in
  exists m', update_vocab m retained raw = Ok m' /\ Voc m' (ks ++ news) /\ vectors m' = vectors m /\ norms m' = norms m /\
  counts m' = Some (zip2 (fun w x => (x + Z.of_nat (dget_or raw w 0%nat))%Z) ks cs ++ map (fun w => Z.of_nat (dget_or raw w 0)) news).
Proof.
  intros m ks cs retained raw H Ec Lc N news. unfold update_vocab. destruct (update_keys (dkeys retained) m ks H N) as [V1 S1]. fold news in V1.
  set (m1 := fold_left _ (dkeys retained) m) in *. destruct S1 as (S1 & S2 & S3 & S4). rewrite S3, Ec.
  assert (E1 : index_to_key m1 = keyl (ks ++ news)) by apply V1.
  assert (Lk : kv_len m1 = length ks + length news) by (unfold kv_len; rewrite E1; unfold keyl; rewrite map_length, app_length; reflexivity).
  set (l0 := KeyedVectors_Model.resize (kv_len m1) cs). set (m2 := set_counts m1 (Some l0)).
  change (index_to_key m2) with (index_to_key m1). rewrite E1.
  match goal with |- context [rfold ?s _ _] => set (step := s) end.
  rewrite (count_loop step (fun w x => (x + Z.of_nat (dget_or raw w 0%nat))%Z)) with (pre := []) (a := []) (b := l0).
  - eexists. split; [reflexivity|]. cbn [set_counts m2 counts vectors norms]. split; [exact V1|]. split; [exact S1|]. split; [exact S2|]. cbn [app]. f_equal.
    assert (El : l0 = cs ++ repeat 0%Z (length news)).
    { unfold l0, KeyedVectors_Model.resize. rewrite Lk, Lc. rewrite firstn_all2 by lia. f_equal. f_equal. lia. }
    rewrite El. generalize news as nw. clear - Lc. intros nw. revert cs Lc. induction ks as [|k ks IH]; intros [|x cs] L; try discriminate.
    + cbn. induction nw as [|w ws IH]; [reflexivity|]. cbn. rewrite IH. reflexivity.
    + cbn. rewrite IH by (cbn in L; lia). reflexivity.
  - intros m3 ks3 i w l x H1 H2 H3 H4 H5. unfold step. rewrite (get_count_Voc m3 ks3 i w l) by assumption. rewrite H5. cbn [of_option rbind]. apply (set_count_Voc m3 ks3 i w _ l); assumption.
  - exact V1.
  - reflexivity.
  - reflexivity.
  - unfold l0. rewrite resize_length, Lk, app_length. reflexivity.
Qed.
End Keys.
