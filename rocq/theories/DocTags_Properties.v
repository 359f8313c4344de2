(** Theorems about the tags of Doc2Vec documents (property C77). *)
From Verif Require Import Base Str Utils_Model KeyedVectors_Model KeyedVectors_Proofs W2vVocab_Model W2vVocab_Spec W2vVocab_Proofs W2vVocab_Properties DocTags_Model DocTags_Spec.
Local Open Scope nat_scope.

(** ** The scan *)
Lemma firsts_in : forall l t, In t (firsts l) <-> exists w, In (KStr t, w) l.
Proof.
  induction l as [|[[s|z] w] l IH]; intros t; cbn [firsts].
  - split; [intros [] | intros [w []]].
  - cbn [In]. rewrite filter_In, IH, negb_true_iff, eqb_false. split.
    + intros [<-|[[w' H] _]]; [exists w; now left | exists w'; now right].
    + intros [w' [E|H]]; [injection E as -> _; now left|]. destruct (eq_dec t s); [left; congruence | right; split; eauto].
  - rewrite IH. split; intros [w' H]; exists w'; [now right|]. destruct H as [E|H]; [discriminate | exact H].
Qed.
Lemma NoDup_app_intro : forall {A} (l l' : list A), NoDup l -> NoDup l' -> (forall x, In x l -> In x l' -> False) -> NoDup (l ++ l').
Proof.
  intros A l l' H H' D. induction H as [|x l N H IH]; [exact H'|]. cbn [app]. constructor.
  - rewrite in_app_iff. intros [X|X]; [exact (N X) | eapply D; [now left | exact X]].
  - apply IH. intros y Hy. apply D. now right.
Qed.
Lemma firsts_nodup : forall l, NoDup (firsts l).
Proof.
  induction l as [|[[s|z] w] l IH]; cbn [firsts]; [constructor | | exact IH].
  constructor; [|now apply NoDup_filter]. rewrite filter_In, negb_true_iff, eqb_false. tauto.
Qed.
Lemma firsts_snoc_str : forall l t w, firsts (l ++ [(KStr t, w)]) = if memb t (firsts l) then firsts l else firsts l ++ [t].
Proof.
  induction l as [|[[s|z] w0] l IH]; intros t w; cbn [firsts app].
  - reflexivity.
  - rewrite IH. destruct (eq_dec t s) as [->|N].
    + assert (M : memb s (s :: filter (fun x => negb (eqb x s)) (firsts l)) = true) by (rewrite memb_true; now left). rewrite M. f_equal.
      destruct (memb s (firsts l)); [reflexivity|]. rewrite filter_app. cbn [filter]. rewrite eqb_refl. cbn [negb]. apply app_nil_r.
    + destruct (memb t (firsts l)) eqn:E.
      * rewrite memb_true in E. assert (M : memb t (s :: filter (fun x => negb (eqb x s)) (firsts l)) = true).
        { rewrite memb_true. right. rewrite filter_In, negb_true_iff, eqb_false. auto. } now rewrite M.
      * rewrite memb_false in E. assert (M : memb t (s :: filter (fun x => negb (eqb x s)) (firsts l)) = false).
        { rewrite memb_false. intros [F|F]; [congruence|]. rewrite filter_In in F. tauto. } rewrite M. cbn [app]. f_equal. rewrite filter_app. f_equal.
        cbn [filter]. assert (X : eqb t s = false) by (rewrite eqb_false; exact N). rewrite X. reflexivity.
  - apply IH.
Qed.
Lemma firsts_snoc_int : forall l z w, firsts (l ++ [(KInt z, w)]) = firsts l.
Proof. induction l as [|[[s|z'] w0] l IH]; intros; cbn [firsts app]; rewrite ?IH; reflexivity. Qed.
Lemma uses_of_app : forall l l' t, uses_of (l ++ l') t = uses_of l t ++ uses_of l' t.
Proof. intros. unfold uses_of. now rewrite filter_app, map_app. Qed.
Lemma uses_of_none : forall l t, ~ In t (firsts l) -> uses_of l t = [].
Proof.
  intros l t H. unfold uses_of. rewrite firsts_in in H. induction l as [|[k w] l IH]; [reflexivity|]. cbn [filter fst].
  destruct (eqb k (KStr t)) eqn:E; [|apply IH; intros [w' X]; apply H; exists w'; now right].
  rewrite eqb_true in E. subst. exfalso. apply H. exists w. now left.
Qed.

Definition scan_inv (l : list (key * nat)) (s : tagscan) : Prop :=
  (-1 <= ts_max s)%Z /\ int_slots l (Z.to_nat (ts_max s + 1)) /\ ts_list s = firsts l /\ dkeys (ts_lookup s) = ts_list s /\
  (forall i t, nth_error (ts_list s) i = Some t -> dget (ts_lookup s) t = Some (Doctag i (list_sum (uses_of l t)) (length (uses_of l t)))).

Lemma scan_tags_uses : forall docs s, fold_left note_document docs s = fold_left (fun s p => note_tag (snd p) s (fst p)) (uses docs) s.
Proof.
  induction docs as [|d docs IH]; intros s; [reflexivity|]. cbn [fold_left]. unfold uses. cbn [flat_map]. rewrite fold_left_app, IH. f_equal. clear.
  unfold note_document. revert s. induction (d_tags d) as [|k l IH]; intros s; [reflexivity|]. cbn [fold_left map fst snd]. apply IH.
Qed.
Lemma scan_ok : forall l, scan_inv l (fold_left (fun s p => note_tag (snd p) s (fst p)) l no_tags).
Proof.
  induction l as [|[k w] l IH] using rev_ind.
  - unfold scan_inv, int_slots. cbn. repeat split; auto; try lia. intros [|i] t H; discriminate.
  - rewrite fold_left_app. cbn [fold_left fst snd]. set (s := fold_left _ l no_tags) in *. destruct IH as (A & (B1 & B2) & C & D & E).
    destruct k as [t|z]; cbn [note_tag].
    + assert (HS : forall n, int_slots l n -> int_slots (l ++ [(KStr t, w)]) n).
      { intros n [P Q]. split; [intros z w' HI; apply in_app_iff in HI; destruct HI as [HI|[HI|[]]]; [eapply P; eauto | discriminate]|].
        destruct Q as [Q|[w' Q]]; [now left | right; exists w'; apply in_app_iff; now left]. }
      assert (ND : NoDup (ts_list s)) by (rewrite C; apply firsts_nodup).
      destruct (dget (ts_lookup s) t) as [dt|] eqn:G; unfold scan_inv; cbn [ts_max ts_lookup ts_list].
      * assert (HI : In t (ts_list s)) by (rewrite <- D; apply dget_Some_key; eauto).
        split; [exact A|]. split; [apply HS; split; assumption|]. split.
        { rewrite firsts_snoc_str, <- C. assert (M : memb t (ts_list s) = true) by now rewrite memb_true. now rewrite M. }
        split; [rewrite dkeys_dset_in by (rewrite D; exact HI); exact D|].
        intros i t' Hi. rewrite dget_dset. rewrite uses_of_app. destruct (eq_dec t t') as [<-|N].
        -- specialize (E i t Hi). rewrite E in G. injection G as <-. cbn [t_index t_words t_docs].
           assert (U : uses_of [(KStr t, w)] t = [w]) by (unfold uses_of; cbn [filter fst]; rewrite eqb_refl; reflexivity). rewrite U.
           rewrite list_sum_app, app_length. cbn [list_sum fold_right length]. do 2 f_equal; lia.
        -- assert (U : uses_of [(KStr t, w)] t' = []).
           { unfold uses_of. cbn [filter fst]. assert (X : eqb (KStr t) (KStr t') = false) by (rewrite eqb_false; congruence). rewrite X. reflexivity. }
           rewrite U, app_nil_r. apply E. exact Hi.
      * assert (NI : ~ In t (ts_list s)) by (rewrite <- D; apply dget_None; exact G).
        split; [exact A|]. split; [apply HS; split; assumption|]. split.
        { rewrite firsts_snoc_str, <- C. assert (M : memb t (ts_list s) = false) by now rewrite memb_false. now rewrite M. }
        split; [rewrite dkeys_dset_notin by (rewrite D; exact NI); now rewrite D|].
        intros i t' Hi. rewrite dget_dset. rewrite uses_of_app. destruct (eq_dec t t') as [<-|N].
        -- assert (Ei : i = length (ts_list s)).
           { destruct (Nat.lt_ge_cases i (length (ts_list s))) as [L|L].
             - rewrite nth_error_app1 in Hi by exact L. exfalso. apply NI. eapply nth_error_In; eauto.
             - rewrite nth_error_app2 in Hi by exact L. destruct (i - length (ts_list s)) as [|n] eqn:En; [lia|]. destruct n; discriminate. }
           rewrite uses_of_none by (rewrite <- C; exact NI).
           assert (U : uses_of [(KStr t, w)] t = [w]) by (unfold uses_of; cbn [filter fst]; rewrite eqb_refl; reflexivity). rewrite U. subst i. cbn. do 2 f_equal; lia.
        -- assert (U : uses_of [(KStr t, w)] t' = []).
           { unfold uses_of. cbn [filter fst]. assert (X : eqb (KStr t) (KStr t') = false) by (rewrite eqb_false; congruence). rewrite X. reflexivity. }
           rewrite U, app_nil_r. apply E. destruct (Nat.lt_ge_cases i (length (ts_list s))) as [L|L]; [now rewrite nth_error_app1 in Hi|].
           rewrite nth_error_app2 in Hi by exact L. destruct (i - length (ts_list s)) as [|n]; [cbn in Hi; congruence|]. destruct n; discriminate.
    + unfold scan_inv; cbn [ts_max ts_lookup ts_list]. split; [lia|]. split.
      { split.
        - intros z' w' HI. apply in_app_iff in HI. destruct HI as [HI|[HI|[]]]; [specialize (B1 _ _ HI)|injection HI as -> ->]; lia.
        - destruct (Z.le_gt_cases z (ts_max s)) as [L|L].
          + rewrite Z.max_l by exact L. destruct B2 as [B2|[w' B2]]; [now left | right; exists w'; apply in_app_iff; now left].
          + rewrite Z.max_r by lia. right. exists w. apply in_app_iff. right. left. do 2 f_equal. lia. }
      split; [now rewrite firsts_snoc_int|]. split; [exact D|]. intros i t Hi. rewrite uses_of_app.
      assert (U : uses_of [(KInt z, w)] t = []) by reflexivity. rewrite U, app_nil_r. apply E. exact Hi.
Qed.

(** ** The adjusted indexes *)
Lemma shift_ok : forall by_ ts lookup, NoDup ts -> (forall t, In t ts -> In t (dkeys lookup)) ->
  let l' := fold_left (shift_tag by_) ts lookup in
  dkeys l' = dkeys lookup /\
  (forall t, dget l' t = if memb t ts then option_map (fun dt => Doctag (t_index dt + by_) (t_words dt) (t_docs dt)) (dget lookup t) else dget lookup t).
Proof.
  intros by_ ts. induction ts as [|t ts IH]; intros lookup ND HI; [split; [reflexivity|intros; reflexivity]|].
  cbn [fold_left]. inversion ND as [|? ? N1 N2]; subst.
  assert (Hk : exists dt, dget lookup t = Some dt) by (apply dget_Some_key; apply HI; now left). destruct Hk as [dt Hk].
  assert (Es : shift_tag by_ lookup t = dset lookup t (Doctag (t_index dt + by_) (t_words dt) (t_docs dt))) by (unfold shift_tag; now rewrite Hk).
  assert (Ek : dkeys (shift_tag by_ lookup t) = dkeys lookup) by (rewrite Es; apply dkeys_dset_in; apply HI; now left).
  destruct (IH (shift_tag by_ lookup t) N2) as [A B]; [intros t' H'; rewrite Ek; apply HI; now right|].
  cbn zeta. split; [now rewrite A|]. intros t'. rewrite B, Es, dget_dset. destruct (eq_dec t t') as [<-|N].
  - assert (M1 : memb t ts = false) by now rewrite memb_false. assert (M2 : memb t (t :: ts) = true) by (rewrite memb_true; now left). rewrite M1, M2, Hk. reflexivity.
  - assert (M : memb t' (t :: ts) = memb t' ts).
    { destruct (memb t' ts) eqn:E; [rewrite memb_true in *; now right|]. rewrite memb_false in *. intros [F|F]; congruence. } rewrite M. reflexivity.
Qed.
Lemma adjust_ok : forall l s, scan_inv l s -> exists lookup n,
  adjust s = (lookup, slots n (firsts l)) /\ n = Z.to_nat (ts_max s + 1) /\ int_slots l n /\ dkeys lookup = firsts l /\
  (forall i t, nth_error (firsts l) i = Some t -> dget lookup t = Some (Doctag (n + i) (list_sum (uses_of l t)) (length (uses_of l t)))).
Proof.
  intros l s (A & B & C & D & E). unfold adjust. rewrite C in *. destruct (Z.ltb_spec (-1) (ts_max s)) as [L|L].
  - destruct (shift_ok (Z.to_nat (ts_max s + 1)) (firsts l) (ts_lookup s)) as [S1 S2]; [apply firsts_nodup | intros; rewrite D; assumption|].
    do 2 eexists. split; [reflexivity|]. split; [reflexivity|]. split; [exact B|]. split; [now rewrite S1|].
    intros i t Hi. rewrite S2, (E i t Hi). assert (M : memb t (firsts l) = true) by (rewrite memb_true; eapply nth_error_In; eauto). rewrite M. cbn. do 2 f_equal. lia.
  - assert (ts_max s = -1)%Z as Em by lia. exists (ts_lookup s), 0. rewrite Em in *. split; [reflexivity|]. split; [reflexivity|]. split; [exact B|]. split; [exact D|]. exact E.
Qed.

(** ** Storing *)
Section Store.
Context {V : Type}.
Notation dvs := (dvs V).
Lemma set_attr_ok : forall n a i c, i < n -> exists l, set_attr n a i c = Some l /\ length l = n /\ nth_error l i = Some c /\
  (forall old j, a = Some old -> length old = n -> j <> i -> nth_error l j = nth_error old j).
Proof.
  intros n a i c L. unfold set_attr. eexists. split; [reflexivity|]. split; [rewrite set_nth_length; apply resize_length|]. split.
  - rewrite nth_error_set_nth, Nat.eqb_refl. rewrite (proj2 (Nat.ltb_lt _ _)); [reflexivity|]. now rewrite resize_length.
  - intros old j -> Lo N. rewrite nth_error_set_nth, resize_same by exact Lo. destruct (Nat.eqb_spec j i); [congruence | reflexivity].
Qed.
Lemma store_ok : forall (L : list (pystr * doctag)) (m : dvs), NoDup (map fst L) ->
  (forall t dt, In (t, dt) L -> t_index dt < length (dv_keys m)) -> NoDup (map (fun p => t_index (snd p)) L) ->
  let m' := fold_left store_tag L m in
  dv_keys m' = dv_keys m /\ dv_vectors m' = dv_vectors m /\
  (forall t, dget (dv_index m') t = match dget L t with Some dt => Some (t_index dt) | None => dget (dv_index m) t end) /\
  (forall t dt, In (t, dt) L -> exists ws ds, dv_words m' = Some ws /\ dv_docs m' = Some ds /\ length ws = length (dv_keys m) /\ length ds = length (dv_keys m) /\
     nth_error ws (t_index dt) = Some (Z.of_nat (t_words dt)) /\ nth_error ds (t_index dt) = Some (Z.of_nat (t_docs dt))).
Proof.
  induction L as [|[t0 d0] L IH] using rev_ind; intros m ND HL NI; [cbn; repeat split; tauto|].
  rewrite fold_left_app. cbn [fold_left]. rewrite map_app in ND, NI. cbn [map fst snd] in ND, NI.
  apply NoDup_remove in ND. rewrite app_nil_r in ND. destruct ND as [ND NN]. apply NoDup_remove in NI. rewrite app_nil_r in NI. destruct NI as [NI NNi].
  destruct (IH m ND) as (A & B & C & D); [intros; eapply HL; apply in_app_iff; left; eauto | exact NI|]. clear IH.
  set (m1 := fold_left store_tag L m) in *. unfold store_tag. cbn [dv_keys dv_vectors dv_index dv_words dv_docs]. rewrite A.
  assert (L0 : t_index d0 < length (dv_keys m)) by (apply (HL t0); apply in_app_iff; right; now left).
  split; [reflexivity|]. split; [exact B|].
  assert (G : dget L t0 = None) by (apply dget_None; exact NN). split.
  - intros t. rewrite dget_dset, dget_app. destruct (eq_dec t0 t) as [<-|N].
    + rewrite G. cbn [dget]. destruct (eq_dec t0 t0); [reflexivity | congruence].
    + rewrite C. destruct (dget L t); [reflexivity|]. cbn [dget]. destruct (eq_dec t t0); [congruence|]. destruct (eq_dec t0 t); [congruence | reflexivity].
  - intros t dt HI. destruct (set_attr_ok (length (dv_keys m)) (dv_words m1) (t_index d0) (Z.of_nat (t_words d0)) L0) as (ws & W1 & W2 & W3 & W4).
    destruct (set_attr_ok (length (dv_keys m)) (dv_docs m1) (t_index d0) (Z.of_nat (t_docs d0)) L0) as (ds & X1 & X2 & X3 & X4).
    exists ws, ds. split; [exact W1|]. split; [exact X1|]. split; [exact W2|]. split; [exact X2|].
    apply in_app_iff in HI. destruct HI as [HI|[HI|[]]].
    + destruct (D t dt HI) as (ws1 & ds1 & Y1 & Y2 & Y3 & Y4 & Y5 & Y6).
      assert (Ne : t_index dt <> t_index d0) by (intros Eq; apply NNi; apply in_map_iff; exists (t, dt); auto).
      rewrite (W4 ws1) by auto. rewrite (X4 ds1) by auto. auto.
    + injection HI as <- <-. auto.
Qed.

(** Whatever the document vectors were before, after scanning a corpus the tags used in it have their own slots: first the
    integers from 0 to the greatest, then the strings by first use; with the numbers of documents and words counted once per
    use of the tag.  Tags of earlier scans that are not used any more keep their old slot numbers. *)
Theorem scan_tags_exact : forall (m : dvs) docs, exists n,
  let l := uses docs in
  let m' := store_tags m (scan_tags docs) in
  int_slots l n /\ dv_keys m' = slots n (firsts l) /\ NoDup (dv_keys m') /\
  (forall k w, In (k, w) l -> usable k -> exists i, dv_get m' k = Some i /\ nth_error (dv_keys m') i = Some k) /\
  (forall z, (z < 0)%Z -> dv_get m' (KInt z) = None) /\
  (forall t w, In (KStr t, w) l -> get_attr m' dv_words (KStr t) = Ok (Z.of_nat (list_sum (uses_of l t))) /\
                                   get_attr m' dv_docs (KStr t) = Ok (Z.of_nat (length (uses_of l t)))) /\
  (forall t, ~ In t (firsts l) -> dv_get m' (KStr t) = dv_get m (KStr t)) /\
  dv_vectors m' = dv_vectors m.
Proof.
  intros m docs. unfold scan_tags. rewrite scan_tags_uses. set (l := uses docs). destruct (adjust_ok l _ (scan_ok l)) as (lookup & n & Ea & _ & Hn & Hk & Hl).
  exists n. cbn zeta. unfold store_tags. rewrite Ea.
  assert (ND : NoDup (dkeys lookup)) by (rewrite Hk; apply firsts_nodup).
  assert (Len : length (slots n (firsts l)) = n + length (firsts l)) by (unfold slots; now rewrite app_length, !map_length, seq_length).
  assert (Hin : forall t dt, In (t, dt) lookup -> exists i, nth_error (firsts l) i = Some t /\ dt = Doctag (n + i) (list_sum (uses_of l t)) (length (uses_of l t))).
  { intros t dt HI. apply In_dget in HI; [|exact ND]. assert (Ht : In t (firsts l)) by (rewrite <- Hk; apply dget_Some_key; eauto).
    apply In_nth_error in Ht. destruct Ht as [i Hi]. exists i. split; [exact Hi|]. rewrite (Hl i t Hi) in HI. congruence. }
  assert (NDi : NoDup (map (fun p : pystr * doctag => t_index (snd p)) lookup)).
  { assert (X : NoDup lookup) by (eapply NoDup_map_inv; exact ND). assert (Inj : forall p q, In p lookup -> In q lookup -> t_index (snd p) = t_index (snd q) -> p = q).
    { intros [t dt] [t' dt'] H1 H2 E. cbn [snd] in E. destruct (Hin _ _ H1) as (i & I1 & ->). destruct (Hin _ _ H2) as (j & J1 & ->). cbn in E. assert (i = j) by lia. subst j. congruence. }
    clear -X Inj. induction X as [|p L N X IH]; [constructor|]. cbn [map]. constructor.
    - intros HI. apply in_map_iff in HI. destruct HI as (q & Eq & Hq). apply N. rewrite (Inj p q); [exact Hq | now left | now right | congruence].
    - apply IH. intros; apply Inj; auto; now right. }
  destruct (store_ok lookup (Dv (slots n (firsts l)) (dv_index m) (dv_words m) (dv_docs m) (dv_vectors m)) ND) as (A & B & C & D); [|exact NDi|].
  { intros t dt HI. destruct (Hin _ _ HI) as (i & I1 & ->). cbn [t_index dv_keys]. rewrite Len. assert (i < length (firsts l)) by (apply nth_error_Some; congruence). lia. }
  cbn zeta in A, B, C, D. set (m' := fold_left store_tag lookup _) in *. cbn [dv_keys dv_vectors dv_index] in A, B, C, D.
  assert (GetS : forall i t, nth_error (firsts l) i = Some t -> dget (dv_index m') t = Some (n + i)) by (intros i t Hi; rewrite C, (Hl i t Hi); reflexivity).
  split; [exact Hn|]. split; [exact A|]. split.
  { rewrite A. unfold slots. apply NoDup_app_intro.
    - apply FinFun.Injective_map_NoDup; [|apply seq_NoDup]. intros x y E. injection E as E. lia.
    - apply FinFun.Injective_map_NoDup; [|apply firsts_nodup]. intros x y E. congruence.
    - intros k H1 H2. apply in_map_iff in H1, H2. destruct H1 as (x & <- & _), H2 as (y & Ey & _). discriminate. }
  split.
  { intros [t|z] w HI U.
    - assert (Ht : In t (firsts l)) by (apply firsts_in; eauto). apply In_nth_error in Ht. destruct Ht as [i Hi].
      exists (n + i). cbn [dv_get]. split; [apply GetS; exact Hi|]. rewrite A. unfold slots. rewrite nth_error_app2; rewrite map_length, seq_length; [|lia].
      replace (n + i - n) with i by lia. now apply map_nth_error.
    - cbn [usable] in U. destruct Hn as [H1 _]. specialize (H1 z w HI). exists (Z.to_nat z). cbn [dv_get]. rewrite A, Len. split.
      + rewrite (proj2 (Z.leb_le 0 z)) by lia. rewrite (proj2 (Z.ltb_lt _ _)) by lia. reflexivity.
      + unfold slots. rewrite nth_error_app1 by (rewrite map_length, seq_length; lia).
        assert (Es : nth_error (seq 0 n) (Z.to_nat z) = Some (Z.to_nat z)).
        { rewrite (nth_error_nth' _ 0) by (rewrite seq_length; lia). f_equal. rewrite seq_nth by lia. reflexivity. }
        rewrite (map_nth_error _ _ _ Es). do 2 f_equal. lia. }
  split.
  { intros z Hz. cbn [dv_get]. rewrite (proj2 (Z.leb_gt 0 z)) by exact Hz. reflexivity. }
  split.
  { intros t w HI. assert (Ht : In t (firsts l)) by (apply firsts_in; eauto). apply In_nth_error in Ht. destruct Ht as [i Hi].
    unfold get_attr. cbn [dv_get]. rewrite (GetS i t Hi). destruct (D t (Doctag (n + i) (list_sum (uses_of l t)) (length (uses_of l t)))) as (ws & ds & X1 & X2 & _ & _ & X5 & X6).
    - apply dget_In. apply Hl. exact Hi.
    - cbn [t_index t_words t_docs] in X5, X6. rewrite X1, X2, X5, X6. split; reflexivity. }
  split; [|exact B].
  intros t NI. cbn [dv_get]. rewrite C. assert (G : dget lookup t = None) by (apply dget_None; rewrite Hk; exact NI). rewrite G. reflexivity.
Qed.
End Store.
Print Assumptions scan_tags_exact.

(** ** Building the vocabulary, and the tags trained with a document *)
Section Build.
Context {V : Type}.
Variable random_row : nat -> V.
Notation dvs := (dvs V).
Lemma indexes_ok : forall (m : dvs) tags, (forall k, In k tags -> usable k -> exists i, dv_get m k = Some i /\ nth_error (dv_keys m) i = Some k) ->
  (forall z, (z < 0)%Z -> dv_get m (KInt z) = None) ->
  Forall2 (fun i k => nth_error (dv_keys m) i = Some k) (doctag_indexes m tags) (usable_tags tags).
Proof.
  intros m tags H N. induction tags as [|k tags IH]; [constructor|]. cbn [doctag_indexes usable_tags].
  assert (IH' := IH (fun k' Hk => H k' (or_intror Hk))). destruct k as [t|z].
  - destruct (H (KStr t) (or_introl eq_refl) Logic.I) as (i & -> & Hi). constructor; assumption.
  - destruct (Z.leb_spec 0 z) as [L|L].
    + destruct (H (KInt z) (or_introl eq_refl) L) as (i & -> & Hi). constructor; assumption.
    + rewrite (N z L). exact IH'.
Qed.
Lemma uses_in : forall docs d k, In d docs -> In k (d_tags d) -> In (k, length (d_words d)) (uses docs).
Proof. intros docs d k Hd Hk. unfold uses. apply in_flat_map. exists d. split; [exact Hd|]. apply in_map_iff. eauto. Qed.

(** Building from a corpus, on a model with no more document vectors than the corpus has slots (so on a new model): every
    usable tag of every document is trained, at its own slot, and every slot has a vector. *)
Theorem tags_built : forall (m : dvs) docs, length (dv_vectors m) <= length (dv_keys (store_tags m (scan_tags docs))) -> exists m',
  dv_build random_row m docs false = Ok m' /\ length (dv_vectors m') = length (dv_keys m') /\ NoDup (dv_keys m') /\
  (forall d, In d docs -> Forall2 (fun i k => nth_error (dv_keys m') i = Some k) (doctag_indexes m' (d_tags d)) (usable_tags (d_tags d))) /\
  (forall d i, In d docs -> In i (doctag_indexes m' (d_tags d)) -> i < length (dv_vectors m')).
Proof.
  intros m docs L. destruct (scan_tags_exact m docs) as (n & A & B & C & D & E & _ & _ & F). cbn zeta in *.
  set (m1 := store_tags m (scan_tags docs)) in *. unfold dv_build. fold m1. unfold dv_resize.
  assert (P : exists vs, prep_vectors random_row (length (dv_keys m1)) (dv_vectors m1) = Ok vs /\ length vs = length (dv_keys m1)).
  { unfold prep_vectors. rewrite F. destruct (Nat.eqb_spec (length (dv_vectors m)) (length (dv_keys m1))) as [Q|Q]; [eauto|].
    rewrite (proj2 (Nat.ltb_lt _ _)) by lia. eexists. split; [reflexivity|]. rewrite app_length, map_length, seq_length. lia. }
  destruct P as (vs & -> & Lv). cbn [rbind]. eexists. split; [reflexivity|]. cbn [dv_vectors dv_keys]. split; [exact Lv|]. split; [exact C|].
  assert (X : forall d, In d docs -> Forall2 (fun i k => nth_error (dv_keys m1) i = Some k) (doctag_indexes m1 (d_tags d)) (usable_tags (d_tags d))).
  { intros d Hd. apply indexes_ok; [|exact E]. intros k Hk U. eapply D; [|exact U]. eapply uses_in; eauto. }
  assert (Same : forall tags ws ds, doctag_indexes (Dv (dv_keys m1) (dv_index m1) ws ds vs) tags = doctag_indexes m1 tags).
  { intros tags ws ds. induction tags as [|k tags IH]; [reflexivity|]. cbn [doctag_indexes]. assert (G : dv_get (Dv (dv_keys m1) (dv_index m1) ws ds vs) k = dv_get m1 k) by (destruct k; reflexivity). rewrite G, IH. reflexivity. }
  split; intros d; rewrite Same; [apply X|]. intros i Hd Hi. rewrite Lv. specialize (X d Hd). clear -X Hi. induction X as [|a k l l' H X IH]; [destruct Hi|].
  destruct Hi as [<-|Hi]; [apply nth_error_Some; congruence | auto].
Qed.
(** With [update] the slots are those of the new corpus alone and the vectors stay as they are, in number and in order. *)
Theorem tags_updated : forall (m : dvs) docs, exists m',
  dv_build random_row m docs true = Ok m' /\ dv_vectors m' = dv_vectors m /\
  (forall d, In d docs -> Forall2 (fun i k => nth_error (dv_keys m') i = Some k) (doctag_indexes m' (d_tags d)) (usable_tags (d_tags d))) /\
  (exists n, int_slots (uses docs) n /\ dv_keys m' = slots n (firsts (uses docs))).
Proof.
  intros m docs. destruct (scan_tags_exact m docs) as (n & A & B & C & D & E & _ & _ & F). cbn zeta in *.
  eexists. split; [reflexivity|]. split; [exact F|]. split; [|eauto]. intros d Hd. apply indexes_ok; [|exact E]. intros k Hk U. eapply D; [|exact U]. eapply uses_in; eauto.
Qed.
(** A vocabulary made from word frequencies knows no tags: no document vector is trained. *)
Theorem from_freq_no_tags : forall tags m', dv_from_freq random_row dv_new false = Ok m' -> doctag_indexes m' tags = [].
Proof.
  intros tags m' H. cbn in H. injection H as <-. induction tags as [|k tags IH]; [reflexivity|]. destruct k as [t|z]; cbn [doctag_indexes dv_get dv_index dv_keys length]; [exact IH|].
  destruct (Z.leb_spec 0 z), (Z.ltb_spec z (Z.of_nat 0)); cbn [andb]; try exact IH; lia.
Qed.
End Build.
Print Assumptions tags_built.
Print Assumptions tags_updated.
Print Assumptions from_freq_no_tags.

(** Word counts, totals and the number of documents are those of Word2Vec on the words. *)
Theorem scan_docs_counts : forall {V} (m : dvs V) docs maxv rule, exists raw,
  scan_docs m docs maxv rule = Ok (raw, length (concat (map d_words docs)), length docs, store_tags m (scan_tags docs)) /\
  (maxv = None -> forall w, dget raw w = match occurrences (map d_words docs) w with 0 => None | n => Some n end).
Proof.
  intros V m docs maxv rule. destruct (scan_vocab_counts (map d_words docs) maxv rule) as (raw & A & _ & _ & B). exists raw. unfold scan_docs. rewrite A. cbn [rbind].
  rewrite map_length. split; [reflexivity|]. intros ->. exact B.
Qed.
Print Assumptions scan_docs_counts.

(** ** Examples and violations *)
Definition t_row (i : nat) : Z := Z.of_nat (100 + i).
Definition S_ (s : String.string) : key := KStr (str s).
Definition ex_docs : list document := [Doc [str "x"; str "y"] [S_ "a"; KInt 1]; Doc [str "x"] [S_ "b"; S_ "a"; KInt (-3)]].
Example tags_ex : exists m, dv_build t_row dv_new ex_docs false = Ok m /\ dv_keys m = [KInt 0; KInt 1; S_ "a"; S_ "b"] /\
  map (fun d => doctag_indexes m (d_tags d)) ex_docs = [[2; 1]; [3; 2]] /\
  get_attr m dv_words (S_ "a") = Ok 3%Z /\ get_attr m dv_docs (S_ "a") = Ok 2%Z /\ dv_vectors m = [100; 101; 102; 103]%Z.
Proof. eexists. split; [vm_compute; reflexivity|]. vm_compute. repeat split; reflexivity. Qed.

(** Updating with new tags gives them slots beyond the vectors, *)
Theorem update_tags_refuted : exists docs docs' m m' d i, dv_build t_row dv_new docs false = Ok m /\ dv_build t_row m docs' true = Ok m' /\
  In d docs' /\ In i (doctag_indexes m' (d_tags d)) /\ length (dv_vectors m') <= i.
Proof.
  exists [Doc [] [S_ "a"]], [Doc [] [S_ "a"]; Doc [] [S_ "b"]]. do 2 eexists. exists (Doc [] [S_ "b"]), 1.
  split; [vm_compute; reflexivity|]. split; [vm_compute; reflexivity|]. vm_compute. auto.
Qed.
(** or the vectors of the old tags, *)
Theorem update_takes_over_refuted : exists docs docs' m m', dv_build t_row dv_new docs false = Ok m /\ dv_build t_row m docs' true = Ok m' /\
  doctag_indexes m [S_ "a"] = [0] /\ doctag_indexes m' [S_ "b"] = [0] /\ nth_error (dv_vectors m') 0 = nth_error (dv_vectors m) 0.
Proof. exists [Doc [] [S_ "a"]], [Doc [] [S_ "b"]]. do 2 eexists. split; [vm_compute; reflexivity|]. split; [vm_compute; reflexivity|]. vm_compute. auto. Qed.
(** while the old tags are still found: at the slot of another tag, *)
Theorem stale_tag_refuted : exists docs docs' m m', dv_build t_row dv_new docs false = Ok m /\ dv_build t_row m docs' false = Ok m' /\
  doctag_indexes m' [S_ "a"] = doctag_indexes m' [S_ "b"] /\ doctag_indexes m' [S_ "a"] = [0] /\ dv_keys m' = [S_ "b"].
Proof. exists [Doc [] [S_ "a"]], [Doc [] [S_ "b"]]. do 2 eexists. split; [vm_compute; reflexivity|]. split; [vm_compute; reflexivity|]. vm_compute. auto. Qed.
(** or at none at all. *)
Theorem stale_tag_outside_refuted : exists docs docs' m m', dv_build t_row dv_new docs false = Ok m /\ dv_build t_row m docs' true = Ok m' /\
  doctag_indexes m' [S_ "b"] = [1] /\ length (dv_keys m') = 1.
Proof. exists [Doc [] [S_ "a"; S_ "b"]], [Doc [] [S_ "c"]]. do 2 eexists. split; [vm_compute; reflexivity|]. split; [vm_compute; reflexivity|]. vm_compute. auto. Qed.
(** Building anew with fewer tags is a ValueError; with as many or more the trained vectors stay. *)
Theorem rebuild_fewer_tags_refuted : exists docs docs' m, dv_build t_row dv_new docs false = Ok m /\ dv_build t_row m docs' false = Err ValueError.
Proof. exists [Doc [] [S_ "a"; S_ "b"]], [Doc [] [S_ "c"]]. eexists. split; [vm_compute; reflexivity|]. vm_compute. reflexivity. Qed.
(** An integer that is not a tag is answered with the vector of a string. *)
Theorem unused_integer_refuted : exists docs m, dv_build t_row dv_new docs false = Ok m /\ ~ In (KInt 0) (dv_keys m) /\ doctag_indexes m [KInt 0] = doctag_indexes m [S_ "a"].
Proof.
  exists [Doc [] [S_ "a"]]. eexists. split; [vm_compute; reflexivity|]. split; [|vm_compute; reflexivity].
  vm_compute. intros [H|[]]. discriminate.
Qed.
(** A tag given twice to one document counts it twice. *)
Theorem doc_count_twice_refuted : exists docs m, length docs = 1 /\ dv_build t_row dv_new docs false = Ok m /\ get_attr m dv_docs (S_ "a") = Ok 2%Z /\ doctag_indexes m (d_tags (hd (Doc [] []) docs)) = [0; 0].
Proof. exists [Doc [str "x"] [S_ "a"; S_ "a"]]. eexists. split; [reflexivity|]. split; [vm_compute; reflexivity|]. vm_compute. auto. Qed.
Print Assumptions update_tags_refuted.
Print Assumptions update_takes_over_refuted.
Print Assumptions stale_tag_refuted.
Print Assumptions stale_tag_outside_refuted.
Print Assumptions rebuild_fewer_tags_refuted.
Print Assumptions unused_integer_refuted.
Print Assumptions doc_count_twice_refuted.
