(** Proofs about sparse-matrix conversion. *)

From Verif Require Import Base Matutils_Model.
From Coq Require Import QArith Qabs Qminmax.
Local Open Scope nat_scope.

(** ** corpus2csc *)

Section CscProofs.
  Context {W : Type}.
  Notation doc := (list (nat * W)).

  Fixpoint total (c : list doc) : nat := match c with [] => 0 | d :: c' => length d + total c' end.
  Fixpoint offs (pos : nat) (c : list doc) : list nat :=
    match c with [] => [] | d :: c' => (pos + length d) :: offs (pos + length d) c' end.
  Definition all_ids (c : list doc) : list nat := concat (map (map fst) c).
  Definition all_ws (c : list doc) : list W := concat (map (map snd) c).

  Lemma length_all_ids : forall c, length (all_ids c) = total c.
  Proof. induction c as [|d c IH]; cbn [all_ids map concat total]; [reflexivity|]. rewrite app_length, map_length. unfold all_ids in IH. lia. Qed.
  Lemma length_all_ws : forall c, length (all_ws c) = total c.
  Proof. induction c as [|d c IH]; cbn [all_ws map concat total]; [reflexivity|]. rewrite app_length, map_length. unfold all_ws in IH. lia. Qed.
  Lemma length_offs : forall c pos, length (offs pos c) = length c.
  Proof. induction c; cbn; intros; auto. Qed.
  Lemma last_offs : forall c pos, last (pos :: offs pos c) 0 = pos + total c.
  Proof.
    induction c as [|d c IH]; intros pos; [cbn; lia|].
    change (last (pos :: offs pos (d :: c)) 0) with (last ((pos + length d) :: offs (pos + length d) c) 0).
    rewrite IH. cbn [total]. lia.
  Qed.

  Lemma slow_fold : forall c nnz data indices indptr,
    fold_left slow_step c (nnz, data, indices, indptr)
    = (nnz + total c, data ++ all_ws c, indices ++ all_ids c, indptr ++ offs nnz c).
  Proof.
    induction c as [|d c IH]; intros; cbn [fold_left].
    - cbn. rewrite !app_nil_r, Nat.add_0_r. reflexivity.
    - unfold slow_step at 2. rewrite IH. cbn [total offs]. unfold all_ws, all_ids. cbn [map concat].
      rewrite <- !app_assoc, Nat.add_assoc. reflexivity.
  Qed.

  Definition the_csc (c : list doc) (rows : nat) : @csc W :=
    mkCsc (all_ws c) (all_ids c) (0 :: offs 0 c) rows (length c).

  Lemma csc_make_ok : forall c rows,
    csc_make (all_ws c) (all_ids c) (0 :: offs 0 c) rows (length c) = Ok (the_csc c rows).
  Proof.
    intros. unfold csc_make. cbn [length]. rewrite length_offs, Nat.add_1_r, Nat.eqb_refl. cbn [negb].
    rewrite length_all_ws, length_all_ids, Nat.eqb_refl. cbn [negb]. rewrite last_offs.
    cbn [Nat.add]. rewrite Nat.ltb_irrefl. reflexivity.
  Qed.

  Definition terms_of (c : list doc) (nt : option nat) : nat :=
    match nt with Some t => t | None => match all_ids c with [] => 0 | _ => list_max (all_ids c) + 1 end end.

  Lemma corpus2csc_slow_eq : forall c nt, corpus2csc_slow c nt = Ok (the_csc c (terms_of c nt)).
  Proof.
    intros. unfold corpus2csc_slow. rewrite slow_fold. cbn [app Nat.add].
    cbn [length]. rewrite length_offs. replace (S (length c) - 1) with (length c) by lia.
    apply csc_make_ok.
  Qed.

  Lemma slice_mid : forall {B : Type} (p m s : list B) a b, length p = a -> b = a + length m ->
    slice (p ++ m ++ s) a b = m.
  Proof.
    intros B p m s a b La ->. unfold slice. replace (a + length m - a) with (length m) by lia.
    rewrite skipn_app, skipn_all2 by lia. replace (a - length p) with 0 by lia. cbn [skipn app].
    rewrite firstn_app, Nat.sub_diag, firstn_all. cbn. apply app_nil_r.
  Qed.

  Lemma combine_fst_snd : forall {X Y} (l : list (X * Y)), combine (map fst l) (map snd l) = l.
  Proof. induction l as [|[x y] l IH]; cbn; [|rewrite IH]; reflexivity. Qed.

  Lemma iter_offs : forall c pi pd pos, length pi = pos -> length pd = pos ->
    map (fun pn => combine (slice (pi ++ all_ids c) (fst pn) (snd pn)) (slice (pd ++ all_ws c) (fst pn) (snd pn)))
        (combine (pos :: offs pos c) (offs pos c)) = c.
  Proof.
    induction c as [|d c IH]; intros pi pd pos Li Ld; [reflexivity|].
    cbn [offs combine map fst snd]. f_equal.
    - unfold all_ids, all_ws. cbn [map concat]. rewrite !slice_mid by (rewrite ?map_length; auto; lia).
      apply combine_fst_snd.
    - unfold all_ids, all_ws. cbn [map concat]. fold (all_ids c). fold (all_ws c).
      rewrite !app_assoc. apply IH; rewrite app_length, map_length; lia.
  Qed.

  Lemma the_csc_iter : forall c rows, sparse2corpus_iter (the_csc c rows) = c.
  Proof. intros. exact (iter_offs c [] [] 0 eq_refl eq_refl). Qed.

  Lemma nth_slice_iter : forall (m : @csc W) i, S i < length (csc_indptr m) ->
    nth_error (sparse2corpus_iter m) i
    = Some (combine (slice (csc_indices m) (nth i (csc_indptr m) 0) (nth (S i) (csc_indptr m) 0))
                    (slice (csc_data m) (nth i (csc_indptr m) 0) (nth (S i) (csc_indptr m) 0))).
  Proof.
    intros m i Hi. unfold sparse2corpus_iter.
    set (f := fun pn : nat * nat => combine _ _).
    assert (E : nth_error (combine (csc_indptr m) (tl (csc_indptr m))) i
                = Some (nth i (csc_indptr m) 0, nth (S i) (csc_indptr m) 0)).
    { revert i Hi. generalize (csc_indptr m) as l. clear. induction l as [|a l IH]; intros i Hi; cbn in Hi; [lia|].
      destruct l as [|b l]; [cbn in Hi; lia|]. destruct i as [|i]; [reflexivity|].
      change (nth_error (combine (b :: l) (tl (b :: l))) i = Some (nth i (b :: l) 0, nth (S i) (b :: l) 0)).
      apply IH. cbn in *; lia. }
    rewrite nth_error_map, E. reflexivity.
  Qed.

  Lemma the_csc_getitem : forall c rows i d, nth_error c i = Some d ->
    sparse2corpus_getitem (the_csc c rows) (Z.of_nat i) = Ok d.
  Proof.
    intros c rows i d E. assert (Hi : i < length c) by (apply nth_error_Some; congruence).
    pose proof (nth_slice_iter (the_csc c rows) i) as N. rewrite the_csc_iter, E in N.
    assert (L : length (csc_indptr (the_csc c rows)) = S (length c)) by (cbn; rewrite length_offs; reflexivity).
    rewrite L in N. specialize (N ltac:(lia)). injection N as N.
    unfold sparse2corpus_getitem, np_index. rewrite L.
    destruct (Z.of_nat i <? 0)%Z eqn:?; [lia|]. destruct (Z.of_nat (S (length c)) <=? Z.of_nat i)%Z eqn:?; [lia|].
    cbn [rbind]. destruct (Z.of_nat i + 1 <? 0)%Z eqn:?; [lia|].
    destruct (Z.of_nat (S (length c)) <=? Z.of_nat i + 1)%Z eqn:?; [lia|]. cbn [rbind].
    rewrite Nat2Z.id. replace (Z.to_nat (Z.of_nat i + 1)) with (S i) by lia. rewrite N. reflexivity.
  Qed.

  (** ** fast path *)
  Lemma slice_assign_ok : forall {B : Type} (p j vals : list B) a b, length p = a -> b = a + length vals ->
    length vals <= length j -> slice_assign (p ++ j) a b vals = Ok ((p ++ vals) ++ skipn (length vals) j).
  Proof.
    intros B p j vals a b La -> Hl. unfold slice_assign. rewrite app_length, !Nat.min_l by lia.
    replace (a + length vals - a) with (length vals) by lia. rewrite Nat.eqb_refl.
    rewrite firstn_app, firstn_all2 by lia. replace (a - length p) with 0 by lia. cbn [firstn]. rewrite app_nil_r.
    rewrite skipn_app, skipn_all2 by lia. replace (a + length vals - length p) with (length vals) by lia.
    rewrite <- app_assoc. reflexivity.
  Qed.

  Lemma fast_fold : forall c pos P pi pd ji jd, length pi = pos -> length pd = pos ->
    total c <= length ji -> total c <= length jd ->
    rfold fast_step c (mkFast pos P (pi ++ ji) (pd ++ jd))
    = Ok (mkFast (pos + total c) (P ++ offs pos c) ((pi ++ all_ids c) ++ skipn (total c) ji)
                 ((pd ++ all_ws c) ++ skipn (total c) jd)).
  Proof.
    induction c as [|d c IH]; intros pos P pi pd ji jd Li Ld Ti Td.
    - cbn. rewrite !app_nil_r, Nat.add_0_r. reflexivity.
    - cbn [rfold]. unfold fast_step. cbn [f_pos f_indptr f_indices f_data].
      cbn [total] in Ti, Td.
      rewrite slice_assign_ok by (rewrite ?map_length; auto; lia). cbn [rbind].
      rewrite slice_assign_ok by (rewrite ?map_length; auto; lia). cbn [rbind].
      rewrite !map_length.
      rewrite (IH (pos + length d)) by (rewrite ?app_length, ?map_length, ?skipn_length; lia).
      cbn [total offs]. unfold all_ids, all_ws. cbn [map concat]. rewrite <- !app_assoc, Nat.add_assoc.
      assert (SK : forall (B : Type) (j : list B), skipn (total c) (skipn (length d) j) = skipn (length d + total c) j).
      { intros B j. generalize (length d) as n. intros n. revert j. induction n as [|n IHn]; intros j; [reflexivity|].
        destruct j as [|x j]; [cbn; apply skipn_nil | apply IHn]. }
      rewrite !SK. reflexivity.
  Qed.

  Lemma corpus2csc_fast_eq : forall ji jd c nt, length ji = total c -> length jd = total c ->
    corpus2csc_fast ji jd c nt (length c) (total c) = Ok (the_csc c nt).
  Proof.
    intros ji jd c nt Li Ld. unfold corpus2csc_fast.
    pose proof (fast_fold c 0 [0] [] [] ji jd eq_refl eq_refl) as F.
    cbn [app Nat.add] in F. rewrite F by lia. cbn [rbind f_pos f_data f_indices f_indptr].
    rewrite Nat.eqb_refl, !skipn_all2, !app_nil_r by lia. apply csc_make_ok.
  Qed.

  Lemma fast_fold_inv : forall c s s', rfold fast_step c s = Ok s' ->
    f_pos s' = f_pos s + total c /\ length (f_indptr s') = length (f_indptr s) + length c.
  Proof.
    induction c as [|d c IH]; intros s s' E; cbn [rfold] in E.
    - injection E as <-. cbn. lia.
    - destruct (fast_step s d) as [s1|e] eqn:E1; cbn [rbind] in E; [|discriminate].
      apply IH in E. destruct E as [E2 E3]. unfold fast_step in E1.
      destruct (slice_assign (f_indices s) _ _ _) as [i|]; cbn [rbind] in E1; [|discriminate].
      destruct (slice_assign (f_data s) _ _ _) as [dd|]; cbn [rbind] in E1; [|discriminate].
      injection E1 as <-. cbn [f_pos f_indptr] in *. rewrite app_length in E3. cbn [total length] in *. lia.
  Qed.

  Lemma corpus2csc_fast_ok_inv : forall ji jd c nt nd nnz m, corpus2csc_fast ji jd c nt nd nnz = Ok m ->
    nnz = total c /\ nd = length c.
  Proof.
    intros ji jd c nt nd nnz m E. unfold corpus2csc_fast in E.
    destruct (rfold fast_step c _) as [s|] eqn:F; cbn [rbind] in E; [|discriminate].
    apply fast_fold_inv in F. cbn [f_pos f_indptr length] in F. destruct F as [F1 F2].
    destruct (f_pos s =? nnz) eqn:P; [|discriminate]. apply Nat.eqb_eq in P. split; [lia|].
    unfold csc_make in E. destruct (length (f_indptr s) =? nd + 1) eqn:L; [|discriminate].
    apply Nat.eqb_eq in L. lia.
  Qed.
End CscProofs.

(** Entries. *)
Lemma fold_left_acc : forall (f : nat -> Q) (p : nat -> bool) l acc,
  (fold_left (fun acc k => if p k then acc + f k else acc) l acc
   == acc + fold_left (fun acc k => if p k then acc + f k else acc) l 0)%Q.
Proof.
  intros f p. induction l as [|k l IH]; intros acc; cbn [fold_left]; [ring|].
  destruct (p k).
  - rewrite IH, (IH (0 + f k)%Q). ring.
  - apply IH.
Qed.

Lemma entry_slice : forall (is : list nat) (ws : list Q) row a n, length is = length ws -> a + n <= length is ->
  (fold_left (fun acc k => if (nth k is 0 =? row)%nat then acc + nth k ws 0 else acc) (seq a n) 0
   == Qsum (map snd (filter (fun iw => (fst iw =? row)%nat) (combine (firstn n (skipn a is)) (firstn n (skipn a ws))))))%Q.
Proof.
  intros is ws row a n L. revert a. induction n as [|n IH]; intros a Hn; [reflexivity|].
  cbn [seq fold_left].
  assert (SK : forall (B : Type) (dflt : B) (l : list B) k, k < length l -> skipn k l = nth k l dflt :: skipn (S k) l).
  { clear. intros B dflt. induction l as [|x l IH]; intros k Hk; [cbn in Hk; lia|]. destruct k; [reflexivity|].
    cbn [skipn nth]. rewrite IH by (cbn in Hk; lia). reflexivity. }
  rewrite (SK _ 0%nat is a), (SK _ 0%Q ws a) by lia.
  cbn [firstn combine filter fst].
  rewrite (fold_left_acc (fun k => nth k ws 0%Q) (fun k => nth k is 0%nat =? row)).
  rewrite (IH (S a)) by lia.
  destruct (nth a is 0%nat =? row); unfold Qsum; cbn [map snd fold_right]; ring.
Qed.

Lemma the_csc_entry : forall c rows row col d, nth_error c col = Some d ->
  (csc_entry (the_csc c rows) row col == Qsum (map snd (filter (fun iw => (fst iw =? row)%nat) d)))%Q.
Proof.
  intros c rows row col d E. assert (Hi : col < length c) by (apply nth_error_Some; congruence).
  pose proof (nth_slice_iter (the_csc c rows) col) as N. rewrite the_csc_iter, E in N.
  assert (L : length (csc_indptr (the_csc c rows)) = S (length c)) by (cbn; rewrite length_offs; reflexivity).
  rewrite L in N. specialize (N ltac:(lia)). injection N as N. unfold csc_entry.
  assert (B : nth (S col) (csc_indptr (the_csc c rows)) 0 <= length (csc_indices (the_csc c rows))
              /\ nth col (csc_indptr (the_csc c rows)) 0 <= nth (S col) (csc_indptr (the_csc c rows)) 0).
  { cbn [the_csc csc_indptr csc_indices]. rewrite length_all_ids.
    assert (G : forall (c : list (list (nat * Q))) pos col, col < length c ->
       nth (S col) (pos :: offs pos c) 0 <= pos + total c /\ nth col (pos :: offs pos c) 0 <= nth (S col) (pos :: offs pos c) 0).
    { clear. induction c as [|d c IH]; intros pos col Hc; [cbn in Hc; lia|].
      destruct col as [|col].
      - cbn [offs nth total]. lia.
      - cbn [offs total]. specialize (IH (pos + length d) col). cbn [length] in Hc.
        change (nth (S (S col)) (pos :: (pos + length d) :: offs (pos + length d) c) 0) with (nth (S col) ((pos + length d) :: offs (pos + length d) c) 0).
        change (nth (S col) (pos :: (pos + length d) :: offs (pos + length d) c) 0) with (nth col ((pos + length d) :: offs (pos + length d) c) 0).
        destruct IH; [lia|]. split; [lia|assumption]. }
    apply (G c 0 col Hi). }
  destruct B as [B1 B2]. rewrite entry_slice.
  - rewrite N. unfold slice. reflexivity.
  - cbn. rewrite length_all_ids, length_all_ws. reflexivity.
  - lia.
Qed.
