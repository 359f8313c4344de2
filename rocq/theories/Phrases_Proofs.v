(** Proofs about models/phrases.py. *)
From Coq Require Import List Arith Lia Bool ZArith NArith QArith Permutation.
From Verif Require Import Base Str Utils_Model Utils_Proofs Phrases_Model Phrases_Spec.
Import ListNotations.
Close Scope Q_scope.
Local Open Scope nat_scope.

(** ** Segmentation *)
Section Analyze.
  Context {St : Type}.
  Variable cw : list pystr.
  Variable sc : St -> pystr -> pystr -> list pystr -> St * option (pystr * score).
  Let conn w := In w cw.

  Lemma shown_singles l : map shown (map (@single score) l) = map plain l.
  Proof. induction l as [|a l IH]; [reflexivity|]. cbn [map]. rewrite IH. reflexivity. Qed.

  Lemma analyze_parse_aux : forall s st start mid,
    Forall (fun w => conn w \/ w <> []) s -> Forall conn mid ->
    (start = None -> mid = []) -> (forall a, start = Some a -> ~ conn a /\ a <> []) ->
    exists st' g,
      parse conn sc st (match start with Some a => a :: mid ++ s | None => s end) st' g /\
      analyze cw sc st start mid s = (st', map shown g).
  Proof.
    induction s as [|w s IH]; intros st start mid F M HN HS.
    - destruct start as [a|].
      + destruct (HS a eq_refl) as [Ha Hne]. exists st, (map single (a :: mid)). split.
        * rewrite app_nil_r. apply P_tail; auto.
        * simpl. destruct a as [|c a]; [congruence|]. simpl. rewrite shown_singles. reflexivity.
      + exists st, []. split; [constructor|reflexivity].
    - inversion F as [|? ? Hw F']; subst. cbn [analyze].
      destruct (memb w cw) eqn:E; cbn [negb].
      + apply memb_true in E. destruct start as [a|].
        * destruct (HS a eq_refl) as [Ha Hne]. destruct a as [|c a]; [congruence|]. cbn [truthy].
          destruct (IH st (Some (c :: a)) (mid ++ [w]) F') as (st' & g & P & Q); auto.
          { apply Forall_app. auto. }
          { discriminate. }
          exists st', g. split; [|exact Q]. rewrite <- app_assoc in P. exact P.
        * cbn [truthy]. rewrite (HN eq_refl) in *. destruct (IH st None [] F') as (st' & g & P & Q); auto.
          rewrite Q. exists st', (single w :: g). split; [|reflexivity]. constructor; auto.
      + apply memb_false in E. assert (Wn : w <> []) by (destruct Hw; tauto).
        destruct start as [a|].
        * destruct (HS a eq_refl) as [Ha Hne]. destruct a as [|c a]; [congruence|]. cbn [truthy].
          destruct (sc st (c :: a) w mid) as [st1 [[ph s1]|]] eqn:J.
          -- destruct (IH st1 None [] F') as (st' & g & P & Q); auto; try discriminate.
             rewrite Q. exists st', (((c :: a) :: mid ++ [w], Some (ph, s1)) :: g). split; [|reflexivity].
             eapply P_join; eauto.
          -- destruct (IH st1 (Some w) [] F') as (st' & g & P & Q); auto; try discriminate.
             { intros a' Ea. injection Ea as <-. auto. }
             rewrite Q. exists st', (map single ((c :: a) :: mid) ++ g). split.
             ++ eapply P_split; eauto.
             ++ rewrite map_app, shown_singles. reflexivity.
        * cbn [truthy]. destruct (IH st (Some w) [] F') as (st' & g & P & Q); auto; try discriminate.
          { intros a' Ea. injection Ea as <-. auto. }
          exists st', g. split; [|exact Q]. exact P.
  Qed.

  Lemma parse_cover st s st' g : parse conn sc st s st' g -> concat (map fst g) = s.
  Proof.
    assert (S1 : forall l : list pystr, concat (map fst (map (@single score) l)) = l).
    { induction l; simpl; congruence. }
    induction 1; simpl; auto.
    - rewrite IHparse. reflexivity.
    - rewrite S1. reflexivity.
    - rewrite IHparse, <- app_assoc. reflexivity.
    - rewrite map_app, concat_app, S1. f_equal. f_equal. exact IHparse.
  Qed.

  Definition seg_ok (P : pystr -> pystr -> list pystr -> pystr -> score -> Prop) (g : @seg score) : Prop :=
    match g with
    | (ws, None) => exists w, ws = [w]
    | (ws, Some (name, s)) => exists a mid b, ws = a :: mid ++ [b] /\ ~ conn a /\ ~ conn b /\ Forall conn mid /\ P a b mid name s
    end.
  Lemma parse_segs (P : pystr -> pystr -> list pystr -> pystr -> score -> Prop) :
    (forall st a b mid st' name s, sc st a b mid = (st', Some (name, s)) -> P a b mid name s) ->
    forall st s st' g, parse conn sc st s st' g -> Forall (seg_ok P) g.
  Proof.
    intros HP. assert (S1 : forall l : list pystr, Forall (seg_ok P) (map single l)).
    { induction l; simpl; constructor; auto. simpl. eauto. }
    induction 1; auto.
    - constructor; auto. simpl. eauto.
    - constructor; auto. destruct r as [name s1]. simpl. exists a, mid, b. repeat (split; auto). eapply HP; eauto.
    - apply Forall_app. auto.
  Qed.
End Analyze.

(** ** Splitting a joined phrase *)
Lemma split_aux_word c d w : forall cur s, ~ In c w -> split_aux (c :: d) 0 cur (w ++ s) = split_aux (c :: d) 0 (cur ++ w) s.
Proof.
  induction w as [|x w IH]; intros cur s NI; [rewrite app_nil_r; reflexivity|].
  cbn [app split_aux is_prefix]. destruct (N.eqb_spec c x); [subst; simpl in NI; tauto|]. cbn [andb].
  rewrite IH by (simpl in NI; tauto). rewrite <- app_assoc. reflexivity.
Qed.
Lemma split_aux_skip d x : forall cur s, split_aux d (length x) cur (x ++ s) = split_aux d 0 cur s.
Proof. induction x; intros; simpl; auto. Qed.
Lemma is_prefix_app d s : is_prefix d (d ++ s) = true.
Proof. induction d; simpl; auto. rewrite N.eqb_refl. auto. Qed.
Lemma split_aux_delim c d cur s : split_aux (c :: d) 0 cur ((c :: d) ++ s) = cur :: split_aux (c :: d) 0 [] s.
Proof.
  change ((c :: d) ++ s) with (c :: d ++ s). cbn [split_aux].
  replace (is_prefix (c :: d) (c :: d ++ s)) with true by (symmetry; apply (is_prefix_app (c :: d) s)).
  cbn [length]. rewrite Nat.sub_1_r. cbn [Nat.pred]. rewrite split_aux_skip. reflexivity.
Qed.
Definition parts (d k : pystr) : list pystr := split_aux d 0 [] k.
Lemma parts_join d ws : ws <> [] -> Forall (clean d) ws -> parts d (join d ws) = ws.
Proof.
  intros NE F. destruct d as [|c d].
  { destruct ws; [congruence|]. inversion F; subst. simpl in H1. tauto. }
  unfold parts. induction ws as [|w ws IH]; [congruence|]. inversion F as [|? ? Hw F']; subst. simpl in Hw.
  destruct ws as [|w' ws].
  - cbn [join]. rewrite <- (app_nil_r w) at 1. rewrite split_aux_word by auto. reflexivity.
  - change (join (c :: d) (w :: w' :: ws)) with (w ++ (c :: d) ++ join (c :: d) (w' :: ws)).
    rewrite split_aux_word by auto. rewrite split_aux_delim. rewrite IH by (auto; discriminate). reflexivity.
Qed.
Lemma parts_word d w : clean d w -> parts d w = [w].
Proof. intros H. apply (parts_join d [w]); [discriminate|auto]. Qed.
Lemma join_parts_aux d : forall s skip cur, d <> [] -> skip <= length s ->
  split_aux d skip cur s <> [].
Proof. induction s as [|c s IH]; intros skip cur D L; cbn; [discriminate|]. destruct skip; [|apply IH; simpl in L; auto; lia].
  destruct (is_prefix d (c :: s)); [discriminate|]. apply IH; auto; lia. Qed.

(** ** Counts *)
Definition cnt (v : dict pystr nat) (k : pystr) : nat := dget_or v k 0.

Lemma cnt_incr v k n k' : cnt (incr v k n) k' = cnt v k' + (if eq_dec k k' then n else 0).
Proof.
  unfold cnt, incr, dget_or. rewrite dget_dset. destruct (eq_dec k k'); [subst; reflexivity|lia].
Qed.
Lemma keys_incr v k n k' : In k' (dkeys (incr v k n)) <-> k = k' \/ In k' (dkeys v).
Proof. apply In_dkeys_dset. Qed.
Lemma NoDup_incr v k n : NoDup (dkeys v) -> NoDup (dkeys (incr v k n)).
Proof. apply NoDup_dset. Qed.
Lemma cnt_notin v k : ~ In k (dkeys v) -> cnt v k = 0.
Proof. intros H. apply dget_None in H. unfold cnt, dget_or. rewrite H. reflexivity. Qed.

Lemma cnt_filter v r k : NoDup (dkeys v) ->
  let v' := filter (fun it => keep_vocab_item (fst it) (snd it) r None) v in
  cnt v' k = (if r <=? cnt v k then cnt v k else 0) /\
  (In k (dkeys v') <-> In k (dkeys v) /\ r <= cnt v k).
Proof.
  intros ND v'. assert (N' : NoDup (dkeys v')) by (apply NoDup_dkeys_filter; auto).
  assert (I : forall c, In (k, c) v' <-> In (k, c) v /\ r <= c).
  { intros c. unfold v'. rewrite filter_In. simpl. rewrite Nat.leb_le. tauto. }
  assert (G : dget v' k = match dget v k with Some c => if r <=? c then Some c else None | None => None end).
  { destruct (dget v k) as [c|] eqn:E.
    - destruct (Nat.leb_spec r c).
      + apply dget_iff; auto. apply I. split; [apply dget_In|]; auto.
      + apply dget_None. rewrite <- dget_Some_key. intros [c' E']. apply dget_In, I in E'. destruct E' as [E' L].
        apply (In_dget _ _ _ ND) in E'. rewrite E in E'. injection E' as ->. lia.
    - apply dget_None. rewrite <- dget_Some_key. intros [c' E']. apply dget_In, I in E'. destruct E' as [E' L].
      apply (In_dget _ _ _ ND) in E'. congruence. }
  split.
  - unfold cnt, dget_or. rewrite G. destruct (dget v k) as [c|]; [|destruct (r <=? 0); reflexivity].
    destruct (r <=? c); reflexivity.
  - rewrite <- !dget_Some_key. unfold cnt, dget_or. rewrite G. destruct (dget v k) as [c|].
    + destruct (Nat.leb_spec r c); split; intros H'; try (destruct H' as [? ?]; try discriminate; lia); eauto.
    + split; [intros [? ?]; discriminate|intros [[? ?] _]; discriminate].
Qed.

Lemma fold_incr : forall l d, NoDup (dkeys l) ->
  (NoDup (dkeys d) -> NoDup (dkeys (fold_left (fun d kc => incr d (fst kc) (snd kc)) l d))) /\
  forall k, cnt (fold_left (fun d kc => incr d (fst kc) (snd kc)) l d) k = cnt d k + cnt l k /\
    (In k (dkeys (fold_left (fun d kc => incr d (fst kc) (snd kc)) l d)) <-> In k (dkeys d) \/ In k (dkeys l)).
Proof.
  induction l as [|[k0 c0] l IH]; intros d ND.
  - split; auto. intros k. cbn. split; [unfold cnt; simpl; lia|tauto].
  - change (dkeys ((k0, c0) :: l)) with (k0 :: dkeys l) in ND. inversion ND as [|? ? NI ND']; subst.
    destruct (IH (incr d k0 c0) ND') as [A B]. cbn [fold_left fst snd]. split; [intros; apply A, NoDup_incr; auto|].
    intros k. destruct (B k) as [B1 B2]. rewrite B1, B2, cnt_incr, keys_incr.
    change (In k (dkeys ((k0, c0) :: l))) with (k0 = k \/ In k (dkeys l)). split; [|tauto].
    unfold cnt, dget_or in *. cbn [dget]. destruct (eq_dec k0 k); [subst|lia].
    apply dget_None in NI. rewrite NI. lia.
Qed.

(** ** Exact counts of one sentence *)
Section Learn.
  Variable cw : list pystr.
  Variable d : pystr.

  Definition gain (s : list pystr) (key : pystr) (j : nat) : nat :=
    b2n (word_hit cw s key j) + sum_to j (fun i => b2n (cand_hit cw d s key i j)).

  Lemma sum_zero l (f : nat -> nat) : (forall i, In i l -> f i = 0) -> list_sum_nat (map f l) = 0.
  Proof. induction l; simpl; intros H; [reflexivity|]. rewrite H by auto. rewrite IHl by auto. reflexivity. Qed.
  Lemma sum_single l (f : nat -> nat) p : NoDup l -> In p l -> (forall i, In i l -> i <> p -> f i = 0) ->
    list_sum_nat (map f l) = f p.
  Proof.
    induction l as [|x l IH]; intros ND HI H; [destruct HI|]. inversion ND; subst. simpl. destruct HI as [->|HI].
    - rewrite sum_zero; [lia|]. intros i Hi. apply H; simpl; auto. intros ->; tauto.
    - rewrite IH; auto; [|intros; apply H; simpl; auto]. rewrite (H x); simpl; auto. intros ->; tauto.
  Qed.

  (** What has been read: no normal word yet, or the last normal word and the connectors after it. *)
  Definition at_state (pre : list pystr) (start : option pystr) (mid : list pystr) : Prop :=
    match start with
    | None => Forall (fun w => In w cw) pre
    | Some a => exists p0, pre = p0 ++ a :: mid /\ ~ In a cw /\ Forall (fun w => In w cw) mid
    end.

  Lemma is_normal_at s pre w rest : s = pre ++ w :: rest -> is_normal cw s (length pre) = negb (memb w cw).
  Proof. intros ->. unfold is_normal. rewrite nth_error_app2, Nat.sub_diag by lia. reflexivity. Qed.
  Lemma not_normal_in s i w : nth_error s i = Some w -> In w cw -> is_normal cw s i = false.
  Proof. intros E I. unfold is_normal. rewrite E. apply memb_true in I. rewrite I. reflexivity. Qed.
  Lemma nth_Forall {A} (P : A -> Prop) l i : Forall P l -> i < length l -> exists x, nth_error l i = Some x /\ P x.
  Proof.
    intros F L. destruct (nth_error l i) as [x|] eqn:E; [|apply nth_error_None in E; lia].
    exists x. split; auto. rewrite Forall_forall in F. apply F. eapply nth_error_In; eauto.
  Qed.

  Lemma gain_conn pre w rest key : In w cw -> gain (pre ++ w :: rest) key (length pre) = 0.
  Proof.
    intros I. unfold gain. assert (E : is_normal cw (pre ++ w :: rest) (length pre) = false).
    { rewrite (is_normal_at _ pre w rest eq_refl). apply memb_true in I. rewrite I. reflexivity. }
    unfold word_hit. rewrite E. cbn [andb b2n]. rewrite Nat.add_0_l. apply sum_zero.
    intros i _. unfold cand_hit. rewrite E. rewrite Bool.andb_false_r. reflexivity.
  Qed.

  Lemma gain_normal pre start mid w rest key : at_state pre start mid -> ~ In w cw ->
    gain (pre ++ w :: rest) key (length pre) =
    b2n (eqb w key) + match start with Some a => b2n (eqb (join d (a :: mid ++ [w])) key) | None => 0 end.
  Proof.
    intros A NI. unfold gain. set (s := pre ++ w :: rest).
    assert (E : is_normal cw s (length pre) = true).
    { rewrite (is_normal_at s pre w rest eq_refl). apply memb_false in NI. rewrite NI. reflexivity. }
    f_equal.
    - unfold word_hit. rewrite E. unfold s. rewrite nth_error_app2, Nat.sub_diag by lia. reflexivity.
    - unfold sum_to. destruct start as [a|]; simpl in A.
      + destruct A as (p0 & -> & Na & Fm).
        assert (Es : s = p0 ++ a :: mid ++ w :: rest) by (unfold s; rewrite <- app_assoc; reflexivity).
        assert (Ea : is_normal cw s (length p0) = true).
        { rewrite (is_normal_at _ p0 a (mid ++ w :: rest) Es). apply memb_false in Na. rewrite Na. reflexivity. }
        assert (Em : forall m, length p0 < m -> m < length (p0 ++ a :: mid) -> is_normal cw s m = false).
        { intros m L1 L2. rewrite app_length in L2. cbn [length] in L2.
          destruct (nth_Forall _ mid (m - length p0 - 1) Fm) as (x & Ex & Px); [lia|].
          apply (not_normal_in s m x); auto. rewrite Es, nth_error_app2 by lia.
          replace (m - length p0) with (S (m - length p0 - 1)) by lia. cbn [nth_error].
          rewrite nth_error_app1 by lia. exact Ex. }
        rewrite (sum_single _ _ (length p0)).
        * unfold cand_hit. rewrite Ea, E. cbn [andb]. replace (forallb _ _) with true.
          -- cbn [andb]. f_equal. f_equal. f_equal. unfold span. rewrite app_length. cbn [length].
             rewrite Es, skipn_app, skipn_all, Nat.sub_diag. cbn [app skipn].
             replace (S (length p0 + S (length mid)) - length p0) with (length (a :: mid ++ [w]) + 0)
               by (cbn [length]; rewrite app_length; cbn [length]; lia).
             replace (a :: mid ++ w :: rest) with ((a :: mid ++ [w]) ++ rest) by (cbn; rewrite <- app_assoc; reflexivity).
             rewrite firstn_app_2. cbn [firstn]. rewrite app_nil_r. reflexivity.
          -- symmetry. apply forallb_forall. intros m Hm. apply in_seq in Hm. rewrite Em; auto; lia.
        * apply seq_NoDup.
        * apply in_seq. rewrite app_length. cbn [length]. lia.
        * intros i Hi Ne. apply in_seq in Hi. unfold cand_hit. destruct (lt_dec i (length p0)) as [L|L].
          -- replace (forallb _ _) with false; [rewrite Bool.andb_false_r; reflexivity|].
             symmetry. apply not_true_is_false. intros T. rewrite forallb_forall in T.
             specialize (T (length p0)). rewrite Ea in T. cbn in T. discriminate T.
             apply in_seq. rewrite app_length. cbn [length]. lia.
          -- rewrite (Em i) by lia. reflexivity.
      + apply sum_zero. intros i Hi. apply in_seq in Hi. destruct (nth_Forall _ pre i A) as (x & Ex & Px); [lia|].
        unfold cand_hit. rewrite (not_normal_in s i x); auto. unfold s. rewrite nth_error_app1 by lia. exact Ex.
  Qed.

  Lemma learn_sentence_count : forall rest pre v start mid key, at_state pre start mid ->
    cnt (learn_sentence cw d v start mid rest) key =
    cnt v key + list_sum_nat (map (gain (pre ++ rest) key) (seq (length pre) (length rest))).
  Proof.
    induction rest as [|w rest IH]; intros pre v start mid key A; [cbn; lia|].
    cbn [length seq map list_sum_nat fold_right]. change (fold_right Nat.add 0) with list_sum_nat.
    assert (Es : pre ++ w :: rest = (pre ++ [w]) ++ rest) by (rewrite <- app_assoc; reflexivity).
    assert (El : S (length pre) = length (pre ++ [w])) by (rewrite app_length; cbn; lia).
    cbn [learn_sentence]. destruct (memb w cw) eqn:E; cbn [negb].
    - apply memb_true in E. rewrite gain_conn by auto. rewrite Nat.add_0_l, El, Es.
      destruct start as [a|]; rewrite (IH (pre ++ [w])); auto; simpl in *.
      + destruct A as (p0 & -> & Na & Fm). exists p0. rewrite <- app_assoc. repeat split; auto. apply Forall_app; auto.
      + apply Forall_app; auto.
    - apply memb_false in E. rewrite (gain_normal pre start mid) by auto.
      rewrite (IH (pre ++ [w])).
      2:{ simpl. exists pre. auto. }
      rewrite El, Es. destruct start as [a|]; rewrite !cnt_incr; unfold b2n, eqb;
        repeat match goal with |- context [eq_dec ?x ?y] => destruct (eq_dec x y) end; lia.
  Qed.

  Lemma learn_sentence_true v s key :
    cnt (learn_sentence cw d v None [] s) key = cnt v key + true_count cw d s key.
  Proof. rewrite (learn_sentence_count s []) by constructor. reflexivity. Qed.

  Lemma learn_sentence_keys : forall rest v start mid, NoDup (dkeys v) -> (forall k, In k (dkeys v) -> 1 <= cnt v k) ->
    let v' := learn_sentence cw d v start mid rest in NoDup (dkeys v') /\ (forall k, In k (dkeys v') -> 1 <= cnt v' k).
  Proof.
    induction rest as [|w rest IH]; intros v start mid ND P; [simpl; auto|]. cbn [learn_sentence].
    assert (PI : forall v k, (forall k, In k (dkeys v) -> 1 <= cnt v k) -> (forall k', In k' (dkeys (incr v k 1)) -> 1 <= cnt (incr v k 1) k')).
    { intros u k Pu k' Hk. rewrite cnt_incr. destruct (eq_dec k k'); [lia|]. apply keys_incr in Hk. destruct Hk; [congruence|]. specialize (Pu k' H). lia. }
    destruct (negb (memb w cw)).
    - destruct start; apply IH; repeat apply NoDup_incr; auto; repeat apply PI; auto.
    - destruct start; apply IH; auto.
  Qed.

  Lemma learn_sentence_nodup rest v start mid : NoDup (dkeys v) -> NoDup (dkeys (learn_sentence cw d v start mid rest)).
  Proof.
    revert v start mid. induction rest as [|w rest IH]; intros v start mid ND; [simpl; auto|]. cbn [learn_sentence].
    destruct (negb (memb w cw)); destruct start; apply IH; repeat apply NoDup_incr; auto.
  Qed.
End Learn.

(** ** A corpus *)
Lemma rfold_inv {A S} (f : S -> A -> result S) (P : A -> Prop) (I : list A -> S -> Prop) :
  (forall pre s x, P x -> I pre s -> exists s', f s x = Ok s' /\ I (pre ++ [x]) s') ->
  forall l pre s, Forall P l -> I pre s -> exists s', rfold f l s = Ok s' /\ I (pre ++ l) s'.
Proof.
  intros H. induction l as [|x l IH]; intros pre s F Hs.
  - exists s. rewrite app_nil_r. auto.
  - inversion F; subst. destruct (H pre s x H2 Hs) as (s' & E & Hs'). cbn [rfold]. rewrite E. cbn [rbind].
    destruct (IH (pre ++ [x]) s' H3 Hs') as (s2 & E2 & Hs2). exists s2. rewrite <- app_assoc in Hs2. auto.
Qed.

Section Corpus.
  Variable cw : list pystr.
  Variable d : pystr.
  Variable maxv : Z.

  Definition total (ss : list (list pystr)) : nat := list_sum_nat (map (@length _) ss).

  Lemma corpus_count_snoc ss s k : corpus_count cw d (ss ++ [s]) k = corpus_count cw d ss k + true_count cw d s k.
  Proof. unfold corpus_count. rewrite map_app, list_sum_nat_app. simpl. lia. Qed.
  Lemma corpus_count_app ss ss' k : corpus_count cw d (ss ++ ss') k = corpus_count cw d ss k + corpus_count cw d ss' k.
  Proof. unfold corpus_count. rewrite map_app, list_sum_nat_app. reflexivity. Qed.
  Lemma total_snoc ss s : total (ss ++ [s]) = total ss + length s.
  Proof. unfold total. rewrite map_app, list_sum_nat_app. simpl. lia. Qed.

  Definition LInv (ss : list (list pystr)) (s : nat * dict pystr nat * nat) : Prop :=
    let '(m, v, t) := s in
    1 <= m /\ NoDup (dkeys v) /\ (forall k, In k (dkeys v) -> 1 <= cnt v k) /\ t = total ss /\
    forall k, cnt v k <= corpus_count cw d ss k /\ 2 * corpus_count cw d ss k <= 2 * cnt v k + (m - 1) * (m - 2).

  Lemma learn_step_inv pre s x : LInv pre s -> exists s', learn_step cw d maxv s x = Ok s' /\ LInv (pre ++ [x]) s'.
  Proof.
    destruct s as [[m v] t]. intros (M & ND & P & T & C). unfold learn_step.
    destruct (learn_sentence_keys cw d x v None [] ND P) as [ND' P'].
    pose proof (fun k => learn_sentence_true cw d v x k) as L. set (v' := learn_sentence cw d v None [] x) in *.
    destruct (maxv <? Z.of_nat (length v'))%Z.
    - rewrite prune_vocab_eq by auto. cbn [rbind fst]. eexists. split; [reflexivity|].
      split; [lia|]. split; [apply NoDup_dkeys_filter; auto|]. split; [|split].
      + intros k Hk. destruct (cnt_filter v' m k ND') as [E1 E2]. rewrite E1. apply E2 in Hk. destruct Hk as [Hk Hm].
        apply Nat.leb_le in Hm. rewrite Hm. apply P'. exact Hk.
      + rewrite total_snoc. lia.
      + intros k. destruct (cnt_filter v' m k ND') as [E1 E2]. rewrite E1, corpus_count_snoc. specialize (L k). destruct (C k) as [C1 C2].
        replace ((m + 1 - 1) * (m + 1 - 2)) with ((m - 1) * (m - 2) + 2 * (m - 1)).
        2:{ destruct m as [|[|m]]; [lia|reflexivity|]. replace (S (S m) + 1 - 1) with (S (S m)) by lia. replace (S (S m) + 1 - 2) with (S m) by lia.
            replace (S (S m) - 1) with (S m) by lia. replace (S (S m) - 2) with m by lia. lia. }
        destruct (Nat.leb_spec m (cnt v' k)); lia.
    - eexists. split; [reflexivity|]. split; [auto|]. split; [auto|]. split; [auto|]. split; [rewrite total_snoc; lia|].
      intros k. rewrite corpus_count_snoc, L. destruct (C k). lia.
  Qed.

  Lemma learn_vocab_ok ss : exists m v t, learn_vocab ss maxv d cw = Ok (m, v, t) /\ LInv ss (m, v, t).
  Proof.
    unfold learn_vocab. destruct (rfold_inv (learn_step cw d maxv) (fun _ => True) LInv) with (l := ss) (pre := @nil (list pystr)) (s := (1, @nil (pystr * nat), 0)) as (s' & E & I).
    - intros. apply learn_step_inv. assumption.
    - apply Forall_forall. auto.
    - split; [lia|]. split; [constructor|]. split; [simpl; tauto|]. split; [reflexivity|]. intros k. cbn. lia.
    - destruct s' as [[m v] t]. exists m, v, t. auto.
  Qed.

  (** No pruning while the distinct keys fit. *)
  Lemma keys_le_cover (v : dict pystr nat) K : NoDup (dkeys v) -> (forall k, In k (dkeys v) -> In k K) -> length v <= length K.
  Proof. intros ND H. rewrite <- length_dkeys. apply NoDup_incl_length; auto. Qed.

  Lemma learn_vocab_noprune ss K : (forall k, 1 <= corpus_count cw d ss k -> In k K) -> (Z.of_nat (length K) <= maxv)%Z ->
    exists v, learn_vocab ss maxv d cw = Ok (1, v, total ss) /\ LInv ss (1, v, total ss).
  Proof.
    intros HK HL.
    assert (G : forall l pre s, pre ++ l = ss -> LInv pre s -> fst (fst s) = 1 ->
      exists s', rfold (learn_step cw d maxv) l s = Ok s' /\ LInv (pre ++ l) s' /\ fst (fst s') = 1).
    { induction l as [|x l IH]; intros pre s E I M.
      - exists s. rewrite app_nil_r. auto.
      - destruct (learn_step_inv pre s x I) as (s' & Es & I'). cbn [rfold]. rewrite Es. cbn [rbind].
        assert (M' : fst (fst s') = 1).
        { destruct s as [[m v] t]. simpl in M. subst m. destruct I as (_ & ND & P & _ & C). unfold learn_step in Es.
          destruct (learn_sentence_keys cw d x v None [] ND P) as [ND' P'].
          pose proof (fun k => learn_sentence_true cw d v x k) as L. set (v' := learn_sentence cw d v None [] x) in *.
          destruct (Z.ltb_spec maxv (Z.of_nat (length v'))) as [Hlt|Hge]; [|injection Es as <-; reflexivity].
          exfalso. assert (length v' <= length K); [|lia]. apply keys_le_cover; auto.
          intros k Hk. apply HK. rewrite <- E. specialize (P' k Hk). specialize (L k). destruct (C k) as [C1 _].
          replace (pre ++ x :: l) with ((pre ++ [x]) ++ l) by (rewrite <- app_assoc; reflexivity).
          rewrite corpus_count_app, corpus_count_snoc. lia. }
        destruct (IH (pre ++ [x]) s') as (s2 & E2 & I2 & M2); auto.
        { rewrite <- app_assoc. exact E. }
        exists s2. rewrite <- app_assoc in I2. auto. }
    destruct (G ss [] (1, @nil (pystr * nat), 0)) as ([[m v] t] & E & I & M); auto.
    { split; [lia|]. split; [constructor|]. split; [simpl; tauto|]. split; [reflexivity|]. intros k. cbn. lia. }
    simpl in M. subst m. assert (t = total ss) by apply I. subst t. exists v. auto.
  Qed.
End Corpus.

(** ** Words are at least as frequent as the phrases they begin or end *)
Definition compound (d k a b : pystr) : Prop := exists mid, parts d k = a :: mid ++ [b].
Definition pend (start : option pystr) (a : pystr) : nat := match start with Some s => if eq_dec s a then 1 else 0 | None => 0 end.

Definition VInv (d : pystr) (v : dict pystr nat) (start : option pystr) : Prop :=
  NoDup (dkeys v) /\
  (forall k a b, In k (dkeys v) -> compound d k a b ->
    In a (dkeys v) /\ In b (dkeys v) /\ cnt v k <= cnt v b /\ cnt v k + pend start a <= cnt v a) /\
  (forall s, start = Some s -> clean d s /\ In s (dkeys v) /\ 1 <= cnt v s).

Lemma compound_join d a mid b : clean d a -> clean d b -> Forall (clean d) mid -> parts d (join d (a :: mid ++ [b])) = a :: mid ++ [b].
Proof. intros. apply parts_join; [discriminate|]. constructor; auto. apply Forall_app; auto. Qed.

Lemma word_not_compound d w a b : clean d w -> ~ compound d w a b.
Proof. intros C [mid E]. rewrite parts_word in E by auto. injection E as _ E. destruct mid; discriminate. Qed.

Lemma parts_ends {A} (a : A) mid b a' mid' b' : a :: mid ++ [b] = a' :: mid' ++ [b'] -> a = a' /\ b = b'.
Proof. intros E. injection E as -> E. apply app_inj_tail in E. tauto. Qed.

Lemma VInv_word d v w : VInv d v None -> clean d w -> VInv d (incr v w 1) (Some w).
Proof.
  intros (ND & H & _) C. split; [apply NoDup_incr; auto|]. split.
  - intros k a b Hk Hc. apply keys_incr in Hk. destruct Hk as [<-|Hk]; [exfalso; exact (word_not_compound d w _ _ C Hc)|].
    destruct (H k a b Hk Hc) as (A & B & L1 & L2). rewrite !keys_incr, !cnt_incr. unfold pend in *.
    destruct (eq_dec w k) as [<-|]; [exfalso; exact (word_not_compound d w _ _ C Hc)|].
    destruct (eq_dec w a), (eq_dec w b); repeat split; auto; lia.
  - intros s E. injection E as <-. rewrite keys_incr, cnt_incr. destruct (eq_dec w w); [|congruence]. repeat split; auto. lia.
Qed.

Lemma VInv_bigram d v s mid w : VInv d v (Some s) -> clean d w -> Forall (clean d) mid ->
  VInv d (incr (incr v w 1) (join d (s :: mid ++ [w])) 1) (Some w).
Proof.
  intros (ND & H & HS) C M. destruct (HS s eq_refl) as (Cs & Is & Ps).
  set (k0 := join d (s :: mid ++ [w])).
  assert (Pk : parts d k0 = s :: mid ++ [w]) by (apply compound_join; auto).
  assert (NW : forall x, clean d x -> x <> k0).
  { intros x Cx ->. rewrite parts_word in Pk by auto. injection Pk as _ E. destruct mid; discriminate. }
  split; [repeat apply NoDup_incr; auto|]. split.
  - intros k a b Hk Hc. rewrite !keys_incr in *. rewrite !cnt_incr. unfold pend in *.
    destruct (eq_dec k0 k) as [<-|Nk].
    + destruct Hc as [mid' E]. rewrite Pk in E. apply parts_ends in E. destruct E as [<- <-].
      assert (B1 : cnt v k0 <= cnt v w /\ cnt v k0 + 1 <= cnt v s).
      { destruct (in_dec eq_dec k0 (dkeys v)) as [I|I].
        - destruct (H k0 s w I) as (_ & _ & L1 & L2); [exists mid; auto|]. destruct (eq_dec s s); [lia|congruence].
        - rewrite (cnt_notin v k0 I). lia. }
      destruct (eq_dec k0 s) as [X|]; [exfalso; eapply NW; [|symmetry; exact X]; auto|].
      destruct (eq_dec k0 w) as [X|]; [exfalso; eapply NW; [|symmetry; exact X]; auto|].
      destruct (eq_dec w k0) as [X|]; [exfalso; eapply NW; [|exact X]; auto|].
      destruct (eq_dec w w); [|congruence]. destruct (eq_dec w s); repeat split; auto; lia.
    + destruct Hk as [Hk|[Hk|Hk]]; [congruence|subst k; exfalso; exact (word_not_compound d w _ _ C Hc)|].
      destruct (H k a b Hk Hc) as (A & B & L1 & L2).
      destruct (eq_dec w k) as [<-|]; [exfalso; exact (word_not_compound d w _ _ C Hc)|].
      destruct (eq_dec w a), (eq_dec w b), (eq_dec k0 a), (eq_dec k0 b); repeat split; auto; lia.
  - intros x E. injection E as <-. rewrite !keys_incr, !cnt_incr. destruct (eq_dec w w); [|congruence]. repeat split; auto. lia.
Qed.

Lemma VInv_weaken d v start : VInv d v start -> VInv d v None.
Proof.
  intros (ND & H & _). split; [auto|]. split; [|discriminate]. intros k a b Hk Hc. destruct (H k a b Hk Hc) as (A & B & L1 & L2).
  repeat split; auto. simpl. unfold pend in *. lia.
Qed.

Lemma VInv_learn cw d : forall rest v start mid, VInv d v start -> Forall (clean d) mid -> Forall (clean d) rest ->
  VInv d (learn_sentence cw d v start mid rest) None.
Proof.
  induction rest as [|w rest IH]; intros v start mid I M F; [simpl; eapply VInv_weaken; eauto|].
  inversion F; subst. cbn [learn_sentence]. destruct (negb (memb w cw)).
  - apply IH; auto. destruct start as [s|]; [apply VInv_bigram; auto|apply VInv_word; auto].
  - destruct start as [s|]; apply IH; auto. apply Forall_app; auto.
Qed.

Lemma VInv_prune d v r : VInv d v None -> VInv d (filter (fun it => keep_vocab_item (fst it) (snd it) r None) v) None.
Proof.
  intros (ND & H & _). split; [apply NoDup_dkeys_filter; auto|]. split; [|discriminate].
  intros k a b Hk Hc. pose proof (cnt_filter v r k ND) as [K1 K2]. pose proof (cnt_filter v r a ND) as [A1 A2]. pose proof (cnt_filter v r b ND) as [B1 B2].
  apply K2 in Hk. destruct Hk as [Hk L]. destruct (H k a b Hk Hc) as (A & B & L1 & L2). unfold pend in *.
  rewrite A2, B2, A1, B1, K1. destruct (Nat.leb_spec r (cnt v k)), (Nat.leb_spec r (cnt v a)), (Nat.leb_spec r (cnt v b)); repeat split; auto; lia.
Qed.

Lemma VInv_merge d v u : VInv d v None -> VInv d u None -> VInv d (fold_left (fun d kc => incr d (fst kc) (snd kc)) u v) None.
Proof.
  intros (ND & H & _) (ND' & H' & _). destruct (fold_incr u v ND') as [N F]. split; [auto|]. split; [|discriminate].
  intros k a b Hk Hc. destruct (F k) as [K1 K2], (F a) as [A1 A2], (F b) as [B1 B2]. rewrite A2, B2, K1, A1, B1. apply K2 in Hk. unfold pend in *.
  assert (Gv : In k (dkeys v) -> In a (dkeys v) /\ In b (dkeys v) /\ cnt v k <= cnt v b /\ cnt v k <= cnt v a).
  { intros X. destruct (H k a b X Hc) as (? & ? & ? & ?). repeat split; auto; lia. }
  assert (Gu : In k (dkeys u) -> In a (dkeys u) /\ In b (dkeys u) /\ cnt u k <= cnt u b /\ cnt u k <= cnt u a).
  { intros X. destruct (H' k a b X Hc) as (? & ? & ? & ?). repeat split; auto; lia. }
  destruct (in_dec eq_dec k (dkeys v)) as [X|X]; destruct (in_dec eq_dec k (dkeys u)) as [Y|Y]; try tauto.
  - destruct (Gv X) as (? & ? & ? & ?), (Gu Y) as (? & ? & ? & ?). repeat split; auto; lia.
  - destruct (Gv X) as (? & ? & ? & ?). rewrite (cnt_notin u k Y). repeat split; auto; lia.
  - destruct (Gu Y) as (? & ? & ? & ?). rewrite (cnt_notin v k X). repeat split; auto; lia.
Qed.

Lemma learn_vocab_VInv cw d maxv ss : Forall (Forall (clean d)) ss -> forall m v t,
  learn_vocab ss maxv d cw = Ok (m, v, t) -> VInv d v None.
Proof.
  intros F m v t E. unfold learn_vocab in E.
  destruct (rfold_inv (learn_step cw d maxv) (Forall (clean d)) (fun _ s => VInv d (snd (fst s)) None)) with (l := ss) (pre := @nil (list pystr)) (s := (1, @nil (pystr * nat), 0)) as (s' & E' & I); auto.
  - intros _ [[m' v'] t'] x Cx I. unfold learn_step. simpl in I. pose proof (VInv_learn cw d x v' None [] I (Forall_nil _) Cx) as I'.
    destruct (maxv <? _)%Z; [|eexists; split; [reflexivity|exact I']].
    rewrite prune_vocab_eq by apply I'. cbn [rbind fst]. eexists. split; [reflexivity|]. apply VInv_prune. exact I'.
  - simpl. split; [constructor|]. split; [simpl; tauto|discriminate].
  - rewrite E in E'. injection E' as <-. exact I.
Qed.

(** ** Joining the parts gives the string back *)
Lemma is_prefix_true : forall d s, is_prefix d s = true -> exists t, s = d ++ t.
Proof.
  induction d as [|c d IH]; intros [|c' s] H; cbn in H; try discriminate; [exists []; auto|eexists; reflexivity|].
  apply andb_prop in H. destruct H as [H1 H2]. apply N.eqb_eq in H1. subst c'. destruct (IH s H2) as [t ->]. exists t. reflexivity.
Qed.
Lemma join_split_aux d : d <> [] -> forall s skip cur, skip <= length s -> join d (split_aux d skip cur s) = cur ++ skipn skip s.
Proof.
  intros D. induction s as [|c s IH]; intros skip cur L.
  - cbn in L. assert (skip = 0) by lia. subst. cbn. rewrite app_nil_r. reflexivity.
  - destruct skip as [|k].
    + change (skipn 0 (c :: s)) with (c :: s). cbn [split_aux]. destruct (is_prefix d (c :: s)) eqn:E.
      * apply is_prefix_true in E. destruct E as [t E]. destruct d as [|c0 d]; [congruence|]. injection E as <- ->.
        cbn [length] in *. rewrite Nat.sub_1_r. cbn [Nat.pred].
        assert (N : split_aux (c :: d) (length d) [] (d ++ t) <> []) by (apply join_parts_aux; [discriminate|rewrite app_length; lia]).
        assert (J : join (c :: d) (split_aux (c :: d) (length d) [] (d ++ t)) = [] ++ skipn (length d) (d ++ t)).
        { apply IH. rewrite app_length. lia. }
        destruct (split_aux (c :: d) (length d) [] (d ++ t)) as [|x xs] eqn:X; [congruence|].
        change (join (c :: d) (cur :: x :: xs)) with (cur ++ (c :: d) ++ join (c :: d) (x :: xs)).
        rewrite J. rewrite skipn_app, skipn_all, Nat.sub_diag. reflexivity.
      * rewrite IH by lia. cbn [skipn]. rewrite <- app_assoc. reflexivity.
    + cbn [split_aux skipn]. apply IH. simpl in L. lia.
Qed.
Lemma join_parts d k : d <> [] -> join d (parts d k) = k.
Proof. intros D. unfold parts. rewrite join_split_aux by (auto; lia). reflexivity. Qed.

(** ** Scoring *)
Definition same_static (p q : phrases) : Prop :=
  p_connectors p = p_connectors q /\ p_scoring p = p_scoring q /\ p_min_count p = p_min_count q /\ p_threshold p = p_threshold q /\
  p_max_vocab p = p_max_vocab q /\ p_min_reduce p = p_min_reduce q /\ p_delim p = p_delim q /\ p_words p = p_words q.
Definition equiv (p q : phrases) : Prop := same_static p q /\ forall k, cnt (p_vocab p) k = cnt (p_vocab q) k.

(** What a candidate scores in a given state. *)
Definition pure_score (p : phrases) (a b : pystr) (mid : list pystr) : option (pystr * score) :=
  let ph := join (p_delim p) (a :: mid ++ [b]) in
  let c := cnt (p_vocab p) in
  if (c a =? 0) || (c b =? 0) || (c ph =? 0) then None else
  let s := p_scoring p (c a) (c b) (c ph) (length (p_vocab p)) (p_min_count p) (p_words p) in
  if score_le s (p_threshold p) then None else Some (ph, s).

Lemma read_vocab_in v k : In k (dkeys v) -> read_vocab v k = (v, cnt v k).
Proof. intros H. apply dget_Some_key in H. destruct H as [c E]. unfold read_vocab, cnt, dget_or. rewrite E. reflexivity. Qed.
Lemma read_vocab_notin v k : ~ In k (dkeys v) -> read_vocab v k = (dset v k 0, 0) /\ cnt v k = 0.
Proof. intros H. split; [|apply cnt_notin; auto]. apply dget_None in H. unfold read_vocab. rewrite H. reflexivity. Qed.
Lemma read_vocab_spec v k : exists v', read_vocab v k = (v', cnt v k) /\ (forall k', cnt v' k' = cnt v k') /\
  (forall k', In k' (dkeys v') <-> k = k' \/ In k' (dkeys v)) /\ (NoDup (dkeys v) -> NoDup (dkeys v')) /\ (1 <= cnt v k -> v' = v).
Proof.
  destruct (in_dec eq_dec k (dkeys v)) as [I|I].
  - exists v. rewrite read_vocab_in by auto. repeat split; auto. intros [<-|]; auto.
  - destruct (read_vocab_notin v k I) as [E C]. exists (dset v k 0). rewrite E, C. repeat split; auto.
    + intros k'. unfold cnt, dget_or. rewrite dget_dset. destruct (eq_dec k k'); [|reflexivity]. subst. unfold cnt, dget_or in C. symmetry. exact C.
    + apply In_dkeys_dset.
    + apply In_dkeys_dset.
    + apply NoDup_dset.
    + lia.
Qed.

Lemma VInv_read d v k v' c : VInv d v None -> read_vocab v k = (v', c) ->
  (forall a b, compound d k a b -> In a (dkeys v) /\ In b (dkeys v)) -> VInv d v' None.
Proof.
  intros (ND & H & _) E HC. destruct (read_vocab_spec v k) as (v2 & E2 & C & K & N & _). rewrite E in E2. injection E2 as -> ->.
  split; [auto|]. split; [|discriminate]. intros k' a b Hk Hc. rewrite !K, !C. simpl.
  apply K in Hk. destruct (in_dec eq_dec k' (dkeys v)) as [I|I].
  - destruct (H k' a b I Hc) as (? & ? & ? & ?). simpl in *. repeat split; auto.
  - destruct Hk as [->|]; [|tauto]. rewrite (cnt_notin v k' I). destruct (HC a b Hc). repeat split; auto; lia.
Qed.

Lemma score_candidate_spec p a b mid : exists v',
  score_candidate p a b mid = (with_vocab p v', pure_score p a b mid) /\
  (forall k, cnt v' k = cnt (p_vocab p) k) /\
  (In a (dkeys (p_vocab p)) -> In b (dkeys (p_vocab p)) -> In (join (p_delim p) (a :: mid ++ [b])) (dkeys (p_vocab p)) -> v' = p_vocab p) /\
  (VInv (p_delim p) (p_vocab p) None -> clean (p_delim p) a -> clean (p_delim p) b -> Forall (clean (p_delim p)) mid -> VInv (p_delim p) v' None).
Proof.
  unfold score_candidate, pure_score. set (ph := join (p_delim p) (a :: mid ++ [b])).
  destruct (read_vocab_spec (p_vocab p) a) as (v1 & E1 & C1 & K1 & N1 & S1). rewrite E1.
  assert (X1 : In a (dkeys (p_vocab p)) -> v1 = p_vocab p) by (intros I; rewrite read_vocab_in in E1 by auto; congruence).
  assert (I1 : VInv (p_delim p) (p_vocab p) None -> clean (p_delim p) a -> VInv (p_delim p) v1 None).
  { intros I C. eapply VInv_read; eauto. intros x y Hc. exfalso. exact (word_not_compound _ _ _ _ C Hc). }
  destruct (Nat.eqb_spec (cnt (p_vocab p) a) 0) as [Z1|Z1]; cbn [orb].
  { exists v1. split; [reflexivity|]. split; [auto|]. split; auto. }
  assert (v1 = p_vocab p) by (apply S1; lia). subst v1. clear E1 C1 K1 N1 S1 X1 I1.
  destruct (read_vocab_spec (p_vocab p) b) as (v2 & E2 & C2 & K2 & N2 & S2). rewrite E2.
  assert (X2 : In b (dkeys (p_vocab p)) -> v2 = p_vocab p) by (intros I; rewrite read_vocab_in in E2 by auto; congruence).
  destruct (Nat.eqb_spec (cnt (p_vocab p) b) 0) as [Z2|Z2]; cbn [orb].
  { exists v2. split; [reflexivity|]. split; [auto|]. split; [auto|]. intros I _ C _. eapply VInv_read; eauto. intros x y Hc. exfalso. exact (word_not_compound _ _ _ _ C Hc). }
  assert (v2 = p_vocab p) by (apply S2; lia). subst v2. clear E2 C2 K2 N2 S2 X2.
  destruct (read_vocab_spec (p_vocab p) ph) as (v3 & E3 & C3 & K3 & N3 & S3). rewrite E3.
  assert (X3 : In ph (dkeys (p_vocab p)) -> v3 = p_vocab p) by (intros I; rewrite read_vocab_in in E3 by auto; congruence).
  destruct (Nat.eqb_spec (cnt (p_vocab p) ph) 0) as [Z3|Z3].
  { exists v3. split; [reflexivity|]. split; [auto|]. split; [auto|]. intros I Ca Cb Cm. eapply VInv_read; eauto. intros x y [mid' Hc]. unfold ph in Hc. rewrite compound_join in Hc by auto.
    apply parts_ends in Hc. destruct Hc as [<- <-]. split; destruct (in_dec eq_dec a (dkeys (p_vocab p))); destruct (in_dec eq_dec b (dkeys (p_vocab p))); auto;
      exfalso; (apply Z1; apply cnt_notin; assumption) || (apply Z2; apply cnt_notin; assumption). }
  assert (v3 = p_vocab p) by (apply S3; lia). subst v3.
  exists (p_vocab p). split; [destruct (score_le _ _); reflexivity|]. auto.
Qed.

Lemma same_static_with p v : same_static (with_vocab p v) p.
Proof. repeat split. Qed.

(** ** Generic facts about the segmentation loop *)
Lemma analyze_sim {S1 S2} (R : S1 -> S2 -> Prop) (Pw : pystr -> Prop) cw j1 j2 :
  (forall s1 s2 a b mid, R s1 s2 -> Pw a -> Pw b -> Forall Pw mid ->
    R (fst (j1 s1 a b mid)) (fst (j2 s2 a b mid)) /\ snd (j1 s1 a b mid) = snd (j2 s2 a b mid)) ->
  forall s s1 s2 start mid, R s1 s2 -> Forall Pw s -> Forall Pw mid -> (forall a, start = Some a -> Pw a) ->
    R (fst (analyze cw j1 s1 start mid s)) (fst (analyze cw j2 s2 start mid s)) /\
    snd (analyze cw j1 s1 start mid s) = snd (analyze cw j2 s2 start mid s).
Proof.
  intros HJ. induction s as [|w s IH]; intros s1 s2 start mid HR F M HS.
  - cbn [analyze]. destruct (truthy start); simpl; auto.
  - inversion F; subst. cbn [analyze]. destruct (negb (memb w cw)).
    + destruct (truthy start) as [a|] eqn:T.
      * assert (Pa : Pw a). { destruct start as [[|c x]|]; try discriminate. apply HS. simpl in T. congruence. }
        pose proof (HJ s1 s2 a w mid HR Pa H1 M) as [HJ1 HJ2]. destruct (j1 s1 a w mid) as [t1 r1]. destruct (j2 s2 a w mid) as [t2 r2].
        simpl in HJ1, HJ2. subst r2. destruct r1 as [[ph sc]|].
        -- destruct (IH t1 t2 None [] HJ1 H2 (Forall_nil _) ltac:(discriminate)) as [A B].
           destruct (analyze cw j1 t1 None [] s), (analyze cw j2 t2 None [] s). simpl in *. split; congruence.
        -- destruct (IH t1 t2 (Some w) [] HJ1 H2 (Forall_nil _)) as [A B]; [intros ? E; injection E as <-; auto|].
           destruct (analyze cw j1 t1 (Some w) [] s), (analyze cw j2 t2 (Some w) [] s). simpl in *. split; congruence.
      * apply IH; auto. intros ? E; injection E as <-; auto.
    + destruct (truthy start) as [a|] eqn:T.
      * apply IH; auto; [apply Forall_app; auto|]. destruct start as [[|c x]|]; try discriminate. simpl in T. intros ? E. apply HS. congruence.
      * destruct (IH s1 s2 start mid HR H2 M HS) as [A B].
        destruct (analyze cw j1 s1 start mid s), (analyze cw j2 s2 start mid s). simpl in *. split; congruence.
Qed.

Lemma analyze_inv {S1} (I : S1 -> Prop) (Pw : pystr -> Prop) cw j1 :
  (forall s1 a b mid, I s1 -> Pw a -> Pw b -> Forall Pw mid -> I (fst (j1 s1 a b mid))) ->
  forall s s1, I s1 -> Forall Pw s -> I (fst (analyze_sentence cw j1 s1 s)).
Proof.
  intros HJ s s1 HI F.
  destruct (analyze_sim (fun a b => a = b /\ I a) Pw cw j1 j1) with (s := s) (s1 := s1) (s2 := s1) (start := @None pystr) (mid := @nil pystr) as [[_ A] _]; auto.
  - intros x y a b mid [<- Ix] Pa Pb Pm. auto.
  - discriminate.
Qed.

(** ** Histories *)
Inductive pop : Type :=
| PAdd (sentences : list (list pystr))
| PAnalyze (sentence : list pystr)
| PExport.
Definition pstep (p : phrases) (o : pop) : result phrases :=
  match o with
  | PAdd ss => add_vocab p ss
  | PAnalyze s => Ok (fst (live_analyze p s))
  | PExport => rmap fst (export_phrases p)
  end.
Definition prun (ops : list pop) (p : phrases) : result phrases := rfold pstep ops p.
Definition padded (ops : list pop) : list (list pystr) := concat (map (fun o => match o with PAdd ss => ss | _ => [] end) ops).
Definition clean_op (d : pystr) (o : pop) : Prop :=
  match o with PAdd ss => Forall (Forall (clean d)) ss | PAnalyze s => Forall (clean d) s | PExport => True end.

Definition config (p q : phrases) : Prop :=
  p_connectors p = p_connectors q /\ p_scoring p = p_scoring q /\ p_min_count p = p_min_count q /\ p_threshold p = p_threshold q /\
  p_max_vocab p = p_max_vocab q /\ p_delim p = p_delim q.
Record PInv (p0 : phrases) (ss : list (list pystr)) (p : phrases) : Prop := {
  pi_cfg : config p p0;
  pi_v : VInv (p_delim p0) (p_vocab p) None;
  pi_words : p_words p = total ss;
  pi_le : forall k, cnt (p_vocab p) k <= corpus_count (p_connectors p0) (p_delim p0) ss k
}.

Lemma add_vocab_inv p0 pre p ss : PInv p0 pre p -> Forall (Forall (clean (p_delim p0))) ss ->
  exists p', add_vocab p ss = Ok p' /\ PInv p0 (pre ++ ss) p'.
Proof.
  intros [CF V W L] F. pose proof CF as (C1 & C2 & C3 & C4 & C5 & C6). unfold add_vocab. rewrite C1, C5, C6.
  destruct (learn_vocab_ok (p_connectors p0) (p_delim p0) (p_max_vocab p0) ss) as (m & v & t & E & I). rewrite E. cbn [rbind].
  pose proof (learn_vocab_VInv _ _ _ _ F _ _ _ E) as Vv. destruct I as (_ & ND & P & T & CC).
  assert (TT : p_words p + t = total (pre ++ ss)).
  { unfold total in *. rewrite map_app, list_sum_nat_app. lia. }
  destruct (p_vocab p) as [|kv v0] eqn:EV.
  - eexists. split; [reflexivity|]. constructor; cbn [p_vocab p_words]; auto.
    + unfold config. simpl. repeat split; auto.
    + intros k. rewrite corpus_count_app. destruct (CC k). specialize (L k). lia.
  - rewrite <- EV in *. set (mg := fold_left (fun d kc => incr d (fst kc) (snd kc)) v (p_vocab p)) in *.
    destruct (fold_incr v (p_vocab p) ND) as [N M]. fold mg in N, M.
    assert (VM : VInv (p_delim p0) mg None) by (apply VInv_merge; auto).
    destruct (p_max_vocab p0 <? Z.of_nat (length mg))%Z.
    + rewrite prune_vocab_eq by apply VM. cbn [rbind fst]. eexists. split; [reflexivity|]. constructor; cbn [p_vocab p_words]; auto.
      * unfold config. simpl. repeat split; auto.
      * apply VInv_prune; auto.
      * intros k. rewrite corpus_count_app. destruct (cnt_filter mg (Nat.max (p_min_reduce p) m) k (proj1 VM)) as [Q _]. rewrite Q.
        destruct (M k) as [M1 _]. destruct (CC k). specialize (L k). destruct (_ <=? _); lia.
    + eexists. split; [reflexivity|]. constructor; cbn [p_vocab p_words]; auto.
      * unfold config. simpl. repeat split; auto.
      * intros k. rewrite corpus_count_app. destruct (M k) as [M1 _]. rewrite M1. destruct (CC k). specialize (L k). lia.
Qed.

Lemma score_candidate_inv p0 pre p a b mid : PInv p0 pre p -> clean (p_delim p0) a -> clean (p_delim p0) b -> Forall (clean (p_delim p0)) mid ->
  PInv p0 pre (fst (score_candidate p a b mid)).
Proof.
  intros [CF V W L] Ca Cb Cm. destruct (score_candidate_spec p a b mid) as (v' & E & C & _ & HV). rewrite E. cbn [fst].
  pose proof CF as (C1 & C2 & C3 & C4 & C5 & C6). rewrite C6 in HV.
  constructor; simpl; auto. intros k. rewrite C. apply L.
Qed.

(** ** Export *)
Lemma parts_nonempty d k : d <> [] -> parts d k <> [].
Proof. intros D. apply join_parts_aux; auto; lia. Qed.

Lemma export_ok p : p_delim p <> [] -> VInv (p_delim p) (p_vocab p) None ->
  forall toks res, incl toks (dkeys (p_vocab p)) ->
  exists res', export_loop p res toks = Ok (p, res') /\
    forall k, dget res' k =
      match in_dec eq_dec k toks with
      | left _ => match parts (p_delim p) k with
                  | u0 :: u1 :: us => match pure_score p u0 (last (u1 :: us) u0) (removelast (u1 :: us)) with Some (_, s) => Some s | None => dget res k end
                  | _ => dget res k
                  end
      | right _ => dget res k
      end.
Proof.
  intros D V. induction toks as [|t toks IH]; intros res I.
  - exists res. split; [reflexivity|]. intros k. destruct (in_dec eq_dec k []) as [[]|]. reflexivity.
  - cbn [export_loop]. assert (SP : str_split (p_delim p) t = Ok (parts (p_delim p) t)) by (destruct (p_delim p); [congruence|reflexivity]).
    rewrite SP. cbn [rbind]. pose proof (parts_nonempty _ t D) as PN. pose proof (join_parts _ t D) as JP.
    assert (It : In t (dkeys (p_vocab p))) by (apply I; simpl; auto).
    assert (I' : incl toks (dkeys (p_vocab p))) by (intros x Hx; apply I; simpl; auto).
    destruct (parts (p_delim p) t) as [|u0 [|u1 us]] eqn:E; [congruence| |].
    + destruct (IH res I') as (res' & E' & G). exists res'. split; [exact E'|]. intros k. rewrite G.
      destruct (in_dec eq_dec k toks) as [i|i], (in_dec eq_dec k (t :: toks)) as [i'|i']; auto.
      * exfalso; apply i'; simpl; auto.
      * destruct i' as [<-|]; [|tauto]. rewrite E. reflexivity.
    + assert (LR : (u0 :: u1 :: us) = u0 :: removelast (u1 :: us) ++ [last (u1 :: us) u0]).
      { f_equal. apply app_removelast_last. discriminate. }
      destruct (score_candidate_spec p u0 (last (u1 :: us) u0) (removelast (u1 :: us))) as (v' & Es & _ & Sv & _). rewrite Es.
      destruct V as (ND & HV & HS).
      destruct (HV t u0 (last (u1 :: us) u0) It) as (Ia & Ib & _ & _).
      { exists (removelast (u1 :: us)). rewrite E. exact LR. }
      assert (v' = p_vocab p). { apply Sv; auto. rewrite <- LR, JP. exact It. }
      subst v'. replace (with_vocab p (p_vocab p)) with p by (destruct p; reflexivity). rewrite Nat.eqb_refl.
      set (r := pure_score p u0 (last (u1 :: us) u0) (removelast (u1 :: us))) in *.
      assert (NM : forall ph s, r = Some (ph, s) -> ph = t).
      { intros ph s Er. unfold r, pure_score in Er. destruct (_ || _ || _); [discriminate|]. destruct (score_le _ _); [discriminate|].
        rewrite <- LR, JP in Er. congruence. }
      destruct (IH (match r with Some (phrase, sc) => dset res phrase sc | None => res end) I') as (res' & E' & G).
      exists res'. split; [exact E'|]. intros k. rewrite G.
      destruct (in_dec eq_dec k (t :: toks)) as [i'|i'].
      * destruct (eq_dec k t) as [->|Nk].
        -- rewrite E. fold r. destruct r as [[ph s]|] eqn:Er; [|destruct (in_dec eq_dec t toks); reflexivity].
           rewrite (NM ph s eq_refl), dget_dset_same. destruct (in_dec eq_dec t toks); reflexivity.
        -- destruct i' as [X|i']; [congruence|]. destruct (in_dec eq_dec k toks) as [i|i]; [|tauto].
           assert (Q : dget (match r with Some (phrase, sc) => dset res phrase sc | None => res end) k = dget res k).
           { destruct r as [[ph s]|] eqn:Er; [|reflexivity]. rewrite (NM ph s eq_refl). apply dget_dset_other. congruence. }
           rewrite Q. reflexivity.
      * destruct (in_dec eq_dec k toks) as [i|i]; [exfalso; apply i'; simpl; auto|].
        destruct r as [[ph s]|] eqn:Er; [|reflexivity]. rewrite (NM ph s eq_refl). apply dget_dset_other. intros ->. apply i'. simpl. auto.
Qed.

Lemma freeze_ok p : p_delim p <> [] -> VInv (p_delim p) (p_vocab p) None ->
  export_phrases p = rmap (fun f => (p, f_grams f)) (freeze p) /\
  exists f, freeze p = Ok f /\ f_connectors f = p_connectors p /\ f_threshold f = p_threshold p /\ f_delim f = p_delim p /\
    forall k, dget (f_grams f) k =
      match in_dec eq_dec k (dkeys (p_vocab p)) with
      | left _ => match parts (p_delim p) k with
                  | u0 :: u1 :: us => match pure_score p u0 (last (u1 :: us) u0) (removelast (u1 :: us)) with Some (_, s) => Some s | None => None end
                  | _ => None
                  end
      | right _ => None
      end.
Proof.
  intros D V. unfold freeze, export_phrases. destruct (export_ok p D V (dkeys (p_vocab p)) [] (incl_refl _)) as (res & E & G).
  rewrite E. cbn [rbind snd]. split; [reflexivity|]. eexists. split; [reflexivity|]. cbn. auto.
Qed.

Definition no_nan (s : scorer) : Prop := forall a b c d e f, s a b c d e f <> NaN.

Lemma frozen_pointwise p f a b mid : p_delim p <> [] -> VInv (p_delim p) (p_vocab p) None -> no_nan (p_scoring p) -> freeze p = Ok f ->
  clean (p_delim p) a -> clean (p_delim p) b -> Forall (clean (p_delim p)) mid ->
  snd (frozen_score f a b mid) = pure_score p a b mid /\ fst (frozen_score f a b mid) = f.
Proof.
  intros D V NN E Ca Cb Cm. destruct (freeze_ok p D V) as (_ & f' & E' & Hc & Ht & Hd & G). rewrite E in E'. injection E' as <-.
  unfold frozen_score. rewrite Hd, Ht. set (ph := join (p_delim p) (a :: mid ++ [b])).
  assert (Pp : parts (p_delim p) ph = a :: mid ++ [b]) by (apply compound_join; auto).
  split; [|destruct (score_gt _ _); reflexivity].
  assert (Eg : dget (f_grams f) ph = option_map snd (pure_score p a b mid)).
  { rewrite G. destruct (in_dec eq_dec ph (dkeys (p_vocab p))) as [I|I].
    - rewrite Pp. destruct (mid ++ [b]) as [|u1 us] eqn:Em; [destruct mid; discriminate|].
      rewrite <- Em, removelast_last. rewrite last_last. destruct (pure_score p a b mid) as [[? ?]|]; reflexivity.
    - unfold pure_score. fold ph. rewrite (cnt_notin _ _ I). rewrite Bool.orb_true_r. reflexivity. }
  unfold dget_or. rewrite Eg. unfold pure_score. fold ph. destruct (_ || _ || _); [reflexivity|].
  destruct (score_le _ _) eqn:S; cbn [option_map snd score_gt]; [reflexivity|].
  destruct (p_scoring p _ _ _ _ _ _) eqn:SC; cbn in *; try discriminate.
  - rewrite S. reflexivity.
  - exfalso. eapply NN; eauto.
Qed.

Lemma prun_ok p0 ops : p_vocab p0 = [] -> p_words p0 = 0 -> p_delim p0 <> [] -> Forall (clean_op (p_delim p0)) ops ->
  exists p, prun ops p0 = Ok p /\ PInv p0 (padded ops) p.
Proof.
  intros H0 H1 D F. unfold prun.
  destruct (rfold_inv pstep (clean_op (p_delim p0)) (fun pre p => PInv p0 (padded pre) p)) with (l := ops) (pre := @nil pop) (s := p0) as (s' & E & I); auto.
  - intros pre p o C I. assert (PA : forall o, padded (pre ++ [o]) = padded pre ++ match o with PAdd ss => ss | _ => [] end).
    { intros o'. unfold padded. rewrite map_app, concat_app. simpl. rewrite app_nil_r. reflexivity. }
    rewrite PA. destruct o as [ss|s|]; cbn [pstep clean_op] in *.
    + apply add_vocab_inv; auto.
    + eexists. split; [reflexivity|]. rewrite app_nil_r. unfold live_analyze.
      apply (analyze_inv (fun p => PInv p0 (padded pre) p) (clean (p_delim p0))); auto.
      intros. apply score_candidate_inv; auto.
    + rewrite app_nil_r. pose proof (pi_cfg _ _ _ I) as (_ & _ & _ & _ & _ & Cd).
      destruct (freeze_ok p) as (Ex & f & Ef & _); [congruence|rewrite Cd; apply I|].
      rewrite Ex, Ef. cbn [rmap fst]. eauto.
  - constructor; auto.
    + repeat split.
    + rewrite H0. split; [constructor|]. split; [simpl; tauto|discriminate].
    + rewrite H0. intros k. cbn. lia.
  - exists s'. auto.
Qed.
