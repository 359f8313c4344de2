(** fastText n-grams and hashes: property C68. *)

From Verif Require Import Base Str W2vFormat_Model W2vFormat_Proofs FtNgrams_Model FtNgrams_Spec.
From Coq Require Import ZifyBool ZifyNat ZifyN.
Local Open Scope nat_scope.

(** ** The hash *)

Lemma lxor_mod : forall a b, (Z.lxor a b mod 2 ^ 32 = Z.lxor (a mod 2 ^ 32) (b mod 2 ^ 32))%Z.
Proof.
  intros a b. apply Z.bits_inj'. intros n Hn. destruct (Z.ltb_spec n 32).
  - rewrite Z.mod_pow2_bits_low by lia. rewrite !Z.lxor_spec. rewrite !Z.mod_pow2_bits_low by lia. reflexivity.
  - rewrite Z.mod_pow2_bits_high by lia. rewrite !Z.lxor_spec. rewrite !Z.mod_pow2_bits_high by lia. reflexivity.
Qed.
Lemma of_N_lxor : forall a b, Z.of_N (N.lxor a b) = Z.lxor (Z.of_N a) (Z.of_N b).
Proof. intros [|a] [|b]; reflexivity. Qed.

Lemma hash_step_spec : forall h b, (b < 256)%N -> (h < 4294967296)%N ->
  Z.of_N (hash_step h b) = ((Z.lxor (Z.of_N h) (signed_char b) * (2 ^ 24 + 2 ^ 8 + 147)) mod 2 ^ 32)%Z.
Proof.
  intros h b Hb Hh. unfold hash_step, u32. rewrite N2Z.inj_mod, N2Z.inj_mul, of_N_lxor.
  change (Z.of_N 4294967296) with (2 ^ 32)%Z. change (Z.of_N 16777619) with (2 ^ 24 + 2 ^ 8 + 147)%Z.
  rewrite <- (Z.mul_mod_idemp_l (Z.lxor (Z.of_N h) (Z.of_N (extend b)))) by lia.
  rewrite <- (Z.mul_mod_idemp_l (Z.lxor (Z.of_N h) (signed_char b))) by lia. f_equal. f_equal. rewrite !lxor_mod. f_equal.
  unfold extend, signed_char. destruct (b <? 128)%N eqn:E; [reflexivity|].
  replace (Z.of_N (b + 4294967040)) with (Z.of_N b - 256 + 1 * 2 ^ 32)%Z by lia. apply Z.mod_add. lia.
Qed.
Lemma hash_step_range : forall h b, (hash_step h b < 4294967296)%N.
Proof. intros. unfold hash_step, u32. apply N.mod_lt. lia. Qed.

(** The hash is Facebook's FNV-1a with sign-extended bytes; on ASCII text it is FNV-1a itself. *)
Theorem ft_hash_fnv : forall bs, Forall (fun b => b < 256)%N bs ->
  Z.of_N (ft_hash_bytes bs) = fnv1a fnv_offset (map signed_char bs)
  /\ (Forall (fun b => b < 128)%N bs -> Z.of_N (ft_hash_bytes bs) = fnv1a fnv_offset (map Z.of_N bs))
  /\ (ft_hash_bytes bs < 4294967296)%N.
Proof.
  intros bs F. unfold ft_hash_bytes, fnv_offset. change 2166136261%Z with (Z.of_N 2166136261).
  assert (G : forall h, (h < 4294967296)%N -> Z.of_N (fold_left hash_step bs h) = fnv1a (Z.of_N h) (map signed_char bs)
                                             /\ (fold_left hash_step bs h < 4294967296)%N).
  { induction F as [|b bs Hb F IH]; intros h Hh; [split; [reflexivity|exact Hh]|].
    cbn [fold_left map fnv1a]. rewrite <- hash_step_spec by assumption. apply IH. apply hash_step_range. }
  destruct (G 2166136261%N ltac:(lia)) as (G1 & G2). split; [exact G1|]. split; [|exact G2].
  intros A. rewrite G1. f_equal. apply map_ext_in. intros b Ib. rewrite Forall_forall in A. specialize (A b Ib).
  unfold signed_char. replace (b <? 128)%N with true by lia. reflexivity.
Qed.
Print Assumptions ft_hash_fnv.

(** Known values of /repo/gensim/test/test_fasttext.py 1186-1200. *)
Example ft_hash_example :
  map ft_hash_bytes [utf8 (str "asteroid"); utf8 (str "mysterious"); utf8 [1074; 1089; 1077; 1093]%N; utf8 [26413; 24140]%N]
  = [1988297200; 1903186891; 706328732; 3909947444]%N.
Proof. vm_compute. reflexivity. Qed.

(** Beyond ASCII it is not FNV-1a. *)
Theorem ft_hash_not_fnv_refuted : exists w, Z.of_N (ft_hash_bytes (utf8 w)) <> fnv1a fnv_offset (map Z.of_N (utf8 w)).
Proof. exists [233%N]. vm_compute. discriminate. Qed.
Print Assumptions ft_hash_not_fnv_refuted.

(** ** The n-grams of the text version *)

Lemma sorted_flat_map : forall {A} (lt : A -> A -> Prop) f n s,
  (forall a, StronglySorted lt (f a)) -> (forall a b x y, a < b -> In x (f a) -> In y (f b) -> lt x y) ->
  StronglySorted lt (flat_map f (seq s n)).
Proof.
  intros A lt f n. induction n as [|n IH]; intros s H1 H2; cbn; [constructor|].
  assert (Rest : Forall (fun y => forall x, In x (f s) -> lt x y) (flat_map f (seq (S s) n))).
  { apply Forall_forall. intros y Iy x Ix. apply in_flat_map in Iy. destruct Iy as (b & Ib & Iy). apply in_seq in Ib.
    apply (H2 s b); [lia | exact Ix | exact Iy]. }
  specialize (IH (S s) H1 H2). revert Rest. generalize (H1 s). generalize (f s) as l.
  induction l as [|x l IHl]; intros SS Rest; [exact IH|]. cbn. inversion SS; subst. constructor.
  - apply IHl; [assumption|]. eapply Forall_impl; [|exact Rest]. intros y Hy z Iz. apply Hy. right. exact Iz.
  - apply Forall_app. split; [assumption|]. eapply Forall_impl; [|exact Rest]. intros y Hy. apply Hy. left. reflexivity.
Qed.
Lemma sorted_map_seq : forall {A} (lt : A -> A -> Prop) f n s, (forall a b, a < b -> lt (f a) (f b)) -> StronglySorted lt (map f (seq s n)).
Proof.
  intros A lt f n. induction n as [|n IH]; intros s H; cbn; constructor; [apply IH; exact H|].
  apply Forall_forall. intros y Iy. apply in_map_iff in Iy. destruct Iy as (b & <- & Ib). apply in_seq in Ib. apply H. lia.
Qed.
Lemma sorted_filter : forall {A} (lt : A -> A -> Prop) p l, StronglySorted lt l -> StronglySorted lt (filter p l).
Proof.
  intros A lt p l. induction l as [|x l IH]; intros S; cbn; [constructor|]. inversion S as [|? ? S' F]; subst.
  destruct (p x); [|apply IH; exact S']. constructor; [apply IH; exact S'|].
  apply Forall_forall. intros y Iy. apply filter_In in Iy. rewrite Forall_forall in F. apply F. apply Iy.
Qed.

Lemma between_extended : forall word, between word = extended word.
Proof. intros. reflexivity. Qed.

Lemma slice_occurs : forall (w : pystr) i n, i + n <= length w -> length (slice w i (i + n)) = n /\ occurs_at w (slice w i (i + n)) i.
Proof.
  intros w i n H. unfold slice. replace (i + n - i) with n by lia. split; [rewrite firstn_length, skipn_length; lia|].
  exists (firstn i w), (skipn n (skipn i w)). split; [|rewrite firstn_length; lia].
  rewrite firstn_skipn. rewrite firstn_skipn. reflexivity.
Qed.

Theorem compute_ngrams_places : forall word min_n max_n,
  lists_places (between word) (fun i n => min_n <= n <= max_n /\ i + n <= length word + 2) before' (compute_ngrams word min_n max_n).
Proof.
  intros word min_n max_n. rewrite between_extended. unfold compute_ngrams. set (w := extended word).
  assert (L : length w = length word + 2) by (unfold w, extended; cbn [length]; rewrite app_length; cbn; lia).
  exists (flat_map (fun n => map (fun i => (i, n)) (range 0 (length w - n + 1))) (range min_n (Nat.min (length w) max_n + 1))).
  unfold range. split; [|split].
  - apply sorted_flat_map.
    + intros n. apply sorted_map_seq. intros a b H. right. cbn. lia.
    + intros a b x y H Ix Iy. apply in_map_iff in Ix. apply in_map_iff in Iy. destruct Ix as (? & <- & _). destruct Iy as (? & <- & _).
      left. cbn. exact H.
  - intros i n. rewrite in_flat_map. split.
    + intros (n' & In' & Ii). apply in_seq in In'. apply in_map_iff in Ii. destruct Ii as (i' & E & Ii). apply in_seq in Ii.
      injection E as -> ->. lia.
    + intros (H1 & H2). exists n. rewrite in_seq. split; [lia|]. apply in_map_iff. exists i. rewrite in_seq. split; [reflexivity|]. lia.
  - rewrite !flat_map_concat_map.
    assert (G : forall s k, s + k <= S (length w) ->
              Forall2 (fun (p : place) g => length g = snd p /\ occurs_at w g (fst p))
              (concat (map (fun n => map (fun i => (i, n)) (seq 0 (length w - n + 1 - 0))) (seq s k)))
              (concat (map (fun n => map (fun i => slice w i (i + n)) (seq 0 (length w - n + 1 - 0))) (seq s k)))).
    { intros s k. revert s. induction k as [|k IH]; intros s H; cbn [seq map concat]; [constructor|].
      apply Forall2_app; [|apply IH; lia].
      assert (G : forall t m, t + m <= length w - s + 1 ->
                Forall2 (fun (p : place) g => length g = snd p /\ occurs_at w g (fst p)) (map (fun i => (i, s)) (seq t m)) (map (fun i => slice w i (i + s)) (seq t m))).
      { intros t m. revert t. induction m as [|m IHm]; intros t Ht; cbn [seq map]; constructor; [|apply IHm; lia].
        cbn [fst snd]. apply slice_occurs. lia. }
      apply G. lia. }
    destruct (Nat.leb_spec min_n (Nat.min (length w) max_n + 1)) as [H|H]; [apply G; lia|].
    replace (Nat.min (length w) max_n + 1 - min_n) with 0 by lia. constructor.
Qed.
Print Assumptions compute_ngrams_places.

(** ** The n-grams of the byte version *)

Lemma continuation_range : forall b, (b < 256)%N -> continuation b = ((128 <=? b) && (b <? 192))%N.
Proof.
  intros b Hb.
  assert (A : forallb (fun k => let b := N.of_nat k in Bool.eqb (continuation b) ((128 <=? b) && (b <? 192))%N) (seq 0 256) = true)
    by (vm_compute; reflexivity).
  rewrite forallb_forall in A. specialize (A (N.to_nat b)). rewrite N2Nat.id in A. apply Bool.eqb_prop. apply A. apply in_seq. lia.
Qed.

(** A character is a leading byte and continuation bytes. *)
Lemma char_shape : forall c, valid_char c = true ->
  exists b bs, utf8_char c = b :: bs /\ continuation b = false /\ Forall (fun x => continuation x = true) bs.
Proof.
  intros c V. unfold valid_char in V. unfold utf8_char.
  assert (K : forall x, continuation (128 + x mod 64)%N = true) by (intros x; rewrite continuation_range; divlia).
  destruct (c <? 128)%N eqn:E1; [eexists _, _; split; [reflexivity|]; split; [rewrite continuation_range; lia | constructor]|].
  destruct (c <? 2048)%N eqn:E2.
  { eexists _, _. split; [reflexivity|]. split; [rewrite continuation_range by divlia; divlia | auto]. }
  destruct (c <? 65536)%N eqn:E3.
  { eexists _, _. split; [reflexivity|]. split; [rewrite continuation_range by divlia; divlia | auto]. }
  eexists _, _. split; [reflexivity|]. split; [rewrite continuation_range by divlia; divlia | auto].
Qed.
Lemma utf8_char_pos : forall c, 1 <= length (utf8_char c).
Proof. intros c. unfold utf8_char. destruct (_ <? _)%N; [|destruct (_ <? _)%N; [|destruct (_ <? _)%N]]; cbn; lia. Qed.
Lemma utf8_length : forall w, length w <= length (utf8 w).
Proof.
  induction w as [|c w IH]; [cbn; lia|]. cbn [utf8 flat_map length]. rewrite app_length. pose proof (utf8_char_pos c).
  unfold utf8 in IH. lia.
Qed.

Lemma skip_continuation_ok : forall cs a r fuel, Forall (fun x => continuation x = true) cs -> length cs <= fuel ->
  match r with [] => True | b :: _ => continuation b = false end ->
  skip_continuation fuel (a ++ cs ++ r) (length a) = length a + length cs.
Proof.
  induction cs as [|c cs IH]; intros a r fuel F L H.
  - cbn [app length]. rewrite Nat.add_0_r. destruct fuel as [|f]; [reflexivity|]. cbn [skip_continuation].
    rewrite nth_error_app2, Nat.sub_diag by lia. destruct r as [|b r]; cbn [nth_error]; [reflexivity|]. rewrite H. reflexivity.
  - inversion F as [|? ? Hc F']; subst. cbn [length] in L. destruct fuel as [|f]; [lia|]. cbn [skip_continuation].
    rewrite nth_error_app2, Nat.sub_diag by lia. cbn [app nth_error]. rewrite Hc.
    replace (a ++ c :: cs ++ r) with ((a ++ [c]) ++ cs ++ r) by (rewrite <- app_assoc; reflexivity).
    replace (length a + 1) with (length (a ++ [c])) by (rewrite app_length; reflexivity).
    rewrite IH by (assumption || lia). rewrite app_length. cbn [length]. lia.
Qed.

(** Byte position of a character. *)
Definition pos (w : pystr) (k : nat) : nat := length (utf8 (firstn k w)).

Lemma utf8_at : forall w k c, nth_error w k = Some c ->
  utf8 w = utf8 (firstn k w) ++ utf8_char c ++ utf8 (skipn (S k) w) /\ utf8 (firstn (S k) w) = utf8 (firstn k w) ++ utf8_char c.
Proof.
  induction w as [|x w IH]; intros k c H; [destruct k; discriminate|].
  destruct k as [|k]; cbn in H.
  - injection H as ->. cbn. rewrite app_nil_r. auto.
  - destruct (IH k c H) as (H1 & H2). cbn [firstn skipn utf8 flat_map] in *. fold (utf8 w). fold (utf8 (firstn k w)) in *.
    change (skipn (S (S k)) (x :: w)) with (skipn (S k) w). split.
    + rewrite H1 at 1. rewrite <- app_assoc. reflexivity.
    + change (flat_map utf8_char (firstn (S k) w)) with (utf8 (firstn (S k) w)). rewrite H2. rewrite <- app_assoc. reflexivity.
Qed.

Section Bytes.
Variable w : pystr.
Hypothesis V : Forall (fun c => valid_char c = true) w.
Let B := utf8 w.

Lemma at_char : forall k, k < length w -> exists b bs, nth_error B (pos w k) = Some b /\ continuation b = false
  /\ Forall (fun x => continuation x = true) bs /\ B = utf8 (firstn k w) ++ (b :: bs) ++ utf8 (skipn (S k) w)
  /\ pos w (S k) = pos w k + S (length bs).
Proof.
  intros k H. destruct (nth_error w k) as [c|] eqn:E; [|apply nth_error_None in E; lia].
  destruct (utf8_at w k c E) as (H1 & H2). rewrite Forall_forall in V. destruct (char_shape c (V c (nth_error_In _ _ E))) as (b & bs & S1 & S2 & S3).
  exists b, bs. rewrite S1 in *. split; [|split; [exact S2|split; [exact S3|split; [exact H1|]]]].
  - unfold B, pos. rewrite H1. rewrite nth_error_app2, Nat.sub_diag by lia. reflexivity.
  - unfold pos. rewrite H2, app_length. reflexivity.
Qed.

Lemma next_char : forall k, k < length w -> skip_continuation (length B) B (pos w k + 1) = pos w (S k).
Proof.
  intros k H. destruct (at_char k H) as (b & bs & H1 & H2 & H3 & H4 & H5). rewrite H5.
  assert (L : length bs <= length B) by (rewrite H4, !app_length; cbn [length]; lia).
  rewrite H4 in L |- * at 2. 
  replace (utf8 (firstn k w) ++ (b :: bs) ++ utf8 (skipn (S k) w)) with ((utf8 (firstn k w) ++ [b]) ++ bs ++ utf8 (skipn (S k) w))
    by (rewrite <- !app_assoc; reflexivity).
  replace (pos w k + 1) with (length (utf8 (firstn k w) ++ [b])) by (rewrite app_length; reflexivity).
  rewrite skip_continuation_ok.
  - rewrite app_length. cbn [length]. unfold pos. lia.
  - exact H3.
  - rewrite H4. exact L.
  - destruct (skipn (S k) w) as [|c r] eqn:E; cbn [utf8 flat_map]; [exact Logic.I|].
    assert (Ic : In c w) by (rewrite <- (firstn_skipn (S k) w), E; apply in_or_app; right; left; reflexivity).
    rewrite Forall_forall in V. destruct (char_shape c (V c Ic)) as (b' & bs' & -> & E' & _). exact E'.
Qed.

Lemma pos_full : pos w (length w) = length B.
Proof. unfold pos, B. rewrite firstn_all. reflexivity. Qed.
Lemma pos_lt : forall k, k < length w -> pos w k < length B.
Proof. intros k H. destruct (at_char k H) as (b & bs & H1 & _). apply nth_error_Some. rewrite H1. discriminate. Qed.
Lemma pos_mono : forall a b, a <= b -> b <= length w -> pos w a <= pos w b.
Proof.
  intros a b H L. induction H as [|b H IH]; [lia|]. destruct (at_char b ltac:(lia)) as (x & bs & _ & _ & _ & _ & E). specialize (IH ltac:(lia)). lia.
Qed.
Lemma pos_is_end : forall k, k <= length w -> (pos w k =? length B) = (k =? length w).
Proof.
  intros k H. destruct (Nat.eqb_spec k (length w)) as [->|N]; [rewrite pos_full; apply Nat.eqb_refl|].
  pose proof (pos_lt k ltac:(lia)). lia.
Qed.
Lemma pos_is_start : forall k, k <= length w -> (pos w k =? 0) = (k =? 0).
Proof.
  intros k H. destruct k as [|k]; [reflexivity|]. destruct (at_char k ltac:(lia)) as (x & bs & _ & _ & _ & _ & E). lia.
Qed.
Lemma byte_slice : forall a b, a <= b -> b <= length w -> slice B (pos w a) (pos w b) = utf8 (slice w a b).
Proof.
  intros a b H L. unfold slice.
  assert (E1 : B = utf8 (firstn a w) ++ utf8 (firstn (b - a) (skipn a w)) ++ utf8 (skipn (b - a) (skipn a w))).
  { rewrite <- !utf8_app. rewrite firstn_skipn, firstn_skipn. reflexivity. }
  assert (E2 : pos w b = pos w a + length (utf8 (firstn (b - a) (skipn a w)))).
  { unfold pos. rewrite <- app_length, <- utf8_app. f_equal. f_equal.
    rewrite <- (firstn_skipn a w) at 1. rewrite firstn_app. rewrite firstn_length, (firstn_all2 (firstn a w)) by (rewrite firstn_length; lia).
    f_equal. f_equal. lia. }
  rewrite E2, E1. unfold pos at 2 3. rewrite skipn_app, skipn_all, Nat.sub_diag. cbn [skipn app].
  replace (pos w a + length (utf8 (firstn (b - a) (skipn a w))) - length (utf8 (firstn a w))) with (length (utf8 (firstn (b - a) (skipn a w)))) by (unfold pos; lia).
  rewrite firstn_app, firstn_all, Nat.sub_diag. cbn [firstn]. apply app_nil_r.
Qed.

Variable min_n max_n : nat.
Definition eligibleb (a n : nat) : bool := (min_n <=? n) && negb ((n =? 1) && ((a =? 0) || (a + n =? length w))).

Lemma grow_ok : forall fuel a n, 1 <= n -> a < length w -> a + n - 1 <= length w -> length w - (a + n - 1) <= fuel ->
  grow fuel B min_n max_n (pos w a) (pos w (a + n - 1)) n
  = map (fun n' => utf8 (slice w a (a + n'))) (filter (eligibleb a) (seq n (Nat.min (length w + 1 - (a + n)) (max_n + 1 - n)))).
Proof.
  induction fuel as [|fuel IH]; intros a n H1 H2 H3 H4.
  - cbn [grow]. replace (Nat.min (length w + 1 - (a + n)) (max_n + 1 - n)) with 0 by lia. reflexivity.
  - cbn [grow]. destruct (Nat.eqb_spec (a + n - 1) (length w)) as [E|E].
    { replace (pos w (a + n - 1) <? length B) with false by (rewrite E, pos_full; lia). cbn [andb].
      replace (Nat.min (length w + 1 - (a + n)) (max_n + 1 - n)) with 0 by lia. reflexivity. }
    replace (pos w (a + n - 1) <? length B) with true by (pose proof (pos_lt (a + n - 1)); lia).
    destruct (n <=? max_n) eqn:En; cbn [andb].
    2:{ replace (Nat.min (length w + 1 - (a + n)) (max_n + 1 - n)) with 0 by lia. reflexivity. }
    rewrite next_char by lia. replace (S (a + n - 1)) with (a + n) by lia.
    rewrite pos_is_start, pos_is_end by lia. replace (pos w (a + n)) with (pos w (a + (n + 1) - 1)) at 2 by (f_equal; lia).
    rewrite IH by lia.
    replace (Nat.min (length w + 1 - (a + n)) (max_n + 1 - n)) with (S (Nat.min (length w + 1 - (a + (n + 1))) (max_n + 1 - (n + 1)))) by lia.
    cbn [seq filter]. replace (n + 1) with (S n) by lia. fold (eligibleb a n).
    destruct (eligibleb a n); cbn [map app]; [|reflexivity]. f_equal. apply byte_slice; lia.
Qed.

Definition starts_at (a : nat) : list pystr :=
  map (fun n => slice w a (a + n)) (filter (eligibleb a) (seq 1 (Nat.min (length w - a) max_n))).

Definition at_byte (i : nat) : list (list N) :=
  match nth_error B i with
  | Some b => if continuation b then [] else grow (length B) B min_n max_n i i 1
  | None => []
  end.

Lemma at_byte_start : forall a, a < length w -> at_byte (pos w a) = map utf8 (starts_at a).
Proof.
  intros a H. unfold at_byte. destruct (at_char a H) as (b & bs & H1 & H2 & _). rewrite H1, H2.
  replace (grow (length B) B min_n max_n (pos w a) (pos w a) 1) with (grow (length B) B min_n max_n (pos w a) (pos w (a + 1 - 1)) 1)
    by (f_equal; f_equal; lia).
  rewrite grow_ok; try lia.
  - unfold starts_at. rewrite map_map. f_equal. f_equal. f_equal. lia.
  - pose proof (utf8_length w). fold B in H0. lia.
Qed.

Lemma flat_map_nil : forall {A C} (f : A -> list C) l, (forall x, In x l -> f x = []) -> flat_map f l = [].
Proof. intros A C f l H. induction l as [|x l IH]; [reflexivity|]. cbn. rewrite (H x (or_introl eq_refl)). apply IH. intros y Iy. apply H. right. exact Iy. Qed.

Lemma at_bytes : forall k a, a + k = length w -> flat_map at_byte (seq (pos w a) (length B - pos w a)) = flat_map (fun a => map utf8 (starts_at a)) (seq a k).
Proof.
  induction k as [|k IH]; intros a H.
  - replace a with (length w) by lia. rewrite pos_full, Nat.sub_diag. reflexivity.
  - destruct (at_char a ltac:(lia)) as (b & bs & H1 & H2 & H3 & H4 & H5).
    pose proof (pos_mono (S a) (length w) ltac:(lia) ltac:(lia)) as M. rewrite pos_full in M.
    replace (length B - pos w a) with (S (length bs) + (length B - pos w (S a))) by lia.
    rewrite seq_app, flat_map_app. rewrite <- H5, (IH (S a)) by lia. cbn [seq flat_map]. f_equal.
    rewrite at_byte_start by lia.
    rewrite flat_map_nil; [apply app_nil_r|]. intros i Ii. apply in_seq in Ii. unfold at_byte.
    assert (E : nth_error B i = nth_error bs (i - S (pos w a))).
    { rewrite H4. rewrite nth_error_app2 by (unfold pos in *; lia). cbn [app]. unfold pos in *.
      replace (i - length (utf8 (firstn a w))) with (S (i - S (length (utf8 (firstn a w))))) by lia. cbn [nth_error].
      rewrite nth_error_app1 by lia. reflexivity. }
    rewrite E. destruct (nth_error bs (i - S (pos w a))) as [x|] eqn:Ex; [|reflexivity].
    rewrite Forall_forall in H3. rewrite (H3 x (nth_error_In _ _ Ex)). reflexivity.
Qed.

Lemma ngrams_bytes_ok : ngrams_of_bytes B min_n max_n = map utf8 (flat_map starts_at (seq 0 (length w))).
Proof.
  unfold ngrams_of_bytes, range. rewrite Nat.sub_0_r. pose proof (at_bytes (length w) 0 eq_refl) as A.
  change (pos w 0) with 0 in A. rewrite Nat.sub_0_r in A. unfold at_byte in A. rewrite A.
  rewrite !flat_map_concat_map. rewrite concat_map, map_map. reflexivity.
Qed.

Lemma starts_places : lists_places w (eligible (length w) min_n max_n) before (flat_map starts_at (seq 0 (length w))).
Proof.
  set (f := fun a => map (pair a) (filter (eligibleb a) (seq 1 (Nat.min (length w - a) max_n)))).
  exists (flat_map f (seq 0 (length w))). split; [|split].
  - apply sorted_flat_map.
    + intros a. unfold f. assert (S : StronglySorted lt (filter (eligibleb a) (seq 1 (Nat.min (length w - a) max_n)))).
      { apply sorted_filter. rewrite <- (map_id (seq _ _)). apply sorted_map_seq. auto. }
      induction S as [|x l S IH F]; cbn [map]; constructor; [exact IH|].
      apply Forall_forall. intros y Iy. apply in_map_iff in Iy. destruct Iy as (z & <- & Iz). rewrite Forall_forall in F. right. cbn. auto.
    + intros a b x y H Ix Iy. apply in_map_iff in Ix. apply in_map_iff in Iy. destruct Ix as (? & <- & _). destruct Iy as (? & <- & _).
      left. cbn. exact H.
  - intros i n. rewrite in_flat_map. unfold f, eligible, eligibleb. split.
    + intros (a & Ia & H). apply in_seq in Ia. apply in_map_iff in H. destruct H as (n' & E & H). injection E as -> ->.
      apply filter_In in H. destruct H as (H & E). apply in_seq in H. lia.
    + intros (H1 & H2 & H3 & H4). exists i. rewrite in_seq. split; [lia|]. apply in_map. apply filter_In. rewrite in_seq. lia.
  - assert (G : forall l, Forall (fun a => a < length w) l ->
              Forall2 (fun (p : place) g => length g = snd p /\ occurs_at w g (fst p)) (flat_map f l) (flat_map starts_at l)).
    { induction l as [|a l IHl]; intros F; cbn [flat_map]; [constructor|]. inversion F; subst. apply Forall2_app; [|apply IHl; assumption].
      unfold f, starts_at.
      assert (G : forall m, Forall (fun n => a + n <= length w) m ->
        Forall2 (fun (p : place) g => length g = snd p /\ occurs_at w g (fst p)) (map (pair a) m) (map (fun n => slice w a (a + n)) m)).
      { induction m as [|n m IHm]; intros Fm; cbn [map]; constructor; inversion Fm; subst; [|apply IHm; assumption].
        cbn [fst snd]. apply slice_occurs. assumption. }
      apply G. apply Forall_forall. intros n Hn. apply filter_In in Hn. destruct Hn as (Hn & _). apply in_seq in Hn. lia. }
    apply G. apply Forall_forall. intros a Ha. apply in_seq in Ha. lia.
Qed.
End Bytes.

(** The byte version lists the UTF-8 encodings of the eligible places, every place once, by start then length. *)
Theorem compute_ngrams_bytes_places : forall word min_n max_n, Forall (fun c => valid_char c = true) word ->
  exists grams, compute_ngrams_bytes word min_n max_n = Ok (map utf8 grams)
    /\ lists_places (between word) (eligible (length word + 2) min_n max_n) before grams.
Proof.
  intros word min_n max_n V. rewrite between_extended.
  assert (L : length (extended word) = length word + 2) by (unfold extended; cbn [length]; rewrite app_length; cbn; lia).
  assert (V' : Forall (fun c => valid_char c = true) (extended word)).
  { constructor; [reflexivity|]. apply Forall_app. split; [exact V|]. constructor; [reflexivity|constructor]. }
  exists (flat_map (starts_at (extended word) min_n max_n) (seq 0 (length (extended word)))). rewrite <- L. split.
  - unfold compute_ngrams_bytes. replace (forallb valid_char (extended word)) with true.
    + rewrite ngrams_bytes_ok by exact V'. reflexivity.
    + symmetry. apply forallb_forall. rewrite Forall_forall in V'. exact V'.
  - apply starts_places.
Qed.
Print Assumptions compute_ngrams_bytes_places.

(** From two characters on both versions list the same n-grams, with the same multiplicities. *)
Lemma occurs_unique : forall w g g' i, length g = length g' -> occurs_at w g i -> occurs_at w g' i -> g = g'.
Proof.
  intros w g g' i L (a & b & E & La) (a' & b' & E' & La'). subst w i.
  assert (a = a' /\ g ++ b = g' ++ b') as (-> & E).
  { clear -E' La'. revert a' E' La'. induction a as [|x a IH]; intros [|x' a'] E' La'; cbn in *; try discriminate; [auto|].
    injection E' as -> E'. destruct (IH a' E') as (-> & ->); [lia|auto]. }
  clear -L E. revert g' L E. induction g as [|x g IH]; intros [|x' g'] L E; cbn in *; try discriminate; [reflexivity|].
  injection E as -> E. f_equal. apply IH; [lia|exact E].
Qed.
Lemma sorted_NoDup : forall {A} (lt : A -> A -> Prop) l, (forall x, ~ lt x x) -> StronglySorted lt l -> NoDup l.
Proof.
  intros A lt l I S. induction S as [|x l S IH F]; constructor; [|exact IH].
  intro Ix. rewrite Forall_forall in F. apply (I x). apply F. exact Ix.
Qed.
Lemma places_permutation : forall w (P Q : nat -> nat -> Prop) gs hs,
  (forall i n, P i n <-> Q i n) -> lists_places w P before gs -> lists_places w Q before' hs -> Permutation gs hs.
Proof.
  intros w P Q gs hs PQ (ps & S1 & M1 & F1) (qs & S2 & M2 & F2).
  assert (Pp : Permutation ps qs).
  { apply NoDup_Permutation.
    - apply (sorted_NoDup before); [intros x [H|[_ H]]; lia | exact S1].
    - apply (sorted_NoDup before'); [intros x [H|[_ H]]; lia | exact S2].
    - intros (i, n). rewrite M1, M2. apply PQ. }
  assert (Sb : forall (p : place) ps gs, Forall2 (fun p g => length g = snd p /\ occurs_at w g (fst p)) ps gs ->
            gs = map (fun p => slice w (fst p) (fst p + snd p)) ps).
  { intros _ l l' F. induction F as [|p g l l' (L & O) F IH]; [reflexivity|]. cbn [map]. f_equal; [|exact IH].
    assert (B : fst p + snd p <= length w).
    { destruct O as (a & b & E & La). rewrite E, !app_length. lia. }
    apply (occurs_unique w g _ (fst p)); [|exact O|apply slice_occurs; exact B]. rewrite L. symmetry. apply slice_occurs. exact B. }
  rewrite (Sb (0, 0) ps gs F1), (Sb (0, 0) qs hs F2). apply Permutation_map. exact Pp.
Qed.
Theorem ngrams_same : forall word min_n max_n, Forall (fun c => valid_char c = true) word -> 2 <= min_n ->
  exists grams, compute_ngrams_bytes word min_n max_n = Ok (map utf8 grams) /\ Permutation grams (compute_ngrams word min_n max_n).
Proof.
  intros word min_n max_n V H. destruct (compute_ngrams_bytes_places word min_n max_n V) as (grams & E & L).
  exists grams. split; [exact E|].
  apply (places_permutation (between word) (eligible (length word + 2) min_n max_n) (fun i n => min_n <= n <= max_n /\ i + n <= length word + 2)); [|exact L|apply compute_ngrams_places].
  intros i n. unfold eligible. split; [lia|]. intros (H1 & H2). repeat split; try lia.
Qed.
Print Assumptions ngrams_same.

(** Not so for single characters: only the text version lists '<' and '>'. *)
Theorem ngrams_single_refuted : exists word,
  compute_ngrams word 1 1 = [str "<"; str "a"; str ">"] /\ compute_ngrams_bytes word 1 1 = Ok [str "a"].
Proof. exists (str "a"). vm_compute. auto. Qed.
Print Assumptions ngrams_single_refuted.

(** A word with a lone surrogate has no n-grams at all: an error, even though the text version works. *)
Theorem ngrams_surrogate_refuted : exists word,
  compute_ngrams_bytes word 2 2 = Err UnicodeErr /\ length (compute_ngrams word 2 2) = 2.
Proof. exists [55296%N]. vm_compute. auto. Qed.
Print Assumptions ngrams_surrogate_refuted.

(** /repo/gensim/test/test_fasttext.py 1238-1261. *)
Example ngrams_example :
  compute_ngrams (str "test") 3 5 = map str ["<te"; "tes"; "est"; "st>"; "<tes"; "test"; "est>"; "<test"; "test>"]%string
  /\ compute_ngrams_bytes (str "test") 3 5 = Ok (map str ["<te"; "<tes"; "<test"; "tes"; "test"; "test>"; "est"; "est>"; "st>"]%string)
  /\ compute_ngrams_bytes [35430; 12375]%N 3 5
     = Ok [[60; 232; 169; 166; 227; 129; 151]; [60; 232; 169; 166; 227; 129; 151; 62]; [232; 169; 166; 227; 129; 151; 62]]%N
  /\ compute_ngrams_bytes [233%N] 1 9 = Ok [[60; 195; 169]; [60; 195; 169; 62]; [195; 169]; [195; 169; 62]]%N
  /\ compute_ngrams_bytes [] 3 6 = Ok [].
Proof. vm_compute. auto 10. Qed.

(** ** Buckets *)
Theorem ngram_hashes : forall word minn maxn buckets, Forall (fun c => valid_char c = true) word -> (0 < buckets)%N ->
  exists grams hs, compute_ngrams_bytes word minn maxn = Ok (map utf8 grams)
    /\ lists_places (between word) (eligible (length word + 2) minn maxn) before grams
    /\ ft_ngram_hashes word minn maxn buckets = Ok hs
    /\ Forall2 (fun g h => (h < buckets)%N /\ exists q, ft_hash_bytes (utf8 g) = q * buckets + h)%N grams hs.
Proof.
  intros word minn maxn buckets V H. destruct (compute_ngrams_bytes_places word minn maxn V) as (grams & E & L).
  exists grams. unfold ft_ngram_hashes. rewrite E. cbn [rbind]. replace (buckets =? 0)%N with false by lia.
  assert (G : forall l, exists hs, rmapM (fun g => Ok (ft_hash_bytes g mod buckets)%N) (map utf8 l) = Ok hs
            /\ Forall2 (fun g h => (h < buckets)%N /\ exists q, ft_hash_bytes (utf8 g) = q * buckets + h)%N l hs).
  { induction l as [|g l (hs & E1 & F)]; [exists []; split; [reflexivity|constructor]|].
    exists ((ft_hash_bytes (utf8 g) mod buckets)%N :: hs). split; [cbn [map rmapM rbind]; rewrite E1; reflexivity|].
    constructor; [|exact F]. split; [apply N.mod_lt; lia|]. exists (ft_hash_bytes (utf8 g) / buckets)%N.
    rewrite N.mul_comm. apply N.div_mod. lia. }
  destruct (G grams) as (hs & E1 & F). exists hs. auto.
Qed.
Print Assumptions ngram_hashes.
Example ngram_hashes_example : ft_ngram_hashes (str "ab") 3 6 100 = Ok [8; 42; 56]%N /\ ft_ngram_hashes (str "ab") 3 6 0 = Err ZeroDivErr.
Proof. vm_compute. auto. Qed.
