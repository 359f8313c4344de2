(** Proofs about fastText word vectors. *)

From Coq Require Import Reals Lra.
From Verif Require Import Base Str MatReal_Model KeyedVectors_Model KeyedVectors_Proofs LineCorpora_Proofs W2vFormat_Model
  FtNgrams_Model FtNgrams_Spec FtNgrams_Properties FtVectors_Model FtVectors_Spec.
From Coq Require Import ZifyBool ZifyNat ZifyN.
Local Open Scope nat_scope.

(** ** Sums and means *)
Lemma vadd_length : forall a b, length (vadd a b) = Nat.min (length a) (length b).
Proof. intros. unfold vadd. rewrite map_length, combine_length. reflexivity. Qed.
Lemma vadd_coordinate : forall a b j, length a = length b -> coordinate (vadd a b) j = (coordinate a j + coordinate b j)%R.
Proof.
  unfold coordinate, vadd. induction a as [|x a IH]; intros [|y b] j L; try discriminate; cbn.
  - destruct j; cbn; lra.
  - destruct j; [reflexivity|]. apply IH. cbn in L. lia.
Qed.
Lemma vdiv_coordinate : forall a r j, coordinate (vdiv a r) j = (coordinate a j / r)%R.
Proof.
  unfold coordinate, vdiv. induction a as [|x a IH]; intros r j; cbn.
  - destruct j; unfold Rdiv; lra.
  - destruct j; [reflexivity|]. apply IH.
Qed.
Lemma vzero_coordinate : forall n j, coordinate (vzero n) j = 0%R.
Proof. unfold coordinate, vzero. induction n as [|n IH]; intros [|j]; cbn; auto. Qed.

Lemma add_rows_ok : forall n (rows : list vec) hs (acc : vec), length acc = n -> Forall (fun v => length v = n) rows -> Forall (fun h => h < length rows) hs ->
  exists s rs, add_rows rows hs acc = Ok s /\ Forall2 (fun h r => nth_error rows h = Some r) hs rs /\ length s = n
    /\ forall j, coordinate s j = (coordinate acc j + total rs j)%R.
Proof.
  intros n rows hs. induction hs as [|h hs IH]; intros acc La W F.
  - exists acc, []. split; [reflexivity|]. split; [constructor|]. split; [exact La|]. intros j. cbn. lra.
  - inversion F as [|? ? Hh F']; subst. destruct (nth_error rows h) as [r|] eqn:E; [|apply nth_error_None in E; lia].
    assert (Lr : length r = length acc) by (rewrite Forall_forall in W; apply W; apply (nth_error_In _ _ E)).
    destruct (IH (vadd acc r)) as (s & rs & E1 & E2 & E3 & E4).
    { rewrite vadd_length. lia. } { exact W. } { exact F'. }
    exists s, (r :: rs). cbn [add_rows]. rewrite E. cbn [of_option rbind]. split; [exact E1|]. split; [constructor; assumption|].
    split; [exact E3|]. intros j. rewrite E4, vadd_coordinate by lia. cbn [total fold_right]. fold (total rs j). lra.
Qed.

Lemma mean_unique : forall n vs v v', vs <> [] -> mean_of n vs v -> mean_of n vs v' -> v = v'.
Proof.
  intros n vs v v' NE (L & H) (L' & H').
  assert (P : (INR (length vs) <> 0)%R) by (destruct vs; [congruence|]; cbn [length]; apply not_0_INR; lia).
  apply (nth_ext v v' 0%R 0%R); [lia|]. intros j Hj. specialize (H j ltac:(lia)). specialize (H' j ltac:(lia)). unfold coordinate in *.
  apply (Rmult_eq_reg_l (INR (length vs))); [lra|exact P].
Qed.
Lemma mean_div : forall n own rs (s : vec), length s = n -> (forall j, coordinate s j = (coordinate own j + total rs j)%R) ->
  mean_of n (own :: rs) (vdiv s (INR (length rs + 1))).
Proof.
  intros n own rs s L H. split; [unfold vdiv; rewrite map_length; exact L|]. intros j _. rewrite vdiv_coordinate, H.
  cbn [length total fold_right]. fold (total rs j). replace (S (length rs)) with (length rs + 1) by lia. field.
  apply not_0_INR. lia.
Qed.

(** ** Buckets *)
Lemma hashes_in_range : forall word a b bk hs, ft_ngram_hashes word a b bk = Ok hs -> Forall (fun h => (h < bk)%N) hs.
Proof.
  intros word a b bk hs. unfold ft_ngram_hashes. destruct (compute_ngrams_bytes word a b) as [gs|e]; [|discriminate]. cbn [rbind].
  intros H. apply rmapM_inv in H. induction H as [|g h gs hs E F IH]; constructor; [|exact IH].
  destruct (bk =? 0)%N eqn:E0; [discriminate|]. injection E as <-. apply N.mod_lt. lia.
Qed.

Lemma recalc_ok : forall m, (bucket m <> 0%N -> Forall (fun w => exists hs, ft_ngram_hashes w (min_n m) (max_n m) (bucket m) = Ok hs) (index_to_key m)) ->
  exists bs, recalc_char_ngram_buckets m = Ok (with_buckets m bs)
    /\ length bs = length (index_to_key m)
    /\ (bucket m <> 0%N -> forall i w, nth_error (index_to_key m) i = Some w ->
         exists hs, ft_ngram_hashes w (min_n m) (max_n m) (bucket m) = Ok hs /\ nth_error bs i = Some (map N.to_nat hs)).
Proof.
  intros m H. unfold recalc_char_ngram_buckets. destruct (bucket m =? 0)%N eqn:E0.
  { eexists. split; [reflexivity|]. split; [apply map_length|]. lia. }
  specialize (H ltac:(lia)).
  assert (G : forall ws, Forall (fun w => exists hs, ft_ngram_hashes w (min_n m) (max_n m) (bucket m) = Ok hs) ws ->
    exists bs, rmapM (fun word => rmap (map N.to_nat) (ft_ngram_hashes word (min_n m) (max_n m) (bucket m))) ws = Ok bs
      /\ length bs = length ws /\ forall i w, nth_error ws i = Some w ->
         exists hs, ft_ngram_hashes w (min_n m) (max_n m) (bucket m) = Ok hs /\ nth_error bs i = Some (map N.to_nat hs)).
  { intros ws F. induction F as [|w ws (hs & E) F (bs & B1 & B2 & B3)].
    - exists []. split; [reflexivity|]. split; [reflexivity|]. intros [|i] w; discriminate.
    - exists (map N.to_nat hs :: bs). cbn [rmapM]. rewrite E. cbn [rmap rbind]. rewrite B1. split; [reflexivity|].
      split; [cbn; lia|]. intros [|i] w' Hw; cbn in Hw |- *; [injection Hw as <-; eauto|apply B3; exact Hw]. }
  destruct (G _ H) as (bs & B1 & B2 & B3). rewrite B1. exists bs. auto.
Qed.

Lemma Forall2_same_length : forall {A B} (P : A -> B -> Prop) l l', Forall2 P l l' -> length l = length l'.
Proof. intros A B P l l' F. induction F; cbn; congruence. Qed.

(** ** adjust_vectors *)
Lemma adjust_rows_ok : forall m n k s (vs : list vec),
  Forall (fun v => length v = n) vs -> Forall (fun v => length v = n) (vectors_ngrams m) ->
  s + k <= length vs ->
  (forall i, s <= i < s + k -> exists hs, nth_error (buckets_word m) i = Some hs /\ Forall (fun h => h < length (vectors_ngrams m)) hs) ->
  exists vs', adjust_rows m (seq s k) vs = Ok vs' /\ length vs' = length vs
    /\ (forall i, i < s -> nth_error vs' i = nth_error vs i)
    /\ (forall i own, s <= i < s + k -> nth_error vs i = Some own ->
        exists hs rows v, nth_error (buckets_word m) i = Some hs /\ Forall2 (fun h r => nth_error (vectors_ngrams m) h = Some r) hs rows
          /\ nth_error vs' i = Some v /\ mean_of n (own :: rows) v).
Proof.
  intros m n k. induction k as [|k IH]; intros s vs W1 W2 L B.
  - exists vs. cbn [seq adjust_rows]. repeat split; auto. intros; lia.
  - cbn [seq adjust_rows]. destruct (B s ltac:(lia)) as (hs & Eh & Fh). rewrite Eh. cbn [of_option rbind].
    destruct (nth_error vs s) as [own|] eqn:Eo; [|apply nth_error_None in Eo; lia]. cbn [of_option rbind].
    assert (Lo : length own = n) by (rewrite Forall_forall in W1; apply W1; apply (nth_error_In _ _ Eo)).
    destruct (add_rows_ok n (vectors_ngrams m) hs own Lo W2 Fh) as (sm & rs & A1 & A2 & A3 & A4). rewrite A1. cbn [rbind].
    assert (Lrs : length hs = length rs) by (eapply Forall2_same_length; exact A2).
    set (v := vdiv sm (INR (length hs + 1))).
    destruct (IH (S s) (set_nth vs s v)) as (vs' & I1 & I2 & I3 & I4).
    { apply Forall_forall. intros x Hx. destruct (In_nth_error _ _ Hx) as (i & Hi). rewrite nth_error_set_nth in Hi.
      rewrite Forall_forall in W1. destruct ((i =? s) && (s <? length vs)) eqn:Ei; [|apply W1; apply (nth_error_In _ _ Hi)].
      injection Hi as <-. unfold v, vdiv. rewrite map_length. exact A3. }
    { exact W2. } { rewrite set_nth_length. lia. } { intros i Hi. apply B. lia. }
    rewrite set_nth_length in I2. exists vs'. split; [exact I1|]. split; [exact I2|]. split.
    + intros i Hi. rewrite I3 by lia. rewrite nth_error_set_nth. replace (i =? s) with false by lia. reflexivity.
    + intros i own' Hi Ho. destruct (Nat.eq_dec i s) as [->|Ne].
      * exists hs, rs, v. split; [exact Eh|]. split; [exact A2|]. rewrite Eo in Ho. injection Ho as <-. split.
        -- rewrite I3 by lia. rewrite nth_error_set_nth, Nat.eqb_refl. replace (s <? length vs) with true by lia. reflexivity.
        -- unfold v. rewrite Lrs. apply mean_div; assumption.
      * apply I4; [lia|]. rewrite nth_error_set_nth. replace (i =? s) with false by lia. exact Ho.
Qed.

(** What is needed to compute the vectors. *)
Record ready (m : ftkv) : Prop := {
  re_rows : length (vectors_vocab m) = length (index_to_key m);
  re_width : Forall (fun v => length v = vector_size m) (vectors_vocab m);
  re_ngrams : length (vectors_ngrams m) = N.to_nat (bucket m);
  re_ngwidth : Forall (fun v => length v = vector_size m) (vectors_ngrams m);
  re_keys : forall w i, dget (key_to_index m) w = Some i <-> nth_error (index_to_key m) i = Some w;
  re_encodable : bucket m <> 0%N -> Forall (fun w => exists hs, ft_ngram_hashes w (min_n m) (max_n m) (bucket m) = Ok hs) (index_to_key m)
}.
Lemma coherent_ready : forall m, coherent m -> ready m.
Proof. intros m [? ? ? ? ? ? ? ? ? ?]. constructor; assumption. Qed.

Lemma Forall2_map_l : forall {A B C} (f : A -> B) (P : B -> C -> Prop) l l', Forall2 P (map f l) l' -> Forall2 (fun a c => P (f a) c) l l'.
Proof. intros A B C f P l. induction l as [|a l IH]; intros l' F; inversion F; subst; constructor; auto. Qed.

(** Everything but the derived values is the same. *)
Definition same_weights (m m' : ftkv) : Prop :=
  index_to_key m' = index_to_key m /\ key_to_index m' = key_to_index m /\ counts m' = counts m /\ bucket m' = bucket m /\ min_n m' = min_n m
  /\ max_n m' = max_n m /\ vector_size m' = vector_size m /\ vectors_vocab m' = vectors_vocab m /\ vectors_ngrams m' = vectors_ngrams m.

Definition good_buckets (m : ftkv) : Prop :=
  bucket m <> 0%N -> forall i w, nth_error (index_to_key m) i = Some w ->
    exists hs, ft_ngram_hashes w (min_n m) (max_n m) (bucket m) = Ok hs /\ nth_error (buckets_word m) i = Some (map N.to_nat hs).

Lemma adjust_ok : forall m, ready m -> good_buckets m ->
  exists m', adjust_vectors m = Ok m'
    /\ same_weights m m' /\ norms m' = norms m /\ good_buckets m'
    /\ length (vectors m') = length (index_to_key m)
    /\ (forall i v, nth_error (vectors m') i = Some v -> word_vector m' i v).
Proof.
  intros m [R1 R2 R3 R4 R5 R6] Hb.
  unfold adjust_vectors. destruct (bucket m =? 0)%N eqn:E0.
  - eexists. split; [reflexivity|]. split; [repeat split|]. split; [reflexivity|]. split; [exact Hb|]. unfold vectors, aliased, word_vector. cbn. rewrite E0.
    split; [exact R1|]. intros i v Hv. assert (i < length (index_to_key m)) by (rewrite <- R1; apply nth_error_Some; congruence).
    destruct (nth_error (index_to_key m) i) as [w|] eqn:Ew; [|apply nth_error_None in Ew; lia]. exists w, v. auto.
  - assert (Hb' : bucket m <> 0%N) by lia. pose proof Hb as Hgb. specialize (Hb Hb').
    destruct (adjust_rows_ok m (vector_size m) (length (index_to_key m)) 0 (vectors_vocab m)) as (vs & A1 & A2 & _ & A4).
    { exact R2. } { exact R4. } { lia. }
    { intros i Hi. destruct (nth_error (index_to_key m) i) as [w|] eqn:Ew; [|apply nth_error_None in Ew; lia].
      destruct (Hb i w Ew) as (hs & Eh & En). exists (map N.to_nat hs). split; [exact En|]. apply hashes_in_range in Eh.
      rewrite R3. apply Forall_forall. intros x Hx. apply in_map_iff in Hx. destruct Hx as (h & <- & Hh). rewrite Forall_forall in Eh.
      specialize (Eh h Hh). lia. }
    rewrite A1. cbn [rbind].
    unfold with_vectors, aliased. rewrite E0.
    eexists. split; [reflexivity|]. split; [repeat split|]. split; [reflexivity|]. split; [exact Hgb|].
    unfold vectors, aliased, word_vector. cbn. rewrite E0. split; [lia|].
    intros i v Hv. assert (i < length (index_to_key m)) by (rewrite <- R1, <- A2; apply nth_error_Some; congruence).
    destruct (nth_error (index_to_key m) i) as [w|] eqn:Ew; [|apply nth_error_None in Ew; lia].
    destruct (nth_error (vectors_vocab m) i) as [own|] eqn:Eo; [|apply nth_error_None in Eo; lia].
    destruct (A4 i own ltac:(lia) Eo) as (hs & rows & v' & B1 & B2 & B3 & B4). rewrite B3 in Hv. injection Hv as ->.
    destruct (Hb i w Ew) as (hs' & Eh & En). rewrite En in B1. injection B1 as <-.
    exists w, own. split; [reflexivity|]. split; [reflexivity|]. exists rows. split; [|exact B4].
    exists hs'. split; [exact Eh|]. apply (Forall2_map_l N.to_nat) in B2. exact B2.
Qed.

Lemma same_weights_trans : forall a b c, same_weights a b -> same_weights b c -> same_weights a c.
Proof. unfold same_weights. intros a b c H H'. decompose [and] H. decompose [and] H'. repeat split; congruence. Qed.

Lemma compute_ok : forall m, ready m ->
  exists m', (let* m1 := recalc_char_ngram_buckets m in adjust_vectors m1) = Ok m'
    /\ same_weights m m' /\ norms m' = norms m /\ good_buckets m'
    /\ length (vectors m') = length (index_to_key m)
    /\ (forall i v, nth_error (vectors m') i = Some v -> word_vector m' i v).
Proof.
  intros m R. pose proof R as [R1 R2 R3 R4 R5 R6]. destruct (recalc_ok m R6) as (bs & E & Lb & Hb). rewrite E. cbn [rbind].
  destruct (adjust_ok (with_buckets m bs)) as (m' & A).
  - constructor; assumption.
  - exact Hb.
  - exists m'. exact A.
Qed.

Lemma make_coherent : forall m m', ready m -> same_weights m m' -> good_buckets m' -> length (vectors m') = length (index_to_key m) ->
  (forall i v, nth_error (vectors m') i = Some v -> word_vector m' i v) -> (forall l, norms m' = Some l -> l = map vnorm (vectors m')) -> coherent m'.
Proof.
  intros m m' [R1 R2 R3 R4 R5 R6] (S1 & S2 & S3 & S4 & S5 & S6 & S7 & S8 & S9) G L H Nm.
  constructor; auto; rewrite ?S1, ?S2, ?S4, ?S5, ?S6, ?S7, ?S8, ?S9; auto.
Qed.

(** The word vectors are determined by the weights. *)
Lemma rows_unique : forall m w rows rows', gram_rows m w rows -> gram_rows m w rows' -> rows = rows'.
Proof.
  intros m w rows rows' (hs & E & F) (hs' & E' & F'). rewrite E in E'. injection E' as <-. clear E. revert rows' F'.
  induction F as [|h r hs rows E F IH]; intros rows' F'; inversion F'; subst; [reflexivity|]. f_equal; [congruence|]. auto.
Qed.
Lemma word_vector_unique : forall m m' i v v', same_weights m m' -> word_vector m i v -> word_vector m' i v' -> v = v'.
Proof.
  intros m m' i v v' (S1 & S2 & S3 & S4 & S5 & S6 & S7 & S8 & S9) (w & own & E1 & E2 & H) (w' & own' & E1' & E2' & H').
  rewrite S1 in E1'. rewrite E1 in E1'. injection E1' as <-. rewrite S8, E2 in E2'. injection E2' as <-. rewrite S4 in H'.
  destruct (bucket m =? 0)%N; [congruence|]. destruct H as (rows & G & M). destruct H' as (rows' & G' & M').
  assert (rows = rows').
  { apply (rows_unique m w); [exact G|]. unfold gram_rows in *. rewrite S4, S5, S6, S9 in G'. exact G'. }
  subst rows'. rewrite S7 in M'. apply (mean_unique (vector_size m) (own :: rows)); [discriminate|exact M|exact M'].
Qed.
Lemma vectors_unique : forall m m', same_weights m m' -> length (vectors m) = length (vectors m') ->
  (forall i v, nth_error (vectors m) i = Some v -> word_vector m i v) ->
  (forall i v, nth_error (vectors m') i = Some v -> word_vector m' i v) -> vectors m' = vectors m.
Proof.
  intros m m' S L H H'. apply (nth_ext _ _ [] []); [lia|]. intros i Hi.
  symmetry. apply (word_vector_unique m m' i); [exact S| |].
  - apply H. apply nth_error_nth'. lia.
  - apply H'. apply nth_error_nth'. lia.
Qed.
