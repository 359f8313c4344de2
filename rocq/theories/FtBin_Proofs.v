(** Reading back what was written in Facebook's binary format. *)

From Coq Require Import ZifyBool ZifyNat ZifyN.
From Verif Require Import Base Str W2vFormat_Model FtBin_Model FtBin_Spec.
Local Open Scope nat_scope.

(** ** Bytes *)
Lemma le_len : forall k z, length (le k z) = k.
Proof. induction k; intros z; cbn [le length]; auto. Qed.

Lemma unle_le : forall k z, unle (le k z) = (z mod 2 ^ (8 * Z.of_nat k))%Z.
Proof.
  induction k as [|k IH]; intros z.
  - cbn [le unle]. change (8 * Z.of_nat 0)%Z with 0%Z. change (2 ^ 0)%Z with 1%Z. rewrite Z.mod_1_r. reflexivity.
  - cbn [le unle]. rewrite IH. rewrite Z2N.id by (apply Z.mod_pos_bound; lia).
    replace (2 ^ (8 * Z.of_nat (S k)))%Z with (256 * 2 ^ (8 * Z.of_nat k))%Z.
    2:{ replace (8 * Z.of_nat (S k))%Z with (8 + 8 * Z.of_nat k)%Z by lia. rewrite Z.pow_add_r by lia. reflexivity. }
    rewrite Z.rem_mul_r by lia. reflexivity.
Qed.

Lemma signed_le : forall k z, 0 < k -> fits (Z.of_nat k) z -> signed k (unle (le k z)) = z.
Proof.
  intros k z Hk [H1 H2]. rewrite unle_le. unfold signed.
  assert (E : (2 ^ (8 * Z.of_nat k) = 2 * 2 ^ (8 * Z.of_nat k - 1))%Z).
  { rewrite <- Z.pow_succ_r by lia. f_equal. lia. }
  set (h := (2 ^ (8 * Z.of_nat k - 1))%Z) in *. rewrite E.
  destruct (Z_lt_le_dec z 0) as [L|L].
  - replace (z mod (2 * h))%Z with (z + 2 * h)%Z.
    + replace (z + 2 * h <? h)%Z with false by lia. lia.
    + rewrite <- (Z_mod_plus_full z 1 (2 * h)). rewrite Z.mod_small by lia. lia.
  - rewrite Z.mod_small by lia. replace (z <? h)%Z with true by lia. reflexivity.
Qed.

Lemma unle_pattern : forall k z, pattern (Z.of_nat k) z -> unle (le k z) = z.
Proof. intros k z H. rewrite unle_le. apply Z.mod_small. exact H. Qed.

Lemma read_app : forall a b n, length a = n -> read n (a ++ b) = (a, b).
Proof.
  intros a b n <-. unfold read. rewrite firstn_app, Nat.sub_diag, firstn_all, firstn_O, app_nil_r.
  rewrite skipn_app, Nat.sub_diag, skipn_all. reflexivity.
Qed.

Lemma read_raw_le : forall k z r, pattern (Z.of_nat k) z -> read_raw k (le k z ++ r) = Ok (z, r).
Proof.
  intros k z r H. unfold read_raw. rewrite read_app by apply le_len. rewrite le_len, Nat.eqb_refl.
  rewrite unle_pattern by exact H. reflexivity.
Qed.

Lemma read_int_le : forall k z r, 0 < k -> fits (Z.of_nat k) z -> read_int k (le k z ++ r) = Ok (z, r).
Proof.
  intros k z r Hk H. unfold read_int, read_raw. rewrite read_app by apply le_len. rewrite le_len, Nat.eqb_refl.
  cbn [rbind fst snd]. rewrite signed_le by assumption. reflexivity.
Qed.

Opaque le.

(** ** The header *)
Definition ftype_good (t : ftype) (v : Z) : Prop := match t with TInt => fits 4 v | TDouble => pattern 8 v end.

Lemma read_ftype_le : forall t v r, ftype_good t v -> read_ftype t (le (ftype_size t) v ++ r) = Ok (v, r).
Proof.
  intros [] v r H; cbn [read_ftype ftype_size].
  - apply read_int_le; [lia | exact H].
  - apply read_raw_le. exact H.
Qed.

Lemma read_header_ok : forall m lr wn spec a r,
  args_save m lr wn spec = Ok a ->
  (forall f t v, In (f, t) spec -> get_field m lr wn f = Ok v -> ftype_good t v) ->
  NoDup (map fst spec) ->
  exists h, read_header spec (a ++ r) = Ok (h, r) /\
    map fst h = map fst spec /\
    forall f v, In f (map fst spec) -> get_field m lr wn f = Ok v -> dget h f = Some v.
Proof.
  intros m lr wn spec. induction spec as [|(f, t) spec IH]; intros a r E G ND.
  - injection E as <-. exists []. cbn. repeat split. intros f v [].
  - cbn [args_save] in E. destruct (get_field m lr wn f) as [v|] eqn:Ev; [|discriminate].
    cbn [rbind] in E. destruct (args_save m lr wn spec) as [a'|] eqn:Ea; [|discriminate].
    cbn [rbind] in E. injection E as <-. cbn [map fst] in ND. inversion ND as [|? ? NI ND']; subst.
    destruct (IH a' r eq_refl) as (h & R1 & R2 & R3); [intros; eapply G; [right|]; eassumption | exact ND' |].
    exists ((f, v) :: h). cbn [read_header]. rewrite <- app_assoc.
    rewrite read_ftype_le by (eapply G; [left; reflexivity | exact Ev]).
    cbn [rbind fst snd]. rewrite R1. cbn [rbind fst snd map]. split; [reflexivity|]. split; [rewrite R2; reflexivity|].
    intros f' v' I' E'. cbn [dget]. destruct (eq_dec f f') as [<-|Ne].
    + congruence.
    + cbn [map fst] in I'. destruct I' as [I'|I']; [congruence|]. apply R3; assumption.
Qed.

(** ** Words *)
Lemma word_loop_ok : forall w acc r fuel, ~ In 0%N w -> length w < fuel ->
  (let '(c, b) := read 1 (w ++ 0%N :: r) in word_loop fuel acc c b) = Some (acc ++ w, r).
Proof.
  induction w as [|x w IH]; intros acc r fuel NI L.
  - cbn. destruct fuel as [|fuel]; [lia|]. cbn. rewrite app_nil_r. reflexivity.
  - cbn [app]. cbn [read firstn skipn]. destruct fuel as [|fuel]; [cbn in L; lia|].
    change (read 1 (x :: w ++ 0%N :: r)) with ([x], w ++ 0%N :: r).
    cbn [word_loop].
    assert (E : eqb [x] [0%N] = false). { apply eqb_false. intro H. injection H as ->. apply NI. left. reflexivity. }
    rewrite E. rewrite IH; [rewrite <- app_assoc; reflexivity | intro H; apply NI; right; exact H | cbn [length] in L; lia].
Qed.

Lemma word_loop_stuck : forall fuel acc, word_loop fuel acc [] [] = None.
Proof. induction fuel as [|fuel IH]; intros acc; [reflexivity|]. cbn [word_loop]. cbn. apply IH. Qed.

Lemma word_loop_diverges : forall bs fuel acc, ~ In 0%N bs -> (let '(c, b) := read 1 bs in word_loop fuel acc c b) = None.
Proof.
  induction bs as [|x bs IH]; intros fuel acc NI.
  - cbn. apply word_loop_stuck.
  - change (read 1 (x :: bs)) with ([x], bs). cbv beta iota.
    destruct fuel as [|fuel]; [reflexivity|]. cbn [word_loop].
    assert (E : eqb [x] [0%N] = false). { apply eqb_false. intro H. injection H as ->. apply NI. left. reflexivity. }
    rewrite E. apply IH. intro H. apply NI. right. exact H.
Qed.

Section Coding.
Variable encode : pystr -> option (list N).
Variable decode : list N -> option pystr.
Variable replace : list N -> pystr.

Notation read_entries := (read_entries decode replace).
Notation load_vocab := (load_vocab decode replace).
Notation load := (load decode replace).
Notation entry_save := (entry_save encode).
Notation save := (save encode).

Definition word_ok (wc : pystr * Z) (e : list N) : Prop :=
  encode (fst wc) = Some e /\ ~ In 0%N e /\ decode e = Some (fst wc) /\ fits 8 (snd wc).

(** The fuel one entry needs. *)
Lemma read_entries_ok : forall ws es fuel raw r,
  rmapM entry_save ws = Ok es ->
  Forall (fun wc => exists e, word_ok wc e /\ length e < fuel) ws ->
  NoDup (dkeys (raw ++ ws)) ->
  read_entries fuel (length ws) (concat es ++ r) raw = Some (Ok (raw ++ ws, r)).
Proof.
  induction ws as [|(w, c) ws IH]; intros es fuel raw r E F ND.
  - cbn in E. injection E as <-. cbn. rewrite app_nil_r. reflexivity.
  - cbn [rmapM] in E. inversion F as [|? ? (e & (E1 & E2 & E3 & E4) & L) F']; subst. cbn [fst snd] in *.
    unfold FtBin_Model.entry_save in E at 1. cbn [fst snd] in E. rewrite E1 in E. cbn [of_option rbind] in E.
    destruct (rmapM entry_save ws) as [es'|] eqn:Es; [|discriminate]. cbn [rbind] in E. injection E as <-.
    cbn [length FtBin_Model.read_entries concat]. rewrite <- !app_assoc. cbn [app]. rewrite <- !app_assoc. cbn [app].
    pose proof (word_loop_ok e [] (le 8 c ++ 0%N :: concat es' ++ r) fuel E2 L) as W.
    destruct (read 1 (e ++ 0%N :: le 8 c ++ 0%N :: concat es' ++ r)) as (ch, b1). rewrite W. cbn [app].
    rewrite read_int_le by (try lia; exact E4). cbn [rbind fst snd].
    assert (R : read_int 1 (0%N :: concat es' ++ r) = Ok (0%Z, concat es' ++ r)) by reflexivity.
    rewrite R. cbn [rbind fst snd]. rewrite E3.
    assert (NI : ~ In w (dkeys raw)).
    { unfold dkeys in *. rewrite map_app in ND. cbn [map fst] in ND. intro H. apply NoDup_remove in ND. destruct ND as [_ ND].
      apply ND. apply in_or_app. left. exact H. }
    rewrite dset_notin by exact NI.
    replace (raw ++ (w, c) :: ws) with ((raw ++ [(w, c)]) ++ ws) by (rewrite <- app_assoc; reflexivity).
    apply IH; [reflexivity | exact F' | rewrite <- app_assoc; exact ND].
Qed.

(** A word cut off by the end of the file. *)
Lemma read_entries_cut : forall ws es fuel raw n part,
  rmapM entry_save ws = Ok es ->
  Forall (fun wc => exists e, word_ok wc e) ws ->
  length ws < n -> ~ In 0%N part ->
  read_entries fuel n (concat es ++ part) raw = None.
Proof.
  induction ws as [|(w, c) ws IH]; intros es fuel raw n part E F Ln NP.
  - cbn in E. injection E as <-. destruct n as [|n]; [cbn in Ln; lia|]. cbn [concat app FtBin_Model.read_entries].
    pose proof (word_loop_diverges part fuel [] NP) as W. destruct (read 1 part) as (ch, b1). rewrite W. reflexivity.
  - cbn [rmapM] in E. inversion F as [|? ? (e & (E1 & E2 & E3 & E4)) F']; subst. cbn [fst snd] in *.
    unfold FtBin_Model.entry_save in E at 1. cbn [fst snd] in E. rewrite E1 in E. cbn [of_option rbind] in E.
    destruct (rmapM entry_save ws) as [es'|] eqn:Es; [|discriminate]. cbn [rbind] in E. injection E as <-.
    destruct n as [|n]; [cbn in Ln; lia|]. cbn [length FtBin_Model.read_entries concat]. rewrite <- !app_assoc. cbn [app]. rewrite <- !app_assoc. cbn [app].
    destruct (Nat.lt_ge_cases (length e) fuel) as [L|L].
    + pose proof (word_loop_ok e [] (le 8 c ++ 0%N :: concat es' ++ part) fuel E2 L) as W.
      destruct (read 1 (e ++ 0%N :: le 8 c ++ 0%N :: concat es' ++ part)) as (ch, b1). rewrite W. cbn [app].
      rewrite read_int_le by (try lia; exact E4). cbn [rbind fst snd].
      assert (R : read_int 1 (0%N :: concat es' ++ part) = Ok (0%Z, concat es' ++ part)) by reflexivity.
      rewrite R. cbn [rbind fst snd]. apply IH; [reflexivity | exact F' | cbn [length] in Ln; lia | exact NP].
    + assert (W : forall x acc b, length x >= fuel -> ~ In 0%N x ->
                   (let '(c0, b0) := read 1 (x ++ b) in word_loop fuel acc c0 b0) = None).
      { clear. induction fuel as [|fuel IHf]; intros x acc b Lx Nx.
        - destruct (read 1 (x ++ b)). reflexivity.
        - destruct x as [|y x]; [cbn in Lx; lia|]. change (read 1 ((y :: x) ++ b)) with ([y], x ++ b). cbv beta iota.
          cbn [word_loop]. assert (E : eqb [y] [0%N] = false). { apply eqb_false. intro H. injection H as ->. apply Nx. left. reflexivity. }
          rewrite E. apply IHf; [cbn in Lx; lia | intro H; apply Nx; right; exact H]. }
      specialize (W e [] (0%N :: le 8 c ++ 0%N :: concat es' ++ part) L E2).
      destruct (read 1 (e ++ 0%N :: le 8 c ++ 0%N :: concat es' ++ part)) as (ch, b1). rewrite W. reflexivity.
Qed.

Lemma load_vocab_ok : forall m d fuel r,
  good_model m -> dict_save encode m = Ok d ->
  Forall (fun wc => exists e, word_ok wc e /\ length e < fuel) (f_words m) ->
  load_vocab fuel true (d ++ r)
  = Some (Ok (mkVocab (f_words m) (Z.of_nat (length (f_words m))) (Z.of_nat (length (f_words m))) (f_corpus_total_words m), r)).
Proof.
  intros m d fuel r G E F. unfold dict_save in E. destruct (rmapM entry_save (f_words m)) as [es|] eqn:Es; [|discriminate].
  cbn [rbind] in E. injection E as <-. unfold FtBin_Model.load_vocab. rewrite <- !app_assoc.
  rewrite read_int_le by (try lia; apply (g_nwords m G)). cbn [rbind fst snd].
  rewrite read_int_le by (try lia; apply (g_nwords m G)). cbn [rbind fst snd].
  rewrite (read_int_le 4 0) by (try lia; unfold fits; lia). cbn [rbind fst snd].
  change (0 >? 0)%Z with false. cbv iota.
  rewrite read_int_le by (try lia; apply (g_total m G)). cbn [rbind fst snd].
  rewrite (read_int_le 8 (-1)) by (try lia; unfold fits; lia). cbn [rbind fst snd].
  rewrite Nat2Z.id. rewrite (read_entries_ok (f_words m) es fuel [] r Es F).
  - cbn [app]. change (Z.to_nat (-1)) with 0. cbn [skip_ints rbind]. reflexivity.
  - cbn [app]. exact (g_distinct m G).
Qed.
End Coding.

(** ** Matrices *)
Lemma fromfile_ok : forall xs r, Forall (pattern 4) xs -> fromfile (length xs) (floats xs ++ r) = (xs, r).
Proof.
  induction xs as [|x xs IH]; intros r F; [reflexivity|]. inversion F as [|? ? P F']; subst.
  cbn [length fromfile floats flat_map]. rewrite <- app_assoc. rewrite read_app by apply le_len.
  rewrite le_len. change (4 =? 4) with true. cbv iota. unfold floats in IH. rewrite IH by exact F'.
  rewrite unle_pattern by exact P. reflexivity.
Qed.

Lemma floats_app : forall a b, floats (a ++ b) = floats a ++ floats b.
Proof. intros. unfold floats. apply flat_map_app. Qed.

Lemma load_matrix_ok : forall n d xs r,
  (0 <= n)%Z -> (0 <= d)%Z -> fits 8 n -> fits 8 d -> Z.of_nat (length xs) = (n * d)%Z -> Forall (pattern 4) xs ->
  load_matrix true (0%N :: (le 8 n ++ le 8 d ++ floats xs) ++ r) = Ok (mkMat n d xs, r).
Proof.
  intros n d xs r Hn Hd Fn Fd L F. unfold load_matrix. rewrite <- !app_assoc.
  assert (R : forall b, read_raw 1 (0%N :: b) = Ok (0%Z, b)) by reflexivity. rewrite R. cbn [rbind fst snd].
  rewrite read_int_le by (try lia; exact Fn). cbn [rbind fst snd].
  rewrite read_int_le by (try lia; exact Fd). cbn [rbind fst snd].
  replace (n * d <? 0)%Z with false by (pose proof (Z.mul_nonneg_nonneg n d Hn Hd); lia).
  replace (Z.to_nat (n * d)) with (length xs) by lia. rewrite fromfile_ok by exact F. rewrite Nat.eqb_refl. reflexivity.
Qed.
