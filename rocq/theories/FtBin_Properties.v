(** C47: Facebook's binary format. *)

From Coq Require Import ZifyBool ZifyNat ZifyN.
From Verif Require Import Base Str W2vFormat_Model W2vFormat_Proofs FtBin_Model FtBin_Spec FtBin_Proofs LineCorpora_Proofs.
Local Open Scope nat_scope.
Local Opaque le.

(** ** Longer files *)
Lemma read_raw_ext : forall k p x r e, read_raw k p = Ok (x, r) -> read_raw k (p ++ e) = Ok (x, r ++ e).
Proof.
  intros k p x r e H. unfold read_raw, read in *. destruct (length (firstn k p) =? k) eqn:L; [|discriminate].
  apply Nat.eqb_eq in L. rewrite firstn_length in L. injection H as <- <-.
  assert (Lp : k <= length p) by lia. rewrite firstn_app, skipn_app.
  replace (k - length p) with 0 by lia. rewrite firstn_O, app_nil_r. cbn [skipn].
  rewrite firstn_length. replace (Nat.min k (length p) =? k) with true by lia. reflexivity.
Qed.
Lemma read_int_ext : forall k p x r e, read_int k p = Ok (x, r) -> read_int k (p ++ e) = Ok (x, r ++ e).
Proof.
  intros k p x r e H. unfold read_int in *. destruct (read_raw k p) as [(u, s)|] eqn:E; [|discriminate].
  rewrite (read_raw_ext _ _ _ _ e E). cbn [rbind fst snd] in *. injection H as <- <-. reflexivity.
Qed.
Lemma read_header_ext : forall spec p x r e, read_header spec p = Ok (x, r) -> read_header spec (p ++ e) = Ok (x, r ++ e).
Proof.
  induction spec as [|(f, t) spec IH]; intros p x r e H.
  - cbn in *. injection H as <- <-. reflexivity.
  - cbn [read_header] in *. destruct (read_ftype t p) as [(u, s)|] eqn:E; [|discriminate]. cbn [rbind fst snd] in H.
    assert (E' : read_ftype t (p ++ e) = Ok (u, s ++ e)).
    { destruct t; cbn [read_ftype] in *; [apply read_int_ext | apply read_raw_ext]; exact E. }
    rewrite E'. cbn [rbind fst snd]. destruct (read_header spec s) as [(h, s')|] eqn:E2; [|discriminate].
    rewrite (IH _ _ _ e E2). cbn [rbind fst snd] in *. injection H as <- <-. reflexivity.
Qed.
Lemma word_loop_ext : forall fuel acc c p w r e,
  word_loop fuel acc c p = Some (w, r) -> word_loop fuel acc c (p ++ e) = Some (w, r ++ e).
Proof.
  induction fuel as [|fuel IH]; intros acc c p w r e H; [discriminate|].
  cbn [word_loop] in *. destruct (eqb c [0%N]) eqn:E.
  - injection H as <- <-. reflexivity.
  - destruct p as [|x p].
    + cbn in H. rewrite word_loop_stuck in H. discriminate.
    + change (read 1 (x :: p)) with ([x], p) in H. change (read 1 ((x :: p) ++ e)) with ([x], p ++ e). cbv beta iota in *.
      apply IH. exact H.
Qed.
Lemma word_loop_mono : forall fuel fuel' acc c p r,
  word_loop fuel acc c p = Some r -> fuel <= fuel' -> word_loop fuel' acc c p = Some r.
Proof.
  induction fuel as [|fuel IH]; intros fuel' acc c p r H L; [discriminate|].
  destruct fuel' as [|fuel']; [lia|]. cbn [word_loop] in *. destruct (eqb c [0%N]); [exact H|].
  destruct (read 1 p). apply IH; [exact H | lia].
Qed.
Lemma skip_ints_ext : forall n p r e, skip_ints n p = Ok r -> skip_ints n (p ++ e) = Ok (r ++ e).
Proof.
  induction n as [|n IH]; intros p r e H; cbn [skip_ints] in *; [injection H as <-; reflexivity|].
  destruct (read_int 4 p) as [(u, s)|] eqn:E; [|discriminate]. rewrite (read_int_ext _ _ _ _ e E). cbn [rbind snd] in *.
  destruct (read_int 4 s) as [(u', s')|] eqn:E2; [|discriminate]. rewrite (read_int_ext _ _ _ _ e E2). cbn [rbind snd] in *.
  apply IH. exact H.
Qed.
Lemma fromfile_len : forall n bs, length (fst (fromfile n bs)) <= n.
Proof.
  induction n as [|n IH]; intros bs; cbn [fromfile]; [cbn; lia|]. destruct (read 4 bs) as (b, r).
  destruct (length b =? 4); [|cbn; lia]. specialize (IH r). destruct (fromfile n r) as (xs, r'). cbn [fst length] in *. lia.
Qed.
Lemma fromfile_ext : forall n p xs r e, fromfile n p = (xs, r) -> length xs = n -> fromfile n (p ++ e) = (xs, r ++ e).
Proof.
  induction n as [|n IH]; intros p xs r e H L; cbn [fromfile] in *.
  - injection H as <- <-. reflexivity.
  - unfold read in *. destruct (length (firstn 4 p) =? 4) eqn:E.
    + apply Nat.eqb_eq in E. rewrite firstn_length in E. assert (Lp : 4 <= length p) by lia.
      rewrite firstn_app, skipn_app. replace (4 - length p) with 0 by lia. rewrite firstn_O, app_nil_r. change (skipn 0 e) with e.
      rewrite firstn_length. replace (Nat.min 4 (length p) =? 4) with true by lia.
      destruct (fromfile n (skipn 4 p)) as (ys, r') eqn:F. injection H as <- <-. cbn [length] in L.
      rewrite (IH _ _ _ e F) by lia. reflexivity.
    + injection H as <- <-. discriminate.
Qed.
Lemma load_matrix_ext : forall nf p m r e, load_matrix nf p = Ok (m, r) -> load_matrix nf (p ++ e) = Ok (m, r ++ e).
Proof.
  intros nf p m r e H. unfold load_matrix in *.
  destruct (if nf then let* q := read_raw 1 p in Ok (snd q) else Ok p) as [b|] eqn:E; [|discriminate].
  assert (E' : (if nf then let* q := read_raw 1 (p ++ e) in Ok (snd q) else Ok (p ++ e)) = Ok (b ++ e)).
  { destruct nf; [|injection E as <-; reflexivity]. destruct (read_raw 1 p) as [(u, s)|] eqn:Er; [|discriminate].
    rewrite (read_raw_ext _ _ _ _ e Er). cbn [rbind snd] in *. injection E as <-. reflexivity. }
  rewrite E'. cbn [rbind] in *. clear E E'.
  destruct (read_int 8 b) as [(n, s)|] eqn:E1; [|discriminate]. rewrite (read_int_ext _ _ _ _ e E1). cbn [rbind fst snd] in *.
  destruct (read_int 8 s) as [(d, s')|] eqn:E2; [|discriminate]. rewrite (read_int_ext _ _ _ _ e E2). cbn [rbind fst snd] in *.
  destruct (n * d <? 0)%Z; [discriminate|].
  destruct (fromfile (Z.to_nat (n * d)) s') as (xs, t) eqn:F.
  destruct (length xs =? Z.to_nat (n * d)) eqn:L; [|discriminate]. apply Nat.eqb_eq in L.
  rewrite (fromfile_ext _ _ _ _ e F L). rewrite L, Nat.eqb_refl. injection H as <- <-. reflexivity.
Qed.

Section Coding.
Variable encode : pystr -> option (list N).
Variable decode : list N -> option pystr.
Variable replace : list N -> pystr.

Notation read_entries := (read_entries decode replace).
Notation load_vocab := (load_vocab decode replace).
Notation load := (load decode replace).
Notation load_facebook_model := (load_facebook_model decode replace).
Notation save := (save encode).

Lemma read_entries_ext : forall fuel n p raw x r e,
  read_entries fuel n p raw = Some (Ok (x, r)) -> read_entries fuel n (p ++ e) raw = Some (Ok (x, r ++ e)).
Proof.
  intros fuel n. induction n as [|n IH]; intros p raw x r e H; cbn [FtBin_Model.read_entries] in *.
  - injection H as <- <-. reflexivity.
  - destruct p as [|b p].
    + cbn in H. rewrite word_loop_stuck in H. discriminate.
    + change (read 1 (b :: p)) with ([b], p) in H. change (read 1 ((b :: p) ++ e)) with ([b], p ++ e). cbv beta iota in *.
      destruct (word_loop fuel [] [b] p) as [(wb, s)|] eqn:W; [|discriminate]. rewrite (word_loop_ext _ _ _ _ _ _ e W).
      destruct (read_int 8 s) as [(c, s1)|] eqn:E1; [|discriminate]. rewrite (read_int_ext _ _ _ _ e E1). cbn [rbind fst snd] in *.
      destruct (read_int 1 s1) as [(c', s2)|] eqn:E2; [|discriminate]. rewrite (read_int_ext _ _ _ _ e E2). cbn [rbind fst snd] in *.
      apply IH. exact H.
Qed.
Lemma read_entries_mono : forall fuel fuel' n p raw x,
  read_entries fuel n p raw = Some x -> fuel <= fuel' -> read_entries fuel' n p raw = Some x.
Proof.
  intros fuel fuel' n. induction n as [|n IH]; intros p raw x H L; cbn [FtBin_Model.read_entries] in *; [exact H|].
  destruct (read 1 p) as (c, p1). destruct (word_loop fuel [] c p1) as [(wb, s)|] eqn:W; [|discriminate].
  rewrite (word_loop_mono _ _ _ _ _ _ W L). destruct (rbind _ _) as [(cn, s3)|]; [|exact H]. apply IH; assumption.
Qed.
Lemma load_vocab_ext : forall fuel nf p v r e,
  load_vocab fuel nf p = Some (Ok (v, r)) -> load_vocab fuel nf (p ++ e) = Some (Ok (v, r ++ e)).
Proof.
  intros fuel nf p v r e H. unfold FtBin_Model.load_vocab in *.
  destruct (read_int 4 p) as [(n, s)|] eqn:E1; [|discriminate]. rewrite (read_int_ext _ _ _ _ e E1). cbn [rbind fst snd] in *.
  destruct (read_int 4 s) as [(n2, s2)|] eqn:E2; [|discriminate]. rewrite (read_int_ext _ _ _ _ e E2). cbn [rbind fst snd] in *.
  destruct (read_int 4 s2) as [(n3, s3)|] eqn:E3; [|discriminate]. rewrite (read_int_ext _ _ _ _ e E3). cbn [rbind fst snd] in *.
  destruct (n3 >? 0)%Z; [discriminate|].
  destruct (read_int 8 s3) as [(n4, s4)|] eqn:E4; [|discriminate]. rewrite (read_int_ext _ _ _ _ e E4). cbn [rbind fst snd] in *.
  destruct (if nf then read_int 8 s4 else Ok (0%Z, s4)) as [(n5, s5)|] eqn:E5; [|discriminate].
  assert (E5' : (if nf then read_int 8 (s4 ++ e) else Ok (0%Z, s4 ++ e)) = Ok (n5, s5 ++ e)).
  { destruct nf; [apply read_int_ext; exact E5 | injection E5 as <- <-; reflexivity]. }
  rewrite E5'. cbn [rbind fst snd] in *.
  destruct (read_entries fuel (Z.to_nat n) s5 []) as [[(raw, s6)|]|] eqn:E6; try discriminate.
  rewrite (read_entries_ext _ _ _ _ _ _ e E6). injection H as H. f_equal.
  destruct nf.
  - destruct (skip_ints (Z.to_nat n5) s6) as [s7|] eqn:E7; [|discriminate]. rewrite (skip_ints_ext _ _ _ e E7).
    cbn [rbind] in *. injection H as <- <-. reflexivity.
  - cbn [rbind] in *. injection H as <- <-. reflexivity.
Qed.
Lemma load_mono : forall fuel fuel' full p x, load fuel full p = Some x -> fuel <= fuel' -> load fuel' full p = Some x.
Proof.
  intros fuel fuel' full p x H L. unfold FtBin_Model.load in *.
  destruct (rbind _ _) as [[[nf hd] bs]|]; [|exact H].
  unfold FtBin_Model.load_vocab in *. destruct (rbind _ _) as [[[[[size nw] nt] pr] bs1]|]; [|exact H].
  destruct (read_entries fuel (Z.to_nat size) bs1 []) as [q|] eqn:E; [|discriminate].
  rewrite (read_entries_mono _ _ _ _ _ _ E L). exact H.
Qed.

(** A file that loads completely does not load with anything appended, whatever it is. *)
Theorem no_trailing_bytes : forall fuel p e b, load fuel true p = Some (Ok b) -> e <> [] ->
  load fuel true (p ++ e) = Some (Err AssertionErr).
Proof.
  intros fuel p e b H Ne. unfold FtBin_Model.load in *.
  destruct (read_int 4 p) as [(n, s)|] eqn:E1; [|discriminate]. rewrite (read_int_ext _ _ _ _ e E1). cbn [rbind fst snd] in *.
  destruct (read_int 4 s) as [(n2, s2)|] eqn:E2; [|discriminate]. rewrite (read_int_ext _ _ _ _ e E2). cbn [rbind fst snd] in *.
  destruct (read_header (if (n =? magic)%Z then new_header else old_header) s2) as [(h, s3)|] eqn:E3; [|discriminate].
  rewrite (read_header_ext _ _ _ _ e E3). cbn [rbind fst snd] in *.
  destruct (load_vocab fuel (n =? magic)%Z s3) as [[(v, s4)|]|] eqn:E4; try discriminate.
  rewrite (load_vocab_ext _ _ _ _ _ e E4). injection H as H. f_equal.
  destruct (load_matrix (n =? magic)%Z s4) as [(m, s5)|] eqn:E5; [|discriminate].
  rewrite (load_matrix_ext _ _ _ _ e E5). cbn [rbind fst snd] in *.
  destruct (load_matrix (n =? magic)%Z s5) as [(m', s6)|] eqn:E6; [|discriminate].
  rewrite (load_matrix_ext _ _ _ _ e E6). cbn [rbind fst snd] in *.
  destruct s6; [|discriminate]. destruct e; [congruence|]. reflexivity.
Qed.

(** ** The round trip *)
Lemma new_header_nodup : NoDup (map fst new_header).
Proof. cbn. repeat constructor; cbn; intuition discriminate. Qed.

Lemma field_good : forall m lr wn, good_model m -> fits 4 lr -> fits 4 wn ->
  forall f t v, In (f, t) new_header -> get_field m lr wn f = Ok v -> ftype_good t v.
Proof.
  intros m lr wn G Hl Hw f t v I E. pose proof (g_ints m G) as F.
  repeat match goal with H : Forall _ (_ :: _) |- _ => inversion H; clear H; subst end.
  assert (F1 : fits 4 1) by (unfold fits; lia). assert (F2 : fits 4 2) by (unfold fits; lia).
  cbn in I. repeat destruct I as [I|I]; try (injection I as <- <-); try contradiction; cbn in E |- *;
    try (injection E as <-; assumption).
  - destruct (f_hs m =? 1)%Z; [injection E as <-; exact F1|]. destruct (f_hs m =? 0)%Z; [injection E as <-; exact F2|discriminate].
  - destruct (f_sg m =? 1)%Z; injection E as <-; assumption.
  - injection E as <-. exact (g_sample m G).
Qed.

Lemma field_in : forall f, In f (map fst new_header).
Proof. intros []; cbn; tauto. Qed.

Theorem load_save : forall m lr wn file,
  good_model m -> good_coding encode decode m -> fits 4 lr -> fits 4 wn ->
  save m lr wn = Ok file ->
  exists b, same_content m lr wn b /\ exists fuel0, forall fuel, fuel0 <= fuel -> load fuel true file = Some (Ok b).
Proof.
  intros m lr wn file G C Hl Hw E. unfold FtBin_Model.save in E.
  destruct (args_save m lr wn new_header) as [a|] eqn:Ea; [|discriminate]. cbn [rbind] in E.
  destruct (dict_save encode m) as [d|] eqn:Ed; [|discriminate]. cbn [rbind] in E.
  destruct (input_save m) as [i|] eqn:Ei; [|discriminate]. cbn [rbind] in E.
  destruct (output_save m) as [o|] eqn:Eo; [|discriminate]. cbn [rbind] in E. injection E as <-.
  destruct (read_header_ok m lr wn new_header a (d ++ [0%N] ++ i ++ [0%N] ++ o) Ea (field_good m lr wn G Hl Hw) new_header_nodup)
    as (h & R1 & R2 & R3).
  unfold input_save in Ei.
  destruct ((m_cols (f_vectors_vocab m) =? m_cols (f_vectors_ngrams m))%Z && (m_rows (f_vectors_vocab m) =? Z.of_nat (length (f_words m)))%Z
            && (m_rows (f_vectors_ngrams m) =? f_bucket m)%Z) eqn:S; [|discriminate].
  apply andb_true_iff in S. destruct S as [S S3]. apply andb_true_iff in S. destruct S as [S1 S2]. injection Ei as <-.
  unfold output_save in Eo. destruct (hidden_output m) as [hd|] eqn:Eh; [|discriminate]. cbn [rbind] in Eo. injection Eo as <-.
  assert (GH : good_matrix hd).
  { apply (g_hidden m G). unfold hidden_output in Eh.
    destruct (f_hs m =? 0)%Z; destruct (f_negative m =? 0)%Z; cbn [rbind of_option] in Eh;
      destruct (f_syn1 m) as [s1|]; destruct (f_syn1neg m) as [s2|]; cbn in Eh; try discriminate; injection Eh as <-; auto. }
  exists (mkFb h (mkVocab (f_words m) (Z.of_nat (length (f_words m))) (Z.of_nat (length (f_words m))) (f_corpus_total_words m))
               (mkMat (m_rows (f_vectors_vocab m) + m_rows (f_vectors_ngrams m)) (m_cols (f_vectors_vocab m))
                      (m_data (f_vectors_vocab m) ++ m_data (f_vectors_ngrams m))) (Some hd)).
  split.
  - constructor; cbn; auto.
    + intros f v Ef. apply R3; [apply field_in | exact Ef].
    + exists hd. auto.
  - exists (S (list_max (map (fun wc => match encode (fst wc) with Some e => length e | None => 0 end) (f_words m)))).
    intros fuel Lf. unfold FtBin_Model.load.
    rewrite (read_int_le 4 magic) by (try lia; unfold fits, magic; lia). cbn [rbind fst snd].
    rewrite (read_int_le 4 version) by (try lia; unfold fits, version; lia). cbn [rbind fst snd].
    change (magic =? magic)%Z with true. cbv iota. cbn [app] in R1. rewrite R1. cbn [rbind fst snd].
    rewrite (load_vocab_ok encode decode replace m d fuel _ G Ed).
    2:{ apply Forall_forall. intros wc Iw. destruct (C (fst wc) (in_map fst _ _ Iw)) as (e & C1 & C2 & C3).
        exists e. split.
        - repeat split; auto; apply (proj1 (Forall_forall _ _) (g_counts m G) wc Iw).
        - assert (length e <= list_max (map (fun wc => match encode (fst wc) with Some e => length e | None => 0 end) (f_words m))); [|lia].
          pose proof (proj1 (list_max_le (map (fun wc => match encode (fst wc) with Some e => length e | None => 0 end) (f_words m)) _) (le_n _)) as LM.
          rewrite Forall_forall in LM. apply LM. apply in_map_iff. exists wc. rewrite C1. auto. }
    f_equal. cbn [app]. rewrite <- floats_app.
    destruct (g_vocab m G) as [V1 V2 V3 V4 V5 V6]. destruct (g_ngrams m G) as [N1 N2 N3 N4 N5 N6].
    rewrite load_matrix_ok; [| lia | lia | exact (g_rows m G) | exact V4 | | apply Forall_app; split; assumption].
    2:{ rewrite app_length. apply Z.eqb_eq in S1. rewrite <- S1 in N5. lia. }
    cbn [rbind fst snd].
    destruct GH as [H1 H2 H3 H4 H5 H6].
    rewrite <- (app_nil_r (le 8 (m_rows hd) ++ le 8 (m_cols hd) ++ floats (m_data hd))).
    rewrite load_matrix_ok by (assumption || lia). cbn [rbind fst snd]. destruct hd; reflexivity.
Qed.

(** No proper prefix of a saved file loads: the loader raises or never returns. *)
Theorem truncated_never_loads : forall m lr wn p e,
  good_model m -> good_coding encode decode m -> fits 4 lr -> fits 4 wn ->
  save m lr wn = Ok (p ++ e) -> e <> [] ->
  forall fuel b, load fuel true p <> Some (Ok b).
Proof.
  intros m lr wn p e G C Hl Hw E Ne fuel b H.
  destruct (load_save m lr wn (p ++ e) G C Hl Hw E) as (b' & _ & fuel0 & L).
  assert (H' : load (Nat.max fuel fuel0) true p = Some (Ok b)) by (apply (load_mono fuel); [exact H | lia]).
  pose proof (no_trailing_bytes _ _ e _ H' Ne) as T. rewrite L in T by lia. discriminate.
Qed.

(** Cut inside a word, or between two entries: the loader never returns. *)
Theorem truncated_word_loops : forall m lr wn a es j part,
  good_model m -> good_coding encode decode m -> fits 4 lr -> fits 4 wn ->
  args_save m lr wn new_header = Ok a ->
  rmapM (entry_save encode) (f_words m) = Ok es ->
  j < length (f_words m) -> ~ In 0%N part ->
  forall fuel full,
  load fuel full (le 4 magic ++ le 4 version ++ a ++
                  (le 4 (Z.of_nat (length (f_words m))) ++ le 4 (Z.of_nat (length (f_words m))) ++ le 4 0 ++
                   le 8 (f_corpus_total_words m) ++ le 8 (-1)) ++ concat (firstn j es) ++ part) = None.
Proof.
  intros m lr wn a es j part G C Hl Hw Ea Es Hj NP fuel full. unfold FtBin_Model.load.
  rewrite (read_int_le 4 magic) by (try lia; unfold fits, magic; lia). cbn [rbind fst snd].
  rewrite (read_int_le 4 version) by (try lia; unfold fits, version; lia). cbn [rbind fst snd].
  change (magic =? magic)%Z with true. cbv iota.
  match goal with |- context [read_header new_header (a ++ ?r)] =>
    destruct (read_header_ok m lr wn new_header a r Ea (field_good m lr wn G Hl Hw) new_header_nodup) as (h & R1 & R2 & R3) end.
  rewrite R1. cbn [rbind fst snd]. unfold FtBin_Model.load_vocab. rewrite <- !app_assoc.
  rewrite read_int_le by (try lia; apply (g_nwords m G)). cbn [rbind fst snd].
  rewrite read_int_le by (try lia; apply (g_nwords m G)). cbn [rbind fst snd].
  rewrite (read_int_le 4 0) by (try lia; unfold fits; lia). cbn [rbind fst snd].
  change (0 >? 0)%Z with false. cbv iota.
  rewrite read_int_le by (try lia; apply (g_total m G)). cbn [rbind fst snd].
  rewrite (read_int_le 8 (-1)) by (try lia; unfold fits; lia). cbn [rbind fst snd].
  rewrite Nat2Z.id.
  rewrite (read_entries_cut encode decode replace (firstn j (f_words m)) (firstn j es) fuel [] (length (f_words m)) part).
  - reflexivity.
  - clear -Es. revert j es Es. induction (f_words m) as [|wc ws IH]; intros j es Es.
    + cbn in Es. injection Es as <-. rewrite !firstn_nil. reflexivity.
    + cbn [rmapM] in Es. destruct (entry_save encode wc) as [x|] eqn:Ex; [|discriminate]. cbn [rbind] in Es.
      destruct (rmapM (entry_save encode) ws) as [es'|] eqn:E'; [|discriminate]. cbn [rbind] in Es. injection Es as <-.
      destruct j as [|j]; [reflexivity|]. cbn [firstn rmapM]. rewrite Ex. cbn [rbind]. rewrite (IH j es' eq_refl). reflexivity.
  - apply Forall_forall. intros wc Iw.
    assert (Iw' : In wc (f_words m)). { rewrite <- (firstn_skipn j (f_words m)). apply in_or_app. left. exact Iw. }
    destruct (C (fst wc) (in_map fst _ _ Iw')) as (e & C1 & C2 & C3). exists e.
    repeat split; auto; apply (proj1 (Forall_forall _ _) (g_counts m G) wc Iw').
  - rewrite firstn_length. lia.
  - exact NP.
Qed.

(** When saving succeeds. *)
Theorem save_succeeds : forall m lr wn,
  good_coding encode decode m ->
  (f_hs m = 0 \/ f_hs m = 1)%Z ->
  m_cols (f_vectors_vocab m) = m_cols (f_vectors_ngrams m) ->
  m_rows (f_vectors_vocab m) = Z.of_nat (length (f_words m)) ->
  m_rows (f_vectors_ngrams m) = f_bucket m ->
  ((f_negative m <> 0)%Z \/ f_hs m = 1%Z) ->
  (f_hs m = 1%Z -> f_syn1 m <> None) -> (f_negative m <> 0%Z -> f_syn1neg m <> None) ->
  exists file, save m lr wn = Ok file.
Proof.
  intros m lr wn C Hh S1 S2 S3 Hn H1 H2. unfold FtBin_Model.save.
  assert (A : exists a, args_save m lr wn new_header = Ok a).
  { cbn. destruct Hh as [-> | ->]; cbn; eexists; reflexivity. }
  destruct A as (a & ->). cbn [rbind].
  assert (D : exists d, dict_save encode m = Ok d).
  { unfold dict_save. assert (R : exists es, rmapM (entry_save encode) (f_words m) = Ok es).
    { clear -C. unfold good_coding in C. induction (f_words m) as [|wc ws IH]; [eexists; reflexivity|].
      destruct (C (fst wc) (or_introl eq_refl)) as (e & E & _). destruct IH as (es & Es).
      { intros w Iw. apply C. right. exact Iw. }
      assert (Ex : entry_save encode wc = Ok (e ++ [0%N] ++ FtBin_Model.le 8 (snd wc) ++ [0%N])) by (unfold entry_save; rewrite E; reflexivity).
      cbn [rmapM]. rewrite Ex. cbn [of_option rbind]. rewrite Es. cbn [rbind]. eexists. reflexivity. }
    destruct R as (es & ->). eexists. reflexivity. }
  destruct D as (d & ->). cbn [rbind]. unfold input_save. rewrite S1, S2, S3, !Z.eqb_refl. cbn [andb rbind].
  unfold output_save.
  assert (H : exists h, hidden_output m = Ok h).
  { unfold hidden_output. destruct Hh as [Eh | Eh]; rewrite Eh; cbn [Z.eqb].
    - assert (f_negative m <> 0)%Z by (destruct Hn; [assumption|lia]).
      replace (f_negative m =? 0)%Z with false by lia. cbn [rbind]. destruct (f_syn1neg m); [eexists; reflexivity|].
      exfalso. apply H2; auto.
    - destruct (f_syn1 m) as [s|]; [|exfalso; apply H1; auto]. cbn [option_map of_option rbind].
      destruct (f_negative m =? 0)%Z eqn:En; [eexists; reflexivity|].
      destruct (f_syn1neg m); [eexists; reflexivity|]. exfalso. apply H2; auto. lia. }
  destruct H as (h & ->). cbn [rbind]. eexists. reflexivity.
Qed.

(** ** The gensim model rebuilt from a saved file *)

(** What the format can carry: sg is 0 or 1, one kind of output layer, every word seen at least once, at least one word,
    no buckets without n-grams, all matrices as wide as vector_size. *)
Record carried (m : ftmodel) : Prop := {
  ca_sg : (f_sg m = 0 \/ f_sg m = 1)%Z;
  ca_out : (f_hs m = 1%Z /\ f_negative m = 0%Z /\ f_syn1neg m = None) \/
           (f_hs m = 0%Z /\ f_negative m <> 0%Z /\ f_syn1 m = None);
  ca_counts : Forall (fun wc => (1 <= snd wc)%Z) (f_words m);
  ca_words : f_words m <> [];
  ca_bucket : (f_max_n m < f_min_n m -> f_bucket m = 0)%Z;
  ca_width : m_cols (f_vectors_vocab m) = f_vector_size m;
  ca_width1 : forall h, f_syn1neg m = Some h -> m_cols h = f_vector_size m
}.

Lemma filter_all : forall {A} (f : A -> bool) l, Forall (fun x => f x = true) l -> filter f l = l.
Proof. induction l as [|x l IH]; intros F; [reflexivity|]. inversion F; subst. cbn. rewrite H1, IH by assumption. reflexivity. Qed.

Theorem facebook_round_trip : forall m lr wn file,
  good_model m -> good_coding encode decode m -> fits 4 lr -> fits 4 wn -> carried m ->
  save m lr wn = Ok file ->
  exists fuel0, forall fuel, fuel0 <= fuel -> load_facebook_model fuel file = Some (Ok m).
Proof.
  intros m lr wn file G C Hl Hw K E. destruct (load_save m lr wn file G C Hl Hw E) as (b & [B1 B2 B3 B4 B5 B6 B7] & fuel0 & L).
  exists fuel0. intros fuel Lf. unfold FtBin_Model.load_facebook_model. rewrite L by exact Lf. cbn [rbind]. f_equal.
  unfold FtBin_Model.save in E. destruct (args_save m lr wn new_header) as [a|] eqn:Ea; [|discriminate]. cbn [rbind] in E.
  destruct (dict_save encode m) as [d|]; [|discriminate]. cbn [rbind] in E.
  destruct (input_save m) as [i|] eqn:Ei; [|discriminate]. clear E. unfold input_save in Ei.
  destruct ((m_cols (f_vectors_vocab m) =? m_cols (f_vectors_ngrams m))%Z && (m_rows (f_vectors_vocab m) =? Z.of_nat (length (f_words m)))%Z
            && (m_rows (f_vectors_ngrams m) =? f_bucket m)%Z) eqn:S; [|discriminate]. clear Ei.
  apply andb_true_iff in S. destruct S as [S S3]. apply andb_true_iff in S. destruct S as [S1 S2].
  destruct B7 as (h & Bh & Bh').
  destruct K as [K1 K2 K3 K4 K5 K6 K7].
  assert (HG : forall f v, get_field m lr wn f = Ok v -> dget_or (fb_header b) f 0%Z = v).
  { intros f v Ef. unfold dget_or. rewrite (B1 f v Ef). reflexivity. }
  unfold build. rewrite (HG Maxn (f_max_n m) eq_refl), (HG Minn (f_min_n m) eq_refl), (HG Bucket (f_bucket m) eq_refl).
  rewrite (HG Dim (f_vector_size m) eq_refl), (HG Neg (f_negative m) eq_refl), (HG Ws (f_window m) eq_refl), (HG Epoch (f_epochs m) eq_refl).
  rewrite (HG MinCount (f_min_count m) eq_refl), (HG T (f_sample m) eq_refl).
  rewrite (HG ModelKind (if (f_sg m =? 1)%Z then 2 else 1)%Z eq_refl).
  assert (EL : dget_or (fb_header b) Loss 0%Z = (if (f_hs m =? 1)%Z then 1 else 2)%Z).
  { apply HG. cbn. destruct K2 as [(-> & _)|(-> & _)]; reflexivity. }
  rewrite EL. rewrite B2, B4, B5, B6, Bh'. cbn [m_rows m_cols m_data].
  rewrite filter_all by (eapply Forall_impl; [|exact K3]; intros wc Hw'; cbv beta in *; lia).
  assert (EB : (if (f_max_n m <? f_min_n m)%Z then 0%Z else f_bucket m) = f_bucket m).
  { destruct (f_max_n m <? f_min_n m)%Z eqn:Eb; [|reflexivity]. symmetry. apply K5. lia. }
  rewrite EB. apply Z.eqb_eq in S1, S2, S3.
  rewrite K6, S2, S3, !Z.eqb_refl. cbn [andb negb].
  destruct (g_vocab m G) as [V1 V2 V3 V4 V5 V6].
  assert (EK : Z.to_nat (Z.of_nat (length (f_words m)) * f_vector_size m) = length (m_data (f_vectors_vocab m))) by nia.
  rewrite EK. rewrite firstn_app, skipn_app, Nat.sub_diag, firstn_O, firstn_all, skipn_all, app_nil_r. cbn [app skipn].
  replace (Z.of_nat (length (f_words m)) =? 0)%Z with false by (destruct (f_words m); [congruence|cbn [length]; lia]).
  assert (MV : mkMat (Z.of_nat (length (f_words m))) (f_vector_size m) (m_data (f_vectors_vocab m)) = f_vectors_vocab m).
  { rewrite <- S2, <- K6. destruct (f_vectors_vocab m); reflexivity. }
  assert (MN : mkMat (f_bucket m) (f_vector_size m) (m_data (f_vectors_ngrams m)) = f_vectors_ngrams m).
  { rewrite <- S3, <- K6, S1. destruct (f_vectors_ngrams m); reflexivity. }
  rewrite MV, MN.
  assert (SG : (if ((if (f_sg m =? 1)%Z then 2 else 1) =? 2)%Z then 1 else 0)%Z = f_sg m).
  { destruct K1 as [-> | ->]; reflexivity. }
  rewrite SG. unfold hidden_output in Bh.
  destruct K2 as [(E1 & E2 & E3)|(E1 & E2 & E3)].
  - rewrite E1, E2 in *. cbn [Z.eqb] in *. cbv iota in *. cbn [rbind] in Bh.
    destruct (f_syn1 m) as [s|] eqn:Es; [|discriminate]. cbn in Bh. injection Bh as <-.
    cbn. clear -E1 E2 E3 Es. destruct m; cbn in *; subst; reflexivity.
  - rewrite E1 in *. replace (f_negative m =? 0)%Z with false in * by lia. cbn [Z.eqb] in *. cbv iota in *. cbn [rbind] in Bh.
    destruct (f_syn1neg m) as [s|] eqn:Es; [|discriminate]. cbn in Bh. injection Bh as <-.
    change (2 =? 1)%Z with false. cbv iota. change (0 =? 0)%Z with true. cbv iota.
    rewrite (K7 s eq_refl), Z.eqb_refl. cbn [negb]. clear -E1 E3 Es. destruct m; cbn in *; subst; reflexivity.
Qed.
End Coding.
Print Assumptions load_save.
Print Assumptions no_trailing_bytes.
Print Assumptions truncated_never_loads.
Print Assumptions truncated_word_loops.
Print Assumptions save_succeeds.
Print Assumptions facebook_round_trip.

(** ** UTF-8 *)
Theorem utf8_coding : forall m,
  (forall w c, In w (map fst (f_words m)) -> In c w -> valid_char c = true /\ c <> 0%N) ->
  good_coding utf8_encode utf8_decode m.
Proof.
  intros m H w Iw. exists (utf8 w). unfold utf8_encode.
  assert (V : forallb valid_char w = true) by (apply forallb_forall; intros c Ic; apply (H w c Iw Ic)).
  rewrite V. split; [reflexivity|]. split.
  - intro I0. apply utf8_low in I0; [|reflexivity]. destruct (H w 0%N Iw I0). congruence.
  - apply utf8_decode_ok. apply Forall_forall. intros c Ic. apply (H w c Iw Ic).
Qed.
Print Assumptions utf8_coding.

(** ** Compressed files: batches of any size give the same matrix *)
Lemma unpack_floats_ok : forall xs r, Forall (pattern 4) xs -> unpack_floats (length xs) (floats xs ++ r) = Ok (xs, r).
Proof.
  induction xs as [|x xs IH]; intros r F; [reflexivity|]. inversion F as [|? ? P F']; subst.
  cbn [length unpack_floats floats flat_map]. rewrite <- app_assoc. rewrite read_raw_le by exact P. cbn [rbind fst snd].
  unfold floats in IH. rewrite IH by exact F'. reflexivity.
Qed.
Theorem batches_do_not_matter : forall fuel batch xs r, 0 < batch -> Forall (pattern 4) xs -> length xs < fuel ->
  batched fuel batch (length xs) (floats xs ++ r) = Ok (xs, r)
  /\ fromfile (length xs) (floats xs ++ r) = (xs, r).
Proof.
  intros fuel batch xs r Hb F L. split; [|apply fromfile_ok; exact F].
  revert xs F L. induction fuel as [|fuel IH]; intros xs F L; [lia|].
  cbn [batched]. destruct (Nat.ltb_spec batch (length xs)) as [B|B]; [|apply unpack_floats_ok; exact F].
  assert (E : xs = firstn batch xs ++ skipn batch xs) by (symmetry; apply firstn_skipn).
  assert (Lf : length (firstn batch xs) = batch) by (rewrite firstn_length; lia).
  assert (F1 : Forall (pattern 4) (firstn batch xs) /\ Forall (pattern 4) (skipn batch xs)) by (apply Forall_app; rewrite <- E; exact F).
  replace (floats xs) with (floats (firstn batch xs) ++ floats (skipn batch xs)) by (rewrite <- floats_app, <- E; reflexivity).
  rewrite <- app_assoc. pose proof (unpack_floats_ok (firstn batch xs) (floats (skipn batch xs) ++ r) (proj1 F1)) as U.
  rewrite Lf in U. rewrite U. cbn [rbind fst snd].
  replace (length xs - batch) with (length (skipn batch xs)) by apply skipn_length.
  rewrite IH by (try apply F1; rewrite skipn_length; lia). cbn [rbind fst snd]. rewrite <- E. reflexivity.
Qed.
Print Assumptions batches_do_not_matter.

(** ** Concrete models *)
Definition mat (r c : Z) (l : list Z) : matrix := mkMat r c l.
(** Two words ("ab", "é"), two buckets, two dimensions; float32 patterns of 1.0, -2.0, 0.5, ... *)
Definition demo (hs neg : Z) (words : list (pystr * Z)) (syn1 syn1neg : option matrix) : ftmodel :=
  mkFt 2 5 3 1 neg hs 1 2 3 6 4562146422526312448 17 words
    (mat 2 2 [1065353216; 3221225472; 1056964608; 0])%Z (mat 2 2 [1; 2; 3; 4294967295])%Z syn1 syn1neg.
Definition two_words : list (pystr * Z) := [(str "ab", 9%Z); ([233%N], 8%Z)].
Definition out1 : matrix := mat 2 2 [7; 8; 9; 10]%Z.
Definition out2 : matrix := mat 2 2 [11; 12; 13; 14]%Z.
Definition no_repl : list N -> pystr := fun _ => [].

Definition again (fuel : nat) (enc : pystr -> option (list N)) (m : ftmodel) : option (result ftmodel) :=
  match save enc m 100 1 with
  | Ok f => load_facebook_model utf8_decode no_repl fuel f
  | Err e => Some (Err e)
  end.

Example round_trip_example :
  again 10 utf8_encode (demo 0 5 two_words None (Some out2)) = Some (Ok (demo 0 5 two_words None (Some out2)))
  /\ again 10 utf8_encode (demo 1 0 two_words (Some out1) None) = Some (Ok (demo 1 0 two_words (Some out1) None))
  /\ rmap (@length N) (save utf8_encode (demo 0 5 two_words None (Some out2)) 100 1) = Ok 198.
Proof. vm_compute. auto. Qed.

Example demo_good : good_model (demo 0 5 two_words None (Some out2)) /\ carried (demo 0 5 two_words None (Some out2)).
Proof.
  assert (GM : forall r c l, (0 <= r < 100)%Z -> (0 <= c < 100)%Z -> Z.of_nat (length l) = (r * c)%Z ->
                 forallb (fun x => (0 <=? x) && (x <? 4294967296))%Z l = true -> good_matrix (mat r c l)).
  { intros r c l H1 H2 H3 H4. constructor; cbn; try lia; try (unfold fits; lia).
    apply Forall_forall. intros x Hx. rewrite forallb_forall in H4. specialize (H4 x Hx). unfold pattern. lia. }
  split.
  - constructor; cbn; try (unfold fits, pattern; lia).
    + repeat constructor; unfold fits; lia.
    + repeat constructor; unfold fits; cbn; lia.
    + repeat constructor; cbn; intuition discriminate.
    + apply GM; cbn; lia || reflexivity.
    + apply GM; cbn; lia || reflexivity.
    + intros h [H|H]; [discriminate|]. injection H as <-. apply GM; cbn; lia || reflexivity.
  - constructor; cbn; try lia.
    + right. repeat split; discriminate.
    + repeat constructor; cbn; lia.
    + discriminate.
    + intros h H. injection H as <-. reflexivity.
Qed.

(** With both hierarchical softmax and negative sampling one output layer is dropped, and the other is loaded twice. *)
Theorem both_layers_refuted :
  exists m m', again 10 utf8_encode m = Some (Ok m') /\ f_syn1 m = Some out1 /\ f_syn1neg m = Some out2
    /\ f_syn1 m' = Some out2 /\ f_syn1neg m' = Some out2 /\ f_hs m' = 1%Z /\ f_negative m' = 5%Z.
Proof.
  exists (demo 1 5 two_words (Some out1) (Some out2)), (demo 1 5 two_words (Some out2) (Some out2)).
  vm_compute. auto 10.
Qed.
Print Assumptions both_layers_refuted.

(** A model with neither cannot be saved (the file is left incomplete). *)
Theorem no_layer_refuted :
  exists m, save utf8_encode m 100 1 = Err UnboundLocalErr /\ f_hs m = 0%Z /\ f_negative m = 0%Z /\ f_words m = two_words.
Proof. exists (demo 0 0 two_words None None). vm_compute. auto. Qed.
Print Assumptions no_layer_refuted.

(** [null_word=1] puts the word "\0" into the vocabulary: its entry is read as the empty word with another count, and
    everything after it is read shifted by a byte. *)
Definition vocabulary_again (enc : pystr -> option (list N)) (m : ftmodel) : option (result (dict pystr Z * list N)) :=
  match dict_save enc m with
  | Ok d => match load_vocab utf8_decode no_repl 100 true d with
            | Some (Ok (v, rest)) => Some (Ok (v_raw v, rest))
            | Some (Err e) => Some (Err e)
            | None => None
            end
  | Err e => Some (Err e)
  end.
Example vocabulary_again_example :
  vocabulary_again utf8_encode (demo 0 5 two_words None None) = Some (Ok (two_words, [])).
Proof. vm_compute. reflexivity. Qed.
Theorem null_word_refuted :
  exists m, f_words m = [(str "ab", 9%Z); ([0%N], 1%Z)]
    /\ vocabulary_again utf8_encode m = Some (Ok ([(str "ab", 9%Z); ([], 256%Z)], [0%N])).
Proof. exists (demo 0 5 [(str "ab", 9%Z); ([0%N], 1%Z)] None (Some out2)). vm_compute. auto. Qed.
Print Assumptions null_word_refuted.

(** An encoding with NUL bytes, accepted as [encoding] argument, cannot be read back even for plain words. *)
Theorem utf16_refuted :
  exists m, f_words m = [(str "a", 9%Z)] /\ vocabulary_again utf16_encode m = Some (Ok ([([], 2304%Z)], [0%N])).
Proof. exists (demo 0 5 [(str "a", 9%Z)] None (Some out2)). vm_compute. auto. Qed.
Print Assumptions utf16_refuted.

(** A word with count 0 (possible with build_vocab_from_freq and min_count=0) is dropped on loading; the matrix then has
    too many rows. *)
Theorem zero_count_refuted :
  exists m, f_words m = [(str "ab", 9%Z); (str "c", 0%Z)] /\ again 1000 utf8_encode m = Some (Err AssertionErr).
Proof. exists (demo 0 5 [(str "ab", 9%Z); (str "c", 0%Z)] None (Some out2)). vm_compute. auto. Qed.
Print Assumptions zero_count_refuted.

(** ** The layout of the file, field by field, as Facebook's tools read it *)
Theorem facebook_layout : forall enc m lr wn file, save enc m lr wn = Ok file ->
  exists entries v o, rmapM (entry_save enc) (f_words m) = Ok entries /\
  file =
    le 4 793712314 ++ le 4 12 ++
    le 4 (f_vector_size m) ++ le 4 (f_window m) ++ le 4 (f_epochs m) ++ le 4 (f_min_count m) ++ le 4 (f_negative m) ++ le 4 wn ++
    le 4 (if (f_hs m =? 1)%Z then 1%Z else 2%Z) ++ le 4 (if (f_sg m =? 1)%Z then 2%Z else 1%Z) ++
    le 4 (f_bucket m) ++ le 4 (f_min_n m) ++ le 4 (f_max_n m) ++ le 4 lr ++ le 8 (f_sample m) ++
    le 4 (Z.of_nat (length (f_words m))) ++ le 4 (Z.of_nat (length (f_words m))) ++ le 4 0 ++ le 8 (f_corpus_total_words m) ++ le 8 (-1) ++ concat entries ++
    [0%N] ++ le 8 (m_rows (f_vectors_vocab m) + f_bucket m) ++ le 8 (m_cols (f_vectors_vocab m)) ++ v ++
    [0%N] ++ o /\
  v = concat (map (le 4) (m_data (f_vectors_vocab m) ++ m_data (f_vectors_ngrams m))).
Proof.
  intros enc m lr wn file H. unfold save in H. cbn [args_save new_header old_header get_field rbind ftype_size] in H.
  destruct (if (f_hs m =? 1)%Z then _ else _) as [loss|] eqn:EL in H; [|discriminate]. cbn [rbind] in H.
  unfold dict_save in H. destruct (rmapM (entry_save enc) (f_words m)) as [es|] eqn:EE; [|discriminate]. cbn [rbind] in H.
  unfold input_save in H. match type of H with context [if ?b then _ else _] => destruct b eqn:EB in H; [|discriminate] end. cbn [rbind] in H.
  destruct (output_save m) as [o|]; [|discriminate]. cbn [rbind] in H. injection H as <-.
  exists es, (floats (m_data (f_vectors_vocab m)) ++ floats (m_data (f_vectors_ngrams m))), o. split; [reflexivity|]. split.
  - assert (LO : loss = if (f_hs m =? 1)%Z then 1%Z else 2%Z) by (destruct (f_hs m =? 1)%Z; [congruence|destruct (f_hs m =? 0)%Z; congruence]).
    rewrite LO. replace (m_rows (f_vectors_ngrams m)) with (f_bucket m) by lia.
    rewrite <- !app_assoc. reflexivity.
  - unfold floats. rewrite !flat_map_concat_map, map_app, concat_app. reflexivity.
Qed.
Print Assumptions facebook_layout.
(** Files of Facebook's first releases have no magic number, the dimension and the window come first, no pruning index
    and no quantization flags. *)
Theorem old_format_layout : forall encode decode replace fuel dim ws epoch minc neg wng loss kind bucket minn maxn lr t nt words es v h,
  Forall (fits 4) [dim; ws; epoch; minc; neg; wng; loss; kind; bucket; minn; maxn; lr; Z.of_nat (length words)] ->
  dim <> 793712314%Z -> pattern 8 t -> fits 8 nt ->
  rmapM (entry_save encode) words = Ok es ->
  Forall (fun wc => exists e, word_ok encode decode wc e /\ length e < fuel) words ->
  NoDup (map fst words) -> good_matrix v -> good_matrix h ->
  load decode replace fuel true
    (le 4 dim ++ le 4 ws ++ le 4 epoch ++ le 4 minc ++ le 4 neg ++ le 4 wng ++ le 4 loss ++ le 4 kind ++ le 4 bucket ++
     le 4 minn ++ le 4 maxn ++ le 4 lr ++ le 8 t ++
     le 4 (Z.of_nat (length words)) ++ le 4 (Z.of_nat (length words)) ++ le 4 0 ++ le 8 nt ++ concat es ++
     (le 8 (m_rows v) ++ le 8 (m_cols v) ++ floats (m_data v)) ++ (le 8 (m_rows h) ++ le 8 (m_cols h) ++ floats (m_data h)))
  = Some (Ok (mkFb [(Dim, dim); (Ws, ws); (Epoch, epoch); (MinCount, minc); (Neg, neg); (WordNgrams, wng); (Loss, loss); (ModelKind, kind);
                    (Bucket, bucket); (Minn, minn); (Maxn, maxn); (LrUpdateRate, lr); (T, t)]
                   (mkVocab words (Z.of_nat (length words)) (Z.of_nat (length words)) nt) v (Some h))).
Proof.
  intros encode decode replace fuel dim ws epoch minc neg wng loss kind bucket minn maxn lr t nt words es v h F Nm Pt Fn Es Fw ND Gv Gh.
  repeat match goal with H : Forall (fits 4) (_ :: _) |- _ => inversion H; clear H; subst end.
  assert (LM : forall m r, good_matrix m -> load_matrix false ((le 8 (m_rows m) ++ le 8 (m_cols m) ++ floats (m_data m)) ++ r) = Ok (m, r)).
  { intros m r [H1' H2' H3' H4' H5' H6']. pose proof (load_matrix_ok (m_rows m) (m_cols m) (m_data m) r H1' H2' H3' H4' H5' H6') as Q.
    unfold load_matrix in *.
    assert (R : forall b, read_raw 1 (0%N :: b) = Ok (0%Z, b)) by reflexivity. rewrite R in Q. cbn [rbind snd] in Q |- *.
    rewrite Q. destruct m; reflexivity. }
  unfold load.
  rewrite read_int_le by (assumption || lia). cbn [rbind fst snd].
  rewrite read_int_le by (assumption || lia). cbn [rbind fst snd].
  replace (dim =? magic)%Z with false by (unfold magic; lia). cbv iota.
  unfold old_header. cbn [read_header read_ftype].
  repeat (rewrite read_int_le by (assumption || lia); cbn [rbind fst snd]).
  rewrite read_raw_le by exact Pt. cbn [rbind fst snd].
  unfold load_vocab.
  repeat (rewrite read_int_le by (assumption || lia); cbn [rbind fst snd]).
  rewrite (read_int_le 4 0) by (try lia; unfold fits; lia). cbn [rbind fst snd].
  change (0 >? 0)%Z with false. cbv iota.
  rewrite read_int_le by (assumption || lia). cbn [rbind fst snd].
  rewrite Nat2Z.id. rewrite (read_entries_ok encode decode replace words es fuel [] _ Es Fw) by exact ND.
  cbn [app rbind]. rewrite LM by exact Gv. cbn [rbind fst snd].
  rewrite <- (app_nil_r (le 8 (m_rows h) ++ le 8 (m_cols h) ++ floats (m_data h))). rewrite LM by exact Gh. reflexivity.
Qed.
Print Assumptions old_format_layout.
Local Transparent le.
Example little_endian : le 4 793712314 = [186; 22; 79; 47]%N /\ le 8 (-1) = repeat 255%N 8 /\ le 4 258 = [2; 1; 0; 0]%N.
Proof. vm_compute. auto. Qed.
(** One word, one dimension, one bucket, in the old format. *)
Example old_file :
  load utf8_decode no_repl 10 true
    ([1;0;0;0; 5;0;0;0; 3;0;0;0; 1;0;0;0; 6;0;0;0; 1;0;0;0; 2;0;0;0; 2;0;0;0; 1;0;0;0; 7;0;0;0; 8;0;0;0; 100;0;0;0; 9;0;0;0;0;0;0;0;
      1;0;0;0; 1;0;0;0; 0;0;0;0; 4;0;0;0;0;0;0;0; 97;0; 4;0;0;0;0;0;0;0; 0;
      2;0;0;0;0;0;0;0; 1;0;0;0;0;0;0;0; 11;0;0;0; 12;0;0;0;
      1;0;0;0;0;0;0;0; 1;0;0;0;0;0;0;0; 13;0;0;0]%N)
  = Some (Ok (mkFb [(Dim, 1); (Ws, 5); (Epoch, 3); (MinCount, 1); (Neg, 6); (WordNgrams, 1); (Loss, 2); (ModelKind, 2); (Bucket, 1);
                    (Minn, 7); (Maxn, 8); (LrUpdateRate, 100); (T, 9)]%Z
                   (mkVocab [(str "a", 4%Z)] 1 1 4) (mkMat 2 1 [11; 12]%Z) (Some (mkMat 1 1 [13%Z])))).
Proof. vm_compute. reflexivity. Qed.
