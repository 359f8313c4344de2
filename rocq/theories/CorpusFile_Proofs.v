(** Proofs about reading batches from a file. *)
From Verif Require Import Base Str Formats_Base Sentences_Model Sentences_Spec Sentences_Properties NegSampling_Model TrainJobs_Model TrainJobs_Spec TrainJobs_Properties CorpusFile_Model CorpusFile_Spec.
Local Open Scope nat_scope.
From Coq Require Import ZifyBool ZifyNat.

Lemma getline_split : forall s,
  match getline s with
  | (l, None) => split_on chr_nl s = [l]
  | (l, Some r) => split_on chr_nl s = l :: split_on chr_nl r /\ length r < length s
  end.
Proof.
  induction s as [|c s IH]; [reflexivity|]. cbn [getline split_on]. destruct (c =? chr_nl)%N eqn:E.
  - apply N.eqb_eq in E. subst c. destruct (eq_dec chr_nl chr_nl) as [_|X]; [|congruence]. split; [reflexivity | cbn [length]; lia].
  - apply N.eqb_neq in E. destruct (eq_dec c chr_nl) as [X|_]; [contradiction|]. destruct (getline s) as [l [r|]].
    + destruct IH as [-> L]. split; [reflexivity | cbn [length]; lia].
    + rewrite IH. reflexivity.
Qed.

(** The lines a reader has not read yet. *)
Definition lines_ahead (r : reader) : list (list pystr) := if rd_eof r then [] else line_words (rd_rest r).
Lemma read_sentence_ok : forall r, rd_eof r = false ->
  let (sent, r') := read_sentence r in
  lines_ahead r = sent :: lines_ahead r' /\ rd_buf r' = rd_buf r /\
  (length (rd_rest r') < length (rd_rest r) \/ (rd_eof r' = true /\ rd_rest r' = [])).
Proof.
  intros [rest eof buf] E. cbn in E. subst eof. unfold read_sentence. cbn [rd_eof rd_rest rd_buf]. pose proof (getline_split rest) as G.
  destruct (getline rest) as [l [k|]].
  - destruct G as [G L]. unfold lines_ahead, line_words. cbn [rd_eof rd_rest rd_buf]. rewrite G. repeat split. left. exact L.
  - unfold lines_ahead, line_words. cbn [rd_eof rd_rest rd_buf]. rewrite G. repeat split. right. split; reflexivity.
Qed.

Lemma chunk_sentence_ok : forall m sent, 0 < m -> in_pieces m sent (chunk_sentence m sent).
Proof.
  intros m sent M. unfold in_pieces, chunk_sentence. destruct (m <? length sent) eqn:E.
  - right. split; [lia|]. apply slices_ok; [exact M | apply Nat.le_refl].
  - left. split; [lia | reflexivity].
Qed.
Lemma in_pieces_le : forall m sent ps, in_pieces m sent ps -> Forall (fun p => length p <= m) ps.
Proof.
  intros m sent ps [[A ->]|[_ [_ B]]]; [constructor; [exact A | constructor]|]. apply Forall_forall. intros p H. apply in_split in H. destruct H as (a & b & ->). apply (B a p b eq_refl).
Qed.
Lemma in_pieces_concat : forall m sent ps, in_pieces m sent ps -> concat ps = sent.
Proof. intros m sent ps [[_ ->]|[_ [B _]]]; [cbn; apply app_nil_r | exact B]. Qed.

Definition chunks_ahead (m : nat) (r : reader) : list (list pystr) := flat_map (chunk_sentence m) (lines_ahead r).

Lemma fill_ok : forall m fuel jb bs r, length (rd_rest r) < fuel -> rd_buf r = [] -> bs = word_count jb ->
  let '(jb', bs', r') := fill fuel m jb bs r in
  bs' = word_count jb' /\ rd_buf r' = [] /\ jb ++ chunks_ahead m r = jb' ++ chunks_ahead m r' /\ (rd_eof r' = true \/ m < bs') /\
  length (rd_rest r') <= length (rd_rest r) /\ (rd_eof r = true -> rd_eof r' = true) /\
  (rd_eof r = false -> bs <= m -> length (rd_rest r') < length (rd_rest r) \/ rd_eof r' = true).
Proof.
  intros m. induction fuel as [|fuel IH]; intros jb bs r L B W; [lia|]. cbn [fill]. destruct (rd_eof r) eqn:E; cbn [negb andb].
  { repeat split; try assumption; auto; congruence. }
  destruct (bs <=? m) eqn:Em; cbn [negb andb]; [|repeat split; auto; [right; lia | congruence | lia]].
  pose proof (read_sentence_ok r E) as R. destruct (read_sentence r) as [sent r1]. destruct R as (A & Bf & P).
  specialize (IH (jb ++ chunk_sentence m sent) (bs + length (concat (chunk_sentence m sent))) r1).
  destruct (le_lt_dec fuel (length (rd_rest r1))) as [X|X].
  { destruct P as [P|[P P']]; [lia|]. rewrite P' in X. cbn in X. assert (fuel = 0) by lia. subst fuel. cbn [fill]. unfold chunks_ahead. rewrite A. cbn [flat_map].
    rewrite <- !app_assoc. repeat split; auto; try congruence; try (unfold word_count in *; rewrite concat_app, app_length); try (unfold lines_ahead; rewrite P; reflexivity); try (rewrite P'; cbn); try lia. }
  specialize (IH X ltac:(congruence) ltac:(unfold word_count in *; rewrite concat_app, app_length; lia)).
  destruct (fill fuel m _ _ r1) as [[jb' bs'] r']. destruct IH as (I1 & I2 & I3 & I4 & I5 & I6 & I7). repeat split; auto.
  - rewrite <- I3. unfold chunks_ahead at 1. rewrite A. cbn [flat_map]. unfold chunks_ahead. rewrite <- app_assoc. reflexivity.
  - destruct P as [P|[P P']]; [lia|]. rewrite P' in I5. cbn in I5. lia.
  - congruence.
  - intros _ _. destruct P as [P|[P P']]; [left; lia | right; auto].
Qed.

Lemma firstn_snoc : forall {A} (l : list A) x k, k <= length l -> firstn k (l ++ [x]) = firstn k l.
Proof. intros A l x k H. rewrite firstn_app. replace (k - length l) with 0 by lia. cbn. apply app_nil_r. Qed.
Lemma find_last_ok : forall m jb, m < word_count jb ->
  let k := find_last m (word_count jb) (length jb) (rev jb) in
  0 < k <= length jb /\ m < word_count (firstn k jb) /\ word_count (firstn (k - 1) jb) <= m.
Proof.
  intros m jb. induction jb as [|c jb IH] using rev_ind; intros H; [cbn in H; lia|].
  rewrite rev_app_distr. cbn [rev app find_last]. assert (E : word_count (jb ++ [c]) = word_count jb + length c).
  { unfold word_count. rewrite concat_app, app_length. cbn. rewrite app_nil_r. reflexivity. }
  rewrite E in *. rewrite app_length. cbn [length]. replace (word_count jb + length c - length c) with (word_count jb) by lia.
  destruct (word_count jb <=? m) eqn:Em.
  - cbn zeta. split; [lia|]. replace (length jb + 1 - 1) with (length jb) by lia. rewrite (firstn_snoc jb c (length jb)) by lia. rewrite firstn_all.
    replace (length jb + 1) with (length (jb ++ [c])) by (rewrite app_length; reflexivity). rewrite firstn_all, E. lia.
  - replace (length jb + 1 - 1) with (length jb) by lia. specialize (IH ltac:(lia)). cbn zeta in *. set (k := find_last m (word_count jb) (length jb) (rev jb)) in *.
    rewrite !firstn_snoc by lia. lia.
Qed.

Lemma fill_stop : forall fuel m jb bs r, m < bs -> fill fuel m jb bs r = (jb, bs, r).
Proof. intros [|fuel] m jb bs r H; [reflexivity|]. cbn [fill]. replace (bs <=? m) with false by lia. rewrite andb_false_r. reflexivity. Qed.
Definition ahead (m : nat) (r : reader) : list (list pystr) := rd_buf r ++ chunks_ahead m r.
Lemma next_batch_ok : forall m r,
  let (b, r') := next_batch m r in
  ahead m r = b ++ ahead m r' /\
  ((m < word_count b /\ b <> [] /\ word_count (removelast b) <= m) \/ (word_count b <= m /\ rd_eof r' = true /\ rd_buf r' = [])) /\
  length (rd_rest r') <= length (rd_rest r) /\
  (rd_eof r = false -> length (rd_rest r') < length (rd_rest r) \/ rd_eof r' = true \/ (length (rd_buf r') < length (rd_buf r) /\ rd_rest r' = rd_rest r)).
Proof.
  intros m [rest eof buf]. unfold next_batch. cbn [rd_rest rd_eof rd_buf].
  pose proof (fill_ok m (S (length rest)) buf (length (concat buf)) (Reader rest eof []) ltac:(cbn; lia) eq_refl eq_refl) as F.
  pose proof (fill_stop (S (length rest)) m buf (length (concat buf)) (Reader rest eof [])) as FS.
  destruct (fill (S (length rest)) m buf (length (concat buf)) (Reader rest eof [])) as [[jb bs] r1]. destruct F as (F1 & F2 & F3 & F4 & F5 & F6 & F7). cbn [rd_rest rd_eof rd_buf] in *.
  assert (Q : ahead m (Reader rest eof buf) = jb ++ chunks_ahead m r1). { rewrite <- F3. reflexivity. }
  destruct (m <? bs) eqn:E.
  - assert (Hm : m < word_count jb) by lia. pose proof (find_last_ok m jb Hm) as K. rewrite <- F1 in K. cbn zeta in K. set (k := find_last m bs (length jb) (rev jb)) in *. destruct K as (K1 & K2 & K3).
    cbn [rd_rest rd_eof rd_buf]. repeat split.
    + unfold ahead at 2. cbn [rd_buf]. unfold chunks_ahead, lines_ahead. cbn [rd_eof rd_rest]. rewrite app_assoc, firstn_skipn. exact Q.
    + left. split; [exact K2|]. split.
      * intros X. rewrite X in K2. cbn in K2. lia.
      * destruct (Nat.eq_dec k (length jb)) as [D|D].
        -- rewrite D, firstn_all. rewrite removelast_firstn_len. replace (pred (length jb)) with (k - 1) by lia. exact K3.
        -- replace k with (S (k - 1)) by lia. rewrite removelast_firstn by lia. exact K3.
    + exact F5.
    + intros Ee. destruct (le_lt_dec (length (concat buf)) m) as [X|X]; [destruct (F7 Ee X) as [Y|Y]; [left; exact Y | right; left; exact Y]|].
      right; right. specialize (FS X). injection FS as E1 E2 E3. clear F3 Q. subst jb r1. cbn [rd_rest]. rewrite skipn_length. split; [lia | reflexivity].
  - repeat split; auto.
    + unfold ahead. rewrite F2. exact Q.
    + right. split; [lia|]. split; [|exact F2]. destruct F4 as [F4|F4]; [exact F4 | lia].
    + intros Ee. destruct (le_lt_dec (length (concat buf)) m) as [X|X]; [destruct (F7 Ee X) as [Y|Y]; auto|]. specialize (FS X). injection FS as E1 E2 E3. lia.
Qed.

(** ** Lines that fit *)
Lemma fill_short : forall m fuel jb bs r, length (rd_rest r) < fuel -> bs = word_count jb -> Forall (fun l => length l <= m) (lines_ahead r) ->
  (bs <= m \/ (jb <> [] /\ word_count (removelast jb) <= m)) ->
  let '(jb', bs', r') := fill fuel m jb bs r in (bs' <= m \/ (jb' <> [] /\ word_count (removelast jb') <= m)) /\ Forall (fun l => length l <= m) (lines_ahead r').
Proof.
  intros m. induction fuel as [|fuel IH]; intros jb bs r L W F C; [lia|]. cbn [fill]. destruct (rd_eof r) eqn:E; cbn [negb andb]; [split; assumption|].
  destruct (bs <=? m) eqn:Em; [|split; assumption]. pose proof (read_sentence_ok r E) as R. destruct (read_sentence r) as [sent r1]. destruct R as (A & _ & P).
  rewrite A in F. inversion F as [|? ? F1 F2]; subst. assert (CS : chunk_sentence m sent = [sent]) by (unfold chunk_sentence; replace (m <? length sent) with false by lia; reflexivity). rewrite CS.
  destruct (le_lt_dec fuel (length (rd_rest r1))) as [X|X].
  { destruct P as [P|[P P']]; [lia|]. rewrite P' in X. cbn in X. assert (fuel = 0) by lia. subst fuel. cbn [fill]. split; [|exact F2]. right. rewrite removelast_last. split; [destruct jb; discriminate | lia]. }
  apply IH; [exact X | unfold word_count; rewrite concat_app, app_length; reflexivity | exact F2|]. right. rewrite removelast_last. split; [destruct jb; discriminate | lia].
Qed.
Lemma word_count_firstn : forall k j l, k <= j -> word_count (firstn k l) <= word_count (firstn j l).
Proof.
  intros k j l H. rewrite <- (firstn_skipn k (firstn j l)). rewrite firstn_firstn. replace (Nat.min k j) with k by lia. unfold word_count. rewrite concat_app, app_length. lia.
Qed.
Lemma next_batch_short : forall m r, rd_buf r = [] -> Forall (fun l => length l <= m) (lines_ahead r) ->
  let (b, r') := next_batch m r in rd_buf r' = [] /\ Forall (fun l => length l <= m) (lines_ahead r') /\ lines_ahead r = b ++ lines_ahead r'.
Proof.
  intros m r B F. pose proof (next_batch_ok m r) as OK.
  assert (CA : forall q, Forall (fun l => length l <= m) (lines_ahead q) -> chunks_ahead m q = lines_ahead q).
  { intros q Fq. unfold chunks_ahead. induction Fq as [|l ls Hl Fq IH]; [reflexivity|]. cbn [flat_map]. rewrite IH. unfold chunk_sentence. replace (m <? length l) with false by lia. reflexivity. }
  destruct r as [rest eof buf]. cbn [rd_buf] in B. subst buf. unfold next_batch in *. cbn [rd_rest rd_eof rd_buf] in *.
  pose proof (fill_ok m (S (length rest)) [] 0 (Reader rest eof []) ltac:(cbn; lia) eq_refl eq_refl) as G.
  pose proof (fill_short m (S (length rest)) [] 0 (Reader rest eof []) ltac:(cbn; lia) eq_refl F (or_introl (Nat.le_0_l m))) as SH.
  change (length (concat [])) with 0 in *. destruct (fill (S (length rest)) m [] 0 (Reader rest eof [])) as [[jb bs] r1]. destruct SH as [S1 S2]. destruct G as (G1 & G2 & _).
  destruct (m <? bs) eqn:E.
  - assert (Hm : m < word_count jb) by lia. pose proof (find_last_ok m jb Hm) as K. rewrite <- G1 in K. cbn zeta in K. set (k := find_last m bs (length jb) (rev jb)) in *. destruct K as (K1 & K2 & K3).
    assert (Ek : k = length jb). { destruct S1 as [S1|[N S1]]; [lia|]. destruct (Nat.eq_dec k (length jb)) as [D|D]; [exact D|]. exfalso.
      rewrite removelast_firstn_len in S1. pose proof (word_count_firstn k (pred (length jb)) jb ltac:(lia)). lia. }
    rewrite Ek, firstn_all, skipn_all in *. cbn [rd_buf]. split; [reflexivity|]. unfold lines_ahead in *. cbn [rd_eof rd_rest] in *. split; [exact S2|].
    destruct OK as [OK _]. unfold ahead in OK. cbn [rd_buf app] in OK. rewrite (CA (Reader rest eof []) F) in OK. rewrite (CA (Reader (rd_rest r1) (rd_eof r1) []) S2) in OK. exact OK.
  - split; [exact G2|]. split; [exact S2|]. destruct OK as [OK _]. unfold ahead in OK. rewrite G2 in OK. cbn [rd_buf app] in OK. rewrite (CA (Reader rest eof []) F), (CA _ S2) in OK. exact OK.
Qed.

(** ** The epoch *)
Section Epoch.
Variable m : nat.
Variable index_of : pystr -> option nat.
Variable sample : option (nat -> Z).
Variable after : Z -> list nat -> Z.
Notation sents_of := (fun rec : batch_record => fst (fst rec)).

Lemma prep_file_batch_ok : forall sents s idx sidx tw,
  match prep_file_batch m index_of sample sents s idx sidx tw with
  | None => prep_batch m index_of sample sents s idx sidx = None
  | Some (s', idx', sidx', tw') => prep_batch m index_of sample sents s idx sidx = Some (s', idx', sidx') /\ tw <= tw' <= tw + word_count sents
  end.
Proof.
  induction sents as [|sent sents IH]; intros s idx sidx tw; cbn [prep_file_batch prep_batch]; [split; [reflexivity | cbn; lia]|].
  destruct sent as [|w0 sent0] eqn:Es; [apply IH|]. rewrite <- Es in *. clear Es w0 sent0. destruct (prep_sentence m index_of sample sent s idx) as [s1 idx1].
  destruct (length sidx <? m + 1); [|reflexivity]. unfold word_count in *. cbn [concat]. rewrite app_length. destruct (length idx1 =? m); [split; [reflexivity | lia]|].
  specialize (IH s1 idx1 (sidx ++ [length idx1]) (tw + length sent)). destruct (prep_file_batch m index_of sample sents s1 idx1 (sidx ++ [length idx1]) (tw + length sent)) as [[[[s' idx'] sidx'] tw']|]; [|exact IH].
  destruct IH as [A B]. split; [exact A | lia].
Qed.

Definition prepared (rec : batch_record) : Prop :=
  let '(sents, idx, sidx) := rec in exists s s', prepare_batch m index_of sample sents s = Some (s', idx, sidx).
Definition full_batch (b : list (list pystr)) : Prop := m < word_count b /\ b <> [] /\ word_count (removelast b) <= m.
Lemma epoch_loop_ok : forall fuel limit r s tw recs total, epoch_loop m index_of sample after fuel limit r s tw = Some (recs, total) ->
  exists r', ahead m r = concat (map sents_of recs) ++ ahead m r' /\ (rd_eof r' = true \/ (limit < Z.of_nat total)%Z) /\ Forall prepared recs /\
    tw <= total <= tw + word_count (concat (map sents_of recs)) /\
    (forall l rec k, recs = l ++ rec :: k -> full_batch (sents_of rec) \/ (k = [] /\ word_count (sents_of rec) <= m /\ ahead m r' = [])).
Proof.
  induction fuel as [|fuel IH]; intros limit r s tw recs total H; cbn [epoch_loop] in H.
  { destruct (rd_eof r || (limit <? Z.of_nat tw)%Z) eqn:E; [|discriminate]. injection H as <- <-. exists r. split; [reflexivity|]. split; [apply orb_true_iff in E; destruct E; [left; assumption | right; lia]|].
    split; [constructor|]. split; [cbn; lia|]. intros l rec k X. destruct l; discriminate. }
  destruct (rd_eof r || (limit <? Z.of_nat tw)%Z) eqn:E.
  { injection H as <- <-. exists r. split; [reflexivity|]. split; [apply orb_true_iff in E; destruct E; [left; assumption | right; lia]|].
    split; [constructor|]. split; [cbn; lia|]. intros l rec k X. destruct l; discriminate. }
  pose proof (next_batch_ok m r) as NB. destruct (next_batch m r) as [b r1]. destruct NB as (NB1 & NB2 & _).
  pose proof (prep_file_batch_ok b s [] [0] tw) as P. destruct (prep_file_batch m index_of sample b s [] [0] tw) as [[[[s' idx] sidx] tw']|]; [|discriminate]. destruct P as [P1 P2].
  destruct (epoch_loop m index_of sample after fuel limit r1 _ tw') as [[recs1 total1]|] eqn:E1; [|discriminate]. injection H as <- <-.
  destruct (IH _ _ _ _ _ _ E1) as (r' & I1 & I2 & I3 & I4 & I5). exists r'. split.
  { cbn [map concat fst]. rewrite NB1, I1, app_assoc. reflexivity. }
  split; [exact I2|]. split; [constructor; [exists s, s'; exact P1 | exact I3]|]. split.
  { cbn [map concat fst]. unfold word_count in *. rewrite concat_app, app_length. lia. }
  intros l rec k X. destruct l as [|x l].
  - injection X as <- <-. cbn [fst]. destruct NB2 as [NB2|(A & B & C)]; [left; exact NB2|]. right.
    assert (R1 : recs1 = [] /\ total1 = tw'). { destruct fuel; cbn [epoch_loop] in E1; rewrite B in E1; cbn [orb] in E1; injection E1 as <- <-; auto. }
    destruct R1 as [-> ->]. split; [reflexivity|]. split; [exact A|]. cbn [map concat app] in I1. rewrite <- I1. unfold ahead, chunks_ahead, lines_ahead. rewrite B, C. reflexivity.
  - injection X as <- ->. apply (I5 l rec k eq_refl).
Qed.

(** Lines that fit: whole lines are handed over. *)
Lemma epoch_loop_short : forall fuel limit r s tw recs total, epoch_loop m index_of sample after fuel limit r s tw = Some (recs, total) ->
  rd_buf r = [] -> Forall (fun l => length l <= m) (lines_ahead r) ->
  exists r', lines_ahead r = concat (map sents_of recs) ++ lines_ahead r' /\ (rd_eof r' = true \/ (limit < Z.of_nat total)%Z).
Proof.
  induction fuel as [|fuel IH]; intros limit r s tw recs total H B F; cbn [epoch_loop] in H.
  { destruct (rd_eof r || (limit <? Z.of_nat tw)%Z) eqn:E; [|discriminate]. injection H as <- <-. exists r. split; [reflexivity|]. apply orb_true_iff in E; destruct E; [left; assumption | right; lia]. }
  destruct (rd_eof r || (limit <? Z.of_nat tw)%Z) eqn:E.
  { injection H as <- <-. exists r. split; [reflexivity|]. apply orb_true_iff in E; destruct E; [left; assumption | right; lia]. }
  pose proof (next_batch_short m r B F) as NB. destruct (next_batch m r) as [b r1]. destruct NB as (NB1 & NB2 & NB3).
  destruct (prep_file_batch m index_of sample b s [] [0] tw) as [[[[s' idx] sidx] tw']|]; [|discriminate].
  destruct (epoch_loop m index_of sample after fuel limit r1 _ tw') as [[recs1 total1]|] eqn:E1; [|discriminate]. injection H as <- <-.
  destruct (IH _ _ _ _ _ _ E1 NB1 NB2) as (r' & I1 & I2). exists r'. split; [|exact I2]. cbn [map concat fst]. rewrite NB3, I1, app_assoc. reflexivity.
Qed.

(** The loop ends by itself unless a batch overflows [sentence_idx]. *)
Lemma epoch_loop_some : forall (Inv : reader -> Prop) fuel limit r s tw,
  (forall q, Inv q -> rd_eof q = false -> let (b, q') := next_batch m q in Inv q' /\ forall s t, prep_file_batch m index_of sample b s [] [0] t <> None) ->
  Inv r -> length (ahead m r) < fuel -> exists recs total, epoch_loop m index_of sample after fuel limit r s tw = Some (recs, total).
Proof.
  intros Inv fuel limit. induction fuel as [|fuel IH]; intros r s tw Step I0 L; [lia|]. cbn [epoch_loop].
  destruct (rd_eof r) eqn:Ee; cbn [orb]; [do 2 eexists; reflexivity|]. destruct (limit <? Z.of_nat tw)%Z; [do 2 eexists; reflexivity|].
  pose proof (Step r I0 Ee) as St. pose proof (next_batch_ok m r) as NB. destruct (next_batch m r) as [b r1]. destruct St as [I1 St]. destruct NB as (NB1 & NB2 & _).
  destruct (prep_file_batch m index_of sample b s [] [0] tw) as [[[[s' idx] sidx] tw']|] eqn:Ep; [|exfalso; exact (St s tw Ep)].
  assert (X : exists recs total, epoch_loop m index_of sample after fuel limit r1 (after (skip_randoms (length idx) s') idx) tw' = Some (recs, total)).
  { destruct NB2 as [(A & B & C)|(A & B & C)].
    - apply IH; [exact Step | exact I1|]. rewrite NB1, app_length in L. destruct b; [congruence|]. cbn [length] in L. lia.
    - destruct fuel; cbn [epoch_loop]; rewrite B; cbn [orb]; do 2 eexists; reflexivity. }
  destruct X as (recs & total & ->). do 2 eexists; reflexivity.
Qed.
End Epoch.

Lemma words_aux_length : forall sp s cur, length (words_aux sp cur s) <= length s + (match cur with [] => 0 | _ => 1 end).
Proof.
  intros sp s. induction s as [|c s IH]; intros cur; cbn [words_aux].
  - destruct cur; cbn; lia.
  - destruct (sp c).
    + specialize (IH []). cbn in IH. destruct cur; cbn [length]; lia.
    + specialize (IH (c :: cur)). cbn in IH. cbn [length]. destruct cur; lia.
Qed.
Lemma words_length : forall sp s, length (words sp s) <= length s.
Proof. intros sp s. pose proof (words_aux_length sp s []). unfold words. cbn in *. lia. Qed.
Lemma slices_length : forall m fuel ws, 0 < m -> length (slices fuel m ws) <= length ws.
Proof.
  intros m fuel. induction fuel as [|fuel IH]; intros ws M; [cbn; lia|]. destruct ws as [|w ws]; [cbn; lia|]. cbn [slices length]. specialize (IH (skipn m (w :: ws)) M). rewrite skipn_length in IH. cbn [length] in *. lia.
Qed.
Lemma chunk_sentence_length : forall m sent, 0 < m -> length (chunk_sentence m sent) <= S (length sent).
Proof. intros m sent M. unfold chunk_sentence. destruct (m <? length sent); [pose proof (slices_length m (length sent) sent M); lia | cbn; lia]. Qed.
Lemma split_total : forall s, list_sum (map (fun l => S (length l)) (split_on chr_nl s)) = S (length s).
Proof.
  induction s as [|c s IH]; [reflexivity|]. cbn [split_on]. destruct (eq_dec c chr_nl); [cbn [map list_sum fold_right length]; unfold list_sum in IH; rewrite IH; reflexivity|].
  pose proof (split_on_nonempty chr_nl s). destruct (split_on chr_nl s) as [|w ws]; [congruence|]. unfold list_sum in *. cbn [map fold_right length] in *. lia.
Qed.
Lemma ahead_length : forall m file, 0 < m -> length (chunks_ahead m (open_at file 0)) <= S (length file).
Proof.
  intros m file M. unfold chunks_ahead, lines_ahead, open_at, line_words. cbn [rd_eof rd_rest skipn]. rewrite <- split_total. generalize (split_on chr_nl file). intros ls.
  unfold list_sum. induction ls as [|l ls IH]; [cbn; lia|]. cbn [map flat_map fold_right]. rewrite app_length. pose proof (chunk_sentence_length m (words is_bspace l) M). pose proof (words_length is_bspace l). lia.
Qed.
Lemma ahead_length_at : forall m file k, 0 < m -> length (ahead m (open_at file k)) <= S (length file).
Proof.
  intros m file k M. change (open_at file k) with (open_at (skipn k file) 0). pose proof (ahead_length m (skipn k file) M) as H. rewrite skipn_length in H.
  unfold ahead. change (rd_buf (open_at (skipn k file) 0)) with (@nil (list pystr)). rewrite app_nil_l. lia.
Qed.
