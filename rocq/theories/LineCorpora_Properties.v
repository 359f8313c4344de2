(** Theorems about SVMlight, Blei, list-of-words and Mallet corpora (properties C13-C16). *)

From Coq Require Import QArith.
From Verif Require Import Base Str Matutils_Model Matutils_Proofs2 Dictionary_Model Utils_Model Utils_Proofs Formats_Base
  MmCorpus_Model MmCorpus_Proofs LineCorpora_Model LineCorpora_Proofs.
From Coq Require Import ZifyBool ZifyNat ZifyN.
Close Scope Q_scope.
Local Open Scope Z_scope.

(** ** Specification *)

(** [get] behaves like subscripting a Python list holding [docs]. *)
Definition access_ok {D} (get : Z -> result D) (docs : list D) : Prop :=
  forall i : Z,
    (forall d, nth_error docs (Z.to_nat i) = Some d -> 0 <= i -> get i = Ok d) /\
    (forall d, nth_error docs (Z.to_nat (Z.of_nat (length docs) + i)) = Some d -> i < 0 -> - Z.of_nat (length docs) <= i ->
       get i = Ok d) /\
    (i < - Z.of_nat (length docs) \/ Z.of_nat (length docs) <= i -> get i = Err IndexError).

Lemma ix_access : forall {D} (dbo : Z -> result D) offsets docs, length offsets = length docs ->
  (forall k d, nth_error docs k = Some d -> dbo (nth k offsets 0) = Ok d) ->
  access_ok (ix_getitem dbo (Some offsets)) docs.
Proof.
  intros D dbo offsets docs L H i. unfold ix_getitem, np_index. rewrite L. repeat split.
  - intros d E Hi. assert ((Z.to_nat i < length docs)%nat) by (apply nth_error_Some; congruence).
    replace (i <? 0) with false by lia. replace (_ <=? i) with false by lia. cbn [rbind]. auto.
  - intros d E Hi Hn. replace (i <? 0) with true by lia. replace (i + _ <? 0) with false by lia. cbn [rbind].
    apply H. rewrite Z.add_comm. exact E.
  - intros Hi. destruct (i <? 0) eqn:E.
    + replace (i + _ <? 0) with true by lia. reflexivity.
    + replace (_ <=? i) with true by lia. reflexivity.
Qed.

Lemma nth_error_nth_lt : forall {A} (l : list A) k x d, nth_error l k = Some x -> (k < length l)%nat /\ nth k l d = x.
Proof.
  intros A l k x d H. split; [apply nth_error_Some; congruence|]. apply nth_error_nth; auto.
Qed.

(** Number of times id [i] is meant to occur in a document of truncated, non-negative counts. *)
Fixpoint bag_count (i : Z) (d : list (Z * Q)) : Z :=
  match d with
  | [] => 0
  | (j, v) :: r => (if j =? i then Z.max 0 (q_int v) else 0) + bag_count i r
  end.

(** [out] is the bag of words of [src]: one entry per id with a positive count, and that count. *)
Definition same_bag (src : list (Z * Q)) (out : list (Z * Z)) : Prop :=
  NoDup (map fst out) /\ forall i n, In (i, n) out <-> n = bag_count i src /\ 0 < n.

(** The bag in terms of words, for mappings where several ids may share a word. *)
Fixpoint word_count (m : dict Z pystr) (w : pystr) (d : list (Z * Q)) : Z :=
  match d with
  | [] => 0
  | (j, v) :: r => (match dget m j with Some w' => if eq_dec w' w then Z.max 0 (q_int v) else 0 | None => 0 end)
                   + word_count m w r
  end.

(** A vocabulary usable with the list-of-words formats. *)
Record vocab_ok (m : dict Z pystr) : Prop := {
  vo_nonempty : m <> [];
  vo_ids : NoDup (dkeys m);
  vo_words : NoDup (dvals m);
  vo_tokens : Forall (fun w => w <> [] /\ Forall (fun c => is_space c = false) w) (dvals m) }.

(** ** C13: SVMlight *)

Theorem svm_roundtrip : forall {W} (F : wfmt W) dom, wfmt_ok F dom ->
  forall labels corpus content offsets,
  (forall d p, In d corpus -> In p d -> dom (snd p)) ->
  (forall ls l, labels = Some ls -> In l ls -> l <> [] /\ Forall (fun c => is_space c = false) l /\ ~ In 35%N l) ->
  svm_save F labels corpus = Ok (content, offsets) ->
  svm_iter F content = (corpus, None) /\
  svm_labels F content = (match labels with
                          | Some (l :: ls) => firstn (length corpus) (l :: ls)
                          | _ => repeat (str "0") (length corpus)
                          end) /\
  access_ok (ix_getitem (svm_docbyoffset F content) (Some offsets)) corpus.
Proof.
  intros W F dom OK labels corpus content offsets D L H. unfold svm_save in H.
  destruct (svm_lines F labels 0 corpus) as [ls|e] eqn:E; cbn [rbind] in H; [|discriminate]. apply Ok_inj in H.
  apply svm_lines_ok in E. destruct E as (lbls & Ll & -> & Hl).
  assert (LB : Forall label_ok lbls).
  { apply Forall_forall. intros l Hin. destruct labels as [[|l0 ls0]|].
    - rewrite Hl in Hin. apply repeat_spec in Hin. subst. split; [split; [discriminate | repeat constructor]|].
      intros X; vm_compute in X; intuition discriminate.
    - cbn [skipn] in Hl. rewrite Hl in Hin. apply In_firstn in Hin. destruct (L _ l eq_refl Hin) as (A & B & C).
      split; [split|]; auto.
    - rewrite Hl in Hin. apply repeat_spec in Hin. subst. split; [split; [discriminate | repeat constructor]|].
      intros X; vm_compute in X; intuition discriminate. }
  set (ps := combine corpus lbls) in *.
  assert (P : forall dl, In dl ps -> label_ok (snd dl) /\ (forall p, In p (fst dl) -> dom (snd p))).
  { intros [d l] Hin. split.
    - apply in_combine_r in Hin. rewrite Forall_forall in LB. apply LB; auto.
    - intros p Hp. apply in_combine_l in Hin. apply (D d); auto. }
  assert (NL : Forall (fun w => ~ In chr_nl w) (map (fun dl => svm_text F (fst dl) (snd dl)) ps)).
  { apply Forall_forall. intros t Ht. apply in_map_iff in Ht. destruct Ht as (dl & <- & Hdl).
    destruct (P _ Hdl). apply (svm_text_no_nl F dom OK); auto. }
  destruct (written_file _ _ _ _ NL H) as (Ec & Lo & Rd). cbn [app] in Ec.
  assert (IT : svm_iter_full F content = (map Some ps, None)).
  { unfold svm_iter_full. rewrite Ec. unfold nl_lines. rewrite file_lines_concat by exact NL.
    apply gen_map_all. rewrite map_map. apply Forall2_map_l'. apply Forall2_refl_in.
    intros dl Hdl. destruct (P _ Hdl). rewrite (svm_line2doc_text F dom OK) by auto. destruct dl; reflexivity. }
  assert (FS : map fst ps = corpus).
  { subst ps. clear - Ll. revert lbls Ll. induction corpus as [|d c IH]; intros [|l ls] Ll; try discriminate; [reflexivity|].
    cbn [combine map fst]. rewrite IH by (cbn in Ll; lia). reflexivity. }
  split; [|split].
  - unfold svm_iter. rewrite IT. cbn [fst snd]. rewrite somes_map_Some, FS. reflexivity.
  - unfold svm_labels. rewrite IT. cbn [fst]. rewrite somes_map_Some. subst ps. rewrite combine_snd by congruence.
    destruct labels as [[|l0 ls0]|]; exact Hl.
  - apply ix_access.
    + rewrite Lo, map_length, <- FS, map_length. reflexivity.
    + intros k d Hk. rewrite <- FS in Hk. rewrite nth_error_map in Hk.
      destruct (nth_error ps k) as [dl|] eqn:Ek; [|discriminate]. injection Hk as <-.
      destruct (nth_error_nth_lt _ _ _ dl Ek) as [Lk Nk].
      assert (Lk' : (k < length (map (fun dl => svm_text F (fst dl) (snd dl)) ps))%nat) by (rewrite map_length; auto).
      destruct (Rd k Lk') as [O1 O2]. unfold svm_docbyoffset. replace (_ <? 0) with false by lia.
      rewrite O2. rewrite (nth_indep _ [] (svm_text F (fst dl) (snd dl))) by exact Lk'.
      rewrite (map_nth (fun dl => svm_text F (fst dl) (snd dl))), Nk.
      assert (Hin : In dl ps) by (apply nth_error_In with k; auto). destruct (P _ Hin).
      rewrite (svm_line2doc_text F dom OK) by auto. cbn [rbind]. destruct dl; reflexivity.
Qed.
Print Assumptions svm_roundtrip.

(** Saving fails exactly when labels are given but run out. *)
Theorem svm_save_total : forall {W} (F : wfmt W) labels corpus,
  (exists content offsets, svm_save F labels corpus = Ok (content, offsets)) <->
  match labels with Some (l :: ls) => (length corpus <= length (l :: ls))%nat | _ => True end.
Proof.
  intros W F labels corpus.
  assert (H : forall k, (exists ls, svm_lines F labels k corpus = Ok ls) <->
            match labels with Some (l :: ls) => (corpus = [] \/ (k + length corpus <= length (l :: ls))%nat) | _ => True end).
  { induction corpus as [|d corpus IH]; intros k; cbn [svm_lines].
    - split; [|intros _; eexists; reflexivity]. destruct labels as [[|? ?]|]; auto.
    - specialize (IH (S k)). destruct labels as [[|l0 ls0]|].
      + split; auto. intros _. destruct IH as [_ [ls ->]]; auto. cbn. eauto.
      + destruct (nth_error (l0 :: ls0) k) as [x|] eqn:En; cbn [of_option rbind].
        * assert (Lk : (k < length (l0 :: ls0))%nat) by (apply nth_error_Some; congruence).
          split.
          -- intros [ls Hl]. destruct (svm_lines F (Some (l0 :: ls0)) (S k) corpus) as [ls'|e] eqn:E; [|discriminate].
             destruct IH as [IH _]. destruct IH as [->|IH]; [eauto| |]; right; cbn [length] in *; lia.
          -- intros [X|X]; [discriminate|]. destruct IH as [_ [ls ->]]; [|cbn; eauto].
             destruct corpus; [left; reflexivity|]. right. cbn [length] in *. lia.
        * apply nth_error_None in En. split; [intros [ls X]; discriminate|].
          intros [X|X]; [discriminate|]. cbn [length] in *. lia.
      + split; auto. intros _. destruct IH as [_ [ls ->]]; auto. cbn. eauto. }
  specialize (H 0%nat). unfold svm_save. split.
  - intros (c & o & E). destruct (svm_lines F labels 0 corpus) as [ls|e] eqn:El; [|discriminate].
    destruct H as [H _]. specialize (H (ex_intro _ ls eq_refl)). destruct labels as [[|? ?]|]; auto.
    destruct H as [->|H]; [cbn [length]; lia | exact H].
  - intros X. destruct H as [_ [ls Hl]]; [destruct labels as [[|? ?]|]; auto|]. rewrite Hl. cbn [rbind].
    destruct (write_lines [] ls) as [c o] eqn:Ew. exists c, o. reflexivity.
Qed.
Print Assumptions svm_save_total.

(** A trailing comment does not change the document. *)
Theorem svm_comment_ignored : forall {W} (F : wfmt W) dom, wfmt_ok F dom ->
  forall d label comment, (forall p, In p d -> dom (snd p)) ->
  label <> [] -> Forall (fun c => is_space c = false) label -> ~ In 35%N label ->
  svm_line2doc F (removelast (svm_doc2line F d label) ++ 35%N :: comment) = Ok (Some (d, label)).
Proof.
  intros W F dom OK d label comment D NE NS NH.
  assert (LO : label_ok label) by (split; [split|]; auto).
  pose proof (svm_line2doc_text F dom OK d label LO D) as H.
  rewrite svm_line_text, removelast_last.
  unfold svm_line2doc in *.
  assert (NHt : ~ In 35%N (svm_text F d label)).
  { unfold svm_text. rewrite !in_app_iff. intros [X|[X|X]]; [auto | destruct X as [X|[]]; discriminate X |].
    revert X. apply join_no_char; [discriminate|]. apply Forall_forall. intros w Hw. apply in_map_iff in Hw.
    destruct Hw as (p & <- & Hp). apply (svm_pair_no_hash F dom OK); auto. }
  assert (E : cut_comment (svm_text F d label ++ 35%N :: comment) = cut_comment (svm_text F d label ++ [chr_nl])).
  { unfold cut_comment. rewrite break_at_app by exact NHt.
    rewrite break_at_none; [rewrite removelast_last; reflexivity|].
    rewrite in_app_iff. intros [X|X]; [auto|]. destruct X as [X|[]]; discriminate X. }
  rewrite E. exact H.
Qed.
Print Assumptions svm_comment_ignored.

Definition ex_svm : list (list (Z * Z)) := [ [(3, 5); (0, -2)]; []; [(3, 0); (3, 12)] ].

Example svm_roundtrip_ex :
  match svm_save zfmt (Some [str "1"; str "-1"; str "spam"; str "unused"]) ex_svm with
  | Ok (content, offsets) =>
    content = str "1 4:5 1:-2" ++ [chr_nl] ++ str "-1 " ++ [chr_nl] ++ str "spam 4:0 4:12" ++ [chr_nl] /\
    offsets = [0; 11; 15] /\ svm_iter zfmt content = (ex_svm, None) /\
    svm_labels zfmt content = [str "1"; str "-1"; str "spam"] /\
    ix_getitem (svm_docbyoffset zfmt content) (Some offsets) 2 = Ok [(3, 0); (3, 12)]
  | Err _ => False
  end.
Proof. vm_compute. repeat split; reflexivity. Qed.

(** Without a newline at the end of the file the last character of the last line is lost:
    "0 1:12" is read as the value 1. *)
Theorem svm_last_char_refuted : exists content,
  svm_iter zfmt (content ++ [chr_nl]) = ([[(0, 12)]], None) /\ svm_iter zfmt content = ([[(0, 1)]], None).
Proof. exists (str "0 1:12"). vm_compute. split; reflexivity. Qed.
Print Assumptions svm_last_char_refuted.

(** A label that contains a '#' (or white space) damages the document. *)
Theorem svm_label_hash_refuted : exists label corpus content offsets,
  svm_save zfmt (Some [label]) corpus = Ok (content, offsets) /\ svm_iter zfmt content <> (corpus, None).
Proof.
  exists (str "C#"), [[(0, 7)]], (str "C# 1:7" ++ [chr_nl]), [0]. split; [vm_compute; reflexivity|].
  vm_compute. discriminate.
Qed.
Print Assumptions svm_label_hash_refuted.

(** A query-id field ("qid:...") after the label is skipped: the line reads as the line without it. *)
Theorem svm_qid_ignored : forall {W} (F : wfmt W) dom, wfmt_ok F dom ->
  forall d l q, label_ok l -> ~ In 58%N q -> ~ In 35%N q -> Forall (fun c => is_space c = false) q ->
  (forall p, In p d -> dom (snd p)) ->
  svm_line2doc F (l ++ [chr_sp] ++ join [chr_sp] ((str "qid:" ++ q) :: map (svm_pair F) d) ++ [chr_nl]) = Ok (Some (d, l)).
Proof.
  intros W F dom OK d l q [T NH] NC NQ SQ D. unfold svm_line2doc.
  set (qf := str "qid:" ++ q).
  assert (Tq : token qf) by (split; [discriminate | unfold qf; repeat constructor; exact SQ]).
  assert (Tp : Forall token (qf :: map (svm_pair F) d)).
  { constructor; [exact Tq|]. apply Forall_forall. intros w Hw. apply in_map_iff in Hw. destruct Hw as (p & <- & Hp).
    apply (token_svm_pair F dom OK); auto. }
  assert (E : cut_comment (l ++ [chr_sp] ++ join [chr_sp] (qf :: map (svm_pair F) d) ++ [chr_nl]) =
              l ++ [chr_sp] ++ join [chr_sp] (qf :: map (svm_pair F) d)).
  { rewrite !app_assoc. unfold cut_comment. rewrite break_at_none; [apply removelast_last|].
    rewrite !in_app_iff. cbn [In]. intros [[[H|H]|H]|H].
    - auto.
    - destruct H as [H|[]]; discriminate H.
    - revert H. apply join_no_char; [discriminate|]. constructor.
      + unfold qf. rewrite in_app_iff. intros [H|H]; [vm_compute in H; intuition discriminate | auto].
      + apply Forall_forall. intros w Hw. apply in_map_iff in Hw.
        destruct Hw as (p & <- & Hp). apply (svm_pair_no_hash F dom OK); auto.
    - destruct H as [H|[]]; discriminate H. }
  rewrite E.
  assert (Ew : words is_space (strip is_space (l ++ [chr_sp] ++ join [chr_sp] (qf :: map (svm_pair F) d))) =
               l :: qf :: map (svm_pair F) d).
  { rewrite words_strip. cbn [app].
    rewrite <- (app_nil_r (join [chr_sp] (qf :: map (svm_pair F) d))). apply words_cons_tokens; auto. }
  destruct (strip is_space _) as [|c s] eqn:Es; [discriminate Ew|].
  rewrite Ew. cbn [map rmapM].
  assert (Eq : rsplit_colon qf = [str "qid"; q]).
  { unfold qf. change (str "qid:" ++ q) with (str "qid" ++ [58%N] ++ q). apply rsplit_colon_pair. exact NC. }
  rewrite Eq. unfold svm_field at 1. destruct (eq_dec (str "qid") (str "qid")) as [_|NE]; [|congruence]. cbn [rbind].
  rewrite map_map. rewrite (rmapM_all (svm_field F) _ (map Some d)).
  - cbn [rbind somes]. rewrite somes_map_Some. reflexivity.
  - apply Forall2_map_l'. apply Forall2_refl_in. intros p Hp. apply (svm_field_pair F dom OK); auto.
Qed.
Print Assumptions svm_qid_ignored.

Example svm_qid_ex :
  svm_line2doc zfmt (str "+1 qid:12 3:7 9:-4 # comment") = Ok (Some ([(2, 7); (8, -4)], str "+1")).
Proof. vm_compute. reflexivity. Qed.

(** ** C14: Blei *)

(** [rnd] is what [float("%g" % w)] gives for [w]. *)
Definition g_format {W} (F : wfmt W) (rnd : W -> W) (w : W) : Prop :=
  w_show F w <> [] /\ Forall (fun c => is_space c = false /\ c <> 58%N) (w_show F w) /\
  w_parse F (w_show F w) = Some (rnd w).

Lemma g_format_ok : forall {W} (F : wfmt W) rnd w, g_format F rnd w -> g_ok F rnd w.
Proof.
  intros W F rnd w (NE & NS & P). split; [split; [exact NE|]|].
  - eapply Forall_impl; [|exact NS]. cbn. tauto.
  - split; [|exact P]. intros X. rewrite Forall_forall in NS. apply NS in X. tauto.
Qed.

Theorem blei_roundtrip : forall {W} (F : wfmt W) rnd corpus content offsets,
  (forall d p, In d corpus -> In p d -> w_keep F (snd p) = true /\ g_format F rnd (snd p)) ->
  blei_save F corpus = (content, offsets) ->
  let docs := map (map (fun p => (fst p, rnd (snd p)))) corpus in
  blei_iter F content = (docs, None) /\
  access_ok (ix_getitem (blei_docbyoffset F content) (Some offsets)) docs.
Proof.
  intros W F rnd corpus content offsets G H docs. unfold blei_save in H.
  assert (El : map (blei_line F) corpus = nl_lines (map (blei_text F) corpus)).
  { unfold nl_lines. rewrite map_map. apply map_ext. intros; apply blei_line_text. }
  rewrite El in H.
  assert (G1 : forall d p, In d corpus -> In p d -> w_keep F (snd p) = true -> g_ok F rnd (snd p)).
  { intros d p Hd Hp _. apply g_format_ok. apply (G d); auto. }
  assert (NL : Forall (fun w => ~ In chr_nl w) (map (blei_text F) corpus)).
  { apply Forall_forall. intros t Ht. apply in_map_iff in Ht. destruct Ht as (d & <- & Hd).
    apply (blei_text_no_nl F rnd). intros; apply (G1 d); auto. }
  destruct (written_file _ _ _ _ NL H) as (Ec & Lo & Rd). cbn [app] in Ec.
  assert (LD : forall d, In d corpus -> blei_line2doc F (blei_text F d ++ [chr_nl]) = Ok (map (fun p => (fst p, rnd (snd p))) d)).
  { intros d Hd. apply blei_line2doc_ok. intros p Hp. destruct (G d p Hd Hp). split; auto. apply g_format_ok; auto. }
  split.
  - unfold blei_iter. rewrite Ec. unfold nl_lines. rewrite file_lines_concat by exact NL.
    apply gen_map_all. rewrite map_map. apply Forall2_map_l'. apply Forall2_refl_in. exact LD.
  - apply ix_access.
    + rewrite Lo. subst docs. rewrite !map_length. reflexivity.
    + intros k d' Hk. subst docs. rewrite nth_error_map in Hk. destruct (nth_error corpus k) as [d|] eqn:Ek; [|discriminate].
      injection Hk as <-. destruct (nth_error_nth_lt _ _ _ d Ek) as [Lk Nk].
      assert (Lk' : (k < length (map (blei_text F) corpus))%nat) by (rewrite map_length; auto).
      destruct (Rd k Lk') as [O1 O2]. unfold blei_docbyoffset. replace (_ <? 0) with false by lia. rewrite O2.
      rewrite (nth_indep _ [] (blei_text F d)) by exact Lk'. rewrite map_nth, Nk.
      apply LD. apply nth_error_In with k; auto.
Qed.
Print Assumptions blei_roundtrip.

(** One weight at or below the threshold anywhere in a document makes the file unreadable from there on. *)
Theorem blei_filtered_unreadable : forall {W} (F : wfmt W) rnd pre d post content offsets,
  (forall d' p, In d' (pre ++ d :: post) -> In p d' -> w_keep F (snd p) = true -> g_format F rnd (snd p)) ->
  (forall d' p, In d' pre -> In p d' -> w_keep F (snd p) = true) ->
  (exists p, In p d /\ w_keep F (snd p) = false) ->
  blei_save F (pre ++ d :: post) = (content, offsets) ->
  blei_iter F content = (map (map (fun p => (fst p, rnd (snd p)))) pre, Some ValueError).
Proof.
  intros W F rnd pre d post content offsets G K (p & Hp & Kp) H. unfold blei_save in H.
  assert (El : map (blei_line F) (pre ++ d :: post) = nl_lines (map (blei_text F) (pre ++ d :: post))).
  { unfold nl_lines. rewrite map_map. apply map_ext. intros; apply blei_line_text. }
  rewrite El in H.
  assert (G1 : forall d' p, In d' (pre ++ d :: post) -> In p d' -> w_keep F (snd p) = true -> g_ok F rnd (snd p)).
  { intros d' q Hd Hq Kq. apply g_format_ok. apply (G d'); auto. }
  assert (NL : Forall (fun w => ~ In chr_nl w) (map (blei_text F) (pre ++ d :: post))).
  { apply Forall_forall. intros t Ht. apply in_map_iff in Ht. destruct Ht as (d' & <- & Hd).
    apply (blei_text_no_nl F rnd). intros; apply (G1 d'); auto. }
  destruct (written_file _ _ _ _ NL H) as (Ec & _). cbn [app] in Ec.
  unfold blei_iter. rewrite Ec. unfold nl_lines. rewrite file_lines_concat by exact NL.
  rewrite map_map, map_app. cbn [map].
  apply gen_map_fail.
  - apply Forall2_map_l'. apply Forall2_refl_in. intros d' Hd'. apply blei_line2doc_ok.
    intros q Hq. split; [apply (K d'); auto|]. apply (G1 d'); auto; [apply in_or_app; auto | apply (K d'); auto].
  - apply blei_line2doc_bad with (rnd := rnd) (p := p); auto. intros q Hq Kq. apply (G1 d); auto.
    apply in_or_app; right; left; reflexivity.
Qed.
Print Assumptions blei_filtered_unreadable.

(** The vocabulary file gives back every word, and '---' for the ids without one. *)
Theorem blei_vocab_roundtrip : forall {W} id2word (corpus : list (list (Z * W))),
  let n := id2word_terms id2word corpus in
  (forall i, 0 <= i < n -> ~ In chr_nl (id2word_get id2word corpus i) /\
     rstrip is_space (id2word_get id2word corpus i) = id2word_get id2word corpus i) ->
  forall i, dget (blei_load_vocab (vocab_file id2word corpus)) i =
            if (0 <=? i) && (i <? n) then Some (id2word_get id2word corpus i) else None.
Proof.
  intros W id2word corpus n G i. unfold blei_load_vocab, vocab_file. fold n.
  set (g := id2word_get id2word corpus) in *.
  assert (NL : Forall (fun w => ~ In chr_nl w) (map g (zrange 0 n))).
  { apply Forall_forall. intros w Hw. apply in_map_iff in Hw. destruct Hw as (j & <- & Hj). apply G.
    unfold zrange in Hj. apply in_map_iff in Hj. destruct Hj as (k & <- & Hk). apply in_seq in Hk. lia. }
  assert (E : concat (map (fun i => g i ++ [chr_nl]) (zrange 0 n)) = concat (map (fun w => w ++ [chr_nl]) (map g (zrange 0 n))))
    by (rewrite map_map; reflexivity).
  rewrite E, file_lines_concat by exact NL. rewrite !map_map.
  assert (E2 : map (fun j => rstrip is_space (g j ++ [chr_nl])) (zrange 0 n) = map g (zrange 0 n)).
  { apply map_ext_in. intros j Hj. rewrite rstrip_app_sp by (repeat constructor). apply G.
    unfold zrange in Hj. apply in_map_iff in Hj. destruct Hj as (k & <- & Hk). apply in_seq in Hk. lia. }
  rewrite E2, map_length, zrange_length. unfold zrange.
  replace (Z.to_nat (Z.of_nat (Z.to_nat (n - 0)) - 0)) with (Z.to_nat n) by lia. rewrite Z.sub_0_r, map_map.
  assert (H : forall k m, dget (combine (map (fun i => 0 + Z.of_nat i) (seq k m)) (map (fun j => g (0 + Z.of_nat j)) (seq k m))) i =
                          if (Z.of_nat k <=? i) && (i <? Z.of_nat (k + m)) then Some (g i) else None).
  { intros k m. revert k. induction m as [|m IH]; intros k; cbn [seq map combine dget].
    - replace (_ && _) with false by lia. reflexivity.
    - rewrite Z.add_0_l. destruct (eq_dec (Z.of_nat k) i) as [<-|NE].
      + replace (_ && _) with true by lia. reflexivity.
      + rewrite IH. replace ((Z.of_nat (S k) <=? i) && (i <? Z.of_nat (S k + m))) with ((Z.of_nat k <=? i) && (i <? Z.of_nat (k + S m))) by lia.
        reflexivity. }
  rewrite H. replace ((Z.of_nat 0 <=? i) && (i <? Z.of_nat (0 + Z.to_nat n))) with ((0 <=? i) && (i <? n)) by lia. reflexivity.
Qed.
Print Assumptions blei_vocab_roundtrip.

(** The id range covers every word of the mapping, and every id of the corpus when there is no mapping. *)
Lemma id2word_terms_covers : forall {W} id2word (corpus : list (list (Z * W))) i,
  match id2word with
  | Some d => In i (dkeys d)
  | None => exists doc, In doc corpus /\ In i (map fst doc)
  end -> i < id2word_terms id2word corpus.
Proof.
  intros W id2word corpus i H. unfold id2word_terms. destruct id2word as [[|kv r]|].
  - destruct H.
  - assert (M : forall l a, a <= fold_left Z.max l a /\ (forall x, In x l -> x <= fold_left Z.max l a)).
    { induction l as [|y l IH]; intros a; cbn [fold_left In]; [split; [lia | intuition]|].
      destruct (IH (Z.max a y)) as [A B]. split; [lia|]. intros x [<-|Hx]; [lia | auto]. }
    destruct (M (dkeys r) (fst kv)) as [A B]. destruct kv as [k v]. cbn [dkeys map fst In] in *.
    destruct H as [<-|H]; [lia|]. apply B in H. lia.
  - destruct H as (doc & Hd & Hi). apply in_map_iff in Hi. destruct Hi as (p & <- & Hp).
    destruct (get_max_id_fold corpus (-1)) as (_ & B & _). specialize (B doc p Hd Hp).
    unfold dict_from_corpus, get_max_id. lia.
Qed.

(** Every word the mapping has for a non-negative id is read back under its id. *)
Theorem blei_vocab_complete : forall {W} d (corpus : list (list (Z * W))),
  NoDup (dkeys d) -> (forall i w, In (i, w) d -> ~ In chr_nl w /\ rstrip is_space w = w) ->
  forall i w, In (i, w) d -> 0 <= i ->
  dget (blei_load_vocab (vocab_file (Some d) corpus)) i = Some w.
Proof.
  intros W d corpus ND G i w Hi Ni.
  rewrite blei_vocab_roundtrip.
  - assert (L : i < id2word_terms (Some d) corpus) by (apply id2word_terms_covers; apply (in_map fst) in Hi; exact Hi).
    replace (_ && _) with true by lia. cbn [id2word_get].
    match goal with |- context [match ?o with Some _ => _ | None => _ end] => destruct o as [x|] eqn:E end;
      [|apply dget_None in E; destruct E; apply (in_map fst) in Hi; exact Hi].
    rewrite <- E. exact (In_dget _ _ _ ND Hi).
  - intros j _. cbn [id2word_get].
    match goal with |- context [match ?o with Some _ => _ | None => _ end] => destruct o as [x|] eqn:E end.
    + apply (G j). apply dget_In; exact E.
    + split; [intros X; vm_compute in X; intuition discriminate | reflexivity].
Qed.
Print Assumptions blei_vocab_complete.

(** Without a mapping every id of the corpus is read back as its decimal form. *)
Theorem blei_vocab_complete_ids : forall {W} (corpus : list (list (Z * W))) doc i,
  In doc corpus -> In i (map fst doc) -> 0 <= i ->
  dget (blei_load_vocab (vocab_file None corpus)) i = Some (show_Z i).
Proof.
  intros W corpus doc i Hd Hi Ni.
  rewrite blei_vocab_roundtrip.
  - assert (L : i < id2word_terms None corpus) by (apply id2word_terms_covers; eauto).
    cbn [id2word_terms] in *. replace (_ && _) with true by lia. cbn [id2word_get].
    replace (_ && _) with true by lia. reflexivity.
  - intros j Hj. cbn [id2word_terms id2word_get] in *. replace (_ && _) with true by lia. split.
    + apply show_Z_no_nl.
    + rewrite <- (app_nil_l (show_Z j)). apply rstrip_end; [apply show_Z_nonempty | apply show_Z_nospace].
Qed.
Print Assumptions blei_vocab_complete_ids.

Example blei_vocab_complete_ex :
  map (fun i => dget (blei_load_vocab (vocab_file None [[(3, 1)]; [(0, 2); (5, 1)]])) i) [0; 3; 5; 6] =
    [Some (str "0"); Some (str "3"); Some (str "5"); None].
Proof. vm_compute. reflexivity. Qed.

(** ["%g" % n] for an integer [n] (six significant digits, ties to even), and [float] of it. *)
Definition drop_zeros (s : pystr) : pystr := rev (lstrip (fun c => (c =? 48)%N) (rev s)).
Definition show_g (z : Z) : pystr :=
  if Z.abs z <? 1000000 then show_Z z
  else
    let a := Z.abs z in
    let e := Z.of_nat (length (show_Z a)) - 1 in
    let p := 10 ^ (e - 5) in
    let q := a / p in
    let r := a mod p in
    let q := if (p <? 2 * r) || ((2 * r =? p) && Z.odd q) then q + 1 else q in
    let (q, e) := if q =? 1000000 then (100000, e + 1) else (q, e) in
    let ds := drop_zeros (show_Z q) in
    (if z <? 0 then [45%N] else [])
      ++ (match ds with [] => [] | [c] => [c] | c :: r => c :: 46%N :: r end)
      ++ str "e+" ++ (if e <? 10 then str "0" else []) ++ show_Z e.
Definition parse_g (s : pystr) : option Z :=
  match parse_Z s with
  | Some z => Some z
  | None =>
    let (sgn, s1) := scan_sign s in
    match break_at 101%N s1 with
    | (m, Some (_ :: ex)) =>
      let (ip, fp) := break_at 46%N m in
      let fp := match fp with Some f => f | None => [] end in
      match parse_Z (ip ++ fp), parse_Z ex with
      | Some v, Some e => Some (sgn * v * 10 ^ (e - Z.of_nat (length fp)))
      | _, _ => None
      end
    | _ => None
    end
  end.
Definition zfmt_g : wfmt Z := {|
  w_show := show_g; w_scan := w_scan zfmt; w_parse := parse_g; w_keep := fun z => negb (z =? 0); w_leb := Z.leb |}.

(** Counts below a million are exact, so that [blei_roundtrip] applies with [rnd] the identity. *)
Theorem blei_small_counts_exact : forall z, Z.abs z < 1000000 -> g_format zfmt_g (fun z => z) z.
Proof.
  intros z L. unfold g_format. cbn [zfmt_g w_show w_parse]. unfold show_g.
  replace (Z.abs z <? 1000000) with true by lia. split; [apply show_Z_nonempty|]. split.
  - eapply Forall_impl; [|apply show_Z_chars]. cbn. intros c [H| ->]; [|split; [reflexivity | discriminate]].
    split; [apply digit_not_space; auto|]. intros ->. discriminate H.
  - unfold parse_g. rewrite parse_show_Z. reflexivity.
Qed.
Print Assumptions blei_small_counts_exact.

Example blei_roundtrip_ex :
  blei_save zfmt_g [ [(7, 3); (2, 999999)]; []; [(0, 1)] ] =
    (str "2 7:3 2:999999" ++ [chr_nl] ++ str "0 " ++ [chr_nl] ++ str "1 0:1" ++ [chr_nl], [0; 15; 18]) /\
  blei_iter zfmt_g (fst (blei_save zfmt_g [ [(7, 3); (2, 999999)]; []; [(0, 1)] ])) =
    ([ [(7, 3); (2, 999999)]; []; [(0, 1)] ], None) /\
  show_g 1234567 = str "1.23457e+06" /\ show_g 999999500 = str "1e+09" /\ show_g (-20000000) = str "-2e+07".
Proof. vm_compute. repeat split; reflexivity. Qed.

(** The claim of exactness fails for larger counts: %g keeps six significant digits. *)
Theorem blei_large_count_refuted : exists corpus,
  (forall d p, In d corpus -> In p d -> w_keep zfmt_g (snd p) = true) /\
  exists docs, blei_iter zfmt_g (fst (blei_save zfmt_g corpus)) = (docs, None) /\ docs <> corpus.
Proof.
  exists [[(0, 1234567)]]. split.
  - intros d p [<-|[]] [<-|[]]. reflexivity.
  - exists [[(0, 1234570)]]. split; [vm_compute; reflexivity | discriminate].
Qed.
Print Assumptions blei_large_count_refuted.

(** A stored zero makes the written file unreadable. *)
Theorem blei_zero_refuted : exists corpus,
  snd (blei_iter zfmt_g (fst (blei_save zfmt_g corpus))) = Some ValueError.
Proof. exists [[(0, 2); (1, 0)]]. vm_compute. reflexivity. Qed.
Print Assumptions blei_zero_refuted.

Example blei_vocab_ex :
  blei_load_vocab (vocab_file (Some [(2, str "cat"); (0, str "dog")]) ([] : list (list (Z * Z)))) =
    [(0, str "dog"); (1, str "---"); (2, str "cat")].
Proof. vm_compute. reflexivity. Qed.
