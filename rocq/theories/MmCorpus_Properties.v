(** Theorems about Matrix Market corpora (properties C11 and C12). *)

From Verif Require Import Base Str Matutils_Model Formats_Base MmCorpus_Model MmCorpus_Proofs.
From Coq Require Import ZifyBool ZifyNat ZifyN.
Local Open Scope Z_scope.

(** ** Specification, independent of the model *)

(** What a document must come back as: its entries above the threshold, in non-decreasing id order. *)
Definition doc_written {W} (above : W -> bool) (src out : list (Z * W)) : Prop :=
  Permutation (filter (fun p => above (snd p)) src) out /\
  StronglySorted (fun a b => fst a <= fst b) out.

(** [n] is "1 + the largest id above the threshold", 0 when there is none (or all ids are negative). *)
Definition width_of {W} (above : W -> bool) (corpus : list (list (Z * W))) (n : Z) : Prop :=
  0 <= n /\
  (forall d p, In d corpus -> In p d -> above (snd p) = true -> fst p < n) /\
  (n = 0 \/ exists d p, In d corpus /\ In p d /\ above (snd p) = true /\ fst p = n - 1).

Definition count_above {W} (above : W -> bool) (corpus : list (list (Z * W))) : Z :=
  Z.of_nat (length (filter (fun p => above (snd p)) (concat corpus))).

(** Every stored entry is printable exactly and has an id that fits a C [long long]. *)
Definition corpus_ok {W} (above : W -> bool) (dom : W -> Prop) (corpus : list (list (Z * W))) : Prop :=
  forall d p, In d corpus -> In p d -> above (snd p) = true -> dom (snd p) /\ - 2 ^ 63 <= fst p + 1 < 2 ^ 63.

Section Props.
Context {W : Type} (F : wfmt W) (dom : W -> Prop) (OK : wfmt_ok F dom).

Lemma corpus_ok_good : forall corpus, corpus_ok (w_keep F) dom corpus ->
  forall d p, In d (map (kept F) corpus) -> In p d -> good_entry dom p.
Proof.
  intros corpus C d p Hd Hp. apply in_map_iff in Hd. destruct Hd as (d0 & <- & Hd).
  apply In_kept in Hp. destruct Hp as [Hp K]. destruct (C _ _ Hd Hp K) as [A B].
  split; [exact A|]. unfold ll_ok, ll_min, ll_max. lia.
Qed.

Lemma width_of_terms : forall corpus n, is_num_terms (stored (map (kept F) corpus)) n <-> width_of (w_keep F) corpus n.
Proof.
  intros corpus n. unfold is_num_terms, width_of. split; intros (A & B & C); repeat split; auto.
  - intros d p Hd Hp K. assert (H : In p (stored (map (kept F) corpus)))
      by (apply In_stored_kept; split; [apply in_concat; eauto | auto]).
    apply B in H. lia.
  - destruct C as [C|(p & Hp & E)]; [auto|]. right. apply In_stored_kept in Hp. destruct Hp as [Hp K].
    apply in_concat in Hp. destruct Hp as (d & Hd & Hp). exists d, p. repeat split; auto. lia.
  - intros p Hp. apply In_stored_kept in Hp. destruct Hp as [Hp K].
    apply in_concat in Hp. destruct Hp as (d & Hd & Hp). specialize (B d p Hd Hp K). lia.
  - destruct C as [C|(d & p & Hd & Hp & K & E)]; [auto|]. right. exists p. split; [|lia].
    apply In_stored_kept. split; [apply in_concat; eauto | auto].
Qed.
End Props.

(** ** Writing succeeds *)

Theorem mm_write_succeeds : forall {W} (F : wfmt W) id2word_len corpus,
  Z.of_nat (length corpus) < 10 ^ 16 -> count_above (w_keep F) corpus < 10 ^ 16 ->
  (forall d p, In d corpus -> In p d -> w_keep F (snd p) = true -> fst p + 1 < 10 ^ 16) ->
  match id2word_len with Some n => Z.of_nat n < 10 ^ 16 | None => True end ->
  exists content offsets, mm_save_corpus F id2word_len corpus = Ok (content, offsets).
Proof.
  intros W F nt corpus A B C D. unfold mm_save_corpus.
  destruct (mm_write_corpus_ok F (option_map Z.of_nat nt) corpus) as [H|(_ & terms & T & L)]; [exact H|].
  exfalso. rewrite stored_kept_length in L. unfold count_above in B.
  assert (T2 : 0 <= terms < 10 ^ 16).
  { apply width_of_terms in T. destruct T as (T0 & _ & [->|(d & p & Hd & Hp & K & E)]); [lia|].
    specialize (C _ _ Hd Hp K). lia. }
  assert (T3 : 0 <= hdr_terms (option_map Z.of_nat nt) terms < 10 ^ 16).
  { unfold hdr_terms. destruct nt as [n|]; cbn [option_map]; [|exact T2]. destruct (_ =? 0); [exact T2 | lia]. }
  assert (S : forall z, 0 <= z < 10 ^ 16 -> (length (show_Z z) <= 16)%nat).
  { intros z Hz. rewrite show_Z_nonneg by lia.
    pose proof (show_N_length (Z.to_N z) 16). lia. }
  unfold mm_stats in L. rewrite !app_length in L. cbn [length] in L.
  pose proof (S (Z.of_nat (length corpus)) ltac:(lia)).
  pose proof (S (hdr_terms (option_map Z.of_nat nt) terms) T3).
  pose proof (S (Z.of_nat (length (filter (fun p : Z * W => w_keep F (snd p)) (concat corpus)))) ltac:(lia)).
  lia.
Qed.
Print Assumptions mm_write_succeeds.

(** ** C11: round trip *)

Theorem mm_roundtrip : forall {W} (F : wfmt W) dom, wfmt_ok F dom ->
  forall id2word_len corpus content offsets,
  corpus_ok (w_keep F) dom corpus ->
  Z.of_nat (length corpus) < 2 ^ 63 -> count_above (w_keep F) corpus < 2 ^ 63 ->
  match id2word_len with Some n => Z.of_nat n < 2 ^ 63 | None => True end ->
  mm_save_corpus F id2word_len corpus = Ok (content, offsets) ->
  exists h docs,
    mm_init true content = Ok h /\
    num_docs h = Z.of_nat (length corpus) /\
    num_nnz h = count_above (w_keep F) corpus /\
    (match id2word_len with
     | Some (S n) => num_terms h = Z.of_nat (S n)
     | _ => width_of (w_keep F) corpus (num_terms h)
     end) /\
    mm_iter F true h content = (docs, None) /\
    Forall2 (doc_written (w_keep F)) corpus docs.
Proof.
  intros W F dom OK nt corpus content offsets C Ld Lc Lt H. unfold mm_save_corpus in H.
  destruct (mm_write_corpus_inv F _ _ _ _ H) as (terms & T & Ec & Ls & Eo).
  pose proof (corpus_ok_good F dom _ C) as G.
  assert (LL : forall z, 0 <= z < 2 ^ 63 -> ll_ok z = true) by (intros; unfold ll_ok, ll_min, ll_max; lia).
  unfold count_above in Lc. rewrite <- stored_kept_length in Lc.
  pose proof (proj1 (width_of_terms F corpus terms) T) as T'.
  assert (Lterms : 0 <= terms < 2 ^ 63).
  { destruct T' as (T0 & _ & [->|(d & p & Hd & Hp & K & E)]); [lia|].
    destruct (C _ _ Hd Hp K). lia. }
  assert (Lhdr : ll_ok (hdr_terms (option_map Z.of_nat nt) terms) = true).
  { apply LL. unfold hdr_terms. destruct nt as [n|]; cbn [option_map]; [|exact Lterms].
    destruct (_ =? 0); [exact Lterms | lia]. }
  assert (Ldocs : ll_ok (Z.of_nat (length corpus)) = true) by (apply LL; lia).
  exists {| num_docs := Z.of_nat (length corpus); num_terms := hdr_terms (option_map Z.of_nat nt) terms;
            num_nnz := Z.of_nat (length (stored (map (kept F) corpus))) |}.
  exists (map (kept F) corpus). subst content. cbn [num_docs num_terms num_nnz].
  split; [apply (mm_init_file F dom OK); auto; apply LL; lia|].
  split; [reflexivity|]. split; [rewrite stored_kept_length; reflexivity|].
  split; [destruct nt as [[|n]|]; cbn [option_map hdr_terms Z.of_nat]; try exact T'; reflexivity|].
  split.
  - unfold mm_iter. rewrite (mm_iter_file F dom OK);
      [|exact G|cbn [num_docs]; rewrite map_length; reflexivity|rewrite map_length; exact Ldocs].
    cbn [fst snd]. rewrite combine_snd; [reflexivity|]. rewrite zrange_length, map_length. lia.
  - clear - F. induction corpus as [|d corpus IH]; [constructor|]. constructor; [|exact IH].
    split; [apply kept_perm | apply kept_sorted].
Qed.
Print Assumptions mm_roundtrip.

(** When ids are distinct and already increasing, a document with no entry below the threshold comes back as is. *)
Theorem mm_doc_written_exact : forall {W} (above : W -> bool) src out,
  Forall (fun p => above (snd p) = true) src -> StronglySorted (fun a b => fst a < fst b) src ->
  doc_written above src out -> out = src.
Proof.
  intros W above src out A S [P So].
  assert (E : filter (fun p => above (snd p)) src = src).
  { clear - A. induction A as [|p src K A IH]; [reflexivity|]. cbn [filter]. rewrite K. f_equal; auto. }
  rewrite E in P. clear E A. revert out P So. induction S as [|p src S IH Fp]; intros out P So.
  - apply Permutation_nil in P. auto.
  - destruct out as [|q out]; [apply Permutation_sym, Permutation_nil in P; discriminate|].
    inversion So; subst. rewrite Forall_forall in Fp, H2.
    assert (Epq : p = q).
    { assert (Hp : In p (q :: out)) by (eapply Permutation_in; [exact P | left; auto]).
      assert (Hq : In q (p :: src)) by (eapply Permutation_in; [apply Permutation_sym; exact P | left; auto]).
      destruct Hp as [->|Hp]; [reflexivity|]. destruct Hq as [->|Hq]; [reflexivity|].
      specialize (H2 _ Hp). specialize (Fp _ Hq). lia. }
    subst q. f_equal. apply IH; [|assumption]. eapply Permutation_cons_inv; exact P.
Qed.
Print Assumptions mm_doc_written_exact.

(** ** C12: random access equals iteration *)

Theorem mm_random_access : forall {W} (F : wfmt W) dom, wfmt_ok F dom ->
  forall id2word_len corpus content offsets,
  corpus_ok (w_keep F) dom corpus ->
  Z.of_nat (length corpus) < 2 ^ 63 -> count_above (w_keep F) corpus < 2 ^ 63 ->
  match id2word_len with Some n => Z.of_nat n < 2 ^ 63 | None => True end ->
  mm_save_corpus F id2word_len corpus = Ok (content, offsets) ->
  exists h docs, mm_init true content = Ok h /\ mm_iter F true h content = (docs, None) /\
    length docs = length corpus /\
    forall i : Z,
      (0 <= i < Z.of_nat (length corpus) ->
         ix_getitem (mm_docbyoffset F true content) (Some offsets) i = Ok (nth (Z.to_nat i) docs [])) /\
      (- Z.of_nat (length corpus) <= i < 0 ->
         ix_getitem (mm_docbyoffset F true content) (Some offsets) i =
         Ok (nth (length corpus - Z.to_nat (- i)) docs [])) /\
      (i < - Z.of_nat (length corpus) \/ Z.of_nat (length corpus) <= i ->
         ix_getitem (mm_docbyoffset F true content) (Some offsets) i = Err IndexError).
Proof.
  intros W F dom OK nt corpus content offsets C Ld Lc Lt H.
  destruct (mm_roundtrip F dom OK nt corpus content offsets C Ld Lc Lt H) as (h & docs & Hi & Hn & _ & _ & Hit & F2).
  exists h, docs. split; [exact Hi|]. split; [exact Hit|].
  split; [clear - F2; induction F2; cbn [length]; congruence|].
  unfold mm_save_corpus in H.
  destruct (mm_write_corpus_inv F _ _ _ _ H) as (terms & T & Ec & Ls & Eo).
  pose proof (corpus_ok_good F dom _ C) as G.
  assert (Ldocs : ll_ok (Z.of_nat (length (map (kept F) corpus))) = true)
    by (rewrite map_length; unfold ll_ok, ll_min, ll_max; lia).
  assert (Ed : docs = map (kept F) corpus).
  { unfold mm_iter in Hit. subst content. rewrite (mm_iter_file F dom OK) in Hit;
      [|exact G|rewrite map_length; exact Hn|exact Ldocs].
    cbn [fst snd] in Hit. rewrite combine_snd in Hit by (rewrite zrange_length, map_length; lia). congruence. }
  assert (Acc : forall k, (k < length corpus)%nat ->
     mm_docbyoffset F true content (nth k offsets 0) = Ok (nth k docs [])).
  { intros k Hk. subst content offsets docs. apply (mm_docbyoffset_file F dom OK); auto.
    rewrite map_length; exact Hk. }
  assert (Lo : length offsets = length corpus) by (subst offsets; rewrite mm_offs_length, map_length; reflexivity).
  intros i. unfold ix_getitem, np_index. rewrite Lo. repeat split; intros Hi'.
  - replace (i <? 0) with false by lia. replace (_ <=? i) with false by lia. cbn [rbind]. apply Acc. lia.
  - replace (i <? 0) with true by lia. replace (i + _ <? 0) with false by lia. cbn [rbind].
    replace (Z.to_nat (i + Z.of_nat (length corpus))) with (length corpus - Z.to_nat (- i))%nat by lia.
    apply Acc. lia.
  - destruct (i <? 0) eqn:E.
    + replace (i + _ <? 0) with true by lia. reflexivity.
    + replace (_ <=? i) with true by lia. reflexivity.
Qed.
Print Assumptions mm_random_access.

(** ** Files with columns as documents *)

(** A file with one line per entry, first coordinate first, written as in [mm_line]. *)
Definition coord_line {W} (F : wfmt W) (e : Z * Z * W) : pystr :=
  let '(a, b, w) := e in show_Z a ++ [chr_sp] ++ show_Z b ++ [chr_sp] ++ w_show F w.
Definition coord_file {W} (F : wfmt W) (rows cols nnz : Z) (es : list (Z * Z * W)) : pystr :=
  concat (map (fun l => l ++ [chr_nl])
    (str "%%MatrixMarket matrix coordinate real general" :: (show_Z rows ++ [chr_sp] ++ show_Z cols ++ [chr_sp] ++ show_Z nnz)
     :: map (coord_line F) es)).
Definition flip {W} (e : Z * Z * W) : Z * Z * W := let '(a, b, w) := e in (b, a, w).

Lemma coord_line_nonl : forall {W} (F : wfmt W) dom, wfmt_ok F dom -> forall e, dom (snd e) -> ~ In chr_nl (coord_line F e).
Proof.
  intros W F dom OK [[a b] w] D. cbn [snd] in D. unfold coord_line. rewrite !in_app_iff. cbn [In].
  pose proof (show_Z_no_nl a). pose proof (show_Z_no_nl b). pose proof (w_show_no_nl F dom OK w D).
  assert (chr_sp <> chr_nl) by discriminate. intuition.
Qed.

Lemma coord_file_lines : forall {W} (F : wfmt W) dom, wfmt_ok F dom -> forall r c n es,
  (forall e, In e es -> dom (snd e)) ->
  file_lines (coord_file F r c n es) =
    map (fun l => l ++ [chr_nl]) (str "%%MatrixMarket matrix coordinate real general" :: mm_stats r c n :: map (coord_line F) es).
Proof.
  intros W F dom OK r c n es D. unfold coord_file. apply file_lines_concat. constructor; [|constructor].
  - intros X; vm_compute in X; intuition discriminate.
  - pose proof (mm_stats_nonl r c n 0) as H. cbn [repeat] in H. rewrite app_nil_r in H. exact H.
  - apply Forall_forall. intros l Hl. apply in_map_iff in Hl. destruct Hl as (e & <- & He).
    apply (coord_line_nonl F dom OK); auto.
Qed.

Lemma coord_parse : forall {W} (F : wfmt W) dom, wfmt_ok F dom -> forall t a b w,
  ll_ok a = true -> ll_ok b = true -> dom w ->
  mm_parse_line F t (coord_line F (a, b, w) ++ [chr_nl]) =
    Some (if t then (a - 1, b - 1, w) else (b - 1, a - 1, w)).
Proof.
  intros W F dom OK t a b w La Lb D. unfold mm_parse_line, coord_line.
  rewrite <- !app_assoc. cbn [app].
  rewrite scan_ll_show; [|exact La|right; do 2 eexists; split; [reflexivity | reflexivity]].
  rewrite scan_ll_space by reflexivity.
  rewrite scan_ll_show; [|exact Lb|right; do 2 eexists; split; [reflexivity | reflexivity]].
  rewrite (wf_scan F dom OK); [|exact D|right; do 2 eexists; split; [reflexivity | reflexivity]].
  destruct t; reflexivity.
Qed.

(** Reading with [transposed=False] is reading, with [transposed=True], the file whose two coordinates are exchanged,
    in the size line and in every entry. *)
Theorem mm_transposed : forall {W} (F : wfmt W) dom, wfmt_ok F dom ->
  forall docs terms nnz (es : list (Z * Z * W)),
  ll_ok docs = true -> ll_ok terms = true -> ll_ok nnz = true ->
  (forall a b w, In (a, b, w) es -> ll_ok a = true /\ ll_ok b = true /\ dom w) ->
  let by_doc := coord_file F docs terms nnz es in
  let by_term := coord_file F terms docs nnz (map flip es) in
  let h := {| num_docs := docs; num_terms := terms; num_nnz := nnz |} in
  mm_init true by_doc = Ok h /\ mm_init false by_term = Ok h /\
  mm_iter F false h by_term = mm_iter F true h by_doc.
Proof.
  intros W F dom OK docs terms nnz es Ld Lt Ln G by_doc by_term h.
  assert (D1 : forall e, In e es -> dom (snd e)) by (intros [[a b] w] H; apply G in H; cbn; tauto).
  assert (D2 : forall e, In e (map flip es) -> dom (snd e)).
  { intros e H. apply in_map_iff in H. destruct H as ([[a b] w] & <- & H). apply G in H. cbn; tauto. }
  assert (I : forall t r c es', (forall e, In e es' -> dom (snd e)) -> ll_ok r = true -> ll_ok c = true ->
    mm_init t (coord_file F r c nnz es') =
      Ok (if t then {| num_docs := r; num_terms := c; num_nnz := nnz |} else {| num_docs := c; num_terms := r; num_nnz := nnz |})).
  { intros t r c es' D Lr Lc. unfold mm_init. rewrite (coord_file_lines F dom OK) by auto. cbn [map].
    replace (startswith _ (ascii_lower (strip is_space _))) with true by (vm_compute; reflexivity).
    cbn [mm_read_stats].
    assert (Ep : startswith [37%N] (mm_stats r c nnz ++ [chr_nl]) = false)
      by (unfold mm_stats; rewrite <- app_assoc; apply show_Z_no_percent).
    rewrite Ep. pose proof (mm_stats_words r c nnz 0) as Ew. cbn [repeat app] in Ew. rewrite Ew.
    cbn [rmapM]. rewrite !parse_show_Z. cbn [of_option rbind]. rewrite Lr, Lc, Ln. destruct t; reflexivity. }
  split; [apply (I true); auto|]. split; [apply (I false); auto|].
  assert (L : forall prev doc,
    mm_loop F false (map (fun l => l ++ [chr_nl]) (map (coord_line F) (map flip es))) prev doc =
    mm_loop F true (map (fun l => l ++ [chr_nl]) (map (coord_line F) es)) prev doc).
  { clear - OK G. induction es as [|[[a b] w] es IH]; intros prev doc; [reflexivity|]. cbn [map flip mm_loop].
    destruct (G a b w (or_introl eq_refl)) as (La & Lb & D).
    rewrite !(coord_parse F dom OK) by auto.
    assert (IH' := IH (fun a b w H => G a b w (or_intror H))).
    destruct (negb _); [reflexivity|]. destruct (_ =? prev).
    - destruct doc; [apply IH' | reflexivity].
    - rewrite IH'. reflexivity. }
  assert (S : forall r c es', (forall e, In e es' -> dom (snd e)) ->
    mm_skip_headers (file_lines (coord_file F r c nnz es')) = map (fun l => l ++ [chr_nl]) (map (coord_line F) es')).
  { intros r c es' D. rewrite (coord_file_lines F dom OK) by auto. cbn [map mm_skip_headers].
    replace (startswith [37%N] (str _ ++ _)) with true by reflexivity. cbn [mm_skip_headers].
    assert (Ep : startswith [37%N] (mm_stats r c nnz ++ [chr_nl]) = false)
      by (unfold mm_stats; rewrite <- app_assoc; apply show_Z_no_percent).
    rewrite Ep. reflexivity. }
  unfold mm_iter, mm_iter_ids, by_term, by_doc. rewrite !S by auto. rewrite L. reflexivity.
Qed.
Print Assumptions mm_transposed.

Example mm_transposed_ex :
  mm_iter zfmt false {| num_docs := 3; num_terms := 4; num_nnz := 2 |}
    (coord_file zfmt 4 3 2 [(2, 1, 7); (4, 3, -5)]) = ([[(1, 7)]; []; [(3, -5)]], None) /\
  mm_init false (coord_file zfmt 4 3 2 [(2, 1, 7); (4, 3, -5)]) = Ok {| num_docs := 3; num_terms := 4; num_nnz := 2 |}.
Proof. vm_compute. split; reflexivity. Qed.

(** ** Examples *)

(** Leading, consecutive and trailing empty documents, an unsorted document, a zero weight, a repeated id. *)
Definition ex_corpus : list (list (Z * Z)) :=
  [ []; [(5, 7); (2, -3); (9, 0)]; []; []; [(0, 4); (0, 1)]; [(3, 0)]; [] ].

Example mm_roundtrip_ex :
  match mm_save_corpus zfmt None ex_corpus with
  | Ok (content, offsets) =>
    mm_init true content = Ok {| num_docs := 7; num_terms := 6; num_nnz := 4 |} /\
    mm_iter zfmt true {| num_docs := 7; num_terms := 6; num_nnz := 4 |} content =
      ([ []; [(2, -3); (5, 7)]; []; []; [(0, 1); (0, 4)]; []; [] ], None) /\
    offsets = [-1; 97; -1; -1; 110; -1; 122] /\
    ix_getitem (mm_docbyoffset zfmt true content) (Some offsets) 1 = Ok [(2, -3); (5, 7)] /\
    ix_getitem (mm_docbyoffset zfmt true content) (Some offsets) (-1) = Ok []
  | Err _ => False
  end.
Proof. vm_compute. repeat split; reflexivity. Qed.

(** The hypotheses of the theorems hold of the example. *)
Example mm_corpus_ok_ex : corpus_ok (w_keep zfmt) (fun z => ll_ok z = true) ex_corpus.
Proof.
  intros d p Hd Hp _. assert (A : forallb (fun d => forallb (fun p => ll_ok (snd p) && ll_ok (fst p + 1)) d) ex_corpus = true)
    by (vm_compute; reflexivity).
  rewrite forallb_forall in A. specialize (A _ Hd). cbv beta in A. rewrite forallb_forall in A. specialize (A _ Hp).
  cbv beta in A. apply andb_prop in A. destruct A as [A B]. split; [exact A|].
  unfold ll_ok, ll_min, ll_max in B. lia.
Qed.

(** ** Where the unguarded claims fail *)

(** A term id that does not fit a C [long long] is written without complaint; opening the file then fails. *)
Theorem mm_big_id_refuted : exists corpus content offsets,
  mm_save_corpus zfmt None corpus = Ok (content, offsets) /\ mm_init true content = Err OverflowErr.
Proof.
  exists [[(2 ^ 63 - 1, 1)]].
  destruct (mm_save_corpus zfmt None [[(2 ^ 63 - 1, 1)]]) as [[content offsets]|e] eqn:E.
  - exists content, offsets. split; [reflexivity|]. vm_compute in E. injection E as <- <-. vm_compute. reflexivity.
  - vm_compute in E. discriminate.
Qed.
Print Assumptions mm_big_id_refuted.

(** With an [id2word] that is too short the header claims fewer terms than the ids in the file. *)
Theorem mm_short_id2word_refuted : exists corpus content offsets h,
  mm_save_corpus zfmt (Some 2%nat) corpus = Ok (content, offsets) /\ mm_init true content = Ok h /\
  ~ width_of (w_keep zfmt) corpus (num_terms h) /\
  exists docs, mm_iter zfmt true h content = (docs, None) /\ exists d p, In d docs /\ In p d /\ num_terms h <= fst p.
Proof.
  exists [[(7, 1)]].
  destruct (mm_save_corpus zfmt (Some 2%nat) [[(7, 1)]]) as [[content offsets]|e] eqn:E.
  - exists content, offsets, {| num_docs := 1; num_terms := 2; num_nnz := 1 |}. split; [reflexivity|].
    vm_compute in E. injection E as <- <-. split; [vm_compute; reflexivity|]. split.
    + intros (_ & A & _). specialize (A [(7, 1)] (7, 1) ltac:(left; reflexivity) ltac:(left; reflexivity) eq_refl).
      cbn in A. lia.
    + exists [[(7, 1)]]. split; [vm_compute; reflexivity|]. exists [(7, 1)], (7, 1).
      repeat split; try (left; reflexivity). cbn. lia.
  - vm_compute in E. discriminate.
Qed.
Print Assumptions mm_short_id2word_refuted.
