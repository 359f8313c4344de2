(** Theorems about UCI bag-of-words corpora (property C17). *)

From Coq Require Import QArith.
From Verif Require Import Base Str Matutils_Model Dictionary_Model Formats_Base MmCorpus_Model MmCorpus_Proofs MmCorpus_Properties
  LineCorpora_Model LineCorpora_Proofs LineCorpora_Properties Uci_Model.
From Coq Require Import ZifyBool ZifyNat ZifyN.
Close Scope Q_scope.
Local Open Scope Z_scope.

(** ** Specification *)

(** Truncated integer weights. *)
Definition trunc (d : list (Z * Q)) : list (Z * Z) := map (fun p => (fst p, q_int (snd p))) d.
Definition nonzero (v : Z) : bool := negb (v =? 0).

(** Ids fit a C [long long], counts a double without rounding. *)
Definition uci_ok (corpus : list (list (Z * Q))) : Prop :=
  forall d p, In d corpus -> In p d -> q_int (snd p) <> 0 -> - 2 ^ 63 <= fst p + 1 < 2 ^ 63 /\ Z.abs (q_int (snd p)) <= 2 ^ 53.

(** ** Proofs *)

Definition uci_file (nd nt nn : Z) (body : pystr) : pystr :=
  (show_Z nd ++ repeat chr_sp (20 - length (show_Z nd)) ++ [chr_nl]) ++
  (show_Z nt ++ repeat chr_sp (20 - length (show_Z nt)) ++ [chr_nl]) ++
  (show_Z nn ++ repeat chr_sp (20 - length (show_Z nn)) ++ [chr_nl]) ++ body.

Lemma uci_put_one : forall pre v post, (length (show_Z v) <= 20)%nat ->
  overwrite (pre ++ uci_fake_header ++ post) (length pre) (show_Z v) =
  pre ++ (show_Z v ++ repeat chr_sp (20 - length (show_Z v)) ++ [chr_nl]) ++ post.
Proof.
  intros pre v post L. unfold uci_fake_header.
  replace (repeat chr_sp 20) with (repeat chr_sp (length (show_Z v)) ++ repeat chr_sp (20 - length (show_Z v)))
    by (rewrite <- repeat_app; f_equal; lia).
  rewrite <- !app_assoc. rewrite (overwrite_app pre (repeat chr_sp (length (show_Z v)))) by (rewrite repeat_length; reflexivity).
  reflexivity.
Qed.

Definition uci_h (v : Z) : pystr := show_Z v ++ repeat chr_sp (20 - length (show_Z v)) ++ [chr_nl].
Lemma uci_h_length : forall v, (length (show_Z v) <= 20)%nat -> length (uci_h v) = 21%nat.
Proof. intros. unfold uci_h. rewrite !app_length, repeat_length. cbn [length]. lia. Qed.

Lemma uci_headers_file : forall nd nt nn body,
  (length (show_Z nd) <= 20)%nat -> (length (show_Z nt) <= 20)%nat -> (length (show_Z nn) <= 20)%nat ->
  uci_update_headers (uci_write_headers ++ body) nd nt nn = Ok (uci_file nd nt nn body).
Proof.
  intros nd nt nn body A B C. unfold uci_update_headers, uci_put. change (length uci_fake_header) with 21%nat.
  replace (Z.of_nat 21 <? Z.of_nat (length (show_Z nd))) with false by lia.
  replace (Z.of_nat 21 <? Z.of_nat (length (show_Z nt))) with false by lia.
  replace (Z.of_nat 21 <? Z.of_nat (length (show_Z nn))) with false by lia.
  unfold uci_write_headers. rewrite <- !app_assoc.
  assert (P1 : forall post, overwrite (uci_fake_header ++ post) 0 (show_Z nd) = uci_h nd ++ post)
    by (intros post; exact (uci_put_one [] nd post A)).
  rewrite P1.
  replace (0 + 21)%nat with (length (uci_h nd)) by (rewrite uci_h_length; auto).
  rewrite (uci_put_one (uci_h nd)) by exact B. fold (uci_h nt).
  replace (length (uci_h nd) + 21)%nat with (length (uci_h nd ++ uci_h nt)) by (rewrite app_length, (uci_h_length nt); auto).
  rewrite (app_assoc (uci_h nd)). rewrite (uci_put_one (uci_h nd ++ uci_h nt)) by exact C.
  unfold uci_file. fold (uci_h nd) (uci_h nt) (uci_h nn). rewrite <- !app_assoc. reflexivity.
Qed.

Lemma uci_h_nonl : forall v, ~ In chr_nl (show_Z v ++ repeat chr_sp (20 - length (show_Z v))).
Proof.
  intros v. rewrite in_app_iff. intros [X|X]; [apply (show_Z_no_nl _ X) | apply repeat_spec in X; discriminate X].
Qed.

Lemma uci_file_lines : forall nd nt nn body,
  file_lines (uci_file nd nt nn body) = uci_h nd :: uci_h nt :: uci_h nn :: file_lines body.
Proof.
  intros. unfold uci_file, uci_h.
  assert (E : forall v s, file_lines ((show_Z v ++ repeat chr_sp (20 - length (show_Z v)) ++ [chr_nl]) ++ s) =
             (show_Z v ++ repeat chr_sp (20 - length (show_Z v)) ++ [chr_nl]) :: file_lines s).
  { intros v s. rewrite (app_assoc (show_Z v)). rewrite <- app_assoc. cbn [app].
    rewrite file_lines_cons by apply uci_h_nonl. reflexivity. }
  rewrite !E. reflexivity.
Qed.

Lemma uci_int_h : forall v, ll_ok v = true -> uci_int (uci_h v) = Ok v.
Proof.
  intros v L. unfold uci_int, uci_h. rewrite strip_nosp_tail.
  - rewrite parse_show_Z. cbn [of_option rbind]. rewrite L. reflexivity.
  - eapply Forall_impl; [|apply show_Z_chars]. cbn. intros c [H| ->]; [apply digit_not_bspace; auto | reflexivity].
  - apply show_Z_nonempty.
  - apply Forall_app. split; [|repeat constructor]. apply Forall_forall. intros x Hx. apply repeat_spec in Hx. subst; reflexivity.
Qed.

Lemma rfold_map : forall {A B S} (g : A -> B) (f : S -> B -> result S) l s,
  rfold (fun s a => f s (g a)) l s = rfold f (map g l) s.
Proof. induction l as [|a l IH]; intros s; cbn [map rfold]; [reflexivity|]. destruct (f s (g a)); cbn [rbind]; auto. Qed.

Lemma uci_vector_spec : forall d, uci_vector d = filter (fun p => nonzero (snd p)) (trunc d).
Proof. reflexivity. Qed.

Lemma show_len20 : forall z, 0 <= z < 10 ^ 20 -> (length (show_Z z) <= 20)%nat.
Proof. intros z Hz. rewrite show_Z_nonneg by lia. pose proof (show_N_length (Z.to_N z) 20). lia. Qed.

Lemma filter_idem : forall {A} (f : A -> bool) l, filter f (filter f l) = filter f l.
Proof. induction l as [|a l IH]; [reflexivity|]. cbn [filter]. destruct (f a) eqn:E; [cbn [filter]; rewrite E, IH; reflexivity | exact IH]. Qed.

Lemma uci_kept : forall d, kept zfmt (uci_vector d) = kept zfmt (trunc d).
Proof. intros d. unfold kept. rewrite uci_vector_spec. f_equal. apply (filter_idem (fun p => nonzero (snd p))). Qed.

Lemma uci_save_inv : forall corpus content offsets,
  count_above nonzero (map trunc corpus) < 10 ^ 20 -> Z.of_nat (length corpus) < 10 ^ 20 ->
  (forall d p, In d (map trunc corpus) -> In p d -> nonzero (snd p) = true -> fst p + 1 < 10 ^ 20) ->
  let ds := map (kept zfmt) (map trunc corpus) in
  exists terms, width_of nonzero (map trunc corpus) terms /\
   (uci_save corpus = Ok (content, offsets) <->
    content = uci_file (Z.of_nat (length corpus)) terms (count_above nonzero (map trunc corpus)) (mm_body zfmt 0 ds) /\
    offsets = mm_offs zfmt 63 0 ds).
Proof.
  intros corpus content offsets A B C ds. unfold uci_save. rewrite (rfold_map uci_vector (mm_write_step zfmt)).
  fold (mm_w0 uci_write_headers).
  destruct (mm_write_fold zfmt uci_write_headers (map uci_vector corpus)) as (s & R & Co & _ & Dn & Nn & Nt & Of & _).
  assert (Ed : map (kept zfmt) (map uci_vector corpus) = ds).
  { subst ds. rewrite !map_map. apply map_ext. apply uci_kept. }
  rewrite Ed in *. rewrite map_length in Dn.
  exists (ws_terms s).
  assert (T : width_of nonzero (map trunc corpus) (ws_terms s)) by (apply (width_of_terms zfmt); exact Nt).
  split; [exact T|]. rewrite R. cbn [rbind]. rewrite Co, Dn.
  replace (Z.of_nat (length corpus) - 1 + 1) with (Z.of_nat (length corpus)) by lia.
  assert (En : ws_nnz s = count_above nonzero (map trunc corpus)).
  { rewrite Nn. subst ds. rewrite stored_kept_length. reflexivity. }
  rewrite En, uci_headers_file.
  - cbn [rbind]. rewrite Of. change (Z.of_nat (length uci_write_headers)) with 63. split.
    + intros H. apply Ok_inj in H. injection H as <- <-. split; reflexivity.
    + intros [-> ->]. reflexivity.
  - apply show_len20. lia.
  - apply show_len20. destruct T as (T0 & _ & [E|(d & p & Hd & Hp & K & E)]); [lia|]. specialize (C _ _ Hd Hp K). lia.
  - apply show_len20. unfold count_above in *. lia.
Qed.

Lemma uci_ok_bounds : forall corpus, uci_ok corpus -> forall d p, In d (map trunc corpus) -> In p d -> nonzero (snd p) = true ->
  - 2 ^ 63 <= fst p + 1 < 2 ^ 63 /\ Z.abs (snd p) <= 2 ^ 53.
Proof.
  intros corpus U d p Hd Hp K. apply in_map_iff in Hd. destruct Hd as (d0 & <- & Hd). apply in_map_iff in Hp.
  destruct Hp as (q & <- & Hq). cbn [fst snd] in *. apply (U d0); auto. unfold nonzero in K. lia.
Qed.

(** ** Theorems *)

Theorem uci_save_total : forall corpus, uci_ok corpus ->
  Z.of_nat (length corpus) < 2 ^ 63 -> count_above nonzero (map trunc corpus) < 2 ^ 63 ->
  exists content offsets, uci_save corpus = Ok (content, offsets).
Proof.
  intros corpus U A B.
  pose proof (uci_ok_bounds _ U) as UB.
  set (ds := map (kept zfmt) (map trunc corpus)).
  unfold uci_save. rewrite (rfold_map uci_vector (mm_write_step zfmt)). fold (mm_w0 uci_write_headers).
  destruct (mm_write_fold zfmt uci_write_headers (map uci_vector corpus)) as (s & R & Co & _ & Dn & Nn & Nt & Of & _).
  assert (Ed : map (kept zfmt) (map uci_vector corpus) = ds).
  { subst ds. rewrite !map_map. apply map_ext. apply uci_kept. }
  rewrite Ed in *. rewrite map_length in Dn. rewrite R. cbn [rbind]. rewrite Co, Dn.
  assert (T : width_of nonzero (map trunc corpus) (ws_terms s)) by (apply (width_of_terms zfmt); exact Nt).
  assert (En : ws_nnz s = count_above nonzero (map trunc corpus)).
  { rewrite Nn. subst ds. rewrite stored_kept_length. reflexivity. }
  rewrite uci_headers_file.
  - cbn [rbind]. eauto.
  - apply show_len20. lia.
  - apply show_len20. destruct T as (T0 & _ & [E|(d & p & Hd & Hp & K & E)]); [lia|]. destruct (UB _ _ Hd Hp K). lia.
  - apply show_len20. rewrite En. unfold count_above in *. lia.
Qed.
Print Assumptions uci_save_total.

Theorem uci_roundtrip : forall corpus content offsets, uci_ok corpus ->
  Z.of_nat (length corpus) < 2 ^ 63 -> count_above nonzero (map trunc corpus) < 2 ^ 63 ->
  uci_save corpus = Ok (content, offsets) ->
  exists h docs, uci_init content = Ok h /\
    num_docs h = Z.of_nat (length corpus) /\
    num_nnz h = count_above nonzero (map trunc corpus) /\
    width_of nonzero (map trunc corpus) (num_terms h) /\
    uci_iter h content = (docs, None) /\
    Forall2 (doc_written nonzero) (map trunc corpus) docs /\
    access_ok (ix_getitem (uci_docbyoffset content) (Some offsets)) docs.
Proof.
  intros corpus content offsets U A B H. pose proof (uci_ok_bounds _ U) as UB.
  destruct (uci_save_inv corpus content offsets) as (terms & T & I); [lia | lia | |].
  { intros d p Hd Hp K. destruct (UB _ _ Hd Hp K). lia. }
  apply I in H. destruct H as [Ec Eo]. clear I. set (ds := map (kept zfmt) (map trunc corpus)) in *.
  assert (G : forall d p, In d ds -> In p d -> good_entry (fun z => ll_ok z = true) p).
  { intros d p Hd Hp. subst ds. apply in_map_iff in Hd. destruct Hd as (d0 & <- & Hd).
    apply In_kept in Hp. destruct Hp as [Hp K]. destruct (UB _ _ Hd Hp K). split; unfold ll_ok, ll_min, ll_max; lia. }
  assert (LL : forall z, 0 <= z < 2 ^ 63 -> ll_ok z = true) by (intros; unfold ll_ok, ll_min, ll_max; lia).
  assert (Lt : 0 <= terms < 2 ^ 63).
  { destruct T as (T0 & _ & [E|(d & p & Hd & Hp & K & E)]); [lia|]. destruct (UB _ _ Hd Hp K). lia. }
  assert (Ln : length ds = length corpus) by (subst ds; rewrite !map_length; reflexivity).
  assert (Lds : ll_ok (Z.of_nat (length ds)) = true) by (apply LL; lia).
  exists {| num_docs := Z.of_nat (length corpus); num_terms := terms; num_nnz := count_above nonzero (map trunc corpus) |}, ds.
  cbn [num_docs num_nnz num_terms]. split.
  { unfold uci_init. rewrite Ec, uci_file_lines. rewrite !uci_int_h; [reflexivity| | |].
    - apply LL. unfold count_above in *. lia.
    - apply LL; auto.
    - apply LL; lia. }
  split; [reflexivity|]. split; [reflexivity|]. split; [exact T|]. split; [|split].
  - unfold uci_iter. rewrite Ec, uci_file_lines. cbn [skipn].
    unfold mm_body. unfold nl_lines at 1. rewrite file_lines_concat by (apply (mm_texts_nonl zfmt _ zfmt_ok); exact G).
    fold (nl_lines (mm_texts zfmt 0 ds)).
    pose proof (mm_loop_docs zfmt _ zfmt_ok ds 0 (-1) None) as M. rewrite Z.add_0_l in M.
    specialize (M ltac:(lia) ltac:(lia) Lds G). unfold mm_finish in M. cbn [num_docs]. rewrite <- Ln.
    destruct (mm_loop zfmt true (nl_lines (mm_texts zfmt 0 ds)) (-1) None) as [ys [[p D]|e]]; [|discriminate M].
    unfold pend in M. change (0 <=? -1) with false in M. change (@empties Z (-1 + 1) 0) with (@nil (Z * list (Z * Z))) in M. cbn [app] in M.
    injection M as M. rewrite M.
    rewrite combine_snd; [reflexivity|]. rewrite zrange_length. lia.
  - subst ds. clear. induction corpus as [|d corpus IH]; [constructor|]. cbn [map]. constructor; [|exact IH].
    split; [apply (kept_perm zfmt) | apply (kept_sorted zfmt)].
  - apply ix_access.
    + rewrite Eo, mm_offs_length. reflexivity.
    + intros k d Hk. destruct (nth_error_nth_lt _ _ _ [] Hk) as [Lk Nk].
      unfold uci_docbyoffset. rewrite Ec, Eo.
      assert (Ef : uci_file (Z.of_nat (length corpus)) terms (count_above nonzero (map trunc corpus)) (mm_body zfmt 0 ds) =
        (uci_h (Z.of_nat (length corpus)) ++ uci_h terms ++ uci_h (count_above nonzero (map trunc corpus))) ++ mm_body zfmt 0 ds).
      { unfold uci_file. fold (uci_h (Z.of_nat (length corpus))) (uci_h terms) (uci_h (count_above nonzero (map trunc corpus))).
        rewrite <- !app_assoc. reflexivity. }
      rewrite Ef. set (hdr := uci_h _ ++ _).
      assert (Lh : Z.of_nat (length hdr) = 63).
      { subst hdr. rewrite !app_length, !uci_h_length; [reflexivity| | |]; apply show_len20; unfold count_above in *; lia. }
      rewrite <- Lh. rewrite (mm_docbyoffset_at zfmt _ zfmt_ok) by auto. rewrite Nk. reflexivity.
Qed.
Print Assumptions uci_roundtrip.

(** The vocabulary file gives back every word, and '---' for the ids without one. *)
Theorem uci_vocab_roundtrip : forall {W} id2word (corpus : list (list (Z * W))),
  let n := id2word_terms id2word corpus in
  (forall i, 0 <= i < n -> let w := id2word_get id2word corpus i in
     ~ In chr_nl w /\ lstrip is_bspace w = w /\ rstrip is_bspace w = w) ->
  forall i, dget (uci_load_vocab (vocab_file id2word corpus)) i =
            if (0 <=? i) && (i <? n) then Some (id2word_get id2word corpus i) else None.
Proof.
  intros W id2word corpus n G i. unfold uci_load_vocab, vocab_file. fold n. cbv zeta in G.
  set (g := id2word_get id2word corpus) in *.
  assert (IR : forall j, In j (zrange 0 n) -> 0 <= j < n).
  { intros j Hj. unfold zrange in Hj. apply in_map_iff in Hj. destruct Hj as (k & <- & Hk). apply in_seq in Hk. lia. }
  assert (NL : Forall (fun w => ~ In chr_nl w) (map g (zrange 0 n))).
  { apply Forall_forall. intros w Hw. apply in_map_iff in Hw. destruct Hw as (j & <- & Hj). apply G. auto. }
  assert (E : concat (map (fun i => g i ++ [chr_nl]) (zrange 0 n)) = concat (map (fun w => w ++ [chr_nl]) (map g (zrange 0 n))))
    by (rewrite map_map; reflexivity).
  rewrite E, file_lines_concat by exact NL. rewrite !map_map.
  assert (E2 : map (fun j => strip is_bspace (g j ++ [chr_nl])) (zrange 0 n) = map g (zrange 0 n)).
  { apply map_ext_in. intros j Hj. destruct (G j (IR j Hj)) as (_ & Lw & Rw). destruct (g j) as [|c s] eqn:Ew; [reflexivity|].
    apply (strip_span is_bspace c s [chr_nl]); [|exact Rw|repeat constructor].
    destruct (is_bspace c) eqn:Ec; [|reflexivity]. exfalso. clear - Lw Ec. cbn [lstrip] in Lw. rewrite Ec in Lw.
    destruct (lstrip_decomp is_bspace s) as (t & Et & _). apply (f_equal (@length N)) in Lw, Et. rewrite app_length in Et.
    cbn [length] in Lw. lia. }
  rewrite E2, map_length, zrange_length. unfold zrange.
  replace (Z.to_nat (Z.of_nat (Z.to_nat (n - 0)) - 0)) with (Z.to_nat n) by lia. rewrite Z.sub_0_r, map_map.
  assert (H : forall k m, dget (combine (map (fun i => 0 + Z.of_nat i) (seq k m)) (map (fun j => g (0 + Z.of_nat j)) (seq k m))) i =
                          if (Z.of_nat k <=? i) && (i <? Z.of_nat (k + m)) then Some (g i) else None).
  { intros k m. revert k. induction m as [|m IH]; intros k; cbn [seq map combine dget].
    - replace (_ && _) with false by lia. reflexivity.
    - rewrite Z.add_0_l. destruct (eq_dec (Z.of_nat k) i) as [<-|NE].
      + replace (_ && _) with true by lia. reflexivity.
      + rewrite IH. replace ((Z.of_nat (S k) <=? i) && (i <? Z.of_nat (S k + m))) with ((Z.of_nat k <=? i) && (i <? Z.of_nat (k + S m))) by lia.
        reflexivity. }
  rewrite H. replace ((Z.of_nat 0 <=? i) && (i <? Z.of_nat (0 + Z.to_nat n))) with ((0 <=? i) && (i <? n)) by lia. reflexivity.
Qed.
Print Assumptions uci_vocab_roundtrip.

(** Every word the mapping has for a non-negative id is read back under its id. *)
Theorem uci_vocab_complete : forall {W} d (corpus : list (list (Z * W))),
  NoDup (dkeys d) -> (forall i w, In (i, w) d -> ~ In chr_nl w /\ lstrip is_bspace w = w /\ rstrip is_bspace w = w) ->
  forall i w, In (i, w) d -> 0 <= i ->
  dget (uci_load_vocab (vocab_file (Some d) corpus)) i = Some w.
Proof.
  intros W d corpus ND G i w Hi Ni.
  rewrite uci_vocab_roundtrip.
  - assert (L : i < id2word_terms (Some d) corpus) by (apply id2word_terms_covers; apply (in_map fst) in Hi; exact Hi).
    replace (_ && _) with true by lia. cbn [id2word_get].
    match goal with |- context [match ?o with Some _ => _ | None => _ end] => destruct o as [x|] eqn:E end;
      [|apply dget_None in E; destruct E; apply (in_map fst) in Hi; exact Hi].
    rewrite <- E. exact (In_dget _ _ _ ND Hi).
  - intros j _. cbn [id2word_get].
    match goal with |- context [match ?o with Some _ => _ | None => _ end] => destruct o as [x|] eqn:E end.
    + apply (G j). apply dget_In; exact E.
    + split; [intros X; vm_compute in X; intuition discriminate | split; reflexivity].
Qed.
Print Assumptions uci_vocab_complete.

Example uci_vocab_ex :
  uci_load_vocab (vocab_file (Some [(2, str "cat"); (0, str "dog")]) ([] : list (list (Z * Z)))) =
    [(0, str "dog"); (1, str "---"); (2, str "cat")].
Proof. vm_compute. reflexivity. Qed.

(** ** create_dictionary *)

Fixpoint entries_with (i : Z) (d : list (Z * Z)) : Z :=
  match d with [] => 0 | (j, _) :: r => (if j =? i then 1 else 0) + entries_with i r end.
Definition zsum (l : list Z) : Z := fold_right Z.add 0 l.

Lemma uci_count_doc : forall d m n i, 
  dget_or (fst (fold_left uci_count d (m, n))) i 0 = dget_or m i 0 + entries_with i d /\
  snd (fold_left uci_count d (m, n)) = n + zsum (map snd d).
Proof.
  induction d as [|[j v] d IH]; intros m n i; cbn [fold_left entries_with map zsum fold_right snd fst].
  - lia.
  - unfold uci_count at 2 4. cbn [fst snd]. destruct (IH (dset m j (dget_or m j 0 + 1)) (n + v) i) as [A B]. rewrite A, B.
    split; [|unfold zsum; lia]. unfold dget_or at 1. destruct (j =? i) eqn:E.
    + assert (j = i) by lia. subst. rewrite dget_dset_same. lia.
    + rewrite dget_dset_other by lia. unfold dget_or. lia.
Qed.

Lemma uci_count_docs : forall ds m n i,
  dget_or (fst (fold_left (fun s d => fold_left uci_count d s) ds (m, n))) i 0 = dget_or m i 0 + zsum (map (entries_with i) ds) /\
  snd (fold_left (fun s d => fold_left uci_count d s) ds (m, n)) = n + zsum (map (fun d => zsum (map snd d)) ds).
Proof.
  induction ds as [|d ds IH]; intros m n i; cbn [fold_left map zsum fold_right]; [cbn [fst snd]; lia|].
  destruct (uci_count_doc d m n i) as [A B]. destruct (fold_left uci_count d (m, n)) as [m' n']. cbn [fst snd] in A, B.
  destruct (IH m' n' i) as [A' B']. rewrite A', B', A, B. unfold zsum. lia.
Qed.

Lemma entries_distinct : forall i d, NoDup (map fst d) -> entries_with i d = if existsb (Z.eqb i) (map fst d) then 1 else 0.
Proof.
  intros i d ND. induction d as [|[j v] d IH]; [reflexivity|]. cbn [map fst entries_with existsb] in *. inversion ND; subst.
  rewrite IH by auto. destruct (j =? i) eqn:E.
  - assert (j = i) by lia. subst. rewrite Z.eqb_refl. cbn [orb].
    destruct (existsb (Z.eqb i) (map fst d)) eqn:X; [|reflexivity]. exfalso. apply existsb_exists in X.
    destruct X as (x & Hx & Ex). assert (i = x) by lia. subst. auto.
  - replace (i =? j) with false by lia. cbn [orb]. lia.
Qed.

(** For documents with distinct ids the dictionary has the document frequencies, corpus length and header counts. *)
Theorem uci_dictionary : forall id2word h docs,
  (forall d, In d docs -> NoDup (map fst d)) ->
  let u := uci_create_dictionary id2word h docs in
  (forall i, dget_or (u_dfs u) i 0 = Z.of_nat (length (filter (fun d => existsb (Z.eqb i) (map fst d)) docs))) /\
  u_num_pos u = zsum (map snd (concat docs)) /\ u_num_docs u = num_docs h /\ u_num_nnz u = num_nnz h /\
  u_id2token u = id2word.
Proof.
  intros id2word h docs ND u. subst u. unfold uci_create_dictionary. cbn [u_dfs u_num_pos u_num_docs u_num_nnz u_id2token].
  split; [|split; [|repeat split]].
  - intros i. destruct (uci_count_docs docs [] 0 i) as [A _]. etransitivity; [exact A|]. unfold dget_or at 1. cbn [dget].
    clear A. induction docs as [|d docs IH]; [reflexivity|]. cbn [map zsum fold_right filter].
    rewrite entries_distinct by (apply ND; left; reflexivity).
    assert (IH' := IH (fun d H => ND d (or_intror H))). unfold zsum in *.
    destruct (existsb (Z.eqb i) (map fst d)); cbn [length]; lia.
  - destruct (uci_count_docs docs [] 0 0) as [_ B]. etransitivity; [exact B|]. clear. induction docs as [|d docs IH]; [reflexivity|].
    cbn [concat map]. rewrite map_app. unfold zsum in *. cbn [fold_right]. rewrite fold_right_app.
    assert (E : forall l a, fold_right Z.add a l = fold_right Z.add 0 l + a) by (induction l as [|x l IHl]; intros a; cbn [fold_right]; [lia | rewrite IHl; lia]).
    rewrite (E _ (fold_right Z.add 0 (map snd (concat docs)))). lia.
Qed.
Print Assumptions uci_dictionary.

(** ** Examples and failures *)

Definition ex_uci : list (list (Z * Q)) := [ []; [(5, 7%Q); (2, (5#2)%Q); (9, (1#2)%Q)]; []; [(0, 3%Q); (2, 1%Q)]; [] ].

Example uci_roundtrip_ex :
  match uci_save ex_uci with
  | Ok (content, offsets) =>
    uci_init content = Ok {| num_docs := 5; num_terms := 6; num_nnz := 4 |} /\
    uci_iter {| num_docs := 5; num_terms := 6; num_nnz := 4 |} content =
      ([ []; [(2, 2); (5, 7)]; []; [(0, 3); (2, 1)]; [] ], None) /\
    offsets = [-1; 63; -1; 75; 87] /\
    ix_getitem (uci_docbyoffset content) (Some offsets) (-2) = Ok [(0, 3); (2, 1)]
  | Err _ => False
  end.
Proof. vm_compute. repeat split; reflexivity. Qed.

Example uci_ok_ex : uci_ok ex_uci.
Proof.
  intros d p Hd Hp _.
  assert (A : forallb (forallb (fun p : Z * Q => (0 <=? fst p) && (fst p <? 100) && (Z.abs (q_int (snd p)) <? 100))) ex_uci = true)
    by (vm_compute; reflexivity).
  rewrite forallb_forall in A. specialize (A _ Hd). rewrite forallb_forall in A. specialize (A _ Hp). lia.
Qed.

Example uci_dictionary_ex :
  let u := uci_create_dictionary [(0, str "a"); (1, str "b"); (2, str "c")] {| num_docs := 5; num_terms := 6; num_nnz := 4 |}
             [ []; [(2, 2); (5, 7)]; []; [(0, 3); (2, 1)]; [] ] in
  u_dfs u = [(2, 2); (5, 1); (0, 1)] /\ u_num_pos u = 13 /\ u_token2id u = [(str "a", 0); (str "b", 1); (str "c", 2)].
Proof. vm_compute. repeat split; reflexivity. Qed.

(** A repeated id in one document is counted twice in the document frequency. *)
Theorem uci_dictionary_repeated_id_refuted : exists docs i,
  dget_or (u_dfs (uci_create_dictionary [] {| num_docs := 1; num_terms := 1; num_nnz := 2 |} docs)) i 0 >
  Z.of_nat (length docs).
Proof. exists [[(0, 1); (0, 1)]], 0. vm_compute. reflexivity. Qed.
Print Assumptions uci_dictionary_repeated_id_refuted.

(** The size check allows 21 characters in a field of 20: the value then overwrites the line break, and the
    header cannot be read. *)
Theorem uci_header_overflow_refuted : exists corpus content offsets,
  uci_save corpus = Ok (content, offsets) /\ (length (file_lines content) = 3)%nat /\ uci_init content = Err OverflowErr.
Proof.
  exists [[(10 ^ 20 - 1, 1%Q)]].
  destruct (uci_save [[(10 ^ 20 - 1, 1%Q)]]) as [[content offsets]|e] eqn:E.
  - exists content, offsets. split; [reflexivity|]. vm_compute in E. injection E as <- <-. vm_compute. split; reflexivity.
  - vm_compute in E. discriminate.
Qed.
Print Assumptions uci_header_overflow_refuted.
