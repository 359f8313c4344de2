(** List-of-words and Mallet corpora saved without a mapping of words (properties C15 and C16). *)
From Coq Require Import QArith.
From Verif Require Import Base Str Utils_Model Utils_Properties Formats_Base MmCorpus_Model MmCorpus_Proofs LineCorpora_Model LineCorpora_Proofs LineCorpora_Properties LowMallet_Properties.
From Coq Require Import ZifyBool.
Close Scope Q_scope.
Local Open Scope Z_scope.

(** the mapping of all ids below a number to their decimals *)
Definition numbers (n : Z) : dict Z pystr := map (fun i => (i, show_Z i)) (zrange 0 n).
Definition ids_ok (corpus : list (list (Z * Q))) : Prop := forall d p, In d corpus -> In p d -> 0 <= fst p.

Lemma In_zrange : forall a b i, In i (zrange a b) <-> a <= i < b.
Proof.
  intros a b i. destruct (Z_lt_le_dec a b) as [L|L]; [|rewrite zrange_nil by exact L; cbn; lia].
  assert (G : forall k c, (forall j, In j (zrange c (c + Z.of_nat k)) <-> c <= j < c + Z.of_nat k)).
  { induction k as [|k IH]; intros c j; [rewrite zrange_nil by lia; cbn; lia|]. rewrite zrange_cons by lia. replace (c + Z.of_nat (S k)) with (c + 1 + Z.of_nat k) by lia. cbn [In]. rewrite IH. lia. }
  specialize (G (Z.to_nat (b - a)) a i). replace (a + Z.of_nat (Z.to_nat (b - a))) with b in G by lia. exact G.
Qed.
Lemma NoDup_zrange : forall a b, NoDup (zrange a b).
Proof.
  intros a b. destruct (Z_lt_le_dec a b) as [L|L]; [|rewrite zrange_nil by exact L; constructor].
  assert (G : forall k c, NoDup (zrange c (c + Z.of_nat k))).
  { induction k as [|k IH]; intros c; [rewrite zrange_nil by lia; constructor|]. rewrite zrange_cons by lia. constructor; [rewrite In_zrange; lia|]. replace (c + Z.of_nat (S k)) with (c + 1 + Z.of_nat k) by lia. apply IH. }
  specialize (G (Z.to_nat (b - a)) a). replace (a + Z.of_nat (Z.to_nat (b - a))) with b in G by lia. exact G.
Qed.
Lemma dkeys_numbers : forall n, dkeys (numbers n) = zrange 0 n.
Proof. intros n. unfold numbers, dkeys. rewrite map_map. apply map_id. Qed.
Lemma dget_numbers : forall n i, dget (numbers n) i = if (0 <=? i) && (i <? n) then Some (show_Z i) else None.
Proof.
  intros n i. destruct ((0 <=? i) && (i <? n)) eqn:E.
  - apply In_dget; [rewrite dkeys_numbers; apply NoDup_zrange|]. apply in_map_iff. exists i. split; [reflexivity|]. apply In_zrange. lia.
  - destruct (dget (numbers n) i) eqn:G; [|reflexivity]. exfalso. assert (K : In i (dkeys (numbers n))) by (apply dget_Some_key; eauto). rewrite dkeys_numbers, In_zrange in K. lia.
Qed.
Lemma numbers_ok : forall n, 0 < n -> vocab_ok (numbers n).
Proof.
  intros n L. assert (V : dvals (numbers n) = map show_Z (zrange 0 n)) by (unfold numbers, dvals; rewrite map_map; reflexivity). split.
  - intros E. assert (K : In 0 (dkeys (numbers n))) by (rewrite dkeys_numbers, In_zrange; lia). rewrite E in K. destruct K.
  - rewrite dkeys_numbers. apply NoDup_zrange.
  - rewrite V. apply FinFun.Injective_map_NoDup; [|apply NoDup_zrange]. intros x y E. assert (X : Some x = Some y) by (rewrite <- !parse_show_Z, E; reflexivity). congruence.
  - rewrite V. apply Forall_forall. intros w H. apply in_map_iff in H. destruct H as (i & <- & _). apply token_show_Z.
Qed.
Lemma rmapM_same : forall {A B} (f g : A -> result B) l, (forall x, In x l -> f x = g x) -> rmapM f l = rmapM g l.
Proof. intros A B f g l. induction l as [|x l IH]; intros H; [reflexivity|]. cbn [rmapM]. rewrite (H x (or_introl eq_refl)), IH by (intros; apply H; right; assumption). reflexivity. Qed.
Lemma words_numbers : forall n d, (forall p, In p d -> 0 <= fst p < n) -> low_words None n d = low_words (Some (numbers n)) n d.
Proof.
  intros n d H. unfold low_words. rewrite (rmapM_same _ (fun p => let* w := low_lookup (Some (numbers n)) n (fst p) in Ok (repeat w (Z.to_nat (q_int (snd p)))))); [reflexivity|].
  intros p Hp. specialize (H p Hp). unfold low_lookup. rewrite dget_numbers. destruct ((0 <=? fst p) && (fst p <? n)) eqn:E; [reflexivity | lia].
Qed.
Lemma below : forall (corpus : list (list (Z * Q))) d p, In d corpus -> In p d -> fst p < dict_from_corpus corpus.
Proof. intros corpus d [i v] Hd Hp. destruct (get_max_id_exact corpus) as (A & _). specialize (A d i v Hd Hp). unfold dict_from_corpus. cbn [fst]. lia. Qed.
Lemma low_save_numbers : forall corpus, ids_ok corpus -> low_save None corpus = low_save (Some (numbers (dict_from_corpus corpus))) corpus.
Proof.
  intros corpus I. unfold low_save. rewrite (rmapM_same _ (low_words (Some (numbers (dict_from_corpus corpus))) (dict_from_corpus corpus))); [reflexivity|]. intros d Hd. apply words_numbers. intros p Hp. split; [apply (I d p Hd Hp) | apply (below corpus d p Hd Hp)].
Qed.
Lemma mallet_lines_numbers : forall n docs, (forall d p, In d docs -> In p (fst d) -> 0 <= fst p < n) -> mallet_lines None n docs = mallet_lines (Some (numbers n)) n docs.
Proof.
  intros n docs. induction docs as [|[d [a b]] docs IH]; intros H; [reflexivity|]. cbn [mallet_lines]. rewrite (words_numbers n d) by (intros p Hp; apply (H _ p (or_introl eq_refl) Hp)). rewrite IH by (intros e p He Hp; apply (H e p (or_intror He) Hp)). reflexivity.
Qed.
Lemma mallet_save_numbers : forall corpus, ids_ok corpus -> mallet_save None corpus = mallet_save (Some (numbers (dict_from_corpus corpus))) corpus.
Proof.
  intros corpus I. unfold mallet_save. rewrite mallet_lines_numbers; [reflexivity|]. intros [d m] p Hd Hp. apply in_combine_l in Hd. split; [apply (I d p Hd Hp) | apply (below corpus d p Hd Hp)].
Qed.

(** Ids from zero on can be saved without a mapping; read with the mapping to decimals, every document has its bag back. *)
Theorem low_plain_roundtrip : forall corpus, ids_ok corpus -> (exists d, In d corpus /\ d <> []) ->
  let m := numbers (dict_from_corpus corpus) in
  exists content offsets c, low_save None corpus = Ok (content, offsets) /\ low_init (Some m) content = Ok c /\ low_num_docs c = Z.of_nat (length corpus) /\ Forall2 same_bag corpus (low_iter c content) /\
    access_ok (ix_getitem (low_docbyoffset c content) (Some offsets)) (low_iter c content).
Proof.
  intros corpus I (d & Hd & Nd) m. rewrite (low_save_numbers corpus I). fold m. destruct d as [|p d]; [congruence|]. assert (L : 0 < dict_from_corpus corpus) by (pose proof (below corpus _ p Hd (or_introl eq_refl)); pose proof (I _ p Hd (or_introl eq_refl)); lia).
  destruct (proj2 (low_save_total m corpus)) as (content & offsets & E).
  { intros d' p' Hd' Hp'. unfold m. rewrite dkeys_numbers, In_zrange. split; [apply (I d' p' Hd' Hp') | apply (below corpus d' p' Hd' Hp')]. }
  destruct (low_roundtrip m corpus content offsets (numbers_ok _ L) E) as (c & A & B & _ & D & F). exists content, offsets, c. auto.
Qed.
Theorem mallet_plain_roundtrip : forall corpus meta content offsets, ids_ok corpus -> (exists d, In d corpus /\ d <> []) ->
  let m := numbers (dict_from_corpus corpus) in
  mallet_save None corpus = Ok (content, offsets) -> exists c out, mallet_init (Some m) meta content = Ok c /\ mallet_iter c content = (out, None) /\ Forall2 same_bag corpus (map fst out) /\ access_ok (ix_getitem (mallet_docbyoffset c content) (Some offsets)) out.
Proof.
  intros corpus meta content offsets I (d & Hd & Nd) m. rewrite (mallet_save_numbers corpus I). fold m. destruct d as [|p d]; [congruence|]. assert (L : 0 < dict_from_corpus corpus) by (pose proof (below corpus _ p Hd (or_introl eq_refl)); pose proof (I _ p Hd (or_introl eq_refl)); lia).
  intros E. destruct (mallet_roundtrip m corpus meta content offsets (numbers_ok _ L) E) as (c & out & A & B & C & D & _ & F). exists c, out. auto.
Qed.
(** A negative id cannot be saved. *)
Theorem low_plain_negative : forall corpus, ~ ids_ok corpus -> low_save None corpus = Err ValueError.
Proof.
  intros corpus N. assert (W : forall n d, ((forall p, In p d -> 0 <= fst p) /\ exists ws, low_words None n d = Ok ws) \/ low_words None n d = Err ValueError).
  { intros n d. unfold low_words. induction d as [|p d IH]; [left; split; [intros p [] | exists []; reflexivity]|]. cbn [rmapM]. unfold low_lookup at 1 3. destruct ((0 <=? fst p) && (fst p <? n)) eqn:E; [|right; reflexivity]. cbn [rbind].
    destruct (rmapM _ d) as [wss|e]; cbn [rbind] in *.
    - left. destruct IH as [[IH _]|IH]; [|discriminate IH]. split; [intros q [<-|Hq]; [lia | apply IH, Hq] | eexists; reflexivity].
    - destruct IH as [[_ [ws IH]]|IH]; [discriminate IH | right; exact IH]. }
  unfold low_save. generalize (dict_from_corpus corpus) as n. intros n. assert (G : rmapM (low_words None n) corpus = Err ValueError); [|rewrite G; reflexivity].
  induction corpus as [|d corpus IH]; [exfalso; apply N; intros d p []|]. cbn [rmapM]. destruct (W n d) as [[P [ws E]]|E]; rewrite E; [|reflexivity]. cbn [rbind]. rewrite IH; [reflexivity|]. intros I. apply N. intros d' p [<-|Hd] Hp; [apply P, Hp | apply (I d' p Hd Hp)].
Qed.
Example low_plain_example : low_save None [[(2, 1%Q); (0, 2%Q)]; [(11, 1%Q)]] = Ok (str "2" ++ [chr_nl] ++ str "2 0 0" ++ [chr_nl] ++ str "11" ++ [chr_nl], [2; 8]) /\ low_save None [[(-1, 1%Q)]] = Err ValueError.
Proof. vm_compute. auto. Qed.
Print Assumptions low_plain_roundtrip.
Print Assumptions mallet_plain_roundtrip.
Print Assumptions low_plain_negative.
