(** C132: word and document vectors in one file of word2vec's format; conversion of GloVe files and to tensors. *)
From Coq Require Import Permutation Lia.
From Verif Require Import Base Str SortFacts Matutils_Model KeyedVectors_Model W2vFormat_Model W2vFormat_Spec W2vFormat_Proofs W2vFormat_Properties DocTags_Model
  D2vFormat_Model.
Local Open Scope nat_scope.

(** ** Specification *)

Section Spec.
Context {A R : Type}.
Notation kvs := (kv (list A) R).

(** A table of vectors for the integers below [n] and the strings [strs]: one row each, integers first.  Only strings have an entry in the index. *)
Record table (d : nat) (dom : A -> Prop) (m : kvs) (n : nat) (strs : list pystr) : Prop := {
  t_keys : index_to_key m = map (fun i => Some (KInt (Z.of_nat i))) (seq 0 n) ++ map (fun s => Some (KStr s)) strs;
  t_index : forall s i, dget (key_to_index m) (KStr s) = Some i <-> exists j, nth_error strs j = Some s /\ i = n + j;
  t_noint : forall z, dget (key_to_index m) (KInt z) = None;
  t_nodup : NoDup (dkeys (key_to_index m));
  t_strs : NoDup strs;
  t_rows : length (vectors m) = n + length strs;
  t_shape : forall v, In v (vectors m) -> length v = d /\ Forall dom v;
  t_counts : match counts m with None => n = 0 \/ strs = [] | Some l => length l = n + length strs end
}.

(** the row of an integer, and of a string *)
Definition row_int (m : kvs) (i : nat) : list A := nth i (vectors m) [].
Definition row_str (m : kvs) (s : pystr) : list A := match get_index m (KStr s) with Some i => nth i (vectors m) [] | None => [] end.

(** The order of the strings: descending attribute, or as they are. *)
Definition in_order (m : kvs) (strs order : list pystr) : Prop :=
  Permutation strs order /\
  match counts m with
  | None => order = strs
  | Some _ => StronglySorted (fun s t => exists c c', get_count m (KStr s) = Ok c /\ get_count m (KStr t) = Ok c' /\ (c' <= c)%Z) order
  end.

Definition word_entries (m : kvs) (order : list pystr) : list (pystr * list A) := map (fun s => (s, row_str m s)) order.
Definition tag_entries (m : kvs) (prefix : pystr) (n : nat) (order : list pystr) : list (pystr * list A) :=
  map (fun i => (prefix ++ show_nat i, row_int m i)) (seq 0 n) ++ map (fun s => (prefix ++ s, row_str m s)) order.
(** the names under which words and tags appear in the file *)
Definition names (prefix : pystr) (words : list pystr) (n : nat) (tags : list pystr) : list pystr :=
  words ++ map (fun i => prefix ++ show_nat i) (seq 0 n) ++ map (fun s => prefix ++ s) tags.
End Spec.

(** ** Lemmas *)

Lemma rmapM_map {A B} (f : A -> result B) (g : A -> B) l : (forall x, In x l -> f x = Ok (g x)) -> rmapM f l = Ok (map g l).
Proof.
  induction l as [|x l IH]; intros H; [reflexivity|]. cbn [rmapM map]. rewrite (H x) by (left; reflexivity). cbn [rbind].
  rewrite IH by (intros; apply H; right; assumption). reflexivity.
Qed.

Lemma show_Z_of_nat : forall i, show_Z (Z.of_nat i) = show_nat i.
Proof. intros i. rewrite Formats_Base.show_Z_nonneg by lia. unfold show_nat. f_equal. lia. Qed.

Section Lemmas.
Context {A R : Type}.
Variable F : sfmt A.
Variable dom : A -> Prop.
Variable d : nat.
Notation kvs := (kv (list A) R).
Variables (m : kvs) (n : nat) (strs : list pystr).
Hypothesis T : table d dom m n strs.

Lemma table_len : length (index_to_key m) = n + length strs.
Proof. rewrite (t_keys _ _ _ _ _ T), app_length, !map_length, seq_length. reflexivity. Qed.

Lemma index_str : forall s, In s strs -> exists i, get_index m (KStr s) = Some i /\ i < n + length strs.
Proof.
  intros s Hs. apply In_nth_error in Hs. destruct Hs as (j & Hj). exists (n + j). unfold get_index.
  rewrite (proj2 (t_index _ _ _ _ _ T s (n + j))) by eauto. split; [reflexivity|].
  assert (j < length strs) by (apply nth_error_Some; congruence). lia.
Qed.

Lemma index_int : forall i, i < n -> get_index m (KInt (Z.of_nat i)) = Some i.
Proof.
  intros i Hi. unfold get_index. rewrite (t_noint _ _ _ _ _ T). unfold kv_len. rewrite table_len.
  destruct (Z.leb_spec 0 (Z.of_nat i)); [|lia]. destruct (Z.ltb_spec (Z.of_nat i) (Z.of_nat (n + length strs))); [|lia]. cbn [andb].
  rewrite Nat2Z.id. reflexivity.
Qed.

Lemma getitem_str : forall s, In s strs -> getitem m (Some (KStr s)) = Ok (row_str m s).
Proof.
  intros s Hs. destruct (index_str s Hs) as (i & E & L). unfold getitem, row_str. rewrite E.
  rewrite (nth_error_nth' (vectors m) []) by (rewrite (t_rows _ _ _ _ _ T); exact L). reflexivity.
Qed.

Lemma getitem_int : forall i, i < n -> getitem m (Some (KInt (Z.of_nat i))) = Ok (row_int m i).
Proof.
  intros i Hi. unfold getitem, row_int. rewrite index_int by exact Hi.
  rewrite (nth_error_nth' (vectors m) []) by (rewrite (t_rows _ _ _ _ _ T); lia). reflexivity.
Qed.

Lemma shape_str : forall s, In s strs -> length (row_str m s) = d /\ Forall dom (row_str m s).
Proof.
  intros s Hs. destruct (index_str s Hs) as (i & E & L). unfold row_str. rewrite E. apply (t_shape _ _ _ _ _ T). apply nth_In.
  rewrite (t_rows _ _ _ _ _ T). exact L.
Qed.

Lemma shape_int : forall i, i < n -> length (row_int m i) = d /\ Forall dom (row_int m i).
Proof. intros i Hi. apply (t_shape _ _ _ _ _ T). apply nth_In. rewrite (t_rows _ _ _ _ _ T). lia. Qed.

Lemma dkeys_strs : Permutation (map KStr strs) (dkeys (key_to_index m)).
Proof.
  apply NoDup_Permutation.
  - apply FinFun.Injective_map_NoDup; [intros x y E; injection E as E; exact E|exact (t_strs _ _ _ _ _ T)].
  - exact (t_nodup _ _ _ _ _ T).
  - intros k. split.
    + intros H. apply in_map_iff in H. destruct H as (s & <- & Hs). apply In_nth_error in Hs. destruct Hs as (j & Hj).
      assert (E : dget (key_to_index m) (KStr s) = Some (n + j)) by (apply (t_index _ _ _ _ _ T); eauto).
      apply dget_In in E. apply in_map_iff. exists (KStr s, n + j). split; [reflexivity|exact E].
    + intros H. destruct (dget (key_to_index m) k) as [i|] eqn:E.
      * destruct k as [s|z]; [|rewrite (t_noint _ _ _ _ _ T) in E; discriminate]. apply (t_index _ _ _ _ _ T) in E. destruct E as (j & Hj & _).
        apply in_map. eapply nth_error_In. exact Hj.
      * apply dget_None in E. contradiction.
Qed.

Lemma leading_ints_table : leading_ints 0 (index_to_key m) = n.
Proof.
  rewrite (t_keys _ _ _ _ _ T). assert (G : forall k s, leading_ints s (map (fun i => Some (KInt (Z.of_nat i))) (seq s k) ++ map (fun s => Some (KStr s)) strs) = k).
  { induction k as [|k IH]; intros s.
    - cbn [seq map app]. destruct strs; reflexivity.
    - cbn [seq map app leading_ints]. rewrite Z.eqb_refl, IH. reflexivity. }
  apply G.
Qed.

(** what is written: the integers, the strings in order, and the integers once more if there is nothing to sort by *)
Lemma keys_written : exists order (again : bool), in_order m strs order /\ (again = true -> counts m = None /\ strs = []) /\
  keys_to_write m = Ok (map (fun i => Some (KInt (Z.of_nat i))) (seq 0 n) ++ map (fun s => Some (KStr s)) order ++
    (if again then map (fun i => Some (KInt (Z.of_nat i))) (seq 0 n) else [])).
Proof.
  unfold keys_to_write. rewrite leading_ints_table. unfold store_order, in_order. destruct (counts m) as [l|] eqn:EC.
  - assert (CN : forall s, In s strs -> exists c, get_count m (KStr s) = Ok c).
    { intros s Hs. destruct (index_str s Hs) as (i & E & L). unfold get_count. rewrite E, EC. pose proof (t_counts _ _ _ _ _ T) as TC. rewrite EC in TC.
      destruct (nth_error l i) as [c|] eqn:En; [eexists; reflexivity|]. apply nth_error_None in En. lia. }
    set (cnt := fun k => match get_count m k with Ok c => c | Err _ => 0%Z end).
    assert (IK : forall k, In k (dkeys (key_to_index m)) -> exists s, k = KStr s /\ In s strs).
    { intros k Hk. apply (Permutation_in _ (Permutation_sym dkeys_strs)) in Hk. apply in_map_iff in Hk. destruct Hk as (s & <- & Hs). eauto. }
    rewrite (rmapM_map _ (fun k => (k, cnt k))).
    2: { intros k Hk. destruct (IK k Hk) as (s & -> & Hs). destruct (CN s Hs) as (c & Ec). unfold cnt. rewrite Ec. reflexivity. }
    cbn [rbind]. rewrite table_len, (t_rows _ _ _ _ _ T), Nat.eqb_refl. cbn [negb].
    set (txt := fun k : key => match k with KStr s => s | KInt _ => [] end).
    set (sorted := isort (fun p q : key * Z => (snd q <=? snd p)%Z) (map (fun k => (k, cnt k)) (dkeys (key_to_index m)))).
    assert (PS : Permutation (map (fun k => (k, cnt k)) (dkeys (key_to_index m))) sorted) by apply Permutation_isort.
    assert (SP : forall p, In p sorted -> exists s, p = (KStr s, cnt (KStr s)) /\ In s strs).
    { intros p Hp. apply (Permutation_in _ (Permutation_sym PS)) in Hp. apply in_map_iff in Hp. destruct Hp as (k & <- & Hk).
      destruct (IK k Hk) as (s & -> & Hs). eauto. }
    exists (map (fun p => txt (fst p)) sorted), false. split; [|split; [discriminate|]].
    + split.
      * eapply Permutation_trans; [|apply Permutation_map; exact PS]. rewrite map_map. cbn [fst].
        eapply Permutation_trans; [|apply Permutation_map; exact dkeys_strs]. rewrite map_map. cbn [txt]. rewrite map_id. apply Permutation_refl.
      * assert (SS : StronglySorted (fun p q : key * Z => (snd q <=? snd p)%Z = true) sorted).
        { apply isort_StronglySorted; intros; lia. }
        revert SS SP. generalize sorted as l0. clear - CN. induction l0 as [|p l0 IH]; intros SS SP; [constructor|]. inversion SS as [|? ? S1 S2]; subst.
        cbn [map]. constructor; [apply IH; [exact S1|intros; apply SP; right; assumption]|].
        apply Forall_forall. intros t Ht. apply in_map_iff in Ht. destruct Ht as (q & <- & Hq). rewrite Forall_forall in S2. specialize (S2 q Hq).
        destruct (SP p (or_introl eq_refl)) as (s & -> & Hs). destruct (SP q (or_intror Hq)) as (s' & -> & Hs'). cbn [fst txt snd] in *.
        destruct (CN s Hs) as (c & Ec). destruct (CN s' Hs') as (c' & Ec'). exists c, c'. split; [exact Ec|]. split; [exact Ec'|].
        unfold cnt in S2. rewrite Ec, Ec' in S2. lia.
    + rewrite app_nil_r. do 2 f_equal. rewrite map_map. apply map_ext_in. intros p Hp. destruct (SP p Hp) as (s & -> & _). reflexivity.
  - cbn [rbind]. rewrite table_len, (t_rows _ _ _ _ _ T), Nat.eqb_refl. cbn [negb]. rewrite (t_keys _ _ _ _ _ T).
    pose proof (t_counts _ _ _ _ _ T) as TC. rewrite EC in TC. destruct TC as [Z0|Z0]; rewrite Z0.
    + exists strs, false. split; [split; [apply Permutation_refl|reflexivity]|]. split; [discriminate|]. cbn [seq map app]. rewrite app_nil_r. reflexivity.
    + exists [], true. split; [split; [apply Permutation_refl|reflexivity]|]. split; [split; reflexivity|]. cbn [map app]. rewrite app_nil_r. reflexivity.
Qed.

(** the lines of a file *)
Lemma lines_written : forall binary prefix, exists order (again : bool), in_order m strs order /\ (again = true -> counts m = None /\ strs = []) /\
  vector_lines F binary m prefix = Ok (concat (map (fun e => if binary then binary_entry F (fst e) (snd e) else text_line F (fst e) (snd e))
    (tag_entries m prefix n order ++ (if again then tag_entries m prefix n [] else [])))).
Proof.
  intros binary prefix. destruct keys_written as (order & again & O & G & E). exists order, again. split; [exact O|]. split; [exact G|].
  unfold vector_lines. rewrite E. cbn [rbind].
  set (ent := fun k : option key => match k with Some (KStr s) => (prefix ++ s, row_str m s) | Some (KInt z) => (prefix ++ show_Z z, row_int m (Z.to_nat z)) | None => ([], []) end).
  rewrite (rmapM_map _ (fun k => let e := ent k in if binary then binary_entry F (fst e) (snd e) else text_line F (fst e) (snd e))).
  - cbn [rbind]. f_equal. f_equal. rewrite <- (map_map ent (fun e => if binary then binary_entry F (fst e) (snd e) else text_line F (fst e) (snd e))). f_equal.
    assert (EI : map ent (map (fun i => Some (KInt (Z.of_nat i))) (seq 0 n)) = map (fun i => (prefix ++ show_nat i, row_int m i)) (seq 0 n)).
    { rewrite map_map. apply map_ext. intros i. cbn [ent]. rewrite Nat2Z.id, show_Z_of_nat. reflexivity. }
    rewrite !map_app, EI, map_map. unfold tag_entries. rewrite <- app_assoc. f_equal. f_equal. destruct again; [|reflexivity].
    rewrite EI. cbn [map]. rewrite app_nil_r. reflexivity.
  - assert (INT : forall k, In k (map (fun i => Some (KInt (Z.of_nat i))) (seq 0 n)) -> getitem m k = Ok (snd (ent k)) /\ prefix ++ opt_text k = fst (ent k)).
    { intros k Hk. apply in_map_iff in Hk. destruct Hk as (i & <- & Hi). apply in_seq in Hi. rewrite getitem_int by lia. cbn [ent fst snd opt_text key_text].
      rewrite Nat2Z.id. split; reflexivity. }
    intros k Hk. assert (Q : getitem m k = Ok (snd (ent k)) /\ prefix ++ opt_text k = fst (ent k)).
    { apply in_app_iff in Hk. destruct Hk as [Hk|Hk]; [exact (INT k Hk)|]. apply in_app_iff in Hk. destruct Hk as [Hk|Hk].
      - apply in_map_iff in Hk. destruct Hk as (s & <- & Hs). apply (Permutation_in _ (Permutation_sym (proj1 O))) in Hs. rewrite getitem_str by exact Hs. split; reflexivity.
      - destruct again; [exact (INT k Hk)|destruct Hk]. }
    destruct Q as [Q1 Q2]. rewrite Q1. cbn [rbind]. rewrite Q2. reflexivity.
Qed.

Lemma entries_shape : forall prefix order, Permutation strs order -> forall e, In e (tag_entries m prefix n order) -> length (snd e) = d /\ Forall dom (snd e).
Proof.
  intros prefix order P e He. apply in_app_iff in He. destruct He as [He|He]; apply in_map_iff in He; destruct He as (x & <- & Hx); cbn [snd].
  - apply in_seq in Hx. apply shape_int. lia.
  - apply shape_str. eapply Permutation_in; [apply Permutation_sym; exact P|exact Hx].
Qed.

Lemma entries_length : forall prefix order, Permutation strs order -> length (tag_entries m prefix n order) = n + length strs.
Proof. intros prefix order P. unfold tag_entries. rewrite app_length, !map_length, seq_length, (Permutation_length P). reflexivity. Qed.
End Lemmas.

Lemma text_word_app : forall a b, text_word a -> text_word b -> text_word (a ++ b).
Proof. intros a b [A1 A2] [B1 B2]. split; intros H; apply in_app_iff in H; tauto. Qed.

Lemma text_word_nat : forall i, text_word (show_nat i).
Proof. intros i. rewrite <- show_Z_of_nat. split; apply Formats_Base.show_Z_notin; (reflexivity || discriminate). Qed.

Lemma names_perm : forall {A R} (wv dv : kv (list A) R) prefix words n tags worder torder, Permutation words worder -> Permutation tags torder ->
  Permutation (names prefix words n tags) (map fst (word_entries wv worder ++ tag_entries dv prefix n torder)).
Proof.
  intros A R wv dv prefix words n tags worder torder P Q. unfold names, word_entries, tag_entries. rewrite !map_app, !map_map. cbn [fst]. rewrite map_id.
  apply Permutation_app; [exact P|]. apply Permutation_app_head. apply Permutation_map. exact Q.
Qed.

Lemma table_len' : forall {A R d dom} {m : kv (list A) R} {n strs}, table d dom m n strs -> kv_len m = n + length strs.
Proof. intros. eapply table_len; eassumption. Qed.

(** ** Theorems *)

(** Words and tags in one file (text): loading it gives every word with its own vector, in the order of their counts, then every tag under its
    prefixed name with its own vector, integers first, then strings in the order of their numbers of documents; nothing else, whatever the
    file was before. *)
Theorem d2v_text_combined : forall {A R} (F : sfmt A) dom, sfmt_ok F dom -> forall d (wv dv : kv (list A) R) words n tags prefix fs,
  d <> 0 -> table d dom wv 0 words -> table d dom dv n tags ->
  text_word prefix -> Forall text_word (words ++ tags) -> NoDup (names prefix words n tags) ->
  exists worder torder file (m' : kv (list A) R), in_order wv words worder /\ in_order dv tags torder /\
    d2v_save F wv dv d true true prefix false false fs = (Ok tt, mkFiles (Some file) (f_vocab fs)) /\
    load_text F file None false None = Ok (d, m') /\
    holds F d m' (word_entries wv worder ++ tag_entries dv prefix n torder) (count_in None (length words + (n + length tags))) 0.
Proof.
  intros A R F dom FO d wv dv words n tags prefix fs D TW TD WP WW ND.
  destruct (lines_written F dom d wv 0 words TW false []) as (worder & wagain & OW & GW & EW).
  destruct (lines_written F dom d dv n tags TD false prefix) as (torder & tagain & OT & GT & ET).
  change (tag_entries wv [] 0 worder) with (word_entries wv worder) in EW. cbn [tag_entries seq map app] in EW.
  assert (EW' : vector_lines F false wv [] = Ok (concat (map (fun e => text_line F (fst e) (snd e)) (word_entries wv worder)))).
  { rewrite EW. destruct wagain; rewrite app_nil_r; reflexivity. }
  set (es := word_entries wv worder ++ tag_entries dv prefix n torder).
  set (rest := if tagain then tag_entries dv prefix n [] else []).
  assert (LES : length es = length words + (n + length tags)).
  { unfold es. rewrite app_length, (entries_length dv n tags prefix torder (proj1 OT)). unfold word_entries. rewrite map_length, <- (Permutation_length (proj1 OW)). reflexivity. }
  assert (SW : forall s, In s words -> text_word s) by (intros s Hs; rewrite Forall_forall in WW; apply WW; apply in_app_iff; left; exact Hs).
  assert (ST : forall s, In s tags -> text_word s) by (intros s Hs; rewrite Forall_forall in WW; apply WW; apply in_app_iff; right; exact Hs).
  assert (TE : forall order, Permutation tags order \/ order = [] -> forall e, In e (tag_entries dv prefix n order) -> text_word (fst e) /\ length (snd e) = d /\ Forall dom (snd e)).
  { intros order PO e He. split.
    - apply in_app_iff in He. destruct He as [He|He]; apply in_map_iff in He; destruct He as (x & <- & Hx); cbn [fst]; apply text_word_app; try exact WP.
      + apply text_word_nat.
      + apply ST. destruct PO as [PO| ->]; [eapply Permutation_in; [apply Permutation_sym; exact PO|exact Hx]|destruct Hx].
    - apply in_app_iff in He. destruct He as [He|He]; apply in_map_iff in He; destruct He as (x & <- & Hx); cbn [snd].
      + apply in_seq in Hx. eapply shape_int; [exact TD|lia].
      + eapply shape_str; [exact TD|]. destruct PO as [PO| ->]; [eapply Permutation_in; [apply Permutation_sym; exact PO|exact Hx]|destruct Hx]. }
  assert (WE : forall e, In e (es ++ rest) -> text_word (fst e) /\ length (snd e) = d /\ Forall dom (snd e)).
  { intros e He. apply in_app_iff in He. destruct He as [He|He]; [unfold es in He; apply in_app_iff in He; destruct He as [He|He]|].
    - apply in_map_iff in He. destruct He as (s & <- & Hs). apply (Permutation_in _ (Permutation_sym (proj1 OW))) in Hs. cbn [fst snd].
      split; [exact (SW s Hs)|]. eapply shape_str; [exact TW|exact Hs].
    - exact (TE torder (or_introl (proj1 OT)) e He).
    - unfold rest in He. destruct tagain; [|destruct He]. exact (TE [] (or_intror eq_refl) e He). }
  pose proof (load_text_file (R := R) F dom FO d (length es) (es ++ rest) None None D WE Logic.I) as X. cbv zeta in X. cbn [limited] in X.
  assert (LE : length es <=? length (es ++ rest) = true) by (rewrite app_length; apply Nat.leb_le; lia). rewrite LE in X.
  rewrite firstn_app, Nat.sub_diag, firstn_all, firstn_O, app_nil_r in X.
  assert (FE : firsts es = es).
  { apply firsts_nodup; [|intros e _ []]. eapply Permutation_NoDup; [|exact ND]. exact (names_perm wv dv prefix words n tags worder torder (proj1 OW) (proj1 OT)). }
  rewrite FE, Nat.sub_diag in X. destruct X as (m' & EL & H).
  exists worder, torder. eexists. exists m'. split; [exact OW|]. split; [exact OT|]. split; [|split; [exact EL|rewrite <- LES; exact H]].
  unfold d2v_save, kv_save. rewrite EW', ET. cbn [f_main f_vocab put negb app].
  rewrite (table_len' TW), (table_len' TD). cbn [Nat.add]. rewrite <- LES. unfold file_header. unfold put. f_equal. f_equal. f_equal.
  cbn [app]. rewrite <- !app_assoc. f_equal. cbn [app]. f_equal. rewrite <- !app_assoc. do 2 f_equal. rewrite <- concat_app, <- map_app. unfold es, rest. rewrite <- app_assoc. reflexivity.
Qed.
Print Assumptions d2v_text_combined.

(** The same in binary, if there is at least one string tag or no integer tag. *)
Theorem d2v_binary_combined : forall {A R} (F : sfmt A) dom, sfmt_ok F dom -> forall d (wv dv : kv (list A) R) words n tags prefix fs chunk_size,
  d <> 0 -> chunk_size <> 0 -> table d dom wv 0 words -> table d dom dv n tags -> tags <> [] \/ n = 0 ->
  Forall binary_word (names prefix words n tags) -> NoDup (names prefix words n tags) ->
  exists worder torder file (m' : kv (list A) R), in_order wv words worder /\ in_order dv tags torder /\
    d2v_save F wv dv d true true prefix false true fs = (Ok tt, mkFiles (Some file) (f_vocab fs)) /\
    load_binary F file None None chunk_size = Ok (d, m') /\
    holds F d m' (word_entries wv worder ++ tag_entries dv prefix n torder) (count_in None (length words + (n + length tags))) 0.
Proof.
  intros A R F dom FO d wv dv words n tags prefix fs cs D CS TW TD NT WW ND.
  destruct (lines_written F dom d wv 0 words TW true []) as (worder & wagain & OW & GW & EW).
  destruct (lines_written F dom d dv n tags TD true prefix) as (torder & tagain & OT & GT & ET).
  change (tag_entries wv [] 0 worder) with (word_entries wv worder) in EW. cbn [tag_entries seq map app] in EW.
  assert (EW' : vector_lines F true wv [] = Ok (concat (map (fun e => binary_entry F (fst e) (snd e)) (word_entries wv worder)))).
  { rewrite EW. destruct wagain; rewrite app_nil_r; reflexivity. }
  set (es := word_entries wv worder ++ tag_entries dv prefix n torder).
  assert (ET' : vector_lines F true dv prefix = Ok (concat (map (fun e => binary_entry F (fst e) (snd e)) (tag_entries dv prefix n torder)))).
  { rewrite ET. destruct tagain; [|rewrite app_nil_r; reflexivity]. destruct (GT eq_refl) as [_ T0]. destruct NT as [NT|NT]; [contradiction|].
    rewrite NT. cbn [tag_entries seq map app]. rewrite app_nil_r. reflexivity. }
  assert (LES : length es = length words + (n + length tags)).
  { unfold es. rewrite app_length, (entries_length dv n tags prefix torder (proj1 OT)). unfold word_entries. rewrite map_length, <- (Permutation_length (proj1 OW)). reflexivity. }
  pose proof (names_perm wv dv prefix words n tags worder torder (proj1 OW) (proj1 OT)) as NP. fold es in NP.
  assert (WE : forall e, In e (map (fun e => (0, e)) es) -> binary_word (fst (snd e)) /\ length (snd (snd e)) = d /\ Forall dom (snd (snd e))).
  { intros e' He'. apply in_map_iff in He'. destruct He' as (e & <- & He). cbn [snd]. split.
    - rewrite Forall_forall in WW. apply WW. eapply Permutation_in; [apply Permutation_sym; exact NP|]. apply in_map. exact He.
    - unfold es in He. apply in_app_iff in He. destruct He as [He|He].
      + apply in_map_iff in He. destruct He as (s & <- & Hs). apply (Permutation_in _ (Permutation_sym (proj1 OW))) in Hs. cbn [fst snd].
        eapply shape_str; [exact TW|exact Hs].
      + exact (entries_shape dom d dv n tags TD prefix torder (proj1 OT) e He). }
  assert (MS : map snd (map (fun e : pystr * list A => (0, e)) es) = es) by (rewrite map_map; cbn [snd]; apply map_id).
  pose proof (load_binary_file (R := R) F dom FO d (length es) (map (fun e => (0, e)) es) [] None None cs D CS Logic.I WE Logic.I) as X. cbv zeta in X. cbn [limited] in X.
  rewrite map_length in X. specialize (X (or_introl (le_n _))). rewrite Nat.leb_refl, MS, firstn_all in X.
  assert (FE : firsts es = es).
  { apply firsts_nodup; [|intros e _ []]. eapply Permutation_NoDup; [exact NP|exact ND]. }
  rewrite FE, Nat.sub_diag in X. destruct X as (m' & EL & H).
  exists worder, torder. eexists. exists m'. split; [exact OW|]. split; [exact OT|]. split; [|split; [exact EL|rewrite <- LES; exact H]].
  unfold d2v_save, kv_save. rewrite EW', ET'. cbn [f_main f_vocab put negb app].
  rewrite (table_len' TW), (table_len' TD). cbn [Nat.add]. rewrite <- LES. unfold file_header. unfold put. f_equal. f_equal. f_equal.
  cbn [app]. rewrite <- !app_assoc. f_equal. cbn [app]. f_equal. rewrite <- !app_assoc. do 2 f_equal. rewrite app_nil_r, <- concat_app, <- map_app, map_map. reflexivity.
Qed.
Print Assumptions d2v_binary_combined.

(** Words alone: the file of KeyedVectors; tags alone: with a header of their own; neither: nothing is written. *)
Theorem d2v_single : forall {A R} (F : sfmt A) d (wv dv : kv (list A) R) prefix fs,
  (forall file, save_text F wv d [] true = Ok file -> d2v_save F wv dv d false true prefix false false fs = (Ok tt, mkFiles (Some file) (f_vocab fs))) /\
  (forall file, save_text F dv d prefix true = Ok file -> d2v_save F wv dv d true false prefix false false fs = (Ok tt, mkFiles (Some file) (f_vocab fs))) /\
  (forall file, save_binary F wv d [] = Ok file -> d2v_save F wv dv d false true prefix false true fs = (Ok tt, mkFiles (Some file) (f_vocab fs))) /\
  (forall file, save_binary F dv d prefix = Ok file -> d2v_save F wv dv d true false prefix false true fs = (Ok tt, mkFiles (Some file) (f_vocab fs))) /\
  (forall fvocab binary, d2v_save F wv dv d false false prefix fvocab binary fs = (Ok tt, fs)).
Proof.
  intros A R F d wv dv prefix fs. unfold d2v_save, kv_save, vector_lines, save_text, save_binary. split; [|split; [|split; [|split]]].
  - intros file H. destruct (keys_to_write wv) as [ks|e]; [|discriminate]. cbn [rbind] in *.
    destruct (rmapM _ ks) as [ls|e]; [|discriminate]. cbn [rbind] in *. injection H as <-. reflexivity.
  - intros file H. destruct (keys_to_write dv) as [ks|e]; [|discriminate]. cbn [rbind] in *.
    destruct (rmapM _ ks) as [ls|e]; [|discriminate]. cbn [rbind] in *. injection H as <-. reflexivity.
  - intros file H. destruct (keys_to_write wv) as [ks|e]; [|discriminate]. cbn [rbind] in *.
    destruct (rmapM _ ks) as [ls|e]; [|discriminate]. cbn [rbind] in *. injection H as <-. reflexivity.
  - intros file H. destruct (keys_to_write dv) as [ks|e]; [|discriminate]. cbn [rbind] in *.
    destruct (rmapM _ ks) as [ls|e]; [|discriminate]. cbn [rbind] in *. injection H as <-. reflexivity.
  - reflexivity.
Qed.
Print Assumptions d2v_single.

(** The vocabulary file holds the words, then the tags. *)
Theorem d2v_vocab : forall {A R} (F : sfmt A) d (wv dv : kv (list A) R) prefix binary fs v1 v2 b1 b2,
  save_vocab wv [] = Ok v1 -> save_vocab dv prefix = Ok v2 -> vector_lines F binary wv [] = Ok b1 -> vector_lines F binary dv prefix = Ok b2 ->
  f_vocab (snd (d2v_save F wv dv d true true prefix true binary fs)) = Some (v1 ++ v2) /\
  f_vocab (snd (d2v_save F wv dv d false true prefix true binary fs)) = Some v1 /\
  f_vocab (snd (d2v_save F wv dv d true false prefix true binary fs)) = Some v2.
Proof. intros A R F d wv dv prefix binary fs v1 v2 b1 b2 H1 H2 H3 H4. unfold d2v_save, kv_save. rewrite H1, H2, H3, H4. cbn. auto. Qed.
Print Assumptions d2v_vocab.

(** ** Scripts *)

Definition only_strings (k : dict key nat) : Prop := NoDup (dkeys k) /\ forall z, dget k (KInt z) = None.

Lemma only_strings_dset : forall k s i, only_strings k -> only_strings (dset k (KStr s) i).
Proof. intros k s i [N H]. split; [apply NoDup_dset; exact N|]. intros z. rewrite dget_dset_other by discriminate. apply H. Qed.

Lemma add_word_strings : forall {A R} n d cnts (m : kv (list A) R) w v m', add_word n d cnts m w v = Ok m' -> only_strings (key_to_index m) -> only_strings (key_to_index m').
Proof.
  intros A R n d cnts m w v m' H O. unfold add_word in H. destruct (has_index_for m (KStr w)) eqn:HI; [injection H as <-; exact O|].
  destruct (shape d v) as [v'|e]; [|discriminate]. cbn [rbind] in H.
  destruct (add_vector m (KStr w) v') as [r m1] eqn:EA. destruct r as [i|e]; [|discriminate]. cbn [rbind] in H.
  destruct (match cnts with None => _ | Some cs => _ end) as [c|e]; [|discriminate]. cbn [rbind] in H.
  assert (O1 : only_strings (key_to_index m1)).
  { unfold add_vector in EA. assert (B : forall r' m2, (match add_vectors m [KStr w] [v'] [] false with
      | (Ok _, m1) => (Ok (kv_len m), set_next (allocate m1) (S (kv_len m))) | (Err e, m1) => (Err e, m1) end) = (r', m2) -> only_strings (key_to_index m2)).
    { intros r' m2 E. unfold add_vectors in E. cbn [map pick negb] in E. rewrite HI in E. cbn [negb fold_left length Nat.eqb] in E. injection E as <- <-.
      cbn [key_to_index set_next allocate set_counts set_vectors add_key]. apply only_strings_dset. exact O. }
    destruct (nth_error (index_to_key m) (next_index m)) as [[k|]|]; try (exact (B _ _ EA)).
    destruct (next_index m <? length (vectors m)); [|discriminate]. injection EA as <- <-. cbn [key_to_index set_next set_vectors]. apply only_strings_dset. exact O. }
  unfold set_count in H. destruct (get_index _ (KStr w)) as [j|]; [|discriminate]. injection H as <-. exact O1.
Qed.

Lemma read_text_strings : forall {A R} (F : sfmt A) n d cnts k lines (m m' : kv (list A) R), read_text F n d cnts k lines m = Ok m' ->
  only_strings (key_to_index m) -> only_strings (key_to_index m').
Proof.
  intros A R F n d cnts. induction k as [|k IH]; intros lines m m' H O; [injection H as <-; exact O|]. cbn [read_text] in H.
  destruct lines as [|line lines]; [discriminate|]. destruct (line_to_vector F line) as [wv|e]; [|discriminate]. cbn [rbind] in H.
  destruct (add_word n d cnts m (fst wv) (snd wv)) as [m1|e] eqn:E; [|discriminate]. cbn [rbind] in H.
  exact (IH _ _ _ H (add_word_strings _ _ _ _ _ _ _ E O)).
Qed.

(** a list sorted strictly by a key is determined by its elements *)
Lemma sorted_unique : forall {X} (lt_ : X -> X -> Prop) (l1 l2 : list X), (forall x, ~ lt_ x x) -> (forall x y, lt_ x y -> ~ lt_ y x) ->
  StronglySorted lt_ l1 -> StronglySorted lt_ l2 -> Permutation l1 l2 -> l1 = l2.
Proof.
  intros X lt_ l1 l2 I AS S1. revert l2. induction S1 as [|x l1 S1 IH F1]; intros l2 S2 P; [apply Permutation_nil in P; congruence|].
  destruct l2 as [|y l2]; [apply Permutation_sym, Permutation_nil in P; discriminate|]. inversion S2 as [|? ? S2' F2]; subst.
  assert (E : x = y).
  { assert (Hx : In x (y :: l2)) by (eapply Permutation_in; [exact P|left; reflexivity]). destruct Hx as [Hx|Hx]; [congruence|].
    assert (Hy : In y (x :: l1)) by (eapply Permutation_in; [apply Permutation_sym; exact P|left; reflexivity]). destruct Hy as [Hy|Hy]; [exact Hy|].
    rewrite Forall_forall in F1, F2. exfalso. exact (AS x y (F1 y Hy) (F2 x Hx)). }
  subst y. f_equal. apply IH; [exact S2'|]. eapply Permutation_cons_inv. exact P.
Qed.

(** Loading a file without header whose words differ. *)
Lemma load_plain : forall {A R} (F : sfmt A) dom, sfmt_ok F dom -> forall d es, d <> 0 -> es <> [] ->
  (forall e, In e es -> text_word (fst e) /\ length (snd e) = d /\ Forall dom (snd e)) -> NoDup (map fst es) ->
  exists m : kv (list A) R, load_text F (concat (lines_of F es)) None true None = Ok (d, m) /\
    loaded F d (length es) (count_in None (length es)) es m /\ only_strings (key_to_index m).
Proof.
  intros A R F dom FO d es D NE Hw ND.
  assert (Fl : file_lines (concat (lines_of F es)) = lines_of F es).
  { apply (file_lines_of F dom FO). intros e He. destruct (Hw e He) as (? & _ & ?); auto. }
  assert (Ds : detect_sizes F None (lines_of F es) = Ok (length es, d)).
  { unfold detect_sizes. destruct es as [|e es']; [congruence|]. cbn [lines_of map detect_dim]. destruct (Hw e (or_introl eq_refl)) as (We & Ve & De).
    rewrite (line_ok F dom FO) by (try assumption; intros X; rewrite X in Ve; cbn in Ve; congruence). cbn [rbind snd]. rewrite Ve.
    assert (Dd : forall ls, detect_dim F (Some d) ls = Ok (Some d)) by (induction ls as [|x ls IH]; cbn; [reflexivity|]; destruct d; [congruence | exact IH]).
    rewrite Dd. cbn [rbind length]. rewrite map_length. reflexivity. }
  pose proof (read_text_ok F dom FO d (length es) None es [] (kv_new (repeat (s_zero F) d) (length es) : kv (list A) R) D Hw Logic.I (loaded_new F d _ _) ltac:(cbn; lia)) as X.
  cbn [length app] in X. rewrite Nat.sub_0_r, Nat.leb_refl, firstn_all in X. destruct X as (m' & Er & L). exists m'.
  assert (Ef : firsts es = es) by (apply firsts_nodup; [exact ND|intros e _ []]). rewrite Ef in L. split; [|split; [exact L|]].
  - unfold load_text. rewrite Fl, Ds. cbn [rbind fst snd limited]. rewrite Er. reflexivity.
  - eapply read_text_strings; [exact Er|]. split; [constructor|]. intros z. reflexivity.
Qed.

(** A GloVe file with distinct words becomes the same file with a header in front, and is announced with its true size. *)
Theorem glove_exact : forall {A R} (F : sfmt A) dom, sfmt_ok F dom -> forall d es, d <> 0 -> es <> [] ->
  (forall e, In e es -> text_word (fst e) /\ length (snd e) = d /\ Forall dom (snd e)) -> NoDup (map fst es) ->
  let file := concat (map (fun e => text_line F (fst e) (snd e)) es) in
  glove2word2vec (R := R) F file = Ok ((length es, d), file_header (length es) d ++ file).
Proof.
  intros A R F dom FO d es D NE Hw ND file. destruct (load_plain (R := R) F dom FO d es D NE Hw ND) as (m & EL & L & O).
  assert (T : table d dom m 0 (map fst es)).
  { destruct L. rewrite Nat.sub_diag in *. cbn [repeat] in *. rewrite app_nil_r in *. constructor.
    - rewrite L_keys. cbn [seq map app]. rewrite map_map. reflexivity.
    - intros s i. rewrite L_dict. cbn [Nat.add]. split; [intros H; exists i; auto|intros (j & H & ->); exact H].
    - exact (proj2 O).
    - exact (proj1 O).
    - exact ND.
    - rewrite L_vecs, !map_length. reflexivity.
    - intros v Hv. rewrite L_vecs in Hv. apply in_map_iff in Hv. destruct Hv as (e & <- & He). exact (proj2 (Hw e He)).
    - destruct es as [|e es']; [congruence|]. destruct L_counts as (c & -> & Hc & _). rewrite map_length. exact Hc. }
  destruct (lines_written F dom d m 0 (map fst es) T false []) as (order & again & OR & G & EV).
  change (tag_entries m [] 0 order) with (word_entries m order) in EV. cbn [tag_entries seq map app] in EV.
  assert (GC : forall i w, nth_error (map fst es) i = Some w -> get_count m (KStr w) = Ok (Z.of_nat (length es) - Z.of_nat i)%Z).
  { apply loaded_holds in L. destruct L as (_ & _ & _ & L). exact L. }
  assert (EO : order = map fst es).
  { destruct OR as [P S]. destruct (counts m) as [l|] eqn:EC; [|exact S].
    set (lt_ := fun s t : pystr => exists c c', get_count m (KStr s) = Ok c /\ get_count m (KStr t) = Ok c' /\ (c' < c)%Z).
    assert (INJ : forall s t c, In s (map fst es) -> In t (map fst es) -> get_count m (KStr s) = Ok c -> get_count m (KStr t) = Ok c -> s = t).
    { intros s t c Hs Ht Es Et. apply In_nth_error in Hs, Ht. destruct Hs as (i & Hi). destruct Ht as (j & Hj).
      rewrite (GC i s Hi) in Es. rewrite (GC j t Hj) in Et. injection Es as Es. injection Et as Et. assert (i = j) by lia. subst j. congruence. }
    apply (sorted_unique lt_).
    - intros x (c & c' & E1 & E2 & H). rewrite E1 in E2. injection E2 as E2. lia.
    - intros x y (c & c' & E1 & E2 & H) (b & b' & E3 & E4 & H'). rewrite E1 in E4. rewrite E2 in E3. injection E4 as E4. injection E3 as E3. lia.
    - assert (NO : NoDup order) by (eapply Permutation_NoDup; [exact P|exact ND]). assert (IN : forall s, In s order -> In s (map fst es)) by (intros s Hs; eapply Permutation_in; [apply Permutation_sym; exact P|exact Hs]).
      clear - S NO IN INJ. induction S as [|s order S IH FA]; constructor.
      + apply IH; [inversion NO; assumption|intros; apply IN; right; assumption].
      + apply Forall_forall. intros t Ht. rewrite Forall_forall in FA. destruct (FA t Ht) as (c & c' & E1 & E2 & H). exists c, c'. split; [exact E1|]. split; [exact E2|].
        destruct (Z.eq_dec c' c) as [->|]; [|lia]. exfalso. inversion NO as [|? ? N1 N2]; subst. apply N1.
        rewrite (INJ s t c (IN s (or_introl eq_refl)) (IN t (or_intror Ht)) E1 E2). exact Ht.
    - clear - GC. assert (K : forall k, StronglySorted lt_ (skipn k (map fst es))).
      { intros k. remember (length (map fst es) - k) as r eqn:Er. revert k Er. induction r as [|r IH]; intros k Er.
        - rewrite skipn_all2 by lia. constructor.
        - destruct (skipn k (map fst es)) as [|s l] eqn:Es; [constructor|]. assert (Es' : skipn (S k) (map fst es) = l).
          { clear - Es. revert k Es. induction (map fst es) as [|x xs IH]; intros k Es; [rewrite skipn_nil in Es; discriminate|]. destruct k as [|k]; [cbn in Es; injection Es as _ Es; exact Es|]. cbn [skipn] in *. exact (IH k Es). }
          constructor; [rewrite <- Es'; apply IH; lia|]. apply Forall_forall. intros t Ht.
          assert (H1 : nth_error (map fst es) k = Some s).
          { rewrite <- (firstn_skipn k (map fst es)), nth_error_app2 by (rewrite firstn_length; lia). rewrite Es, firstn_length, Nat.min_l by lia. rewrite Nat.sub_diag. reflexivity. }
          apply In_nth_error in Ht. destruct Ht as (j & Hj).
          assert (H2 : nth_error (map fst es) (S k + j) = Some t).
          { rewrite <- (firstn_skipn (S k) (map fst es)). assert (S k <= length (map fst es)) by lia.
            rewrite nth_error_app2 by (rewrite firstn_length; lia). rewrite Es', firstn_length, Nat.min_l by lia. replace (S k + j - S k) with j by lia. exact Hj. }
          eexists _, _. split; [exact (GC _ _ H1)|]. split; [exact (GC _ _ H2)|]. lia. }
      exact (K 0).
    - apply Permutation_sym. exact P. }
  assert (EE : word_entries m order = es).
  { rewrite EO. unfold word_entries. rewrite map_map. rewrite <- (map_id es) at 2. apply map_ext_in. intros e He.
    apply In_nth_error in He. destruct He as (i & Hi). destruct L. rewrite Nat.sub_diag in *. cbn [repeat] in *. rewrite app_nil_r in *.
    unfold row_str, get_index. rewrite (proj2 (L_dict (fst e) i)) by (rewrite nth_error_map, Hi; reflexivity).
    rewrite L_vecs. rewrite (nth_indep _ [] (snd e)) by (rewrite map_length; apply nth_error_Some; congruence). rewrite map_nth.
    rewrite (nth_error_nth es i e Hi). destruct e; reflexivity. }
  change (load_text F file None true None = Ok (d, m)) in EL. unfold glove2word2vec. rewrite EL. cbn [rbind snd fst]. unfold save_text. unfold vector_lines in EV.
  destruct (keys_to_write m) as [ks|e]; [|discriminate]. cbn [rbind] in *. destruct (rmapM _ ks) as [ls|e] eqn:ER; [|discriminate]. cbn [rbind] in *. injection EV as EV.
  pose proof (table_len _ _ _ _ _ T) as TL. cbn [Nat.add] in TL. rewrite map_length in TL.
  unfold kv_len, header, file_header, file. rewrite TL. f_equal. f_equal. f_equal. rewrite EV, EE.
  destruct again; rewrite app_nil_r; reflexivity.
Qed.
Print Assumptions glove_exact.

(** `get_glove_info` of such a file. *)
Theorem glove_info_lines : forall {A} (F : sfmt A) dom, sfmt_ok F dom -> forall es,
  (forall e, In e es -> text_word (fst e) /\ Forall dom (snd e)) ->
  fst (get_glove_info (concat (map (fun e => text_line F (fst e) (snd e)) es))) = length es.
Proof.
  intros A F dom FO es H. unfold get_glove_info. cbn [fst]. fold (lines_of F es). rewrite (file_lines_of F dom FO es H). unfold lines_of. apply map_length.
Qed.
Print Assumptions glove_info_lines.

(** The two files for the projector: line i of one is the word, line i of the other the vector of entry i. *)
Theorem tensor_lines : forall {A R} (F : sfmt A) dom, sfmt_ok F dom -> forall s_str d es, d <> 0 ->
  (forall e, In e es -> text_word (fst e) /\ length (snd e) = d /\ Forall dom (snd e)) -> NoDup (map fst es) ->
  w2v2tensor (R := R) F s_str (file_header (length es) d ++ concat (map (fun e => text_line F (fst e) (snd e)) es)) =
    Ok (concat (map (fun e => join [9%N] (map s_str (snd e)) ++ [chr_nl]) es), concat (map (fun e => fst e ++ [chr_nl]) es)).
Proof.
  intros A R F dom FO s_str d es D Hw ND.
  pose proof (load_text_file (R := R) F dom FO d (length es) es None None D Hw Logic.I) as X. cbv zeta in X. cbn [limited] in X.
  rewrite Nat.leb_refl, firstn_all in X. assert (FE : firsts es = es) by (apply firsts_nodup; [exact ND|intros e _ []]). rewrite FE, Nat.sub_diag in X.
  destruct X as (m & EL & (HK & HV & HI & _)). unfold w2v2tensor. rewrite EL. cbn [rbind snd]. cbn [repeat] in *. rewrite app_nil_r in *. rewrite HK.
  assert (GI : forall e, In e es -> getitem m (Some (KStr (fst e))) = Ok (snd e)).
  { intros e He. apply In_nth_error in He. destruct He as (i & Hi). unfold getitem.
    rewrite (proj2 (HI (fst e) i)) by (rewrite nth_error_map, Hi; reflexivity). rewrite HV, nth_error_map, Hi. reflexivity. }
  assert (G : forall l a b, (forall e, In e l -> getitem m (Some (KStr (fst e))) = Ok (snd e)) ->
    rfold (fun out key => match key with None => Err TypeError | Some k => let* v := getitem m (Some k) in
      Ok (fst out ++ join [9%N] (map s_str v) ++ [chr_nl], snd out ++ key_text k ++ [chr_nl]) end) (map (fun e => Some (KStr (fst e))) l) (a, b) =
    Ok (a ++ concat (map (fun e => join [9%N] (map s_str (snd e)) ++ [chr_nl]) l), b ++ concat (map (fun e => fst e ++ [chr_nl]) l))).
  { induction l as [|e l IH]; intros a b H; cbn [map concat rfold]; [rewrite !app_nil_r; reflexivity|].
    rewrite (H e) by (left; reflexivity). cbn [rbind fst snd key_text]. rewrite IH by (intros; apply H; right; assumption).
    rewrite <- !app_assoc. reflexivity. }
  exact (G es [] [] GI).
Qed.
Print Assumptions tensor_lines.

(** ** Known failures *)

Definition ex_wv : zkv := set_counts (snd (add_vectors (kv_new [0; 0]%Z 0) [KStr (str "a"); KStr (str "b")] [[1; 2]; [3; 4]]%Z [] false)) (Some [2; 5]%Z).
(** the document vectors that are built for these tags *)
Definition ex_dv (tags : list key) : zkv :=
  match dv_build (fun i => [Z.of_nat i + 10; 0]%Z) dv_new [Doc [] tags] false with Ok m => of_dvs m | Err _ => kv_new [0; 0]%Z 0 end.
Definition ex_old : files := mkFiles (Some (str "old")) None.
Definition ex_load (fs : files) : result (nat * zkv) := match f_main fs with Some f => load_text zs f None false None | None => Err OSErr end.

(** With integer tags only there is nothing to sort by: asking for a vocabulary file raises ValueError after the words were written, under a
    header that counts the missing tags; the file cannot be loaded. *)
Theorem int_tags_vocab_refuted : exists (wv dv : zkv) fs, dv = ex_dv [KInt 0; KInt 1] /\
  d2v_save zs wv dv 2 true true (str "*dt_") true false ex_old = (Err ValueError, fs) /\ f_main fs <> f_main ex_old /\ ex_load fs = Err EOFErr.
Proof. exists ex_wv, (ex_dv [KInt 0; KInt 1]). eexists. split; [reflexivity|]. split; [vm_compute; reflexivity|]. split; [discriminate|]. vm_compute. reflexivity. Qed.
Print Assumptions int_tags_vocab_refuted.

(** The same tags are written twice; the header counts them once. *)
Theorem int_tags_twice_refuted : exists (wv dv : zkv), dv = ex_dv [KInt 0; KInt 1] /\
  d2v_save zs wv dv 2 true true (str "*dt_") false false ex_old = (Ok tt, mkFiles (Some (str "4 2
b 3 4
a 1 2
*dt_0 10 0
*dt_1 11 0
*dt_0 10 0
*dt_1 11 0
")) None).
Proof. exists ex_wv, (ex_dv [KInt 0; KInt 1]). split; [reflexivity|]. vm_compute. reflexivity. Qed.
Print Assumptions int_tags_twice_refuted.

(** The tags 0 and "0" are different, but only one of them comes back. *)
Theorem same_text_tags_refuted : exists (wv dv : zkv) fs, dv = ex_dv [KInt 0; KStr (str "0")] /\
  d2v_save zs wv dv 2 true true (str "*dt_") false false ex_old = (Ok tt, fs) /\
  shown (ex_load fs) = Ok (2, [Some (KStr (str "b")); Some (KStr (str "a")); Some (KStr (str "*dt_0")); None], [[3; 4]; [1; 2]; [10; 0]; [0; 0]]%Z, Some [4; 3; 2; 0]%Z).
Proof. exists ex_wv, (ex_dv [KInt 0; KStr (str "0")]). eexists. split; [reflexivity|]. split; [vm_compute; reflexivity|]. vm_compute. reflexivity. Qed.
Print Assumptions same_text_tags_refuted.

(** Without a prefix a tag that is also a word is lost. *)
Theorem tag_is_word_refuted : exists (wv dv : zkv) fs, dv = ex_dv [KStr (str "a")] /\
  d2v_save zs wv dv 2 true true [] false false ex_old = (Ok tt, fs) /\
  shown (ex_load fs) = Ok (2, [Some (KStr (str "b")); Some (KStr (str "a")); None], [[3; 4]; [1; 2]; [0; 0]]%Z, Some [3; 2; 0]%Z).
Proof. exists ex_wv, (ex_dv [KStr (str "a")]). eexists. split; [reflexivity|]. split; [vm_compute; reflexivity|]. vm_compute. reflexivity. Qed.
Print Assumptions tag_is_word_refuted.

(** A GloVe file with a word twice is converted to a file that cannot be loaded, and cannot be turned into tensor files. *)
Theorem glove_twice_refuted : exists file out, glove2word2vec (R := Z) zs file = Ok ((3, 1), out) /\
  (load_text zs out None false None : result (nat * zkv)) = Err EOFErr /\ w2v2tensor (R := Z) zs show_Z (str "3 1
" ++ file) = Err TypeError.
Proof.
  exists (str "x 1
x 2
y 3
"). eexists. split; [vm_compute; reflexivity|]. split; vm_compute; reflexivity.
Qed.
Print Assumptions glove_twice_refuted.

(** ** Examples *)

(** The tables of the theorems are those that are built. *)
Example table_ex : table 2 zdom (ex_dv [KStr (str "t"); KInt 1; KStr (str "s"); KStr (str "t")]) 2 [str "t"; str "s"].
Proof.
  set (m := ex_dv _). vm_compute in m. constructor; try reflexivity.
  - intros s i. cbn [m key_to_index dget]. split.
    + destruct (eq_dec (KStr [116%N]) (KStr s)) as [E|N]; [intros H; injection H as <-; injection E as <-; exists 0; auto|].
      destruct (eq_dec (KStr [115%N]) (KStr s)) as [E|N']; [intros H; injection H as <-; injection E as <-; exists 1; auto|discriminate].
    + intros (j & H & ->). destruct j as [|[|j]]; cbn in H; try (injection H as <-; reflexivity). destruct j; discriminate.
  - cbn. repeat constructor; cbn; intuition discriminate.
  - repeat constructor; cbn; intuition discriminate.
  - intros v Hv. cbn in Hv. unfold zdom. repeat (destruct Hv as [<-|Hv]; [split; [reflexivity|repeat constructor; lia]|]). destruct Hv.
Qed.

Example combined_ex : d2v_save zs ex_wv (ex_dv [KStr (str "t"); KInt 1; KStr (str "s"); KStr (str "s")]) 2 true true (str "*dt_") true false ex_old =
  (Ok tt, mkFiles (Some (str "6 2
b 3 4
a 1 2
*dt_0 10 0
*dt_1 11 0
*dt_s 13 0
*dt_t 12 0
")) (Some (str "b 5
a 2
*dt_s 2
*dt_t 1
"))).
Proof. vm_compute. reflexivity. Qed.

Example glove_ex : glove2word2vec (R := Z) zs (str "x 1 2
y 3 4
") = Ok ((2, 2), str "2 2
x 1 2
y 3 4
") /\ get_glove_info (str "x 1 2
y 3 4
") = (2, 2%Z).
Proof. vm_compute. auto. Qed.

Example tensor_ex : w2v2tensor (R := Z) zs show_Z (str "2 2
x 1 2
y 3 4
") = Ok (str "1" ++ [9%N] ++ str "2
3" ++ [9%N] ++ str "4
", str "x
y
").
Proof. vm_compute. reflexivity. Qed.
