(** Properties of merging vectors of a file into a model. *)
From Verif Require Import Base Str KeyedVectors_Model KeyedVectors_Proofs W2vFormat_Model W2vFormat_Spec W2vFormat_Proofs W2vFormat_Proofs2 Intersect_Model.
Local Open Scope nat_scope.

Section Merge.
Context {A L : Type}.
Variable F : sfmt A.
Variable dom : A -> Prop.
Hypothesis FO : sfmt_ok F dom.
Notation entry := (pystr * list A)%type.
Notation store := (store A L).

(** ** Specification *)

(** The vector of a word in a file: that of its last line *)
Definition in_file (es : list entry) (w : pystr) (v : list A) : Prop := exists l r, es = l ++ (w, v) :: r /\ ~ In w (map fst r).
Definition indexed (st : store) : Prop := (forall w i, dget (s_keys st) w = Some i -> i < length (s_vectors st)) /\ forall w w' i, dget (s_keys st) w = Some i -> dget (s_keys st) w' = Some i -> w = w'.
(** Words of the model that are in the file have its vector and the lock factor; all others are as before *)
Definition merged (es : list entry) (lockf : L) (st st' : store) : Prop :=
  s_keys st' = s_keys st /\ length (s_vectors st') = length (s_vectors st) /\ length (s_lockf st') = length (s_lockf st) /\
  (forall w i v, dget (s_keys st) w = Some i -> in_file es w v -> nth_error (s_vectors st') i = Some v /\ nth_error (s_lockf st') i = Some lockf) /\
  (forall i, (forall w, dget (s_keys st) w = Some i -> ~ In w (map fst es)) -> nth_error (s_vectors st') i = nth_error (s_vectors st) i /\ nth_error (s_lockf st') i = nth_error (s_lockf st) i).
(** A lock factor for every vector *)
Definition lockable (st : store) : Prop := length (s_lockf st) = length (s_vectors st).

(** ** Proofs *)
Fixpoint merge_entries (d : nat) (lockf : L) (es : list entry) (st : store) : result unit * store :=
  match es with [] => (Ok tt, st) | e :: es' => match merge_one d lockf st (fst e) (snd e) with (Ok _, st') => merge_entries d lockf es' st' | (Err x, st') => (Err x, st') end end.
Lemma rmapM_length : forall {X Y} (f : X -> result Y) l ys, rmapM f l = Ok ys -> length ys = length l.
Proof.
  intros X Y f l. induction l as [|x l IH]; intros ys H; cbn [rmapM] in H; [injection H as <-; reflexivity|]. destruct (f x); cbn [rbind] in H; [|discriminate]. destruct (rmapM f l) as [t|]; cbn [rbind] in H; [|discriminate]. injection H as <-. cbn. f_equal. apply IH. reflexivity.
Qed.
Lemma text_entries : forall d lockf es st, d <> 0 -> (forall e, In e es -> text_word (fst e) /\ length (snd e) = d /\ Forall dom (snd e)) ->
  merge_text F d lockf (lines_of F es) st = merge_entries d lockf es st.
Proof.
  intros d lockf es. induction es as [|[w v] es IH]; intros st Hd H; [reflexivity|]. cbn [lines_of map merge_text merge_entries fst snd]. destruct (H (w, v) (or_introl eq_refl)) as (Hw & Hl & Hv). cbn [fst snd] in *.
  assert (E : line_to_vector F (text_line F w v) = Ok (w, v)) by (apply (line_ok F dom FO); [exact Hw|destruct v; [cbn in Hl; congruence|discriminate]|exact Hv]).
  assert (S : length (split_on chr_sp (rstrip is_bspace (text_line F w v))) = d + 1).
  { unfold line_to_vector in E. destruct (split_on chr_sp (rstrip is_bspace (text_line F w v))) as [|x ps]; [discriminate|]. destruct (rmapM _ ps) as [ws|] eqn:R; cbn [rbind] in E; [|discriminate]. injection E as -> ->. apply rmapM_length in R. cbn [length]. lia. }
  rewrite S, Nat.eqb_refl, E. cbn [negb]. destruct (merge_one d lockf st w v) as [[u|x] st']; [|reflexivity]. apply IH; [exact Hd|]. intros e He. apply H. right. exact He.
Qed.
Lemma read_word_entry : forall k w r, binary_word w -> ~ In chr_nl w -> read_word (repeat chr_nl k ++ utf8 w ++ chr_sp :: r) = Some (utf8 w, r).
Proof.
  intros k w r (W1 & W2 & W3) Nl. induction k as [|k IH]; cbn [repeat app].
  - assert (N1 : ~ In chr_sp (utf8 w)) by (intros H; apply W1; apply utf8_low; [reflexivity|exact H]).
    assert (N2 : ~ In chr_nl (utf8 w)) by (intros H; apply Nl; apply utf8_low; [reflexivity|exact H]).
    induction (utf8 w) as [|b u IH]; cbn [app read_word]; [reflexivity|]. assert (Hb : (b =? chr_sp)%N = false) by (apply N.eqb_neq; intros ->; apply N1; left; reflexivity).
    assert (Hb2 : (b =? chr_nl)%N = false) by (apply N.eqb_neq; intros ->; apply N2; left; reflexivity). rewrite Hb, Hb2, IH; [reflexivity| |]; intros H; [apply N1|apply N2]; right; exact H.
  - cbn [read_word]. replace (chr_nl =? chr_sp)%N with false by reflexivity. rewrite IH. replace (chr_nl =? chr_nl)%N with true by reflexivity. reflexivity.
Qed.
Definition good (d : nat) (e : nat * entry) : Prop := binary_word (fst (snd e)) /\ ~ In chr_nl (fst (snd e)) /\ length (snd (snd e)) = d /\ Forall dom (snd (snd e)).
Lemma read_weights_entry : forall v r, Forall dom v -> read_weights F (length v) (flat_map (s_pack F) v ++ r) = Ok v /\ skipn (4 * length v) (flat_map (s_pack F) v ++ r) = r.
Proof.
  intros v r Hv. pose proof (pack_length F dom FO v Hv) as P. split.
  - unfold read_weights. rewrite firstn_app, P, Nat.sub_diag, firstn_O, app_nil_r, (firstn_all2 _ (n := 4 * length v)) by lia. rewrite P. replace (4 * length v) with (length v * 4) by lia. rewrite Nat.mod_mul, Nat.div_mul by lia. cbn [Nat.eqb]. f_equal.
    rewrite <- (app_nil_r (flat_map (s_pack F) v)). apply (unpack_ok F dom FO). exact Hv.
  - rewrite skipn_app, P, Nat.sub_diag, skipn_all2 by lia. reflexivity.
Qed.
Lemma binary_entries : forall d lockf es n st tail, (forall e, In e es -> good d e) -> length es <= n ->
  merge_binary F d lockf n (concat (map (c_entry F) es) ++ tail) st =
  match merge_entries d lockf (map snd es) st with (Ok _, st') => merge_binary F d lockf (n - length es) tail st' | (Err x, st') => Some (Err x, st') end.
Proof.
  intros d lockf es. induction es as [|[k [w v]] es IH]; intros n st tail H Hn; cbn [length] in *; [rewrite Nat.sub_0_r; reflexivity|]. destruct n as [|n]; [lia|].
  destruct (H _ (or_introl eq_refl)) as (Hw & Nl & Hl & Hv). cbn [fst snd] in *.
  cbn [merge_binary map concat merge_entries fst snd]. unfold c_entry at 1, binary_entry at 1. cbn [fst snd]. rewrite <- !app_assoc. cbn [app].
  rewrite read_word_entry by assumption. rewrite utf8_decode_ok by apply Hw. subst d. destruct (read_weights_entry v (concat (map (c_entry F) es) ++ tail) Hv) as (-> & ->).
  destruct (merge_one (length v) lockf st w v) as [[u|x] st']; [|reflexivity]. rewrite IH; [|intros e He; apply H; right; exact He|lia]. reflexivity.
Qed.
Lemma merge_one_ok : forall d lockf st w v, indexed st -> lockable st -> length v = d -> exists st', merge_one d lockf st w v = (Ok tt, st') /\ merged [(w, v)] lockf st st'.
Proof.
  intros d lockf st w v (I1 & I2) Lk Hl. unfold merge_one. destruct (dget (s_keys st) w) as [i|] eqn:E.
  - pose proof (I1 _ _ E) as Hi. apply Nat.ltb_lt in Hi. rewrite Hi. cbn [negb]. unfold shape. rewrite Hl, Nat.eqb_refl. rewrite Lk, Hi. eexists. split; [reflexivity|]. split; [reflexivity|]. cbn [s_vectors s_lockf s_keys]. rewrite !set_nth_length. split; [reflexivity|]. split; [reflexivity|]. split.
    + intros w' i' v' E' (l & r & Ee & _). assert (w' = w /\ v' = v) as (-> & ->) by (destruct l as [|x [|]]; cbn in Ee; [injection Ee; auto|discriminate|discriminate]). rewrite E in E'. injection E' as <-. rewrite !nth_error_set_nth, Lk, Nat.eqb_refl, Hi. split; reflexivity.
    + intros j Hj. assert (NE : j <> i) by (intros ->; apply (Hj w E); left; reflexivity). rewrite !nth_error_set_nth. apply Nat.eqb_neq in NE. rewrite NE. split; reflexivity.
  - exists st. split; [reflexivity|]. split; [reflexivity|]. split; [reflexivity|]. split; [reflexivity|]. split; [|intros; split; reflexivity].
    intros w' i' v' E' (l & r & Ee & _). assert (w' = w) as -> by (destruct l as [|x [|]]; cbn in Ee; [injection Ee; auto|discriminate|discriminate]). congruence.
Qed.
Lemma merged_indexed : forall es lockf st st', indexed st -> merged es lockf st st' -> indexed st'.
Proof. intros es lockf st st' (I1 & I2) (K & Lv & _). unfold indexed. rewrite K, Lv. split; assumption. Qed.
Lemma merged_trans : forall e es lockf st st1 st2, indexed st -> merged [e] lockf st st1 -> merged es lockf st1 st2 -> merged (e :: es) lockf st st2.
Proof.
  intros [w0 v0] es lockf st st1 st2 (I1 & I2) (K1 & V1 & L1 & M1 & U1) (K2 & V2 & L2 & M2 & U2). split; [congruence|]. split; [congruence|]. split; [congruence|]. rewrite K1 in *. split.
  - intros w i v E (l & r & Ee & Nr). destruct l as [|x l]; cbn [app] in Ee.
    + injection Ee as -> -> ->. destruct (U2 i) as (-> & ->); [intros w' E' Hin; rewrite (I2 _ _ _ E' E) in Hin; contradiction|]. apply (M1 w i v E). exists [], []. split; [reflexivity|exact (fun x => x)].
    + injection Ee as <- ->. apply (M2 w i v E). exists l, r. split; [reflexivity|exact Nr].
  - intros i Hi. destruct (U2 i) as (-> & ->); [intros w E Hin; apply (Hi w E); right; exact Hin|]. apply U1. intros w E [Hw|[]]. apply (Hi w E). left. exact Hw.
Qed.
Lemma merge_entries_ok : forall d lockf es st, indexed st -> lockable st -> (forall e, In e es -> length (snd e) = d) -> exists st', merge_entries d lockf es st = (Ok tt, st') /\ merged es lockf st st'.
Proof.
  intros d lockf es. induction es as [|[w v] es IH]; intros st I Lk H.
  - exists st. split; [reflexivity|]. repeat split; try (intros; reflexivity); exfalso; destruct H1 as (l & r & Ee & _); destruct l; discriminate.
  - cbn [merge_entries fst snd]. destruct (merge_one_ok d lockf st w v I Lk (H (w, v) (or_introl eq_refl))) as (st1 & -> & M1). destruct (IH st1) as (st2 & -> & M2).
    + eapply merged_indexed; eassumption.
    + destruct M1 as (_ & V1 & L1 & _). unfold lockable in *. congruence.
    + intros e He. apply H. right. exact He.
    + exists st2. split; [reflexivity|]. eapply merged_trans; eassumption.
Qed.

(** ** Theorems *)

(** With a lock factor for every vector, merging a text file gives the words of the model that are in the file the vector of the file (of its last line) and the lock factor and changes nothing else - and then
    fails (violation; see always_fails). *)
Theorem intersect_text_merges : forall d declared lockf es st, d <> 0 -> (forall e, In e es -> text_word (fst e) /\ length (snd e) = d /\ Forall dom (snd e)) -> indexed st -> lockable st ->
  exists st', intersect_text F d lockf (file_header declared d ++ concat (map (fun e => text_line F (fst e) (snd e)) es)) st = Some (Err AttributeErr, st') /\ merged es lockf st st'.
Proof.
  intros d declared lockf es st Hd H I Lk. unfold intersect_text. destruct (header_ok declared d (concat (map (fun e => text_line F (fst e) (snd e)) es))) as (-> & P & _). rewrite P, Nat.eqb_refl. cbn [negb].
  change (concat (map (fun e => text_line F (fst e) (snd e)) es)) with (concat (lines_of F es)). rewrite (file_lines_of F dom FO) by (intros e He; destruct (H e He); tauto). rewrite text_entries by assumption.
  destruct (merge_entries_ok d lockf es st I Lk) as (st' & -> & M); [intros e He; apply H; exact He|]. exists st'. split; [reflexivity|exact M].
Qed.
(** The same for a binary file *)
Theorem intersect_binary_merges : forall d lockf es tail st, (forall e, In e es -> good d e) -> indexed st -> lockable st ->
  exists st', intersect_binary F d lockf (file_header (length es) d ++ concat (map (c_entry F) es) ++ tail) st = Some (Err AttributeErr, st') /\ merged (map snd es) lockf st st'.
Proof.
  intros d lockf es tail st H I Lk. unfold intersect_binary. destruct (header_ok (length es) d (concat (map (c_entry F) es) ++ tail)) as (-> & P & U). rewrite U, P, Nat.eqb_refl. cbn [negb]. rewrite binary_entries by auto.
  destruct (merge_entries_ok d lockf (map snd es) st I Lk) as (st' & -> & M); [intros e He; apply in_map_iff in He; destruct He as (x & <- & Hx); destruct (H x Hx) as (_ & _ & Hl & _); exact Hl|]. rewrite Nat.sub_diag. exists st'. split; [reflexivity|exact M].
Qed.
(** Violation: no call succeeds, whatever the file *)
Theorem always_fails : forall d (lockf : L) file (st : store) r st', intersect_text F d lockf file st = Some (r, st') \/ intersect_binary F d lockf file st = Some (r, st') -> exists e, r = Err e.
Proof.
  assert (K : forall (p : result unit * store) r st', last_line p = (r, st') -> exists e, r = Err e) by (intros [[u|x] s] r st' E; injection E as <- _; eexists; reflexivity).
  intros d lockf file st r st' [E|E]; unfold intersect_text, intersect_binary in E; destruct (readline file) as [line body].
  - injection E as E. destruct (parse_header line) as [[n d']|x]; [|injection E as <- _; eauto]. destruct (d' =? d); cbn [negb] in E; [eauto|injection E as <- _; eauto].
  - destruct (utf8_decode line) as [l|]; [|injection E as <- _; eauto]. destruct (parse_header l) as [[n d']|x]; [|injection E as <- _; eauto]. destruct (d' =? d); cbn [negb] in E; [|injection E as <- _; eauto].
    destruct (merge_binary F d lockf n body st) as [p|]; [|discriminate]. cbn [option_map] in E. injection E as E. eauto.
Qed.
(** Violation: a binary file cut off before the word it should have next never returns *)
Theorem truncated_hangs : forall d (lockf : L) es n tail st, (forall e, In e es -> good d e) -> indexed st -> lockable st -> length es < n -> ~ In chr_sp tail ->
  intersect_binary F d lockf (file_header n d ++ concat (map (c_entry F) es) ++ tail) st = None.
Proof.
  intros d lockf es n tail st H I Lk Hn Ht. unfold intersect_binary. destruct (header_ok n d (concat (map (c_entry F) es) ++ tail)) as (-> & P & U). rewrite U, P, Nat.eqb_refl. cbn [negb]. rewrite binary_entries by (auto; lia).
  destruct (merge_entries_ok d lockf (map snd es) st I Lk) as (st' & -> & M); [intros e He; apply in_map_iff in He; destruct He as (x & <- & Hx); destruct (H x Hx) as (_ & _ & Hl & _); exact Hl|].
  destruct (n - length es) as [|k] eqn:E; [lia|]. cbn [merge_binary]. assert (R : read_word tail = None).
  { clear - Ht. induction tail as [|b t IH]; [reflexivity|]. cbn [read_word]. replace (b =? chr_sp)%N with false by (symmetry; apply N.eqb_neq; intros ->; apply Ht; left; reflexivity). rewrite IH; [reflexivity|]. intros H. apply Ht. right. exact H. }
  rewrite R. reflexivity.
Qed.
(** Violation: with the single lock factor that training sets up, a word other than the first makes the merge stop with IndexError after its vector is replaced; the words after it are not merged.
    The first word's lock factor is the one of all words. *)
Theorem single_lock_stops : forall d declared (lockf : L) w v es keys vectors l i, d <> 0 -> (forall e, In e ((w, v) :: es) -> text_word (fst e) /\ length (snd e) = d /\ Forall dom (snd e)) ->
  dget keys w = Some i -> 0 < i < length vectors ->
  intersect_text F d lockf (file_header declared d ++ concat (map (fun e => text_line F (fst e) (snd e)) ((w, v) :: es))) (Store keys vectors [l]) = Some (Err IndexError, Store keys (set_nth vectors i v) [l]).
Proof.
  intros d declared lockf w v es keys vectors l i Hd H E Hi. unfold intersect_text. destruct (header_ok declared d (concat (map (fun e => text_line F (fst e) (snd e)) ((w, v) :: es)))) as (-> & P & _). rewrite P, Nat.eqb_refl. cbn [negb].
  change (concat (map (fun e => text_line F (fst e) (snd e)) ((w, v) :: es))) with (concat (lines_of F ((w, v) :: es))). rewrite (file_lines_of F dom FO) by (intros e He; destruct (H e He); tauto). rewrite text_entries by assumption.
  cbn [merge_entries fst snd]. unfold merge_one. cbn [s_keys s_vectors s_lockf]. rewrite E. replace (i <? length vectors) with true by (symmetry; apply Nat.ltb_lt; lia). cbn [negb]. unfold shape. destruct (H (w, v) (or_introl eq_refl)) as (_ & Hl & _). cbn [snd] in Hl. rewrite Hl, Nat.eqb_refl.
  replace (i <? length [l]) with false by (symmetry; apply Nat.ltb_ge; cbn; lia). reflexivity.
Qed.
Theorem single_lock_all : forall d declared (lockf : L) w v keys vectors l, d <> 0 -> text_word w -> length v = d -> Forall dom v -> dget keys w = Some 0 -> vectors <> [] ->
  exists st', intersect_text F d lockf (file_header declared d ++ text_line F w v) (Store keys vectors [l]) = Some (Err AttributeErr, st') /\ s_lockf st' = [lockf].
Proof.
  intros d declared lockf w v keys vectors l Hd Hw Hl Hv E NE. unfold intersect_text. destruct (header_ok declared d (text_line F w v)) as (-> & P & _). rewrite P, Nat.eqb_refl. cbn [negb].
  assert (T : text_line F w v = concat (lines_of F [(w, v)])) by (cbn; rewrite app_nil_r; reflexivity). rewrite T. rewrite (file_lines_of F dom FO) by (intros e [<-|[]]; split; assumption). rewrite text_entries by (try exact Hd; intros e [<-|[]]; auto).
  cbn [merge_entries fst snd]. unfold merge_one. cbn [s_keys s_vectors s_lockf]. rewrite E. destruct vectors; [congruence|]. cbn [length Nat.ltb Nat.leb negb]. unfold shape. rewrite Hl, Nat.eqb_refl. eexists. split; reflexivity.
Qed.
End Merge.

(** A model of three words, a file with two of them and another one *)
Definition ten : sfmt Z := {| s_zero := 0%Z; s_repr := show_Z; s_parse := parse_Z; s_pack := fun z => [Z.to_N z; 0; 0; 0]%N; s_unpack := fun bs => Z.of_N (nth 0 bs 0%N) |}.
Definition st3 (locks : list nat) : store Z nat := Store [(str "a", 0); (str "b", 1); (str "c", 2)] [[1; 1]; [2; 2]; [3; 3]]%Z locks.
Definition nl : pystr := [chr_nl].
Example merge_x : intersect_text ten 2 0 (str "3 2" ++ nl ++ str "c 7 8" ++ nl ++ str "x 5 5" ++ nl ++ str "a 9 9" ++ nl) (st3 [1; 1; 1]) = Some (Err AttributeErr, Store (s_keys (st3 [])) [[9; 9]; [2; 2]; [7; 8]]%Z [0; 1; 0]).
Proof. vm_compute. reflexivity. Qed.
Example single_lock_x : intersect_text ten 2 0 (str "3 2" ++ nl ++ str "c 7 8" ++ nl ++ str "x 5 5" ++ nl ++ str "a 9 9" ++ nl) (st3 [1]) = Some (Err IndexError, Store (s_keys (st3 [])) [[1; 1]; [2; 2]; [7; 8]]%Z [1]).
Proof. vm_compute. reflexivity. Qed.
Example binary_x : intersect_binary ten 1 0 (str "2 1" ++ nl ++ str "b " ++ [7; 0; 0; 0]%N ++ nl ++ str "a " ++ [8; 0; 0; 0]%N) (Store [(str "a", 0); (str "b", 1)] [[1]; [2]]%Z [1; 1]) = Some (Err AttributeErr, Store [(str "a", 0); (str "b", 1)] [[8]; [7]]%Z [0; 0]) /\
  intersect_binary ten 1 0 (str "3 1" ++ nl ++ str "b " ++ [7; 0; 0; 0]%N ++ nl ++ str "a " ++ [8; 0; 0; 0]%N) (Store [(str "a", 0); (str "b", 1)] [[1]; [2]]%Z [1; 1]) = None.
Proof. vm_compute. split; reflexivity. Qed.

Print Assumptions intersect_text_merges.
Print Assumptions intersect_binary_merges.
Print Assumptions always_fails.
Print Assumptions truncated_hangs.
Print Assumptions single_lock_stops.
Print Assumptions single_lock_all.
