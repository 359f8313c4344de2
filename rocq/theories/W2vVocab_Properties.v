(** Theorems about Word2Vec vocabularies (properties C44, C62). *)

From Coq Require Import Permutation.
From Verif Require Import Base Str SortFacts Utils_Model Utils_Proofs Matutils_Model KeyedVectors_Model KeyedVectors_Spec KeyedVectors_Proofs KeyedVectors_Properties2
  W2vVocab_Model W2vVocab_Spec W2vVocab_Proofs.
From Coq Require Import ZifyBool ZifyNat.
Local Open Scope nat_scope.

(** ** The scan *)

(** Without a bound on the number of words kept during the scan the counts are exact; with one they never exceed the truth.
    The total always counts every word. *)
Theorem scan_vocab_counts : forall sentences maxv rule, exists raw,
  scan_vocab sentences maxv rule = Ok (raw, length (concat sentences), length sentences) /\ NoDup (dkeys raw) /\
  (forall w c, dget raw w = Some c -> 0 < c <= occurrences sentences w) /\
  (match maxv with Some (S _) => True | _ => forall w, dget raw w = match occurrences sentences w with 0 => None | n => Some n end end).
Proof.
  intros ss maxv rule. destruct (scan_ok ss maxv rule [] 1 0 (NoDup_nil _) ltac:(intros; discriminate)) as (raw & E & N & P & U & X). exists raw.
  unfold scan_vocab. rewrite E. cbn [rbind]. split; [reflexivity|]. split; [exact N|]. split.
  - intros w c H. split; [apply (P w c H)|]. specialize (U w). unfold dget_or in U. rewrite H in U. cbn in U. exact U.
  - destruct maxv as [[|m]|]; auto; intros w; pose proof (dget_occ raw w _ P (X w)) as D; cbn in D; destruct (occurrences ss w); exact D.
Qed.
Print Assumptions scan_vocab_counts.
Example scan_vocab_ex : scan_vocab [[str "a"; str "b"; str "a"]; []; [str "b"; str "c"]] None None = Ok ([(str "a", 2); (str "b", 2); (str "c", 1)], 5, 3) /\
  scan_vocab [[str "a"; str "b"; str "a"]; [str "b"; str "c"]; [str "c"; str "b"]] (Some 2) None = Ok ([(str "a", 2); (str "b", 3); (str "c", 2)], 7, 3) /\
  scan_vocab [[str "a"; str "b"; str "a"; str "c"]; [str "d"; str "c"; str "b"]] (Some 2) None = Ok ([(str "a", 2); (str "b", 2); (str "c", 2)], 7, 2).
Proof. vm_compute. auto. Qed.

(** ** C44: the effective minimum count *)
Lemma filter_perm_length : forall {A} (f : A -> bool) l l', Permutation l l' -> length (filter f l) = length (filter f l').
Proof. intros. apply Permutation_length, Permutation_filter. assumption. Qed.
Lemma filter_all : forall {A} (f : A -> bool) l, (forall x, In x l -> f x = true) -> filter f l = l.
Proof. induction l as [|x l IH]; intros H; [reflexivity|]. cbn. rewrite (H x) by (left; reflexivity). rewrite IH by (intros; apply H; right; assumption). reflexivity. Qed.
Lemma filter_none : forall {A} (f : A -> bool) l, (forall x, In x l -> f x = false) -> filter f l = [].
Proof. induction l as [|x l IH]; intros H; [reflexivity|]. cbn. rewrite (H x) by (left; reflexivity). apply IH. intros; apply H; right; assumption. Qed.
Lemma filter_length : forall {A} (f : A -> bool) l, length (filter f l) <= length l.
Proof. induction l as [|x l IH]; cbn; [lia|]. destruct (f x); cbn; lia. Qed.

(** With [max_final_vocab = k]: at most [k] words occur often enough, and no smaller minimum (not below [min_count], at least
    1) would do. *)
Theorem max_final_vocab_ok : forall raw k min_count, NoDup (dkeys raw) ->
  exists eff, effective_min_count raw (Some k) min_count = Ok eff /\ min_count <= eff /\ 1 <= eff /\
    (length raw <= k \/ at_least eff raw <= k) /\
    (forall e, min_count <= e -> 1 <= e -> e < eff -> k < at_least e raw).
Proof.
  intros raw k mc N. unfold effective_min_count. set (sv := isort _ (dkeys raw)).
  assert (Pv : Permutation (map (fun w => dget_or raw w 0) sv) (map snd raw)).
  { transitivity (map (fun w => dget_or raw w 0) (dkeys raw)); [apply Permutation_map; symmetry; apply Permutation_isort|].
    unfold dkeys. rewrite map_map. rewrite (map_ext_in _ snd); [reflexivity|]. intros [w c] H. cbn. unfold dget_or. rewrite (In_dget raw w c N H). reflexivity. }
  assert (Ls : length sv = length raw) by (unfold sv; rewrite length_isort; apply length_dkeys).
  destruct (k <? length sv) eqn:E.
  - apply Nat.ltb_lt in E. destruct (nth_error sv k) as [w|] eqn:Ew; [|apply nth_error_None in Ew; lia]. cbn [of_option rbind].
    exists (Nat.max (dget_or raw w 0 + 1) mc). split; [reflexivity|]. split; [lia|]. split; [lia|].
    assert (S : StronglySorted (fun a b => (dget_or raw b 0 <=? dget_or raw a 0) = true) sv).
    { apply isort_StronglySorted; intros; cbv beta in *; lia. }
    destruct (nth_error_split sv k Ew) as (l1 & l2 & Esv & Ll1). rewrite Esv in S. 
    assert (S1 : forall x, In x l1 -> dget_or raw w 0 <= dget_or raw x 0).
    { clear - S. induction l1 as [|a l1 IH]; [intros x []|]. cbn in S. inversion S as [|? ? S1 F]; subst. intros x [<-|Hx]; [|apply IH; assumption].
      rewrite Forall_forall in F. specialize (F w ltac:(apply in_or_app; right; left; reflexivity)). cbv beta in F. lia. }
    assert (S2 : forall x, In x l2 -> dget_or raw x 0 <= dget_or raw w 0).
    { clear - S. induction l1 as [|a l1 IH]; cbn in S; [|inversion S; subst; apply IH; assumption]. inversion S as [|? ? S1 F]; subst. intros x Hx. rewrite Forall_forall in F. specialize (F x Hx). cbv beta in F. lia. }
    unfold at_least. split.
    + right. rewrite (filter_perm_length _ _ _ (Permutation_sym Pv)). rewrite Esv, map_app, filter_app, app_length. cbn [map filter].
      replace (Nat.max (dget_or raw w 0 + 1) mc <=? dget_or raw w 0) with false by lia.
      rewrite (filter_none _ (map _ l2)); [|intros x Hx; apply in_map_iff in Hx; destruct Hx as (y & <- & Hy); specialize (S2 y Hy); lia].
      pose proof (filter_length (fun c => Nat.max (dget_or raw w 0 + 1) mc <=? c) (map (fun w0 => dget_or raw w0 0) l1)) as F. rewrite map_length in F. cbn. lia.
    + intros e H1 H2 H3. assert (He : e <= dget_or raw w 0) by lia. rewrite (filter_perm_length _ _ _ (Permutation_sym Pv)). rewrite Esv, map_app, filter_app, app_length. cbn [map filter].
      replace (e <=? dget_or raw w 0) with true by lia. cbn [length].
      rewrite (filter_all _ (map _ l1)); [|intros x Hx; apply in_map_iff in Hx; destruct Hx as (y & <- & Hy); specialize (S1 y Hy); lia]. rewrite map_length. lia.
  - apply Nat.ltb_ge in E. cbn [rbind]. exists (Nat.max 1 mc). split; [reflexivity|]. split; [lia|]. split; [lia|]. split; [left; lia|]. lia.
Qed.
Print Assumptions max_final_vocab_ok.
(** What is kept under that minimum (no trimming rule): at most [k] words, and no dropped word is more frequent than a kept one. *)
Theorem max_final_vocab_kept : forall raw k min_count eff, NoDup (dkeys raw) -> effective_min_count raw (Some k) min_count = Ok eff ->
  length (kept eff None raw) = at_least eff raw /\ length (kept eff None raw) <= k /\
  (forall w c, In (w, c) (kept eff None raw) <-> In (w, c) raw /\ eff <= c) /\
  (forall w c w' c', In (w, c) (kept eff None raw) -> In (w', c') raw -> ~ In (w', c') (kept eff None raw) -> c' < c).
Proof.
  intros raw k mc eff N E. destruct (max_final_vocab_ok raw k mc N) as (e & E' & _ & _ & B & _). rewrite E in E'. injection E' as <-.
  assert (L : length (kept eff None raw) = at_least eff raw).
  { unfold kept, at_least, keep_vocab_item. clear. induction raw as [|[w c] raw IH]; [reflexivity|]. cbn [filter map fst snd]. destruct (eff <=? c); cbn [length]; rewrite <- IH; reflexivity. }
  assert (K : forall w c, In (w, c) (kept eff None raw) <-> In (w, c) raw /\ eff <= c).
  { intros w c. unfold kept, keep_vocab_item. rewrite filter_In. cbn [fst snd]. rewrite Nat.leb_le. reflexivity. }
  split; [exact L|]. split; [destruct B; [unfold kept; etransitivity; [apply filter_length | assumption] | lia]|]. split; [exact K|].
  intros w c w' c' H1 H2 H3. rewrite K in H1, H3. destruct (Nat.le_gt_cases eff c'); [exfalso; apply H3; auto | lia].
Qed.
Print Assumptions max_final_vocab_kept.
Definition ex_raw : dict pystr nat := [(str "a", 5); (str "b", 2); (str "c", 3); (str "d", 2)].
Example max_final_ex : effective_min_count ex_raw (Some 2) 1 = Ok 3 /\ effective_min_count ex_raw (Some 3) 1 = Ok 3 /\ effective_min_count ex_raw (Some 4) 1 = Ok 1 /\
  effective_min_count ex_raw (Some 1) 5 = Ok 5 /\ at_least 3 ex_raw = 2 /\ at_least 2 ex_raw = 4.
Proof. vm_compute. repeat split. Qed.
(** If all words are equally frequent nothing is left, although [k] words were allowed. *)
Theorem max_final_ties_refuted : exists (raw : dict pystr nat) eff, length raw = 3 /\ effective_min_count raw (Some 2) 1 = Ok eff /\ kept eff None raw = [].
Proof. exists [(str "a", 7); (str "b", 7); (str "c", 7)], 8. vm_compute. auto. Qed.
(** A trimming rule can exceed the limit. *)
Theorem max_final_rule_refuted : exists (raw : dict pystr nat) rule eff, effective_min_count raw (Some 1) 1 = Ok eff /\ length (kept eff rule raw) = 3.
Proof. exists [(str "a", 7); (str "b", 2); (str "c", 1)], (Some (fun _ _ _ => RuleKeep)), 3. vm_compute. auto. Qed.

(** ** Building and extending *)
Section Build.
Context {V R : Type}.
Variable np_argsort : list Z -> list nat.
Hypothesis Ha : argsortZ_contract np_argsort.
Variable random_row : nat -> V.
Notation kvs := (kv V R).

Lemma sort_Voc : forall (m : kvs) ks cs, Voc m ks -> counts m = Some cs -> length cs = length ks -> vectors m = [] -> exists m' ks',
  sort_by_descending_frequency np_argsort m = Ok m' /\ Voc m' ks' /\ Permutation ks' ks /\ (forall w, get_count m' (KStr w) = get_count m (KStr w)) /\
  (exists c, counts m' = Some c /\ StronglySorted (fun x y => y <= x)%Z c /\ length c = length ks') /\ vectors m' = [].
Proof.
  intros m ks cs (E & N & A) Ec Lc Ev. set (v0 := random_row 0). set (md := set_vectors m (repeat v0 (length ks))).
  set (f := fun s => match dget (key_to_index md) (KStr s) with Some i => nth_error (vectors md) i | None => None end).
  assert (I : Inv md 0 f).
  { constructor.
    - unfold md. cbn. rewrite repeat_length, E. unfold keyl. rewrite map_length. reflexivity.
    - intros k i H. unfold md in *. cbn in *. rewrite E. apply keyl_nth. apply A. exact H.
    - reflexivity.
    - intros j. unfold md. cbn. rewrite E. unfold keyl. rewrite nth_error_map. destruct (nth_error ks j); cbn; split; intros H; try discriminate; lia. }
  assert (Al : Aligned md). { intros k i H. unfold md in *. cbn in *. rewrite E in H. apply A. apply keyl_nth. exact H. }
  destruct (sort_ok np_argsort Ha md 0 f cs I Al Ec) as (m' & S1 & S2 & S3 & S4 & S5 & c' & S6 & S7).
  { unfold kv_len, md. cbn. rewrite E. unfold keyl. rewrite map_length. exact Lc. }
  cbn [md index_to_key set_vectors] in S5. rewrite E in S5. unfold keyl in S5. apply Permutation_map_inv in S5. destruct S5 as (ks' & E' & P').
  assert (Lc' : ks <> [] -> length c' = length ks).
  { intros Ne. unfold sort_by_descending_frequency in S1. cbn [md index_to_key set_vectors counts] in S1. rewrite E in S1.
    destruct ks as [|k0 ks0]; [congruence|]. cbn [keyl map] in S1. rewrite Ec in S1. destruct (Ha cs) as [Pa _].
    destruct (rmapM _ _) as [kk|] in S1; [|discriminate]. cbn [rbind] in S1.
    match type of S1 with context [rbind (rmapM ?g ?o) _] => destruct (rmapM g o) as [cc|] eqn:Ecc; [|discriminate] end. cbn [rbind] in S1.
    cbn [length repeat] in S1. unfold vectors in S1. cbn [set_vectors] in S1.
    match type of S1 with context [rbind ?x _] => destruct x as [vs|]; [|discriminate] end. cbn [rbind] in S1. injection S1 as <-. cbn [counts] in S6. injection S6 as <-.
    assert (Lr : forall {A B} (g : A -> result B) l r, rmapM g l = Ok r -> length r = length l).
    { clear. intros A B g. induction l as [|x l IH]; intros r H; cbn in H; [injection H as <-; reflexivity|]. destruct (g x); [|discriminate]. cbn in H. destruct (rmapM g l); [|discriminate]. cbn in H. injection H as <-. cbn. f_equal. apply IH. reflexivity. }
    rewrite (Lr _ _ _ _ _ Ecc), rev_length, (Permutation_length Pa), seq_length. exact Lc. }
  destruct ks as [|k0 ks0] eqn:Ek.
  - exists m, []. unfold sort_by_descending_frequency. rewrite E. cbn [keyl map]. split; [reflexivity|]. split; [repeat split; auto; apply A|]. split; [constructor|]. split; [reflexivity|].
    split; [|exact Ev]. exists cs. destruct cs; [|discriminate]. repeat split; [exact Ec | constructor].
  - rewrite <- Ek in *. exists (set_vectors m' []), ks'. split; [|split; [|split; [|split; [|split]]]].
    + unfold sort_by_descending_frequency in *. cbn [md index_to_key set_vectors counts] in S1. rewrite E in S1 |- *. rewrite Ek in S1 |- *. cbn [keyl map] in S1 |- *. rewrite Ec in S1 |- *.
      rewrite Ev. destruct (rmapM _ _) as [kk|] in S1 |- *; [|discriminate]. cbn [rbind] in S1 |- *.
      match type of S1 with context [rbind (rmapM ?g ?o) _] => destruct (rmapM g o) as [cc|]; [|discriminate] end. cbn [rbind] in S1 |- *.
      match type of S1 with context [rbind ?x _] => destruct x as [vs|]; [|discriminate] end. cbn [rbind] in S1. injection S1 as <-. reflexivity.
    + split; [cbn; exact E'|]. split; [eapply Permutation_NoDup; [exact P' | exact N]|]. intros k i. cbn [set_vectors key_to_index]. rewrite <- S4. rewrite E'. apply keyl_nth.
    + symmetry. exact P'.
    + intros w. unfold get_count at 2. rewrite get_index_str. destruct (dget (key_to_index m) (KStr w)) as [i|] eqn:Ei.
      * destruct (S3 (KStr w) i Ei) as (j & Ej & _ & Gc). unfold get_count in *. rewrite get_index_str in *. cbn [set_vectors key_to_index counts] in *. rewrite Ej in *. rewrite Ec, Gc.
        apply A in Ei. destruct Ei as (w' & _ & Hi). rewrite (nth_error_nth' cs 0%Z); [reflexivity|]. rewrite Lc. apply nth_error_Some. congruence.
      * unfold get_count. rewrite get_index_str. cbn [set_vectors key_to_index]. rewrite (S2 w Ei). reflexivity.
    + exists c'. cbn [set_vectors counts]. split; [exact S6|]. split; [exact S7|]. rewrite Lc' by (rewrite Ek; discriminate). apply Permutation_length. exact P'.
    + reflexivity.
Qed.

Lemma kept_wanted : forall raw eff rule occ, NoDup (dkeys raw) -> (forall w, dget raw w = match occ w with 0 => None | n => Some n end) ->
  NoDup (dkeys (kept eff rule raw)) /\ forall w, In w (dkeys (kept eff rule raw)) <-> wanted rule eff w (occ w) = true.
Proof.
  intros raw eff rule occ N G. split; [apply NoDup_dkeys_filter; exact N|]. intros w. unfold dkeys, kept. rewrite in_map_iff. split.
  - intros ([w' c] & E & H). cbn in E. subst w'. apply filter_In in H. destruct H as [H K]. cbn [fst snd] in K. apply (In_dget raw w c N) in H. rewrite G in H.
    unfold wanted. destruct (occ w) as [|n]; [discriminate|]. injection H as <-. exact K.
  - intros H. unfold wanted in H. destruct (occ w) as [|n] eqn:E; [discriminate|]. exists (w, S n). split; [reflexivity|]. apply filter_In. split; [|exact H].
    apply dget_In. rewrite G, E. reflexivity.
Qed.
Lemma dget_or_occ : forall raw (occ : pystr -> nat) w, (forall w, dget raw w = match occ w with 0 => None | n => Some n end) -> dget_or raw w 0 = occ w.
Proof. intros raw occ w G. unfold dget_or. rewrite G. destruct (occ w); reflexivity. Qed.

Lemma has_counts_Voc : forall (m : kvs) ks (g : pystr -> Z) f, Voc m ks -> (ks <> [] -> counts m = Some (map g ks)) ->
  (forall w, match f w with Some c => In w ks /\ g w = Z.of_nat c | None => ~ In w ks end) -> has_counts m f.
Proof.
  intros m ks g f H Ec Hf w. specialize (Hf w). destruct (f w) as [c|].
  - destruct Hf as [Hi Hg]. apply In_nth_error in Hi. destruct Hi as [i Hi].
    assert (Ne : ks <> []) by (intros ->; destruct i; discriminate). rewrite (get_count_Voc m ks i w _ H Hi (Ec Ne)). rewrite nth_error_map, Hi. cbn. rewrite Hg. reflexivity.
  - unfold get_count. rewrite get_index_str. destruct (dget (key_to_index m) (KStr w)) as [i|] eqn:E; [|reflexivity]. apply H in E. destruct E as (w' & Ew & Hi). injection Ew as <-.
    exfalso. apply Hf. eapply nth_error_In. exact Hi.
Qed.
Lemma has_counts_same : forall (m m' : kvs) f, (forall w, get_count m' (KStr w) = get_count m (KStr w)) -> has_counts m f -> has_counts m' f.
Proof. intros m m' f H H0 w. rewrite H. apply H0. Qed.

Lemma resize_vectors_ok : forall (m : kvs) ks, Voc m ks -> length (vectors m) <= length ks ->
  match counts m with Some c => length c = length ks | None => ks = [] end ->
  exists m', resize_vectors random_row m = Ok m' /\ Voc m' ks /\ filled m' /\ counts m' = counts m /\ norms m' = None /\
  (forall i, i < length (vectors m) -> nth_error (vectors m') i = nth_error (vectors m) i).
Proof.
  intros m ks H L C. unfold resize_vectors, prep_vectors. assert (Lk : kv_len m = length ks) by (unfold kv_len; rewrite (proj1 H); unfold keyl; apply map_length).
  rewrite Lk.
  assert (Ca : forall vs, counts (allocate (set_vectors m vs)) = counts m).
  { intros vs. unfold allocate. cbn [set_vectors set_counts counts]. destruct (counts m) as [c|] eqn:Ec; [|reflexivity]. cbn [option_map]. f_equal. apply resize_same. rewrite C. unfold kv_len. cbn. symmetry. exact Lk. }
  assert (Fi : forall vs, length vs = length ks -> filled (set_norms (allocate (set_vectors m vs)) None)).
  { intros vs Lv. split; [cbn; unfold kv_len in *; cbn; lia|]. cbn [set_norms counts]. rewrite Ca. unfold kv_len in *. cbn [set_norms allocate set_vectors set_counts index_to_key]. rewrite Lk. destruct (counts m); [exact C|]. rewrite C. reflexivity. }
  destruct (length (vectors m) =? length ks) eqn:E1; [|destruct (length (vectors m) <? length ks) eqn:E2].
  - cbn [rbind]. eexists. split; [reflexivity|]. split; [exact H|]. split; [apply Fi; lia|]. split; [apply Ca|]. split; reflexivity.
  - cbn [rbind]. eexists. split; [reflexivity|]. split; [exact H|]. split; [apply Fi; rewrite app_length, map_length, seq_length; lia|]. split; [apply Ca|]. split; [reflexivity|].
    intros i Hi. cbn [set_norms allocate set_vectors set_counts vectors]. apply nth_error_app1. exact Hi.
  - exfalso. lia.
Qed.

(** The first vocabulary: exactly the wanted words, with their counts; sorted by frequency if asked for. *)
Theorem w2v_first : forall (zero : V) sentences maxf min_count rule sorted, exists (m : kvs) eff,
  build_vocab np_argsort random_row (kv_new zero 0) sentences None maxf min_count rule false sorted false = Ok m /\
  match maxf with None => eff = min_count | Some k => min_count <= eff /\ 1 <= eff /\ (rule = None -> kv_len m <= k) end /\
  sound m /\ filled m /\ has_counts m (first_counts rule eff (occurrences sentences)) /\ (sorted = true -> by_frequency m).
Proof.
  intros zero ss maxf mc0 rule sorted. unfold build_vocab. destruct (scan_vocab_counts ss None rule) as (raw & E & N & _ & G). rewrite E. cbn [rbind].
  assert (Em : exists eff, effective_min_count raw maxf mc0 = Ok eff /\
    match maxf with None => eff = mc0 | Some k => mc0 <= eff /\ 1 <= eff /\ (rule = None -> length (kept eff rule raw) <= k) end).
  { destruct maxf as [k|]; [|exists mc0; auto]. destruct (max_final_vocab_ok raw k mc0 N) as (e & E' & B1 & B2 & _). exists e. split; [exact E'|].
    split; [exact B1|]. split; [exact B2|]. intros ->. apply (max_final_vocab_kept raw k mc0 e N E'). }
  destruct Em as (mc & Em & Bm). unfold prepare_vocab. rewrite Em. cbn [rbind]. set (occ := occurrences ss) in *. destruct (kept_wanted raw mc rule occ N G) as [Nk Wk].
  set (retained := kept mc rule raw) in *. destruct (fresh_ok (kv_new zero 0 : kvs) retained raw Nk) as (m1 & E1 & V1 & Ev & En & Ec). rewrite E1. cbn [rbind].
  set (ks := dkeys retained) in *. cbn in Ev, En.
  assert (Hc : has_counts m1 (first_counts rule mc occ)).
  { apply (has_counts_Voc m1 ks (fun w => Z.of_nat (dget_or raw w 0)) _ V1 Ec). intros w. unfold first_counts. specialize (Wk w). destruct (wanted rule mc w (occ w)).
    - split; [apply Wk; reflexivity | rewrite (dget_or_occ raw occ w G); reflexivity].
    - intros X. apply Wk in X. discriminate. }
  assert (Cn : match counts m1 with Some c => length c = length ks | None => ks = [] end).
  { destruct ks as [|k0 ks0] eqn:Ek; [|rewrite Ec by discriminate; apply map_length].
    unfold fresh_vocab in E1. change (dkeys retained) with ks in E1. rewrite Ek in E1. cbn in E1. injection E1 as <-. reflexivity. }
  assert (M2 : exists m2 ks2, (if sorted && negb false then sort_by_descending_frequency np_argsort m1 else Ok m1) = Ok m2 /\ Voc m2 ks2 /\ vectors m2 = [] /\
     has_counts m2 (first_counts rule mc occ) /\ match counts m2 with Some c => length c = length ks2 | None => ks2 = [] end /\
     (sorted = true -> match counts m2 with Some c => StronglySorted (fun x y => y <= x)%Z c | None => ks2 = [] end) /\ length ks2 = length ks).
  { destruct sorted; cbn [negb andb].
    - destruct ks as [|k0 ks0] eqn:Ek.
      + exists m1, []. unfold sort_by_descending_frequency. rewrite (proj1 V1). cbn [keyl map]. repeat split; auto; try apply V1. intros _. destruct (counts m1) as [c|]; [destruct c; [constructor | discriminate] | reflexivity].
      + rewrite <- Ek in *. specialize (Ec ltac:(rewrite Ek; discriminate)). rewrite Ec in Cn. destruct (sort_Voc m1 ks _ V1 Ec Cn Ev) as (m2 & ks2 & S1 & S2 & S3 & S4 & (c & S5 & S6 & S7) & S8).
        exists m2, ks2. rewrite S5. repeat split; auto; try apply S2; [intros w; rewrite S4; apply Hc | apply Permutation_length; exact S3].
    - exists m1, ks. repeat split; auto; try apply V1. discriminate. }
  destruct M2 as (m2 & ks2 & E2 & V2 & Ev2 & Hc2 & Cn2 & St2 & L2). rewrite E2. cbn [rbind snd]. unfold prepare_weights. cbn [andb].
  destruct (resize_vectors_ok m2 ks2 V2 ltac:(rewrite Ev2; cbn; lia) Cn2) as (m3 & E3 & V3 & F3 & C3 & _ & _). exists m3, mc. split; [exact E3|].
  split.
  { assert (L3 : kv_len m3 = length retained) by (unfold kv_len; rewrite (proj1 V3); unfold keyl; rewrite map_length, L2; apply length_dkeys). destruct maxf as [k|]; [|exact Bm]. rewrite L3. exact Bm. }
  split; [apply sound_Voc; eauto|]. split; [exact F3|]. split.
  - intros w. rewrite <- (Hc2 w). unfold get_count. rewrite !get_index_str. rewrite C3.
    destruct (dget (key_to_index m3) (KStr w)) as [i|] eqn:Ei.
    + apply V3 in Ei. apply V2 in Ei. rewrite Ei. reflexivity.
    + destruct (dget (key_to_index m2) (KStr w)) as [i|] eqn:Ei'; [apply V2 in Ei'; apply V3 in Ei'; congruence | reflexivity].
  - intros Hs. specialize (St2 Hs). unfold by_frequency. rewrite C3. destruct (counts m2); [exact St2|]. rewrite (proj1 V3), St2. reflexivity.
Qed.

(** Extending a vocabulary by another corpus: known words are counted further, wanted new words are added after the others,
    and all words keep their rows and vectors. *)
Theorem w2v_update : forall (m : kvs) f sentences min_count rule sorted, sound m -> filled m -> has_counts m f -> kv_len m <> 0 -> exists m' : kvs,
  build_vocab np_argsort random_row m sentences None None min_count rule false sorted true = Ok m' /\
  sound m' /\ filled m' /\ has_counts m' (more_counts rule min_count (occurrences sentences) f) /\ kv_len m <= kv_len m' /\
  (forall i, i < kv_len m -> nth_error (index_to_key m') i = nth_error (index_to_key m) i /\ nth_error (vectors m') i = nth_error (vectors m) i).
Proof.
  intros m f ss mc rule sorted So [Fv Fc] Hc Ne. apply sound_Voc in So. destruct So as [ks V0].
  assert (Lk : kv_len m = length ks) by (unfold kv_len; rewrite (proj1 V0); unfold keyl; apply map_length).
  destruct (counts m) as [cs|] eqn:Ecs; [|congruence].
  unfold build_vocab. destruct (scan_vocab_counts ss None rule) as (raw & E & N & _ & G). rewrite E. cbn [rbind].
  unfold prepare_vocab. cbn [effective_min_count rbind]. set (occ := occurrences ss) in *. destruct (kept_wanted raw mc rule occ N G) as [Nk Wk].
  set (retained := kept mc rule raw) in *. destruct (update_ok m ks cs retained raw V0 Ecs ltac:(lia) Nk) as (m1 & E1 & V1 & Ev & En & Ec). rewrite E1. cbn [rbind].
  rewrite andb_false_r. cbn [rbind snd]. set (news := filter (fun w => negb (memb w ks)) (dkeys retained)) in *.
  assert (Ez : forall w, In w ks -> exists c, f w = Some c).
  { intros w Hw. specialize (Hc w). destruct (f w) as [c|]; [eauto|]. apply In_nth_error in Hw. destruct Hw as [i Hi]. rewrite (get_count_Voc m ks i w cs V0 Hi Ecs) in Hc.
    rewrite (nth_error_nth' cs 0%Z) in Hc by (rewrite Fc, Lk; apply nth_error_Some; congruence). discriminate. }
  assert (Lz : length (zip2 (fun w x => (x + Z.of_nat (dget_or raw w 0%nat))%Z) ks cs) = length ks).
  { assert (X : length cs = length ks) by lia. clear - X. revert cs X. induction ks as [|k ks IH]; intros [|x cs] L; try discriminate; [reflexivity|]. cbn. rewrite IH by (cbn in L; lia). reflexivity. }
  unfold prepare_weights. replace (length (vectors m1) =? 0) with false by (rewrite Ev; lia). cbn [andb].
  assert (Cn : match counts m1 with Some c => length c = length (ks ++ news) | None => ks ++ news = [] end).
  { rewrite Ec. rewrite !app_length, map_length, Lz. reflexivity. }
  destruct (resize_vectors_ok m1 (ks ++ news) V1 ltac:(rewrite Ev, app_length; lia) Cn) as (m3 & E3 & V3 & F3 & C3 & _ & K3). exists m3. split; [exact E3|].
  split; [apply sound_Voc; eauto|]. split; [exact F3|]. split; [|split].
  - intros w. unfold more_counts. rewrite Ec in C3.
    destruct (f w) as [c|] eqn:Ef.
    + assert (Hw : get_count m (KStr w) = Ok (Z.of_nat c)) by (rewrite (Hc w), Ef; reflexivity).
      unfold get_count in Hw. rewrite get_index_str in Hw. destruct (dget (key_to_index m) (KStr w)) as [i|] eqn:Ei; [|discriminate]. apply V0 in Ei. destruct Ei as (w' & Ew & Hi). injection Ew as <-.
      rewrite Ecs in Hw. assert (Li : i < length ks) by (apply nth_error_Some; congruence).
      rewrite (get_count_Voc m3 (ks ++ news) i w _ V3) with (2 := C3) by (rewrite nth_error_app1 by exact Li; exact Hi).
      rewrite nth_error_app1 by lia.
      assert (Zn : nth_error (zip2 (fun w x => (x + Z.of_nat (dget_or raw w 0%nat))%Z) ks cs) i = Some (Z.of_nat c + Z.of_nat (dget_or raw w 0%nat))%Z).
      { destruct (nth_error cs i) as [x|] eqn:Ex; cbn in Hw; [injection Hw as ->|discriminate]. clear - Hi Ex. revert ks cs Hi Ex. induction i as [|i IH]; intros [|k ks] [|y cs] Hi Ex; try discriminate; cbn in *; [congruence | apply IH; assumption]. }
      rewrite Zn. cbn. rewrite (dget_or_occ raw occ w G). f_equal. lia.
    + assert (Nw : ~ In w ks) by (intros Hw; destruct (Ez w Hw); congruence).
      unfold first_counts. specialize (Wk w). destruct (wanted rule mc w (occ w)) eqn:Ew.
      * assert (Hn : In w news) by (apply filter_In; split; [apply Wk; reflexivity | rewrite (proj2 (memb_false w ks) Nw); reflexivity]).
        apply In_nth_error in Hn. destruct Hn as [j Hj].
        rewrite (get_count_Voc m3 (ks ++ news) (length ks + j) w _ V3) with (2 := C3) by (rewrite nth_error_app2 by lia; replace (length ks + j - length ks) with j by lia; exact Hj).
        rewrite nth_error_app2 by lia. rewrite Lz. replace (length ks + j - length ks) with j by lia. rewrite nth_error_map, Hj. cbn. rewrite (dget_or_occ raw occ w G). reflexivity.
      * unfold get_count. rewrite get_index_str. destruct (dget (key_to_index m3) (KStr w)) as [i|] eqn:Ei; [|reflexivity]. apply V3 in Ei. destruct Ei as (w' & E' & Hi). injection E' as <-.
        apply nth_error_In in Hi. apply in_app_or in Hi. destruct Hi as [Hi|Hi]; [contradiction|]. apply filter_In in Hi. destruct Hi as [Hi _]. apply Wk in Hi. discriminate.
  - unfold kv_len. rewrite (proj1 V3), (proj1 V0). unfold keyl. rewrite !map_length, app_length. lia.
  - intros i Hi. split; [|rewrite K3; [rewrite Ev; reflexivity | rewrite Ev; lia]].
    rewrite (proj1 V3), (proj1 V0). unfold keyl. rewrite map_app. apply nth_error_app1. rewrite map_length. lia.
Qed.

(** A first corpus with at least one wanted word, then any number of further ones. *)
Theorem w2v_history : forall (zero : V) first rest min_count rule sorted,
  (exists w, first_counts rule min_count (occurrences first) w <> None) ->
  let f := fold_left (fun f ss => more_counts rule min_count (occurrences ss) f) rest (first_counts rule min_count (occurrences first)) in
  exists m0 m : kvs,
    build_vocab np_argsort random_row (kv_new zero 0) first None None min_count rule false sorted false = Ok m0 /\
    rfold (fun m ss => build_vocab np_argsort random_row m ss None None min_count rule false sorted true) rest m0 = Ok m /\
    sound m /\ filled m /\ has_counts m f /\
    (forall i, i < kv_len m0 -> nth_error (index_to_key m) i = nth_error (index_to_key m0) i /\ nth_error (vectors m) i = nth_error (vectors m0) i).
Proof.
  intros zero first rest mc rule sorted (w & Hw) f. destruct (w2v_first zero first None mc rule sorted) as (m0 & eff & E0 & Eeff & S0 & F0 & C0 & _). cbn in Eeff. subst eff. exists m0.
  assert (Ne : kv_len m0 <> 0).
  { intros Z. specialize (C0 w). destruct (first_counts rule mc (occurrences first) w) as [c|]; [|congruence]. unfold get_count in C0. rewrite get_index_str in C0.
    destruct (dget (key_to_index m0) (KStr w)) as [i|] eqn:Ei; [|discriminate]. apply S0 in Ei. unfold kv_len in Z. destruct (index_to_key m0); [destruct i; discriminate | discriminate]. }
  assert (X : forall rest (m1 : kvs) g, sound m1 -> filled m1 -> has_counts m1 g -> kv_len m1 <> 0 -> exists m : kvs,
     rfold (fun m ss => build_vocab np_argsort random_row m ss None None mc rule false sorted true) rest m1 = Ok m /\ sound m /\ filled m /\
     has_counts m (fold_left (fun f ss => more_counts rule mc (occurrences ss) f) rest g) /\
     (forall i, i < kv_len m1 -> nth_error (index_to_key m) i = nth_error (index_to_key m1) i /\ nth_error (vectors m) i = nth_error (vectors m1) i)).
  { clear - Ha. induction rest as [|ss rest IH]; intros m1 g S F C N.
    - exists m1. cbn [rfold fold_left]. auto 10.
    - cbn [rfold fold_left]. destruct (w2v_update m1 g ss mc rule sorted S F C N) as (m2 & E & S2 & F2 & C2 & L2 & K2). rewrite E. cbn [rbind].
      destruct (IH m2 _ S2 F2 C2 ltac:(lia)) as (m & E3 & S3 & F3 & C3 & K3). exists m. split; [exact E3|]. repeat split; auto; try apply S3; try apply F3.
      + rewrite (proj1 (K3 i ltac:(lia))). apply K2. assumption.
      + rewrite (proj2 (K3 i ltac:(lia))). apply K2. assumption. }
  destruct (X rest m0 _ S0 F0 C0 Ne) as (m & E & S & F & C & K). exists m. auto 10.
Qed.
End Build.
Print Assumptions w2v_first. Print Assumptions w2v_update. Print Assumptions w2v_history.

(** ** C62: rebuilding *)
Definition t_row (i : nat) : Z := 1000 + Z.of_nat i.
Definition t_build (m : kv Z Z) ss mc sorted upd := build_vocab argsortZ t_row m ss None None mc None false sorted upd.
Definition t_c1 : list (list pystr) := [[str "x"; str "y"; str "y"; str "z"]; [str "y"; str "z"]].
Definition t_c2 : list (list pystr) := [[str "p"; str "x"; str "p"; str "q"]].
Definition ex_view (r : result (kv Z Z)) := match r with Ok m => Some (index_to_key m, counts m, vectors m) | Err _ => None end.
Example w2v_first_ex : ex_view (t_build (kv_new 0%Z 0) t_c1 1 true false) =
  Some ([Some (KStr (str "y")); Some (KStr (str "z")); Some (KStr (str "x"))], Some [3; 2; 1]%Z, [1000; 1001; 1002]%Z) /\
  ex_view (build_vocab argsortZ t_row (kv_new 0%Z 0 : kv Z Z) t_c1 None (Some 2) 1 None false true false) = Some ([Some (KStr (str "y")); Some (KStr (str "z"))], Some [3; 2]%Z, [1000; 1001]%Z).
Proof. vm_compute. auto. Qed.
Example w2v_update_ex : (let* m := t_build (kv_new 0%Z 0) t_c1 2 true false in t_build m t_c2 1 true true) <> Err RuntimeErr /\
  ex_view (let* m := t_build (kv_new 0%Z 0) t_c1 2 true false in t_build m (t_c2 ++ t_c1) 2 true true) =
  Some ([Some (KStr (str "y")); Some (KStr (str "z")); Some (KStr (str "p")); Some (KStr (str "x"))], Some [6; 4; 2; 2]%Z, [1000; 1001; 1002; 1003]%Z).
Proof. split; [vm_compute; discriminate | vm_compute; reflexivity]. Qed.
Example w2v_history_ex : exists m0, t_build (kv_new 0%Z 0) t_c1 1 true false = Ok m0 /\
  ex_view (rfold (fun m ss => t_build m ss 1 true true) [t_c2; t_c1; []] m0) =
  Some ([Some (KStr (str "y")); Some (KStr (str "z")); Some (KStr (str "x")); Some (KStr (str "p")); Some (KStr (str "q"))], Some [6; 4; 3; 2; 1]%Z, [1000; 1001; 1002; 1003; 1004]%Z).
Proof. eexists. split; [vm_compute; reflexivity|]. vm_compute. reflexivity. Qed.

(** Extending an empty vocabulary is refused. *)
Theorem w2v_update_empty : forall {V R} np_argsort (random_row : nat -> V) (m : kv V R) sentences min_count rule sorted, sound m -> vectors m = [] -> counts m = None ->
  exists e, build_vocab np_argsort random_row m sentences None None min_count rule false sorted true = Err e.
Proof.
  intros V R np rr m ss mc rule sorted S Ev Ec. destruct (build_vocab np rr m ss None None mc rule false sorted true) as [m'|e] eqn:E; [|eauto]. exfalso.
  unfold build_vocab in E. destruct (scan_vocab ss None rule) as [[[raw t] n]|]; [|discriminate]. cbn [rbind] in E. unfold prepare_vocab in E. cbn [effective_min_count rbind] in E.
  destruct (update_vocab m (kept mc rule raw) raw) as [m1|] eqn:E1; [|discriminate]. cbn [rbind] in E. rewrite andb_false_r in E. cbn [rbind snd] in E.
  assert (Ev1 : vectors m1 = []).
  { unfold update_vocab in E1. set (ma := fold_left _ _ m) in E1. assert (Va : vectors ma = []).
    { unfold ma. clear - Ev. generalize (dkeys (kept mc rule raw)) as l. intros l. revert m Ev. induction l as [|w l IH]; intros m Ev; [exact Ev|]. cbn. apply IH. destruct (has_index_for m (KStr w)); [exact Ev | exact Ev]. }
    set (mb := set_counts ma _) in E1. assert (Vb : vectors mb = []) by exact Va. clearbody mb. clear - E1 Vb. generalize dependent mb. generalize (index_to_key mb) as l || idtac.
    intros mb E1 Vb. revert E1 Vb. generalize (index_to_key mb) as l. intros l. revert mb. induction l as [|k l IH]; intros mb E1 Vb; [cbn in E1; injection E1 as <-; exact Vb|].
    cbn [rfold] in E1. destruct k as [[w|z]|]; try discriminate. destruct (get_count mb (KStr w)) as [c|]; [|discriminate]. cbn [rbind] in E1.
    destruct (set_count mb (KStr w) _) as [mc'|] eqn:Es; [|discriminate]. cbn [rbind] in E1. apply (IH mc' E1). clear - Es Vb. unfold set_count in Es.
    destruct (get_index _ _); [|discriminate]. cbn [rbind] in Es. repeat match type of Es with context [match ?x with _ => _ end] => destruct x; try discriminate end; injection Es as <-; exact Vb. }
  unfold prepare_weights in E. rewrite Ev1 in E. discriminate.
Qed.
Print Assumptions w2v_update_empty.
Example w2v_update_empty_ex : t_build (kv_new 0%Z 0) t_c1 1 true true = Err RuntimeErr.
Proof. reflexivity. Qed.

(** Building again without [update]: with more words an IndexError leaves the model without vectors for its words; *)
Definition t_trained (m : kv Z Z) (vs : list Z) : kv Z Z := set_vectors m vs.
Theorem w2v_rebuild_more_refuted : exists c1 c2 m, t_build (kv_new 0%Z 0) c1 1 true false = Ok m /\ t_build m c2 1 true false = Err IndexError.
Proof. exists [[str "x"]], t_c1. eexists. split; [vm_compute; reflexivity|]. vm_compute. reflexivity. Qed.
(** with as many words the old vectors stay and now belong to other words; *)
Theorem w2v_rebuild_same_refuted : exists c1 c2 m m', t_build (kv_new 0%Z 0) c1 1 true false = Ok m /\ index_to_key m = [Some (KStr (str "y")); Some (KStr (str "x"))] /\
  t_build (t_trained m [7; 8]%Z) c2 1 true false = Ok m' /\ index_to_key m' = [Some (KStr (str "q")); Some (KStr (str "p"))] /\ vectors m' = [8; 7]%Z.
Proof. exists [[str "x"; str "y"; str "y"]], [[str "p"; str "q"; str "q"]]. do 2 eexists. repeat match goal with |- _ /\ _ => split; [vm_compute; reflexivity|] end; vm_compute; reflexivity. Qed.
(** with fewer words and without sorting a ValueError. *)
Theorem w2v_rebuild_fewer_refuted : exists c1 c2 m, t_build (kv_new 0%Z 0) c1 1 false false = Ok m /\ t_build m c2 1 false false = Err ValueError.
Proof. exists t_c1, [[str "x"]]. eexists. split; [vm_compute; reflexivity|]. vm_compute. reflexivity. Qed.
(** Extending a vocabulary that has a null word adds it once more. *)
Theorem w2v_update_null_refuted : exists m m', build_vocab argsortZ t_row (kv_new 0%Z 0 : kv Z Z) [[str "x"; str "x"]] None None 1 None true true false = Ok m /\
  build_vocab argsortZ t_row m [[str "x"; str "x"]] None None 1 None true true true = Ok m' /\
  index_to_key m' = [Some (KStr (str "x")); Some (KStr null_key); Some (KStr null_key)] /\ kv_len m' = 3.
Proof. do 2 eexists. repeat match goal with |- _ /\ _ => split; [vm_compute; reflexivity|] end; vm_compute; reflexivity. Qed.
(** A dry run adds the null word to the vocabulary. *)
Theorem w2v_dry_run_refuted : exists (m m' : kv Z Z) s, t_build (kv_new 0%Z 0) t_c1 1 false false = Ok m /\ kv_len m = 3 /\
  prepare_vocab argsortZ m [(str "x", 4)] None 1 None true false false true = Ok (s, m') /\ kv_len m' = 4.
Proof. do 3 eexists. repeat match goal with |- _ /\ _ => split; [vm_compute; reflexivity|] end; vm_compute; reflexivity. Qed.
(** [min_count=0] is taken as "not given". *)
Theorem w2v_min_count_zero : forall (self_min : nat), or_default (Some 0) self_min = self_min.
Proof. reflexivity. Qed.

(** The report: how many words are kept and dropped, and how often the kept ones occur, with the effective minimum count. *)
Theorem vocab_report : forall {V R} argsort (m : kv V R) raw mfv mc rule nw sv up dry du rt nr m', (forall w c, In (w, c) raw -> c <> 0) ->
  prepare_vocab argsort m raw mfv mc rule nw sv up dry = Ok ((du, rt, nr), m') -> exists eff,
  effective_min_count raw mfv mc = Ok eff /\
  let k := filter (fun wc => wanted rule eff (fst wc) (snd wc)) raw in
  nr = length k /\ rt = list_sum (map snd k) /\ du + nr = length raw.
Proof.
  intros V R argsort m raw mfv mc rule nw sv up dry du rt nr m' P H. unfold prepare_vocab in H. destruct (effective_min_count raw mfv mc) as [eff|]; [|discriminate]. cbn [rbind] in H.
  exists eff. split; [reflexivity|]. destruct (if dry then _ else _) as [m1|]; [|discriminate]. cbn [rbind] in H. destruct (if nw then _ else _) as [m2|]; [|discriminate]. cbn [rbind] in H.
  destruct (if sv && negb up then _ else _) as [m3|]; [|discriminate]. cbn [rbind] in H. injection H as <- <- <- _.
  assert (K : kept eff rule raw = filter (fun wc => wanted rule eff (fst wc) (snd wc)) raw).
  { unfold kept. apply filter_ext_in. intros [w c] Hi. specialize (P w c Hi). cbn [fst snd]. unfold wanted, keep_vocab_item. destruct c; [congruence|]. reflexivity. }
  rewrite K. set (k := filter _ raw) in *. cbn zeta. split; [reflexivity|]. split.
  - unfold total. assert (G : forall l a, fold_left (fun (a : nat) (wc : pystr * nat) => a + snd wc) l a = a + list_sum (map snd l)).
    { induction l as [|x l IH]; intros a; cbn; [lia|]. rewrite IH. change (fold_right Nat.add 0 (map snd l)) with (list_sum (map snd l)). lia. }
    rewrite G. reflexivity.
  - assert (L : length k <= length raw) by (unfold k; clear; induction raw as [|x l IH]; cbn; [lia|]; destruct (wanted _ _ _ _); cbn; lia). lia.
Qed.
Example vocab_report_ex : exists (m' : kv Z Z), prepare_vocab argsortZ (kv_new 0%Z 0) [(str "x", 4); (str "y", 1); (str "z", 2)] None 2 None false false false false = Ok ((1, 6, 2), m').
Proof. eexists. vm_compute. reflexivity. Qed.
Print Assumptions vocab_report.
