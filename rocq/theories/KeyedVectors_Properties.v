(** Theorems about KeyedVectors (properties C36-C38). *)

From Coq Require Import QArith Qabs.
From Verif Require Import Base Str Matutils_Model Matutils_Proofs Matutils_Proofs2 Matutils_Properties KeyedVectors_Model KeyedVectors_Spec KeyedVectors_Proofs.
From Coq Require Import ZifyBool ZifyNat.
Close Scope Q_scope.
Local Open Scope nat_scope.

(** ** C36 *)

(** After every history of insertions (interleaved with norm computations), with any number of preallocated slots,
    looking a key up gives the vector the history stored for it. *)
Theorem kv_lookup : forall {V R} (zero : V) (norm : V -> R) divide count ops, Forall well_shaped ops ->
  forall k, fst (get_vector norm divide (run zero norm divide count ops) (KStr k) false) =
            match snd (content count ops) k with Some v => Ok v | None => Err KeyError end.
Proof.
  intros V R zero norm divide count ops W k. destruct (run_ok zero norm divide count ops W) as (I & _ & _).
  unfold get_vector. rewrite get_index_str. rewrite (I_f _ _ _ I k).
  destruct (dget _ (KStr k)) as [i|] eqn:E; [|reflexivity]. cbn [fst].
  pose proof (Inv_range _ _ _ _ _ I E) as L. apply nth_error_Some in L. destruct (nth_error _ i); [reflexivity | congruence].
Qed.
Print Assumptions kv_lookup.

(** Every key has a row of its own name and there are as many rows as vectors; if the history is tidy, [index_to_key] is
    the exact inverse of [key_to_index]. *)
Theorem kv_aligned : forall {V R} (zero : V) (norm : V -> R) divide count ops, Forall well_shaped ops ->
  let m := run zero norm divide count ops in
  length (index_to_key m) = length (vectors m) /\
  (forall k i, dget (key_to_index m) k = Some i -> nth_error (index_to_key m) i = Some (Some k)) /\
  (tidy count ops -> forall k i, nth_error (index_to_key m) i = Some (Some k) <-> dget (key_to_index m) k = Some i).
Proof.
  intros V R zero norm divide count ops W m. destruct (run_ok zero norm divide count ops W) as (I & _ & A). fold m in I, A.
  split; [symmetry; apply (I_len _ _ _ I)|]. split; [apply (I_ix _ _ _ I)|].
  intros T k i. split; [apply (A T) | apply (I_ix _ _ _ I)].
Qed.
Print Assumptions kv_aligned.

(** The index returned by [add_vector] is the row of the new vector, unless the key is present and no slot is free. *)
Theorem add_vector_index : forall {V R} (zero : V) (norm : V -> R) divide count ops, Forall well_shaped ops ->
  let m := run zero norm divide count ops in
  forall k v, 0 < fst (content count ops) \/ snd (content count ops) k = None ->
  exists i, fst (add_vector m (KStr k) v) = Ok i /\
    nth_error (index_to_key (snd (add_vector m (KStr k) v))) i = Some (Some (KStr k)) /\
    nth_error (vectors (snd (add_vector m (KStr k) v))) i = Some v.
Proof.
  intros V R zero norm divide count ops W m k v H. destruct (run_ok zero norm divide count ops W) as (I & _ & _). fold m in I.
  destruct (add_vector_ok m _ _ k v I) as (i & E & _ & _ & _ & X). exists i. split; [exact E | exact (X H)].
Qed.
Print Assumptions add_vector_index.

(** Integer vectors for the examples; the norm is exact on the ones used. *)
Definition vec := list Q.
Definition ex_norm (v : vec) : Q := inject_Z (Z.sqrt (fold_left (fun a x => a + Qnum x * Qnum x)%Z v 0%Z)).
Definition ex_div (v : vec) (n : Q) : vec := map (fun x => Qred (x / n)) v.
Definition ex_run := run ([0; 0]%Q : vec) ex_norm ex_div.
Definition a := str "a". Definition b := str "b". Definition c := str "c".

Example kv_ex :
  let ops := [AddOne a [3;4]%Q; AddMany [b; a; b] [[6;8]; [0;1]; [1;0]]%Q false; AddOne c [5;12]%Q; SetItems [a; a; b] [[1;1]; [8;15]; [4;3]]%Q] in
  let m := ex_run 1 ops in
  index_to_key m = [Some (KStr a); Some (KStr b); Some (KStr b); Some (KStr c)] /\
  vectors m = [[8;15]; [6;8]; [4;3]; [5;12]]%Q /\
  map (fun k => fst (get_vector ex_norm ex_div m (KStr k) false)) [a; b; c; str "d"] =
    [Ok [8;15]%Q; Ok [4;3]%Q; Ok [5;12]%Q; Err KeyError].
Proof. vm_compute. repeat split. Qed.

Example kv_tidy_ex : tidy 1 [AddOne a [3;4]%Q; AddMany [b; a] [[6;8]; [0;1]]%Q false; AddOne a [1;0]%Q; SetItems [c; a; a] [[1;1]; [8;15]; [7;7]]%Q].
Proof.
  split; [right; reflexivity|]. split; [vm_compute; constructor; [intros [] | constructor]|]. split; [left; reflexivity|].
  split; [vm_compute; constructor; [intros [] | constructor] | exact I].
Qed.

(** A new key given twice in one batch: two rows bear the key, so the size is wrong and the rows are no longer inverse
    to the keys. *)
Theorem kv_batch_duplicate_refuted : exists (ops : list (op vec)) k,
  Forall well_shaped ops /\
  let m := ex_run 0 ops in
  nth_error (index_to_key m) 0 = Some (Some (KStr k)) /\ dget (key_to_index m) (KStr k) = Some 1 /\
  kv_len m = 2 /\ length (key_to_index m) = 1.
Proof. exists [AddMany [a; a] [[3;4]; [6;8]]%Q false], a. split; [repeat constructor|]. vm_compute. repeat split. Qed.

(** A preallocated slot filled with a key already present. *)
Theorem kv_slot_duplicate_refuted : exists (ops : list (op vec)) k,
  Forall well_shaped ops /\
  let m := ex_run 2 ops in
  nth_error (index_to_key m) 0 = Some (Some (KStr k)) /\ dget (key_to_index m) (KStr k) = Some 1.
Proof. exists [AddOne a [3;4]%Q; AddOne a [6;8]%Q], a. split; [repeat constructor|]. vm_compute. repeat split. Qed.

(** [add_vector] of a present key without free slot returns an index beyond the end. *)
Theorem add_vector_index_refuted : exists (ops : list (op vec)) k v,
  Forall well_shaped ops /\
  let r := add_vector (ex_run 0 ops) (KStr k) v in
  fst r = Ok 1 /\ nth_error (vectors (snd r)) 1 = None.
Proof. exists [AddOne a [3;4]%Q], a, [6;8]%Q. split; [repeat constructor|]. vm_compute. repeat split. Qed.

(** An integer key below the current size is not added; item assignment overwrites the vector of an unrelated key. *)
Theorem kv_int_key_refuted : exists (ops : list (op vec)) v,
  Forall well_shaped ops /\
  let m := ex_run 0 ops in
  let m' := snd (add_vectors m [KInt 0] [v] [] false) in
  let m'' := snd (setitem m [KInt 0] [v]) in
  fst (add_vectors m [KInt 0] [v] [] false) = Ok tt /\ m' = m /\
  fst (get_vector ex_norm ex_div m (KStr a) false) = Ok [3;4]%Q /\ fst (get_vector ex_norm ex_div m'' (KStr a) false) = Ok v.
Proof. exists [AddOne a [3;4]%Q], [6;8]%Q. split; [repeat constructor|]. vm_compute. repeat split. Qed.

(** Extra attributes always make [add_vectors] fail, after keys and vectors have been stored. *)
Theorem add_vectors_extras_fails : forall {V R} (m : kv V R) keys vs name extras replace, length vs = length keys ->
  exists e, fst (add_vectors m keys vs (name :: extras) replace) = Err e.
Proof.
  intros V R m keys vs name extras replace L. unfold add_vectors. rewrite L, Nat.eqb_refl. cbn [negb fst]. eauto.
Qed.
Print Assumptions add_vectors_extras_fails.
Theorem add_vectors_extras_refuted : exists (m : kv vec Q) keys vs name,
  length vs = length keys /\
  let r := add_vectors m keys vs [name] false in
  fst r = Err ValueError /\ fst (get_vector ex_norm ex_div (snd r) (KStr a) false) = Ok [3;4]%Q.
Proof. exists (kv_new [0;0]%Q 0), [KStr a], [[3;4]%Q], (str "count"). split; [reflexivity|]. vm_compute. split; reflexivity. Qed.

(** Too few vectors: the error comes after the keys were stored, so later lookups of them fail differently. *)
Theorem add_vectors_short_refuted : exists (m : kv vec Q) keys vs,
  let r := add_vectors m keys vs [] false in
  fst r = Err IndexError /\ get_index m (KStr b) = None /\ get_index (snd r) (KStr b) = Some 1 /\
  fst (get_vector ex_norm ex_div (snd r) (KStr b) false) = Err IndexError.
Proof. exists (kv_new [0;0]%Q 0), [KStr a; KStr b], [[3;4]%Q]. vm_compute. repeat split. Qed.

(** ** C37 *)

(** If no vector was stored after the norms were computed (or they were recomputed by force), the normed vector is the
    stored vector divided by its norm. *)
Theorem kv_norm_fresh : forall {V R} (zero : V) (norm : V -> R) divide count ops, Forall well_shaped ops ->
  cache_of ops <> Stale ->
  forall k, fst (get_vector norm divide (run zero norm divide count ops) (KStr k) true) =
            match snd (content count ops) k with Some v => Ok (divide v (norm v)) | None => Err KeyError end.
Proof.
  intros V R zero norm divide count ops W NS k. destruct (run_ok zero norm divide count ops W) as (_ & C & _).
  rewrite get_vector_fresh.
  - rewrite (kv_lookup zero norm divide count ops W k). destruct (snd _ k); reflexivity.
  - destruct (cache_of ops); cbn in *; auto; contradiction.
Qed.
Print Assumptions kv_norm_fresh.

Example kv_norm_ex :
  let ops := [AddMany [a; b] [[3;4]; [6;8]]%Q false; Normed a; SetItems [a] [[5;12]]%Q; FillNorms true] in
  cache_of ops = Current /\ fst (get_vector ex_norm ex_div (ex_run 0 ops) (KStr a) true) = Ok [5#13; 12#13]%Q.
Proof. vm_compute. split; reflexivity. Qed.

(** A replaced vector is divided by the norm of the old one, and a new vector has no norm at all. *)
Theorem kv_norm_stale_refuted : exists (ops ops' : list (op vec)) k k',
  Forall well_shaped ops /\ snd (content 0 ops) k = Some [6;8]%Q /\ ex_norm [6;8]%Q = 10%Q /\
  fst (get_vector ex_norm ex_div (ex_run 0 ops) (KStr k) true) = Ok [6#5; 8#5]%Q /\
  Forall well_shaped ops' /\ snd (content 0 ops') k' = Some [6;8]%Q /\
  fst (get_vector ex_norm ex_div (ex_run 0 ops') (KStr k') true) = Err IndexError.
Proof.
  exists [AddOne a [3;4]%Q; Normed a; SetItems [a] [[6;8]]%Q], [AddOne a [3;4]%Q; Normed a; AddOne b [6;8]%Q], a, b.
  split; [repeat constructor|]. split; [vm_compute; reflexivity|]. split; [vm_compute; reflexivity|].
  split; [vm_compute; reflexivity|]. split; [repeat constructor|]. vm_compute. split; reflexivity.
Qed.

(** ** C38 *)

Lemma StronglySorted_filter : forall {A} (r : A -> A -> Prop) (p : A -> bool) l, StronglySorted r l -> StronglySorted r (filter p l).
Proof.
  intros A r p l S. induction S as [|x l S IH F]; cbn; [constructor|]. destruct (p x); [|exact IH]. constructor; [exact IH|].
  rewrite Forall_forall in *. intros y Hy. apply filter_In in Hy. apply F; tauto.
Qed.
Lemma StronglySorted_split : forall {A} (r : A -> A -> Prop) l1 l2, StronglySorted r (l1 ++ l2) ->
  StronglySorted r l1 /\ forall x y, In x l1 -> In y l2 -> r x y.
Proof.
  induction l1 as [|a l1 IH]; cbn; intros l2 S; [split; [constructor | tauto]|].
  inversion S; subst. destruct (IH _ H1) as [A1 A2]. rewrite Forall_forall in H2. split.
  - constructor; [exact A1|]. apply Forall_forall. intros y Hy. apply H2, in_or_app; auto.
  - intros x y [<-|Hx] Hy; [apply H2, in_or_app; auto | auto].
Qed.
Lemma StronglySorted_map' : forall {A B} (f : A -> B) (r : B -> B -> Prop) l, StronglySorted (fun x y => r (f x) (f y)) l -> StronglySorted r (map f l).
Proof.
  intros A B f r l S. induction S as [|x l S IH F]; cbn; constructor; auto. rewrite Forall_forall in *.
  intros y Hy. apply in_map_iff in Hy. destruct Hy as (z & <- & Hz). auto.
Qed.

Section Best.
Variable np_argsort : list Q -> list nat.
Variable np_argpartition : list Q -> nat -> list nat.
Hypothesis Ha : argsort_contract np_argsort.
Hypothesis Hp : argpartition_contract np_argpartition.

(** Taking [t + |K|] best ones, dropping those in [K] and keeping [t]. *)
Lemma best_without : forall (ds : list Q) off (K : list nat) t, (1 <= t)%Z ->
  let best := argsort np_argsort np_argpartition ds (Some (t + Z.of_nat (length K))%Z) true in
  let res := firstn (Z.to_nat t) (filter (fun i => negb (memb (i + off) K)) best) in
  top_of (fun i => nth i ds 0%Q) (fun i => i < length ds /\ ~ In (i + off) K) (Z.to_nat t) res.
Proof.
  intros ds off K t T best res.
  destruct (argsort_is_topn np_argsort np_argpartition Ha Hp ds (Some (t + Z.of_nat (length K))%Z) true) as (L & ND & R & S & O).
  fold best in L, ND, R, S, O. cbv beta iota zeta in *.
  set (q := fun i => negb (memb (i + off) K)) in *.
  assert (Q1 : forall i, q i = true <-> ~ In (i + off) K).
  { intros i. unfold q. destruct (memb (i + off) K) eqn:E.
    - apply memb_true in E. cbn. split; [discriminate | contradiction].
    - apply memb_false in E. cbn. tauto. }
  assert (Fr : filter q best = res ++ skipn (Z.to_nat t) (filter q best)) by (unfold res; symmetry; apply firstn_skipn).
  assert (Sf : StronglySorted (fun i j => nth j ds 0 <= nth i ds 0)%Q (res ++ skipn (Z.to_nat t) (filter q best)))
    by (rewrite <- Fr; apply StronglySorted_filter; exact S).
  destruct (StronglySorted_split _ _ _ Sf) as [S1 S2].
  assert (In1 : forall i, In i res -> In i (filter q best)) by (intros i Hi; rewrite Fr; apply in_or_app; auto).
  assert (NDf : NoDup (filter q best)) by (apply NoDup_filter; exact ND).
  split. { unfold res. apply NoDup_firstn. exact NDf. }
  split. { intros i Hi. apply In1, filter_In in Hi. destruct Hi as [H1 H2]. apply Q1 in H2. auto. }
  split; [exact S1|]. split; [unfold res; apply firstn_le_length|].
  split.
  - destruct (Nat.le_gt_cases (Z.to_nat t) (length (filter q best))) as [C|C].
    + left. unfold res. apply firstn_length_le. exact C.
    + right. intros j [Lj Nj].
      assert (Er : res = filter q best) by (unfold res; apply firstn_all2; lia). rewrite Er. apply filter_In. split; [|apply Q1; exact Nj].
      destruct (in_dec Nat.eq_dec j best) as [|NI]; [assumption|]. exfalso.
      (* fewer than t survive, so best has everything *)
      assert (Drop : length best <= length (filter q best) + length K).
      { assert (X : length best = length (filter q best) + length (filter (fun i => negb (q i)) best)).
        { clear. induction best as [|x l IH]; cbn; [reflexivity|]. destruct (q x); cbn; lia. }
        assert (Y : length (filter (fun i => negb (q i)) best) <= length K).
        { rewrite <- (map_length (fun i => i + off)). apply NoDup_incl_length.
          - apply FinFun.Injective_map_NoDup; [intros x y; lia | apply NoDup_filter; exact ND].
          - intros y Hy. apply in_map_iff in Hy. destruct Hy as (x & <- & Hx). apply filter_In in Hx. destruct Hx as [_ Hx].
            destruct (in_dec Nat.eq_dec (x + off) K) as [|N]; [assumption|]. apply Q1 in N. rewrite N in Hx. discriminate. }
        lia. }
      assert (All : length best = length ds) by lia.
      assert (Inc : incl (seq 0 (length ds)) best).
      { apply NoDup_length_incl; [exact ND | rewrite seq_length; lia |]. intros x Hx. apply in_seq. specialize (R x Hx). lia. }
      apply NI, Inc, in_seq. lia.
  - intros i j Hi [Lj Nj] NR. pose proof (In1 i Hi) as Hi'. apply filter_In in Hi'. destruct Hi' as [Hb _].
    destruct (in_dec Nat.eq_dec j best) as [Hj|Hj].
    + assert (Hj' : In j (filter q best)) by (apply filter_In; split; [exact Hj | apply Q1; exact Nj]).
      rewrite Fr in Hj'. apply in_app_or in Hj'. destruct Hj' as [Hj'|Hj']; [contradiction|]. apply (S2 i j Hi Hj').
    + apply (O i j Hb Lj Hj).
Qed.

Context {V R M : Type}.
Variable zero : V.
Variable norm : V -> R.
Variable divide : V -> R -> V.
Variable mean_of : list (Q * V) -> M.
Variable score : M -> V -> R -> Q.

Lemma gather_ok : forall (m : kv V R) items, cache_ok norm Current m ->
  (forall k i, dget (key_to_index m) k = Some i -> i < length (vectors m)) -> length (index_to_key m) = length (vectors m) ->
  (forall k w, In (QKey k, w) items -> get_index m k <> None) ->
  exists terms K, gather norm divide m items = Ok (terms, K) /\ Forall2 (contributes norm divide m) items terms /\
    NoDup K /\ forall i, In i K <-> is_query m items i.
Proof.
  intros m items C Rg Len. induction items as [|[it w] items IH]; intros Def.
  - exists [], []. split; [reflexivity|]. split; [constructor|]. split; [constructor|]. intros i. split; [intros []|].
    intros (k & w & [] & _).
  - destruct IH as (terms & K & E & F & ND & Q1). { intros k w' H. apply (Def k w'). right; exact H. }
    destruct it as [k | v]; cbn [gather].
    + rewrite (get_vector_fresh norm divide m k C).
      assert (D := Def k w (or_introl eq_refl)). destruct (get_index m k) as [i|] eqn:Ei; [|congruence].
      assert (Li : i < length (vectors m)).
      { unfold get_index in Ei. destruct (dget (key_to_index m) k) as [i'|] eqn:Ed; [injection Ei as <-; eauto|].
        destruct k as [s|z]; [discriminate|]. destruct (_ && _)%bool eqn:B; [|discriminate]. injection Ei as <-. unfold kv_len in B. lia. }
      destruct (nth_error (vectors m) i) as [v|] eqn:Ev; [|apply nth_error_None in Ev; lia].
      assert (Eg : fst (get_vector norm divide m k false) = Ok v) by (unfold get_vector; rewrite Ei, Ev; reflexivity).
      rewrite Eg, E. cbn [rmap rbind fst snd].
      exists ((w, divide v (norm v)) :: terms), (if memb i K then K else i :: K). split; [reflexivity|].
      split; [constructor; [exists i, v; auto | exact F]|].
      destruct (memb i K) eqn:Mi.
      * apply memb_true in Mi. split; [exact ND|]. intros j. rewrite Q1. split.
        -- intros (k' & w' & H & G). exists k', w'. split; [right; exact H | exact G].
        -- intros (k' & w' & [H|H] & G); [|exists k', w'; auto]. injection H as <- <-. rewrite Ei in G. injection G as <-. apply Q1. exact Mi.
      * apply memb_false in Mi. split; [constructor; auto|]. intros j. cbn [In]. rewrite Q1. split.
        -- intros [<-|(k' & w' & H & G)]; [exists k, w; split; [left; reflexivity | exact Ei] | exists k', w'; split; [right; exact H | exact G]].
        -- intros (k' & w' & [H|H] & G); [injection H as <- <-; left; congruence | right; exists k', w'; auto].
    + rewrite E. cbn [rbind fst snd]. exists ((w, v) :: terms), K. split; [reflexivity|].
      split; [constructor; [reflexivity | exact F]|]. split; [exact ND|]. intros j. rewrite Q1. split.
      * intros (k' & w' & H & G). exists k', w'. split; [right; exact H | exact G].
      * intros (k' & w' & [H|H] & G); [discriminate | exists k', w'; auto].
Qed.

Lemma nth_error_slice : forall {A} (l : list A) lo hi i, nth_error (slice l lo hi) i = if i <? hi - lo then nth_error l (i + lo) else None.
Proof.
  intros A l lo hi i. unfold slice. destruct (i <? hi - lo) eqn:E.
  - rewrite <- (firstn_skipn lo l) at 2. 
    destruct (Nat.le_gt_cases lo (length l)) as [L|L].
    + rewrite nth_error_app2 by (rewrite firstn_length_le by lia; lia). rewrite firstn_length_le by lia. replace (i + lo - lo) with i by lia.
      revert i E. generalize (hi - lo) (skipn lo l). intros n l'. revert n. induction l' as [|x l' IH]; intros [|n] [|i] E; cbn; auto; try lia; apply IH; lia.
    + rewrite skipn_all2 by lia. rewrite firstn_nil. rewrite app_nil_r, firstn_all2 by lia.
      symmetry. destruct i; cbn [nth_error]; apply nth_error_None; lia.
  - apply nth_error_None. rewrite firstn_length. lia.
Qed.

Lemma slice_map : forall {A B} (f : A -> B) l lo hi, slice (map f l) lo hi = map f (slice l lo hi).
Proof. intros. unfold slice. rewrite skipn_map, firstn_map. reflexivity. Qed.

Lemma dists_ok : forall mean (vs : list V), dists score mean vs (map norm vs) = Ok (map (fun v => score mean v (norm v)) vs).
Proof.
  intros. unfold dists. rewrite map_length, Nat.eqb_refl. f_equal. induction vs as [|v vs IH]; cbn; [reflexivity|]. rewrite IH. reflexivity.
Qed.

Lemma rmapM_map : forall {A B} (f : A -> result B) (g : A -> B) l, (forall x, In x l -> f x = Ok (g x)) -> rmapM f l = Ok (map g l).
Proof.
  induction l as [|x l IH]; intros H; cbn; [reflexivity|]. rewrite (H x) by (left; reflexivity). cbn [rbind].
  rewrite IH by (intros; apply H; right; assumption). reflexivity.
Qed.

Theorem most_similar_top_aux : forall (m : kv V R) positive negative t clip_start clip_end restrict_vocab,
  cache_ok norm Current m ->
  (forall k i, dget (key_to_index m) k = Some i -> i < length (vectors m)) -> length (index_to_key m) = length (vectors m) ->
  let items := weighted 1%Q positive ++ weighted (-1#1)%Q negative in
  items <> [] -> (forall k w, In (QKey k, w) items -> get_index m k <> None) -> (1 <= t)%Z ->
  exists terms idxs,
    Forall2 (contributes norm divide m) items terms /\
    let sc i := match nth_error (vectors m) i with Some v => score (mean_of terms) v (norm v) | None => 0%Q end in
    fst (most_similar norm divide mean_of score np_argsort np_argpartition m positive negative (Some t) clip_start clip_end restrict_vocab)
      = Ok (Best (map (fun i => (nth i (index_to_key m) None, sc i)) idxs)) /\
    top_of sc (fun i => i < length (vectors m) /\ in_window clip_start clip_end restrict_vocab i /\ ~ is_query m items i) (Z.to_nat t) idxs.
Proof.
  intros m positive negative t cs ce rv C Rg Len items NE Def T.
  set (m1 := fill_norms norm m false).
  destruct (fill_norms_same norm m false) as (S1 & S2 & S3 & S4). fold m1 in S1, S2, S3, S4.
  assert (N1 : the_norms m1 = map norm (vectors m)).
  { unfold m1, the_norms, fill_norms. destruct C as [C|C]; rewrite C; [reflexivity|]. rewrite C. reflexivity. }
  assert (C1 : cache_ok norm Current m1).
  { right. rewrite S4. unfold m1, fill_norms. destruct C as [C|C]; rewrite C; [reflexivity|]. exact C. }
  assert (G1 : forall k, get_index m1 k = get_index m k) by (intros; unfold get_index, kv_len; rewrite S1, S3; reflexivity).
  destruct (gather_ok m1 items C1) as (terms & K & Eg & F & ND & QK).
  { intros k i. rewrite S3, S4. apply Rg. } { rewrite S1, S4. exact Len. } { intros k w. rewrite G1. apply Def. }
  assert (F' : Forall2 (contributes norm divide m) items terms).
  { clear - F G1 S4. induction F as [|[[k|v] w] t its ts Hc F IH]; constructor; auto; cbn in *; auto.
    destruct Hc as (i & x & A & B & D). exists i, x. rewrite <- G1, <- S4. auto. }
  assert (QK' : forall i, In i K <-> is_query m items i).
  { intros i. rewrite QK. unfold is_query. split; intros (k & w & H & G); exists k, w; [rewrite <- G1 | rewrite G1]; auto. }
  set (win := match rv with Some (S r) => (0, S r) | _ => (cs, match ce with Some (S e) => S e | _ => length (vectors m) end) end).
  set (lo := fst win). set (hi := snd win).
  set (ds := map (fun v => score (mean_of terms) v (norm v)) (slice (vectors m) lo hi)).
  set (sc := fun i => match nth_error (vectors m) i with Some v => score (mean_of terms) v (norm v) | None => 0%Q end).
  assert (Dn : forall i, i < length ds -> nth_error ds i = Some (sc (i + lo)) /\ i + lo < length (vectors m) /\ i < hi - lo).
  { intros i Li. unfold ds in *. rewrite map_length in Li. rewrite nth_error_map. pose proof (nth_error_slice (vectors m) lo hi i) as X.
    destruct (nth_error (slice (vectors m) lo hi) i) as [v|] eqn:Ev; [|apply nth_error_None in Ev; lia].
    destruct (i <? hi - lo) eqn:B; [|discriminate]. cbn [option_map]. unfold sc. rewrite <- X. split; [reflexivity|].
    split; [apply nth_error_Some; congruence | lia]. }
  assert (Ld : length ds = Nat.min (hi - lo) (length (vectors m) - lo)).
  { unfold ds, slice. rewrite map_length, firstn_length, skipn_length. reflexivity. }
  assert (Win : forall i, i < length (vectors m) -> (in_window cs ce rv i <-> lo <= i < hi)).
  { intros i Li. unfold in_window, lo, hi, win. destruct rv as [[|r]|]; cbn [fst snd]; try (destruct ce as [[|e]|]); lia. }
  pose proof (best_without ds lo K t T) as B. cbv zeta in B.
  set (best := argsort np_argsort np_argpartition ds (Some (t + Z.of_nat (length K))%Z) true) in *.
  set (res := firstn (Z.to_nat t) (filter (fun i => negb (memb (i + lo) K)) best)) in *.
  exists terms, (map (fun i => i + lo) res). split; [exact F'|]. cbv zeta. fold sc. split.
  - unfold most_similar. replace (t <? 1)%Z with false by lia. fold m1.
    assert (Ew : (let clip_end := match ce with Some (S e) => S e | _ => length (vectors m1) end in
       match rv with Some (S r) => (0, S r) | _ => (cs, clip_end) end) = (lo, hi)).
    { rewrite S4. unfold lo, hi, win. destruct rv as [[|r]|]; reflexivity. }
    cbv zeta in Ew. cbv zeta. rewrite Ew. cbn [fst].
    change (map (with_default 1%Q) positive ++ map (with_default (-1#1)%Q) negative) with items. rewrite Eg. cbn [rbind].
    destruct terms as [|t0 ts]; [inversion F'; congruence|].
    rewrite S4, N1, slice_map, dists_ok. cbn [rbind]. fold ds. fold best.
    rewrite (rmapM_map _ (fun i => (nth (i + lo) (index_to_key m) None, sc (i + lo)))).
    + cbn [rbind]. rewrite firstn_map. fold res. rewrite map_map. reflexivity.
    + intros i Hi. apply filter_In in Hi. destruct Hi as [Hb _].
      assert (Li : i < length ds).
      { destruct (argsort_is_topn np_argsort np_argpartition Ha Hp ds (Some (t + Z.of_nat (length K))%Z) true) as (_ & _ & R1 & _). apply R1. exact Hb. }
      destruct (Dn i Li) as (D1 & D2 & _). rewrite D1, S1.
      rewrite (nth_error_nth' (index_to_key m) None) by lia. reflexivity.
  - destruct B as (B1 & B2 & B3 & B4 & B5 & B6).
    assert (Sc : forall i, i < length ds -> nth i ds 0%Q = sc (i + lo)).
    { intros i Li. destruct (Dn i Li) as (D1 & _). apply nth_error_nth. exact D1. }
    assert (Elig : forall j, j < length (vectors m) /\ in_window cs ce rv j /\ ~ is_query m items j -> exists i, j = i + lo /\ i < length ds /\ ~ In (i + lo) K).
    { intros j (L & W & NQ). apply Win in W; [|exact L]. exists (j - lo). split; [lia|]. split; [lia|]. replace (j - lo + lo) with j by lia.
      intros H. apply QK' in H. contradiction. }
    split. { apply FinFun.Injective_map_NoDup; [intros x y; lia | exact B1]. }
    split. { intros j Hj. apply in_map_iff in Hj. destruct Hj as (i & <- & Hi). destruct (B2 i Hi) as [Li Ni]. destruct (Dn i Li) as (_ & D2 & D3).
      split; [exact D2|]. split; [apply Win; lia|]. intros H. apply QK' in H. contradiction. }
    split. { apply StronglySorted_map'. clear - B3 B2 Sc. induction B3 as [|x l S IH Fa]; constructor.
      - apply IH. intros i Hi. apply B2. right; exact Hi.
      - rewrite Forall_forall in *. intros y Hy. rewrite <- !Sc; [apply Fa; exact Hy | apply B2; left; reflexivity | apply B2; right; exact Hy]. }
    split; [rewrite map_length; exact B4|]. split.
    + destruct B5 as [B5|B5]; [left; rewrite map_length; exact B5|]. right. intros j Hj. destruct (Elig j Hj) as (i & -> & Li & Ni).
      apply in_map_iff. exists i. auto.
    + intros j j' Hj Hj' NJ. apply in_map_iff in Hj. destruct Hj as (i & <- & Hi). destruct (Elig j' Hj') as (i' & -> & Li & Ni).
      rewrite <- !Sc; [|apply B2; exact Hi|exact Li]. apply B6; auto. intros X. apply NJ. apply in_map_iff. exists i'. auto.
Qed.
End Best.

(** For every history whose norms are current, every query whose keys are present and every behaviour of numpy's sorting,
    the rows returned are the [topn] most similar ones in the window that are not rows of the query. *)
Theorem most_similar_top : forall {V R M} (zero : V) (norm : V -> R) divide (mean_of : list (Q * V) -> M) score np_argsort np_argpartition,
  argsort_contract np_argsort -> argpartition_contract np_argpartition ->
  forall count ops, Forall well_shaped ops -> cache_of ops <> Stale ->
  let m := run zero norm divide count ops in
  forall positive negative t clip_start clip_end restrict_vocab,
  let items := weighted 1%Q positive ++ weighted (-1#1)%Q negative in
  items <> [] -> (forall k w, In (QKey k, w) items -> get_index m k <> None) -> (1 <= t)%Z ->
  exists terms idxs,
    Forall2 (contributes norm divide m) items terms /\
    let sc i := match nth_error (vectors m) i with Some v => score (mean_of terms) v (norm v) | None => 0%Q end in
    fst (most_similar norm divide mean_of score np_argsort np_argpartition m positive negative (Some t) clip_start clip_end restrict_vocab)
      = Ok (Best (map (fun i => (nth i (index_to_key m) None, sc i)) idxs)) /\
    top_of sc (fun i => i < length (vectors m) /\ in_window clip_start clip_end restrict_vocab i /\ ~ is_query m items i) (Z.to_nat t) idxs.
Proof.
  intros V R M zero norm divide mean_of score np_argsort np_argpartition Ha Hp count ops W NS m positive negative t cs ce rv items NE Def T.
  destruct (run_ok zero norm divide count ops W) as (I & C & _). fold m in I, C.
  apply most_similar_top_aux; auto.
  - destruct (cache_of ops); cbn in *; auto; contradiction.
  - intros k i E. apply (Inv_range _ _ _ _ _ I E).
  - symmetry. apply (I_len _ _ _ I).
Qed.
Print Assumptions most_similar_top.

(** After a tidy history no key of the query is returned. *)
Theorem most_similar_excludes : forall {V R M} (zero : V) (norm : V -> R) divide (mean_of : list (Q * V) -> M) score np_argsort np_argpartition,
  argsort_contract np_argsort -> argpartition_contract np_argpartition ->
  forall count ops, Forall well_shaped ops -> cache_of ops <> Stale -> tidy count ops ->
  let m := run zero norm divide count ops in
  forall positive negative t clip_start clip_end restrict_vocab l,
  fst (most_similar norm divide mean_of score np_argsort np_argpartition m positive negative (Some t) clip_start clip_end restrict_vocab) = Ok (Best l) ->
  forall k w d, In (QKey (KStr k), w) (weighted 1%Q positive ++ weighted (-1#1)%Q negative) -> snd (content count ops) k <> None ->
  (forall k' w', In (QKey k', w') (weighted 1%Q positive ++ weighted (-1#1)%Q negative) -> get_index m k' <> None) ->
  ~ In (Some (KStr k), d) l.
Proof.
  intros V R M zero norm divide mean_of score np_argsort np_argpartition Ha Hp count ops W NS Ti m positive negative t cs ce rv l E k w d Hk Ck Def HI.
  destruct (run_ok zero norm divide count ops W) as (I & C & A). fold m in I, C, A.
  destruct (Z.lt_ge_cases t 1) as [T|T].
  - unfold most_similar in E. replace (t <? 1)%Z with true in E by lia. cbn in E. injection E as <-. destruct HI.
  - destruct (most_similar_top zero norm divide mean_of score np_argsort np_argpartition Ha Hp count ops W NS positive negative t cs ce rv)
      as (terms & idxs & _ & X & Top); auto.
    { intros X. rewrite X in Hk. destruct Hk. }
    cbv zeta in X. fold m in X. rewrite E in X. injection X as ->. apply in_map_iff in HI. destruct HI as (i & Ei & Hi). injection Ei as En _.
    destruct Top as (_ & El & _). destruct (El i Hi) as (Li & _ & NQ). apply NQ. exists (KStr k), w. split; [exact Hk|].
    rewrite get_index_str. apply (A Ti). fold m in Li. rewrite (I_len _ _ _ I) in Li. rewrite <- En. apply nth_error_nth'. exact Li.
Qed.
Print Assumptions most_similar_excludes.

(** [topn < 1] returns nothing; an empty query is an error. *)
Theorem most_similar_edges : forall {V R M} (norm : V -> R) divide (mean_of : list (Q * V) -> M) score np_argsort np_argpartition m positive negative cs ce rv,
  (forall t, (t < 1)%Z -> most_similar norm divide mean_of score np_argsort np_argpartition m positive negative (Some t) cs ce rv = (Ok (Best []), m)) /\
  (forall t, (1 <= t)%Z -> fst (most_similar norm divide mean_of score np_argsort np_argpartition m [] [] (Some t) cs ce rv) = Err ValueError).
Proof.
  intros. split; intros t T; unfold most_similar.
  - replace (t <? 1)%Z with true by lia. reflexivity.
  - replace (t <? 1)%Z with false by lia. cbn [map app]. destruct rv as [[|?]|]; reflexivity.
Qed.
Print Assumptions most_similar_edges.

(** Examples: the mean is the weighted sum and the similarity the dot product divided by the norm. *)
Definition ex_mean (l : list (Q * vec)) : vec :=
  fold_left (fun s t => map (fun p => Qred (fst p + fst t * snd p)%Q) (combine s (snd t)) ++ []) (map (fun t => (fst t, snd t)) l) [0;0]%Q.
Definition ex_score (q v : vec) (n : Q) : Q := Qred (fold_left (fun s p => s + fst p * snd p)%Q (combine q v) 0%Q / n).
Definition ex_similar (m : kv vec Q) := most_similar ex_norm ex_div ex_mean ex_score ref_argsort ref_argpartition m.

Example most_similar_ex :
  let m := ex_run 0 [AddMany [a; b; c; str "d"] [[3;4]; [6;8]; [8;6]; [0;1]]%Q false; Normed a; FillNorms false] in
  fst (ex_similar m [(QKey (KStr a), None)] [] (Some 2%Z) 0 None None) = Ok (Best [(Some (KStr b), 1); (Some (KStr c), 24#25)]%Q) /\
  fst (ex_similar m [(QKey (KStr a), None); (QVec [0;1]%Q, Some 2%Q)] [(QKey (KStr b), None)] (Some 9%Z) 0 None None) =
    Ok (Best [(Some (KStr (str "d")), 2); (Some (KStr c), 6#5)]%Q) /\
  fst (ex_similar m [(QKey (KStr a), None)] [] (Some 5%Z) 2 (Some 3) None) = Ok (Best [(Some (KStr c), 24#25)]%Q) /\
  fst (ex_similar m [(QKey (KStr a), None)] [] (Some 5%Z) 2 (Some 3) (Some 2)) = Ok (Best [(Some (KStr b), 1)]%Q).
Proof. vm_compute. repeat split. Qed.

(** After an untidy batch the query key itself is returned, with similarity 1. *)
Theorem most_similar_excludes_refuted : exists (ops : list (op vec)),
  Forall well_shaped ops /\ cache_of ops <> Stale /\
  fst (ex_similar (ex_run 0 ops) [(QKey (KStr a), None)] [] (Some 1%Z) 0 None None) = Ok (Best [(Some (KStr a), 1%Q)]).
Proof.
  exists [AddMany [a; a; b] [[3;4]; [6;8]; [1;0]]%Q false]. split; [repeat constructor|]. split; [discriminate|]. vm_compute. reflexivity.
Qed.

(** Stale norms: with one norm computed before the other vectors came, every similarity is divided by that norm and the
    order is wrong; with two, the query fails. *)
Theorem most_similar_stale_refuted : exists (ops ops' : list (op vec)),
  Forall well_shaped ops /\ Forall well_shaped ops' /\
  fst (ex_similar (ex_run 0 ops) [(QVec [3#5;4#5]%Q, None)] [] (Some 9%Z) 0 None None) =
    Ok (Best [(Some (KStr c), 4); (Some (KStr b), 2); (Some (KStr a), 1)]%Q) /\
  fst (ex_similar (snd (get_vector ex_norm ex_div (set_norms (ex_run 0 ops) None) (KStr a) true)) [(QVec [3#5;4#5]%Q, None)] [] (Some 9%Z) 0 None None) =
    Ok (Best [(Some (KStr a), 1); (Some (KStr b), 1); (Some (KStr c), 4#5)]%Q) /\
  fst (ex_similar (ex_run 0 ops') [(QVec [3#5;4#5]%Q, None)] [] (Some 9%Z) 0 None None) = Err ValueError.
Proof.
  exists [AddOne a [3;4]%Q; Normed a; AddMany [b; c] [[6;8]; [24;7]]%Q false],
         [AddMany [b; c] [[6;8]; [24;7]]%Q false; Normed b; AddOne a [3;4]%Q].
  split; [repeat constructor|]. split; [repeat constructor|]. vm_compute. repeat split.
Qed.
