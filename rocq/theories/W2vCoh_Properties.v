(** C129 Coherence of topics by word vectors. *)
From Coq Require Import Reals Lra Psatz.
From Verif Require Import Base Str MatReal_Model MatReal_Proofs LdaTrain_Model Lsi_Spec KvSim_Model KvSim_Spec KvSim_Proofs KvSim_Properties W2vCoh_Model.
Local Open Scope R_scope.

(** ** Specification *)
Section S.
Variable d : nat.
Variable m : kvs.
Variable tok : dict nat pystr.
(** the vectors of those words that have one *)
Inductive known_rows : list nat -> list (nat -> R) -> Prop :=
  | kr_nil : known_rows [] []
  | kr_known : forall i w v ids vs, dget tok i = Some w -> row_of m w v -> known_rows ids vs -> known_rows (i :: ids) (v :: vs)
  | kr_unknown : forall i w ids vs, dget tok i = Some w -> ~ In w (ks_keys m) -> known_rows ids vs -> known_rows (i :: ids) vs.
(** the cosine of the sums of both sides, for those pairs that have a vector on both sides *)
Inductive scores : list (list nat * list nat) -> list R -> Prop :=
  | sc_nil : scores [] []
  | sc_some : forall a b va vb segs l, known_rows a va -> known_rows b vb -> va <> [] -> vb <> [] -> scores segs l -> scores ((a, b) :: segs) (cosine d (plain_sum va) (plain_sum vb) :: l)
  | sc_none : forall a b va vb segs l, known_rows a va -> known_rows b vb -> va = [] \/ vb = [] -> scores segs l -> scores ((a, b) :: segs) l.
Definition ids_known (segs : list (list nat * list nat)) : Prop := forall a b i, In (a, b) segs -> In i a \/ In i b -> dget tok i <> None.

Hypothesis one : one_row_each m.
Lemma in_model_key : forall w, in_model m w = true <-> In w (ks_keys m).
Proof.
  intros w. unfold in_model. destruct one as (_ & _ & K). destruct (dget (ks_index m) w) as [i|] eqn:E.
  - split; [intros _; apply K, nth_error_In in E; exact E | reflexivity].
  - split; [discriminate|]. intros H. apply In_nth_error in H. destruct H as (i & H). apply K in H. congruence.
Qed.
Lemma words_known : forall ids vs, known_rows ids vs -> exists ws, words_with_embeddings m tok ids = Ok ws /\ Forall2 (row_of m) ws vs.
Proof.
  intros ids vs K. unfold words_with_embeddings. enough (exists ws, rmapM (fun i => of_option KeyError (dget tok i)) ids = Ok ws /\ Forall2 (row_of m) (filter (in_model m) ws) vs) as (ws & -> & F) by (eexists; split; [reflexivity | exact F]).
  induction K as [|i w v ids vs E Rv K IH|i w ids vs E N K IH].
  - exists []. split; [reflexivity | constructor].
  - destruct IH as (ws & E1 & F). exists (w :: ws). cbn [rmapM]. rewrite E. cbn. rewrite E1. split; [reflexivity|]. rewrite (proj2 (in_model_key w)) by (eapply row_in; exact Rv). constructor; assumption.
  - destruct IH as (ws & E1 & F). exists (w :: ws). cbn [rmapM]. rewrite E. cbn. rewrite E1. split; [reflexivity|]. destruct (in_model m w) eqn:M; [apply in_model_key in M; contradiction | exact F].
Qed.
Lemma known_rows_total : forall ids, (forall i, In i ids -> dget tok i <> None) -> exists vs, known_rows ids vs.
Proof.
  induction ids as [|i ids IH]; intros H; [exists []; constructor|]. destruct IH as (vs & K); [intros j Hj; apply H; right; exact Hj|].
  destruct (dget tok i) as [w|] eqn:E; [|exfalso; apply (H i (or_introl eq_refl)); exact E]. destruct (in_dec eq_dec w (ks_keys m)) as [I|N].
  - destruct (row_known m w one I) as (v & Rv). exists (v :: vs). econstructor; eassumption.
  - exists vs. eapply kr_unknown; eassumption.
Qed.

Lemma excluded_zero : forall v, zero_vec d v \/ ~ zero_vec d v.
Proof. intros v. destruct (Req_EM_T (sqrt (dotv d v v)) 0) as [H|H]; [left; apply zero_nrm; exact H | right; intros Z; apply H; apply zero_nrm; exact Z]. Qed.
Theorem w2v_sims_exact : forall segs, ids_known segs -> exists l, scores segs l /\ segment_sims d m tok segs = Ok l /\ Forall (fun s => -1 <= s <= 1) l /\ (length l <= length segs)%nat.
Proof.
  induction segs as [|[a b] segs IH]; intros H; [exists []; repeat split; constructor|].
  destruct IH as (l & Sc & E & B & Ln); [intros a' b' i Hin; apply (H a' b' i); right; exact Hin|].
  destruct (known_rows_total a) as (va & Ka); [intros i Hi; apply (H a b); [left; reflexivity | left; exact Hi]|].
  destruct (known_rows_total b) as (vb & Kb); [intros i Hi; apply (H a b); [left; reflexivity | right; exact Hi]|].
  destruct (words_known _ _ Ka) as (wa & Ea & Fa). destruct (words_known _ _ Kb) as (wb & Eb & Fb).
  cbn [segment_sims]. unfold ids_similarity. rewrite Ea. cbn [rbind]. rewrite Eb. cbn [rbind].
  destruct va as [|v va'] eqn:Va.
  - inversion Fa; subst. exists l. split; [eapply sc_none; eauto|]. rewrite (proj1 (n_similarity_empty d m wb)). cbn [length]. split; [exact E|]. split; [exact B | lia].
  - destruct vb as [|u vb'] eqn:Vb.
    + inversion Fb; subst. exists l. split; [eapply sc_none; eauto|]. rewrite (proj2 (n_similarity_empty d m wa)). cbn [length]. split; [exact E|]. split; [exact B | lia].
    + destruct (n_similarity_exact d m wa wb (v :: va') (u :: vb') one) as (s & Es & _ & Bs & Hs & Hz & _); try assumption; [intros ->; inversion Fa | intros ->; inversion Fb |].
      assert (C : s = cosine d (plain_sum (v :: va')) (plain_sum (u :: vb'))).
      { destruct (excluded_zero (plain_sum (v :: va'))) as [Z|Z]; [|destruct (excluded_zero (plain_sum (u :: vb'))) as [Z'|Z']].
        - rewrite (Hz (or_introl Z)). symmetry. apply cosine_zero. exact Z.
        - rewrite (Hz (or_intror Z')). symmetry. rewrite cosine_sym. apply cosine_zero. exact Z'.
        - apply (Hs Z Z'). }
      exists (s :: l). split; [rewrite C; eapply sc_some; eauto; discriminate|]. rewrite Es, E. cbn [rbind length]. split; [reflexivity|]. split; [constructor; assumption | lia].
Qed.
Lemma known_rows_unique : forall ids vs, known_rows ids vs -> forall vs', known_rows ids vs' -> vs = vs'.
Proof.
  intros ids vs K. induction K as [|i w v ids vs E Rv K IH|i w ids vs E N K IH]; intros vs' K'; inversion K'; subst; try reflexivity; match goal with X : dget tok ?i = Some ?w, Y : dget tok ?i = Some ?w' |- _ => assert (w = w') by congruence; subst end.
  - f_equal; [eapply row_unique; eassumption | apply IH; assumption].
  - exfalso. match goal with X : ~ In _ _ |- _ => apply X end. eapply row_in. exact Rv.
  - exfalso. apply N. eapply row_in. eassumption.
  - apply IH. assumption.
Qed.
Lemma scores_unique : forall segs l, scores segs l -> forall l', scores segs l' -> l = l'.
Proof.
  intros segs l Sc. induction Sc as [|a b va vb segs l Ka Kb Na Nb Sc IH|a b va vb segs l Ka Kb Nn Sc IH]; intros l' Sc'; inversion Sc' as [|? ? va' vb' ? ? Ka' Kb'|? ? va' vb' ? ? Ka' Kb']; subst; try reflexivity;
  pose proof (known_rows_unique _ _ Ka _ Ka'); pose proof (known_rows_unique _ _ Kb _ Kb'); subst.
  - f_equal. apply IH. assumption.
  - tauto.
  - tauto.
  - apply IH. assumption.
Qed.

(** Every topic gets the mean, the standard deviation and the number of the cosines of its pairs; nothing else is an error. *)
Theorem word2vec_similarity_exact : forall topics, Forall ids_known topics -> exists r, word2vec_similarity d m tok topics = Ok r /\
  Forall2 (fun segs st => forall l, scores segs l ->
    match l with
    | [] => st = (None, None, 0%nat)
    | _ => exists a v, st = (Some a, Some v, length l) /\ a = Rsum l / INR (length l) /\ -1 <= a <= 1 /\ 0 <= v /\ v * v = Rsum (map (fun x => (x - a) * (x - a)) l) / INR (length l)
    end) topics r.
Proof.
  intros topics H. induction H as [|segs topics H _ IH]; [exists []; split; [reflexivity | constructor]|].
  destruct IH as (r & E & F). destruct (w2v_sims_exact segs H) as (l & Sc & El & B & _). exists (aggregate l :: r). unfold word2vec_similarity in *. cbn [rmapM]. rewrite El. cbn [rbind]. rewrite E. split; [reflexivity|].
  constructor; [|exact F]. intros l' Sc'. rewrite (scores_unique _ _ Sc' _ Sc). clear Sc Sc' l'. destruct l as [|x l']; [reflexivity|]. set (l := x :: l') in *.
  assert (L : 0 < INR (length l)) by (apply lt_0_INR; cbn; lia).
  set (a := Rsum l / INR (length l)). exists a, (sqrt (Rsum (map (fun x => (x - a) * (x - a)) l) / INR (length l))).
  assert (P : 0 <= Rsum (map (fun x => (x - a) * (x - a)) l) / INR (length l)).
  { apply Rmult_le_pos; [|left; apply Rinv_0_lt_compat; exact L]. apply Rsum_nonneg. intros y Hy. apply in_map_iff in Hy. destruct Hy as (z & <- & _). apply Rle_0_sqr. }
  assert (Bd : - INR (length l) <= Rsum l <= INR (length l)).
  { clear - B. induction B as [|y l By _ IH]; [cbn; lra|]. rewrite Rsum_cons. cbn [length]. rewrite S_INR. lra. }
  split; [unfold aggregate, std, avg, l; cbn [map length]; rewrite map_length; reflexivity|]. split; [reflexivity|]. split; [|split; [apply sqrt_pos | apply sqrt_sqrt; exact P]].
  unfold a. split.
  - apply Rmult_le_reg_r with (INR (length l)); [exact L|]. unfold Rdiv. rewrite Rmult_assoc, Rinv_l by lra. lra.
  - apply Rmult_le_reg_r with (INR (length l)); [exact L|]. unfold Rdiv. rewrite Rmult_assoc, Rinv_l by lra. lra.
Qed.
(** an id that the table does not have is an error *)
Theorem word2vec_similarity_fails : forall pre a b segs topics, ids_known pre -> (exists i, In i a /\ dget tok i = None) -> word2vec_similarity d m tok ((pre ++ (a, b) :: segs) :: topics) = Err KeyError.
Proof.
  intros pre a b segs topics K (i & Hi & N). unfold word2vec_similarity. cbn [rmapM].
  assert (X : words_with_embeddings m tok a = Err KeyError).
  { unfold words_with_embeddings. clear - Hi N. enough (rmapM (fun i => of_option KeyError (dget tok i)) a = Err KeyError) as -> by reflexivity.
    induction a as [|j a IH]; [destruct Hi|]. cbn [rmapM]. destruct (dget tok j) eqn:E; [|reflexivity]. cbn. destruct Hi as [->|Hi]; [congruence|]. rewrite (IH Hi). reflexivity. }
  assert (Y : segment_sims d m tok (pre ++ (a, b) :: segs) = Err KeyError).
  { clear - X K one. induction pre as [|[a' b'] pre IH]; cbn [app segment_sims].
    - unfold ids_similarity. rewrite X. reflexivity.
    - destruct (w2v_sims_exact [(a', b')]) as (l & _ & El & _); [intros x y j [Hj|[]]; apply K; left; exact Hj|]. cbn [segment_sims] in El.
      assert (IH' : segment_sims d m tok (pre ++ (a, b) :: segs) = Err KeyError) by (apply IH; intros x y j Hj; apply K; right; exact Hj).
      destruct (ids_similarity d m tok a' b') as [s|e]; [rewrite IH'; reflexivity|]. destruct e; try discriminate; exact IH'. }
  rewrite Y. reflexivity.
Qed.
End S.
Print Assumptions w2v_sims_exact.
Print Assumptions word2vec_similarity_exact.
Print Assumptions word2vec_similarity_fails.

(** ** The table of words *)
(** With an empty table the words are those of the dictionary ... *)
Theorem id_table_fresh : forall t, NoDup (map snd t) -> NoDup (dkeys t) -> forall i w, dget (id_table (mkDict t [])) i = Some w <-> dget t w = Some i.
Proof.
  intros t N N' i w. unfold id_table. cbn [d_id2token d_token2id]. set (t' := map (fun kv : pystr * nat => (snd kv, fst kv)) t).
  assert (D : NoDup (dkeys t')) by (unfold dkeys, t'; rewrite map_map; exact N).
  assert (E : dget (dict_of t') i = Some w <-> In (i, w) t').
  { rewrite dict_of_NoDup by exact D. split; [apply dget_In | apply In_dget; exact D]. }
  rewrite E. unfold t'. rewrite in_map_iff. split.
  - intros ([w' i'] & X & H). injection X as -> ->. apply In_dget; assumption.
  - intros H. exists (w, i). split; [reflexivity | apply dget_In; exact H].
Qed.
Print Assumptions id_table_fresh.
(** ... but a table filled before the dictionary grew is used as it is: a word of the dictionary is an error. *)
Definition grown : dictionary := mkDict [(str "cat", 0%nat); (str "dog", 1%nat)] [(0%nat, str "cat")].
Definition pets : kvs := mkKvs [str "cat"; str "dog"] [(str "cat", 0%nat); (str "dog", 1%nat)] [(fun _ => 1); (fun _ => 1)].
Theorem grown_dictionary_refuted : exists witness, witness = grown /\ (dget (d_token2id witness) (str "dog") = Some 1%nat /\ in_model pets (str "dog") = true /\
  word2vec_similarity 1 pets (id_table witness) [[([0%nat], [1%nat])]] = Err KeyError).
Proof. exists grown. split; [reflexivity|]. repeat split; vm_compute; reflexivity. Qed.
Print Assumptions grown_dictionary_refuted.

(** ** The arguments of the trained model *)
Theorem train_args_kept : forall kwargs w k, k <> str "hs" -> (k = str "window" -> w = None) -> k <> str "min_count" -> k <> str "sg" -> dget (train_args kwargs w) k = dget kwargs k.
Proof.
  intros kwargs w k H1 H2 H3 H4. unfold train_args, default. rewrite !dget_dset_other by congruence. destruct w; [rewrite dget_dset_other; [reflexivity|]; intros <-; specialize (H2 eq_refl); discriminate | reflexivity].
Qed.
Theorem train_args_set : forall kwargs w, (forall x, w = Some x -> dget (train_args kwargs w) (str "window") = Some x) /\
  dget (train_args kwargs w) (str "min_count") = Some (dget_or kwargs (str "min_count") 1%Z) /\ dget (train_args kwargs w) (str "sg") = Some (dget_or kwargs (str "sg") 1%Z).
Proof.
  intros kwargs w. unfold train_args, default. split; [|split].
  - intros x ->. rewrite !dget_dset_other by (vm_compute; discriminate). apply dget_dset_same.
  - rewrite !(dget_dset_other _ _ (str "min_count")) by (vm_compute; discriminate). rewrite dget_dset_same. f_equal. unfold dget_or. destruct w; [rewrite dget_dset_other by (vm_compute; discriminate)|]; reflexivity.
  - rewrite (dget_dset_other _ _ (str "sg")) by (vm_compute; discriminate). rewrite dget_dset_same. f_equal. unfold dget_or. rewrite dget_dset_other by (vm_compute; discriminate). destruct w; [rewrite dget_dset_other by (vm_compute; discriminate)|]; reflexivity.
Qed.
Print Assumptions train_args_kept.
Print Assumptions train_args_set.
(** Hierarchical softmax cannot be asked for: `hs` is always replaced by 0 (the code reads the argument `hw`, which Word2Vec does not have). *)
Theorem hs_lost_refuted : exists kwargs, dget kwargs (str "hs") = Some 1%Z /\ forall w, dget (train_args kwargs w) (str "hs") = Some 0%Z.
Proof. exists [(str "hs", 1%Z); (str "negative", 0%Z)]. split; [reflexivity|]. intros [w|]; vm_compute; reflexivity. Qed.
Theorem hs_always_zero : forall kwargs w, dget kwargs (str "hw") = None -> dget (train_args kwargs w) (str "hs") = Some 0%Z.
Proof.
  intros kwargs w H. unfold train_args, default. rewrite dget_dset_same. f_equal. unfold dget_or. rewrite !dget_dset_other by (vm_compute; discriminate).
  destruct w; [rewrite dget_dset_other by (vm_compute; discriminate)|]; rewrite H; reflexivity.
Qed.
Print Assumptions hs_lost_refuted.
Print Assumptions hs_always_zero.

(** ** Examples *)
Definition ptok : dict nat pystr := [(0%nat, str "east"); (1%nat, str "between"); (2%nat, str "up"); (3%nat, str "north")].
(** east against {between, up (unknown)}: 3/5; east against north: 0; up against north: left out *)
Example w2v_ex : exists v, word2vec_similarity 2 three ptok [[([0%nat], [1%nat; 2%nat]); ([0%nat], [3%nat]); ([2%nat], [3%nat])]; [([2%nat], [0%nat])]] = Ok [(Some (3 / 10), Some v, 2%nat); (None, None, 0%nat)].
Proof.
  set (seg1 := [([0%nat], [1%nat; 2%nat]); ([0%nat], [3%nat]); ([2%nat], [3%nat])]). set (seg2 := [([2%nat], [0%nat])]).
  assert (U : ~ In (str "up") (ks_keys three)) by (cbn; intuition discriminate).
  destruct (word2vec_similarity_exact 2 three ptok three_ok [seg1; seg2]) as (r & E & F).
  { repeat constructor; intros a b i H Hi; unfold seg1, seg2 in H; cbn [In] in H; repeat destruct H as [H|H]; try contradiction; injection H as <- <-; cbn [In] in Hi; repeat destruct Hi as [Hi|Hi]; subst; try contradiction; vm_compute; discriminate. }
  inversion F as [|? s1 ? r1 H1 F1]; subst. inversion F1 as [|? s2 ? r2 H2 F2]; subst. inversion F2; subst. rewrite E. clear F F1 F2 E.
  assert (K0 : known_rows three ptok [0%nat] [v2 1 0]) by (eapply kr_known; [reflexivity | exact row_east | constructor]).
  assert (K3 : known_rows three ptok [3%nat] [v2 0 2]) by (eapply kr_known; [reflexivity | exact row_north | constructor]).
  assert (K2 : known_rows three ptok [2%nat] []) by (eapply kr_unknown; [reflexivity | exact U | constructor]).
  assert (K12 : known_rows three ptok [1%nat; 2%nat] [v2 3 4]) by (eapply kr_known; [reflexivity | exact row_between | exact K2]).
  specialize (H2 [] (sc_none _ _ _ _ _ _ _ _ _ K2 K0 (or_introl eq_refl) (sc_nil _ _ _))). cbv beta iota in H2. subst s2.
  assert (S1 : scores 2 three ptok seg1 [cosine 2 (plain_sum [v2 1 0]) (plain_sum [v2 3 4]); cosine 2 (plain_sum [v2 1 0]) (plain_sum [v2 0 2])]).
  { unfold seg1. eapply sc_some; [exact K0 | exact K12 | discriminate | discriminate|]. eapply sc_some; [exact K0 | exact K3 | discriminate | discriminate|]. eapply sc_none; [exact K2 | exact K3 | left; reflexivity | constructor]. }
  destruct (H1 _ S1) as (a & v & -> & A & _). exists v. cbn [length] in *. replace a with (3 / 10); [reflexivity|]. rewrite A.
  assert (P : forall x i, plain_sum [x] i = x i) by (intros x i; unfold plain_sum; cbn; lra).
  rewrite (cosine_ext 2 (v2 1 0) (plain_sum [v2 1 0]) _) by (intros i _; apply P). rewrite (cosine_ext 2 (v2 1 0) (plain_sum [v2 1 0]) (plain_sum [v2 0 2])) by (intros i _; apply P).
  rewrite !(cosine_sym 2 (v2 1 0)). rewrite (cosine_ext 2 (v2 3 4) (plain_sum [v2 3 4]) _) by (intros i _; apply P). rewrite (cosine_ext 2 (v2 0 2) (plain_sum [v2 0 2]) _) by (intros i _; apply P).
  rewrite !(cosine_sym 2 _ (v2 1 0)). rewrite cos_eb, cos_en. cbn. field.
Qed.
Example train_args_ex : train_args [(str "vector_size", 50%Z); (str "sg", 0%Z)] (Some 7%Z) = [(str "vector_size", 50%Z); (str "sg", 0%Z); (str "window", 7%Z); (str "min_count", 1%Z); (str "hs", 0%Z)].
Proof. vm_compute. reflexivity. Qed.
Example id_table_ex : id_table (mkDict [(str "cat", 3%nat); (str "dog", 1%nat)] []) = [(3%nat, str "cat"); (1%nat, str "dog")].
Proof. vm_compute. reflexivity. Qed.
