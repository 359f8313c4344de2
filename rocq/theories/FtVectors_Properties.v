(** fastText word vectors: property C69. *)

From Coq Require Import Reals Lra.
From Verif Require Import Base Str MatReal_Model KeyedVectors_Model KeyedVectors_Proofs LineCorpora_Proofs W2vFormat_Model
  FtNgrams_Model FtNgrams_Spec FtNgrams_Properties FtVectors_Model FtVectors_Spec FtVectors_Proofs.
From Verif Require KvReal_Properties.
From Coq Require Import ZifyBool ZifyNat ZifyN.
Local Open Scope nat_scope.

(** ** Steps *)
Lemma fill_norms_coherent : forall m force, coherent m -> coherent (fill_norms m force).
Proof.
  intros m force C. unfold fill_norms.
  assert (G : coherent (with_norms m (Some (map vnorm (vectors m))))).
  { destruct C. constructor; auto. cbn. intros l E. injection E as <-. reflexivity. }
  destruct (norms m); [destruct force; assumption | exact G].
Qed.
Lemma get_vector_state : forall m w norm, snd (get_vector m w norm) = m \/ snd (get_vector m w norm) = fill_norms m false.
Proof.
  intros m w norm. unfold get_vector. destruct (dget (key_to_index m) w) as [i|]; [destruct norm|]; cbv zeta; cbn [snd]; auto.
  - destruct (nth_error _ i); [destruct (nth_error _ i)|]; cbn [snd]; auto.
  - destruct (bucket m =? 0)%N; cbn [snd]; auto.
Qed.

Lemma add_words_spec : forall ws m,
  (forall w i, dget (key_to_index m) w = Some i <-> nth_error (index_to_key m) i = Some w) ->
  NoDup (map fst ws) -> (forall w, In w (map fst ws) -> ~ In w (index_to_key m)) ->
  index_to_key (add_words m ws) = index_to_key m ++ map fst ws
  /\ (forall w i, dget (key_to_index (add_words m ws)) w = Some i <-> nth_error (index_to_key (add_words m ws)) i = Some w)
  /\ bucket (add_words m ws) = bucket m /\ min_n (add_words m ws) = min_n m /\ max_n (add_words m ws) = max_n m
  /\ vector_size (add_words m ws) = vector_size m /\ vectors_vocab (add_words m ws) = vectors_vocab m
  /\ vectors_ngrams (add_words m ws) = vectors_ngrams m.
Proof.
  induction ws as [|[w c] ws IH]; intros m K ND Fresh.
  - cbn. rewrite app_nil_r. auto 10.
  - cbn [map fst] in *. inversion ND as [|? ? Nw ND']; subst.
    cbn [add_words fold_left]. fold (add_words (with_words m (index_to_key m ++ [w]) (dset (key_to_index m) w (length (index_to_key m))) (counts m ++ [c])) ws).
    destruct (IH (with_words m (index_to_key m ++ [w]) (dset (key_to_index m) w (length (index_to_key m))) (counts m ++ [c]))) as (H1 & H2 & H3).
    + cbn. intros w' i. rewrite dget_dset. destruct (eq_dec w w') as [<-|Ne].
      * split.
        -- intros E. injection E as <-. rewrite nth_error_app2, Nat.sub_diag by lia. reflexivity.
        -- intros E. destruct (Nat.ltb_spec i (length (index_to_key m))) as [L|L].
           ++ rewrite nth_error_app1 in E by lia. exfalso. apply (Fresh w (or_introl eq_refl)). apply (nth_error_In _ _ E).
           ++ rewrite nth_error_app2 in E by lia. destruct (i - length (index_to_key m)) as [|k] eqn:Ek; [f_equal; lia|].
              cbn in E. destruct k; discriminate.
      * rewrite K. destruct (Nat.ltb_spec i (length (index_to_key m))) as [L|L].
        -- rewrite nth_error_app1 by lia. reflexivity.
        -- rewrite nth_error_app2 by lia. assert (nth_error (index_to_key m) i = None) as -> by (apply nth_error_None; lia).
           destruct (i - length (index_to_key m)) as [|[|k]]; cbn; split; try discriminate. intros E. injection E as ->. congruence.
    + exact ND'.
    + intros w' I' I2. cbn in I2. apply in_app_or in I2. destruct I2 as [I2|[->|[]]].
      * apply (Fresh w' (or_intror I') I2).
      * apply Nw. exact I'.
    + cbn in H1. rewrite <- app_assoc in H1. cbn [app] in H1. split; [exact H1|]. split; [exact H2|]. exact H3.
Qed.

(** Before the first call of [resize_vectors] there are no n-gram rows. *)
Record growable (m : ftkv) : Prop := {
  gr_rows : length (vectors_vocab m) = length (index_to_key m);
  gr_width : Forall (fun v => length v = vector_size m) (vectors_vocab m);
  gr_ngrams : length (vectors_ngrams m) <= N.to_nat (bucket m);
  gr_ngwidth : Forall (fun v => length v = vector_size m) (vectors_ngrams m);
  gr_keys : forall w i, dget (key_to_index m) w = Some i <-> nth_error (index_to_key m) i = Some w;
  gr_encodable : bucket m <> 0%N -> Forall (fun w => exists hs, ft_ngram_hashes w (min_n m) (max_n m) (bucket m) = Ok hs) (index_to_key m)
}.

Lemma Forall_firstn : forall {A} (P : A -> Prop) n l, Forall P l -> Forall P (firstn n l).
Proof. intros A P n l F. rewrite Forall_forall in *. intros x Hx. apply F. eapply In_firstn. exact Hx. Qed.

Lemma grow_coherent : forall m ws rv rn, growable m -> proper m (Grow ws rv rn) ->
  exists m', happen m (Grow ws rv rn) = Ok m' /\ coherent m'.
Proof.
  intros m ws rv rn [R1 R2 R3 R4 R5 R6] (P1 & P2 & P3 & P4 & P5 & P6 & P7).
  destruct (add_words_spec ws m R5 P1 P2) as (A1 & A2 & A3 & A4 & A5 & A6 & A7 & A8).
  cbn [happen]. unfold resize_vectors. set (a := add_words m ws) in *. clearbody a.
  assert (Len : length (index_to_key a) = length (index_to_key m) + length ws) by (rewrite A1, app_length, map_length; reflexivity).
  set (m1 := with_norms (with_weights a (prep_vectors (length (index_to_key a)) (vectors_vocab a) rv) (prep_vectors (N.to_nat (bucket a)) (vectors_ngrams a) rn)) None).
  assert (Rd : ready m1).
  { constructor; unfold m1, prep_vectors; cbn.
    - rewrite app_length, firstn_length, A7. lia.
    - rewrite A7, A6. apply Forall_app. split; [exact R2|]. apply Forall_firstn. exact P6.
    - rewrite app_length, firstn_length, A8. lia.
    - rewrite A8, A6. apply Forall_app. split; [exact R4|]. apply Forall_firstn. exact P7.
    - exact A2.
    - rewrite A1, A3, A4, A5. intros NB. apply Forall_app. split; [apply R6; exact NB|].
      eapply Forall_impl; [|exact P3]. intros w V. destruct (ngram_hashes w (min_n m) (max_n m) (bucket m) V ltac:(lia)) as (gs & hs & _ & _ & E & _).
      exists hs. exact E. }
  destruct (compute_ok m1 Rd) as (m' & E & S & Nm & G & L & H). exists m'. split; [exact E|].
  apply (make_coherent m1 m'); auto. intros l. rewrite Nm. discriminate.
Qed.
Lemma coherent_growable : forall m, coherent m -> growable m.
Proof. intros m [C1 C2 C3 C4 C5 C6 C7 C8 C9 C10]. constructor; auto. lia. Qed.
Lemma new_growable : forall vs a b bk, growable (ft_new vs a b bk).
Proof.
  intros. constructor; cbn; auto; try lia.
  intros w i. split; [discriminate|]. destruct i; discriminate.
Qed.

(** Nothing fails, and the vectors stay in order whatever happens. *)
Theorem ft_step_coherent : forall m e, coherent m -> proper m e -> exists m', happen m e = Ok m' /\ coherent m'.
Proof.
  intros m e C P. destruct e as [ws rv rn|vv ng| |w norm|force].
  - apply grow_coherent; [apply coherent_growable; exact C | exact P].
  - destruct P as (P1 & P2 & P3 & P4). cbn [happen]. unfold train. pose proof C as [C1 C2 C3 C4 C5 C6 C7 C8 C9 C10].
    destruct (adjust_ok (with_norms (with_weights m vv ng) None)) as (m' & E & S & Nm & G & L & H).
    + constructor; cbn; auto.
    + exact C7.
    + exists m'. split; [exact E|]. apply (make_coherent (with_norms (with_weights m vv ng) None) m'); auto.
      * constructor; cbn; auto.
      * intros l. rewrite Nm. discriminate.
  - cbn [happen]. unfold save_load. destruct (compute_ok m (coherent_ready m C)) as (m' & E & S & Nm & G & L & H).
    exists m'. split; [exact E|]. apply (make_coherent m m'); auto; [apply coherent_ready; exact C|].
    destruct C as [C1 C2 C3 C4 C5 C6 C7 C8 C9 C10]. intros l. rewrite Nm. intros El. rewrite (C10 l El). f_equal. symmetry.
    apply vectors_unique; auto. lia.
  - exists (snd (get_vector m w norm)). split; [reflexivity|].
    destruct (get_vector_state m w norm) as [-> | ->]; [exact C|apply fill_norms_coherent; exact C].
  - exists (fill_norms m force). split; [reflexivity|]. apply fill_norms_coherent. exact C.
Qed.
Print Assumptions ft_step_coherent.

Theorem ft_history_coherent : forall vs a b bk ws rv rn es m,
  history (ft_new vs a b bk) (Grow ws rv rn :: es) m -> coherent m.
Proof.
  intros vs a b bk ws rv rn es m H. inversion H as [|? ? m1 ? ? P E H']; subst.
  destruct (grow_coherent _ ws rv rn (new_growable vs a b bk) P) as (m1' & E' & C). rewrite E in E'. injection E' as <-.
  clear -H' C. induction H' as [m|m e m' es m'' P E H IH]; [exact C|].
  apply IH. destruct (ft_step_coherent m e C P) as (m1 & E' & C'). rewrite E in E'. injection E' as <-. exact C'.
Qed.
Print Assumptions ft_history_coherent.

(** ** Known words *)
Lemma vnorm_unit : forall v, vnorm v <> 0%R -> vnorm (vdiv v (vnorm v)) = 1%R.
Proof.
  intros v N. unfold vnorm at 1. change (vdiv v (vnorm v)) with (KvReal_Properties.rdivide v (vnorm v)).
  rewrite KvReal_Properties.sumsq_div by exact N. unfold vnorm in *.
  assert (P : (0 <= sumsq v)%R).
  { unfold sumsq, Rsum. clear. induction v as [|x v IH]; cbn; [lra|]. pose proof (Rle_0_sqr x) as H. unfold Rsqr in H. lra. }
  rewrite sqrt_sqrt by exact P. unfold Rdiv. rewrite Rinv_r; [apply sqrt_1|]. intro E. rewrite E, sqrt_0 in N. congruence.
Qed.

Lemma scale_back : forall v, vnorm v <> 0%R -> v = map (fun x => (vnorm v * x)%R) (vdiv v (vnorm v)).
Proof. intros v N. unfold vdiv. rewrite map_map. rewrite <- (map_id v) at 1. apply map_ext. intros x. field. exact N. Qed.

Theorem ft_known_word : forall m w, coherent m -> In w (index_to_key m) ->
  exists i v, nth_error (index_to_key m) i = Some w /\ word_vector m i v
    /\ fst (get_vector m w false) = Ok v
    /\ exists u, fst (get_vector m w true) = Ok u /\ (vnorm v <> 0%R -> vnorm u = 1%R /\ v = map (fun x => (vnorm v * x)%R) u).
Proof.
  intros m w C I. destruct (In_nth_error _ _ I) as (i & Ei). pose proof C as [C1 C2 C3 C4 C5 C6 C7 C8 C9 C10].
  assert (Li : i < length (vectors m)) by (rewrite C8; apply nth_error_Some; congruence).
  destruct (nth_error (vectors m) i) as [v|] eqn:Ev; [|apply nth_error_None in Ev; lia].
  exists i, v. split; [exact Ei|]. split; [apply C9; exact Ev|].
  assert (D : dget (key_to_index m) w = Some i) by (apply C5; exact Ei).
  unfold get_vector. rewrite D, Ev. split; [reflexivity|]. exists (vdiv v (vnorm v)). split.
  - assert (G : forall m1, vectors m1 = vectors m -> norms m1 = Some (map vnorm (vectors m)) ->
       fst (match nth_error (vectors m1) i with Some v => match nth_error match norms m1 with Some l => l | None => [] end i with Some n => (Ok (vdiv v n), m1) | None => (Err IndexError, m1) end | None => (Err IndexError, m1) end) = Ok (vdiv v (vnorm v))).
    { intros m1 E1 E2. rewrite E1, E2, Ev. rewrite nth_error_map, Ev. reflexivity. }
    cbv zeta. apply G.
    + unfold fill_norms. destruct (norms m); reflexivity.
    + unfold fill_norms. destruct (norms m) as [l|] eqn:El; [rewrite El; f_equal; apply C10; reflexivity|reflexivity].
  - intros N. split; [apply vnorm_unit; exact N|]. apply scale_back. exact N.
Qed.
Print Assumptions ft_known_word.

(** ** Unknown words *)
Theorem ft_unknown_word : forall m w, coherent m -> ~ In w (index_to_key m) ->
  (bucket m = 0%N -> forall norm, fst (get_vector m w norm) = Err KeyError)
  /\ (bucket m <> 0%N -> Forall (fun c => valid_char c = true) w ->
      exists rows v, gram_rows m w rows /\ fst (get_vector m w false) = Ok v
        /\ (rows = [] -> v = repeat 0%R (vector_size m) /\ fst (get_vector m w true) = Ok v)
        /\ (rows <> [] -> mean_of (vector_size m) rows v
            /\ exists u, fst (get_vector m w true) = Ok u /\ (vnorm v <> 0%R -> vnorm u = 1%R /\ v = map (fun x => (vnorm v * x)%R) u))).
Proof.
  intros m w C NI. pose proof C as [C1 C2 C3 C4 C5 C6 C7 C8 C9 C10].
  assert (D : dget (key_to_index m) w = None).
  { destruct (dget (key_to_index m) w) as [i|] eqn:E; [|reflexivity]. apply C5 in E. exfalso. apply NI. apply (nth_error_In _ _ E). }
  unfold get_vector. rewrite D. split.
  - intros ->. intros norm. reflexivity.
  - intros NB V. replace (bucket m =? 0)%N with false by lia. cbn [fst].
    destruct (ngram_hashes w (min_n m) (max_n m) (bucket m) V ltac:(lia)) as (gs & hs & _ & _ & E & _). rewrite E. cbn [rbind].
    assert (Fh : Forall (fun h => h < length (vectors_ngrams m)) (map N.to_nat hs)).
    { apply hashes_in_range in E. rewrite C3. apply Forall_forall. intros x Hx. apply in_map_iff in Hx. destruct Hx as (h & <- & Hh).
      rewrite Forall_forall in E. specialize (E h Hh). lia. }
    destruct (add_rows_ok (vector_size m) (vectors_ngrams m) (map N.to_nat hs) (vzero (vector_size m))) as (s & rs & A1 & A2 & A3 & A4).
    { apply repeat_length. } { exact C4. } { exact Fh. }
    assert (Lr : length hs = length rs) by (rewrite <- (map_length N.to_nat hs); eapply Forall2_same_length; exact A2).
    apply (Forall2_map_l N.to_nat) in A2. cbn beta in A2.
    destruct hs as [|h hs].
    + inversion A2; subst. exists [], (vzero (vector_size m)). split; [exists []; auto|]. split; [reflexivity|].
      split; [auto|]. congruence.
    + rewrite A1. cbn [rbind]. set (v := vdiv s (INR (length (h :: hs)))).
      exists rs, v. split; [exists (h :: hs); auto|]. split; [reflexivity|].
      split; [intros ->; discriminate|]. intros _. split.
      * split; [unfold v, vdiv; rewrite map_length; exact A3|]. intros j Hj. unfold v. rewrite vdiv_coordinate, A4, vzero_coordinate, Lr.
        rewrite Rplus_0_l. field. apply not_0_INR. rewrite <- Lr. discriminate.
      * exists (vdiv v (vnorm v)). split; [reflexivity|]. intros N. split; [apply vnorm_unit; exact N|].
        apply scale_back. exact N.
Qed.
Print Assumptions ft_unknown_word.

(** ** Saving and loading changes no answer *)
Theorem ft_save_load : forall m, coherent m ->
  exists m', save_load m = Ok m' /\ same_weights m m' /\ vectors m' = vectors m
    /\ forall w norm, fst (get_vector m' w norm) = fst (get_vector m w norm).
Proof.
  intros m C. unfold save_load. destruct (compute_ok m (coherent_ready m C)) as (m' & E & S & Nm & G & L & H).
  exists m'. split; [exact E|]. split; [exact S|].
  assert (Ev : vectors m' = vectors m) by (destruct C; apply vectors_unique; auto; lia).
  split; [exact Ev|]. intros w norm. destruct S as (S1 & S2 & S3 & S4 & S5 & S6 & S7 & S8 & S9).
  unfold get_vector. rewrite S2, S4, S5, S6, S7, S9, Ev.
  destruct (dget (key_to_index m) w) as [i|]; [|destruct (bucket m =? 0)%N; reflexivity].
  destruct norm; [|reflexivity]. cbv zeta.
  assert (F1 : vectors (fill_norms m' false) = vectors (fill_norms m false)).
  { unfold fill_norms. destruct (norms m'), (norms m); exact Ev. }
  assert (F2 : norms (fill_norms m' false) = norms (fill_norms m false)).
  { unfold fill_norms. rewrite Nm. destruct (norms m) eqn:En; cbn; [congruence|]. rewrite Ev. reflexivity. }
  rewrite F1, F2. destruct (nth_error (vectors (fill_norms m false)) i); [destruct (nth_error _ i)|]; reflexivity.
Qed.
Print Assumptions ft_save_load.

(** ** Adding vectors does nothing *)
Lemma pick_none : forall {A B} (f : A -> bool) (ks : list A) (l : list B), (forall k, In k ks -> f k = true) -> pick (map negb (map f ks)) l = [].
Proof.
  intros A B f ks. induction ks as [|k ks IH]; intros l H; [reflexivity|]. cbn [map pick]. destruct l as [|x l]; [reflexivity|].
  rewrite (H k (or_introl eq_refl)). cbn [negb]. apply IH. intros k' I. apply H. right. exact I.
Qed.
Theorem ft_add_vectors_ignored : forall m keys weights m', add_vectors m keys weights false = Ok m' ->
  index_to_key m' = index_to_key m /\ key_to_index m' = key_to_index m /\ vectors m' = vectors m.
Proof.
  intros m keys weights m'. unfold add_vectors. rewrite !pick_none by reflexivity. cbn [map add_words fold_left].
  rewrite app_nil_r. intros E. injection E as <-. unfold with_vectors, vectors.
  destruct (aliased m) eqn:A; cbn; split; auto; split; auto; unfold aliased in *; cbn; rewrite A; reflexivity.
Qed.
Print Assumptions ft_add_vectors_ignored.

(** Yet [add_vector] returns an index, at which nothing is; and replacing fails for a new key. *)
Theorem ft_add_vector_refuted : forall m key v, ~ In key (index_to_key m) -> coherent m ->
  contains m key = true
  /\ (exists i m', add_vector m key v = Ok (i, m') /\ nth_error (index_to_key m') i = None /\ dget (key_to_index m') key = None
                  /\ vectors m' = vectors m)
  /\ add_vectors m [key] [v] true = Err KeyError.
Proof.
  intros m key v NI C. split; [reflexivity|].
  assert (D : dget (key_to_index m) key = None).
  { destruct (dget (key_to_index m) key) as [i|] eqn:E; [|reflexivity]. apply (co_keys m C) in E. exfalso. apply NI. apply (nth_error_In _ _ E). }
  split.
  - unfold add_vector. destruct (add_vectors m [key] [v] false) as [m'|e] eqn:E; [|discriminate].
    destruct (ft_add_vectors_ignored _ _ _ _ E) as (H1 & H2 & H3). exists (length (index_to_key m)), m'. split; [reflexivity|].
    rewrite H1, H2. split; [apply nth_error_None; lia|]. auto.
  - unfold add_vectors. cbn [map contains negb pick add_words fold_left rmapM].
    replace (dget (key_to_index (with_vectors m (vectors m ++ []))) key) with (@None nat); [reflexivity|].
    rewrite <- D. unfold with_vectors. destruct (aliased m); reflexivity.
Qed.
Print Assumptions ft_add_vector_refuted.

(** ** Concrete models *)

(** The words "a" (count 1) and "b" (count 2), one bucket, trigrams: one n-gram each. *)
Definition two : list (pystr * Z) := [(str "a", 1%Z); (str "b", 2%Z)].
Definition example (vv ng : list vec) : result ftkv :=
  let* m := happen (ft_new 2 3 3 1) (Grow two [[0; 0]; [0; 0]]%R [[0; 0]]%R) in happen m (Train vv ng).

Definition pair_model (ks : list pystr) (cs : list Z) (a b c d e f : R) (vs : list vec) : ftkv :=
  mkFtkv 3 3 1 2 ks (combine ks [0; 1]) cs [[a; b]; [c; d]] [[e; f]] [[0]; [0]] vs None.
Lemma grow_eq : happen (ft_new 2 3 3 1) (Grow two [[0; 0]; [0; 0]]%R [[0; 0]]%R)
  = Ok (pair_model [str "a"; str "b"] [1; 2]%Z 0 0 0 0 0 0 [[(0 + 0) / INR 2; (0 + 0) / INR 2]; [(0 + 0) / INR 2; (0 + 0) / INR 2]]%R).
Proof. vm_compute. reflexivity. Qed.
Lemma grow_proper : proper (ft_new 2 3 3 1) (Grow two [[0; 0]; [0; 0]]%R [[0; 0]]%R).
Proof.
  cbn. repeat split; try (repeat constructor; cbn; auto); try (intros H; decompose [or] H; discriminate); try (intros [H|[]]; discriminate); auto.
Qed.
Lemma train_proper : forall a b c d e f vs, proper (pair_model [str "a"; str "b"] [1; 2]%Z 0 0 0 0 0 0 vs) (Train [[a; b]; [c; d]] [[e; f]]).
Proof. intros. cbn. repeat split; repeat constructor. Qed.
Lemma rbind_ok : forall {A B} (r : result A) x (k : A -> result B), r = Ok x -> rbind r k = k x.
Proof. intros A B r x k ->. reflexivity. Qed.
Lemma example_train : forall a b c d e f m, example [[a; b]; [c; d]] [[e; f]] = Ok m -> happen (pair_model [str "a"; str "b"] [1; 2]%Z 0 0 0 0 0 0 [[(0 + 0) / INR 2; (0 + 0) / INR 2]; [(0 + 0) / INR 2; (0 + 0) / INR 2]]%R) (Train [[a; b]; [c; d]] [[e; f]]) = Ok m.
Proof. intros a b c d e f m E. rewrite <- E. symmetry. unfold example. exact (rbind_ok _ _ _ grow_eq). Qed.
Lemma train_coherent : forall a b c d e f m, happen (pair_model [str "a"; str "b"] [1; 2]%Z 0 0 0 0 0 0 [[(0 + 0) / INR 2; (0 + 0) / INR 2]; [(0 + 0) / INR 2; (0 + 0) / INR 2]]%R) (Train [[a; b]; [c; d]] [[e; f]]) = Ok m -> coherent m.
Proof.
  intros a b c d e f m E.
  apply (ft_history_coherent 2 3 3 1%N two [[0; 0]; [0; 0]]%R [[0; 0]]%R [Train [[a; b]; [c; d]] [[e; f]]]).
  econstructor; [exact grow_proper|exact grow_eq|]. econstructor; [apply train_proper|exact E|constructor].
Qed.
Lemma example_coherent : forall a b c d e f m, example [[a; b]; [c; d]] [[e; f]] = Ok m -> coherent m.
Proof. intros a b c d e f m E. eapply train_coherent. apply example_train. exact E. Qed.
Lemma example_eq : forall a b c d e f, example [[a; b]; [c; d]] [[e; f]]
  = Ok (pair_model [str "a"; str "b"] [1; 2]%Z a b c d e f [[(a + e) / INR 2; (b + f) / INR 2]; [(c + e) / INR 2; (d + f) / INR 2]]%R).
Proof. intros. vm_compute. reflexivity. Qed.

Example example_ok : exists m, example [[6; 8]; [2; 0]]%R [[0; 0]]%R = Ok m /\ coherent m /\ In (str "a") (index_to_key m) /\ bucket m = 1%N
  /\ fst (get_vector m (str "a") false) = Ok [3; 4]%R /\ fst (get_vector m (str "b") false) = Ok [1; 0]%R
  /\ fst (get_vector m (str "zzzz") false) = Ok [0; 0]%R.
Proof.
  eexists. split; [apply example_eq|]. split; [eapply example_coherent; apply example_eq|]. split; [cbn; auto|]. split; [reflexivity|].
  assert (H : ft_ngram_hashes (str "zzzz") 3 3 1 = Ok [0; 0; 0; 0]%N) by (vm_compute; reflexivity).
  unfold get_vector. cbn [min_n max_n bucket pair_model]. rewrite H. cbn.
  repeat split; f_equal; repeat (f_equal; try field).
Qed.

(** [unit_normalize_all] does not survive saving (with buckets): the vectors are computed anew, the norms stay 1, so that
    "normed" vectors are not normed any more. *)
Theorem ft_normalized_save_refuted : forall m w, coherent m -> bucket m <> 0%N -> In w (index_to_key m) ->
  exists v m', fst (get_vector m w false) = Ok v
    /\ (exists u, fst (get_vector (unit_normalize_all m) w false) = Ok u /\ (vnorm v <> 0%R -> vnorm u = 1%R))
    /\ save_load (unit_normalize_all m) = Ok m'
    /\ fst (get_vector m' w false) = Ok v /\ fst (get_vector m' w true) = Ok v.
Proof.
  intros m w C NB I. destruct (In_nth_error _ _ I) as (i & Ei). pose proof C as [C1 C2 C3 C4 C5 C6 C7 C8 C9 C10].
  assert (Li : i < length (vectors m)) by (rewrite C8; apply nth_error_Some; congruence).
  destruct (nth_error (vectors m) i) as [v|] eqn:Ev; [|apply nth_error_None in Ev; lia].
  assert (D : dget (key_to_index m) w = Some i) by (apply C5; exact Ei).
  assert (A : aliased m = false) by (unfold aliased; lia).
  set (m1 := unit_normalize_all m).
  assert (SW : same_weights m m1).
  { unfold m1, unit_normalize_all, fill_norms. destruct (norms m); unfold with_vectors; cbn; unfold aliased in *; cbn; rewrite A; repeat split. }
  assert (Nf : norms (fill_norms m false) = Some (map vnorm (vectors m)) /\ vectors (fill_norms m false) = vectors m).
  { unfold fill_norms. destruct (norms m) as [l|] eqn:El; split; auto. rewrite El, (C10 l eq_refl). reflexivity. }
  assert (Vs : vectors m1 = map (fun p => vdiv (fst p) (snd p)) (combine (vectors m) (map vnorm (vectors m)))).
  { unfold m1, unit_normalize_all. destruct Nf as (-> & ->). unfold vectors at 1. unfold with_vectors, aliased.
    replace (bucket (fill_norms m false)) with (bucket m) by (unfold fill_norms; destruct (norms m); reflexivity).
    unfold aliased in A. rewrite A. cbn. rewrite A. reflexivity. }
  assert (Ns : norms m1 = Some (map (fun _ => 1%R) (vectors m1))).
  { unfold m1 at 1, unit_normalize_all. cbn. f_equal. }
  assert (Ev1 : nth_error (vectors m1) i = Some (vdiv v (vnorm v))).
  { rewrite Vs, nth_error_map. replace (combine (vectors m) (map vnorm (vectors m))) with (map (fun x => (x, vnorm x)) (vectors m)).
    - rewrite nth_error_map, Ev. reflexivity.
    - clear. induction (vectors m) as [|x l IH]; [reflexivity|]. cbn. rewrite <- IH. reflexivity. }
  pose proof SW as (S1 & S2 & S3 & S4 & S5 & S6 & S7 & S8 & S9).
  assert (Rd : ready m1).
  { constructor; rewrite ?S1, ?S2, ?S4, ?S5, ?S6, ?S7, ?S8, ?S9; auto. }
  destruct (compute_ok m1 Rd) as (m' & E & SW' & Nm & G & L & H).
  assert (Ve : vectors m' = vectors m).
  { apply vectors_unique; auto; [apply (same_weights_trans m m1 m'); assumption | congruence]. }
  exists v, m'. destruct SW' as (T1 & T2 & T3 & T4 & T5 & T6 & T7 & T8 & T9).
  split; [unfold get_vector; rewrite D, Ev; reflexivity|]. split.
  { exists (vdiv v (vnorm v)). split; [unfold get_vector; rewrite S2, D, Ev1; reflexivity|]. apply vnorm_unit. }
  split; [exact E|]. split.
  - unfold get_vector. rewrite T2, S2, D, Ve, Ev. reflexivity.
  - unfold get_vector. rewrite T2, S2, D. cbv zeta.
    assert (Fe : fill_norms m' false = m') by (unfold fill_norms; rewrite Nm, Ns; reflexivity). rewrite Fe, Ve, Ev, Nm, Ns.
    rewrite nth_error_map. destruct (nth_error (vectors m1) i); [|discriminate]. cbn [option_map fst]. f_equal.
    unfold vdiv. rewrite <- (map_id v) at 2. apply map_ext. intros x. field.
Qed.
Print Assumptions ft_normalized_save_refuted.

(** Sorting moves the vectors but not the weights they are computed from: after saving and loading words have the
    vectors of others. *)
Definition argsort_up (l : list Z) : list nat :=
  map snd (isort (fun a b => (fst a <=? fst b)%Z) (combine l (seq 0 (length l)))).
Lemma save_load_eq : forall a b c d e f vs,
  save_load (pair_model [str "b"; str "a"] [2; 1]%Z a b c d e f vs)
  = Ok (pair_model [str "b"; str "a"] [2; 1]%Z a b c d e f [[(a + e) / INR 2; (b + f) / INR 2]; [(c + e) / INR 2; (d + f) / INR 2]]%R).
Proof. intros. vm_compute. reflexivity. Qed.
Theorem ft_sort_refuted : exists m m1 m2, coherent m
  /\ sort_by_descending_frequency argsort_up m = Ok m1 /\ save_load m1 = Ok m2
  /\ fst (get_vector m (str "a") false) = Ok [1; 0]%R
  /\ fst (get_vector m1 (str "a") false) = Ok [1; 0]%R
  /\ fst (get_vector m2 (str "a") false) = Ok [2; 0]%R.
Proof.
  pose proof (example_eq 2 0 4 0 0 0) as E.
  eexists _, _, _. split; [eapply example_coherent; exact E|]. split; [cbn; reflexivity|].
  split; [apply save_load_eq|]. cbn.
  repeat split; f_equal; repeat (f_equal; try field).
Qed.
Print Assumptions ft_sort_refuted.

(** "A vector for the word is guaranteed to exist if [in] returns True": not without buckets. *)
Theorem ft_contains_refuted : exists m w, coherent m /\ contains m w = true /\ forall norm, fst (get_vector m w norm) = Err KeyError.
Proof.
  destruct (grow_coherent (ft_new 2 3 2 0) two [[0; 0]; [0; 0]]%R [] (new_growable _ _ _ _)) as (m & E & C).
  { cbn. repeat split; try (repeat constructor; cbn; auto); try (intros H; decompose [or] H; discriminate); try (intros [H|[]]; discriminate); auto. }
  exists m, (str "c"). split; [exact C|]. split; [reflexivity|]. cbn in E. injection E as <-. intros norm. reflexivity.
Qed.
Print Assumptions ft_contains_refuted.
