(** C138: approximate indexers, built, saved and loaded *)
From Coq Require Import QArith.
From Verif Require Import Base Str Indexers_Model.
Close Scope Q_scope.
Local Open Scope nat_scope.

Section Spec.
Context {V P : Type}.
Variable normed : V -> V.
Variable annoy_nns : nat -> list V -> nat -> V -> nat -> list (nat * Q).
Variable hnsw_nns : list V -> P -> P -> V -> nat -> list (nat * Q).
Variable default_query : P.
Notation pymodel := (@pymodel V).
(** The vectors that a model is indexed by: of documents for Doc2Vec *)
Inductive indexed : pymodel -> kvs -> Prop :=
| ix_d2v : forall wv dv, indexed (Doc2Vec wv dv) dv
| ix_w2v : forall wv, indexed (Word2Vec wv) wv
| ix_kv : forall kv, k_keys kv <> [] -> indexed (Keyed kv) kv.
(** [answer] tells, for what the library finds among the unit vectors of [kv], the key of each position and a similarity. *)
Definition names (kv : @kvs V) (sim : Q -> Q) (found : list (nat * Q)) (answer : list (pystr * Q)) : Prop :=
  Forall2 (fun f a => nth_error (k_keys kv) (fst f) = Some (fst a) /\ snd a = sim (snd f)) found answer.
Definition within (kv : @kvs V) (found : list (nat * Q)) : Prop := forall i d, In (i, d) found -> i < length (k_keys kv).

Lemma label_names : forall kv sim found, within kv found -> exists ans, rmapM (label (k_keys kv) sim) found = Ok ans /\ names kv sim found ans.
Proof.
  intros kv sim found. induction found as [|[i d] found IH]; intros W; [exists []; split; [reflexivity | constructor]|].
  destruct IH as (ans & E & N); [intros j e H; apply (W j e); right; exact H|]. destruct (nth_error (k_keys kv) i) as [w|] eqn:Ei; [|apply nth_error_None in Ei; specialize (W i d (or_introl eq_refl)); lia].
  exists ((w, sim d) :: ans). cbn [rmapM]. unfold label at 1. cbn [fst snd]. rewrite Ei. cbn [rbind]. rewrite E. split; [reflexivity|]. constructor; [split; [exact Ei | reflexivity] | exact N].
Qed.
Lemma indexed_vectors : forall m kv, indexed m kv -> vectors_of m = Ok kv /\ truthy m = true /\ model_size m = k_size kv.
Proof. intros m kv [wv dv|wv|kv' H]; try (repeat split; reflexivity). split; [reflexivity|]. split; [|reflexivity]. cbn. destruct (k_keys kv'); [contradiction | reflexivity]. Qed.

(** ** Annoy *)
Theorem annoy_answers : forall (m : pymodel) (kv : kvs) (t : nat) (v : V) (n : nat), indexed m kv ->
  within kv (annoy_nns (k_size kv) (map normed (k_vectors kv)) (S t) v n) ->
  exists a ans, annoy_new normed (Some m) (Some (S t)) = Ok a /\ annoy_similar annoy_nns a v n = Ok ans /\
  names kv (fun d => 1 - d / 2)%Q (annoy_nns (k_size kv) (map normed (k_vectors kv)) (S t) v n) ans.
Proof.
  intros m kv t v n I W. destruct (indexed_vectors m kv I) as (E & T & _). unfold annoy_new. rewrite T, E. cbn [rbind]. destruct (label_names kv (fun d => 1 - d / 2)%Q _ W) as (ans & Ea & N). do 2 eexists. split; [reflexivity|]. split; [exact Ea | exact N].
Qed.
(** Saved and loaded, by whatever indexer and with whatever other files: the same answers to all queries.  Other paths keep their files. *)
Theorem annoy_saved : forall (m : pymodel) (kv : kvs) (t : nat) (a b : annoy) (fname : pystr) (fs : annoy_files), indexed m kv -> annoy_new normed (Some m) (Some (S t)) = Ok a ->
  fst (annoy_save fname a fs) = Ok tt /\ (forall f', f' <> fname -> dget (af_index (snd (annoy_save fname a fs))) f' = dget (af_index fs) f' /\ dget (af_meta (snd (annoy_save fname a fs))) f' = dget (af_meta fs) f') /\
  exists c, annoy_load fname b (snd (annoy_save fname a fs)) = Ok c /\ (forall v n, annoy_similar annoy_nns c v n = annoy_similar annoy_nns a v n) /\ a_trees c = Some (S t) /\ a_model c = a_model b.
Proof.
  intros m kv t a b fname fs I E. destruct (indexed_vectors m kv I) as (Ev & T & Z). unfold annoy_new in E. rewrite T, Ev in E. cbn [rbind] in E. injection E as <-. unfold annoy_save. cbn [a_index a_model a_trees a_labels fst snd af_index af_meta].
  split; [reflexivity|]. split; [intros f' H; rewrite !dget_dset_other by congruence; split; reflexivity|]. unfold annoy_load. cbn [af_index af_meta]. rewrite !dget_dset_same. eexists. split; [reflexivity|]. split; [|split; reflexivity].
  intros v n. unfold annoy_similar. cbn [a_index a_labels me_f me_labels ai_dim ai_items ai_trees annoy_build]. rewrite Z. reflexivity.
Qed.
(** Without both files nothing is loaded. *)
Theorem annoy_missing : forall (fname : pystr) (b : @annoy V) (fs : annoy_files), (dget (af_index fs) fname = None \/ dget (af_meta fs) fname = None) <-> annoy_load fname b fs = Err OSErr.
Proof. intros fname b fs. unfold annoy_load. destruct (dget (af_index fs) fname), (dget (af_meta fs) fname); split; intros H; try reflexivity; try discriminate; auto; destruct H; discriminate. Qed.
(** What cannot be indexed: other objects raise, empty keyed vectors and a missing number of trees give an indexer without index. *)
Theorem annoy_none : forall (m : pymodel) (t : option nat), (forall kv, ~ indexed m kv) -> forall v n, match annoy_new normed (Some m) t with Ok a => annoy_similar annoy_nns a v n = Err AttributeErr | Err e => e = ValueError end.
Proof.
  intros m t H v n. unfold annoy_new. destruct t as [[|t]|]; try reflexivity. destruct m as [wv dv|wv|kv|]; cbn [truthy vectors_of rbind]; [destruct (H dv (ix_d2v wv dv)) | destruct (H wv (ix_w2v wv)) | |reflexivity].
  destruct (k_keys kv) as [|k ks] eqn:E; [reflexivity|]. destruct (H kv). constructor. rewrite E. discriminate.
Qed.

(** ** nmslib *)
Theorem nms_answers : forall (m : pymodel) (kv : kvs) (ip qp : P) (v : V) (n : nat), indexed m kv -> within kv (hnsw_nns (map normed (k_vectors kv)) ip qp v n) ->
  exists a ans, nms_new normed (Some m) ip qp = Ok a /\ nms_similar hnsw_nns a v n = Ok ans /\ names kv (fun d => 1 - d)%Q (hnsw_nns (map normed (k_vectors kv)) ip qp v n) ans.
Proof.
  intros m kv ip qp v n I W. destruct (indexed_vectors m kv I) as (E & T & _). unfold nms_new. rewrite T, E. cbn [rbind]. destruct (label_names kv (fun d => 1 - d)%Q _ W) as (ans & Ea & N). do 2 eexists. split; [reflexivity|]. split; [exact Ea | exact N].
Qed.
(** A loaded indexer answers like one that was built with the default parameters for queries, though it shows the saved ones. *)
Theorem nms_saved : forall (m : pymodel) (kv : kvs) (ip qp : P) (a : nmslib) (fname : pystr) (fs : nms_files), indexed m kv -> nms_new normed (Some m) ip qp = Ok a ->
  fst (nms_save fname a fs) = Ok tt /\ exists c d, nms_load normed default_query fname (snd (nms_save fname a fs)) = Ok c /\ nms_new normed (Some m) ip default_query = Ok d /\
  (forall v n, nms_similar hnsw_nns c v n = nms_similar hnsw_nns d v n) /\ n_params c = ip /\ n_query c = qp /\ n_model c = None /\ (qp = default_query -> forall v n, nms_similar hnsw_nns c v n = nms_similar hnsw_nns a v n) /\
  (* and it can be saved again *)
  forall fname' fs', fst (nms_save fname' c fs') = Ok tt.
Proof.
  intros m kv ip qp a fname fs I E. destruct (indexed_vectors m kv I) as (Ev & T & _). unfold nms_new in E. rewrite T, Ev in E. cbn [rbind] in E. injection E as <-. unfold nms_save. cbn [n_index fst snd].
  split; [reflexivity|]. unfold nms_load. cbn [nf_index nf_meta n_params n_query n_labels h_items h_params]. rewrite !dget_dset_same. cbn [nms_new rbind nm_params nm_query n_model n_params n_query]. do 2 eexists. split; [reflexivity|]. split; [unfold nms_new; rewrite T, Ev; reflexivity|].
  split; [reflexivity|]. do 3 (split; [reflexivity|]). split; [intros ->; reflexivity | reflexivity].
Qed.
End Spec.
Print Assumptions annoy_answers.
Print Assumptions annoy_saved.
Print Assumptions annoy_missing.
Print Assumptions annoy_none.
Print Assumptions nms_answers.
Print Assumptions nms_saved.

(** ** Cases: vectors of one number, the nearest first *)
Definition near (items : list Z) (v : Z) (n : nat) : list (nat * Q) := firstn n (isort (fun a b => Qle_bool (snd a) (snd b)) (combine (seq 0 (length items)) (map (fun x => inject_Z (Z.abs (x - v))) items))).
Definition t_annoy (dim : nat) (items : list Z) (trees : nat) (v : Z) (n : nat) : list (nat * Q) := near items v n.
(** Only [query] of the neighbours are looked for. *)
Definition t_hnsw (items : list Z) (params query : nat) (v : Z) (n : nat) : list (nat * Q) := near items v (Nat.min query n).
Definition kv3 : @kvs Z := mkKvs [str "cat"; str "dog"; str "fish"] [1; 5; 9]%Z 1.
Definition no_files : @annoy_files Z := mkAF [] [].
Example annoy_ex : exists a c, annoy_new (fun v => v) (Some (Doc2Vec (mkKvs [] [] 1) kv3)) (Some 4) = Ok a /\ annoy_similar t_annoy a 6%Z 2 = Ok [(str "dog", (1 - 1 / 2)%Q); (str "fish", (1 - 3 / 2)%Q)]
  /\ annoy_load (str "f") (mkAnnoy None None None None) (snd (annoy_save (str "f") a no_files)) = Ok c /\ annoy_similar t_annoy c 6%Z 2 = annoy_similar t_annoy a 6%Z 2.
Proof. do 2 eexists. repeat split; vm_compute; reflexivity. Qed.
Example nms_ex : exists a, nms_new (fun v => v) (Some (Keyed kv3)) 7 3 = Ok a /\ nms_similar t_hnsw a 6%Z 2 = Ok [(str "dog", (1 - 1)%Q); (str "fish", (1 - 3)%Q)].
Proof. eexists. split; vm_compute; reflexivity. Qed.
Example none_ex : annoy_new (fun v : Z => v) (Some Other) (Some 4) = Err ValueError /\ forall kv, ~ indexed (Keyed (mkKvs [] [] 3) : @pymodel Z) kv.
Proof. split; [reflexivity|]. intros kv H. inversion H; subst. apply H1. reflexivity. Qed.

(** ** Known failures *)
(** What was loaded into a new indexer cannot be saved again; its file of the index is written and the other is not. *)
Theorem annoy_again_refuted : exists (a c : @annoy Z) fs, annoy_new (fun v => v) (Some (Keyed kv3)) (Some 4) = Ok a /\ annoy_load (str "f") (mkAnnoy None None None None) (snd (annoy_save (str "f") a no_files)) = Ok c /\
  annoy_save (str "g") c no_files = (Err AttributeErr, fs) /\ dget (af_index fs) (str "g") <> None /\ dget (af_meta fs) (str "g") = None.
Proof. do 3 eexists. split; [vm_compute; reflexivity|]. split; [vm_compute; reflexivity|]. split; [vm_compute; reflexivity|]. split; [discriminate | reflexivity]. Qed.
(** The parameters for queries are not set for a loaded index of nmslib: it answers otherwise than the saved one. *)
Theorem nms_query_refuted : exists (a c : @nmslib Z nat), nms_new (fun v => v) (Some (Keyed kv3)) 7 3 = Ok a /\ nms_load (fun v => v) 1 (str "f") (snd (nms_save (str "f") a (mkNF [] []))) = Ok c /\
  n_query c = 3 /\ nms_similar t_hnsw c 6%Z 2 <> nms_similar t_hnsw a 6%Z 2.
Proof. do 2 eexists. split; [vm_compute; reflexivity|]. split; [vm_compute; reflexivity|]. split; [reflexivity | vm_compute; discriminate]. Qed.
