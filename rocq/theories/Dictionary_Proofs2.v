(** Proofs of the Dictionary properties (second part). *)

From Verif Require Import Base Str Dictionary_Model Dictionary_Spec Dictionary_Proofs.
From Coq Require Import QArith ZifyBool ZifyNat ZifyN.
Local Open Scope nat_scope.

(** ** C02: exact statistics *)

Definition call : Type := (list pystr * bool * bool)%type.
Definition run_calls (calls : list call) (d : dictionary) : dictionary :=
  fold_left (fun d c => fst (d_doc2bow d (fst (fst c)) (snd (fst c)) (snd c))) calls d.
Definition updating_docs (calls : list call) : list (list pystr) :=
  map (fun c => fst (fst c)) (filter (fun c => snd (fst c)) calls).

Record stats_ok (docs : list (list pystr)) (d : dictionary) : Prop := {
  st_docs : d_num_docs d = length docs;
  st_pos : d_num_pos d = total_positions docs;
  st_nnz : d_num_nnz d = total_distinct docs;
  st_known : forall t, (exists i, dget (d_token2id d) t = Some i) <-> exists doc, In doc docs /\ In t doc;
  st_dfs : forall t i, dget (d_token2id d) t = Some i -> dget (d_dfs d) i = Some (doc_freq docs t);
  st_cfs : forall t i, dget (d_token2id d) t = Some i -> dget (d_cfs d) i = Some (coll_freq docs t)
}.

Lemma total_positions_app : forall a b, total_positions (a ++ b) = total_positions a + total_positions b.
Proof. induction a; simpl; intros; [reflexivity | rewrite IHa; lia]. Qed.
Lemma total_distinct_app : forall a b, total_distinct (a ++ b) = total_distinct a + total_distinct b.
Proof. unfold total_distinct. induction a; cbn [app fold_right]; intros; [reflexivity|]. rewrite IHa; lia. Qed.
Lemma doc_freq_app : forall a b t, doc_freq (a ++ b) t = doc_freq a t + doc_freq b t.
Proof. intros. unfold doc_freq. rewrite filter_app, app_length. reflexivity. Qed.
Lemma coll_freq_app : forall a b t, coll_freq (a ++ b) t = coll_freq a t + coll_freq b t.
Proof. unfold coll_freq. induction a; cbn [app fold_right]; intros; [reflexivity|]. rewrite IHa; lia. Qed.

Lemma doc_freq_one : forall doc t, doc_freq [doc] t = if in_dec eq_dec t doc then 1 else 0.
Proof. intros. unfold doc_freq. simpl. destruct (in_dec eq_dec t doc); reflexivity. Qed.

Lemma bow_get : forall d doc t i, d_inv d -> dget (d_token2id (upd d doc)) t = Some i ->
  dget (d_bow (d_token2id (upd d doc)) (count_words doc)) i =
  match count_occ eq_dec doc t with 0 => None | n => Some n end.
Proof.
  intros d doc t i I E. destruct (dget (d_bow _ _) i) as [f|] eqn:B.
  - apply dget_d_bow in B; [|apply assign_inj; auto | apply NoDup_count_words].
    destruct B as [w [E' G]]. assert (w = t) by (eapply assign_inj; eauto). subst w.
    rewrite dget_count_words in G. congruence.
  - destruct (count_occ eq_dec doc t) eqn:C; [reflexivity|].
    exfalso. assert (dget (d_bow (d_token2id (upd d doc)) (count_words doc)) i = Some (S n)); [|congruence].
    apply dget_d_bow; [apply assign_inj; auto | apply NoDup_count_words|].
    exists t; split; auto. rewrite dget_count_words, C. reflexivity.
Qed.

Lemma no_doc_freq : forall docs t, (forall doc, In doc docs -> ~ In t doc) -> doc_freq docs t = 0 /\ coll_freq docs t = 0.
Proof.
  induction docs as [|doc docs IH]; intros t A; [split; reflexivity|].
  destruct (IH t) as [E1 E2]; [intros; apply A; simpl; auto|].
  change (doc :: docs) with ([doc] ++ docs). rewrite doc_freq_app, coll_freq_app, E1, E2, doc_freq_one.
  assert (NI : ~ In t doc) by (apply A; simpl; auto).
  destruct (in_dec eq_dec t doc); [tauto|]. split; [reflexivity|].
  apply (count_occ_not_In eq_dec) in NI. cbn. unfold pystr in *. rewrite NI. reflexivity.
Qed.

Lemma upd_stats : forall docs d doc, d_inv d -> stats_ok docs d -> stats_ok (docs ++ [doc]) (upd d doc).
Proof.
  intros docs d doc I S. destruct S as [S1 S2 S3 S4 S5 S6]. constructor.
  - cbn. rewrite S1, app_length. reflexivity.
  - cbn [upd d_doc2bow d_num_pos fst]. rewrite S2, sum_count_words, total_positions_app. simpl. lia.
  - cbn [upd d_doc2bow d_num_nnz fst orb]. rewrite S3, total_distinct_app.
    pose proof (assign_inj d doc I) as INJ. rewrite upd_t2i in INJ.
    rewrite d_bow_eq by (auto; apply NoDup_count_words).
    rewrite length_bow_list_all.
    + rewrite length_count_words. unfold total_distinct. cbn [fold_right]. lia.
    + intros w HI. apply assign_In. right. apply In_count_words; auto.
  - intros t. rewrite dget_Some_key, upd_t2i, assign_In, <- dget_Some_key, S4. split.
    + intros [[doc' [HI HI']]|HI]; [exists doc' | exists doc]; rewrite in_app_iff; simpl; auto.
    + intros [doc' [HI HI']]. rewrite in_app_iff in HI. simpl in HI. destruct HI as [HI|[->|[]]]; eauto.
  - intros t i E. rewrite dget_upd_dfs by auto. rewrite (bow_get d doc t i I E).
    rewrite doc_freq_app, doc_freq_one.
    destruct (dget (d_token2id d) t) as [j|] eqn:Et.
    + assert (j = i) by (rewrite upd_t2i in E; pose proof (assign_old _ doc _ _ Et); congruence). subst j.
      pose proof (S5 _ _ Et) as Ed. unfold dget_or. rewrite Ed.
      destruct (in_dec eq_dec t doc) as [HI|NI].
      * apply (count_occ_In eq_dec) in HI. destruct (count_occ eq_dec doc t); [lia | reflexivity].
      * apply (count_occ_not_In eq_dec) in NI. rewrite NI. f_equal; lia.
    + (* a new token: its id had no statistics *)
      assert (HI : In t doc).
      { assert (K : In t (dkeys (d_token2id (upd d doc)))) by (apply dget_Some_key; eauto).
        rewrite upd_t2i in K. apply assign_In in K. destruct K as [K|]; auto. apply dget_None in Et. tauto. }
      assert (Ei : dget (d_dfs d) i = None).
      { apply dget_None. rewrite (i_dfs _ I). intros L. destruct (inv_id_ex d i I L) as [t' Et'].
        assert (t = t') by (eapply (assign_inj d doc I); eauto; rewrite upd_t2i; apply assign_old; auto). congruence. }
      destruct (no_doc_freq docs t) as [Z _].
      { intros doc' HI' HI''. assert (exists i, dget (d_token2id d) t = Some i) by (apply S4; eauto). destruct H; congruence. }
      rewrite Z. unfold dget_or. rewrite Ei. destruct (in_dec eq_dec t doc); [|tauto].
      apply (count_occ_In eq_dec) in HI. destruct (count_occ eq_dec doc t); [lia | reflexivity].
  - intros t i E. rewrite dget_upd_cfs by auto. rewrite (bow_get d doc t i I E).
    rewrite coll_freq_app. cbn [coll_freq fold_right]. rewrite Nat.add_0_r.
    destruct (dget (d_token2id d) t) as [j|] eqn:Et.
    + assert (j = i) by (rewrite upd_t2i in E; pose proof (assign_old _ doc _ _ Et); congruence). subst j.
      pose proof (S6 _ _ Et) as Ed. unfold dget_or. rewrite Ed.
      destruct (count_occ eq_dec doc t); f_equal; unfold coll_freq; lia.
    + assert (HI : In t doc).
      { assert (K : In t (dkeys (d_token2id (upd d doc)))) by (apply dget_Some_key; eauto).
        rewrite upd_t2i in K. apply assign_In in K. destruct K as [K|]; auto. apply dget_None in Et. tauto. }
      assert (Ei : dget (d_cfs d) i = None).
      { apply dget_None. intros L. apply (i_cfs _ I) in L. destruct (inv_id_ex d i I L) as [t' Et'].
        assert (t = t') by (eapply (assign_inj d doc I); eauto; rewrite upd_t2i; apply assign_old; auto). congruence. }
      destruct (no_doc_freq docs t) as [_ Z].
      { intros doc' HI' HI''. assert (exists i, dget (d_token2id d) t = Some i) by (apply S4; eauto). destruct H; congruence. }
      rewrite Z. unfold dget_or. rewrite Ei.
      apply (count_occ_In eq_dec) in HI. destruct (count_occ eq_dec doc t); [lia | reflexivity].
Qed.

Lemma run_calls_cons : forall (c : call) calls d,
  run_calls (c :: calls) d = run_calls calls (if snd (fst c) then upd d (fst (fst c)) else d).
Proof. intros. unfold run_calls. cbn [fold_left]. rewrite doc2bow_fst. reflexivity. Qed.

Lemma updating_docs_cons : forall (c : call) calls,
  updating_docs (c :: calls) = (if snd (fst c) then [fst (fst c)] else []) ++ updating_docs calls.
Proof. intros [[doc u] m] calls. unfold updating_docs. cbn [filter fst snd]. destruct u; reflexivity. Qed.

Lemma run_calls_stats : forall calls d docs, d_inv d -> stats_ok docs d ->
  d_inv (run_calls calls d) /\ stats_ok (docs ++ updating_docs calls) (run_calls calls d).
Proof.
  induction calls as [|[[doc u] m] calls IH]; intros d docs I S.
  - cbn. rewrite app_nil_r. auto.
  - rewrite run_calls_cons, updating_docs_cons. cbn [fst snd]. destruct u.
    + rewrite app_assoc. apply IH; [apply upd_inv; auto | apply upd_stats; auto].
    + apply IH; auto.
Qed.

Lemma stats_empty : stats_ok [] d_empty.
Proof.
  constructor; try reflexivity; try discriminate.
  intros t; split; [intros [i E]; discriminate | intros [doc [[] _]]].
Qed.

(** ** C03: the result of doc2bow *)

Lemma doc2bow_result_exact : forall t2i doc, inj_ids t2i ->
  let bow := isort pair_leb (d_bow t2i (count_words doc)) in
  StronglySorted (fun a b => fst a < fst b) bow /\
  (forall i n, In (i, n) bow <-> exists t, dget t2i t = Some i /\ n = count_occ eq_dec doc t /\ 0 < n).
Proof.
  intros t2i doc INJ bow.
  assert (ND : NoDup (map fst (d_bow t2i (count_words doc)))).
  { rewrite d_bow_eq by (auto; apply NoDup_count_words). apply NoDup_bow_list; auto. apply NoDup_count_words. }
  split; [apply isort_pair_strict; auto|].
  intros i n. unfold bow. rewrite In_isort. rewrite <- dget_iff by auto.
  rewrite dget_d_bow by (auto; apply NoDup_count_words).
  split; intros [t [E G]]; exists t; split; auto.
  - rewrite dget_count_words in G. destruct (count_occ eq_dec doc t); inversion G; subst; lia.
  - rewrite dget_count_words. destruct G as [-> L]. destruct (count_occ eq_dec doc t); [lia | reflexivity].
Qed.

Lemma missing_exact : forall t2i doc t n,
  dget (dict_of (d_missing t2i (count_words doc))) t = Some n <->
  dget t2i t = None /\ n = count_occ eq_dec doc t /\ 0 < n.
Proof.
  intros.
  assert (ND : NoDup (map fst (d_missing t2i (count_words doc)))) by (apply NoDup_d_missing, NoDup_count_words).
  rewrite dict_of_NoDup by auto. rewrite dget_iff by auto. rewrite In_d_missing. simpl.
  rewrite <- dget_iff by apply NoDup_count_words. rewrite dget_count_words, dget_None.
  destruct (count_occ eq_dec doc t) eqn:C; split.
  - intros [E _]; discriminate.
  - intros (_ & -> & L); lia.
  - intros [E NI]. inversion E; subst. repeat split; auto; lia.
  - intros (NI & -> & L); auto.
Qed.

(** ** C04: growth never changes what is there *)

Lemma assign_extends : forall t2i doc t i, dget t2i t = Some i ->
  dget (d_assign t2i (d_missing t2i (count_words doc))) t = Some i.
Proof. intros. apply assign_old; auto. Qed.

Lemma fold_incr_mono : forall (g : nat * nat -> nat) (res : dict nat nat) (m : dict nat nat) i v,
  dget m i = Some v ->
  exists v', dget (fold_left (fun m kf => dset m (fst kf) (dget_or m (fst kf) 0 + g kf)) res m) i = Some v' /\ v <= v'.
Proof.
  induction res as [|kf res IH]; intros m i v E; cbn [fold_left]; [eauto|].
  destruct (eq_dec (fst kf) i) as [Ei|NE].
  - destruct (IH (dset m (fst kf) (dget_or m (fst kf) 0 + g kf)) i (dget_or m (fst kf) 0 + g kf)) as (v' & E' & L).
    + rewrite Ei. apply dget_dset_same.
    + exists v'; split; auto. rewrite Ei in L. unfold dget_or in L. rewrite E in L. lia.
  - apply IH. rewrite dget_dset_other; auto.
Qed.

Definition extends (d d' : dictionary) : Prop :=
  (forall t i, dget (d_token2id d) t = Some i -> dget (d_token2id d') t = Some i) /\
  (forall i v, dget (d_dfs d) i = Some v -> exists v', dget (d_dfs d') i = Some v' /\ v <= v') /\
  (forall i v, dget (d_cfs d) i = Some v -> exists v', dget (d_cfs d') i = Some v' /\ v <= v').

Lemma extends_refl : forall d, extends d d.
Proof. intros d. split; [|split]; eauto. Qed.

Lemma extends_trans : forall a b c, extends a b -> extends b c -> extends a c.
Proof.
  intros a b c (A1 & A2 & A3) (B1 & B2 & B3). split; [|split].
  - auto.
  - intros i v E. destruct (A2 _ _ E) as (v1 & E1 & L1). destruct (B2 _ _ E1) as (v2 & E2 & L2). exists v2; split; auto; lia.
  - intros i v E. destruct (A3 _ _ E) as (v1 & E1 & L1). destruct (B3 _ _ E1) as (v2 & E2 & L2). exists v2; split; auto; lia.
Qed.

Lemma upd_extends : forall d doc, extends d (upd d doc).
Proof.
  intros d doc. split; [|split].
  - intros t i E. rewrite upd_t2i. apply assign_old; auto.
  - intros i v E. cbn [upd d_doc2bow fst d_dfs]. apply (fold_incr_mono (fun _ => 1)); auto.
  - intros i v E. cbn [upd d_doc2bow fst d_cfs]. apply (fold_incr_mono snd); auto.
Qed.

Lemma run_calls_extends : forall calls d, extends d (run_calls calls d).
Proof.
  induction calls as [|[[doc u] m] calls IH]; intros d; [apply extends_refl|].
  rewrite run_calls_cons. cbn [fst snd].
  eapply extends_trans; [|apply IH]. destruct u; [apply upd_extends | apply extends_refl].
Qed.

Lemma add_documents_extends : forall docs n d d', d_add_documents_from n d docs None = Ok d' -> extends d d'.
Proof.
  induction docs as [|doc docs IH]; intros n d d' E; cbn [d_add_documents_from] in E.
  - inversion E; subst. apply extends_refl.
  - destruct (n mod 10000 =? 0)%N; cbn [rbind] in E; apply IH in E;
      (eapply extends_trans; [apply upd_extends | exact E]).
Qed.

(** ** C05: filter_extremes *)

(** Position of the first occurrence. *)
Fixpoint pos {A} `{EqDec A} (x : A) (l : list A) : nat :=
  match l with [] => 0 | y :: l' => if eq_dec y x then 0 else S (pos x l') end.

Lemma pos_precedes : forall {A} `{EqDec A} (l : list A) a b, NoDup l -> In a l -> In b l ->
  pos a l < pos b l -> precedes l a b.
Proof.
  induction l as [|x l IH]; intros a b ND Ha Hb L; [destruct Ha|].
  simpl in L. inversion ND; subst. destruct (eq_dec x a) as [->|NE].
  - destruct (eq_dec a b); [lia|]. destruct Hb as [->|Hb]; [congruence|].
    apply in_split in Hb. destruct Hb as (l2 & l3 & ->). exists [], l2, l3; reflexivity.
  - destruct (eq_dec x b); [lia|]. destruct Ha as [->|Ha]; [congruence|]. destruct Hb as [->|Hb]; [congruence|].
    destruct (IH a b) as (l1 & l2 & l3 & ->); auto; [lia|]. exists (x :: l1), l2, l3; reflexivity.
Qed.

Lemma precedes_pos : forall {A} `{EqDec A} (l : list A) a b, NoDup l -> precedes l a b -> pos a l < pos b l.
Proof.
  intros A HA l a b ND (l1 & l2 & l3 & ->).
  induction l1 as [|x l1 IH]; simpl in *.
  - destruct (eq_dec a a); [|congruence]. destruct (eq_dec a b); [|lia].
    subst. inversion ND; subst. exfalso; apply H1. rewrite in_app_iff. simpl; auto.
  - inversion ND; subst. specialize (IH H2).
    destruct (eq_dec x a); [subst; exfalso; apply H1; rewrite !in_app_iff; simpl; auto|].
    destruct (eq_dec x b); [subst; exfalso; apply H1; rewrite in_app_iff; simpl; rewrite in_app_iff; simpl; auto|].
    lia.
Qed.

(** The stable sort orders by decreasing key, ties by original position. *)
Definition desc_lt (key : nat -> nat) (l : list nat) (a b : nat) : Prop :=
  key b < key a \/ (key a = key b /\ precedes l a b).

Lemma precedes_cons : forall {A} (x : A) l a b, precedes l a b -> precedes (x :: l) a b.
Proof. intros A x l a b (l1 & l2 & l3 & ->). exists (x :: l1), l2, l3; reflexivity. Qed.

Lemma precedes_head : forall {A} (x : A) l b, In b l -> precedes (x :: l) x b.
Proof. intros A x l b HI. apply in_split in HI. destruct HI as (l2 & l3 & ->). exists [], l2, l3; reflexivity. Qed.

Lemma sort_desc_sorted : forall key l, StronglySorted (desc_lt key l) (sort_desc key l).
Proof.
  intros key l. unfold sort_desc. induction l as [|x l IH]; [constructor|].
  cbn [isort].
  assert (IH' : StronglySorted (desc_lt key (x :: l)) (isort (fun a b => key b <=? key a) l)).
  { clear - IH. induction IH; constructor; auto. eapply Forall_impl; [|exact H].
    intros b [L|[E P]]; [left; auto | right; split; auto; apply precedes_cons; auto]. }
  assert (INC : incl (isort (fun a b => key b <=? key a) l) l) by (intros y Hy; eapply In_isort; exact Hy).
  revert IH' INC. generalize (isort (fun a b => key b <=? key a) l) as s. clear IH.
  induction s as [|y s IHs]; intros S INC; cbn [insert]; [repeat constructor|].
  inversion S; subst. destruct (key y <=? key x) eqn:E.
  - constructor; [assumption|]. constructor.
    + apply Nat.leb_le in E. destruct (Nat.eq_dec (key x) (key y)) as [E'|NE].
      * right; split; auto. apply precedes_head. apply INC; simpl; auto.
      * left; lia.
    + apply Forall_forall. intros z Hz. rewrite Forall_forall in H2. specialize (H2 z Hz).
      apply Nat.leb_le in E.
      destruct (Nat.eq_dec (key x) (key z)) as [E'|NE].
      * right; split; auto. apply precedes_head. apply INC; simpl; auto.
      * left. destruct H2 as [L|[E2 _]]; lia.
  - constructor.
    + apply IHs; auto. intros z Hz; apply INC; simpl; auto.
    + apply Forall_forall. intros z Hz.
      apply Permutation_in with (l' := x :: s) in Hz; [|apply Permutation_sym, Permutation_insert].
      destruct Hz as [<-|Hz]; [left; lia|]. rewrite Forall_forall in H2; auto.
Qed.

Lemma firstn_dominates : forall key l n a b, In a (firstn n (sort_desc key l)) -> In b l ->
  ~ In b (firstn n (sort_desc key l)) -> desc_lt key l a b.
Proof.
  intros key l n a b Ha Hb NI. pose proof (sort_desc_sorted key l) as S.
  rewrite <- (firstn_skipn n (sort_desc key l)) in S. apply StronglySorted_app_inv in S. destruct S as (_ & _ & S).
  apply S; auto. apply (In_sort_desc key) in Hb. rewrite <- (firstn_skipn n (sort_desc key l)) in Hb.
  apply in_app_iff in Hb. tauto.
Qed.

Lemma precedes_filter : forall {A} (f : A -> bool) l a b, precedes (filter f l) a b -> precedes l a b.
Proof.
  induction l as [|x l IH]; intros a b; simpl.
  - intros (l1 & l2 & l3 & E). destruct l1; discriminate.
  - destruct (f x) eqn:F; intros P.
    + destruct P as ([|y l1] & l2 & l3 & E); simpl in E; inversion E; subst.
      * apply precedes_head. eapply (proj1 (filter_In f b l)). rewrite H1. rewrite in_app_iff; simpl; auto.
      * apply precedes_cons. apply IH. rewrite H1. exists l1, l2, l3; reflexivity.
    + apply precedes_cons; auto.
Qed.

Lemma precedes_vals_keys : forall (m : dict pystr nat) t t' i i', NoDup (dkeys m) -> NoDup (dvals m) ->
  dget m t = Some i -> dget m t' = Some i' -> precedes (dvals m) i i' -> precedes (dkeys m) t t'.
Proof.
  intros m t t' i i' NK NV E E' P.
  assert (G : forall t i, dget m t = Some i -> pos t (dkeys m) = pos i (dvals m)).
  { clear - NV. induction m as [|[k v] m IH]; simpl; intros t i E; [discriminate|].
    inversion NV; subst. destruct (eq_dec k t) as [->|NE].
    - inversion E; subst. destruct (eq_dec i i); congruence.
    - destruct (eq_dec v i) as [->|NE'].
      + exfalso; apply H1. eapply dget_In_vals; eauto.
      + f_equal; auto. }
  apply pos_precedes; auto.
  - apply dget_Some_key; eauto.
  - apply dget_Some_key; eauto.
  - rewrite (G _ _ E), (G _ _ E'). apply precedes_pos; auto.
Qed.

(** The user-visible document frequency of a token. *)
Definition df_of (d : dictionary) (t : pystr) : nat :=
  match dget (d_token2id d) t with Some i => dget_or (d_dfs d) i 0 | None => 0 end.

Lemma fe_keep_iff : forall d kt t i, d_inv d -> dget (d_token2id d) t = Some i ->
  (memb i (fe_keep_ids d kt) = true <-> In t kt).
Proof.
  intros d kt t i I E. rewrite memb_true. unfold fe_keep_ids. rewrite in_flat_map. split.
  - intros [v [HI HI']]. destruct (dget (d_token2id d) v) eqn:Ev; [|destruct HI'].
    destruct HI' as [->|[]]. assert (v = t) by (eapply inv_inj; eauto). congruence.
  - intros HI. exists t. rewrite E. simpl; auto.
Qed.

Lemma count_filter_vals : forall (m : dict pystr nat) (f : nat -> bool) (g : pystr -> bool),
  NoDup (dkeys m) -> (forall t i, dget m t = Some i -> f i = g t) ->
  length (filter f (dvals m)) = length (filter g (dkeys m)).
Proof.
  induction m as [|[k v] m IH]; intros f g ND A; [reflexivity|]. simpl. inversion ND; subst.
  assert (Ev : f v = g k) by (apply A; simpl; destruct (eq_dec k k); congruence).
  rewrite Ev. assert (length (filter f (map snd m)) = length (filter g (map fst m))).
  { apply IH; auto. intros t i E. apply A. simpl. destruct (eq_dec k t); [|auto].
    subst. exfalso; apply H1. apply dget_Some_key; eauto. }
  destruct (g k); simpl; auto.
Qed.

Lemma py_prefix_length : forall {A} k (l : list A),
  Z.of_nat (length (py_prefix k l)) =
  if (k <? 0)%Z then Z.max 0 (Z.of_nat (length l) + k) else Z.min k (Z.of_nat (length l)).
Proof. intros. unfold py_prefix. destruct (k <? 0)%Z eqn:E; rewrite firstn_length; lia. Qed.

Lemma filter_memb_perm : forall (l s : list nat), NoDup l -> NoDup s -> incl s l ->
  length (filter (fun i => memb i s) l) = length s.
Proof.
  intros l s NL NS INC. apply Permutation_length. apply NoDup_Permutation; auto.
  - apply NoDup_filter; auto.
  - intros x. rewrite filter_In, memb_true. split; [tauto | auto].
Qed.

Definition in_range (no_below : Z) (no_above : Q) (num_docs df : nat) : Prop :=
  (no_below <= Z.of_nat df)%Z /\
  (Z.of_nat df <= Z.quot (Qnum no_above * Z.of_nat num_docs) (Zpos (Qden no_above)))%Z.

Definition in_rangeb (no_below : Z) (no_above : Q) (num_docs df : nat) : bool :=
  (no_below <=? Z.of_nat df)%Z &&
  (Z.of_nat df <=? Z.quot (Qnum no_above * Z.of_nat num_docs) (Zpos (Qden no_above)))%Z.

Lemma filter_extremes_spec : forall d nb na kn kt, d_inv d ->
  exists d', d_filter_extremes d nb na kn kt = Ok d' /\ d_inv d' /\
    let known x t := exists i, dget (d_token2id x) t = Some i in
    let cand t := known d t /\ (in_range nb na (d_num_docs d) (df_of d t) \/ In t kt) in
    let ncand := length (filter (fun t => in_rangeb nb na (d_num_docs d) (df_of d t)
                                          || if in_dec eq_dec t kt then true else false)
                                (dkeys (d_token2id d))) in
    let key t := if in_dec eq_dec t kt then d_num_docs d else df_of d t in
    (forall t, known d' t -> cand t) /\
    (kn = None -> forall t, cand t -> known d' t) /\
    (forall k, kn = Some k ->
       Z.of_nat (d_len d') = if (k <? 0)%Z then Z.max 0 (Z.of_nat ncand + k) else Z.min k (Z.of_nat ncand)) /\
    (forall s c, known d' s -> cand c -> ~ known d' c ->
       key c < key s \/ key c = key s /\ precedes (dkeys (d_token2id d)) s c) /\
    (forall t i', dget (d_token2id d') t = Some i' ->
       exists i, dget (d_token2id d) t = Some i /\
         dget (d_dfs d') i' = dget (d_dfs d) i /\ dget (d_cfs d') i' = dget (d_cfs d) i) /\
    (forall t t' i1 i2 j1 j2, dget (d_token2id d) t = Some i1 -> dget (d_token2id d) t' = Some i2 ->
       dget (d_token2id d') t = Some j1 -> dget (d_token2id d') t' = Some j2 -> (i1 < i2 <-> j1 < j2)) /\
    d_num_docs d' = d_num_docs d /\ d_num_pos d' = d_num_pos d /\ d_num_nnz d' = d_num_nnz d.
Proof.
  intros d nb na kn kt I.
  destruct (filter_extremes_eq d nb na kn kt I) as (d1 & I1 & F1 & F2 & F3 & F4 & F5 & F6 & E).
  destruct (filter_tokens_spec d1 None (Some (fe_good d nb na kn kt)) (inv_weak _ I1))
    as (d' & E' & I' & T & ST & N1 & N2 & N3 & LEN).
  rewrite F1, F2, F3, F4, F5, F6 in *.
  exists d'. split; [congruence|]. split; [exact I'|].
  assert (KE : forall i, kept None (Some (fe_good d nb na kn kt)) i = memb i (fe_good d nb na kn kt)) by reflexivity.
  assert (CAND : forall t i, dget (d_token2id d) t = Some i ->
    (In i (fe_cand d nb na kt) <-> (in_range nb na (d_num_docs d) (df_of d t) \/ In t kt))).
  { intros t i Et. unfold fe_cand. rewrite filter_In. unfold d_keys.
    assert (In i (dvals (d_token2id d))) by (eapply dget_In_vals; eauto).
    rewrite orb_true_iff, (fe_keep_iff d kt t i I Et). unfold fe_in_range, in_range, df_of, no_above_abs. rewrite Et.
    rewrite andb_true_iff, !Z.leb_le. tauto. }
  assert (KNOWN : forall t, (exists i', dget (d_token2id d') t = Some i') <->
     exists i, dget (d_token2id d) t = Some i /\ In i (fe_good d nb na kn kt)).
  { intros t. rewrite T. destruct (dget (d_token2id d) t) as [i|] eqn:Et.
    - rewrite KE. destruct (memb i (fe_good d nb na kn kt)) eqn:M.
      + apply memb_true in M. split; eauto.
      + apply memb_false in M. split; [intros [j Ej]; discriminate|].
        intros [j [Ej Hj]]; inversion Ej; subst; tauto.
    - split; [intros [j Ej]; discriminate | intros [j [Ej Hj]]; discriminate]. }
  assert (NDC : NoDup (fe_cand d nb na kt)) by (apply NoDup_filter, (inv_vals_nd _ I)).
  assert (KEY : forall t i, dget (d_token2id d) t = Some i ->
     fe_key d kt i = if in_dec eq_dec t kt then d_num_docs d else df_of d t).
  { intros t i Et. unfold fe_key. pose proof (fe_keep_iff d kt t i I Et) as K.
    unfold df_of. rewrite Et. destruct (memb i (fe_keep_ids d kt)), (in_dec eq_dec t kt); try reflexivity.
    - exfalso. apply n, K; reflexivity.
    - exfalso. assert (false = true) by (apply K; auto). discriminate. }
  cbv zeta. split; [|split; [|split; [|split; [|split; [|split; [|auto]]]]]].
  - intros t HK. apply KNOWN in HK. destruct HK as [i [Et HI]]. split; [eauto|].
    apply CAND with (i := i); auto. eapply In_fe_good; eauto.
  - intros -> t [[i Et] C]. apply KNOWN. exists i. split; auto. unfold fe_good. apply In_sort_desc. apply (CAND t i Et); auto.
  - intros k ->. rewrite LEN.
    assert (L1 : length (filter (kept None (Some (fe_good d nb na (Some k) kt))) (dvals (d_token2id d))) =
                 length (fe_good d nb na (Some k) kt)).
    { apply filter_memb_perm.
      - apply inv_vals_nd; auto.
      - unfold fe_good. destruct (py_prefix_firstn k (sort_desc (fe_key d kt) (fe_cand d nb na kt))) as [n ->].
        apply NoDup_firstn. eapply Permutation_NoDup; [apply Permutation_isort | auto].
      - intros i HI. apply In_fe_good in HI. unfold fe_cand in HI. apply filter_In in HI. tauto. }
    rewrite L1. unfold fe_good. rewrite py_prefix_length. unfold sort_desc. rewrite length_isort.
    unfold fe_cand, d_keys.
    rewrite (count_filter_vals (d_token2id d) _ (fun t => in_rangeb nb na (d_num_docs d) (df_of d t)
                                          || if in_dec eq_dec t kt then true else false)); [reflexivity | apply i_keys; auto|].
    intros t i Et. unfold fe_in_range, in_rangeb, df_of, no_above_abs. rewrite Et. f_equal.
    pose proof (fe_keep_iff d kt t i I Et) as K. destruct (memb i (fe_keep_ids d kt)), (in_dec eq_dec t kt); auto.
    + exfalso. apply n, K; reflexivity.
    + apply K; auto.
  - intros s c Ks [Kc Cc] Nc. apply KNOWN in Ks. destruct Ks as [i [Es Hs]]. destruct Kc as [j Ej].
    assert (Hc : In j (fe_cand d nb na kt)) by (apply (CAND c j Ej); auto).
    assert (Hn : ~ In j (fe_good d nb na kn kt)) by (intros HI; apply Nc; apply KNOWN; eauto).
    rewrite <- (KEY c j Ej), <- (KEY s i Es).
    assert (D : desc_lt (fe_key d kt) (fe_cand d nb na kt) i j).
    { unfold fe_good in Hs, Hn. destruct kn as [k|].
      - destruct (py_prefix_firstn k (sort_desc (fe_key d kt) (fe_cand d nb na kt))) as [n En]. rewrite En in Hs, Hn.
        eapply firstn_dominates; eauto.
      - exfalso. apply Hn. apply In_sort_desc; auto. }
    destruct D as [L|[Ek P]]; [left; auto|]. right; split; auto.
    eapply precedes_vals_keys; eauto; [apply i_keys; auto | apply inv_vals_nd; auto|].
    eapply precedes_filter; exact P.
  - intros t i' Et'. pose proof (T t) as Tt. rewrite Et' in Tt.
    destruct (dget (d_token2id d) t) as [i|] eqn:Et; [|discriminate].
    destruct (kept None (Some (fe_good d nb na kn kt)) i) eqn:K; [|discriminate].
    inversion Tt; subst. exists i; split; auto. eapply ST; eauto.
  - intros t t' i1 i2 j1 j2 E1 E2 E3 E4. rewrite T, E1 in E3. rewrite T, E2 in E4.
    destruct (kept _ _ i1) eqn:K1; [|discriminate]. destruct (kept _ _ i2) eqn:K2; [|discriminate].
    inversion E3; inversion E4; subst.
    assert (M1 : In i1 (filter (kept None (Some (fe_good d nb na kn kt))) (dvals (d_token2id d))))
      by (apply filter_In; split; auto; eapply dget_In_vals; eauto).
    assert (M2 : In i2 (filter (kept None (Some (fe_good d nb na kn kt))) (dvals (d_token2id d))))
      by (apply filter_In; split; auto; eapply dget_In_vals; eauto).
    split; intros L; [apply rank_lt; auto|].
    destruct (Nat.lt_trichotomy i1 i2) as [|[->|L']]; auto; [lia|].
    pose proof (rank_lt _ i2 i1 M2 L'). lia.
Qed.
